(* Ideal variants: the type held and its value, possibly moved from. *)
From Coq Require Import NArith Arith List Bool.
From Verif Require Import Base Tagged VariModel.
Import ListNotations.

Section S.
  Context {A : Type}.
  Variable ts : list nat.
  Record content := mkc { typ : nat; val : option A }.       (* None: moved from *)
  Definition store := list (option content).
  Definition look (w : store) (k : nat) : option content := match nth_error w k with Some x => x | None => None end.
  Definition put (w : store) (k : nat) (c : content) : store := lset w k (Some c).
  Definition ret (w : store) (r : res A) : option (store * res A) := Some (w, r).
  Definition alt (T : nat) : bool := existsb (Nat.eqb T) ts.

  (* the value of an argument of type T and the store after it was moved from *)
  Definition take (w : store) (T : nat) (a : arg A) : option (A * store) :=
    match a with
    | AVal v => Some (v, w)
    | AGet j mv => match look w j with
                   | Some (mkc U (Some v)) => if (U =? T)%nat then Some (v, if mv then put w j (mkc U None) else w) else None
                   | _ => None end
    end.
  (* None: not allowed, a contract violation, or the program does not compile *)
  Definition ideal (w : store) (o : op A) : option (store * res A) :=
    match o with
    | New v => match ts with T :: _ => ret (w ++ [Some (mkc T (Some v))]) RUnit | [] => None end
    | NewFrom T a => if alt (decay T) then match take w (decay T) a with
                       | Some (v, w) => ret (w ++ [Some (mkc (decay T) (Some v))]) RUnit | None => None end else None
    | NewVariant j mv => match look w j with
                         | Some (mkc T (Some v)) => ret ((if mv then put w j (mkc T None) else w) ++ [Some (mkc T (Some v))]) RUnit
                         | _ => None end
    | Emplace k T a =>
        if alt T then match look w k, take w T a with
          | Some _, Some (v, w) => ret (put w k (mkc T (Some v))) RUnit | _, _ => None end else None
    | AssignFrom k T a =>
        if alt (decay T) then match look w k, take w (decay T) a with
          | Some _, Some (v, w) => ret (put w k (mkc (decay T) (Some v))) RUnit | _, _ => None end else None
    | AssignVariant k j mv =>
        match look w k, look w j with
        | Some _, Some (mkc T (Some v)) =>
            if (k =? j)%nat then ret (if mv then put w k (mkc T None) else w) RUnit
            else ret (put (if mv then put w j (mkc T None) else w) k (mkc T (Some v))) RUnit
        | _, _ => None end
    | Destroy k => match look w k with Some _ => ret (lset w k None) RUnit | None => None end
    | Is k T => match look w k with Some c => ret w (RB (typ c =? T)%nat) | None => None end
    | Get k T => match look w k with Some (mkc U (Some v)) => if (U =? T)%nat then ret w (RVal v) else None | _ => None end
    | GetOr k T d => if alt T then match look w k with
                       | Some (mkc U (Some v)) => ret w (RVal (if (U =? T)%nat then v else d))
                       | Some (mkc U None) => if (U =? T)%nat then None else ret w (RVal d)
                       | None => None end else None
    | Visit k => match look w k with Some (mkc U (Some v)) => ret w (RVisit U v) | _ => None end
    end.
  Fixpoint ideal_run (w : store) (os : list (op A)) : option (store * list (res A)) :=
    match os with
    | [] => Some (w, [])
    | o :: os => match ideal w o with
                 | Some (w, r) => match ideal_run w os with Some (w, rs) => Some (w, r :: rs) | None => None end
                 | None => None end
    end.

  (* The operations on which the code does what it should: construction from lvalues (and const rvalues) only
     if the type is the last alternative, no assignment of a variant to itself or from its own value, and
     is<T> only for alternatives. *)
  Definition last_first (T : nat) : bool :=        (* T is the last alternative and no other one *)
    match pos_of ts T with Some p => (S p =? length ts)%nat | None => false end.
  Definition separate (k : nat) (a : arg A) : bool := match a with AVal _ => true | AGet j _ => negb (k =? j)%nat end.
  Definition supported (o : op A) : bool :=
    match o with
    | NewFrom T a => match snd T with RV => true | _ => last_first (decay T) end
    | Emplace k _ a | AssignFrom k _ a => separate k a
    | AssignVariant k j _ => negb (k =? j)%nat
    | Is _ T => alt T
    | _ => true
    end.
  (* storage holds an object of the type held, and the index is its position *)
  Definition position (T : nat) : nat := match pos_of ts T with Some p => p | None => 0 end.
  Definition shape (c : content) : variant A :=
    mkv (N.of_nat (position (typ c)))
        (match val c with Some v => TObj (position (typ c)) v | None => THusk (position (typ c)) end).
End S.
Arguments content : clear implicits. Arguments store : clear implicits.

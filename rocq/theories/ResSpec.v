(* Ideal results: a value or an error, possibly moved from. *)
From Coq Require Import Arith List Bool.
From Verif Require Import Base Tagged ResModel.
Import ListNotations.

Section S.
  Context {A : Type}.
  Variable (eqA : A -> A -> bool) (e0 : A).
  Inductive content := V (v : A) | E (e : A) | Hollow (isv : bool).
  Definition store := list (option content).
  Definition look (w : store) (k : nat) : option content := match nth_error w k with Some x => x | None => None end.
  Definition put (w : store) (k : nat) (c : content) : store := lset w k (Some c).
  Definition readable (c : content) : bool := match c with Hollow _ => false | _ => true end.
  Definition has_value (c : content) : bool := match c with V _ => true | E _ => false | Hollow b => b end.
  Definition ret (w : store) (r : res A) : option (store * res A) := Some (w, r).
  Definition is (a : content) (d : A) (b : bool) : bool :=
    match a with V v => b && eqA v d | E e => negb b && eqA e d | Hollow _ => false end.

  (* None: not allowed, or a contract violation *)
  Definition ideal (w : store) (o : op A) : option (store * res A) :=
    match o with
    | New => ret (w ++ [Some (E e0)]) RUnit
    | NewValue v => ret (w ++ [Some (V v)]) RUnit
    | NewError e => ret (w ++ [Some (E e)]) RUnit
    | NewCopy j => match look w j with Some c => if readable c then ret (w ++ [Some c]) RUnit else None | None => None end
    | NewMove j => match look w j with
                   | Some c => if readable c then ret (put w j (Hollow (has_value c)) ++ [Some c]) RUnit else None
                   | None => None end
    | CopyAssign k j =>
        match look w k, look w j with
        | Some _, Some c => if k =? j then ret w RUnit
                            else if readable c then ret (put w k c) RUnit else None
        | _, _ => None end
    | MoveAssign k j =>
        match look w k, look w j with
        | Some _, Some c => if readable c then
                              if k =? j then ret (put w k (Hollow (has_value c))) RUnit
                              else ret (put (put w k c) j (Hollow (has_value c))) RUnit
                            else None
        | _, _ => None end
    | Destroy k => match look w k with Some _ => ret (lset w k None) RUnit | None => None end
    | IsValue k => match look w k with Some c => ret w (RB (has_value c)) | None => None end
    | IsError k => match look w k with Some c => ret w (RB (negb (has_value c))) | None => None end
    | Value k => match look w k with Some (V v) => ret w (RV v) | _ => None end
    | Error k => match look w k with Some (E e) => ret w (RV e) | _ => None end
    | ValueOr k d => match look w k with Some (V v) => ret w (RV v) | Some (E _) => ret w (RV d) | _ => None end
    | IsValueV k v => match look w k with Some c => if readable c then ret w (RB (is c v true)) else None | None => None end
    | IsErrorE k e => match look w k with Some c => if readable c then ret w (RB (is c e false)) else None | None => None end
    end.
  Fixpoint ideal_run (w : store) (os : list (op A)) : option (store * list (res A)) :=
    match os with
    | [] => Some (w, [])
    | o :: os => match ideal w o with
                 | Some (w, r) => match ideal_run w os with Some (w, rs) => Some (w, r :: rs) | None => None end
                 | None => None end
    end.
  Definition unaliased (o : op A) : bool := match o with MoveAssign k j => negb (k =? j) | _ => true end.
  (* exactly one object is in storage, of the kind is_value says *)
  Definition shape (c : content) : result A :=
    match c with
    | V v => mkr true (TObj 1 v)
    | E e => mkr false (TObj 0 e)
    | Hollow b => mkr b (THusk (if b then 1 else 0))
    end.
End S.
Arguments content : clear implicits. Arguments store : clear implicits.

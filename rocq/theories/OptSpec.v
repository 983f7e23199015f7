(* Ideal optionals: nothing, a value, or a value that has been moved from. *)
From Coq Require Import Arith List Bool.
From Verif Require Import Base Tagged OptModel.
Import ListNotations.

Section S.
  Context {A : Type}.
  Variables (eqA ltA : A -> A -> bool).
  Inductive content := Empty | Full (v : A) | Hollow.
  Definition store := list (option content).    (* None: lifetime over *)

  Definition look (w : store) (k : nat) : option content := match nth_error w k with Some x => x | None => None end.
  Definition put (w : store) (k : nat) (c : content) : store := lset w k (Some c).
  (* what can be copied or moved: not a moved-from value *)
  Definition readable (c : content) : bool := match c with Hollow => false | _ => true end.
  Definition arg (w : store) (s : src A) : option A :=
    match s with Ext v => Some v | Own j => match look w j with Some (Full v) => Some v | _ => None end end.
  Definition ret (w : store) (r : res A) : option (store * res A) := Some (w, r).

  (* None: not allowed (or a contract violation) *)
  Definition ideal (w : store) (o : op A) : option (store * res A) :=
    match o with
    | New => ret (w ++ [Some Empty]) RUnit
    | NewValue s => match arg w s with Some v => ret (w ++ [Some (Full v)]) RUnit | None => None end
    | NewCopy j => match look w j with Some c => if readable c then ret (w ++ [Some c]) RUnit else None | None => None end
    | NewMove j => match look w j with
                   | Some c => if readable c then ret (put w j Empty ++ [Some c]) RUnit else None | None => None end
    | NewMap j f => match look w j with
                    | Some Empty => ret (w ++ [Some Empty]) RUnit
                    | Some (Full v) => ret (w ++ [Some (Full (f v))]) RUnit
                    | _ => None end
    | SetNull k => match look w k with Some _ => ret (put w k Empty) RUnit | None => None end
    | MoveAssign k j =>
        match look w k, look w j with
        | Some _, Some c => if k =? j then ret (put w k Empty) RUnit   (* a moved-from optional is empty *)
                            else if readable c then ret (put (put w k c) j Empty) RUnit else None
        | _, _ => None end
    | CopyAssign k j =>
        match look w k, look w j with
        | Some _, Some c => if k =? j then ret w RUnit                 (* nothing changes *)
                            else if readable c then ret (put w k c) RUnit else None
        | _, _ => None end
    | AssignT k s | Emplace k s =>
        match look w k, arg w s with Some _, Some v => ret (put w k (Full v)) RUnit | _, _ => None end
    | Destroy k => match look w k with Some _ => ret (lset w k None) RUnit | None => None end
    | Transform k f => match look w k with
                       | Some Empty => ret w RUnit | Some (Full v) => ret (put w k (Full (f v))) RUnit | _ => None end
    | MoveValue k => match look w k with Some (Full v) => ret (put w k Hollow) (RV v) | _ => None end
    | MoveValueOr k d => match look w k with
                         | Some (Full v) => ret (put w k Hollow) (RV v) | Some Empty => ret w (RV d) | _ => None end
    | HasValue k => match look w k with
                    | Some Empty => ret w (RB false) | Some _ => ret w (RB true) | None => None end
    | Value k => match look w k with Some (Full v) => ret w (RV v) | _ => None end
    | ValueOr k d => match look w k with
                     | Some (Full v) => ret w (RV v) | Some Empty => ret w (RV d) | _ => None end
    | Equal k j => match look w k, look w j with
                   | Some (Full x), Some (Full y) => ret w (RB (eqA x y))
                   | Some Empty, Some Empty => ret w (RB true)
                   | Some Empty, Some (Full _) | Some (Full _), Some Empty => ret w (RB false)
                   | _, _ => None end
    | NotEqual k j => match look w k, look w j with
                   | Some (Full x), Some (Full y) => ret w (RB (negb (eqA x y)))
                   | Some Empty, Some Empty => ret w (RB false)
                   | Some Empty, Some (Full _) | Some (Full _), Some Empty => ret w (RB true)
                   | _, _ => None end
    | EqualValue k v => match look w k with
                   | Some (Full x) => ret w (RB (eqA x v)) | Some Empty => ret w (RB false) | _ => None end
    | Less k j => match look w k, look w j with             (* nothing is smaller than every value *)
                   | Some (Full x), Some (Full y) => ret w (RB (ltA x y))
                   | Some Empty, Some (Full _) => ret w (RB true)
                   | Some Empty, Some Empty | Some (Full _), Some Empty => ret w (RB false)
                   | _, _ => None end
    end.
  Fixpoint ideal_run (w : store) (os : list (op A)) : option (store * list (res A)) :=
    match os with
    | [] => Some (w, [])
    | o :: os => match ideal w o with
                 | Some (w, r) => match ideal_run w os with Some (w, rs) => Some (w, r :: rs) | None => None end
                 | None => None end
    end.

  (* operations whose operands do not alias in a way the code cannot handle *)
  Definition unaliased (o : op A) : bool :=
    match o with
    | CopyAssign k j => negb (k =? j)
    | Emplace k (Own j) => negb (k =? j)
    | _ => true
    end.

  (* what the storage looks like: an object exists exactly if the optional says so *)
  Definition shape (c : content) : opt A :=
    match c with Empty => mko false TRaw | Full v => mko true (TObj 0 v) | Hollow => mko true (THusk 0) end.
End S.
Arguments content : clear implicits. Arguments store : clear implicits.

(* Ideal boxes: a payload of some dynamic type, or moved from. *)
From Coq Require Import Arith List Bool.
From Verif Require Import Base Tagged CBoxModel.
Import ListNotations.

Section S.
  Context {A : Type}.
  Inductive content := Full (t : nat) (v : A) | Hollow (t : nat).
  Definition store := list (option content).
  Definition look (w : store) (k : nat) : option content := match nth_error w k with Some x => x | None => None end.
  Definition put (w : store) (k : nat) (c : content) : store := lset w k (Some c).
  Definition ret (w : store) (r : res A) : option (store * res A) := Some (w, r).
  (* None: not allowed (moving from or reading a moved-from box, moving a box to itself) *)
  Definition ideal (w : store) (o : op A) : option (store * res A) :=
    match o with
    | NewVal t v | Make t v => ret (w ++ [Some (Full t v)]) RUnit
    | AssignVal k t v | Emplace k t v => match look w k with Some _ => ret (put w k (Full t v)) RUnit | None => None end
    | NewMove j => match look w j with Some (Full t v) => ret (put w j (Hollow t) ++ [Some (Full t v)]) RUnit | _ => None end
    | MoveAssign k j =>
        match look w k, look w j with
        | Some _, Some (Full t v) => if k =? j then None else ret (put (put w j (Hollow t)) k (Full t v)) RUnit
        | _, _ => None end
    | Destroy k => match look w k with Some _ => ret (lset w k None) RUnit | None => None end
    | Get k => match look w k with Some (Full t v) => ret w (RVal t v) | _ => None end
    end.
  Fixpoint ideal_run (w : store) (os : list (op A)) : option (store * list (res A)) :=
    match os with
    | [] => Some (w, [])
    | o :: os => match ideal w o with
                 | Some (w, r) => match ideal_run w os with Some (w, rs) => Some (w, r :: rs) | None => None end
                 | None => None end
    end.
  (* which moves work: with a move constructor only move assignment, with memcpy only move construction *)
  Definition supported (hm : bool) (o : op A) : bool :=
    match o with NewMove _ => negb hm | MoveAssign _ _ => hm | _ => true end.
  (* a moved-from box still has the moved-from payload to destroy, except that memcpy leaves none *)
  Definition shape (hm : bool) (c : content) : box A :=
    match c with
    | Full t v => mkb (TObj t v) (Some t) (if hm then Some t else None)
    | Hollow t => if hm then mkb (THusk t) (Some t) None else mkb TRaw None None
    end.
End S.
Arguments content : clear implicits. Arguments store : clear implicits.

(* Ideal ownership: every object is at exactly one place. *)
From Coq Require Import Arith List Bool.
From Verif Require Import PolyModel.
Import ListNotations.

(* in variable v, in the hands of the program (released, or never owned), or destroyed *)
Inductive place := Var (v : nat) | Loose | Gone.
Definition at_var (v : nat) (p : place) : bool := match p with Var u => u =? v | _ => false end.
Record ideal := mki { iv : list (option nat); cls : list nat; pl : nat -> place; iraws : list (nat * option nat) }.
Definition empty_ideal : ideal := mki [] [] (fun _ => Gone) [].
Definition static (i : ideal) (v : nat) : option nat := match nth_error (iv i) v with Some x => x | None => None end.
Definition held (i : ideal) (v : nat) : option nat := find (fun o => at_var v (pl i o)) (seq 0 (length (cls i))).
(* everything in variable v goes to q; object o goes to q *)
Definition move_all (v : nat) (q : place) (i : ideal) : ideal := mki (iv i) (cls i) (fun o => if at_var v (pl i o) then q else pl i o) (iraws i).
Definition move_one (o : nat) (q : place) (i : ideal) : ideal := mki (iv i) (cls i) (fun o' => if o' =? o then q else pl i o') (iraws i).
Definition new_var (T : nat) (i : ideal) : ideal := mki (iv i ++ [Some T]) (cls i) (pl i) (iraws i).
Definition end_var (v : nat) (i : ideal) : ideal := mki (firstn v (iv i) ++ None :: skipn (S v) (iv i)) (cls i) (pl i) (iraws i).
Definition new_obj (D : nat) (i : ideal) : ideal := move_one (length (cls i)) Loose (mki (iv i) (cls i ++ [D]) (pl i) (iraws i)).
Definition new_raw (r : nat * option nat) (i : ideal) : ideal := mki (iv i) (cls i) (pl i) (iraws i ++ [r]).
Definition is_none {A} (x : option A) : bool := match x with None => true | _ => false end.

(* base T U: std::is_base_of_v<T, U>.
   None: the program does not compile, uses a variable that does not exist, or gives reset a pointer to an object that is not
   its own *)
Definition istep (base : nat -> nat -> bool) (i : ideal) (o : op) : option (ideal * bool) :=
  match o with
  | New T => Some (new_var T i, true)
  | Make T => Some (move_one (length (cls i)) (Var (length (iv i))) (new_obj T (new_var T i)), true)
  | Convert T v => match static i v with Some U => if base T U then Some (move_all v (Var (length (iv i))) (new_var T i), true) else None | None => None end
  | Assign v u =>
      match static i v, static i u with
      | Some T, Some U => if base T U then Some (if v =? u then move_all v Gone i else move_all u (Var v) (move_all v Gone i), true) else None
      | _, _ => None
      end
  | Reset v => match static i v with Some _ => Some (move_all v Gone i, true) | None => None end
  | ResetTo v k =>
      match static i v, nth_error (iraws i) k with
      | Some _, Some (_, None) => Some (move_all v Gone i, true)
      | Some T, Some (U, Some o) => match base T U, pl i o with true, Loose => Some (move_one o (Var v) (move_all v Gone i), true) | _, _ => None end
      | _, _ => None
      end
  | Release v => match static i v with Some T => Some (new_raw (T, held i v) (move_all v Loose i), true) | None => None end
  | Get v => match static i v with Some T => Some (new_raw (T, held i v) i, true) | None => None end
  | NewRaw D => Some (new_raw (D, Some (length (cls i))) (new_obj D i), true)
  | Destroy v => match static i v with Some _ => Some (end_var v (move_all v Gone i), true) | None => None end
  | NotNull v => match static i v with Some _ => Some (i, negb (is_none (held i v))) | None => None end
  end.
Fixpoint irun (base : nat -> nat -> bool) (i : ideal) (os : list op) : option (ideal * list bool) :=
  match os with
  | [] => Some (i, [])
  | o :: os =>
      match istep base i o with
      | None => None
      | Some (i, r) => match irun base i os with None => None | Some (i, rs) => Some (i, r :: rs) end
      end
  end.
(* is_base_of: reflexive on classes, transitive *)
Definition hierarchy (base : nat -> nat -> bool) : Prop :=
  (forall T, base T T = true) /\ forall T U D, base T U = true -> base U D = true -> base T D = true.

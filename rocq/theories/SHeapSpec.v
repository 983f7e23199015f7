(* What strings over a heap owe their clients: the ideal characters of SboSpec.v, views of other strings read as the
   characters they denote, and a heap whose blocks each belong to exactly one string. *)
From Coq Require Import NArith Arith List Bool.
From Verif Require Import Base SboModel SboSpec SHeapModel.
Import ListNotations.
Open Scope N_scope.

(* n characters of l from o on *)
Definition piece (o n : N) (l : list N) : list N := firstn (N.to_nat n) (skipn (N.to_nat o) l).
Definition viewed (w : list istr) (j : nat) (o n : N) (f : list N -> option (list istr * res)) : option (list istr * res) :=
  from w j (fun l _ => if o + n <=? len l then f (piece o n l) else None).
Definition ihstep (w : list istr) (o : hop) : option (list istr * res) :=
  match o with
  | HW o => iwstep w o
  | AppendView k j o n => viewed w j o n (fun l => iwstep w (On k (Append l)))
  | ReplaceView k pos cnt j o n => (* own characters are C79 *)
      if (k =? j)%nat then None else viewed w j o n (fun l => iwstep w (On k (Replace pos cnt l)))
  | AssignView k j o n =>
      if ilive w k then viewed w j o n (fun l => guard (ok_size (len l)) (iset w k (Val l true), RUnit)) else None
  end.
Fixpoint ihrun (w : list istr) (os : list hop) : option (list istr * list res) :=
  match os with
  | [] => Some (w, [])
  | o :: os =>
      match ihstep w o with
      | Some (w, r) => match ihrun w os with Some (w, rs) => Some (w, r :: rs) | None => None end
      | None => None
      end
  end.

(* block b belongs to string k; every block that is not freed belongs to exactly one string, no string has a freed one *)
Definition owns (hs : list (option hstr)) (k b : nat) : Prop := exists s, nth_error hs k = Some (Some s) /\ hp s = PBlk b.
Definition live (h : heap) (b : nat) : Prop := exists x, nth_error h b = Some (Some x).
Definition exclusive (w : hworld) : Prop :=
  (forall k b, owns (snd w) k b -> live (fst w) b) /\
  (forall b, live (fst w) b -> exists k, owns (snd w) k b) /\
  (forall k j b, owns (snd w) k b -> owns (snd w) j b -> k = j).
(* the string at k shows the ideal string: its characters are at _data, followed by room up to the capacity *)
Definition hagrees (sc : N) (h : heap) (x : option hstr) (i : istr) : Prop :=
  match i with
  | Dead => x = None
  | Moved => x <> None
  | Val l t => exists s b c, x = Some s /\ hsz s = len l /\ hcap sc s = Ok c /\ len l <= c /\ hbuf h s = Ok b /\
      N.of_nat (length b) = c + 1 /\ firstn (length l) b = map Some l /\ (t = true -> nth_error b (length l) = Some (Some 0))
  end.

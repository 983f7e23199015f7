(* What users of the range algorithms see. *)
From Coq Require Import Arith List Bool.
From Verif Require Import Base AlgoModel.
Import ListNotations.

(* the range lies in an array of n objects; null ranges are empty *)
Definition in_array (n : nat) (r : range) : Prop :=
  match rdata r with Some p => p + rsize r <= n | None => rsize r = 0 end.
Definition offset (r : range) : nat := match rdata r with Some p => p | None => 0 end.
Definition elements {A} (m : list A) (r : range) : list A := firstn (rsize r) (skipn (offset r) m).
(* m with the elements from p on replaced by l *)
Definition replaced {A} (m : list A) (p : nat) (l : list A) : list A := firstn p m ++ l ++ skipn (p + length l) m.
(* writing forwards never overwrites elements that are still to be read *)
Definition no_overrun (from to : range) : Prop := offset to <= offset from \/ offset from + rsize from <= offset to.

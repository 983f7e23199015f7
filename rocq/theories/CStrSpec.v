(* What temporary c strings have to be. *)
From Coq Require Import NArith List.
From Verif Require Import Base AArrModel.
Import ListNotations.
Open Scope N_scope.

(* the characters a c string function sees of s followed by zero *)
Fixpoint upto0 (s : list N) : list N := match s with [] => [] | c :: s => if c =? 0 then [] else c :: upto0 s end.
(* s and a zero are stored at b, o *)
Definition stored (b : nat) (o : N) (s : list N) (h : heap) : Prop :=
  exists k, blk h b = Some k /\ o + N.of_nat (length s) + 1 <= bsize k /\
    forall i, (i <= length s)%nat -> byte k (o + N.of_nat i) = Some (nth i s 0).
(* allocators that return addresses suitable for the count in front of arrays *)
Definition suitable (place : policy) : Prop := forall h size align, 0 < align -> place h size align mod align = 0 /\ place h size align mod 8 = 0.

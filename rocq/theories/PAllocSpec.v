(* Executions of cc::alloc / cc::free. *)
From Coq Require Import NArith List Arith.
From Verif Require Import Base PAllocModel.
Import ListNotations.

(* the history os leads from w to w', and P holds of all states on the way *)
Fixpoint always (bs cls : nat -> nat) (P : world -> Prop) (w : world) (os : list op) (w' : world) : Prop :=
  P w /\ match os with [] => w' = w | o :: os => exists w1, step bs cls w o = Ok w1 /\ always bs cls P w1 os w' end.

(* the kind of an object, its address when arrays start at base and objects of kind k have size k *)
Definition obj_kind (w : world) (p : slot) : nat := nth (fst p) (arrays w) 0.
Definition address (base : nat -> N) (size : nat -> N) (w : world) (p : slot) : N := (base (fst p) + N.of_nat (snd p) * size (obj_kind w p))%N.
(* operator new[] returns disjoint memory *)
Definition disjoint_arrays (bs : nat -> nat) (base : nat -> N) (size : nat -> N) (w : world) : Prop :=
  forall i j k l, i <> j -> nth_error (arrays w) i = Some k -> nth_error (arrays w) j = Some l ->
    (base i + N.of_nat (bs k) * size k <= base j \/ base j + N.of_nat (bs l) * size l <= base i)%N.
(* objects of kind k alive, arrays of kind k *)
Definition alive (k : nat) (w : world) : nat := length (filter (fun p => obj_kind w p =? k) (live w)).
Definition arrays_of (k : nat) (w : world) : nat := length (filter (fun x => x =? k) (arrays w)).

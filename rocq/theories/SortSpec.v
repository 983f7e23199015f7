(* Specification vocabulary for sorting, independent of the model. *)
From Coq Require Import List Permutation Arith.
Import ListNotations.

(* strict weak order *)
Record strict_weak {A} (less : A -> A -> bool) : Prop := {
  sw_irrefl : forall x, less x x = false;
  sw_trans : forall x y z, less x y = true -> less y z = true -> less x z = true;
  (* incomparability is transitive, i.e. x < z implies x < y or y < z *)
  sw_neg : forall x y z, less x z = true -> less x y = true \/ less y z = true
}.

(* no later element is less than an earlier one *)
Definition sorted {A} (less : A -> A -> bool) (l : list A) : Prop :=
  forall i j x y, i < j -> nth_error l i = Some x -> nth_error l j = Some y -> less y x = false.
Definition strictly_sorted {A} (less : A -> A -> bool) (l : list A) : Prop :=
  forall i j x y, i < j -> nth_error l i = Some x -> nth_error l j = Some y -> less x y = true.

(* position k holds what a full sort would put there: nothing before is greater, nothing after smaller *)
Definition in_place {A} (less : A -> A -> bool) (l : list A) (k : nat) : Prop :=
  forall x, nth_error l k = Some x ->
    (forall i y, i < k -> nth_error l i = Some y -> less x y = false) /\
    (forall j y, k < j -> nth_error l j = Some y -> less y x = false).

(* neither is less than the other *)
Definition equiv {A} (less : A -> A -> bool) (x y : A) : Prop := less x y = false /\ less y x = false.

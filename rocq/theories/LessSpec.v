(* Orders, as in the requirements of the standard library. *)
From Coq Require Import List Bool.

Section Ord.
  Context {T : Type} (R : T -> T -> bool).
  Definition incomparable (a b : T) : Prop := R a b = false /\ R b a = false.
  Record strict_order : Prop := {
    irrefl : forall a, R a a = false;
    transi : forall a b c, R a b = true -> R b c = true -> R a c = true }.
  Record strict_weak : Prop := {
    weak_strict : strict_order;
    incomp_trans : forall a b c, incomparable a b -> incomparable b c -> incomparable a c }.
  Definition total : Prop := forall a b, R a b = true \/ a = b \/ R b a = true.
  Definition reflects (E : T -> T -> Prop) : Prop := forall a b, R a b = true <-> E a b.
  Record equivalence : Prop := {
    e_refl : forall a, R a a = true; e_sym : forall a b, R a b = true -> R b a = true;
    e_trans : forall a b c, R a b = true -> R b c = true -> R a c = true }.
End Ord.

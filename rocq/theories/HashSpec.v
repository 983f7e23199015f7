(* Spec for hash functions: words, bytes, numbers. *)
From Coq Require Import NArith List.
From Verif Require Import Base.
Import ListNotations.
Open Scope N_scope.

Definition word (x : N) : Prop := x < 2 ^ 64.
(* f maps the 64-bit words one to one onto the 64-bit words *)
Definition word_bijection (f : N -> N) : Prop :=
  (forall x, word x -> word (f x)) /\
  (forall x y, word x -> word y -> f x = f y -> x = y) /\
  (forall z, word z -> exists x, word x /\ f x = z).

Definition byte (b : N) : Prop := b < 256.

(* IEEE 754 equality of bit patterns with one sign bit, as many exponent bits as fit, m mantissa bits, w bits in total *)
Definition sign_bit (w b : N) : bool := N.testbit b (w - 1).
Definition without_sign (w b : N) : N := N.clearbit b (w - 1).
Definition exponent (w m b : N) : N := without_sign w b / 2 ^ m.
Definition mantissa (m b : N) : N := b mod 2 ^ m.
Definition not_a_number (w m b : N) : Prop := exponent w m b = 2 ^ (w - 1 - m) - 1 /\ mantissa m b <> 0.
Definition zero (w b : N) : Prop := without_sign w b = 0.
Definition ieee_equal (w m a b : N) : Prop :=
  ~ not_a_number w m a /\ ~ not_a_number w m b /\ (a = b \/ zero w a /\ zero w b).

(* the bits of the double with the value of the natural number n, 0 < n < 2^53 *)
Definition double_of (n : N) : N := (1023 + N.log2 n) * 2 ^ 52 + (n * 2 ^ (52 - N.log2 n) - 2 ^ 52).

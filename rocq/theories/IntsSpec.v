(* What users of the integer helpers and index ranges see. *)
From Coq Require Import ZArith List Bool.
From Verif Require Import Base IntsModel.
Import ListNotations.
Open Scope Z_scope.

(* the integer types of C++: 8, 16, 32, 64 bits *)
Definition cpp_type (t : itype) : Prop := bits t = 8 \/ bits t = 16 \/ bits t = 32 \/ bits t = 64.
Definition value (t : itype) (x : Z) : Prop := imin t <= x <= imax t.
(* q is the quotient n / d rounded up *)
Definition quotient_up (n d q : Z) : Prop := (q - 1) * d < n <= q * d.
(* m is the smallest multiple of d that is at least v *)
Definition multiple_up (v d m : Z) : Prop := (d | m) /\ v <= m < v + d.
(* arithmetic below int width is done in int; overflow is only undefined in int and wider *)
Definition wide_signed (t : itype) : Prop := signed t = true /\ 32 <= bits t.

(* b, b+1, ..., e-1 *)
Definition interval (b e : Z) : list Z := map (fun i => b + Z.of_nat i) (seq 0 (Z.to_nat (e - b))).
Definition range_of (t : itype) (r : range) : Prop := value t (rbegin r) /\ value t (rend r) /\ rbegin r <= rend r.
(* more steps than values: the loop is never cut off *)
Definition enough (fuel : nat) (r : range) : Prop := rend r - rbegin r < Z.of_nat fuel.
Definition contents (r : range) : list Z := interval (rbegin r) (rend r).

Section Order.
  Context {T : Type} (ltb : T -> T -> bool).
  Definition strict_weak : Prop :=
    (forall a, ltb a a = false) /\ (forall a b c, ltb a b = true -> ltb b c = true -> ltb a c = true) /\
    (forall a b c, ltb a b = false -> ltb b c = false -> ltb a c = false).
End Order.

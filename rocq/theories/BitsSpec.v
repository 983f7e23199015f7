(* Independent specification of the bit and alignment helpers: pure arithmetic, no shifts or masks. *)
From Coq Require Import NArith List.
Import ListNotations.
Open Scope N_scope.

Definition power_of_two (v : N) : Prop := exists k, v = 2 ^ k.

(* r is the integer part of the binary logarithm of v *)
Definition floor_log2 (v r : N) : Prop := 2 ^ r <= v < 2 ^ (r + 1).

(* c is the least power of two that is at least v *)
Definition least_pow2_above (v c : N) : Prop :=
  power_of_two c /\ v <= c /\ forall d, power_of_two d -> v <= d -> c <= d.

(* i is the position of the lowest one bit of v *)
Definition lowest_bit (v i : N) : Prop :=
  N.testbit v i = true /\ forall j, j < i -> N.testbit v j = false.

Definition highest_bit (v i : N) : Prop :=
  N.testbit v i = true /\ forall j, i < j -> N.testbit v j = false.

Definition bit_count (w v : N) : nat :=
  length (filter (fun i => N.testbit v (N.of_nat i)) (seq 0 (N.to_nat w))).

Definition greatest_multiple_below (a v r : N) : Prop :=
  (a | r) /\ r <= v /\ forall m, (a | m) -> m <= v -> m <= r.

Definition least_multiple_above (a v r : N) : Prop :=
  (a | r) /\ v <= r /\ forall m, (a | m) -> v <= m -> r <= m.

Definition is_word (w v : N) : Prop := v < 2 ^ w.
Definition std_width (w : N) : Prop := w = 32 \/ w = 64.
Definition any_width (w : N) : Prop := w = 8 \/ w = 16 \/ w = 32 \/ w = 64.

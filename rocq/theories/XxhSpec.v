(* Reference semantics of XXH32 and XXH64 after the published algorithm description (doc/xxhash_spec.md of xxHash):
   the input is cut into stripes, each lane of a stripe goes to its accumulator, the accumulators converge, the
   length is added, the remaining bytes are consumed and the result is mixed. *)
From Coq Require Import NArith Arith List.
Import ListNotations.
Open Scope N_scope.

(* the number whose little endian digits are bs *)
Fixpoint le (bs : list N) : N := match bs with [] => 0 | b :: bs => b + 256 * le bs end.
(* the k-th stripe of n bytes, what is left behind the last full stripe, and a pass over all full stripes *)
Definition stripe (n k : nat) (bs : list N) : list N := firstn n (skipn (n * k) bs).
Definition rest (n : nat) (bs : list N) : list N := skipn (n * (length bs / n)) bs.
Definition over_stripes {S} (n : nat) (f : S -> list N -> S) (s : S) (bs : list N) : S :=
  fold_left (fun s k => f s (stripe n k bs)) (seq 0 (length bs / n)) s.

Definition rot (w x r : N) : N := (x * 2 ^ r) mod 2 ^ w + x / 2 ^ (w - r).
Definition mix (x s : N) : N := N.lxor x (x / 2 ^ s).

(* four accumulators, four lanes of n bytes *)
Definition accs := (N * N * N * N)%type.
Definition each_lane (n : nat) (round : N -> N -> N) (a : accs) (st : list N) : accs :=
  let '(a1, a2, a3, a4) := a in
  let lane i := le (stripe n i st) in
  (round a1 (lane 0%nat), round a2 (lane 1%nat), round a3 (lane 2%nat), round a4 (lane 3%nat)).

(* ---- XXH32 ---- *)
Definition p1 : N := 2654435761.
Definition p2 : N := 2246822519.
Definition p3 : N := 3266489917.
Definition p4 : N := 668265263.
Definition p5 : N := 374761393.
Definition round32 (a x : N) : N := (rot 32 ((a + x * p2) mod 2 ^ 32) 13 * p1) mod 2 ^ 32.
Definition init32 (seed : N) : accs :=
  ((seed + p1 + p2) mod 2 ^ 32, (seed + p2) mod 2 ^ 32, seed mod 2 ^ 32, (seed + 2 ^ 32 - p1) mod 2 ^ 32).
Definition accs32 (seed : N) (bs : list N) : accs := over_stripes 16 (each_lane 4 round32) (init32 seed) bs.
Definition join32 (a : accs) : N := let '(a1, a2, a3, a4) := a in (rot 32 a1 1 + rot 32 a2 7 + rot 32 a3 12 + rot 32 a4 18) mod 2 ^ 32.
Definition word32 (h : N) (bs : list N) : N := (rot 32 ((h + le bs * p3) mod 2 ^ 32) 17 * p4) mod 2 ^ 32.
Definition byte32 (h : N) (bs : list N) : N := (rot 32 ((h + le bs * p5) mod 2 ^ 32) 11 * p1) mod 2 ^ 32.
Definition tail32 (h : N) (bs : list N) : N := over_stripes 1 byte32 (over_stripes 4 word32 h bs) (rest 4 bs).
Definition final32 (h : N) : N := mix ((mix ((mix h 15 * p2) mod 2 ^ 32) 13 * p3) mod 2 ^ 32) 16.
Definition xxh32 (seed : N) (bs : list N) : N :=
  let h := if (length bs <? 16)%nat then (seed + p5) mod 2 ^ 32 else join32 (accs32 seed bs) in
  final32 (tail32 ((h + N.of_nat (length bs)) mod 2 ^ 32) (rest 16 bs)).

(* ---- XXH64 ---- *)
Definition q1 : N := 11400714785074694791.
Definition q2 : N := 14029467366897019727.
Definition q3 : N := 1609587929392839161.
Definition q4 : N := 9650029242287828579.
Definition q5 : N := 2870177450012600261.
Definition round64 (a x : N) : N := (rot 64 ((a + x * q2) mod 2 ^ 64) 31 * q1) mod 2 ^ 64.
Definition init64 (seed : N) : accs :=
  ((seed + q1 + q2) mod 2 ^ 64, (seed + q2) mod 2 ^ 64, seed mod 2 ^ 64, (seed + 2 ^ 64 - q1) mod 2 ^ 64).
Definition accs64 (seed : N) (bs : list N) : accs := over_stripes 32 (each_lane 8 round64) (init64 seed) bs.
Definition merge64 (h a : N) : N := (N.lxor h (round64 0 a) * q1 + q4) mod 2 ^ 64.
Definition join64 (a : accs) : N :=
  let '(a1, a2, a3, a4) := a in
  merge64 (merge64 (merge64 (merge64 ((rot 64 a1 1 + rot 64 a2 7 + rot 64 a3 12 + rot 64 a4 18) mod 2 ^ 64) a1) a2) a3) a4.
Definition long64 (h : N) (bs : list N) : N := (rot 64 (N.lxor h (round64 0 (le bs))) 27 * q1 + q4) mod 2 ^ 64.
Definition word64 (h : N) (bs : list N) : N := (rot 64 (N.lxor h ((le bs * q1) mod 2 ^ 64)) 23 * q2 + q3) mod 2 ^ 64.
Definition byte64 (h : N) (bs : list N) : N := (rot 64 (N.lxor h ((le bs * q5) mod 2 ^ 64)) 11 * q1) mod 2 ^ 64.
Definition tail64 (h : N) (bs : list N) : N :=
  let b4 := rest 8 bs in
  over_stripes 1 byte64 (over_stripes 4 word64 (over_stripes 8 long64 h bs) b4) (rest 4 b4).
Definition final64 (h : N) : N := mix ((mix ((mix h 33 * q2) mod 2 ^ 64) 29 * q3) mod 2 ^ 64) 32.
Definition xxh64 (seed : N) (bs : list N) : N :=
  let h := if (length bs <? 32)%nat then (seed + q5) mod 2 ^ 64 else join64 (accs64 seed bs) in
  final64 (tail64 ((h + N.of_nat (length bs)) mod 2 ^ 64) (rest 32 bs)).

(* the number whose big endian digits are bs *)
Definition be (bs : list N) : N := le (rev bs).
Definition is_byte (b : N) : Prop := b < 256.

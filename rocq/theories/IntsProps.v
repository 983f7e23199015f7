(* Properties C113, C114, C115. *)
From Coq Require Import ZArith List Bool Lia.
From Verif Require Import Base IntsModel IntsSpec IntsProofs.
Import ListNotations.
Open Scope Z_scope.

(* ---- C113: rounding up ---- *)
(* int_div_ceil of positive values of any integer type is the quotient rounded up, without overflow; all other arguments
   are refused. *)
Theorem C113_div_ceil : forall t n d, cpp_type t -> value t n -> value t d ->
  (0 < n -> 0 < d -> exists q, int_div_ceil t n d = Ok q /\ quotient_up n d q) /\
  (n <= 0 \/ d <= 0 -> int_div_ceil t n d = Contract).
Proof.
  intros t n d H Vn Vd. split.
  - intros Pn Pd. apply div_ceil_ok; assumption.
  - intros N. unfold int_div_ceil. destruct (Z.ltb_spec 0 n), (Z.ltb_spec 0 d); try lia; reflexivity.
Qed.
(* int_ceil_to_multiple is the smallest multiple that is at least the value, if the value is not negative, the multiple is
   representable, and the sum of the arguments does not overflow in the type of the computation.
   Missing for the full claim (every value and positive multiple such that the result is representable): negative
   values (C113_negative_refuted), sums that overflow (C113_overflow_refuted). *)
Theorem C113_to_multiple_partial : forall t v d, cpp_type t -> value t v -> value t d -> 0 <= v -> 0 < d ->
  v + d <= imax (promoted t) + (if signed (promoted t) then 0 else 1) ->
  (exists m, multiple_up v d m /\ m <= imax t) -> exists m, int_ceil_to_multiple t v d = Ok m /\ multiple_up v d m.
Proof. exact to_multiple_ok. Qed.
Definition int32 := mkt true 32.
Definition uint32 := mkt false 32.
Definition uint8 := mkt false 8.
Definition int8 := mkt true 8.
(* -20 is a multiple of 10, the result is -10; for -15 it is 0 *)
Theorem C113_negative_refuted :
  (int_ceil_to_multiple int32 (-20) 10 = Ok (-10) /\ ~ multiple_up (-20) 10 (-10) /\ multiple_up (-20) 10 (-20)) /\
  (int_ceil_to_multiple int32 (-15) 10 = Ok 0 /\ ~ multiple_up (-15) 10 0 /\ multiple_up (-15) 10 (-10)).
Proof.
  unfold multiple_up. repeat split; try reflexivity; try lia.
  - exists (-2). reflexivity.
  - exists (-1). reflexivity.
Qed.
(* 4294967290 and 2147483640 are multiples of 10: the unsigned sum wraps and gives 0, the signed one is undefined *)
Theorem C113_overflow_refuted :
  (int_ceil_to_multiple uint32 4294967290 10 = Ok 0 /\ multiple_up 4294967290 10 4294967290 /\ value uint32 4294967290) /\
  (int_ceil_to_multiple int32 2147483640 10 = UB /\ multiple_up 2147483640 10 2147483640 /\ value int32 2147483640).
Proof.
  unfold multiple_up. repeat split; try reflexivity; try lia; try discriminate.
  - exists 429496729. reflexivity.
  - exists 214748364. reflexivity.
Qed.
Example C113_ex :
  int_div_ceil uint8 255 2 = Ok 128 /\ int_div_ceil int32 (2 ^ 31 - 1) 1 = Ok (2 ^ 31 - 1) /\ int_div_ceil int32 10 5 = Ok 2 /\
  int_div_ceil int32 0 5 = Contract /\ int_ceil_to_multiple uint8 201 50 = Ok 250 /\ int_ceil_to_multiple uint32 (2 ^ 32 - 16) 16 = Ok (2 ^ 32 - 16) /\
  multiple_up 201 50 250 /\ 250 <= imax uint8.
Proof. repeat split; try reflexivity; try discriminate. exists 5. reflexivity. Qed.

(* ---- C114: min, max and clamp ---- *)
(* For every strict weak order: min and max are the two arguments, in order; clamp refuses empty intervals and otherwise
   gives the argument if it lies in the interval, else the bound next to it. *)
Theorem C114_order : forall T (ltb : T -> T -> bool), strict_weak ltb -> forall a b v lo hi,
  ((min ltb a b = a /\ max ltb a b = b) \/ (min ltb a b = b /\ max ltb a b = a)) /\
  ltb (max ltb a b) (min ltb a b) = false /\
  (ltb hi lo = true -> clamp ltb v lo hi = Contract) /\
  (ltb hi lo = false -> exists r, clamp ltb v lo hi = Ok r /\ ltb r lo = false /\ ltb hi r = false /\
     (ltb v lo = false -> ltb hi v = false -> r = v) /\ (ltb v lo = true -> r = lo) /\ (ltb hi v = true -> r = hi)).
Proof.
  intros T ltb (Ir & Tr & Nt) a b v lo hi. unfold min, max, clamp. split; [destruct (ltb a b); auto|]. split.
  - destruct (ltb a b) eqn:E; [|exact E]. destruct (ltb b a) eqn:F; [|reflexivity]. pose proof (Tr _ _ _ E F) as X. rewrite Ir in X. discriminate.
  - split; intros E; rewrite E; cbn; [reflexivity|]. eexists. split; [reflexivity|].
    destruct (ltb v lo) eqn:F.
    + split; [apply Ir|]. split; [exact E|]. split; [intros X; discriminate|]. split; [reflexivity|].
      intros X. pose proof (Tr _ _ _ X F) as Y. congruence.
    + destruct (ltb hi v) eqn:G.
      * split; [exact E|]. split; [apply Ir|]. split; [intros _ X; discriminate|]. split; [intros X; discriminate|reflexivity].
      * split; [exact F|]. split; [exact G|]. split; [reflexivity|]. split; intros X; discriminate.
Qed.
Example C114_ex : strict_weak Z.ltb /\ clamp Z.ltb 7 1 5 = Ok 5 /\ clamp Z.ltb 3 1 5 = Ok 3 /\ clamp Z.ltb 3 5 1 = Contract.
Proof.
  repeat split; try reflexivity; intros.
  - apply Z.ltb_irrefl.
  - rewrite Z.ltb_lt in *. lia.
  - rewrite Z.ltb_ge in *. lia.
Qed.

(* ---- C115: index ranges ---- *)
(* For every integer type and every range with begin <= end: iteration visits begin, ..., end-1 in order; skip_first, skip_last and
   max keep exactly the values they promise; the reversed range visits the same values backwards and reversing it again gives
   the range back.
   Missing for the full claim: reversing a range that begins at the smallest value of a signed type of at least 32 bits
   (C115_reverse_refuted); indices of negative numbers (C115_negative_refuted). *)
Theorem C115_range_partial : forall t r fuel, cpp_type t -> range_of t r -> enough fuel r ->
  iterate fuel t (rbegin r) (rend r) = Ok (contents r) /\
  (exists q, skip_first t r = Ok q /\ range_of t q /\ contents q = tl (contents r)) /\
  (exists q, skip_last t r = Ok q /\ range_of t q /\ contents q = removelast (contents r)) /\
  (forall v, value t v -> exists q, cap t r v = Ok q /\ range_of t q /\ contents q = filter (fun x => x <=? v) (contents r)) /\
  ((wide_signed t -> imin t < rbegin r) ->
     exists q, reversed t r = Ok q /\ iterate_rev fuel t (rbegin q) (rend q) = Ok (rev (contents r)) /\ rev_reversed t q = Ok r).
Proof.
  intros t r fuel H HR F. split; [apply iterate_ok; try assumption; apply HR|]. split; [apply skip_first_ok; assumption|].
  split; [apply skip_last_ok; assumption|]. split; [intros v V; apply cap_ok; assumption|]. intros W. apply reversed_ok; assumption.
Qed.
(* indices_of a size visits every index once, in order, and the reversed range backwards *)
Theorem C115_indices : forall t n fuel, cpp_type t -> value t n -> 0 <= n -> n < Z.of_nat fuel ->
  let r := indices_of n in
  iterate fuel t (rbegin r) (rend r) = Ok (map Z.of_nat (seq 0 (Z.to_nat n))) /\
  exists q, reversed t r = Ok q /\ iterate_rev fuel t (rbegin q) (rend q) = Ok (rev (map Z.of_nat (seq 0 (Z.to_nat n)))).
Proof.
  intros t n fuel H V P F r. assert (range_of t r) as HR.
  { destruct (type_facts t H) as (h & ? & _ & _ & Mi & Ma & ?). unfold range_of, value in *. cbn. rewrite Mi in *. rewrite Ma in *. destruct (signed t); lia. }
  assert (contents r = map Z.of_nat (seq 0 (Z.to_nat n))) as <-.
  { unfold contents, interval. cbn. rewrite Z.sub_0_r. apply map_ext. intros i. lia. }
  assert (rend r - rbegin r < Z.of_nat fuel) as F' by (cbn; lia). split.
  - apply iterate_ok; try assumption; apply HR.
  - destruct (reversed_ok t r fuel H HR) as (q & A & B & _); [|exact F'|exists q; split; assumption].
    intros [S _]. destruct (type_facts t H) as (h & ? & _ & _ & Mi & _). rewrite Mi, S. cbn. lia.
Qed.
(* reversing decrements the begin of the range *)
Theorem C115_reverse_refuted : forall e, range_of int32 (mkr (- 2 ^ 31) e) -> reversed int32 (mkr (- 2 ^ 31) e) = UB.
Proof.
  intros e (_ & V & L). unfold reversed. cbn [rbegin rend] in *. assert (cpp_type int32) as H by (right; right; left; reflexivity).
  change (- 2 ^ 31) with (imin int32) in *. assert (wide_signed int32) as W by (split; [reflexivity|discriminate]).
  destruct (Z.eq_dec e (imin int32)) as [->|Ne]; [rewrite decr_over by assumption; reflexivity|].
  rewrite decr_ok by (try assumption; lia). cbn [bind]. rewrite decr_over by assumption. reflexivity.
Qed.
(* indices of a negative number are not empty: the loop counts up to the largest value and overflows *)
Theorem C115_negative_refuted : forall t n fuel, cpp_type t -> wide_signed t -> n < 0 -> imax t < Z.of_nat fuel ->
  iterate fuel t (rbegin (indices_of n)) (rend (indices_of n)) = UB.
Proof.
  intros t n fuel H W N F. apply iterate_over; try assumption; cbn; [|lia].
  destruct (type_facts t H) as (h & ? & _ & _ & Mi & Ma & ?). unfold value. rewrite Mi, Ma. destruct (signed t); lia.
Qed.
Example C115_ex :
  range_of uint8 (mkr 0 5) /\ enough 6 (mkr 0 5) /\ contents (mkr 0 5) = [0; 1; 2; 3; 4] /\
  iterate 6 uint8 0 5 = Ok [0; 1; 2; 3; 4] /\ reversed uint8 (mkr 0 5) = Ok (mkr 4 255) /\ iterate_rev 6 uint8 4 255 = Ok [4; 3; 2; 1; 0] /\
  reversed int8 (mkr (-128) (-126)) = Ok (mkr (-127) 127) /\ iterate_rev 6 int8 (-127) 127 = Ok [-127; -128] /\
  cap uint32 (mkr 2 9) 4 = Ok (mkr 2 5) /\ cap uint32 (mkr 2 9) 1 = Ok (mkr 0 0).
Proof. repeat split; try reflexivity; try discriminate. Qed.

Print Assumptions C113_div_ceil.
Print Assumptions C113_to_multiple_partial.
Print Assumptions C113_negative_refuted.
Print Assumptions C113_overflow_refuted.
Print Assumptions C114_order.
Print Assumptions C115_range_partial.
Print Assumptions C115_indices.
Print Assumptions C115_reverse_refuted.
Print Assumptions C115_negative_refuted.

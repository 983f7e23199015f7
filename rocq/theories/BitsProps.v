(* Property theorems C01-C04: src/clean-core/bits.hh and the integer helpers of utility.hh. *)
From Coq Require Import NArith ZArith List.
From Verif Require Import Base BitsModel BitsSpec BitsProofs.
Open Scope N_scope.

(* C01 *)
Theorem C01_is_pow2 : forall w v, is_word w v ->
  (is_pow2 w v = true <-> v = 0 \/ power_of_two v).
Proof. exact is_pow2_spec. Qed.

Theorem C01_bit_log2 : forall w v, std_width w -> is_word w v -> 0 < v -> floor_log2 v (bit_log2 w v).
Proof. exact bit_log2_spec. Qed.

Theorem C01_ctz : forall w v, 0 < v -> lowest_bit v (count_trailing_zeros w v).
Proof. exact ctz_spec. Qed.

Theorem C01_clz : forall w v, any_width w -> is_word w v -> 0 < v ->
  count_leading_zeros w v < w /\ highest_bit v (w - 1 - count_leading_zeros w v).
Proof. exact clz_spec. Qed.

Theorem C01_zero : forall w, count_trailing_zeros w 0 = w /\ count_leading_zeros w 0 = w.
Proof. intro w. split; reflexivity. Qed.

Theorem C01_ceil_pow2 : forall w v, std_width w -> 1 <= v -> v <= 2 ^ (w - 1) ->
  least_pow2_above v (ceil_pow2 w v).
Proof. exact ceil_pow2_spec. Qed.

(* outside that range there is no representable answer and the function returns 1 *)
Theorem C01_ceil_pow2_overflow : forall w v, std_width w -> is_word w v -> 2 ^ (w - 1) < v ->
  ceil_pow2 w v = 1.
Proof. exact ceil_pow2_top. Qed.

Theorem C01_mod_pow2 : forall w v k, k < w -> is_word w v -> mod_pow2 w v (2 ^ k) = v mod 2 ^ k.
Proof. exact mod_pow2_spec. Qed.

Theorem C01_div_pow2_floor : forall w v k, std_width w -> k < w -> is_word w v ->
  div_pow2_floor w v (2 ^ k) = Ok (v / 2 ^ k).
Proof. exact div_pow2_floor_spec. Qed.

Theorem C01_div_pow2_ceil : forall w v k, std_width w -> k < w -> is_word w v -> 0 < v ->
  div_pow2_ceil w v (2 ^ k) = Ok ((v + 2 ^ k - 1) / 2 ^ k).
Proof. exact div_pow2_ceil_spec. Qed.

Example C01_ex : std_width 32 /\ is_word 32 300 /\ ceil_pow2 32 300 = 512 /\ bit_log2 32 300 = 8
  /\ is_pow2 64 (2 ^ 40) = true /\ is_pow2 32 300 = false /\ count_leading_zeros 8 1 = 7
  /\ count_trailing_zeros 64 48 = 4 /\ div_pow2_ceil 32 300 16 = Ok 19.
Proof. repeat split; try reflexivity. left; reflexivity. Qed.

(* C02 *)
Theorem C02_set_bit : forall w v i, any_width w -> is_word w v -> i < w ->
  exists r, set_bit w v i = Ok r /\ is_word w r /\
    forall j, N.testbit r j = if j =? i then true else N.testbit v j.
Proof. exact set_bit_spec. Qed.

Theorem C02_unset_bit : forall w v i, any_width w -> is_word w v -> i < w ->
  exists r, unset_bit w v i = Ok r /\ is_word w r /\
    forall j, N.testbit r j = if j =? i then false else N.testbit v j.
Proof. exact unset_bit_spec. Qed.

Theorem C02_flip_bit : forall w v i, any_width w -> is_word w v -> i < w ->
  exists r, flip_bit w v i = Ok r /\ is_word w r /\
    forall j, N.testbit r j = if j =? i then negb (N.testbit v j) else N.testbit v j.
Proof. exact flip_bit_spec. Qed.

Theorem C02_has_bit : forall w v i, any_width w -> is_word w v -> i < w ->
  has_bit w v i = Ok (N.testbit v i).
Proof. exact has_bit_spec. Qed.

Theorem C02_popcount : forall w v, is_word w v -> popcount v = N.of_nat (bit_count w v).
Proof. exact popcount_spec. Qed.

(* byteswap reverses the order of the n bytes, and is its own inverse *)
Theorem C02_byteswap : forall n v j,
  N.testbit (byteswap_n n v) j =
  ((j <? 8 * N.of_nat n) && N.testbit v (8 * (N.of_nat n - 1 - j / 8) + j mod 8))%bool.
Proof. exact byteswap_bits. Qed.

Theorem C02_byteswap_involutive : forall n v, v < 2 ^ (8 * N.of_nat n) ->
  byteswap_n n (byteswap_n n v) = v.
Proof. exact byteswap_involutive. Qed.

Example C02_ex : any_width 8 /\ is_word 8 255 /\ unset_bit 8 255 7 = Ok 127 /\ set_bit 16 1 15 = Ok 32769
  /\ flip_bit 64 (2 ^ 63) 63 = Ok 0 /\ has_bit 64 (2 ^ 63) 63 = Ok true /\ popcount 255 = 8
  /\ byteswap_n 4 0x11223344 = 0x44332211.
Proof. repeat split; try reflexivity. left; reflexivity. Qed.

(* C03 *)
Theorem C03_align_down : forall w v k, w <= 64 -> is_word w v -> k < 64 ->
  greatest_multiple_below (2 ^ k) v (align_down w v (2 ^ k)).
Proof. exact align_down_spec. Qed.

Theorem C03_align_up : forall v k, k < 64 -> v + 2 ^ k - 1 < 2 ^ 64 ->
  least_multiple_above (2 ^ k) v (align_up 64 v (2 ^ k)).
Proof. exact align_up_spec. Qed.

Theorem C03_align_up_narrow : forall w v k r, w <= 64 -> is_word w v -> k < 64 ->
  v + 2 ^ k - 1 < 2 ^ 64 -> least_multiple_above (2 ^ k) v r -> is_word w r ->
  align_up w v (2 ^ k) = r.
Proof. exact align_up_narrow_spec. Qed.

Theorem C03_align_up_overflow : forall v k, k < 64 -> is_word 64 v -> 2 ^ 64 <= v + 2 ^ k - 1 ->
  align_up 64 v (2 ^ k) = 0.
Proof. exact align_up_wraps. Qed.

Theorem C03_is_aligned : forall v k, is_word 64 v -> k < 64 ->
  (is_aligned v (2 ^ k) = true <-> (2 ^ k | v)).
Proof. exact is_aligned_spec. Qed.

Theorem C03_int_div_ceil : forall w n d, is_word w n -> 0 < n -> 0 < d ->
  exists q, int_div_ceil w n d = Ok q /\ (q - 1) * d < n <= q * d.
Proof. exact int_div_ceil_spec. Qed.

Theorem C03_int_div_ceil_contract : forall w n d, (n = 0 \/ d = 0) -> int_div_ceil w n d = Contract.
Proof. exact int_div_ceil_contract. Qed.

Theorem C03_int_ceil_to_multiple : forall w v m, 0 < m -> v + m < 2 ^ w ->
  exists r, int_ceil_to_multiple w v m = Ok r /\ least_multiple_above m v r.
Proof. exact int_ceil_to_multiple_spec. Qed.

Theorem C03_int_ceil_to_multiple_signed : forall w v m, 0 < w -> (0 < m)%Z -> (0 <= v)%Z ->
  (v + m < 2 ^ (Z.of_N w - 1))%Z ->
  exists r, int_ceil_to_multiple_signed w v m = Ok r /\ (v <= r < v + m)%Z /\ (m | r)%Z.
Proof. exact int_ceil_to_multiple_signed_spec. Qed.

Example C03_ex : align_up 64 300 16 = 304 /\ align_down 64 300 16 = 288 /\ is_aligned 304 16 = true
  /\ 300 + 2 ^ 4 - 1 < 2 ^ 64 /\ int_ceil_to_multiple 32 301 25 = Ok 325
  /\ align_up 64 (2 ^ 64 - 1) 16 = 0.
Proof. repeat split. Qed.

(* C04 *)
Theorem C04_wrapped_inverse : forall w p mx, is_word w mx -> p < mx ->
  wrapped_increment w p mx < mx /\
  wrapped_decrement w (wrapped_increment w p mx) mx = Ok p /\
  exists q, wrapped_decrement w p mx = Ok q /\ q < mx /\ wrapped_increment w q mx = p.
Proof. exact wrapped_inverse. Qed.

Theorem C04_wrapped_orbit : forall w mx p, is_word w mx -> p < mx ->
  Nat.iter (N.to_nat mx) (fun q => wrapped_increment w q mx) p = p.
Proof. exact wrapped_orbit. Qed.

Example C04_ex : is_word 8 5 /\ 4 < 5 /\ wrapped_increment 8 4 5 = 0 /\ wrapped_decrement 8 0 5 = Ok 4.
Proof. repeat split. Qed.

Print Assumptions C01_is_pow2.
Print Assumptions C01_bit_log2.
Print Assumptions C01_ctz.
Print Assumptions C01_clz.
Print Assumptions C01_zero.
Print Assumptions C01_ceil_pow2.
Print Assumptions C01_ceil_pow2_overflow.
Print Assumptions C01_mod_pow2.
Print Assumptions C01_div_pow2_floor.
Print Assumptions C01_div_pow2_ceil.
Print Assumptions C02_set_bit.
Print Assumptions C02_unset_bit.
Print Assumptions C02_flip_bit.
Print Assumptions C02_has_bit.
Print Assumptions C02_popcount.
Print Assumptions C02_byteswap.
Print Assumptions C02_byteswap_involutive.
Print Assumptions C03_align_down.
Print Assumptions C03_align_up.
Print Assumptions C03_align_up_narrow.
Print Assumptions C03_align_up_overflow.
Print Assumptions C03_is_aligned.
Print Assumptions C03_int_div_ceil.
Print Assumptions C03_int_div_ceil_contract.
Print Assumptions C03_int_ceil_to_multiple.
Print Assumptions C03_int_ceil_to_multiple_signed.
Print Assumptions C04_wrapped_inverse.
Print Assumptions C04_wrapped_orbit.

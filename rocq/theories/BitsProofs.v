(* Lemmas for BitsModel.v against BitsSpec.v. *)
From Coq Require Import NArith ZArith List Lia Bool.
From Verif Require Import Base BitsModel BitsSpec.
Import ListNotations.
Open Scope N_scope.

Lemma std_any : forall w, std_width w -> any_width w.
Proof. unfold std_width, any_width. intuition. Qed.

Lemma log2_lt_width : forall w v, 0 < v -> v < 2 ^ w -> N.log2 v < w.
Proof. intros. apply N.log2_lt_pow2; auto. Qed.

Lemma clz_log2 : forall w v, any_width w -> is_word w v -> 0 < v ->
  count_leading_zeros w v = w - 1 - N.log2 v.
Proof.
  intros w v Hw Hv H0. unfold is_word in Hv.
  pose proof (log2_lt_width _ _ H0 Hv) as HL.
  destruct v as [|p]; [lia|].
  assert (HS : Npos (Pos.size p) = N.log2 (Npos p) + 1).
  { change (Npos (Pos.size p)) with (N.size (Npos p)).
    rewrite N.size_log2 by discriminate. lia. }
  unfold count_leading_zeros, builtin_clz. rewrite HS.
  destruct Hw as [->|[->|[->| ->]]]; cbn [N.ltb N.compare Pos.compare Pos.compare_cont]; lia.
Qed.

Lemma clz_zero : forall w, count_leading_zeros w 0 = w.
Proof. reflexivity. Qed.

Lemma clz_spec : forall w v, any_width w -> is_word w v -> 0 < v ->
  count_leading_zeros w v < w /\ highest_bit v (w - 1 - count_leading_zeros w v).
Proof.
  intros w v Hw Hv H0. rewrite clz_log2 by auto.
  pose proof (log2_lt_width _ _ H0 Hv) as HL.
  split; [lia|]. replace (w - 1 - (w - 1 - N.log2 v)) with (N.log2 v) by lia.
  split.
  - apply N.bit_log2. lia.
  - intros j Hj. apply N.bits_above_log2; auto.
Qed.

Lemma ctz_spec_pos : forall p, lowest_bit (Npos p) (pos_ctz p).
Proof.
  unfold lowest_bit. induction p.
  - split; [reflexivity|]. cbn. intros; lia.
  - destruct IHp as [H1 H2]. cbn [pos_ctz]. split.
    + change (Npos p~0) with (2 * Npos p). rewrite N.add_1_l.
      rewrite N.double_bits_succ. exact H1.
    + intros j Hj. change (Npos p~0) with (2 * Npos p).
      destruct (N.eq_dec j 0) as [->|Hn]; [reflexivity|].
      replace j with (N.succ (N.pred j)) by lia.
      rewrite N.double_bits_succ. apply H2. lia.
  - split; [reflexivity|]. cbn. intros; lia.
Qed.

Lemma ctz_spec : forall w v, 0 < v -> lowest_bit v (count_trailing_zeros w v).
Proof. intros w [|p] H; [lia|]. apply ctz_spec_pos. Qed.

Lemma bit_log2_pos : forall w v, std_width w -> is_word w v -> 0 < v ->
  bit_log2 w v = N.log2 v.
Proof.
  intros w v Hw Hv H0. unfold bit_log2.
  rewrite clz_log2 by (auto using std_any).
  pose proof (log2_lt_width _ _ H0 Hv) as HL. unfold is_word in Hv.
  assert (HP : 64 < 2 ^ 64) by reflexivity.
  assert (Hw64 : w <= 64) by (destruct Hw; subst; lia).
  rewrite (wsub_ge 64 w) by lia.
  rewrite wsub_ge by lia.
  replace (w - (w - 1 - N.log2 v) - 1) with (N.log2 v) by lia.
  apply wrap_small. eapply N.lt_trans; [exact HL|]. apply N.pow_gt_lin_r. lia.
Qed.

Lemma bit_log2_zero : forall w, std_width w -> bit_log2 w 0 = 2 ^ w - 1.
Proof. intros w [->| ->]; reflexivity. Qed.

Lemma bit_log2_spec : forall w v, std_width w -> is_word w v -> 0 < v -> floor_log2 v (bit_log2 w v).
Proof.
  intros. rewrite bit_log2_pos by auto. unfold floor_log2.
  rewrite N.add_1_r. apply N.log2_spec; auto.
Qed.

Lemma is_pow2_spec : forall w v, is_word w v ->
  (is_pow2 w v = true <-> v = 0 \/ power_of_two v).
Proof.
  intros w v Hv. unfold is_pow2, is_word in *. rewrite N.eqb_eq. split.
  - intro H. destruct (N.eq_dec v 0) as [|Hn]; [left; auto|right].
    rewrite wsub_ge in H by lia.
    exists (N.log2 v).
    destruct (N.log2_spec v) as [L1 L2]; [lia|].
    destruct (N.eq_dec v (2 ^ N.log2 v)) as [|Hne]; [auto|exfalso].
    assert (HB1 : N.testbit v (N.log2 v) = true) by (apply N.bit_log2; auto).
    assert (HL : N.log2 (v - 1) = N.log2 v).
    { apply N.log2_unique; lia. }
    assert (HB2 : N.testbit (v - 1) (N.log2 v) = true).
    { rewrite <- HL. apply N.bit_log2. lia. }
    assert (HB : N.testbit (N.land v (v - 1)) (N.log2 v) = true)
      by (rewrite N.land_spec, HB1, HB2; reflexivity).
    rewrite H in HB. rewrite N.bits_0 in HB. discriminate.
  - intros [->|[k ->]]; [reflexivity|].
    pose proof (pow2_pos k).
    rewrite wsub_ge by lia.
    rewrite <- N.pred_sub, <- N.ones_equiv, N.land_ones.
    apply N.mod_same. lia.
Qed.

Lemma ceil_pow2_spec : forall w v, std_width w -> 1 <= v -> v <= 2 ^ (w - 1) ->
  least_pow2_above v (ceil_pow2 w v).
Proof.
  intros w v Hw H1 H2.
  assert (Hww : 2 ^ (w - 1) < 2 ^ w) by (apply N.pow_lt_mono_r; destruct Hw; subst; lia).
  assert (Hland : forall x, x < w -> N.land x (w - 1) = x).
  { intros x Hx. destruct Hw; subst.
    - change (32 - 1) with (N.ones 5). rewrite N.land_ones. apply N.mod_small. auto.
    - change (64 - 1) with (N.ones 6). rewrite N.land_ones. apply N.mod_small. auto. }
  unfold ceil_pow2. rewrite wsub_ge by lia.
  destruct (N.eq_dec v 1) as [->|Hne].
  - assert (E : wadd w (2 ^ w - 1) 1 = 0).
    { unfold wadd, wrap. rewrite N.sub_add by lia. apply N.mod_same. lia. }
    change (1 - 1) with 0. rewrite bit_log2_zero by auto.
    rewrite E, N.land_0_l. change (N.shiftl 1 0) with 1.
    assert (1 < 2 ^ w) by (destruct Hw; subst; reflexivity).
    rewrite wrap_small by auto. unfold least_pow2_above. repeat split.
    + exists 0. reflexivity.
    + lia.
    + intros; lia.
  - assert (Hlow : 0 < v - 1) by lia.
    rewrite bit_log2_pos by (unfold is_word; auto; lia).
    assert (HL : N.log2 (v - 1) < w - 1) by (apply log2_lt_width; lia).
    assert (Hpw : w < 2 ^ w) by (apply N.pow_gt_lin_r; lia).
    rewrite wadd_small by lia. rewrite Hland by lia.
    rewrite N.shiftl_1_l.
    rewrite wrap_small by (apply N.pow_lt_mono_r; lia).
    destruct (N.log2_spec (v - 1) Hlow) as [A B].
    rewrite <- N.add_1_r in B.
    repeat split.
    + eexists; reflexivity.
    + lia.
    + intros d [k ->] Hd.
      apply N.pow_le_mono_r; [lia|].
      assert (N.log2 (v - 1) < k); [|lia].
      apply N.log2_lt_pow2; lia.
Qed.

(* above the top power of two the shift count wraps and the result is 1 *)
Lemma ceil_pow2_top : forall w v, std_width w -> is_word w v -> 2 ^ (w - 1) < v -> ceil_pow2 w v = 1.
Proof.
  intros w v Hw Hv H. unfold is_word in Hv.
  assert (H0 : 0 < v - 1).
  { pose proof (pow2_pos (w - 1)). assert (2 <= 2 ^ (w-1)) by (destruct Hw; subst; discriminate). lia. }
  unfold ceil_pow2. rewrite wsub_ge by lia.
  rewrite bit_log2_pos by (unfold is_word; auto; lia).
  assert (E : N.log2 (v - 1) = w - 1).
  { apply N.log2_unique; [lia|]. split; [lia|].
    replace (N.succ (w - 1)) with w by (destruct Hw; subst; reflexivity). lia. }
  rewrite E. destruct Hw; subst; reflexivity.
Qed.

Lemma mod_pow2_spec : forall w v k, k < w -> is_word w v -> mod_pow2 w v (2 ^ k) = v mod 2 ^ k.
Proof.
  intros. unfold mod_pow2.
  pose proof (pow2_pos k).
  rewrite wsub_ge; [| apply N.pow_lt_mono_r; lia | lia].
  rewrite <- N.pred_sub, <- N.ones_equiv. apply N.land_ones.
Qed.

Lemma pow2_word : forall w k, k < w -> is_word w (2 ^ k).
Proof. intros. unfold is_word. apply N.pow_lt_mono_r; lia. Qed.

Lemma bit_log2_pow2 : forall w k, std_width w -> k < w -> bit_log2 w (2 ^ k) = k.
Proof.
  intros. rewrite bit_log2_pos; auto using pow2_word, pow2_pos.
  apply N.log2_pow2. lia.
Qed.

Lemma div_pow2_floor_spec : forall w v k, std_width w -> k < w -> is_word w v ->
  div_pow2_floor w v (2 ^ k) = Ok (v / 2 ^ k).
Proof.
  intros. unfold div_pow2_floor, shr. rewrite bit_log2_pow2 by auto.
  destruct (N.ltb_spec k w); [|lia]. rewrite N.shiftr_div_pow2. reflexivity.
Qed.

Lemma div_pow2_ceil_spec : forall w v k, std_width w -> k < w -> is_word w v -> 0 < v ->
  div_pow2_ceil w v (2 ^ k) = Ok ((v + 2 ^ k - 1) / 2 ^ k).
Proof.
  intros w v k Hw Hk Hv H0. unfold is_word in Hv. unfold div_pow2_ceil, shr.
  rewrite bit_log2_pow2 by auto.
  destruct (N.ltb_spec k w); [|lia]. cbn [bind].
  rewrite wsub_ge by lia. rewrite N.shiftr_div_pow2. f_equal.
  pose proof (pow2_pos k).
  replace (v + 2 ^ k - 1) with (v - 1 + 1 * 2 ^ k) by lia.
  rewrite N.div_add by lia. apply wadd_small.
  assert ((v - 1) / 2 ^ k <= v - 1) by (apply N.div_le_upper_bound; nia). lia.
Qed.

(* ---- single bits ---- *)
Lemma testbit_shl1 : forall i j, N.testbit (N.shiftl 1 i) j = (i =? j).
Proof. intros. rewrite N.shiftl_1_l. apply N.pow2_bits_eqb. Qed.

Lemma shl1_ok : forall w i, any_width w -> i < w -> shl1 w i = Ok (N.shiftl 1 i).
Proof.
  intros w i Hw Hi. unfold shl1, promoted.
  destruct (N.ltb_spec w 32); destruct (N.ltb_spec i (if w <? 32 then 32 else w)); auto;
    rewrite ?(proj2 (N.ltb_lt _ _)) in * by lia; try lia.
  - destruct (N.ltb_spec i 32); [auto|lia].
  - destruct (N.ltb_spec i w); [auto|lia].
  - destruct (N.ltb_spec i w); [auto|lia].
Qed.

Lemma testbit_wrap : forall w v j, N.testbit (wrap w v) j = (j <? w) && N.testbit v j.
Proof.
  intros. unfold wrap. destruct (N.ltb_spec j w).
  - rewrite N.mod_pow2_bits_low by auto. reflexivity.
  - rewrite N.mod_pow2_bits_high by auto. reflexivity.
Qed.

Lemma word_testbit : forall w v j, is_word w v -> w <= j -> N.testbit v j = false.
Proof.
  intros w v j H Hj. unfold is_word in H. rewrite <- (N.mod_small v (2 ^ w)) by auto.
  apply N.mod_pow2_bits_high; auto.
Qed.

Lemma promoted_ge : forall w, w <= promoted w.
Proof. intros. unfold promoted. destruct (N.ltb_spec w 32); lia. Qed.

Lemma set_bit_spec : forall w v i, any_width w -> is_word w v -> i < w ->
  exists r, set_bit w v i = Ok r /\ is_word w r /\
    forall j, N.testbit r j = if j =? i then true else N.testbit v j.
Proof.
  intros w v i Hw Hv Hi. unfold set_bit. rewrite shl1_ok by auto. cbn [bind].
  eexists; split; [reflexivity|]. split; [apply wrap_lt|].
  intro j. rewrite testbit_wrap, N.lor_spec, testbit_shl1.
  rewrite (N.eqb_sym j i). destruct (N.eqb_spec i j).
  - subst. rewrite orb_true_r, andb_true_r. apply N.ltb_lt. auto.
  - rewrite orb_false_r. destruct (N.ltb_spec j w); auto. symmetry. eapply word_testbit; eauto.
Qed.

Lemma unset_bit_spec : forall w v i, any_width w -> is_word w v -> i < w ->
  exists r, unset_bit w v i = Ok r /\ is_word w r /\
    forall j, N.testbit r j = if j =? i then false else N.testbit v j.
Proof.
  intros w v i Hw Hv Hi. unfold unset_bit. rewrite shl1_ok by auto. cbn [bind].
  eexists; split; [reflexivity|]. split; [apply wrap_lt|].
  intro j. rewrite testbit_wrap, N.land_spec, wnot_spec, testbit_shl1.
  pose proof (promoted_ge w).
  rewrite (N.eqb_sym j i). destruct (N.eqb_spec i j).
  - subst. destruct (N.ltb_spec j (promoted w)); [|lia]. cbn. rewrite andb_false_r, andb_false_r. auto.
  - destruct (N.ltb_spec j w).
    + destruct (N.ltb_spec j (promoted w)); [|lia]. cbn. rewrite andb_true_r. reflexivity.
    + cbn. symmetry. eapply word_testbit; eauto.
Qed.

Lemma flip_bit_spec : forall w v i, any_width w -> is_word w v -> i < w ->
  exists r, flip_bit w v i = Ok r /\ is_word w r /\
    forall j, N.testbit r j = if j =? i then negb (N.testbit v j) else N.testbit v j.
Proof.
  intros w v i Hw Hv Hi. unfold flip_bit. rewrite shl1_ok by auto. cbn [bind].
  eexists; split; [reflexivity|]. split; [apply wrap_lt|].
  intro j. rewrite testbit_wrap, N.lxor_spec, testbit_shl1.
  rewrite (N.eqb_sym j i). destruct (N.eqb_spec i j).
  - subst. rewrite xorb_true_r. destruct (N.ltb_spec j w); [auto|lia].
  - rewrite xorb_false_r. destruct (N.ltb_spec j w); auto. symmetry. eapply word_testbit; eauto.
Qed.

Lemma has_bit_spec : forall w v i, any_width w -> is_word w v -> i < w ->
  has_bit w v i = Ok (N.testbit v i).
Proof.
  intros w v i Hw Hv Hi. unfold has_bit. rewrite shl1_ok by auto. cbn [bind]. f_equal.
  destruct (N.testbit v i) eqn:E.
  - destruct (N.eqb_spec (N.land v (N.shiftl 1 i)) 0) as [H|]; [|reflexivity].
    assert (HB : N.testbit (N.land v (N.shiftl 1 i)) i = true)
      by (rewrite N.land_spec, E, testbit_shl1, N.eqb_refl; reflexivity).
    rewrite H, N.bits_0 in HB. discriminate.
  - replace (N.land v (N.shiftl 1 i)) with 0; [reflexivity|].
    apply N.bits_inj. intro j. rewrite N.bits_0, N.land_spec, testbit_shl1.
    destruct (N.eqb_spec i j); [subst; rewrite E|]; rewrite ?andb_false_r; reflexivity.
Qed.

Lemma filter_seq_shift : forall (f g : nat -> bool) n, (forall i, f (S i) = g i) ->
  length (filter f (seq 1 n)) = length (filter g (seq 0 n)).
Proof.
  intros f g n H. rewrite <- seq_shift.
  induction (seq 0 n) as [|a l IH]; [reflexivity|].
  cbn [map filter]. rewrite H. destruct (g a); cbn [length]; rewrite IH; reflexivity.
Qed.

Lemma popcount_pos : forall p n, Npos p < 2 ^ N.of_nat n ->
  N.of_nat (length (filter (fun i => N.testbit (Npos p) (N.of_nat i)) (seq 0 n))) = pos_popcount p.
Proof.
  induction p; intros n Hn.
  - destruct n as [|n]; [cbn in Hn; lia|].
    rewrite Nat2N.inj_succ, N.pow_succ_r' in Hn.
    cbn [seq filter]. change (N.testbit (N.pos p~1) (N.of_nat 0)) with true.
    cbn [length pos_popcount].
    rewrite (filter_seq_shift _ (fun i => N.testbit (Npos p) (N.of_nat i))).
    + rewrite Nat2N.inj_succ, IHp by lia. lia.
    + intro i. rewrite Nat2N.inj_succ. change (N.pos p~1) with (2 * Npos p + 1).
      rewrite N.testbit_odd_succ by lia. reflexivity.
  - destruct n as [|n]; [cbn in Hn; lia|].
    rewrite Nat2N.inj_succ, N.pow_succ_r' in Hn.
    cbn [seq filter]. change (N.testbit (N.pos p~0) (N.of_nat 0)) with false.
    cbn [length pos_popcount].
    rewrite (filter_seq_shift _ (fun i => N.testbit (Npos p) (N.of_nat i))).
    + rewrite IHp by lia. lia.
    + intro i. rewrite Nat2N.inj_succ. change (N.pos p~0) with (2 * Npos p).
      rewrite N.testbit_even_succ by lia. reflexivity.
  - destruct n as [|n]; [cbn in Hn; lia|].
    cbn [seq filter]. change (N.testbit 1 (N.of_nat 0)) with true. cbn [length pos_popcount].
    rewrite (filter_seq_shift _ (fun _ => false)).
    + induction (seq 0 n); [reflexivity|]. exact IHl.
    + intro i. rewrite Nat2N.inj_succ. change 1 with (2 * 0 + 1).
      rewrite N.testbit_odd_succ by lia. apply N.bits_0.
Qed.

Lemma popcount_spec : forall w v, is_word w v -> popcount v = N.of_nat (bit_count w v).
Proof.
  intros w [|p] Hv; unfold bit_count.
  - induction (seq 0 (N.to_nat w)); [reflexivity|]. cbn [filter]. rewrite N.bits_0. exact IHl.
  - symmetry. apply popcount_pos. rewrite N2Nat.id. exact Hv.
Qed.

(* ---- byteswap ---- *)
Lemma byteswap_bits : forall n v j,
  N.testbit (byteswap_n n v) j =
  (j <? 8 * N.of_nat n) && N.testbit v (8 * (N.of_nat n - 1 - j / 8) + j mod 8).
Proof.
  induction n; intros v j; cbn [byteswap_n].
  - rewrite N.bits_0. destruct (N.ltb_spec j (8 * N.of_nat 0)); [lia|reflexivity].
  - rewrite N.lor_spec, IHn.
    pose proof (N.div_mod j 8 ltac:(lia)) as DM.
    pose proof (N.mod_lt j 8 ltac:(lia)) as ML.
    destruct (N.ltb_spec j (8 * N.of_nat n)).
    + rewrite N.shiftl_spec_low by lia. rewrite orb_false_l, andb_true_l.
      destruct (N.ltb_spec j (8 * N.of_nat (S n))); [|lia].
      rewrite N.shiftr_spec'. rewrite andb_true_l. f_equal. rewrite Nat2N.inj_succ. generalize dependent (j / 8). generalize dependent (j mod 8). intros. lia.
    + rewrite andb_false_l, orb_false_r.
      rewrite N.shiftl_spec_high by lia. rewrite N.land_spec.
      change 255 with (N.ones 8).
      destruct (N.ltb_spec j (8 * N.of_nat (S n))).
      * rewrite N.ones_spec_low by lia. rewrite andb_true_r, andb_true_l. f_equal. rewrite Nat2N.inj_succ in *. generalize dependent (j / 8). generalize dependent (j mod 8). intros. lia.
      * rewrite N.ones_spec_high by lia. rewrite andb_false_r. reflexivity.
Qed.

Lemma byteswap_involutive : forall n v, v < 2 ^ (8 * N.of_nat n) ->
  byteswap_n n (byteswap_n n v) = v.
Proof.
  intros n v Hv. apply N.bits_inj. intro j. rewrite !byteswap_bits.
  pose proof (N.div_mod j 8 ltac:(lia)) as DM.
  pose proof (N.mod_lt j 8 ltac:(lia)) as ML.
  destruct (N.ltb_spec j (8 * N.of_nat n)).
  - set (q := N.of_nat n - 1 - j / 8).
    assert (Q1 : (8 * q + j mod 8) / 8 = q).
    { rewrite N.mul_comm, N.div_add_l by lia. rewrite N.div_small by lia. lia. }
    assert (Q2 : (8 * q + j mod 8) mod 8 = j mod 8).
    { rewrite N.add_comm, N.mul_comm, N.mod_add by lia. apply N.mod_small. lia. }
    rewrite Q1, Q2. clear Q1 Q2. subst q.
    generalize dependent (j / 8). generalize dependent (j mod 8). intros.
    match goal with |- context [?a <? ?b] => destruct (N.ltb_spec a b) end; [|lia].
    rewrite !andb_true_l. f_equal. lia.
  - rewrite andb_false_l. symmetry. eapply word_testbit; eauto.
Qed.

(* ---- alignment ---- *)
Lemma land_wnot_ones : forall v k, v < 2 ^ 64 -> k <= 64 -> N.land v (wnot 64 (N.ones k)) = v - v mod 2 ^ k.
Proof.
  intros v k Hv Hk.
  assert (E : v - v mod 2 ^ k = (v / 2 ^ k) * 2 ^ k).
  { pose proof (N.div_mod v (2 ^ k) ltac:(apply N.pow_nonzero; discriminate)).
    pose proof (N.mod_le v (2 ^ k) ltac:(apply N.pow_nonzero; discriminate)). lia. }
  rewrite E, <- N.shiftr_div_pow2, <- N.shiftl_mul_pow2.
  apply N.bits_inj. intro j. rewrite N.land_spec, wnot_spec.
  destruct (N.ltb_spec j k).
  - rewrite N.ones_spec_low, N.shiftl_spec_low by lia.
    destruct (N.ltb_spec j 64); [|lia]. apply andb_false_r.
  - rewrite N.ones_spec_high, N.shiftl_spec_high by lia.
    rewrite N.shiftr_spec'. rewrite N.sub_add by lia.
    destruct (N.ltb_spec j 64).
    + apply andb_true_r.
    + rewrite andb_false_r. symmetry. apply (word_testbit 64); auto.
Qed.

Lemma wsub_pow2_1 : forall k, k < 64 -> wsub 64 (2 ^ k) 1 = N.ones k.
Proof.
  intros. pose proof (pow2_pos k). rewrite wsub_ge; [|apply N.pow_lt_mono_r; lia|lia].
  rewrite N.ones_equiv. lia.
Qed.

Lemma word64 : forall w v, w <= 64 -> v < 2 ^ w -> v < 2 ^ 64.
Proof. intros. eapply N.lt_le_trans; eauto. apply N.pow_le_mono_r; lia. Qed.

Lemma align_down_eq : forall w v k, w <= 64 -> is_word w v -> k < 64 ->
  align_down w v (2 ^ k) = v - v mod 2 ^ k.
Proof.
  intros w v k Hw Hv Hk. unfold is_word in Hv. unfold align_down, align_down_masked.
  rewrite wsub_pow2_1 by auto. rewrite land_wnot_ones by (eauto using word64; lia).
  apply wrap_small. eapply N.le_lt_trans; [apply N.le_sub_l|exact Hv].
Qed.

Lemma gmb_unique_form : forall a v, 0 < a -> greatest_multiple_below a v (v - v mod a).
Proof.
  intros a v Ha. repeat split.
  - ndm v a. exists q. lia.
  - apply N.le_sub_l.
  - intros m [k ->] Hm.
    assert (k <= v / a) by (apply N.div_le_lower_bound; lia).
    ndm v a. nia.
Qed.

Lemma lma_unique_form : forall a v, 0 < a -> least_multiple_above a v ((v + a - 1) - (v + a - 1) mod a).
Proof.
  intros a v Ha. repeat split.
  - ndm (v + a - 1) a. exists q. lia.
  - ndm (v + a - 1) a. lia.
  - intros m [k ->] Hm.
    assert ((v + a - 1) / a < k + 1) by (apply N.div_lt_upper_bound; lia).
    ndm (v + a - 1) a. nia.
Qed.

Lemma align_down_spec : forall w v k, w <= 64 -> is_word w v -> k < 64 ->
  greatest_multiple_below (2 ^ k) v (align_down w v (2 ^ k)).
Proof. intros. rewrite align_down_eq by auto. apply gmb_unique_form. apply pow2_pos. Qed.

Lemma align_up_eq : forall v k, k < 64 -> v + 2 ^ k - 1 < 2 ^ 64 ->
  align_up 64 v (2 ^ k) = (v + 2 ^ k - 1) - (v + 2 ^ k - 1) mod 2 ^ k.
Proof.
  intros v k Hk Hov. pose proof (pow2_pos k).
  unfold align_up, align_up_masked.
  rewrite wsub_pow2_1 by auto. rewrite wadd_small.
  2:{ rewrite N.ones_equiv. lia. }
  replace (v + N.ones k) with (v + 2 ^ k - 1) by (rewrite N.ones_equiv; lia).
  rewrite land_wnot_ones by lia.
  apply wrap_small. eapply N.le_lt_trans; [apply N.le_sub_l|]. lia.
Qed.

Lemma align_up_spec : forall v k, k < 64 -> v + 2 ^ k - 1 < 2 ^ 64 ->
  least_multiple_above (2 ^ k) v (align_up 64 v (2 ^ k)).
Proof. intros. rewrite align_up_eq by auto. apply lma_unique_form. apply pow2_pos. Qed.

(* narrower T: the sum is computed in size_t and only the result is narrowed *)
Lemma align_up_narrow_spec : forall w v k r, w <= 64 -> is_word w v -> k < 64 ->
  v + 2 ^ k - 1 < 2 ^ 64 -> least_multiple_above (2 ^ k) v r -> is_word w r ->
  align_up w v (2 ^ k) = r.
Proof.
  intros w v k r Hw Hv Hk Hov [D [L M]] Hr. pose proof (pow2_pos k).
  unfold align_up, align_up_masked.
  rewrite wsub_pow2_1 by auto. rewrite wadd_small by (rewrite N.ones_equiv; lia).
  replace (v + N.ones k) with (v + 2 ^ k - 1) by (rewrite N.ones_equiv; lia).
  rewrite land_wnot_ones by lia.
  destruct (lma_unique_form (2 ^ k) v) as [D' [L' M']]; [lia|].
  assert (r = v + 2 ^ k - 1 - (v + 2 ^ k - 1) mod 2 ^ k).
  { apply N.le_antisymm; auto. }
  subst r. apply wrap_small; auto.
Qed.

(* when value + mask wraps the result is below the value *)
Lemma align_up_wraps : forall v k, k < 64 -> is_word 64 v -> 2 ^ 64 <= v + 2 ^ k - 1 ->
  align_up 64 v (2 ^ k) = 0.
Proof.
  intros v k Hk Hv Hov. unfold is_word in Hv. pose proof (pow2_pos k).
  assert (HL : 2 ^ k < 2 ^ 64) by (apply N.pow_lt_mono_r; lia).
  unfold align_up, align_up_masked. rewrite wsub_pow2_1 by auto.
  assert (E : wadd 64 v (N.ones k) = v + 2 ^ k - 1 - 2 ^ 64).
  { unfold wadd, wrap. rewrite N.ones_equiv.
    replace (v + N.pred (2 ^ k)) with (v + 2 ^ k - 1 - 2 ^ 64 + 1 * 2 ^ 64) by lia.
    rewrite N.mod_add by discriminate. apply N.mod_small. lia. }
  rewrite E. rewrite land_wnot_ones by lia.
  rewrite (N.mod_small (v + 2 ^ k - 1 - 2 ^ 64)) by lia.
  rewrite N.sub_diag. reflexivity.
Qed.

Lemma is_aligned_spec : forall v k, is_word 64 v -> k < 64 -> (is_aligned v (2 ^ k) = true <-> (2 ^ k | v)).
Proof.
  intros v k Hv Hk. unfold is_aligned. rewrite wsub_pow2_1 by auto.
  rewrite N.land_ones, N.eqb_eq. pose proof (pow2_pos k).
  rewrite <- N.mod_divide by lia. split; congruence.
Qed.

Lemma int_div_ceil_spec : forall w n d, is_word w n -> 0 < n -> 0 < d ->
  exists q, int_div_ceil w n d = Ok q /\ (q - 1) * d < n <= q * d.
Proof.
  intros w n d Hn H0 Hd. unfold is_word in Hn. unfold int_div_ceil.
  destruct (N.ltb_spec 0 n); [|lia]. destruct (N.ltb_spec 0 d); [|lia]. cbn [andb contract bind].
  rewrite wsub_ge by lia.
  assert (L : (n - 1) / d <= n - 1) by (apply N.div_le_upper_bound; nia).
  rewrite wadd_small by lia. eexists; split; [reflexivity|].
  ndm (n - 1) d. nia.
Qed.

Lemma int_div_ceil_contract : forall w n d, (n = 0 \/ d = 0) -> int_div_ceil w n d = Contract.
Proof.
  intros w n d [->| ->]; unfold int_div_ceil; [reflexivity|].
  rewrite andb_false_r. reflexivity.
Qed.

Lemma int_ceil_to_multiple_spec : forall w v m, 0 < m -> v + m < 2 ^ w ->
  exists r, int_ceil_to_multiple w v m = Ok r /\ least_multiple_above m v r.
Proof.
  intros w v m Hm Hov. unfold int_ceil_to_multiple.
  destruct (N.eqb_spec m 0); [lia|]. cbn [negb defined bind].
  rewrite wadd_small by lia. rewrite wsub_ge by lia.
  destruct (lma_unique_form m v Hm) as [D [L M]].
  eexists; split; [reflexivity|].
  assert (R : v + m - 1 - (v + m - 1) mod m = (v + m - 1) / m * m) by (clear - Hm; assert (m <> 0) by lia; ndm (v + m - 1) m; lia).
  assert (R2 : (v + m - 1) / m * m <= v + m - 1) by (rewrite <- R; apply N.le_sub_l).
  rewrite R in *.
  unfold wmul. rewrite wrap_small by lia. split; auto.
Qed.

Lemma int_ceil_to_multiple_signed_spec : forall w v m, 0 < w -> (0 < m)%Z -> (0 <= v)%Z ->
  (v + m < 2 ^ (Z.of_N w - 1))%Z ->
  exists r, int_ceil_to_multiple_signed w v m = Ok r /\ (v <= r < v + m)%Z /\ (m | r)%Z.
Proof.
  intros w v m Hw Hm Hv Hov. unfold int_ceil_to_multiple_signed, in_signed.
  pose proof (Z.pow_pos_nonneg 2 (Z.of_N w - 1) ltac:(lia) ltac:(lia)) as HP.
  pose proof (Z.quot_rem' (v + m - 1) m) as QR.
  pose proof (Z.rem_bound_pos (v + m - 1) m ltac:(lia) ltac:(lia)) as RB.
  assert (0 <= Z.quot (v + m - 1) m)%Z by (apply Z.quot_pos; lia).
  assert (Z.quot (v + m - 1) m <= v + m - 1)%Z by nia.
  repeat match goal with |- context [defined ?b] =>
    replace b with true by (symmetry; rewrite ?andb_true_iff, ?negb_true_iff, ?Z.leb_le, ?Z.ltb_lt, ?Z.eqb_neq; nia);
    cbn [defined bind] end.
  eexists; split; [reflexivity|]. split; [nia|]. exists (Z.quot (v + m - 1) m). reflexivity.
Qed.

(* ---- wrapped increments ---- *)
Lemma wrapped_increment_eq : forall w p mx, is_word w mx -> p < mx ->
  wrapped_increment w p mx = (p + 1) mod mx.
Proof.
  intros w p mx Hm Hp. unfold is_word in Hm. unfold wrapped_increment. rewrite wadd_small by lia.
  destruct (N.eqb_spec (p + 1) mx).
  - rewrite e. rewrite N.mod_same; lia.
  - rewrite N.mod_small; lia.
Qed.

Lemma wrapped_decrement_eq : forall w p mx, is_word w mx -> p < mx ->
  wrapped_decrement w p mx = Ok ((p + (mx - 1)) mod mx).
Proof.
  intros w p mx Hm Hp. unfold is_word in Hm. unfold wrapped_decrement.
  destruct (N.ltb_spec 0 mx); [|lia]. cbn [contract bind]. f_equal.
  destruct (N.eqb_spec p 0).
  - subst. rewrite wsub_ge by lia. rewrite N.mod_small; lia.
  - rewrite wsub_ge by lia.
    replace (p + (mx - 1)) with (p - 1 + 1 * mx) by lia.
    rewrite N.mod_add by lia. rewrite N.mod_small; lia.
Qed.

Lemma wrapped_inverse : forall w p mx, is_word w mx -> p < mx ->
  wrapped_increment w p mx < mx /\
  wrapped_decrement w (wrapped_increment w p mx) mx = Ok p /\
  exists q, wrapped_decrement w p mx = Ok q /\ q < mx /\ wrapped_increment w q mx = p.
Proof.
  intros w p mx Hm Hp.
  assert (H1 : wrapped_increment w p mx < mx).
  { rewrite wrapped_increment_eq by auto. apply N.mod_lt. lia. }
  split; [auto|]. split.
  - rewrite wrapped_decrement_eq by auto. rewrite wrapped_increment_eq by auto.
    f_equal. rewrite N.add_mod_idemp_l by lia.
    replace (p + 1 + (mx - 1)) with (p + 1 * mx) by lia.
    rewrite N.mod_add by lia. apply N.mod_small; auto.
  - rewrite wrapped_decrement_eq by auto. eexists; split; [reflexivity|].
    assert ((p + (mx - 1)) mod mx < mx) by (apply N.mod_lt; lia).
    split; [auto|]. rewrite wrapped_increment_eq by auto.
    rewrite N.add_mod_idemp_l by lia.
    replace (p + (mx - 1) + 1) with (p + 1 * mx) by lia.
    rewrite N.mod_add by lia. apply N.mod_small; auto.
Qed.

Lemma wrapped_iter : forall w mx, is_word w mx -> 0 < mx -> forall n p, p < mx ->
  Nat.iter n (fun q => wrapped_increment w q mx) p = (p + N.of_nat n) mod mx.
Proof.
  intros w mx Hm H0 n. induction n; intros p Hp.
  - cbn. rewrite N.add_0_r. rewrite N.mod_small; auto.
  - cbn [Nat.iter nat_rect].
    change (nat_rect (fun _ : nat => N) p (fun _ : nat => fun q : N => wrapped_increment w q mx) n)
      with (Nat.iter n (fun q => wrapped_increment w q mx) p).
    rewrite IHn by auto. rewrite wrapped_increment_eq; auto.
    + rewrite N.add_mod_idemp_l by lia. f_equal. lia.
    + apply N.mod_lt. lia.
Qed.

Lemma wrapped_orbit : forall w mx p, is_word w mx -> p < mx ->
  Nat.iter (N.to_nat mx) (fun q => wrapped_increment w q mx) p = p.
Proof.
  intros. rewrite wrapped_iter by (auto; lia). rewrite N2Nat.id.
  replace (p + mx) with (p + 1 * mx) by lia. rewrite N.mod_add by lia. apply N.mod_small; auto.
Qed.

From Coq Require Import NArith ZArith Arith List Bool Lia.
From Verif Require Import Base BitsModel BitsProofs Sha1Model Sha1Spec.
Import ListNotations.
Open Scope N_scope.

Definition word (x : N) : Prop := x < 2 ^ 32.
Definition bytes (l : list N) : Prop := Forall (fun b => b < 256) l.

(* ---- bit level facts ---- *)
Lemma lor_add : forall n a b, a < 2 ^ n -> N.lor (b * 2 ^ n) a = b * 2 ^ n + a.
Proof.
  intros n a b Ha. rewrite <- N.shiftl_mul_pow2.
  assert (D : N.land (N.shiftl b n) a = 0).
  { apply N.bits_inj. intro i. rewrite N.land_spec, N.bits_0.
    destruct (N.ltb_spec i n).
    - rewrite N.shiftl_spec_low by auto. reflexivity.
    - rewrite (word_testbit n a i) by auto. apply andb_false_r. }
  rewrite N.add_nocarry_lxor, N.lxor_lor by auto. reflexivity.
Qed.

Lemma rol_ROTL : forall n x, 0 < n -> n < 32 -> word x -> rol x n = ROTL n x.
Proof.
  intros n x H0 H1 Hx. unfold rol, ROTL, wrap, M32, word in *.
  rewrite N.shiftl_mul_pow2, N.shiftr_div_pow2.
  assert (E : (x * 2 ^ n) mod 2 ^ 32 = (x mod 2 ^ (32 - n)) * 2 ^ n).
  { replace (2 ^ 32) with (2 ^ (32 - n) * 2 ^ n) by (rewrite <- N.pow_add_r; f_equal; lia).
    apply N.mul_mod_distr_r; apply N.pow_nonzero; discriminate. }
  rewrite E. apply lor_add.
  apply N.div_lt_upper_bound; [apply N.pow_nonzero; discriminate|].
  rewrite <- N.pow_add_r. replace (32 - n + n) with 32 by lia. auto.
Qed.

Lemma ROTL_word : forall n x, 0 < n -> n < 32 -> word x -> word (ROTL n x).
Proof.
  intros n x H0 H1 Hx. unfold ROTL, M32, word in *.
  assert (E : (x * 2 ^ n) mod 2 ^ 32 = (x mod 2 ^ (32 - n)) * 2 ^ n).
  { replace (2 ^ 32) with (2 ^ (32 - n) * 2 ^ n) by (rewrite <- N.pow_add_r; f_equal; lia).
    apply N.mul_mod_distr_r; apply N.pow_nonzero; discriminate. }
  rewrite E.
  assert (P : 2 ^ (32 - n) * 2 ^ n = 2 ^ 32) by (rewrite <- N.pow_add_r; f_equal; lia).
  assert (A : x / 2 ^ (32 - n) < 2 ^ n).
  { apply N.div_lt_upper_bound; [apply N.pow_nonzero; discriminate|]. rewrite P. auto. }
  assert (B : x mod 2 ^ (32 - n) < 2 ^ (32 - n)) by (apply N.mod_lt; apply N.pow_nonzero; discriminate).
  nia.
Qed.

Lemma lxor_word : forall a b, word a -> word b -> word (N.lxor a b).
Proof.
  intros a b Ha Hb. unfold word in *.
  assert (E : N.lxor a b = N.lxor a b mod 2 ^ 32).
  { apply N.bits_inj. intro i. destruct (N.ltb_spec i 32).
    - rewrite N.mod_pow2_bits_low by auto. reflexivity.
    - rewrite N.mod_pow2_bits_high by auto. rewrite N.lxor_spec.
      rewrite (word_testbit 32 a), (word_testbit 32 b) by auto. reflexivity. }
  rewrite E. apply N.mod_lt. discriminate.
Qed.

Lemma NOT_testbit : forall x i, word x -> N.testbit (NOT x) i = (negb (N.testbit x i) && (i <? 32))%bool.
Proof.
  intros x i Hx. unfold NOT, M32.
  replace (2 ^ 32 - 1 - x) with (N.lnot x 32).
  - destruct (N.ltb_spec i 32).
    + rewrite N.lnot_spec_low by auto. rewrite andb_true_r. reflexivity.
    + rewrite N.lnot_spec_high by auto. rewrite andb_false_r.
      apply (word_testbit 32); auto.
  - rewrite N.lnot_sub_low.
    + rewrite N.ones_equiv, N.pred_sub. reflexivity.
    + destruct (N.eq_dec x 0); [subst; reflexivity|]. apply N.log2_lt_pow2; auto. lia.
Qed.

Lemma Ch_eq : forall w x y, word w -> word y -> N.lxor (N.land w (N.lxor x y)) y = Ch w x y.
Proof.
  intros w x y Hw Hy. unfold Ch. apply N.bits_inj. intro i.
  rewrite !N.lxor_spec, !N.land_spec, N.lxor_spec, NOT_testbit by auto.
  destruct (N.ltb_spec i 32).
  - destruct (N.testbit w i), (N.testbit x i), (N.testbit y i); reflexivity.
  - rewrite (word_testbit 32 w), (word_testbit 32 y) by auto. reflexivity.
Qed.

Lemma Maj_eq : forall w x y, N.lor (N.land (N.lor w x) y) (N.land w x) = Maj w x y.
Proof.
  intros w x y. unfold Maj. apply N.bits_inj. intro i.
  rewrite !N.lxor_spec, !N.lor_spec, !N.land_spec, N.lor_spec.
  destruct (N.testbit w i), (N.testbit x i), (N.testbit y i); reflexivity.
Qed.

Lemma Parity_eq : forall w x y, N.lxor (N.lxor w x) y = Parity w x y.
Proof. intros. unfold Parity. apply N.lxor_assoc. Qed.

(* ---- endianness ---- *)
Lemma byteswap_lt : forall n v, byteswap_n n v < 2 ^ (8 * N.of_nat n).
Proof.
  intros. 
  assert (E : byteswap_n n v = byteswap_n n v mod 2 ^ (8 * N.of_nat n)).
  { apply N.bits_inj. intro i. destruct (N.ltb_spec i (8 * N.of_nat n)).
    - rewrite N.mod_pow2_bits_low by auto. reflexivity.
    - rewrite N.mod_pow2_bits_high by auto. rewrite byteswap_bits.
      destruct (N.ltb_spec i (8 * N.of_nat n)); [lia|reflexivity]. }
  rewrite E. apply N.mod_lt. apply N.pow_nonzero. discriminate.
Qed.

Lemma byteswap_S : forall n v,
  byteswap_n (S n) v = (v mod 256) * 2 ^ (8 * N.of_nat n) + byteswap_n n (v / 256).
Proof.
  intros. cbn [byteswap_n]. change 255 with (N.ones 8). rewrite N.land_ones.
  rewrite N.shiftl_mul_pow2, N.shiftr_div_pow2. change (2 ^ 8) with 256.
  apply lor_add. apply byteswap_lt.
Qed.

Lemma fold_be : forall l acc,
  fold_left (fun acc b => acc * 256 + b) l acc = acc * 2 ^ (8 * N.of_nat (length l)) + be_word l.
Proof.
  unfold be_word. induction l; intro acc; cbn [fold_left length].
  - change (8 * N.of_nat 0) with 0. rewrite N.pow_0_r. lia.
  - rewrite IHl. rewrite (IHl (0 * 256 + a)).
    replace (8 * N.of_nat (S (length l))) with (8 + 8 * N.of_nat (length l)) by lia.
    rewrite N.pow_add_r. change (2 ^ 8) with 256. nia.
Qed.

Lemma byteswap_le_load : forall bs, bytes bs -> byteswap_n (length bs) (le_load bs) = be_word bs.
Proof.
  induction bs; intro H; [reflexivity|].
  inversion H; subst. cbn [length le_load].
  rewrite byteswap_S.
  replace (a + 256 * le_load bs) with (a + le_load bs * 256) by lia.
  rewrite N.mod_add, N.div_add by discriminate.
  rewrite N.mod_small, N.div_small by auto. rewrite N.add_0_l.
  rewrite IHbs by auto. unfold be_word at 2. cbn [fold_left]. rewrite fold_be. lia.
Qed.

Lemma le_bytes_app : forall m b r, b < 256 -> r < 2 ^ (8 * N.of_nat m) ->
  le_bytes (S m) (b * 2 ^ (8 * N.of_nat m) + r) = le_bytes m r ++ [b].
Proof.
  induction m; intros b r Hb Hr.
  - change (8 * N.of_nat 0) with 0 in *. rewrite N.pow_0_r in *.
    replace (b * 1 + r) with b by lia. cbn [le_bytes app]. rewrite N.mod_small by auto. reflexivity.
  - cbn [app]. change (le_bytes (S m) r) with ((r mod 256) :: le_bytes m (r / 256)).
    replace (8 * N.of_nat (S m)) with (8 * N.of_nat m + 8) in * by lia.
    rewrite N.pow_add_r in *. change (2 ^ 8) with 256 in *.
    cbn [app].
    change (le_bytes (S (S m)) (b * (2 ^ (8 * N.of_nat m) * 256) + r))
      with (((b * (2 ^ (8 * N.of_nat m) * 256) + r) mod 256)
            :: le_bytes (S m) ((b * (2 ^ (8 * N.of_nat m) * 256) + r) / 256)).
    replace (b * (2 ^ (8 * N.of_nat m) * 256) + r) with (r + b * 2 ^ (8 * N.of_nat m) * 256) by lia.
    rewrite N.mod_add, N.div_add by discriminate. f_equal.
    rewrite N.add_comm. apply IHm; auto.
    apply N.div_lt_upper_bound; lia.
Qed.

Lemma le_bytes_byteswap : forall n v, le_bytes n (byteswap_n n v) = be_bytes n v.
Proof.
  induction n; intro v; [reflexivity|].
  rewrite byteswap_S. rewrite le_bytes_app.
  - rewrite IHn. reflexivity.
  - apply N.mod_lt. discriminate.
  - apply byteswap_lt.
Qed.

Lemma be_word_word : forall bs, bytes bs -> length bs = 4%nat -> word (be_word bs).
Proof.
  intros bs Hb HL. destruct bs as [|a [|b [|c [|d [|]]]]]; try discriminate.
  inversion Hb as [|? ? A B1]; subst. inversion B1 as [|? ? B C1]; subst.
  inversion C1 as [|? ? C D1]; subst. inversion D1 as [|? ? D E1]; subst.
  unfold be_word, word. cbn [fold_left]. change (2 ^ 32) with (256 * 256 * 256 * 256). lia.
Qed.

Lemma bytes_firstn : forall n l, bytes l -> bytes (firstn n l).
Proof. intros n l H. unfold bytes in *. rewrite <- (firstn_skipn n l) in H. apply Forall_app in H. tauto. Qed.
Lemma bytes_skipn : forall n l, bytes l -> bytes (skipn n l).
Proof. intros n l H. unfold bytes in *. rewrite <- (firstn_skipn n l) in H. apply Forall_app in H. tauto. Qed.

Lemma firstn_skipn_le : forall A (n m : nat) (l : list A), (m + n <= length l)%nat ->
  length (firstn n (skipn m l)) = n.
Proof. intros. rewrite firstn_length, skipn_length. lia. Qed.

Lemma skipn_firstn_sub : forall A (k n : nat) (l : list A), (k + 4 <= n)%nat ->
  firstn 4 (skipn k (firstn n l)) = firstn 4 (skipn k l).
Proof.
  intros A k n l H. rewrite skipn_firstn_comm. rewrite firstn_firstn. f_equal. lia.
Qed.

Lemma load_block_spec : forall buf, (64 <= length buf)%nat -> bytes buf ->
  load_block buf = block_words (firstn 64 buf).
Proof.
  intros buf HL HB. unfold load_block, block_words. apply map_ext_in. intros i Hi.
  apply in_seq in Hi.
  rewrite skipn_firstn_sub by lia.
  assert (L : length (firstn 4 (skipn (4 * i) buf)) = 4%nat) by (apply firstn_skipn_le; lia).
  rewrite <- byteswap_le_load by (apply bytes_firstn, bytes_skipn; auto).
  rewrite L. reflexivity.
Qed.

Lemma block_words_word : forall blk, bytes blk -> (64 <= length blk)%nat -> Forall word (block_words blk).
Proof.
  intros blk HB HL. unfold block_words. apply Forall_map. apply Forall_forall. intros i Hi.
  apply in_seq in Hi. apply be_word_word; [apply bytes_firstn, bytes_skipn; auto|].
  apply firstn_skipn_le. lia.
Qed.

Lemma block_words_length : forall blk, length (block_words blk) = 16%nat.
Proof. reflexivity. Qed.

(* ---- message schedule ---- *)
Lemma schedule_length : forall n m, length m = 16%nat -> length (schedule n m) = (16 + n)%nat.
Proof. induction n; intros m H; cbn [schedule]; [lia|]. rewrite app_length, IHn by auto. cbn. lia. Qed.

Lemma nth_word : forall l i, Forall word l -> word (nth i l 0).
Proof.
  intros l i H. destruct (Nat.lt_ge_cases i (length l)).
  - rewrite Forall_forall in H. apply H. apply nth_In. auto.
  - rewrite nth_overflow by auto. reflexivity.
Qed.

Lemma schedule_word : forall n m, Forall word m -> Forall word (schedule n m).
Proof.
  induction n; intros m H; cbn [schedule]; auto.
  apply Forall_app. split; [auto|]. constructor; [|constructor].
  apply ROTL_word; [reflexivity|reflexivity|].
  apply lxor_word; apply lxor_word; apply nth_word; auto.
Qed.

Lemma schedule_prefix : forall n k m i, length m = 16%nat -> (i < 16 + n)%nat ->
  nth i (schedule (n + k) m) 0 = nth i (schedule n m) 0.
Proof.
  intros n k m i Hm Hi. induction k.
  - rewrite Nat.add_0_r. reflexivity.
  - rewrite Nat.add_succ_r. cbn [schedule]. rewrite app_nth1; auto.
    rewrite schedule_length by auto. lia.
Qed.

Lemma schedule_rec : forall m t, length m = 16%nat -> (16 <= t < 80)%nat ->
  nth t (schedule 64 m) 0 =
  ROTL 1 (N.lxor (N.lxor (nth (t - 3) (schedule 64 m) 0) (nth (t - 8) (schedule 64 m) 0))
                 (N.lxor (nth (t - 14) (schedule 64 m) 0) (nth (t - 16) (schedule 64 m) 0))).
Proof.
  intros m t Hm Ht.
  assert (G : forall i, (i < t)%nat -> nth i (schedule 64 m) 0 = nth i (schedule (t - 16) m) 0).
  { intros i Hi. replace 64%nat with ((t - 16) + (80 - t))%nat by lia. apply schedule_prefix; auto. lia. }
  rewrite (G (t - 3)%nat), (G (t - 8)%nat), (G (t - 14)%nat), (G (t - 16)%nat) by lia.
  replace 64%nat with (S (t - 16) + (79 - t))%nat at 1 by lia.
  rewrite schedule_prefix by (auto; lia). cbn [schedule].
  rewrite app_nth2; rewrite schedule_length by auto; [|lia].
  replace (16 + (t - 16))%nat with t by lia. rewrite Nat.sub_diag. reflexivity.
Qed.

(* ---- the 80 rounds ---- *)
Definition kind_at (t : nat) : nat :=
  if (t <? 16)%nat then 0 else if (t <? 20)%nat then 1 else if (t <? 40)%nat then 2
  else if (t <? 60)%nat then 3 else 4.

Definition op_at (t : nat) : op :=
  let o := (5 - t mod 5)%nat in
  R (kind_at t) (o mod 5) ((o + 1) mod 5) ((o + 2) mod 5) ((o + 3) mod 5) ((o + 4) mod 5) (t mod 16).

Lemma program_eq : program = map op_at (seq 0 80).
Proof. vm_compute. reflexivity. Qed.

(* where the rotating roles live in the register file after t rounds *)
Definition lay (m : nat) (s : state) : list N :=
  let '(a, b, c, d, e) := s in
  match m with
  | 0%nat => [a; b; c; d; e]
  | 1%nat => [b; c; d; e; a]
  | 2%nat => [c; d; e; a; b]
  | 3%nat => [d; e; a; b; c]
  | _ => [e; a; b; c; d]
  end.

Definition state_word (s : state) : Prop :=
  let '(a, b, c, d, e) := s in word a /\ word b /\ word c /\ word d /\ word e.

Lemma plus32_word : forall a b, word (plus32 a b).
Proof. intros. unfold word, plus32. apply N.mod_lt. discriminate. Qed.

Lemma round_word : forall W t s, state_word s -> state_word (round W t s).
Proof.
  intros W t [[[[a b] c] d] e] [A [B [C [D E]]]]. cbn [round state_word].
  repeat split; auto; [apply plus32_word|apply ROTL_word; auto; reflexivity].
Qed.

Lemma rounds_word : forall n W s, state_word s -> state_word (rounds n W s).
Proof. induction n; intros; cbn [rounds]; auto. apply round_word; auto. Qed.

Lemma round_f_eq : forall t w x y, (t < 80)%nat -> word w -> word x -> word y ->
  round_f (kind_at t) w x y = f t w x y /\ round_k (kind_at t) = K t.
Proof.
  intros t w x y Ht Hw Hx Hy. unfold kind_at, f, K.
  destruct (Nat.ltb_spec t 16).
  { destruct (Nat.ltb_spec t 20); [|lia]. cbn [round_f round_k]. rewrite Ch_eq by auto. auto. }
  destruct (Nat.ltb_spec t 20).
  { cbn [round_f round_k]. rewrite Ch_eq by auto. auto. }
  destruct (Nat.ltb_spec t 40).
  { cbn [round_f round_k]. rewrite Parity_eq. auto. }
  destruct (Nat.ltb_spec t 60).
  { cbn [round_f round_k]. rewrite Maj_eq. auto. }
  cbn [round_f round_k]. rewrite Parity_eq. auto.
Qed.

Lemma sum_eq : forall e ff b k r,
  add32 e (add32 (add32 (add32 ff b) k) r) = plus32 (plus32 (plus32 (plus32 r ff) e) k) b.
Proof.
  intros. unfold add32, wadd, wrap, plus32, M32.
  assert (E : forall x y z, ((x mod 2 ^ 32 + y) mod 2 ^ 32 + z) mod 2 ^ 32 = (x + y + z) mod 2 ^ 32).
  { intros x y z. rewrite N.add_mod_idemp_l by discriminate.
    rewrite <- N.add_assoc, N.add_mod_idemp_l by discriminate. f_equal. lia. }
  rewrite N.add_mod_idemp_r by discriminate.
  rewrite (N.add_comm e), <- N.add_assoc.
  rewrite (N.add_comm (((ff + b) mod 2 ^ 32 + k) mod 2 ^ 32)).
  rewrite N.add_comm. rewrite E.
  replace ((((r + ff) mod 2 ^ 32 + e) mod 2 ^ 32 + k) mod 2 ^ 32) with ((r + ff + e + k) mod 2 ^ 32)
    by (symmetry; apply E).
  rewrite N.add_mod_idemp_l by discriminate. f_equal. lia.
Qed.

(* the circular buffer of the 16 most recent schedule words after t rounds *)
Definition ring_ok (W : list N) (t : nat) (block : list N) : Prop :=
  length block = 16%nat /\
  forall s, (Nat.max t 16 - 16 <= s < Nat.max t 16)%nat -> nth_error block (s mod 16)%nat = Some (nth s W 0).

Lemma ix_ring : forall i k, (i < 16)%nat ->
  N.to_nat (N.land (N.of_nat i + k) 15) = ((i + N.to_nat k) mod 16)%nat.
Proof.
  intros i k Hi. change 15 with (N.ones 4). rewrite N.land_ones. change (2 ^ 4) with (N.of_nat 16).
  rewrite <- (N2Nat.id k) at 1. rewrite <- Nat2N.inj_add.
  rewrite <- Nat2N.inj_mod. apply Nat2N.id.
Qed.

Lemma ring_get : forall W t block k, (16 <= t)%nat -> (k <= 16)%nat -> (0 < k)%nat -> ring_ok W t block ->
  nth_error block ((t mod 16 + (16 - k)) mod 16)%nat = Some (nth (t - k) W 0).
Proof.
  intros W t block k Ht Hk H0 [HL HR].
  replace ((t mod 16 + (16 - k)) mod 16)%nat with ((t - k) mod 16)%nat.
  - apply HR. lia.
  - rewrite Nat.add_mod_idemp_l by lia.
    replace (t + (16 - k))%nat with (t - k + 1 * 16)%nat by lia.
    rewrite Nat.mod_add by lia. reflexivity.
Qed.

Lemma mod16_lt : forall t, (t mod 16 < 16)%nat.
Proof. intro. apply Nat.mod_upper_bound. lia. Qed.

Lemma ring_step : forall m t block, length m = 16%nat -> Forall word m -> (t < 80)%nat ->
  ring_ok (schedule 64 m) t block ->
  exists block',
    (match kind_at t with
     | 0%nat => Ok block
     | _ => let! n := blk block (t mod 16)%nat in aset block (t mod 16)%nat n
     end) = Ok block'
    /\ ring_ok (schedule 64 m) (S t) block'
    /\ aget block' (t mod 16)%nat = Ok (nth t (schedule 64 m) 0).
Proof.
  intros m t block Hm Hmw Ht HR. pose proof (mod16_lt t) as HT.
  destruct (Nat.lt_ge_cases t 16) as [Hlt|Hge].
  - unfold kind_at. destruct (Nat.ltb_spec t 16); [|lia].
    exists block. split; [reflexivity|]. split.
    + destruct HR as [HL HR]. split; auto. intros s Hs. apply HR. lia.
    + apply aget_Ok. apply (proj2 HR). lia.
  - assert (K0 : kind_at t <> 0%nat).
    { unfold kind_at. destruct (Nat.ltb_spec t 16); [lia|].
      destruct (t <? 20)%nat, (t <? 40)%nat, (t <? 60)%nat; discriminate. }
    assert (B : blk block (t mod 16)%nat = Ok (nth t (schedule 64 m) 0)).
    { unfold blk. rewrite !ix_ring by auto.
      change (N.to_nat 13) with (16 - 3)%nat. change (N.to_nat 8) with (16 - 8)%nat.
      change (N.to_nat 2) with (16 - 14)%nat. unfold aget.
      rewrite (ring_get _ t block 3 Hge ltac:(lia) ltac:(lia) HR).
      rewrite (ring_get _ t block 8 Hge ltac:(lia) ltac:(lia) HR).
      rewrite (ring_get _ t block 14 Hge ltac:(lia) ltac:(lia) HR).
      pose proof (ring_get _ t block 16 Hge ltac:(lia) ltac:(lia) HR) as G16.
      change (16 - 16)%nat with 0%nat in G16. rewrite Nat.add_0_r, Nat.mod_mod in G16 by lia.
      rewrite G16. cbn [bind]. f_equal.
      pose proof (schedule_word 64 m Hmw) as SW.
      rewrite rol_ROTL; [|reflexivity|reflexivity|repeat apply lxor_word; apply nth_word; auto].
      rewrite (schedule_rec m t) by (auto; lia). rewrite <- !N.lxor_assoc. reflexivity. }
    exists (lset block (t mod 16)%nat (nth t (schedule 64 m) 0)). destruct HR as [HL HR].
    split; [|split].
    + destruct (kind_at t); [congruence|]. rewrite B. cbn [bind]. apply aset_Ok. lia.
    + split; [rewrite lset_length; auto|]. intros s Hs. rewrite lset_nth.
      destruct (Nat.eqb_spec (t mod 16) (s mod 16)) as [E|NE].
      * assert (s = t).
        { pose proof (Nat.div_mod t 16 ltac:(lia)). pose proof (Nat.div_mod s 16 ltac:(lia)). lia. }
        subst s. destruct (Nat.ltb_spec (t mod 16) (length block)); [reflexivity|lia].
      * apply HR. assert (s <> t) by congruence. lia.
    + apply aget_Ok. apply lset_nth_eq. lia.
Qed.

Lemma op_step : forall m t block s, length m = 16%nat -> Forall word m -> (t < 80)%nat ->
  ring_ok (schedule 64 m) t block -> state_word s ->
  exists block', do_op (op_at t) (block, lay (t mod 5)%nat s)
                 = Ok (block', lay (S t mod 5)%nat (round (schedule 64 m) t s))
    /\ ring_ok (schedule 64 m) (S t) block'.
Proof.
  intros m t block s Hm Hmw Ht HR HS.
  destruct (ring_step m t block Hm Hmw Ht HR) as [block' [E1 [E2 E3]]].
  exists block'. split; [|exact E2].
  unfold op_at, do_op. rewrite E1. cbn [bind]. rewrite E3. cbn [bind].
  destruct s as [[[[a b] c] d] e]. destruct HS as [A [B [C [D E]]]].
  destruct (round_f_eq t b c d Ht B C D) as [F1 F2].
  assert (M5 : (t mod 5 < 5)%nat) by (apply Nat.mod_upper_bound; lia).
  assert (S5 : (S t mod 5 = (t mod 5 + 1) mod 5)%nat).
  { rewrite Nat.add_mod_idemp_l by lia. f_equal. lia. }
  rewrite S5. clear S5.
  unfold round. clear E1 E2 E3. generalize (nth t (schedule 64 m) 0). intro w.
  rewrite <- F1, <- F2. clear F1 F2. rewrite <- sum_eq.
  rewrite <- (rol_ROTL 5), <- (rol_ROTL 30) by (auto; reflexivity).
  destruct (t mod 5)%nat as [|[|[|[|[|]]]]]; try lia; reflexivity.
Qed.

Lemma do_ops_app : forall l1 l2 st, do_ops (l1 ++ l2) st = (let! st := do_ops l1 st in do_ops l2 st).
Proof.
  induction l1; intros l2 st; cbn [app do_ops]; [reflexivity|].
  destruct (do_op a st); cbn [bind]; auto.
Qed.

Lemma rounds_sim : forall m s n, length m = 16%nat -> Forall word m -> state_word s -> (n <= 80)%nat ->
  exists block, do_ops (map op_at (seq 0 n)) (m, lay 0 s)
                = Ok (block, lay (n mod 5)%nat (rounds n (schedule 64 m) s))
    /\ ring_ok (schedule 64 m) n block.
Proof.
  intros m s n Hm Hmw Hs. induction n; intro Hn.
  - exists m. split; [reflexivity|]. split; auto. intros k Hk.
    assert (Hk16 : (k < 16)%nat) by lia.
    rewrite Nat.mod_small by lia.
    assert (E : nth k (schedule 64 m) 0 = nth k m 0).
    { change 64%nat with (0 + 64)%nat. rewrite schedule_prefix by (auto; lia). reflexivity. }
    rewrite E. apply nth_error_nth'. lia.
  - destruct IHn as [block [E R]]; [lia|].
    destruct (op_step m n block (rounds n (schedule 64 m) s) Hm Hmw ltac:(lia) R) as [block' [E' R']].
    { apply rounds_word; auto. }
    exists block'. split; [|auto].
    rewrite seq_S, map_app, do_ops_app, E. cbn [bind map do_ops plus]. rewrite E'. reflexivity.
Qed.

Definition st_list (s : state) : list N := lay 0 s.

Lemma transform_spec : forall buf h, (64 <= length buf)%nat -> bytes buf -> state_word h ->
  transform buf (st_list h) = Ok (st_list (compress h (firstn 64 buf))).
Proof.
  intros buf h HL HB HS. unfold transform.
  destruct (Nat.leb_spec 64 (length buf)); [|lia]. cbn [defined bind].
  rewrite load_block_spec by auto. rewrite program_eq.
  assert (HBW : Forall word (block_words (firstn 64 buf))).
  { apply block_words_word; [apply bytes_firstn; auto|]. rewrite firstn_length. lia. }
  destruct (rounds_sim (block_words (firstn 64 buf)) h 80 eq_refl HBW HS ltac:(lia)) as [block [E _]].
  unfold st_list. rewrite E. cbn [bind snd]. unfold compress.
  destruct h as [[[[a b] c] d] e].
  destruct (rounds 80 (schedule 64 (block_words (firstn 64 buf))) (a, b, c, d, e)) as [[[[a' b'] c'] d'] e'].
  change (80 mod 5)%nat with 0%nat. cbn [lay combine map fst snd].
  unfold add32, wadd, wrap, plus32, M32. rewrite (N.add_comm a), (N.add_comm b), (N.add_comm c), (N.add_comm d), (N.add_comm e).
  reflexivity.
Qed.

Lemma compress_word : forall h blk, state_word (compress h blk).
Proof.
  intros h blk. unfold compress. destruct h as [[[[a b] c] d] e].
  destruct (rounds 80 (schedule 64 (block_words blk)) (a, b, c, d, e)) as [[[[a' b'] c'] d'] e'].
  cbn. repeat split; apply plus32_word.
Qed.

(* ---- streaming ---- *)
Lemma process_word : forall n h l, state_word h -> state_word (process n h l).
Proof. induction n; intros; cbn [process]; auto. apply IHn. apply compress_word. Qed.

Lemma process_app : forall n m h l, (64 * n <= length l)%nat ->
  process (n + m) h l = process m (process n h l) (skipn (64 * n) l).
Proof.
  induction n; intros m h l HL.
  - reflexivity.
  - cbn [plus process]. rewrite IHn by (rewrite skipn_length; lia).
    rewrite skipn_skipn. do 2 f_equal. lia.
Qed.

Lemma process_prefix : forall n h l r, (64 * n <= length l)%nat -> process n h (l ++ r) = process n h l.
Proof.
  induction n; intros h l r HL; [reflexivity|].
  cbn [process]. rewrite firstn_app, skipn_app.
  replace (64 - length l)%nat with 0%nat by lia. rewrite firstn_O, skipn_O, app_nil_r.
  apply IHn. rewrite skipn_length. lia.
Qed.

(* the builder state after the message bytes D have been added *)
Definition holds (D : list N) (b : builder) : Prop :=
  digest b = st_list (process (length D / 64)%nat H0 D) /\
  total b = wrap 64 (N.of_nat (length D)) /\
  bytes (buffer b) /\ length (buffer b) = 128%nat /\
  bsize b = N.of_nat (length D mod 64)%nat /\
  firstn (length D mod 64)%nat (buffer b) = skipn (64 * (length D / 64))%nat D.

Lemma H0_word : state_word H0.
Proof. cbn. repeat split. Qed.

Lemma copy_in_spec : forall buf off src, length buf = 128%nat -> (off + length src <= 128)%nat ->
  copy_in buf (N.of_nat off) src = Ok (firstn off buf ++ src ++ skipn (off + length src) buf).
Proof.
  intros buf off src HL H. unfold copy_in.
  destruct (N.leb_spec (N.of_nat off + N.of_nat (length src)) 128); [|lia].
  rewrite Nat2N.id. reflexivity.
Qed.

Lemma copy_in_length : forall (buf : list N) off src, length buf = 128%nat -> (off + length src <= 128)%nat ->
  length (firstn off buf ++ src ++ skipn (off + length src) buf) = 128%nat.
Proof. intros. rewrite !app_length, firstn_length, skipn_length. lia. Qed.

Lemma copy_in_bytes : forall buf off src, bytes buf -> bytes src ->
  bytes (firstn off buf ++ src ++ skipn (off + length src) buf).
Proof.
  intros. unfold bytes in *. apply Forall_app; split; [apply bytes_firstn; auto|].
  apply Forall_app; split; auto. apply bytes_skipn; auto.
Qed.

Lemma copy_in_firstn : forall (buf : list N) off src, length buf = 128%nat -> (off + length src <= 128)%nat ->
  firstn (off + length src) (firstn off buf ++ src ++ skipn (off + length src) buf) = firstn off buf ++ src.
Proof.
  intros buf off src HL H. rewrite app_assoc. rewrite firstn_app.
  assert (L : length (firstn off buf ++ src) = (off + length src)%nat)
    by (rewrite app_length, firstn_length; lia).
  rewrite L, Nat.sub_diag. cbn [firstn]. rewrite app_nil_r. rewrite <- L. apply firstn_all.
Qed.

Lemma wsub64 : forall k, (k < 64)%nat -> wsub 64 64 (N.of_nat k) = N.of_nat (64 - k).
Proof.
  intros k H. rewrite wsub_ge; [lia| |lia]. reflexivity.
Qed.

Lemma add_loop_spec : forall fuel data D b, (length data < fuel)%nat -> bytes data -> holds D b ->
  forall tot, exists b', add_loop fuel data (mkB (digest b) tot (buffer b) (bsize b)) = Ok b'
    /\ total b' = tot
    /\ digest b' = st_list (process (length (D ++ data) / 64)%nat H0 (D ++ data))
    /\ bytes (buffer b') /\ length (buffer b') = 128%nat
    /\ bsize b' = N.of_nat (length (D ++ data) mod 64)%nat
    /\ firstn (length (D ++ data) mod 64)%nat (buffer b') = skipn (64 * (length (D ++ data) / 64))%nat (D ++ data).
Proof.
  induction fuel; intros data D b HF HB HH tot; [lia|].
  destruct HH as [Hd [Ht [Hbb [Hbl [Hbs Hbf]]]]].
  pose proof (Nat.mod_upper_bound (length D) 64 ltac:(lia)) as HM.
  pose proof (Nat.div_mod (length D) 64 ltac:(lia)) as HDM.
  set (q := (length D / 64)%nat) in *. set (k := (length D mod 64)%nat) in *.
  cbn [add_loop digest buffer bsize total]. rewrite Hbs, wsub64 by auto.
  destruct (N.ltb_spec (N.of_nat (length data)) (N.of_nat (64 - k))) as [Hlt|Hge].
  - assert (HL : (k + length data < 64)%nat) by lia.
    rewrite copy_in_spec by (auto; lia). cbn [bind].
    rewrite wadd_small by (change (2 ^ 64) with 18446744073709551616; lia).
    destruct (N.ltb_spec (N.of_nat k + N.of_nat (length data)) 64); [|lia]. cbn [contract bind].
    assert (Q : (length (D ++ data) / 64 = q)%nat).
    { rewrite app_length. symmetry. apply (Nat.div_unique _ 64 q (k + length data)); lia. }
    assert (R : (length (D ++ data) mod 64 = k + length data)%nat).
    { rewrite app_length. symmetry. apply (Nat.mod_unique _ 64 q (k + length data)); lia. }
    eexists; split; [reflexivity|]. cbn [total digest buffer bsize]. rewrite Q, R.
    repeat split; auto.
    + rewrite Hd. rewrite process_prefix by lia. reflexivity.
    + apply copy_in_bytes; auto.
    + apply copy_in_length; auto. lia.
    + lia.
    + rewrite copy_in_firstn by (auto; lia). rewrite Hbf.
      rewrite skipn_app. replace (64 * q - length D)%nat with 0%nat by lia. reflexivity.
  - assert (HG : (64 - k <= length data)%nat) by lia.
    rewrite Nat2N.id.
    set (n := (64 - k)%nat) in *.
    assert (FL : length (firstn n data) = n) by (rewrite firstn_length; lia).
    rewrite copy_in_spec by (auto; lia). cbn [bind].
    set (buf' := firstn k (buffer b) ++ firstn n data ++ skipn (k + length (firstn n data)) (buffer b)).
    assert (BL : length buf' = 128%nat) by (apply copy_in_length; auto; lia).
    assert (BB : bytes buf') by (apply copy_in_bytes; auto; apply bytes_firstn; auto).
    rewrite Hd.
    rewrite transform_spec; [|lia|auto|apply process_word, H0_word]. cbn [bind].
    set (D' := D ++ firstn n data).
    assert (LD' : length D' = (64 * S q)%nat) by (unfold D'; rewrite app_length, FL; lia).
    assert (F64 : firstn 64 buf' = skipn (64 * q) D').
    { unfold buf'. replace 64%nat with (k + length (firstn n data))%nat at 1 by lia.
      rewrite copy_in_firstn by (auto; lia). rewrite Hbf. unfold D'. rewrite skipn_app.
      replace (64 * q - length D)%nat with 0%nat by lia. reflexivity. }
    assert (PD : compress (process q H0 D) (firstn 64 buf') = process (S q) H0 D').
    { rewrite F64. replace (S q) with (q + 1)%nat by lia.
      rewrite process_app by lia. cbn [process]. unfold D' at 2. rewrite process_prefix by lia.
      rewrite firstn_all2; [reflexivity|]. rewrite skipn_length. lia. }
    assert (HH' : holds D' (mkB (st_list (process (S q) H0 D')) (wrap 64 (N.of_nat (length D'))) buf' 0)).
    { unfold holds. cbn [digest total buffer bsize].
      assert (Q : (length D' / 64 = S q)%nat).
      { rewrite LD'. rewrite Nat.mul_comm. apply Nat.div_mul. lia. }
      assert (R : (length D' mod 64 = 0)%nat).
      { rewrite LD'. rewrite Nat.mul_comm. apply Nat.mod_mul. lia. }
      rewrite Q, R. repeat split; auto.
      cbn [firstn]. rewrite skipn_all2 by lia. reflexivity. }
    rewrite PD.
    destruct (IHfuel (skipn n data) D' _ ltac:(rewrite skipn_length; lia) (bytes_skipn _ _ HB) HH' tot)
      as [b' [E R]].
    cbn [digest buffer bsize total] in E. rewrite E. exists b'. split; [reflexivity|].
    assert (DD : D ++ data = D' ++ skipn n data).
    { unfold D'. rewrite <- app_assoc, firstn_skipn. reflexivity. }
    rewrite DD. exact R.
Qed.

Lemma add_spec : forall data D b, bytes data -> holds D b ->
  exists b', add data b = Ok b' /\ holds (D ++ data) b'.
Proof.
  intros data D b HB HH. unfold add.
  destruct (add_loop_spec (S (length data)) data D b ltac:(lia) HB HH
              (wadd 64 (total b) (N.of_nat (length data)))) as [b' [E [T [A1 [A2 [A3 [A4 A5]]]]]]].
  exists b'. split; [exact E|]. unfold holds. repeat split; auto.
  rewrite T. destruct HH as [_ [Ht _]]. rewrite Ht. unfold wadd, wrap.
  rewrite N.add_mod_idemp_l by discriminate. rewrite app_length, Nat2N.inj_add. reflexivity.
Qed.

Lemma reset_holds : forall junk, length junk = 128%nat -> bytes junk -> holds [] (reset (mkB [] 0 junk 0)).
Proof. intros. unfold holds, reset. cbn. repeat split; auto. Qed.

Lemma reset2_holds : forall b, length (buffer b) = 128%nat -> bytes (buffer b) -> holds [] (reset b).
Proof. intros. unfold holds, reset. cbn. repeat split; auto. Qed.

Lemma add_all_spec : forall chunks D b, Forall bytes chunks -> holds D b ->
  exists b', add_all chunks b = Ok b' /\ holds (D ++ concat chunks) b'.
Proof.
  induction chunks; intros D b HF HH; cbn [add_all concat].
  - exists b. rewrite app_nil_r. auto.
  - inversion HF; subst. destruct (add_spec a D b H1 HH) as [b1 [E1 H1']].
    rewrite E1. cbn [bind]. destruct (IHchunks (D ++ a) b1 H2 H1') as [b2 [E2 H2']].
    exists b2. rewrite <- app_assoc in H2'. auto.
Qed.

(* ---- finalisation ---- *)
Lemma pad_loop_spec : forall fuel buf k, length buf = 128%nat -> bytes buf -> (k <= 120)%nat ->
  ((k <= 56 /\ 56 - k < fuel) \/ (56 < k /\ 120 - k < fuel))%nat ->
  let z := (if (k <=? 56)%nat then 56 - k else 120 - k)%nat in
  pad_loop fuel buf (N.of_nat k) = Ok (firstn k buf ++ repeat 0 z ++ skipn (k + z) buf, N.of_nat (k + z)).
Proof.
  induction fuel; intros buf k HL HB Hk HF z; [lia|].
  cbn [pad_loop].
  assert (MK : (N.of_nat k mod 64 =? 56) = ((k =? 56) || (k =? 120))%nat).
  { destruct (N.eqb_spec (N.of_nat k mod 64) 56) as [E|NE]; symmetry.
    - apply orb_true_iff. rewrite !Nat.eqb_eq.
      pose proof (N.div_mod (N.of_nat k) 64 ltac:(lia)) as DM. rewrite E in DM.
      assert (N.of_nat k / 64 < 2) by (apply N.div_lt_upper_bound; lia).
      assert (N.of_nat k / 64 = 0 \/ N.of_nat k / 64 = 1) as [Q|Q] by lia; rewrite Q in DM; lia.
    - apply orb_false_iff. rewrite !Nat.eqb_neq. split; intros ->; apply NE; reflexivity. }
  rewrite MK. subst z.
  destruct (Nat.eqb_spec k 56) as [->|N56].
  { cbn [orb Nat.leb Nat.sub repeat app]. rewrite Nat.add_0_r, firstn_skipn. reflexivity. }
  destruct (Nat.eqb_spec k 120) as [->|N120].
  { cbn [orb Nat.leb Nat.sub repeat app]. rewrite Nat.add_0_r, firstn_skipn. reflexivity. }
  cbn [orb].
  rewrite copy_in_spec by (cbn [length]; auto; lia). cbn [bind length].
  rewrite wadd_small by (change (2 ^ 64) with 18446744073709551616; lia).
  replace (N.of_nat k + 1) with (N.of_nat (S k)) by lia.
  set (buf' := firstn k buf ++ [0] ++ skipn (k + 1) buf).
  assert (L' : length buf' = 128%nat).
  { unfold buf'. rewrite !app_length, firstn_length, skipn_length. cbn [length]. lia. }
  rewrite (IHfuel buf' (S k)); auto.
  2:{ unfold buf', bytes. apply Forall_app; split; [apply bytes_firstn; auto|].
      apply Forall_app; split; [repeat constructor|apply bytes_skipn; auto]. }
  2:{ lia. }
  2:{ lia. }
  assert (ZZ : (if (k <=? 56)%nat then 56 - k else 120 - k)%nat
               = S (if (S k <=? 56)%nat then 56 - S k else 120 - S k)%nat).
  { destruct (Nat.leb_spec k 56), (Nat.leb_spec (S k) 56); lia. }
  rewrite ZZ. set (z := (if (S k <=? 56)%nat then 56 - S k else 120 - S k)%nat).
  f_equal. f_equal; [|f_equal; lia].
  assert (F : firstn (S k) buf' = firstn k buf ++ [0]).
  { unfold buf'. rewrite app_assoc, firstn_app.
    assert (LL : length (firstn k buf ++ [0]) = S k) by (rewrite app_length, firstn_length; cbn [length]; lia).
    rewrite LL, Nat.sub_diag, firstn_O. rewrite app_nil_r. rewrite firstn_all2; [reflexivity|lia]. }
  rewrite F. rewrite <- app_assoc. cbn [app repeat]. do 3 f_equal.
  unfold buf'. rewrite app_assoc, skipn_app.
  assert (LL : length (firstn k buf ++ [0]) = S k) by (rewrite app_length, firstn_length; cbn [length]; lia).
  rewrite LL. rewrite skipn_all2 by lia. cbn [app]. rewrite skipn_skipn. f_equal. lia.
Qed.

Lemma be_bytes_length : forall n v, length (be_bytes n v) = n.
Proof. induction n; intro v; cbn [be_bytes]; [reflexivity|]. rewrite app_length, IHn. cbn. lia. Qed.
Lemma be_bytes_bytes : forall n v, bytes (be_bytes n v).
Proof.
  induction n; intro v; cbn [be_bytes]; [constructor|]. apply Forall_app. split; [apply IHn|].
  constructor; [apply N.mod_lt; discriminate|constructor].
Qed.

Lemma be_bytes_mod : forall n v, be_bytes n (v mod 256 ^ N.of_nat n) = be_bytes n v.
Proof.
  induction n; intro v; [reflexivity|]. cbn [be_bytes].
  rewrite Nat2N.inj_succ, N.pow_succ_r'.
  assert (P : 256 ^ N.of_nat n <> 0) by (apply N.pow_nonzero; discriminate).
  rewrite N.mod_mul_r by (auto; discriminate).
  replace ((v mod 256 + 256 * ((v / 256) mod 256 ^ N.of_nat n)) / 256) with ((v / 256) mod 256 ^ N.of_nat n).
  - rewrite IHn. do 2 f_equal.
    rewrite N.mul_comm, N.mod_add by discriminate. apply N.mod_mod. discriminate.
  - rewrite N.mul_comm, N.div_add by discriminate.
    rewrite (N.div_small (v mod 256)); [reflexivity|]. apply N.mod_lt. discriminate.
Qed.

Lemma finalize_spec : forall D b, bytes D -> holds D b -> finalize b = Ok (SHA1 D).
Proof.
  intros D b HD HH. destruct HH as [Hd [Ht [Hbb [Hbl [Hbs Hbf]]]]].
  pose proof (Nat.mod_upper_bound (length D) 64 ltac:(lia)) as HM.
  pose proof (Nat.div_mod (length D) 64 ltac:(lia)) as HDM.
  set (q := (length D / 64)%nat) in *. set (k := (length D mod 64)%nat) in *.
  unfold finalize. rewrite Hbs.
  rewrite copy_in_spec by (cbn [length]; auto; lia). cbn [bind length].
  rewrite wadd_small by (change (2 ^ 64) with 18446744073709551616; lia).
  replace (N.of_nat k + 1) with (N.of_nat (S k)) by lia.
  set (buf1 := firstn k (buffer b) ++ [128] ++ skipn (k + 1) (buffer b)).
  assert (L1 : length buf1 = 128%nat).
  { unfold buf1. rewrite !app_length, firstn_length, skipn_length. cbn [length]. lia. }
  assert (B1 : bytes buf1).
  { unfold buf1, bytes. apply Forall_app; split; [apply bytes_firstn; auto|].
    apply Forall_app; split; [repeat constructor|apply bytes_skipn; auto]. }
  rewrite pad_loop_spec by (auto; lia). cbn [bind].
  set (z := (if (S k <=? 56)%nat then 56 - S k else 120 - S k)%nat).
  assert (Hz : (S k + z = 56 \/ S k + z = 120)%nat).
  { unfold z. destruct (Nat.leb_spec (S k) 56); lia. }
  assert (Hz2 : z = pad_zeros (length D)).
  { unfold pad_zeros, z. fold k. destruct (Nat.leb_spec (S k) 56).
    - replace (55 + 64 - k)%nat with (56 - S k + 1 * 64)%nat by lia.
      rewrite Nat.mod_add by lia. rewrite Nat.mod_small; lia.
    - rewrite Nat.mod_small; lia. }
  set (buf2 := firstn (S k) buf1 ++ repeat 0 z ++ skipn (S k + z) buf1).
  assert (L2 : length buf2 = 128%nat).
  { unfold buf2. rewrite !app_length, firstn_length, skipn_length, repeat_length. lia. }
  rewrite le_bytes_byteswap.
  assert (TB : wmul 64 (total b) 8 = (8 * N.of_nat (length D)) mod 256 ^ N.of_nat 8).
  { rewrite Ht. unfold wmul, wrap. rewrite N.mul_mod_idemp_l by discriminate.
    rewrite N.mul_comm. reflexivity. }
  rewrite TB, be_bytes_mod.
  set (lenb := be_bytes 8 (8 * N.of_nat (length D))).
  assert (LL : length lenb = 8%nat) by apply be_bytes_length.
  rewrite copy_in_spec by (rewrite ?LL; auto; lia). cbn [bind]. rewrite LL.
  set (buf3 := firstn (S k + z) buf2 ++ lenb ++ skipn (S k + z + 8) buf2).
  assert (L3 : length buf3 = 128%nat).
  { unfold buf3. rewrite !app_length, firstn_length, skipn_length, LL. lia. }
  assert (B2 : bytes buf2).
  { unfold buf2, bytes. apply Forall_app; split; [apply bytes_firstn; auto|].
    apply Forall_app; split; [|apply bytes_skipn; auto].
    apply Forall_forall. intros x Hx. apply repeat_spec in Hx. subst. reflexivity. }
  assert (B3 : bytes buf3).
  { unfold buf3, bytes. apply Forall_app; split; [apply bytes_firstn; auto|].
    apply Forall_app; split; [apply be_bytes_bytes|apply bytes_skipn; auto]. }
  (* the used part of the buffer is the unprocessed tail of the padded message *)
  set (n := (S k + z + 8)%nat).
  assert (Pfx : firstn n buf3 = skipn (64 * q) (pad D)).
  { assert (F1 : firstn (S k) buf1 = firstn k (buffer b) ++ [128]).
    { unfold buf1. rewrite app_assoc, firstn_app.
      assert (LX : length (firstn k (buffer b) ++ [128]) = S k) by (rewrite app_length, firstn_length; cbn [length]; lia).
      rewrite LX, Nat.sub_diag, firstn_O. rewrite app_nil_r. rewrite firstn_all2; [reflexivity|lia]. }
    assert (F2 : firstn (S k + z) buf2 = firstn k (buffer b) ++ [128] ++ repeat 0 z).
    { unfold buf2. rewrite F1. rewrite app_assoc, firstn_app.
      assert (LX : length ((firstn k (buffer b) ++ [128]) ++ repeat 0 z) = (S k + z)%nat)
        by (rewrite !app_length, firstn_length, repeat_length; cbn [length]; lia).
      rewrite LX, Nat.sub_diag, firstn_O. rewrite app_nil_r, firstn_all2, <- app_assoc by lia. reflexivity. }
    unfold n, buf3. rewrite app_assoc, firstn_app.
    assert (LX : length (firstn (S k + z) buf2 ++ lenb) = (S k + z + 8)%nat)
      by (rewrite app_length, firstn_length, LL; lia).
    rewrite LX, Nat.sub_diag, firstn_O. rewrite app_nil_r, firstn_all2, F2, Hbf by lia.
    unfold pad. rewrite skipn_app. replace (64 * q - length D)%nat with 0%nat by lia. rewrite skipn_O.
    rewrite <- Hz2. fold lenb. rewrite <- !app_assoc. reflexivity. }
  assert (LP : length (pad D) = (64 * q + n)%nat).
  { unfold pad. rewrite !app_length, repeat_length, be_bytes_length. cbn [length]. rewrite <- Hz2. unfold n. lia. }
  rewrite wadd_small by (change (2 ^ 64) with 18446744073709551616; lia).
  replace (N.of_nat (S k + z) + 8) with (N.of_nat n) by (unfold n; lia).
  rewrite Hd.
  assert (PW : state_word (process q H0 D)) by (apply process_word, H0_word).
  assert (PP : process q H0 D = process q H0 (pad D)).
  { unfold pad. rewrite process_prefix by lia. reflexivity. }
  assert (Fin : forall s, Ok (flat_map (fun w => le_bytes 4 (byteswap_n 4 w)) (st_list s))
                = Ok (let '(a, b, c, d, e) := s in flat_map (be_bytes 4) [a; b; c; d; e])).
  { intros [[[[a0 b0] c0] d0] e0]. f_equal. unfold st_list, lay.
    apply flat_map_ext. intro w. apply le_bytes_byteswap. }
  destruct Hz as [Hz|Hz].
  - replace n with 64%nat in * by (unfold n; lia).
    change (N.of_nat 64 =? 64) with true. cbn [orb contract bind].
    rewrite transform_spec by (auto; lia). cbn [bind].
    change (N.of_nat 64 =? 128) with false. cbn [bind]. rewrite Fin. unfold SHA1.
    assert (Q : (length (pad D) / 64 = q + 1)%nat).
    { rewrite LP. replace (64 * q + 64)%nat with ((q + 1) * 64)%nat by lia. apply Nat.div_mul. lia. }
    rewrite Q, process_app by lia. cbn [process]. rewrite <- Pfx, <- PP.
    rewrite firstn_firstn. change (Nat.min 64 64) with 64%nat. reflexivity.
  - replace n with 128%nat in * by (unfold n; lia).
    change (N.of_nat 128 =? 64) with false. change (N.of_nat 128 =? 128) with true. cbn [orb contract bind].
    rewrite transform_spec by (auto; lia). cbn [bind].
    rewrite transform_spec; [|rewrite skipn_length; lia|apply bytes_skipn; auto|apply compress_word].
    cbn [bind]. rewrite Fin. unfold SHA1.
    assert (Q : (length (pad D) / 64 = q + 2)%nat).
    { rewrite LP. replace (64 * q + 128)%nat with ((q + 2) * 64)%nat by lia. apply Nat.div_mul. lia. }
    rewrite Q, process_app by lia. cbn [process]. rewrite <- Pfx, <- PP.
    rewrite firstn_all2 with (n := 128%nat) by lia. reflexivity.
Qed.

Lemma concat_bytes : forall chunks, Forall bytes chunks -> bytes (concat chunks).
Proof.
  induction 1; cbn [concat]; [constructor|]. apply Forall_app. auto.
Qed.

Lemma sha1_chunks_spec : forall junk chunks, length junk = 128%nat -> bytes junk -> Forall bytes chunks ->
  sha1_chunks junk chunks = Ok (SHA1 (concat chunks)).
Proof.
  intros junk chunks HL HB HF. unfold sha1_chunks.
  destruct (add_all_spec chunks [] _ HF (reset_holds junk HL HB)) as [b [E H]].
  rewrite E. cbn [bind]. apply finalize_spec; auto. apply concat_bytes; auto.
Qed.

Lemma make_hash_spec : forall junk data, length junk = 128%nat -> bytes junk -> bytes data ->
  make_hash_sha1 junk data = Ok (SHA1 data).
Proof.
  intros junk data HL HB HF. unfold make_hash_sha1.
  destruct (add_spec data [] (reset (reset (mkB [] 0 junk 0))) HF) as [b [E H]].
  { apply reset2_holds; auto. }
  rewrite E. cbn [bind]. apply finalize_spec; auto.
Qed.

(* the builder can be reused after reset, whatever happened before *)
Lemma reuse_spec : forall b chunks, length (buffer b) = 128%nat -> bytes (buffer b) -> Forall bytes chunks ->
  (let! b := add_all chunks (reset b) in finalize b) = Ok (SHA1 (concat chunks)).
Proof.
  intros b chunks HL HB HF.
  destruct (add_all_spec chunks [] _ HF (reset2_holds b HL HB)) as [b' [E H]].
  rewrite E. cbn [bind]. apply finalize_spec; auto. apply concat_bytes; auto.
Qed.

Definition hex_value (c : N) : N := if c <=? 57 then c - 48 else c - 97 + 10.

Lemma hex_roundtrip : forall b, b < 256 ->
  hex_value (hexdigit (N.shiftr b 4)) * 16 + hex_value (hexdigit (N.land b 15)) = b.
Proof.
  intros b Hb. apply N.eqb_eq.
  assert (H : forallb (fun b => hex_value (hexdigit (N.shiftr b 4)) * 16 + hex_value (hexdigit (N.land b 15)) =? b)
                (map N.of_nat (seq 0 256)) = true) by (vm_compute; reflexivity).
  rewrite forallb_forall in H. apply H. apply in_map_iff. exists (N.to_nat b).
  split; [apply N2Nat.id|]. apply in_seq. lia.
Qed.

Lemma SHA1_length : forall m, length (SHA1 m) = 20%nat.
Proof.
  intro m. unfold SHA1. destruct (process (length (pad m) / 64) H0 (pad m)) as [[[[a b] c] d] e].
  cbn [flat_map]. rewrite !app_length, !be_bytes_length. reflexivity.
Qed.

(* statements for the property file: the bound is the domain of FIPS 180-4 *)
Lemma sha1_chunks_fips : forall junk chunks, length junk = 128%nat -> bytes junk -> Forall bytes chunks ->
  N.of_nat (length (concat chunks)) < 2 ^ 61 ->
  sha1_chunks junk chunks = Ok (SHA1 (concat chunks)).
Proof. intros. apply sha1_chunks_spec; auto. Qed.

Lemma make_hash_fips : forall junk data, length junk = 128%nat -> bytes junk -> bytes data ->
  N.of_nat (length data) < 2 ^ 61 -> make_hash_sha1 junk data = Ok (SHA1 data).
Proof. intros. apply make_hash_spec; auto. Qed.

Lemma SHA1_bytes : forall m, bytes (SHA1 m).
Proof.
  intro m. unfold SHA1. destruct (process (length (pad m) / 64) H0 (pad m)) as [[[[a b] c] d] e].
  cbn [flat_map]. unfold bytes. repeat (apply Forall_app; split; [apply be_bytes_bytes|]). constructor.
Qed.

Lemma hex_pairs : forall l, bytes l ->
  let t := flat_map (fun b => [hexdigit (N.shiftr b 4); hexdigit (N.land b 15)]) l in
  length t = (2 * length l)%nat /\
  forall i, (i < length l)%nat ->
    hex_value (nth (2 * i) t 0) * 16 + hex_value (nth (2 * i + 1) t 0) = nth i l 0.
Proof.
  induction l as [|x l IH]; intros HB t.
  - split; [reflexivity|]. cbn. lia.
  - inversion HB as [|? ? Hx Hl]; subst. destruct (IH Hl) as [L P]. split.
    + subst t. cbn [flat_map length app]. rewrite L. lia.
    + intros [|i] Hi; subst t; cbn [flat_map app].
      * apply hex_roundtrip; auto.
      * replace (2 * S i)%nat with (S (S (2 * i))) by lia.
        replace (S (S (2 * i)) + 1)%nat with (S (S (2 * i + 1))) by lia.
        cbn [nth length] in *. apply P. lia.
Qed.

Lemma hex_string_spec : forall junk data, length junk = 128%nat -> bytes junk -> bytes data ->
  N.of_nat (length data) < 2 ^ 61 ->
  exists t, make_hash_sha1_string junk data = Ok t /\ length t = 40%nat /\
    (forall c, In c t -> 48 <= c <= 57 \/ 97 <= c <= 102) /\
    forall i, (i < 20)%nat ->
      hex_value (nth (2 * i) t 0) * 16 + hex_value (nth (2 * i + 1) t 0) = nth i (SHA1 data) 0.
Proof.
  intros junk data HL HB HF HS. unfold make_hash_sha1_string.
  rewrite make_hash_spec by auto. cbn [bind]. eexists; split; [reflexivity|].
  destruct (hex_pairs _ (SHA1_bytes data)) as [L P]. rewrite SHA1_length in *.
  split; [exact L|]. split; [|exact P].
  intros c Hc. apply in_flat_map in Hc. destruct Hc as [b [Hb Hc]].
  pose proof (SHA1_bytes data) as SB. unfold bytes in SB. rewrite Forall_forall in SB. apply SB in Hb.
  assert (G : forall v, v < 16 -> 48 <= hexdigit v <= 57 \/ 97 <= hexdigit v <= 102).
  { intros v Hv.
    assert (H : forallb (fun v => ((48 <=? hexdigit v) && (hexdigit v <=? 57)) || ((97 <=? hexdigit v) && (hexdigit v <=? 102)))
                (map N.of_nat (seq 0 16)) = true) by (vm_compute; reflexivity).
    rewrite forallb_forall in H. specialize (H v).
    rewrite orb_true_iff, !andb_true_iff, !N.leb_le in H. apply H.
    apply in_map_iff. exists (N.to_nat v). split; [apply N2Nat.id|]. apply in_seq. lia. }
  destruct Hc as [<-|[<-|[]]]; apply G.
  - rewrite N.shiftr_div_pow2. apply N.div_lt_upper_bound; [discriminate|]. exact Hb.
  - change 15 with (N.ones 4). rewrite N.land_ones. apply N.mod_lt. discriminate.
Qed.

Lemma split_invariance : forall junk junk' chunks, length junk = 128%nat -> bytes junk ->
  length junk' = 128%nat -> bytes junk' -> Forall bytes chunks ->
  sha1_chunks junk chunks = sha1_chunks junk' [concat chunks].
Proof.
  intros. rewrite !sha1_chunks_spec; auto.
  - cbn [concat]. rewrite app_nil_r. reflexivity.
  - constructor; [apply concat_bytes; auto|constructor].
Qed.

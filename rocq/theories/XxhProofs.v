(* XXH32 and XXH64: the code computes the reference semantics, one-shot and streaming. *)
From Coq Require Import NArith Arith List Lia Bool.
From Verif Require Import Base XxhModel XxhSpec.
Import ListNotations.
Open Scope N_scope.

(* ---- stripes ---- *)
Section Stripes.
  Context {S : Type} (n : nat) (f : S -> list N -> S) (Hn : (0 < n)%nat).

  Lemma over_small : forall s bs, (length bs < n)%nat -> over_stripes n f s bs = s.
  Proof. intros s bs L. unfold over_stripes. rewrite Nat.div_small by auto. reflexivity. Qed.

  Lemma stripe_S : forall k bs, stripe n (Datatypes.S k) bs = stripe n k (skipn n bs).
  Proof. intros. unfold stripe. rewrite skipn_skipn. do 2 f_equal. lia. Qed.

  Lemma over_cons : forall s bs, (n <= length bs)%nat ->
    over_stripes n f s bs = over_stripes n f (f s (firstn n bs)) (skipn n bs).
  Proof.
    intros s bs L. unfold over_stripes.
    assert (E : (length bs / n = Datatypes.S (length (skipn n bs) / n))%nat).
    { rewrite skipn_length. replace (length bs) with ((length bs - n) + 1 * n)%nat at 1 by lia.
      rewrite Nat.div_add by lia. lia. }
    rewrite E. cbn [seq fold_left].
    replace (stripe n 0 bs) with (firstn n bs) by (unfold stripe; rewrite Nat.mul_0_r; reflexivity).
    rewrite <- seq_shift.
    generalize (f s (firstn n bs)). generalize (seq 0 (length (skipn n bs) / n)).
    induction l as [|k l IH]; intro s0; cbn [map fold_left]; auto. rewrite IH. now rewrite stripe_S.
  Qed.

  Lemma rest_small : forall bs, (length bs < n)%nat -> rest n bs = bs.
  Proof. intros bs L. unfold rest. rewrite Nat.div_small by auto. rewrite Nat.mul_0_r. reflexivity. Qed.

  Lemma rest_cons : forall bs, (n <= length bs)%nat -> rest n bs = rest n (skipn n bs).
  Proof.
    intros bs L. unfold rest. rewrite skipn_skipn, skipn_length. f_equal.
    replace (length bs) with ((length bs - n) + 1 * n)%nat at 1 by lia. rewrite Nat.div_add by lia. lia.
  Qed.

  Lemma rest_length : forall bs, length (rest n bs) = (length bs mod n)%nat.
  Proof. intros. unfold rest. rewrite skipn_length. rewrite Nat.mod_eq by lia. lia. Qed.

  Lemma stripes_app : forall m a b s, (length a <= m)%nat ->
    over_stripes n f s (a ++ b) = over_stripes n f (over_stripes n f s a) (rest n a ++ b)
    /\ rest n (a ++ b) = rest n (rest n a ++ b).
  Proof.
    induction m; intros a b s L.
    - destruct a; [|cbn in L; lia]. cbn [app]. rewrite (rest_small []) by (cbn; lia).
      rewrite (over_small s []) by (cbn; lia). auto.
    - destruct (Nat.ltb_spec (length a) n) as [Lt|Ge].
      + rewrite (rest_small a), (over_small s a) by auto. auto.
      + rewrite (over_cons s (a ++ b)) by (rewrite app_length; lia).
        rewrite (rest_cons (a ++ b)) by (rewrite app_length; lia).
        rewrite (over_cons s a) by auto. rewrite (rest_cons a) by auto.
        rewrite firstn_app, skipn_app. replace (n - length a)%nat with 0%nat by lia.
        cbn [firstn skipn]. rewrite app_nil_r.
        apply IHm. rewrite skipn_length. lia.
  Qed.
  Lemma over_app : forall a b s,
    over_stripes n f s (a ++ b) = over_stripes n f (over_stripes n f s a) (rest n a ++ b).
  Proof. intros. now apply (stripes_app (length a)). Qed.
  Lemma rest_app : forall (s : S) a b, rest n (a ++ b) = rest n (rest n a ++ b).
  Proof. intros s a b. now apply (stripes_app (length a) a b s). Qed.

  Lemma over_inv : forall (P : S -> Prop) s bs, P s -> (forall s st, P s -> P (f s st)) -> P (over_stripes n f s bs).
  Proof.
    intros P s bs H I. unfold over_stripes. generalize (seq 0 (length bs / n)). intro l. revert s H.
    induction l; intros s H; cbn; auto.
  Qed.
End Stripes.

(* ---- words ---- *)
Lemma add_mod_l : forall a b m, m <> 0 -> (a mod m + b) mod m = (a + b) mod m.
Proof. intros. rewrite N.add_mod_idemp_l; auto. Qed.
Lemma add_mod_r : forall a b m, m <> 0 -> (a + b mod m) mod m = (a + b) mod m.
Proof. intros. rewrite N.add_mod_idemp_r; auto. Qed.
Lemma pow2_nz : forall w, 2 ^ w <> 0.
Proof. intros. apply N.pow_nonzero. discriminate. Qed.

Lemma lor_add : forall a b r, b < 2 ^ r -> N.lor (a * 2 ^ r) b = a * 2 ^ r + b.
Proof.
  intros a b r H. rewrite <- N.shiftl_mul_pow2.
  assert (D : N.land (N.shiftl a r) b = 0).
  { apply N.bits_inj_0. intro i. rewrite N.land_spec. destruct (N.ltb_spec i r) as [L|L].
    - rewrite N.shiftl_spec_low by auto. reflexivity.
    - rewrite <- (N.mod_small b (2 ^ r)) by auto. rewrite N.mod_pow2_bits_high by auto. apply andb_false_r. }
  rewrite <- N.lxor_lor by auto. rewrite <- N.add_nocarry_lxor by auto. reflexivity.
Qed.

Lemma rotl_rot : forall w x r, x < 2 ^ w -> r <= w -> rotl w x r = rot w x r.
Proof.
  intros w x r Hx Hr. unfold rotl, rot, wrap. rewrite N.shiftl_mul_pow2, N.shiftr_div_pow2.
  replace (2 ^ w) with (2 ^ (w - r) * 2 ^ r) by (rewrite <- N.pow_add_r; f_equal; lia).
  rewrite N.mul_mod_distr_r by (apply pow2_nz). apply lor_add.
  apply N.div_lt_upper_bound; [apply pow2_nz|]. rewrite <- N.pow_add_r. replace (w - r + r) with w by lia. auto.
Qed.

Lemma xorshift_mix : forall x s, xorshift x s = mix x s.
Proof. intros. unfold xorshift, mix. now rewrite N.shiftr_div_pow2. Qed.

Lemma lxor_lt : forall w a b, a < 2 ^ w -> b < 2 ^ w -> N.lxor a b < 2 ^ w.
Proof.
  intros w a b Ha Hb.
  assert (E : N.lxor a b mod 2 ^ w = N.lxor a b).
  { apply N.bits_inj. intro i. destruct (N.ltb_spec i w) as [L|L].
    - rewrite N.mod_pow2_bits_low by auto. auto.
    - rewrite N.mod_pow2_bits_high by auto. rewrite N.lxor_spec.
      rewrite <- (N.mod_small a (2 ^ w)), <- (N.mod_small b (2 ^ w)) by auto.
      rewrite !N.mod_pow2_bits_high by auto. reflexivity. }
  rewrite <- E. apply N.mod_lt. apply pow2_nz.
Qed.
Lemma mix_lt : forall w x s, x < 2 ^ w -> mix x s < 2 ^ w.
Proof.
  intros. unfold mix. apply lxor_lt; auto. eapply N.le_lt_trans; [apply N.div_le_upper_bound with (q := x)|eauto].
  - apply pow2_nz.
  - pose proof (pow2_pos s). nia.
Qed.

(* ---- reads ---- *)
Lemma aget_nth : forall b p, (p < length b)%nat -> aget b p = Ok (nth p b 0).
Proof. intros b p H. apply aget_Ok. now apply nth_error_nth'. Qed.

Lemma firstn_S_nth : forall {A} k p (b : list A) d, (p < length b)%nat ->
  firstn (S k) (skipn p b) = nth p b d :: firstn k (skipn (S p) b).
Proof.
  intros A k p. revert k. induction p; intros k [|x b] d H; cbn in H; try lia; [reflexivity|].
  change (skipn (S p) (x :: b)) with (skipn p b). change (skipn (S (S p)) (x :: b)) with (skipn (S p) b).
  apply IHp. lia.
Qed.

Lemma readLE32_ok : forall b p, (p + 4 <= length b)%nat -> readLE32 b p = Ok (le (firstn 4 (skipn p b))).
Proof.
  intros b p H. unfold readLE32.
  rewrite !aget_nth by lia. cbn [bind].
  rewrite (firstn_S_nth 3 p b 0), (firstn_S_nth 2 (S p) b 0), (firstn_S_nth 1 (S (S p)) b 0),
    (firstn_S_nth 0 (S (S (S p))) b 0) by lia.
  cbn [firstn le].
  replace (p + 1)%nat with (S p) by lia. replace (p + 2)%nat with (S (S p)) by lia.
  replace (p + 3)%nat with (S (S (S p))) by lia. f_equal.
  change (2 ^ 8) with 256. change (2 ^ 16) with 65536. change (2 ^ 24) with 16777216. lia.
Qed.

Lemma le_app : forall a b, le (a ++ b) = le a + 256 ^ N.of_nat (length a) * le b.
Proof.
  induction a; intro b; cbn [app le].
  - cbn. destruct (le b); reflexivity.
  - rewrite IHa. cbn [length]. rewrite Nat2N.inj_succ, N.pow_succ_r'. lia.
Qed.

Lemma firstn_add : forall {A} i j (l : list A), firstn (i + j) l = firstn i l ++ firstn j (skipn i l).
Proof. induction i; intros j [|x l]; cbn; auto. - now destruct j. - now rewrite IHi. Qed.

Lemma readLE64_ok : forall b p, (p + 8 <= length b)%nat -> readLE64 b p = Ok (le (firstn 8 (skipn p b))).
Proof.
  intros b p H. unfold readLE64. rewrite !readLE32_ok by lia. cbn [bind].
  change 8%nat with (4 + 4)%nat. rewrite firstn_add, le_app, skipn_skipn.
  rewrite firstn_length, skipn_length. replace (Nat.min 4 (length b - p)) with 4%nat by lia. reflexivity.
Qed.

Lemma copy_ok : forall dst d src s n, (d + n <= length dst)%nat -> (s + n <= length src)%nat ->
  copy dst d src s n = Ok (firstn d dst ++ firstn n (skipn s src) ++ skipn (d + n) dst).
Proof.
  intros. unfold copy. now rewrite (proj2 (Nat.leb_le _ _) H), (proj2 (Nat.leb_le _ _) H0).
Qed.
Lemma copy_length : forall dst d src s n m, copy dst d src s n = Ok m -> length m = length dst.
Proof.
  intros dst d src s n m H. unfold copy in H.
  destruct (Nat.leb_spec (d + n) (length dst)); cbn in H; [|discriminate].
  destruct (Nat.leb_spec (s + n) (length src)); cbn in H; [|discriminate].
  inversion H; subst. rewrite !app_length, !firstn_length, !skipn_length. lia.
Qed.

(* stripes of a piece of the buffer *)
Lemma stripe_piece : forall n k m p b, (n * k + n <= m)%nat ->
  stripe n k (firstn m (skipn p b)) = firstn n (skipn (p + n * k) b).
Proof.
  intros n k m p b H. unfold stripe. rewrite skipn_firstn_comm, skipn_skipn, firstn_firstn. f_equal. lia.
Qed.

(* ---- loops ---- *)
Section While.
  Context (b : list N) (n : nat) (g : N * nat -> outcome (N * nat)) (f : N -> list N -> N) (P : N -> Prop).
  Hypothesis Hn : (0 < n)%nat.
  Hypothesis G : forall h p, P h -> (p + n <= length b)%nat -> g (h, p) = Ok (f h (firstn n (skipn p b)), (p + n)%nat).
  Hypothesis I : forall h st, P h -> P (f h st).

  Lemma while_ok : forall fuel len h p, (len <= fuel)%nat -> P h -> (p + len <= length b)%nat ->
    while_ge fuel n len g (h, p)
    = Ok ((over_stripes n f h (firstn len (skipn p b)), (p + n * (len / n))%nat), (len mod n)%nat).
  Proof.
    induction fuel; intros len h p Hf HP L.
    - cbn. destruct (Nat.leb_spec n len); [lia|]. rewrite Nat.mod_small, Nat.div_small by lia.
      rewrite over_small; auto; [|rewrite firstn_length; lia]. repeat (lia || f_equal).
    - cbn [while_ge]. destruct (Nat.leb_spec n len) as [Ge|Lt].
      + rewrite G by (auto; lia). cbn [bind]. rewrite IHfuel by (auto; lia).
        rewrite (over_cons n f Hn _ (firstn len _)) by (rewrite firstn_length, skipn_length; lia).
        rewrite firstn_firstn, skipn_firstn_comm, skipn_skipn. rewrite Nat.min_l by lia.
        assert (E : (len / n = S ((len - n) / n))%nat).
        { replace len with ((len - n) + 1 * n)%nat at 1 by lia. rewrite Nat.div_add by lia. lia. }
        assert (E2 : ((len - n) mod n = len mod n)%nat).
        { replace len with ((len - n) + 1 * n)%nat at 2 by lia. rewrite Nat.mod_add by lia. auto. }
        rewrite E, E2. replace (p + n * S ((len - n) / n))%nat with (p + n + n * ((len - n) / n))%nat
          by (rewrite Nat.mul_succ_r; lia). reflexivity.
      + rewrite Nat.mod_small, Nat.div_small by lia.
        rewrite over_small; auto; [|rewrite firstn_length; lia]. repeat (lia || f_equal).
  Qed.
End While.

(* ---- XXH32 ---- *)
Lemma p32_pos : 2 ^ 32 <> 0. Proof. discriminate. Qed.
Lemma p64_pos : 2 ^ 64 <> 0. Proof. discriminate. Qed.

Lemma round32_ok : forall a x, XXH32_round a x = round32 a x.
Proof.
  intros. unfold XXH32_round, round32. rewrite rotl_rot; [|apply wrap_lt|lia].
  unfold wadd, wmul, wrap. now rewrite add_mod_r by discriminate.
Qed.
Lemma avalanche32_ok : forall h, XXH32_avalanche h = final32 h.
Proof. intros. unfold XXH32_avalanche, final32. now rewrite !xorshift_mix. Qed.

Lemma process1_ok : forall b h p, (p + 1 <= length b)%nat ->
  PROCESS1 b (h, p) = Ok (byte32 h (firstn 1 (skipn p b)), (p + 1)%nat).
Proof.
  intros. unfold PROCESS1, read8. rewrite aget_nth by lia. cbn [bind]. rewrite rotl_rot; [|apply wrap_lt|lia].
  rewrite (firstn_S_nth 0 p b 0) by lia. unfold byte32. cbn [firstn le]. rewrite N.mul_0_r, N.add_0_r.
  unfold wadd, wmul, wrap. now rewrite add_mod_r by discriminate.
Qed.
Lemma process4_ok : forall b h p, (p + 4 <= length b)%nat ->
  PROCESS4 b (h, p) = Ok (word32 h (firstn 4 (skipn p b)), (p + 4)%nat).
Proof.
  intros. unfold PROCESS4. rewrite readLE32_ok by lia. cbn [bind]. rewrite rotl_rot; [|apply wrap_lt|lia].
  unfold word32, wadd, wmul, wrap. now rewrite add_mod_r by discriminate.
Qed.

(* both ways of writing the tail are the same function, on every buffer *)
Lemma finalize32_agree : forall b h p len, XXH32_finalize_unrolled b h p len = XXH32_finalize_rerolled b h p len.
Proof.
  intros. unfold XXH32_finalize_unrolled, XXH32_finalize_rerolled.
  assert (L := Nat.mod_upper_bound len 16 ltac:(lia)). set (m := (len mod 16)%nat) in *. clearbody m.
  do 16 (destruct m as [|m];
    [cbn -[PROCESS1 PROCESS4 XXH32_avalanche]; auto;
     repeat (match goal with |- context [PROCESS4 b ?s] => destruct (PROCESS4 b s); cbn -[PROCESS1 PROCESS4 XXH32_avalanche]; auto
                           | |- context [PROCESS1 b ?s] => destruct (PROCESS1 b s); cbn -[PROCESS1 PROCESS4 XXH32_avalanche]; auto end)|]).
  lia.
Qed.

Lemma finalize32_ok : forall re b h p len, (p + len mod 16 <= length b)%nat ->
  XXH32_finalize re b h p len = Ok (final32 (tail32 h (firstn (len mod 16) (skipn p b)))).
Proof.
  intros re b h p len L. unfold XXH32_finalize.
  assert (E : (if re then XXH32_finalize_rerolled b h p len else XXH32_finalize_unrolled b h p len) = XXH32_finalize_rerolled b h p len)
    by (destruct re; auto using finalize32_agree).
  rewrite E. clear E. unfold XXH32_finalize_rerolled. set (m := (len mod 16)%nat) in *. clearbody m.
  rewrite (while_ok b 4 (PROCESS4 b) word32 (fun _ => True)); auto using process4_ok; try lia.
  cbn [bind].
  rewrite (while_ok b 1 (PROCESS1 b) byte32 (fun _ => True)); auto using process1_ok; try lia.
  2:{ pose proof (Nat.div_mod m 4 ltac:(lia)). lia. }
  cbn [bind fst]. rewrite avalanche32_ok. unfold tail32. do 3 f_equal.
  unfold rest. rewrite firstn_length, skipn_length. replace (Nat.min m (length b - p)) with m by lia.
  rewrite skipn_firstn_comm, skipn_skipn. f_equal. rewrite Nat.mod_eq by lia. reflexivity.
Qed.

Lemma round4_32_ok : forall b v p, (p + 16 <= length b)%nat ->
  round4_32 b v p = Ok (each_lane 4 round32 v (firstn 16 (skipn p b))).
Proof.
  intros b [[[v1 v2] v3] v4] p L. unfold round4_32. rewrite !readLE32_ok by lia. cbn [bind].
  unfold each_lane. rewrite !stripe_piece by lia. rewrite !round32_ok.
  replace (p + 4 * 0)%nat with p by lia. reflexivity.
Qed.

Lemma loop32_ok : forall fuel b p v, (p + 16 <= length b)%nat -> (length b - p <= 16 * fuel)%nat ->
  loop32 fuel b p (length b - 15) v
  = Ok (over_stripes 16 (each_lane 4 round32) v (skipn p b), (p + 16 * ((length b - p) / 16))%nat).
Proof.
  induction fuel; intros b p v L F; [lia|]. cbn [loop32]. rewrite round4_32_ok by auto. cbn [bind].
  rewrite (over_cons 16 _ ltac:(lia) _ (skipn p b)) by (rewrite skipn_length; lia). rewrite skipn_skipn.
  assert (E : ((length b - p) / 16 = S ((length b - (p + 16)) / 16))%nat).
  { replace (length b - p)%nat with ((length b - (p + 16)) + 1 * 16)%nat by lia. rewrite Nat.div_add by lia. lia. }
  rewrite E. destruct (Nat.ltb_spec (p + 16) (length b - 15)) as [Lt|Ge].
  - rewrite IHfuel by lia. repeat (lia || f_equal).
  - rewrite Nat.div_small by lia. rewrite over_small by (try rewrite skipn_length; lia). repeat (lia || f_equal).
Qed.
Lemma update_loop32_ok : forall fuel b p v, (p + 16 <= length b)%nat -> (length b - p <= 16 * fuel)%nat ->
  update_loop32 fuel b p (length b - 16) v
  = Ok (over_stripes 16 (each_lane 4 round32) v (skipn p b), (p + 16 * ((length b - p) / 16))%nat).
Proof.
  induction fuel; intros b p v L F; [lia|]. cbn [update_loop32]. rewrite round4_32_ok by auto. cbn [bind].
  rewrite (over_cons 16 _ ltac:(lia) _ (skipn p b)) by (rewrite skipn_length; lia). rewrite skipn_skipn.
  assert (E : ((length b - p) / 16 = S ((length b - (p + 16)) / 16))%nat).
  { replace (length b - p)%nat with ((length b - (p + 16)) + 1 * 16)%nat by lia. rewrite Nat.div_add by lia. lia. }
  rewrite E. destruct (Nat.leb_spec (p + 16) (length b - 16)) as [Lt|Ge].
  - rewrite IHfuel by lia. repeat (lia || f_equal).
  - rewrite Nat.div_small by lia. rewrite over_small by (try rewrite skipn_length; lia). repeat (lia || f_equal).
Qed.

Lemma start32_ok : forall seed, start32 seed = init32 seed.
Proof.
  intros. unfold start32, init32, wadd, wsub, wrap. rewrite add_mod_l by discriminate. rewrite N.add_0_r.
  replace (seed + 2 ^ 32 - p1) with (seed + (2 ^ 32 - PRIME32_1)) by (unfold p1, PRIME32_1; change (2 ^ 32) with 4294967296; lia). reflexivity.
Qed.

Definition words4 (w : N) (a : accs) : Prop :=
  let '(a1, a2, a3, a4) := a in a1 < 2 ^ w /\ a2 < 2 ^ w /\ a3 < 2 ^ w /\ a4 < 2 ^ w.
Lemma init32_words : forall seed, words4 32 (init32 seed).
Proof. intros. repeat split; apply N.mod_lt; discriminate. Qed.
Lemma lanes32_words : forall a st, words4 32 (each_lane 4 round32 a st).
Proof. intros [[[a1 a2] a3] a4] st. repeat split; apply N.mod_lt; discriminate. Qed.
Lemma accs32_words : forall seed bs, words4 32 (accs32 seed bs).
Proof. intros. unfold accs32. apply over_inv; auto using init32_words, lanes32_words. Qed.

Lemma converge32_ok : forall a, words4 32 a -> converge32 a = join32 a.
Proof.
  intros [[[a1 a2] a3] a4] (W1 & W2 & W3 & W4). unfold converge32, join32. rewrite !rotl_rot by (auto; lia).
  unfold wadd, wrap. rewrite (add_mod_l (rot 32 a1 1 + rot 32 a2 7)), add_mod_l by discriminate. reflexivity.
Qed.

Lemma XXH32_ok : forall re seed bs, XXH32 re bs (length bs) seed = Ok (xxh32 seed bs).
Proof.
  intros re seed bs. unfold XXH32, XXH32_endian_align, xxh32.
  destruct (Nat.leb_spec 16 (length bs)) as [Ge|Lt].
  - rewrite loop32_ok by lia. cbn [bind]. cbn [skipn]. rewrite start32_ok.
    fold (accs32 seed bs). rewrite converge32_ok by apply accs32_words.
    destruct (Nat.ltb_spec (length bs) 16); [lia|].
    assert (D := Nat.div_mod (length bs) 16 ltac:(lia)). rewrite Nat.sub_0_r.
    rewrite finalize32_ok by (rewrite Nat.mod_mod by lia; lia).
    rewrite Nat.mod_mod by lia. unfold wadd, wrap. rewrite add_mod_r by discriminate. do 3 f_equal.
    unfold rest. cbn [Nat.add]. apply firstn_all2. rewrite skipn_length. lia.
  - cbn [bind]. destruct (Nat.ltb_spec (length bs) 16); [|lia].
    rewrite finalize32_ok by (rewrite Nat.mod_mod by lia; rewrite Nat.mod_small by lia; lia).
    rewrite Nat.mod_mod by lia. unfold wadd, wrap. rewrite add_mod_r by discriminate. do 3 f_equal.
    rewrite rest_small by auto. cbn [skipn]. rewrite Nat.mod_small by lia. apply firstn_all.
Qed.

(* streaming: what the state knows about the bytes D fed so far *)
Record inv32 (seed : N) (D : list N) (st : state32) : Prop := {
  i32_total : total_len_32 st = N.of_nat (length D) mod 2 ^ 32;
  i32_large : large_len st = (16 <=? length D)%nat;
  i32_v : v32 st = accs32 seed D;
  i32_mem : length (mem32 st) = 16%nat;
  i32_size : memsize32 st = (length D mod 16)%nat;
  i32_rest : firstn (memsize32 st) (mem32 st) = rest 16 D }.

Lemma inv32_reset : forall seed, inv32 seed [] (XXH32_reset seed).
Proof. intros. split; cbn; auto using start32_ok. Qed.

Lemma large32 : forall m l, ((16 <=? m) || ((16 <=? l) || (16 <=? (N.of_nat m mod 2 ^ 32 + N.of_nat l mod 2 ^ 32) mod 2 ^ 32)%N)
   = (16 <=? m + l))%nat%bool.
Proof.
  intros m l. destruct (Nat.leb_spec 16 m) as [A|A]; cbn [orb].
  - symmetry. apply Nat.leb_le. lia.
  - destruct (Nat.leb_spec 16 l) as [B|B]; cbn [orb].
    + symmetry. apply Nat.leb_le. lia.
    + change (2 ^ 32) with 4294967296. rewrite !(N.mod_small (N.of_nat _)) by lia. rewrite N.mod_small by lia.
      destruct (N.leb_spec 16 (N.of_nat m + N.of_nat l)); destruct (Nat.leb_spec 16 (m + l)); auto; lia.
Qed.

Lemma update32_ok : forall seed D st b, inv32 seed D st ->
  exists st', XXH32_update st (Some b) = Ok (XXH_OK, st') /\ inv32 seed (D ++ b) st'.
Proof.
  intros seed D st b [It Il Iv Im Is Ir].
  assert (M16 := Nat.mod_upper_bound (length D) 16 ltac:(lia)). rewrite <- Is in M16.
  assert (Tot : wadd 32 (total_len_32 st) (wrap 32 (N.of_nat (length b))) = N.of_nat (length (D ++ b)) mod 2 ^ 32).
  { unfold wadd, wrap. rewrite It, add_mod_l, add_mod_r by discriminate. f_equal. rewrite app_length. lia. }
  assert (Lar : (large_len st || ((16 <=? length b)%nat || (16 <=? N.of_nat (length (D ++ b)) mod 2 ^ 32)))%bool
                = (16 <=? length (D ++ b))%nat).
  { rewrite Il, app_length, <- large32. rewrite N.add_mod_idemp_l, N.add_mod_idemp_r by discriminate.
    now rewrite Nat2N.inj_add. }
  assert (LR : length (rest 16 D) = memsize32 st) by (rewrite rest_length by lia; congruence).
  assert (Size : ((length (D ++ b)) mod 16 = (memsize32 st + length b) mod 16)%nat).
  { rewrite app_length, Is. rewrite Nat.add_mod_idemp_l by lia. auto. }
  unfold XXH32_update. rewrite Tot, Lar.
  destruct (Nat.ltb_spec (memsize32 st + length b) 16) as [Small|Big].
  - rewrite copy_ok by lia. cbn [bind]. eexists. split; [reflexivity|].
    assert (Rs : rest 16 (D ++ b) = rest 16 D ++ b).
    { rewrite (rest_app 16 (fun (s : unit) _ => s) ltac:(lia) tt).
      apply rest_small. rewrite app_length. lia. }
    split; cbn [total_len_32 large_len v32 mem32 memsize32]; auto.
    + rewrite Iv. unfold accs32. rewrite (over_app 16 _ ltac:(lia)). rewrite (over_small _ _ _ (rest 16 D ++ b)); auto.
      rewrite app_length. lia.
    + rewrite !app_length, !firstn_length, !skipn_length. lia.
    + rewrite Size. symmetry. apply Nat.mod_small. lia.
    + rewrite Rs, <- Ir. cbn [skipn]. rewrite (firstn_all b).
      rewrite app_assoc, firstn_app.
      rewrite app_length, firstn_length. replace (memsize32 st + length b - (Nat.min (memsize32 st) (length (mem32 st)) + length b))%nat with 0%nat by lia.
      rewrite firstn_O, app_nil_r. apply firstn_all2. rewrite app_length, firstn_length. lia.
  - (* the buffered bytes are completed to a stripe *)
    set (q := (if (0 <? memsize32 st)%nat then (16 - memsize32 st)%nat else 0%nat)).
    assert (Pre : exists m v,
      (if (0 <? memsize32 st)%nat
       then let! m := copy (mem32 st) (memsize32 st) b 0 (16 - memsize32 st) in
            let! v := round4_32 m (v32 st) 0 in Ok (v, m, (16 - memsize32 st)%nat, 0%nat)
       else Ok (v32 st, mem32 st, 0%nat, memsize32 st)) = Ok (v, m, q, 0%nat)
      /\ length m = 16%nat /\ over_stripes 16 (each_lane 4 round32) v (skipn q b) = accs32 seed (D ++ b)
      /\ rest 16 (skipn q b) = rest 16 (D ++ b)).
    { unfold accs32. rewrite (over_app 16 _ ltac:(lia)). fold (accs32 seed D). rewrite <- Iv.
      rewrite (rest_app 16 (fun (s : unit) _ => s) ltac:(lia) tt). unfold q.
      destruct (Nat.ltb_spec 0 (memsize32 st)) as [Pos|Z].
      - rewrite copy_ok by lia. cbn [bind].
        assert (E16 : firstn (memsize32 st) (mem32 st) ++ firstn (16 - memsize32 st) (skipn 0 b) ++ skipn (memsize32 st + (16 - memsize32 st)) (mem32 st)
                      = firstn 16 (rest 16 D ++ b)).
        { rewrite Ir. rewrite (skipn_all2 (mem32 st)) by lia. rewrite app_nil_r. cbn [skipn]. rewrite firstn_app, LR.
          rewrite (firstn_all2 (rest 16 D)) by lia. reflexivity. }
        rewrite E16. rewrite round4_32_ok by (rewrite firstn_length, app_length; lia). cbn [bind skipn].
        rewrite (firstn_all2 (firstn 16 _)) by (rewrite firstn_length; lia).
        do 2 eexists. split; [reflexivity|]. split; [rewrite firstn_length, app_length; lia|].
        assert (E : skipn (16 - memsize32 st) b = skipn 16 (rest 16 D ++ b)).
        { rewrite skipn_app, LR. rewrite (skipn_all2 (rest 16 D)) by lia. reflexivity. }
        split.
        + rewrite (over_cons 16 _ ltac:(lia) _ (rest 16 D ++ b)) by (rewrite app_length; lia). now rewrite E.
        + rewrite (rest_cons 16 ltac:(lia) (rest 16 D ++ b)) by (rewrite app_length; lia). now rewrite E.
      - assert (M0 : memsize32 st = 0%nat) by lia. rewrite M0 in *.
        assert (RN : rest 16 D = []) by (destruct (rest 16 D); cbn in LR; auto; lia). rewrite RN. cbn [app skipn].
        do 2 eexists. split; [reflexivity|]. auto. }
    destruct Pre as (m & v & -> & Lm & Hv & Hr). cbn [bind].
    assert (Hq : (q <= length b)%nat) by (unfold q; destruct (Nat.ltb_spec 0 (memsize32 st)); lia).
    assert (Loop : (if (q + 16 <=? length b)%nat then update_loop32 (length b) b q (length b - 16) v else Ok (v, q))
                   = Ok (accs32 seed (D ++ b), (q + 16 * ((length b - q) / 16))%nat)).
    { destruct (Nat.leb_spec (q + 16) (length b)) as [Le|Gt].
      - rewrite update_loop32_ok by lia. now rewrite Hv.
      - rewrite Nat.div_small by lia. rewrite <- Hv. rewrite over_small by (try rewrite skipn_length; lia).
        repeat (lia || f_equal). }
    rewrite Loop. cbn [bind]. set (p := (q + 16 * ((length b - q) / 16))%nat).
    assert (Dq := Nat.div_mod (length b - q) 16 ltac:(lia)).
    assert (Uq := Nat.mod_upper_bound (length b - q) 16 ltac:(lia)).
    assert (Ep : skipn p b = rest 16 (D ++ b)).
    { rewrite <- Hr. unfold rest. rewrite skipn_skipn, skipn_length. reflexivity. }
    assert (Lp : (length b - p)%nat = (length (D ++ b) mod 16)%nat).
    { rewrite <- (rest_length 16) by lia. rewrite <- Ep, skipn_length. reflexivity. }
    destruct (Nat.ltb_spec p (length b)) as [Lt|Ge].
    + rewrite copy_ok by (unfold p in *; lia). cbn [bind]. eexists. split; [reflexivity|].
      split; cbn [total_len_32 large_len v32 mem32 memsize32]; auto.
      * cbn [firstn app]. rewrite app_length, firstn_length, !skipn_length. unfold p in *. lia.
      * cbn [firstn app Nat.add]. rewrite firstn_app, firstn_firstn, Nat.min_id.
        rewrite firstn_length, skipn_length. replace (length b - p - Nat.min (length b - p) (length b - p))%nat with 0%nat by lia.
        rewrite firstn_O, app_nil_r. rewrite firstn_all2 by (rewrite skipn_length; lia). auto.
    + cbn [bind]. eexists. split; [reflexivity|].
      split; cbn [total_len_32 large_len v32 mem32 memsize32]; auto; try lia.
      rewrite <- Ep. rewrite skipn_all2 by lia. reflexivity.
Qed.

Lemma digest32_ok : forall re seed D st, inv32 seed D st -> XXH32_digest re st = Ok (xxh32 seed D).
Proof.
  intros re seed D st [It Il Iv Im Is Ir]. unfold XXH32_digest, xxh32.
  assert (M16 := Nat.mod_upper_bound (length D) 16 ltac:(lia)).
  rewrite finalize32_ok by (rewrite Is, Nat.mod_mod by lia; rewrite Im; lia).
  rewrite Is at 1. rewrite Nat.mod_mod by lia. rewrite <- Is. cbn [skipn]. rewrite Ir.
  rewrite Il, Iv, It. do 3 f_equal. unfold wadd, wrap. rewrite add_mod_r by discriminate. do 2 f_equal.
  destruct (Nat.leb_spec 16 (length D)) as [Ge|Lt]; destruct (Nat.ltb_spec (length D) 16); try lia.
  - apply converge32_ok, accs32_words.
  - unfold accs32. rewrite over_small by lia. cbn. now rewrite N.add_mod_idemp_l by discriminate.
Qed.

(* ---- XXH64 ---- *)
Lemma round64_ok : forall a x, XXH64_round a x = round64 a x.
Proof.
  intros. unfold XXH64_round, round64. rewrite rotl_rot; [|apply wrap_lt|lia].
  unfold wadd, wmul, wrap. now rewrite add_mod_r by discriminate.
Qed.
Lemma round64_lt : forall a x, round64 a x < 2 ^ 64.
Proof. intros. apply N.mod_lt. discriminate. Qed.
Lemma merge64_ok : forall h a, XXH64_mergeRound h a = merge64 h a.
Proof.
  intros. unfold XXH64_mergeRound, merge64. rewrite round64_ok.
  unfold wadd, wmul, wrap. now rewrite add_mod_l by discriminate.
Qed.
Lemma avalanche64_ok : forall h, XXH64_avalanche h = final64 h.
Proof. intros. unfold XXH64_avalanche, final64. now rewrite !xorshift_mix. Qed.

Definition w64 (h : N) : Prop := h < 2 ^ 64.
Lemma process1_64_ok : forall b h p, w64 h -> (p + 1 <= length b)%nat ->
  PROCESS1_64 b (h, p) = Ok (byte64 h (firstn 1 (skipn p b)), (p + 1)%nat).
Proof.
  intros. unfold PROCESS1_64, read8. rewrite aget_nth by lia. cbn [bind].
  rewrite rotl_rot; [|apply lxor_lt; [auto|apply wrap_lt]|lia].
  rewrite (firstn_S_nth 0 p b 0) by lia. unfold byte64. cbn [firstn le]. now rewrite N.mul_0_r, N.add_0_r.
Qed.
Lemma process4_64_ok : forall b h p, w64 h -> (p + 4 <= length b)%nat ->
  PROCESS4_64 b (h, p) = Ok (word64 h (firstn 4 (skipn p b)), (p + 4)%nat).
Proof.
  intros. unfold PROCESS4_64. rewrite readLE32_ok by lia. cbn [bind].
  rewrite rotl_rot; [|apply lxor_lt; [auto|apply wrap_lt]|lia].
  unfold word64, wadd, wmul, wrap. now rewrite add_mod_l by discriminate.
Qed.
Lemma process8_64_ok : forall b h p, w64 h -> (p + 8 <= length b)%nat ->
  PROCESS8_64 b (h, p) = Ok (long64 h (firstn 8 (skipn p b)), (p + 8)%nat).
Proof.
  intros. unfold PROCESS8_64. rewrite readLE64_ok by lia. cbn [bind]. rewrite round64_ok.
  rewrite rotl_rot; [|apply lxor_lt; [auto|apply round64_lt]|lia].
  unfold long64, wadd, wmul, wrap. now rewrite add_mod_l by discriminate.
Qed.
Lemma byte64_lt : forall h st, w64 h -> w64 (byte64 h st).
Proof. intros. apply N.mod_lt. discriminate. Qed.
Lemma word64_lt : forall h st, w64 h -> w64 (word64 h st).
Proof. intros. apply N.mod_lt. discriminate. Qed.
Lemma long64_lt : forall h st, w64 h -> w64 (long64 h st).
Proof. intros. apply N.mod_lt. discriminate. Qed.

Lemma finalize64_agree : forall b h p len, XXH64_finalize_unrolled b h p len = XXH64_finalize_rerolled b h p len.
Proof.
  intros. unfold XXH64_finalize_unrolled, XXH64_finalize_rerolled.
  assert (L := Nat.mod_upper_bound len 32 ltac:(lia)). set (m := (len mod 32)%nat) in *. clearbody m.
  do 32 (destruct m as [|m];
    [cbn -[PROCESS1_64 PROCESS4_64 PROCESS8_64 XXH64_avalanche]; auto;
     repeat (match goal with |- context [PROCESS8_64 b ?s] => destruct (PROCESS8_64 b s); cbn -[PROCESS1_64 PROCESS4_64 PROCESS8_64 XXH64_avalanche]; auto
                           | |- context [PROCESS4_64 b ?s] => destruct (PROCESS4_64 b s); cbn -[PROCESS1_64 PROCESS4_64 PROCESS8_64 XXH64_avalanche]; auto
                           | |- context [PROCESS1_64 b ?s] => destruct (PROCESS1_64 b s); cbn -[PROCESS1_64 PROCESS4_64 PROCESS8_64 XXH64_avalanche]; auto end)|]).
  lia.
Qed.

Lemma rest_piece : forall n m p b, (0 < n)%nat -> (p + m <= length b)%nat ->
  rest n (firstn m (skipn p b)) = firstn (m mod n) (skipn (p + n * (m / n)) b).
Proof.
  intros n m p b Hn L. unfold rest. rewrite firstn_length, skipn_length.
  replace (Nat.min m (length b - p)) with m by lia.
  rewrite skipn_firstn_comm, skipn_skipn. f_equal. rewrite Nat.mod_eq by lia. reflexivity.
Qed.

Lemma finalize64_ok : forall re b h p len, w64 h -> (p + len mod 32 <= length b)%nat ->
  XXH64_finalize re b h p len = Ok (final64 (tail64 h (firstn (len mod 32) (skipn p b)))).
Proof.
  intros re b h p len W L. unfold XXH64_finalize.
  assert (E : (if re then XXH64_finalize_rerolled b h p len else XXH64_finalize_unrolled b h p len) = XXH64_finalize_rerolled b h p len)
    by (destruct re; auto using finalize64_agree).
  rewrite E. clear E. unfold XXH64_finalize_rerolled. set (m := (len mod 32)%nat) in *. clearbody m.
  rewrite (while_ok b 8 (PROCESS8_64 b) long64 w64); auto using process8_64_ok, long64_lt; try lia.
  cbn [bind]. set (h8 := over_stripes 8 long64 h (firstn m (skipn p b))).
  assert (W8 : w64 h8) by (apply over_inv; auto using long64_lt).
  set (k := (m mod 8)%nat). set (p8 := (p + 8 * (m / 8))%nat).
  assert (Hk : (p8 + k <= length b)%nat) by (unfold p8, k; pose proof (Nat.div_mod m 8 ltac:(lia)); lia).
  assert (Uk : (k < 8)%nat) by (apply Nat.mod_upper_bound; lia).
  unfold tail64. fold h8. rewrite rest_piece by lia. fold k p8. clearbody h8 k p8.
  assert (E : (if (4 <=? k)%nat then let! s := PROCESS4_64 b (h8, p8) in Ok (s, (k - 4)%nat) else Ok ((h8, p8), k))
              = Ok ((over_stripes 4 word64 h8 (firstn k (skipn p8 b)), (p8 + 4 * (k / 4))%nat), (k mod 4)%nat)).
  { pose proof (while_ok b 4 (PROCESS4_64 b) word64 w64 ltac:(lia) (process4_64_ok b) word64_lt k k h8 p8 ltac:(lia) W8 Hk) as Wh.
    rewrite <- Wh. destruct k as [|k]; [reflexivity|]. cbn [while_ge]. destruct (Nat.leb_spec 4 (S k)) as [Ge|Lt]; auto.
    destruct (PROCESS4_64 b (h8, p8)); cbn [bind]; auto. destruct k as [|k]; [lia|].
    cbn [while_ge]. destruct (Nat.leb_spec 4 (S (S k) - 4)); [lia|reflexivity]. }
  rewrite E. cbn [bind].
  rewrite (while_ok b 1 (PROCESS1_64 b) byte64 w64); auto using process1_64_ok, byte64_lt; try lia.
  2:{ apply over_inv; auto using word64_lt. }
  2:{ pose proof (Nat.div_mod k 4 ltac:(lia)). lia. }
  cbn [bind fst]. rewrite avalanche64_ok. rewrite rest_piece by lia. reflexivity.
Qed.

Lemma round4_64_ok : forall b v p, (p + 32 <= length b)%nat ->
  round4_64 b v p = Ok (each_lane 8 round64 v (firstn 32 (skipn p b))).
Proof.
  intros b [[[v1 v2] v3] v4] p L. unfold round4_64. rewrite !readLE64_ok by lia. cbn [bind].
  unfold each_lane. rewrite !stripe_piece by lia. rewrite !round64_ok.
  replace (p + 8 * 0)%nat with p by lia. reflexivity.
Qed.
Lemma loop64_ok : forall fuel b p v, (p + 32 <= length b)%nat -> (length b - p <= 32 * fuel)%nat ->
  loop64 fuel b p (length b - 32) v
  = Ok (over_stripes 32 (each_lane 8 round64) v (skipn p b), (p + 32 * ((length b - p) / 32))%nat).
Proof.
  induction fuel; intros b p v L F; [lia|]. cbn [loop64]. rewrite round4_64_ok by auto. cbn [bind].
  rewrite (over_cons 32 _ ltac:(lia) _ (skipn p b)) by (rewrite skipn_length; lia). rewrite skipn_skipn.
  assert (E : ((length b - p) / 32 = S ((length b - (p + 32)) / 32))%nat).
  { replace (length b - p)%nat with ((length b - (p + 32)) + 1 * 32)%nat by lia. rewrite Nat.div_add by lia. lia. }
  rewrite E. destruct (Nat.leb_spec (p + 32) (length b - 32)) as [Lt|Ge].
  - rewrite IHfuel by lia. repeat (lia || f_equal).
  - rewrite Nat.div_small by lia. rewrite over_small by (try rewrite skipn_length; lia). repeat (lia || f_equal).
Qed.
Lemma start64_ok : forall seed, start64 seed = init64 seed.
Proof.
  intros. unfold start64, init64, wadd, wsub, wrap. rewrite add_mod_l by discriminate. rewrite N.add_0_r.
  replace (seed + 2 ^ 64 - q1) with (seed + (2 ^ 64 - PRIME64_1)) by (unfold q1, PRIME64_1; change (2 ^ 64) with 18446744073709551616; lia). reflexivity.
Qed.
Lemma accs64_words : forall seed bs, words4 64 (accs64 seed bs).
Proof.
  intros. unfold accs64. apply over_inv.
  - repeat split; apply N.mod_lt; discriminate.
  - intros [[[a1 a2] a3] a4] st _. repeat split; apply N.mod_lt; discriminate.
Qed.
Lemma converge64_ok : forall a, words4 64 a -> converge64 a = join64 a.
Proof.
  intros [[[a1 a2] a3] a4] (W1 & W2 & W3 & W4). unfold converge64, join64. rewrite !rotl_rot by (auto; lia).
  rewrite !merge64_ok. unfold wadd, wrap. rewrite (add_mod_l (rot 64 a1 1 + rot 64 a2 7)), add_mod_l by discriminate. reflexivity.
Qed.

Lemma XXH64_ok : forall re seed bs, XXH64 re bs (length bs) seed = Ok (xxh64 seed bs).
Proof.
  intros re seed bs. unfold XXH64, XXH64_endian_align, xxh64.
  assert (D := Nat.div_mod (length bs) 32 ltac:(lia)).
  destruct (Nat.leb_spec 32 (length bs)) as [Ge|Lt].
  - rewrite loop64_ok by lia. cbn [bind]. cbn [skipn]. rewrite start64_ok.
    fold (accs64 seed bs). rewrite converge64_ok by apply accs64_words.
    destruct (Nat.ltb_spec (length bs) 32); [lia|]. rewrite Nat.sub_0_r.
    rewrite finalize64_ok by (try apply wrap_lt; lia). unfold wadd, wrap. do 3 f_equal.
    unfold rest. cbn [Nat.add]. apply firstn_all2. rewrite skipn_length. lia.
  - cbn [bind]. destruct (Nat.ltb_spec (length bs) 32); [|lia].
    rewrite Nat.div_small, Nat.mul_0_r, Nat.add_0_l in D by lia. rewrite finalize64_ok by (try apply wrap_lt; lia).
    unfold wadd, wrap. do 3 f_equal.
    rewrite rest_small by auto. cbn [skipn]. rewrite <- D. apply firstn_all.
Qed.

Record inv64 (seed : N) (D : list N) (st : state64) : Prop := {
  i64_total : total_len st = N.of_nat (length D) mod 2 ^ 64;
  i64_v : v64 st = accs64 seed D;
  i64_mem : length (mem64 st) = 32%nat;
  i64_size : memsize64 st = (length D mod 32)%nat;
  i64_rest : firstn (memsize64 st) (mem64 st) = rest 32 D }.

Lemma inv64_reset : forall seed, inv64 seed [] (XXH64_reset seed).
Proof. intros. split; cbn; auto using start64_ok. Qed.

Lemma update64_ok : forall seed D st b, inv64 seed D st ->
  exists st', XXH64_update st (Some b) = Ok (XXH_OK, st') /\ inv64 seed (D ++ b) st'.
Proof.
  intros seed D st b [It Iv Im Is Ir].
  assert (M32 := Nat.mod_upper_bound (length D) 32 ltac:(lia)). rewrite <- Is in M32.
  assert (Tot : wadd 64 (total_len st) (N.of_nat (length b)) = N.of_nat (length (D ++ b)) mod 2 ^ 64).
  { unfold wadd, wrap. rewrite It, add_mod_l by discriminate. f_equal. rewrite app_length. lia. }
  assert (LR : length (rest 32 D) = memsize64 st) by (rewrite rest_length by lia; congruence).
  assert (Size : ((length (D ++ b)) mod 32 = (memsize64 st + length b) mod 32)%nat).
  { rewrite app_length, Is. rewrite Nat.add_mod_idemp_l by lia. auto. }
  unfold XXH64_update. rewrite Tot.
  destruct (Nat.ltb_spec (memsize64 st + length b) 32) as [Small|Big].
  - rewrite copy_ok by lia. cbn [bind]. eexists. split; [reflexivity|].
    assert (Rs : rest 32 (D ++ b) = rest 32 D ++ b).
    { rewrite (rest_app 32 (fun (s : unit) _ => s) ltac:(lia) tt).
      apply rest_small. rewrite app_length. lia. }
    split; cbn [total_len v64 mem64 memsize64]; auto.
    + rewrite Iv. unfold accs64. rewrite (over_app 32 _ ltac:(lia)). rewrite (over_small _ _ _ (rest 32 D ++ b)); auto.
      rewrite app_length. lia.
    + rewrite !app_length, !firstn_length, !skipn_length. lia.
    + rewrite Size. symmetry. apply Nat.mod_small. lia.
    + rewrite Rs, <- Ir. cbn [skipn]. rewrite (firstn_all b).
      rewrite app_assoc, firstn_app.
      rewrite app_length, firstn_length. replace (memsize64 st + length b - (Nat.min (memsize64 st) (length (mem64 st)) + length b))%nat with 0%nat by lia.
      rewrite firstn_O, app_nil_r. apply firstn_all2. rewrite app_length, firstn_length. lia.
  - set (q := (if (0 <? memsize64 st)%nat then (32 - memsize64 st)%nat else 0%nat)).
    assert (Pre : exists m v,
      (if (0 <? memsize64 st)%nat
       then let! m := copy (mem64 st) (memsize64 st) b 0 (32 - memsize64 st) in
            let! v := round4_64 m (v64 st) 0 in Ok (v, m, (32 - memsize64 st)%nat, 0%nat)
       else Ok (v64 st, mem64 st, 0%nat, memsize64 st)) = Ok (v, m, q, 0%nat)
      /\ length m = 32%nat /\ over_stripes 32 (each_lane 8 round64) v (skipn q b) = accs64 seed (D ++ b)
      /\ rest 32 (skipn q b) = rest 32 (D ++ b)).
    { unfold accs64. rewrite (over_app 32 _ ltac:(lia)). fold (accs64 seed D). rewrite <- Iv.
      rewrite (rest_app 32 (fun (s : unit) _ => s) ltac:(lia) tt). unfold q.
      destruct (Nat.ltb_spec 0 (memsize64 st)) as [Pos|Z].
      - rewrite copy_ok by lia. cbn [bind].
        assert (E32 : firstn (memsize64 st) (mem64 st) ++ firstn (32 - memsize64 st) (skipn 0 b) ++ skipn (memsize64 st + (32 - memsize64 st)) (mem64 st)
                      = firstn 32 (rest 32 D ++ b)).
        { rewrite Ir. rewrite (skipn_all2 (mem64 st)) by lia. rewrite app_nil_r. cbn [skipn]. rewrite firstn_app, LR.
          rewrite (firstn_all2 (rest 32 D)) by lia. reflexivity. }
        rewrite E32. rewrite round4_64_ok by (rewrite firstn_length, app_length; lia). cbn [bind skipn].
        rewrite (firstn_all2 (firstn 32 _)) by (rewrite firstn_length; lia).
        do 2 eexists. split; [reflexivity|]. split; [rewrite firstn_length, app_length; lia|].
        assert (E : skipn (32 - memsize64 st) b = skipn 32 (rest 32 D ++ b)).
        { rewrite skipn_app, LR. rewrite (skipn_all2 (rest 32 D)) by lia. reflexivity. }
        split.
        + rewrite (over_cons 32 _ ltac:(lia) _ (rest 32 D ++ b)) by (rewrite app_length; lia). now rewrite E.
        + rewrite (rest_cons 32 ltac:(lia) (rest 32 D ++ b)) by (rewrite app_length; lia). now rewrite E.
      - assert (M0 : memsize64 st = 0%nat) by lia. rewrite M0 in *.
        assert (RN : rest 32 D = []) by (destruct (rest 32 D); cbn in LR; auto; lia). rewrite RN. cbn [app skipn].
        do 2 eexists. split; [reflexivity|]. auto. }
    destruct Pre as (m & v & -> & Lm & Hv & Hr). cbn [bind].
    assert (Hq : (q <= length b)%nat) by (unfold q; destruct (Nat.ltb_spec 0 (memsize64 st)); lia).
    assert (Loop : (if (q + 32 <=? length b)%nat then loop64 (length b) b q (length b - 32) v else Ok (v, q))
                   = Ok (accs64 seed (D ++ b), (q + 32 * ((length b - q) / 32))%nat)).
    { destruct (Nat.leb_spec (q + 32) (length b)) as [Le|Gt].
      - rewrite loop64_ok by lia. now rewrite Hv.
      - rewrite Nat.div_small by lia. rewrite <- Hv. rewrite over_small by (try rewrite skipn_length; lia).
        repeat (lia || f_equal). }
    rewrite Loop. cbn [bind]. set (p := (q + 32 * ((length b - q) / 32))%nat).
    assert (Dq := Nat.div_mod (length b - q) 32 ltac:(lia)).
    assert (Uq := Nat.mod_upper_bound (length b - q) 32 ltac:(lia)).
    assert (Ep : skipn p b = rest 32 (D ++ b)).
    { rewrite <- Hr. unfold rest. rewrite skipn_skipn, skipn_length. reflexivity. }
    assert (Lp : (length b - p)%nat = (length (D ++ b) mod 32)%nat).
    { rewrite <- (rest_length 32) by lia. rewrite <- Ep, skipn_length. reflexivity. }
    destruct (Nat.ltb_spec p (length b)) as [Lt|Ge].
    + rewrite copy_ok by (unfold p in *; lia). cbn [bind]. eexists. split; [reflexivity|].
      split; cbn [total_len v64 mem64 memsize64]; auto.
      * cbn [firstn app]. rewrite app_length, firstn_length, !skipn_length. unfold p in *. lia.
      * cbn [firstn app Nat.add]. rewrite firstn_app, firstn_firstn, Nat.min_id.
        rewrite firstn_length, skipn_length. replace (length b - p - Nat.min (length b - p) (length b - p))%nat with 0%nat by lia.
        rewrite firstn_O, app_nil_r. rewrite firstn_all2 by (rewrite skipn_length; lia). auto.
    + cbn [bind]. eexists. split; [reflexivity|].
      split; cbn [total_len v64 mem64 memsize64]; auto; try lia.
      rewrite <- Ep. rewrite skipn_all2 by lia. reflexivity.
Qed.

Lemma mod_2_64_32 : forall n, (N.to_nat (N.of_nat n mod 2 ^ 64 mod 32) = n mod 32)%nat.
Proof.
  intro n. change (2 ^ 64) with (32 * 576460752303423488). rewrite N.mod_mul_r by discriminate.
  rewrite N.mul_comm, N.mod_add by discriminate. rewrite N.mod_mod by discriminate.
  change 32 with (N.of_nat 32). rewrite <- (Nat2N.id (n mod 32)). f_equal. rewrite <- Nat2N.inj_mod. auto.
Qed.

Lemma digest64_ok : forall re seed D st, N.of_nat (length D) < 2 ^ 64 -> inv64 seed D st -> XXH64_digest re st = Ok (xxh64 seed D).
Proof.
  intros re seed D st Len [It Iv Im Is Ir]. unfold XXH64_digest, xxh64.
  assert (M32 := Nat.mod_upper_bound (length D) 32 ltac:(lia)).
  rewrite It at 3. rewrite mod_2_64_32.
  rewrite finalize64_ok; [|apply wrap_lt|rewrite Nat.mod_mod by lia; rewrite Im; lia].
  rewrite Nat.mod_mod by lia. rewrite <- Is. cbn [skipn]. rewrite Ir.
  rewrite Iv, It. rewrite (N.mod_small (N.of_nat _)) by auto. do 3 f_equal. unfold wadd, wrap. do 2 f_equal.
  destruct (N.leb_spec 32 (N.of_nat (length D))) as [Ge|Lt]; destruct (Nat.ltb_spec (length D) 32); try lia.
  - apply converge64_ok, accs64_words.
  - unfold accs64. rewrite over_small by lia. cbn. now rewrite N.add_mod_idemp_l by discriminate.
Qed.

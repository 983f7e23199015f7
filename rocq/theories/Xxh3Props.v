(* Properties of XXH3 and XXH128: one-shot, streaming, copies of states, and the utilities. *)
From Coq Require Import NArith ZArith Arith List Lia Bool.
From Verif Require Import Base XxhModel XxhSpec XxhProofs XxhProps Xxh3Model Xxh3Spec Xxh3Proofs Xxh3ShortProofs Xxh3StreamProofs.
Import ListNotations.
Open Scope N_scope.

(* ---- one-shot ---- *)
(* cc::make_hash_xxh3 reads only the data and returns the reference hash, in every build without assertions and, with
   assertions, for every length but 8; the bytes of uninitialised local arrays do not matter *)
Theorem C102_make_hash : forall c g data seed, Forall is_byte data -> seed < 2 ^ 64 -> length g = 192%nat ->
  debug c = false \/ length data <> 8%nat ->
  make_hash_xxh3 c g data seed = Ok (xxh3_64 kSecret seed data).
Proof.
  intros c g data seed B S G D. unfold make_hash_xxh3.
  rewrite (seed64_ok c data (length data) (le_n _) B (fun _ => eq_refl) g seed G S D). now rewrite firstn_all.
Qed.
Theorem C102_64bits : forall c data, Forall is_byte data -> debug c = false \/ length data <> 8%nat ->
  XXH3_64bits c data (length data) = Ok (xxh3_64_secret kSecret data).
Proof. intros c data B D. rewrite (plain64_ok c data (length data) (le_n _) B (fun _ => eq_refl) D). now rewrite firstn_all. Qed.
Theorem C102_64bits_withSecret : forall c data secret, Forall is_byte data -> Forall is_byte secret -> (136 <= length secret)%nat ->
  debug c = false \/ length data <> 8%nat ->
  XXH3_64bits_withSecret c data (length data) secret = Ok (xxh3_64_secret secret data).
Proof. intros c data s B Bs L D. rewrite (secret64_ok c data (length data) (le_n _) B (fun _ => eq_refl) s Bs L D). now rewrite firstn_all. Qed.
Theorem C102_128bits : forall c g data seed secret, Forall is_byte data -> seed < 2 ^ 64 -> length g = 192%nat ->
  Forall is_byte secret -> (136 <= length secret)%nat ->
  XXH3_128bits c data (length data) = Ok (xxh3_128_secret kSecret data)
  /\ XXH3_128bits_withSecret c data (length data) secret = Ok (xxh3_128_secret secret data)
  /\ XXH3_128bits_withSeed c g data (length data) seed = Ok (xxh3_128 kSecret seed data).
Proof.
  intros c g data seed s B S G Bs L.
  rewrite (plain128_ok c data (length data) (le_n _) B (fun _ => eq_refl)).
  rewrite (secret128_ok c data (length data) (le_n _) B (fun _ => eq_refl) s Bs L).
  rewrite (seed128_ok c data (length data) (le_n _) B (fun _ => eq_refl) g seed G S). now rewrite firstn_all.
Qed.
(* seed 0 is no seed *)
Theorem C102_seed_zero : forall data, xxh3_64 kSecret 0 data = xxh3_64_secret kSecret data /\ xxh3_128 kSecret 0 data = xxh3_128_secret kSecret data.
Proof. intro data. unfold xxh3_64, xxh3_128. rewrite derive_0. auto. Qed.
(* vector or scalar code, __uint128_t or portable, 32 or 64 bit pointers: the same hash *)
Theorem C102_builds_agree : forall c c' g g' data seed, Forall is_byte data -> seed < 2 ^ 64 -> length g = 192%nat -> length g' = 192%nat ->
  debug c = false \/ length data <> 8%nat -> debug c' = false \/ length data <> 8%nat ->
  make_hash_xxh3 c g data seed = make_hash_xxh3 c' g' data seed.
Proof. intros. now rewrite !C102_make_hash by auto. Qed.
(* with assertions on (DEBUGLEVEL >= 1) every input of 8 bytes aborts: XXH3_len_4to8_64b asserts len < 8, xxh3.hh:702 *)
Theorem C102_eight_bytes_assert_refuted : forall c g data seed, debug c = true -> length data = 8%nat ->
  make_hash_xxh3 c g data seed = Contract.
Proof.
  intros c g data seed D L. unfold make_hash_xxh3, XXH3_64bits_withSeed. rewrite L. cbn [Nat.leb].
  unfold len_0to16_64b, len_4to8_64b, XXH_ASSERT. rewrite D. reflexivity.
Qed.
Definition test_build (v : bool) : build := mkBuild v false true false.
Example C102_empty : forall v, make_hash_xxh3 (test_build v) (repeat 0 192) [] 0 = Ok 0x776EDDFB6BFD9195.
Proof. intros []; vm_compute; reflexivity. Qed.
Example C102_example : forall v, make_hash_xxh3 (test_build v) (repeat 0 192) (repeat 5 300) 42 = Ok (xxh3_64 kSecret 42 (repeat 5 300)).
Proof. intros []; vm_compute; reflexivity. Qed.

(* ---- objects ---- *)
Lemma live_at : forall w i st, nth_error w i = Some (Live st) -> live w i = Ok st.
Proof. intros w i st E. unfold live. now rewrite E. Qed.
Lemma nth_lset_eq : forall {A} (l : list A) i x, (i < length l)%nat -> nth_error (lset l i x) i = Some x.
Proof. induction l; intros [|i] x H; cbn in *; try lia; auto. apply IHl. lia. Qed.
Lemma nth_lset_ne : forall {A} (l : list A) i j x, i <> j -> nth_error (lset l i x) j = nth_error l j.
Proof. induction l; intros [|i] [|j] x H; cbn; auto; try congruence. Qed.
Lemma in_range : forall {A} (l : list A) i x, nth_error l i = Some x -> (i < length l)%nat.
Proof. intros A l i x E. apply nth_error_Some. congruence. Qed.
Lemma lset_lset : forall {A} (l : list A) i x y, lset (lset l i x) i y = lset l i y.
Proof. induction l; intros [|i] x y; cbn; auto. now rewrite IHl. Qed.

Lemma resolve_update : forall w i st st' sec, nth_error w i = Some (Live st) -> resolve w (secret3 st) = Ok sec ->
  secret3 st' = secret3 st -> customSecret st' = customSecret st -> resolve (lset w i (Live st')) (secret3 st') = Ok sec.
Proof.
  intros w i st st' sec E Rs S C. rewrite S. unfold resolve in *. destruct (secret3 st) as [| |j]; auto.
  destruct (Nat.eq_dec i j) as [->|Ne].
  - rewrite (live_at _ _ st') by (apply nth_lset_eq; eapply in_range; eauto). rewrite (live_at _ _ st E) in Rs. cbn [bind] in *. now rewrite C.
  - unfold live in *. now rewrite nth_lset_ne.
Qed.
Lemma exec_updates : forall c wd sec bs w i st st', nth_error w i = Some (Live st) -> resolve w (secret3 st) = Ok sec ->
  (forall st1 b st2, XXH3_update c wd sec st1 (Some b) = Ok (XXH_OK, st2) -> customSecret st2 = customSecret st1 /\ secret3 st2 = secret3 st1) ->
  updates c wd sec st bs = Ok st' ->
  exec_all c wd w (map (Update i) bs) = Ok (lset w i (Live st')) /\ resolve (lset w i (Live st')) (secret3 st') = Ok sec.
Proof.
  intros c wd sec bs. induction bs; intros w i st st' E Rs Fr U; cbn [updates map exec_all exec] in *.
  - injection U as <-. split; [|now apply resolve_update with (st := st)]. f_equal.
    clear -E. revert i E. induction w; intros [|i] E; cbn in *; try congruence. now rewrite <- IHw.
  - rewrite (live_at _ _ st E). cbn [bind]. rewrite Rs. cbn [bind].
    destruct (XXH3_update c wd sec st (Some a)) as [[[|] st1]| | |] eqn:EU; cbn [bind contract] in U; try discriminate.
    cbn [bind]. destruct (Fr _ _ _ EU) as [F1 F2].
    destruct (IHbs (lset w i (Live st1)) i st1 st') as [E2 R2]; auto.
    + apply nth_lset_eq. eapply in_range; eauto.
    + eapply resolve_update; eauto.
    + rewrite lset_lset in *. auto.
Qed.
Lemma update_frame : forall c wd sec st1 b st2 e, XXH3_update c wd sec st1 b = Ok (e, st2) ->
  customSecret st2 = customSecret st1 /\ secret3 st2 = secret3 st1.
Proof.
  intros c wd sec st1 [b|] st2 e H; [|injection H as <- <-; auto]. unfold XXH3_update in H.
  destruct (_ <=? _)%nat in H.
  - destruct (copy _ _ _ _ _) in H; try discriminate. cbn [bind] in H. injection H as <- <-. auto.
  - match goal with H : bind ?x _ = _ |- _ => destruct x as [[[[buf s] p] bs]| | |] end; cbn [bind] in H; try discriminate.
    match goal with H : bind ?x _ = _ |- _ => destruct x as [[s1 p1]| | |] end; cbn [bind] in H; try discriminate.
    match goal with H : bind ?x _ = _ |- _ => destruct x as [[buf1 bs1]| | |] end; cbn [bind] in H; try discriminate.
    injection H as <- <-. auto.
Qed.

(* ---- streaming ---- *)
(* how a stream starts: which reset, which secret bytes, and the one-shot hash it stands for *)
Inductive start := Plain | Seeded (seed : N) | Keyed (secret : list N).
Definition start_call (s : start) (i : nat) : call :=
  match s with Plain => Reset i | Seeded seed => ResetSeed i seed | Keyed secret => ResetSecret i secret end.
Definition start_ok (s : start) : Prop :=
  match s with
  | Plain => True
  | Seeded seed => seed < 2 ^ 64
  | Keyed secret => Forall is_byte secret /\ (136 <= length secret)%nat /\ N.of_nat (length secret) < 2 ^ 32 + 64
  end.
Definition oneshot64 (s : start) (bs : list N) : N :=
  match s with Plain => xxh3_64_secret kSecret bs | Seeded seed => xxh3_64 kSecret seed bs | Keyed secret => xxh3_64_secret secret bs end.
Definition oneshot128 (s : start) (bs : list N) : N * N :=
  match s with Plain => xxh3_128_secret kSecret bs | Seeded seed => xxh3_128 kSecret seed bs | Keyed secret => xxh3_128_secret secret bs end.
Definition start_secret (s : start) : list N :=
  match s with Plain => kSecret | Seeded seed => derive seed kSecret | Keyed secret => secret end.
Definition start_seed (s : start) : N := match s with Seeded seed => seed | _ => 0 end.

Lemma start_secret_ok : forall s, start_ok s -> bytes (start_secret s) /\ (136 <= length (start_secret s))%nat /\ N.of_nat (length (start_secret s)) < 2 ^ 32 + 64.
Proof.
  intros [|seed|secret] H; cbn [start_secret] in *.
  - split; [apply kSecret_bytes|split; [rewrite kSecret_length; lia|reflexivity]].
  - split; [apply derive_bytes|]. rewrite derive_length. split; [lia|reflexivity].
  - exact H.
Qed.
Lemma exists_in : forall w i, exists_ w i = Ok tt -> (i < length w)%nat.
Proof. intros w i H. unfold exists_ in H. destruct (nth_error w i) eqn:E; [|discriminate]. eapply in_range; eauto. Qed.
Lemma start_exec : forall c wd w i s, exists_ w i = Ok tt -> start_ok s ->
  exists st, exec c wd w (start_call s i) = Ok (lset w i (Live st)) /\ holds wd (start_secret s) true [] [] [] st
    /\ seed3 st = start_seed s /\ resolve (lset w i (Live st)) (secret3 st) = Ok (start_secret s).
Proof.
  intros c wd w i s X S. destruct (start_secret_ok s S) as (B & L & M). assert (I := exists_in w i X).
  destruct s as [|seed|secret]; cbn [start_call exec start_secret start_seed] in *; rewrite X; cbn [bind].
  - destruct (reset_ok c wd kSecret L 0 DefaultSecret M) as (st & E & H & F1 & F2 & F3).
    unfold XXH3_reset. change XXH_SECRET_DEFAULT_SIZE with (length kSecret). rewrite E. cbn [bind]. exists st. rewrite F2. auto.
  - destruct (reset_ok c wd (derive seed kSecret) L seed DefaultSecret M) as (st & E & H & F1 & F2 & F3).
    unfold XXH3_reset_withSeed. change XXH_SECRET_DEFAULT_SIZE with 192%nat. rewrite derive_length in E. rewrite E. cbn [bind].
    rewrite init_ok by auto. cbn [bind]. eexists. split; [reflexivity|]. destruct H.
    split; [|split; [exact F1|cbn [secret3 resolve]; rewrite (live_at _ _ _ (nth_lset_eq _ _ _ I)); reflexivity]].
    split; cbn [acc buffer bufferedSize nbStripesPerBlock nbStripesSoFar secretLimit totalLen]; auto.
  - destruct (reset_ok c wd secret L 0 (UserSecret secret) M) as (st & E & H & F1 & F2 & F3).
    unfold XXH3_reset_withSecret. rewrite E. cbn [bind]. exists st. rewrite F2. auto.
Qed.

(* the lengths for which the code is right however the data was cut *)
Definition good_length (n : nat) : Prop := (n <= 240)%nat \/ (n mod 256 = 0)%nat \/ (64 <= n mod 256)%nat.
Definition stream_ok (chunks : list (list N)) : Prop :=
  good_length (length (concat chunks)) \/ Forall (fun b => length b <= 255)%nat chunks.

Section Digest.
  Context (c : build) (s : start) (S : start_ok s) (tail : bool) (D C R : list N) (st : state3) (g1 g2 : list N)
          (BD : bytes D) (LD : size D < 2 ^ 64) (G1 : length g1 = 64%nat) (G2 : length g2 = 192%nat)
          (Cond : tail = true \/ good_length (length D)) (Sd : seed3 st = start_seed s).
  Let sec := start_secret s.
  Lemma total_exact : forall w, holds w sec tail D C R st -> totalLen st = size D.
  Proof. intros w H. rewrite (h_total _ _ _ _ _ _ _ H). now apply N.mod_small. Qed.
  Lemma short_buffer : forall w, holds w sec tail D C R st -> (length D <= 240)%nat ->
    firstn (length D) (buffer st) = D /\ (length D <= length (buffer st))%nat.
  Proof.
    intros w H L. destruct H as [HD [k Hk] _ _ HL _ HF _ _ _ _ _].
    assert (length C = 0)%nat by (rewrite HD, app_length in L; destruct k; lia).
    assert (C = []) by (now apply length_zero_iff_nil). subst C. cbn [app] in HD. subst R. split; auto. lia.
  Qed.
  Lemma digest64_ok : holds acc_64bits sec tail D C R st -> debug c = false \/ length D <> 8%nat ->
    XXH3_64bits_digest c sec g1 g2 st = Ok (oneshot64 s D).
  Proof.
    intros H D8. destruct (start_secret_ok s S) as (B & L & M). fold sec in B, L, M. unfold XXH3_64bits_digest. rewrite (total_exact _ H).
    unfold XXH3_MIDSIZE_MAX. destruct (N.ltb_spec (N.of_nat 240) (size D)) as [Lg|Sh]; unfold size in *.
    - rewrite (digest_long_ok c acc_64bits sec B L tail D C R st g1 H BD ltac:(lia) G1)
        by (destruct Cond as [|[|[|]]]; auto; lia). cbn [bind].
      rewrite merge_ok by (auto using long_acc_good; unfold XXH_SECRET_MERGEACCS_START; lia).
      assert (E : oneshot64 s D = long64 sec D).
      { assert (P : (length D <=? 240)%nat = false) by (apply Nat.leb_gt; lia).
        unfold sec. destruct s; cbn [oneshot64 start_secret]; unfold xxh3_64_secret, xxh3_64; now rewrite P. }
      rewrite E. reflexivity.
    - destruct (short_buffer _ H ltac:(lia)) as [FB LB]. rewrite Nat2N.id, Sd, (h_limit _ _ _ _ _ _ _ H). unfold STRIPE_LEN.
      rewrite Nat.sub_add, firstn_all by lia.
      assert (W : (240 < length D)%nat -> length D = length (buffer st)) by lia.
      assert (BB := h_bytes _ _ _ _ _ _ _ H).
      destruct (N.eqb_spec (start_seed s) 0) as [Z|Z]; cbn [negb].
      + rewrite (secret64_ok c (buffer st) (length D) LB BB W sec B L D8), FB. f_equal. clear Sd.
        unfold sec. destruct s; cbn [oneshot64 start_secret start_seed] in *; auto. subst seed. rewrite derive_0. symmetry. apply C102_seed_zero.
      + destruct s as [|seed|secret]; cbn [start_seed] in *; try congruence.
        rewrite (seed64_ok c (buffer st) (length D) LB BB W g2 seed G2 S D8), FB. reflexivity.
  Qed.
  Lemma digest128_ok : holds acc_128bits sec tail D C R st ->
    XXH3_128bits_digest c sec g1 g2 st = Ok (oneshot128 s D).
  Proof.
    intros H. destruct (start_secret_ok s S) as (B & L & M). fold sec in B, L, M. unfold XXH3_128bits_digest. rewrite (total_exact _ H).
    unfold XXH3_MIDSIZE_MAX. destruct (N.ltb_spec (N.of_nat 240) (size D)) as [Lg|Sh]; unfold size in *.
    - rewrite (digest_long_ok c acc_128bits sec B L tail D C R st g1 H BD ltac:(lia) G1)
        by (destruct Cond as [|[|[|]]]; auto; lia). cbn [bind].
      rewrite (h_limit _ _ _ _ _ _ _ H). unfold XXH_SECRET_MERGEACCS_START, STRIPE_LEN.
      rewrite assert_ok by (apply Nat.leb_le; lia). cbn [bind].
      assert (G := long_acc_good acc_128bits sec D L).
      rewrite merge_ok by (auto; lia). cbn [bind]. rewrite merge_ok by (auto; lia). cbn [bind].
      assert (E : oneshot128 s D = long128 sec D).
      { assert (P : (length D <=? 240)%nat = false) by (apply Nat.leb_gt; lia).
        unfold sec. destruct s; cbn [oneshot128 start_secret]; unfold xxh3_128_secret, xxh3_128; now rewrite P. }
      rewrite E. unfold long128. rewrite wnot_word by apply times_word.
      replace (length sec - 64 + 64 - 64 - 11)%nat with (length sec - 75)%nat by lia. reflexivity.
    - destruct (short_buffer _ H ltac:(lia)) as [FB LB]. rewrite Nat2N.id, Sd, (h_limit _ _ _ _ _ _ _ H). unfold STRIPE_LEN.
      rewrite Nat.sub_add, firstn_all by lia.
      assert (W : (240 < length D)%nat -> length D = length (buffer st)) by lia.
      assert (BB := h_bytes _ _ _ _ _ _ _ H).
      destruct (N.eqb_spec (start_seed s) 0) as [Z|Z]; cbn [negb].
      + rewrite (secret128_ok c (buffer st) (length D) LB BB W sec B L), FB. f_equal. clear Sd.
        unfold sec. destruct s; cbn [oneshot128 start_secret start_seed] in *; auto. subst seed. rewrite derive_0. symmetry. apply C102_seed_zero.
      + destruct s as [|seed|secret]; cbn [start_seed] in *; try congruence.
        rewrite (seed128_ok c (buffer st) (length D) LB BB W g2 seed G2 S), FB. reflexivity.
  Qed.
End Digest.

Lemma stream_exec : forall c wd w i s chunks, exists_ w i = Ok tt -> start_ok s -> Forall (Forall is_byte) chunks ->
  exists w' st tail C R, exec_all c wd w (start_call s i :: map (Update i) chunks) = Ok w'
    /\ live w' i = Ok st /\ resolve w' (secret3 st) = Ok (start_secret s) /\ seed3 st = start_seed s
    /\ holds wd (start_secret s) tail (concat chunks) C R st /\ (Forall (fun b => length b <= 255)%nat chunks -> tail = true).
Proof.
  intros c wd w i s chunks X S F. destruct (start_exec c wd w i s X S) as (st0 & E0 & H0 & Sd & R0).
  destruct (start_secret_ok s S) as (B & L & M).
  destruct (updates_ok c wd (start_secret s) B L chunks true [] [] [] st0 H0 F) as (st & C & R & E & H & F1 & F2 & F3).
  assert (I := exists_in w i X). assert (N0 := nth_lset_eq w i (Live st0) I).
  destruct (exec_updates c wd (start_secret s) chunks _ i st0 st N0 R0) as [EA RA]; auto.
  { intros. eapply update_frame; eauto. }
  rewrite lset_lset in *. exists (lset w i (Live st)), st, (true && forallb (fun b => length b <=? 255)%nat chunks), C, R.
  cbn [exec_all]. rewrite E0. cbn [bind]. split; [exact EA|]. split; [apply live_at, nth_lset_eq; auto|]. split; [exact RA|].
  split; [congruence|]. split; [exact H|]. intro Sm. cbn [andb]. apply forallb_forall. intros b Ib. apply Nat.leb_le.
  exact (proj1 (Forall_forall _ _) Sm b Ib).
Qed.
(* a state that is reset and fed any chunks digests to the one-shot hash of the bytes, if the chunks have at most 255
   bytes, or if the total is at most 240, a multiple of 256, or leaves at least 64 modulo 256 *)
Theorem C103_streaming_partial : forall c w i s chunks g1 g2, exists_ w i = Ok tt -> start_ok s -> Forall (Forall is_byte) chunks ->
  size (concat chunks) < 2 ^ 64 -> length g1 = 64%nat -> length g2 = 192%nat -> stream_ok chunks ->
  (exists w', exec_all c acc_64bits w (start_call s i :: map (Update i) chunks) = Ok w'
     /\ (debug c = false \/ length (concat chunks) <> 8%nat -> digest64 c w' g1 g2 i = Ok (oneshot64 s (concat chunks))))
  /\ (exists w', exec_all c acc_128bits w (start_call s i :: map (Update i) chunks) = Ok w'
     /\ digest128 c w' g1 g2 i = Ok (oneshot128 s (concat chunks))).
Proof.
  intros c w i s chunks g1 g2 X S F Z G1 G2 SO.
  assert (BD : bytes (concat chunks)). { clear -F. induction F; cbn [concat]; [constructor|now apply bytes_app]. }
  split.
  - destruct (stream_exec c acc_64bits w i s chunks X S F) as (w' & st & tail & C & R & E & Lv & Rs & Sd & H & Tl).
    exists w'. split; [exact E|]. intro D8. unfold digest64. rewrite Lv. cbn [bind]. rewrite Rs. cbn [bind].
    refine (digest64_ok c s S tail _ C R st g1 g2 BD Z G1 G2 _ Sd H D8). destruct SO; auto.
  - destruct (stream_exec c acc_128bits w i s chunks X S F) as (w' & st & tail & C & R & E & Lv & Rs & Sd & H & Tl).
    exists w'. split; [exact E|]. unfold digest128. rewrite Lv. cbn [bind]. rewrite Rs. cbn [bind].
    refine (digest128_ok c s S tail _ C R st g1 g2 BD Z G1 G2 _ Sd H). destruct SO; auto.
Qed.
(* no update of any state with any chunks is undefined or aborts, also when the digest is wrong *)
Theorem C103_updates_safe : forall c wd w i s chunks, exists_ w i = Ok tt -> start_ok s -> Forall (Forall is_byte) chunks ->
  exists w', exec_all c wd w (start_call s i :: map (Update i) chunks) = Ok w'.
Proof. intros c wd w i s chunks X S F. destruct (stream_exec c wd w i s chunks X S F) as (w' & st & t & C & R & E & _). eauto. Qed.
Theorem C103_null : forall c wd sec st, XXH3_update c wd sec st None = Ok (XXH_ERROR, st).
Proof. reflexivity. Qed.
(* a secret of fewer than 136 bytes is refused with an error code (with assertions on, it aborts) *)
Theorem C103_short_secret : forall c secret, (length secret < 136)%nat ->
  (debug c = false -> exists st, XXH3_reset_withSecret c secret = Ok (XXH_ERROR, st))
  /\ (debug c = true -> XXH3_reset_withSecret c secret = Contract).
Proof.
  intros c secret L. unfold XXH3_reset_withSecret, reset_internal, XXH_ASSERT, XXH3_SECRET_SIZE_MIN.
  assert (P : (136 <=? length secret)%nat = false) by (apply Nat.leb_gt; lia).
  assert (Q : (length secret <? 136)%nat = true) by (apply Nat.ltb_lt; lia).
  split; intro D; rewrite D.
  - cbn [bind]. rewrite Q. eexists. reflexivity.
  - rewrite P. reflexivity.
Qed.
(* otherwise the digest depends on how the data was cut: a partial stripe at the end is completed from bytes that are
   no longer in the buffer when whole buffers were consumed straight from the input *)
Definition stream64 (chunks : list (list N)) : outcome N :=
  let! w := exec_all (test_build false) acc_64bits [Raw] (Reset 0 :: map (Update 0) chunks) in
  digest64 (test_build false) w (repeat 0 64) (repeat 0 192) 0.
Definition stream128 (chunks : list (list N)) : outcome h128 :=
  let! w := exec_all (test_build false) acc_128bits [Raw] (Reset 0 :: map (Update 0) chunks) in
  digest128 (test_build false) w (repeat 0 64) (repeat 0 192) 0.
Theorem C103_one_update_refuted : let data := repeat 1 257 in
  stream64 [data] <> XXH3_64bits (test_build false) data (length data)
  /\ stream64 (map (fun x => [x]) data) = XXH3_64bits (test_build false) data (length data)
  /\ stream128 [data] <> XXH3_128bits (test_build false) data (length data).
Proof. vm_compute. repeat split; congruence. Qed.
Theorem C103_three_updates_refuted : let chunks := [repeat 1 256; repeat 2 256; [3]] in
  stream64 chunks <> XXH3_64bits (test_build false) (concat chunks) (length (concat chunks)).
Proof. vm_compute. congruence. Qed.
Example C103_example : stream64 [repeat 1 250; repeat 2 250; [3]] = XXH3_64bits (test_build true) (repeat 1 250 ++ repeat 2 250 ++ [3]) 501.
Proof. vm_compute. reflexivity. Qed.

(* ---- copies of states ---- *)
(* the objects a call writes to *)
Definition writes (x : call) (i : nat) : bool :=
  match x with
  | Create => false
  | Free j => i =? j | CopyState j _ => i =? j | Reset j => i =? j
  | ResetSeed j _ => i =? j | ResetSecret j _ => i =? j | Update j _ => i =? j
  end%nat.
(* calls that change the secret member of an object or end its life *)
Definition replaces (x : call) (i : nat) : bool := match x with Update _ _ => false | _ => writes x i end.

Lemma exec_keeps : forall c wd w x w' i, exec c wd w x = Ok w' -> writes x i = false -> (i < length w)%nat ->
  nth_error w' i = nth_error w i /\ (i < length w')%nat.
Proof.
  intros c wd w x w' i E Wr L.
  assert (P : forall j y, w' = lset w j y -> (i =? j)%nat = false -> nth_error w' i = nth_error w i /\ (i < length w')%nat).
  { intros j y -> Ne. apply Nat.eqb_neq in Ne. rewrite nth_lset_ne by auto. split; auto. rewrite lset_length. auto. }
  destruct x; cbn [exec writes] in *.
  - injection E as <-. rewrite nth_error_app1, app_length by auto. split; auto. cbn. lia.
  - destruct (exists_ w i0); try discriminate. cbn [bind] in E. injection E as E. eapply P; eauto.
  - destruct (exists_ w dst); try discriminate. cbn [bind] in E. destruct (live w src); try discriminate. cbn [bind] in E. injection E as E. eapply P; eauto.
  - destruct (exists_ w i0); try discriminate. cbn [bind] in E. destruct (XXH3_reset c); try discriminate. cbn [bind] in E. injection E as E. eapply P; eauto.
  - destruct (exists_ w i0); try discriminate. cbn [bind] in E. destruct (XXH3_reset_withSeed c i0 seed); try discriminate. cbn [bind] in E. injection E as E. eapply P; eauto.
  - destruct (exists_ w i0); try discriminate. cbn [bind] in E. destruct (XXH3_reset_withSecret c secret) as [[e st]| | |]; try discriminate. cbn [bind] in E. injection E as E. eapply P; eauto.
  - destruct (live w i0); try discriminate. cbn [bind] in E. destruct (resolve w _); try discriminate. cbn [bind] in E.
    destruct (XXH3_update _ _ _ _ _) as [[e st]| | |]; try discriminate. cbn [bind] in E. injection E as E. eapply P; eauto.
Qed.
(* the secret member of an object survives all calls that do not replace it *)
Lemma exec_secret : forall c wd w x w' i st, exec c wd w x = Ok w' -> replaces x i = false -> nth_error w i = Some (Live st) ->
  exists st', nth_error w' i = Some (Live st') /\ customSecret st' = customSecret st.
Proof.
  intros c wd w x w' i st E Rp N. assert (L := in_range _ _ _ N).
  destruct (writes x i) eqn:Wr.
  - destruct x; cbn [replaces writes] in *; try congruence. apply Nat.eqb_eq in Wr. subst i0. cbn [exec] in E.
    rewrite (live_at _ _ _ N) in E. cbn [bind] in E. destruct (resolve w _); try discriminate. cbn [bind] in E.
    destruct (XXH3_update _ _ _ _ _) as [[e st1]| | |] eqn:U; try discriminate. cbn [bind] in E. injection E as <-.
    exists st1. split; [now apply nth_lset_eq|]. eapply update_frame; eauto.
  - destruct (exec_keeps _ _ _ _ _ _ E Wr L) as [K _]. exists st. rewrite K. auto.
Qed.

(* right after the copy both states digest alike *)
Theorem C104_copy_equal : forall c wd w d s st g1 g2, live w s = Ok st -> exists_ w d = Ok tt -> d <> s -> secret3 st <> MemberSecret d ->
  exists w', exec c wd w (CopyState d s) = Ok w'
    /\ digest64 c w' g1 g2 d = digest64 c w' g1 g2 s /\ digest128 c w' g1 g2 d = digest128 c w' g1 g2 s
    /\ digest64 c w' g1 g2 s = digest64 c w g1 g2 s /\ digest128 c w' g1 g2 s = digest128 c w g1 g2 s.
Proof.
  intros c wd w d s st g1 g2 Ls Ed Ne Ns. cbn [exec]. rewrite Ed. cbn [bind]. rewrite Ls. cbn [bind].
  eexists. split; [reflexivity|]. assert (Id := exists_in _ _ Ed).
  assert (E1 : live (lset w d (Live st)) d = Ok st) by (apply live_at, nth_lset_eq; auto).
  assert (E2 : live (lset w d (Live st)) s = Ok st) by (unfold live in *; now rewrite nth_lset_ne).
  assert (E3 : resolve (lset w d (Live st)) (secret3 st) = resolve w (secret3 st)).
  { unfold resolve. destruct (secret3 st) as [| |j]; auto. unfold live. rewrite nth_lset_ne; auto; congruence. }
  unfold digest64, digest128. rewrite E1, E2, Ls. cbn [bind]. rewrite E3. auto.
Qed.
(* a state whose secret is its own or not in a state is independent of all calls on other states *)
Theorem C104_own_secret_independent : forall c wd w xs w' i st g1 g2, live w i = Ok st ->
  (forall j, secret3 st = MemberSecret j -> j = i) ->
  exec_all c wd w xs = Ok w' -> forallb (fun x => negb (writes x i)) xs = true ->
  digest64 c w' g1 g2 i = digest64 c w g1 g2 i /\ digest128 c w' g1 g2 i = digest128 c w g1 g2 i.
Proof.
  intros c wd w xs w' i st g1 g2 Lv Own. assert (N : nth_error w i = Some (Live st)).
  { unfold live in Lv. destruct (nth_error w i) as [[| |]|]; congruence. }
  assert (K : forall xs w1 w2, nth_error w1 i = Some (Live st) -> exec_all c wd w1 xs = Ok w2 -> forallb (fun x => negb (writes x i)) xs = true ->
    nth_error w2 i = Some (Live st)).
  { clear -c. induction xs; intros w1 w2 N E F; cbn [exec_all forallb] in *; [congruence|].
    apply andb_true_iff in F. destruct F as [F1 F2]. apply negb_true_iff in F1.
    destruct (exec c wd w1 a) as [wa| | |] eqn:Ea; cbn [bind] in E; try discriminate.
    destruct (exec_keeps _ _ _ _ _ _ Ea F1 (in_range _ _ _ N)) as [K _]. apply (IHxs wa w2); auto; congruence. }
  intros E F. specialize (K xs w w' N E F). unfold digest64, digest128. rewrite (live_at _ _ _ N), (live_at _ _ _ K). cbn [bind].
  assert (RE : resolve w' (secret3 st) = resolve w (secret3 st)).
  { unfold resolve. destruct (secret3 st) as [| |j] eqn:Sj; auto. specialize (Own j eq_refl). subst j. now rewrite (live_at _ _ _ N), (live_at _ _ _ K). }
  rewrite RE. auto.
Qed.
(* a copy of a seeded state keeps its digest as long as the source is neither freed nor reset nor copied over *)
Theorem C104_copy_while_source_lives : forall c wd w xs w' d s st sts g1 g2, live w d = Ok st -> live w s = Ok sts -> secret3 st = MemberSecret s ->
  exec_all c wd w xs = Ok w' -> forallb (fun x => negb (writes x d) && negb (replaces x s)) xs = true ->
  digest64 c w' g1 g2 d = digest64 c w g1 g2 d /\ digest128 c w' g1 g2 d = digest128 c w g1 g2 d.
Proof.
  intros c wd w xs w' d s st sts g1 g2 Ld Ls Sp.
  assert (Nd : nth_error w d = Some (Live st)). { unfold live in Ld. destruct (nth_error w d) as [[| |]|]; congruence. }
  assert (Ns : nth_error w s = Some (Live sts)). { unfold live in Ls. destruct (nth_error w s) as [[| |]|]; congruence. }
  assert (K : forall xs w1 w2 st1, nth_error w1 d = Some (Live st) -> nth_error w1 s = Some (Live st1) -> exec_all c wd w1 xs = Ok w2 ->
    forallb (fun x => negb (writes x d) && negb (replaces x s)) xs = true ->
    nth_error w2 d = Some (Live st) /\ exists st2, nth_error w2 s = Some (Live st2) /\ customSecret st2 = customSecret st1).
  { clear -c. induction xs; intros w1 w2 st1 N1 N2 E F; cbn [exec_all forallb] in *; [injection E as <-; eauto|].
    apply andb_true_iff in F. destruct F as [F F2]. apply andb_true_iff in F. destruct F as [F0 F1]. apply negb_true_iff in F0, F1.
    destruct (exec c wd w1 a) as [wa| | |] eqn:Ea; cbn [bind] in E; try discriminate.
    destruct (exec_keeps _ _ _ _ _ _ Ea F0 (in_range _ _ _ N1)) as [K _]. rewrite N1 in K.
    destruct (exec_secret _ _ _ _ _ _ _ Ea F1 N2) as (stm & Nm & Cm).
    destruct (IHxs _ _ _ K Nm E F2) as [Q1 (st2 & Q2 & Q3)]. split; auto. exists st2. split; congruence. }
  intros E F. destruct (K xs w w' sts Nd Ns E F) as [K1 (st2 & K2 & K3)].
  unfold digest64, digest128. rewrite (live_at _ _ _ Nd), (live_at _ _ _ K1). cbn [bind].
  assert (RE : resolve w' (secret3 st) = resolve w (secret3 st)).
  { unfold resolve. rewrite Sp, (live_at _ _ _ Ns), (live_at _ _ _ K2). cbn [bind]. now rewrite K3. }
  rewrite RE. auto.
Qed.
(* but XXH3_copyState copies the pointer: a copy of a seeded state dangles when the source is freed, and changes its
   value when the source is reset with another seed *)
Theorem C104_copy_refuted : let c := test_build false in let data := repeat 1 320 in
  let setup := [Create; Create; ResetSeed 0 7; Update 0 data; CopyState 1 0] in
  let dig xs := let! w := exec_all c acc_64bits [] (setup ++ xs) in digest64 c w (repeat 0 64) (repeat 0 192) 1 in
  dig [] = make_hash_xxh3 c (repeat 0 192) data 7 /\ dig [Free 0] = UB /\ dig [ResetSeed 0 8] <> dig []
  /\ (let! w := exec_all c acc_64bits [] (setup ++ [Free 0]) in exec c acc_64bits w (Update 1 data)) = UB.
Proof. vm_compute. repeat split; congruence. Qed.
Example C104_example : let c := test_build false in
  (let! w := exec_all c acc_64bits [] [Create; Create; Reset 0; Update 0 (repeat 1 70); CopyState 1 0; Update 0 [9]; Free 0; Update 1 [5]] in
   digest64 c w (repeat 0 64) (repeat 0 192) 1) = XXH3_64bits c (repeat 1 70 ++ [5]) 71.
Proof. vm_compute. reflexivity. Qed.

(* ---- 128 bit hashes ---- *)
Lemma eq_bytes : forall a b, length a = length b ->
  (forallb (fun xy => fst xy =? snd xy) (combine a b) = true <-> a = b).
Proof.
  induction a; intros [|y b] L; cbn in *; try discriminate; [tauto|]. rewrite andb_true_iff, N.eqb_eq, IHa by lia.
  split; [intros [-> ->]; auto|]. intro E. injection E as -> ->. auto.
Qed.
Lemma bytes_inj : forall x y, x < 2 ^ 64 -> y < 2 ^ 64 -> bytesLE 8 x = bytesLE 8 y -> x = y.
Proof. intros x y X Y E. rewrite <- (le_bytes 8 x X), <- (le_bytes 8 y Y). now rewrite E. Qed.
Lemma app_inj_len : forall {A} (a b x y : list A), length a = length b -> a ++ x = b ++ y -> a = b /\ x = y.
Proof.
  induction a; intros [|c b] x y L E; cbn in *; try discriminate; auto. injection E as -> E. destruct (IHa b x y) as [-> ->]; auto.
Qed.
Definition hash128 (h : h128) : Prop := fst h < 2 ^ 64 /\ snd h < 2 ^ 64.
Theorem C106_isEqual : forall a b, hash128 a -> hash128 b -> (XXH128_isEqual a b = true <-> a = b).
Proof.
  intros [al ah] [bl bh] [A1 A2] [B1 B2]. cbn [fst snd] in *. unfold XXH128_isEqual. cbn [fst snd].
  rewrite eq_bytes by (rewrite !app_length, !bytes_length; reflexivity). split; [|congruence].
  intro E. apply app_inj_len in E; [|now rewrite !bytes_length].
  destruct E as [E1 E2]. apply bytes_inj in E1; auto. apply bytes_inj in E2; auto. congruence.
Qed.
(* the value of a hash as one number of 128 bits *)
Definition value (h : h128) : N := fst h + 2 ^ 64 * snd h.
Theorem C106_cmp : forall a b, hash128 a -> hash128 b ->
  XXH128_cmp a b = match (value a ?= value b)%N with Lt => -1 | Eq => 0 | Gt => 1 end%Z.
Proof.
  intros [al ah] [bl bh] [A1 A2] [B1 B2]. unfold value, XXH128_cmp. cbn [fst snd] in *.
  change (2 ^ 64) with 18446744073709551616 in *.
  destruct (N.compare_spec (al + 18446744073709551616 * ah) (bl + 18446744073709551616 * bh));
    destruct (N.ltb_spec bh ah), (N.ltb_spec ah bh); cbn; try lia;
    destruct (N.ltb_spec bl al), (N.ltb_spec al bl); cbn; lia.
Qed.
(* the order is the lexicographic order of the canonical bytes *)
Fixpoint lex (a b : list N) : comparison :=
  match a, b with
  | [], [] => Eq | [], _ => Lt | _, [] => Gt
  | x :: a, y :: b => match x ?= y with Eq => lex a b | o => o end
  end.
Lemma canonical_value : forall h, hash128 h -> be (XXH128_canonicalFromHash h) = value h.
Proof.
  intros [l h] [L H]. cbn [fst snd] in *. unfold XXH128_canonicalFromHash, be, value. cbn [fst snd].
  rewrite rev_app_distr, le_app. rewrite !swap64_rev, !bytes_swap, !rev_involutive, !bytes_length.
  rewrite !le_bytes by assumption. reflexivity.
Qed.
Lemma Ok_inj : forall {A} (x y : A), Ok x = Ok y -> x = y.
Proof. intros A x y E. injection E. auto. Qed.
Theorem C106_canonical : forall h, hash128 h ->
  be (XXH128_canonicalFromHash h) = value h /\ length (XXH128_canonicalFromHash h) = 16%nat /\ Forall is_byte (XXH128_canonicalFromHash h)
  /\ XXH128_hashFromCanonical (XXH128_canonicalFromHash h) = Ok h.
Proof.
  intros h Hh. split; [now apply canonical_value|]. destruct h as [l h]. destruct Hh as [L H]. cbn [fst snd] in *.
  unfold XXH128_canonicalFromHash. cbn [fst snd]. split; [rewrite app_length, !bytes_length; reflexivity|].
  split; [apply Forall_app; split; apply bytes_are_bytes|].
  destruct (C101_canonical_big_endian h) as (_ & _ & _ & B1 & L1 & F1). destruct (C101_canonical_big_endian l) as (_ & _ & _ & B2 & L2 & F2).
  unfold XXH64_canonicalFromHash in *. unfold XXH128_hashFromCanonical.
  destruct (C101_read_big_endian _ (bytesLE 8 (swap64 l)) F1) as [_ R1]. unfold XXH64_hashFromCanonical in R1. rewrite R1, B1 by auto. cbn [bind].
  unfold readBE64. rewrite readLE64_ok by (rewrite app_length, !bytes_length; lia).
  rewrite skipn_app, skipn_all2, bytes_length by (rewrite bytes_length; lia). cbn [Nat.sub skipn app bind].
  rewrite firstn_all2 by (rewrite bytes_length; lia).
  destruct (C101_read_big_endian _ [] F2) as [_ R2]. rewrite app_nil_r in R2. specialize (R2 L2).
  unfold XXH64_hashFromCanonical, readBE64 in R2. rewrite readLE64_ok in R2 by (rewrite bytes_length; lia). cbn [skipn bind] in R2.
  rewrite firstn_all2 in R2 by (rewrite bytes_length; lia). apply Ok_inj in R2. rewrite R2, B2 by auto. reflexivity.
Qed.

Lemma lex_be : forall a b, Forall is_byte a -> Forall is_byte b -> length a = length b -> lex a b = (be a ?= be b).
Proof.
  assert (B1 : forall x l, be (x :: l) = x * 256 ^ N.of_nat (length l) + be l).
  { intros x l. unfold be. cbn [rev]. rewrite le_app, rev_length. cbn [le]. ring. }
  assert (B2 : forall l, Forall is_byte l -> be l < 256 ^ N.of_nat (length l)).
  { intros l F. unfold be. rewrite <- (rev_length l). apply le_lt, Forall_rev, F. }
  induction a as [|x a IH]; intros [|y b] Fa Fb L; cbn [length] in L; try discriminate; [reflexivity|].
  inversion Fa; subst. inversion Fb; subst. cbn [lex]. rewrite !B1. injection L as L. rewrite <- L.
  assert (P1 := B2 a H2). assert (P2 := B2 b H4). rewrite <- L in P2.
  set (M := 256 ^ N.of_nat (length a)) in *. destruct (N.compare_spec x y) as [->|Lt|Gt].
  - rewrite IH by auto. symmetry. destruct (N.compare_spec (be a) (be b)); [apply N.compare_eq_iff|apply N.compare_lt_iff|apply N.compare_gt_iff]; lia.
  - symmetry. apply N.compare_lt_iff. nia.
  - symmetry. apply N.compare_gt_iff. nia.
Qed.
Theorem C106_cmp_canonical : forall a b, hash128 a -> hash128 b ->
  XXH128_cmp a b = match lex (XXH128_canonicalFromHash a) (XXH128_canonicalFromHash b) with Lt => -1 | Eq => 0 | Gt => 1 end%Z.
Proof.
  intros a b A B. destruct (C106_canonical a A) as (Va & La & Fa & _). destruct (C106_canonical b B) as (Vb & Lb & Fb & _).
  rewrite lex_be by congruence. rewrite Va, Vb. now apply C106_cmp.
Qed.
Example C106_example : XXH128_cmp (5, 1) (7, 1) = (-1)%Z /\ XXH128_cmp (0, 2) (7, 1) = 1%Z
  /\ XXH128_hashFromCanonical (XXH128_canonicalFromHash (0x1234, 0x99)) = Ok (0x1234, 0x99).
Proof. vm_compute. auto. Qed.

(* ---- aligned allocation of states ---- *)
(* base is what malloc(s + align) returned: the result is aligned, the block of s bytes and the byte in front of it lie
   in the allocation, and freeing the result frees base *)
Theorem C107_aligned : forall base s k, 3 <= k <= 7 -> 0 < base -> base + s + 2 ^ k < 2 ^ 64 ->
  let (ptr, offset) := alignedMalloc base s (2 ^ k) in
  ptr mod 2 ^ k = 0 /\ base < ptr /\ ptr + s <= base + (s + 2 ^ k) /\ 1 <= offset < 256 /\ alignedFree ptr offset = base.
Proof.
  intros base s k K B M. unfold alignedMalloc, alignedFree.
  assert (P : 8 <= 2 ^ k <= 128). { split; [change 8 with (2 ^ 3)|change 128 with (2 ^ 7)]; apply N.pow_le_mono_r; lia. }
  rewrite N.sub_1_r, <- N.ones_equiv, N.land_ones.
  set (a := 2 ^ k) in *. assert (A : a <> 0) by lia. assert (R := N.mod_lt base a A). assert (D := N.div_mod base a A).
  set (r := base mod a) in *. rewrite wadd_small by lia.
  assert (W : wrap 8 (a - r) = a - r). { unfold wrap. apply N.mod_small. change (2 ^ 8) with 256. lia. }
  rewrite W. rewrite wsub_ge by lia. repeat split; try lia.
  replace (base + (a - r)) with ((base / a + 1) * a) by lia. now apply N.mod_mul.
Qed.
Example C107_example : alignedMalloc 1000 500 64 = (1024, 24) /\ alignedFree 1024 24 = 1000.
Proof. split; reflexivity. Qed.

Print Assumptions C102_make_hash.
Print Assumptions C102_64bits.
Print Assumptions C102_64bits_withSecret.
Print Assumptions C102_128bits.
Print Assumptions C102_seed_zero.
Print Assumptions C102_builds_agree.
Print Assumptions C102_eight_bytes_assert_refuted.
Print Assumptions C103_streaming_partial.
Print Assumptions C103_updates_safe.
Print Assumptions C103_null.
Print Assumptions C103_short_secret.
Print Assumptions C103_one_update_refuted.
Print Assumptions C103_three_updates_refuted.
Print Assumptions C104_copy_equal.
Print Assumptions C104_own_secret_independent.
Print Assumptions C104_copy_while_source_lives.
Print Assumptions C104_copy_refuted.
Print Assumptions C106_isEqual.
Print Assumptions C106_cmp.
Print Assumptions C106_canonical.
Print Assumptions C106_cmp_canonical.
Print Assumptions C107_aligned.

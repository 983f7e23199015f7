(* XXH3 streaming: what the state holds after any sequence of updates, and when the digest is the one-shot hash. *)
From Coq Require Import NArith Arith List Lia Bool.
From Verif Require Import Base XxhModel XxhSpec XxhProofs XxhProps Xxh3Model Xxh3Spec Xxh3Proofs Xxh3ShortProofs.
Import ListNotations.
Open Scope N_scope.

(* D = C ++ R: C has been consumed, R is buffered; [tail]: behind R the buffer still holds the end of C *)
Record holds (w : width) (sec : list N) (tail : bool) (D C R : list N) (st : state3) : Prop := mkHolds {
  h_data : D = C ++ R;
  h_blocks : exists k, length C = (64 * (4 * k))%nat;
  h_size : bufferedSize st = length R;
  h_max : (length R <= 256)%nat;
  h_buffer : length (buffer st) = 256%nat;
  h_bytes : bytes (buffer st);
  h_front : firstn (length R) (buffer st) = R;
  h_back : tail = true -> C <> [] -> skipn (length R) (buffer st) = skipn (length R) (skipn (length C - 256) C);
  h_acc : (acc st, nbStripesSoFar st) = passes (swaps w) sec C;
  h_per : nbStripesPerBlock st = per_block sec;
  h_limit : secretLimit st = (length sec - 64)%nat;
  h_total : totalLen st = size D mod 2 ^ 64 }.

Section Stream.
  Context (c : build) (w : width) (sec : list N) (Bs : bytes sec) (Ls : (136 <= length sec)%nat).
  Let over := over_stripes 64 (step (swaps w) sec).

  Lemma passes_app : forall C X k, length C = (64 * k)%nat -> passes (swaps w) sec (C ++ X) = over (passes (swaps w) sec C) X.
  Proof.
    intros C X k L. unfold passes, over. rewrite <- (firstn_all C). rewrite L. apply over_piece; lia.
  Qed.
  Lemma pair_good : forall a j C, (a, j) = passes (swaps w) sec C -> good a /\ (j < per_block sec)%nat.
  Proof.
    intros a j C E. assert (P := passes_good w sec Ls C). rewrite <- E in P. exact P.
  Qed.

  Lemma loop3_ok : forall b, bytes b -> forall fuel p C a j k, length C = (64 * k)%nat -> (a, j) = passes (swaps w) sec C ->
    (p + 256 <= length b)%nat -> (length b - p <= 256 * fuel)%nat ->
    exists a' j' p' n, update_loop3 fuel c w b p (length b - XXH3_INTERNALBUFFER_SIZE) sec (length sec - 64) (per_block sec) (a, j) = Ok (a', j', p')
      /\ p' = (p + 256 * n)%nat /\ (0 < n)%nat /\ (p' <= length b < p' + 256)%nat
      /\ (a', j') = passes (swaps w) sec (C ++ firstn (256 * n) (skipn p b)).
  Proof.
    intros b Bb. destruct (per_bound sec Ls) as [P1 P2]. unfold XXH3_INTERNALBUFFER_SIZE.
    induction fuel; intros p C a j k L E H F; [lia|]. cbn [update_loop3 fst snd].
    change INTERNALBUFFER_STRIPES with 4%nat. unfold XXH3_INTERNALBUFFER_SIZE.
    destruct (pair_good a j C E) as [G J].
    destruct (consume_ok c w sec Bs Ls b 4 p j a G Bb J ltac:(lia) ltac:(lia)) as (a1 & j1 & E1 & G1 & J1 & O1).
    rewrite E1. cbn [bind].
    assert (E2 : (a1, j1) = passes (swaps w) sec (C ++ firstn 256 (skipn p b))).
    { rewrite (passes_app C _ k L), <- E. symmetry. exact O1. }
    destruct (Nat.leb_spec (p + 256) (length b - 256)).
    - destruct (IHfuel (p + 256)%nat (C ++ firstn 256 (skipn p b)) a1 j1 (k + 4)%nat) as (a' & j' & p' & n & Eq & Ep & En & El & Ea); auto; try lia.
      { rewrite app_length, firstn_length_le by (rewrite skipn_length; lia). lia. }
      exists a', j', p', (S n). rewrite Eq. repeat split; try lia. rewrite Ea. f_equal.
      rewrite <- app_assoc. f_equal. replace (256 * S n)%nat with (256 + 256 * n)%nat by lia. now rewrite firstn_add, skipn_skipn.
    - exists a1, j1, (p + 256)%nat, 1%nat. repeat split; try lia. exact E2.
  Qed.

  Lemma size_app : forall D b, (size D mod 2 ^ 64 + N.of_nat (length b)) mod 2 ^ 64 = size (D ++ b) mod 2 ^ 64.
  Proof. intros. rewrite add_mod_l by discriminate. unfold size. now rewrite app_length, Nat2N.inj_add. Qed.

  Lemma update3_ok : forall tail D C R st b, holds w sec tail D C R st -> bytes b ->
    exists st' C' R', XXH3_update c w sec st (Some b) = Ok (XXH_OK, st')
      /\ holds w sec (tail && (length b <=? 255)%nat) (D ++ b) C' R' st'
      /\ customSecret st' = customSecret st /\ seed3 st' = seed3 st /\ secret3 st' = secret3 st.
  Proof.
    intros tail D C R st b H Bb. destruct H as [HD HB HS HM HL HBB HF HK HA HP HLim HT].
    destruct HB as [k Hk]. destruct (per_bound sec Ls) as [P1 P2].
    unfold XXH3_update, XXH3_INTERNALBUFFER_SIZE. rewrite HS, HP, HLim.
    destruct (Nat.leb_spec (length R + length b) 256) as [Fit|Over].
    - rewrite copy_ok by lia. cbn [bind skipn]. rewrite (firstn_all b), HF.
      eexists; exists C, (R ++ b). split; [reflexivity|]. cbn [customSecret seed3 secret3]. repeat split; auto.
      all: cbn [acc buffer bufferedSize nbStripesPerBlock nbStripesSoFar secretLimit totalLen]; rewrite ?app_length.
      + now rewrite HD, app_assoc.
      + exists k. exact Hk.
      + reflexivity.
      + lia.
      + rewrite skipn_length. lia.
      + apply bytes_app; [rewrite <- HF; now apply bytes_firstn|]. apply bytes_app; auto. now apply bytes_skipn.
      + rewrite app_assoc. rewrite <- app_length. rewrite firstn_app, Nat.sub_diag, firstn_all. cbn [firstn]. apply app_nil_r.
      + intros T NE. apply andb_true_iff in T. destruct T as [T _]. specialize (HK T NE).
        rewrite app_assoc, <- app_length, skipn_app, Nat.sub_diag, skipn_all. cbn [skipn app].
        rewrite app_length, <- !(skipn_skipn (length b)), HK. now rewrite !skipn_skipn.
      + rewrite <- size_app, HT. reflexivity.
    - (* the state after filling the buffer *)
      assert (Fill : exists buf a1 j1 p bs C1,
        (if (0 <? length R)%nat then
             let loadSize := (256 - length R)%nat in
             let! buf := copy (buffer st) (length R) b 0 loadSize in
             let! s := consumeStripes c w (acc st) (nbStripesSoFar st) (per_block sec) buf 0 INTERNALBUFFER_STRIPES sec (length sec - 64) in
             Ok (buf, s, loadSize, 0%nat)
           else Ok (buffer st, (acc st, nbStripesSoFar st), 0%nat, length R)) = Ok (buf, (a1, j1), p, bs)
        /\ bs = 0%nat /\ (a1, j1) = passes (swaps w) sec C1 /\ C1 = D ++ firstn p b /\ (exists k1, length C1 = (64 * (4 * k1))%nat)
        /\ (p <= length b)%nat /\ length buf = 256%nat /\ bytes buf
        /\ (tail = true -> C1 <> [] -> buf = skipn (length C1 - 256) C1) /\ (256 <= length b - p -> 256 <= length b)%nat
        /\ ((length b <= 255 -> 0 < length R) /\ (0 < length R -> p = 256 - length R))%nat).
      { destruct (Nat.ltb_spec 0 (length R)) as [Pos|Zero].
        - cbv zeta. rewrite copy_ok by lia. cbn [bind skipn]. rewrite HF.
          set (buf := R ++ firstn (256 - length R) b ++ _).
          assert (Eb : buf = R ++ firstn (256 - length R) b).
          { unfold buf. rewrite (skipn_all2 (buffer st)) by lia. now rewrite app_nil_r. }
          assert (Bbuf : bytes buf).
          { rewrite Eb. apply bytes_app; [rewrite <- HF; now apply bytes_firstn|now apply bytes_firstn]. }
          assert (Lbuf : length buf = 256%nat) by (rewrite Eb, app_length, firstn_length_le; lia).
          destruct (pair_good _ _ C HA) as [G J].
          change INTERNALBUFFER_STRIPES with 4%nat.
          destruct (consume_ok c w sec Bs Ls buf 4 0 (nbStripesSoFar st) (acc st) G Bbuf J ltac:(lia) ltac:(lia)) as (a1 & j1 & E1 & G1 & J1 & O1).
          rewrite E1. cbn [bind]. exists buf, a1, j1, (256 - length R)%nat, 0%nat, (C ++ buf).
          cbn [skipn] in O1. rewrite firstn_all2 in O1 by lia.
          repeat split; auto; try lia.
          + rewrite (passes_app C buf (4 * k) Hk), <- HA. symmetry. exact O1.
          + now rewrite Eb, HD, app_assoc.
          + exists (S k). rewrite app_length. lia.
          + intros _ _. rewrite app_length, Lbuf, Nat.add_sub, skipn_app, skipn_all, Nat.sub_diag. reflexivity.
        - assert (R = []) by (apply length_zero_iff_nil; lia). subst R. cbn [length] in *. exists (buffer st), (acc st), (nbStripesSoFar st), 0%nat, 0%nat, C.
          repeat split; auto; try lia.
          + cbn [firstn]. now rewrite HD, !app_nil_r.
          + exists k. exact Hk. }
      destruct Fill as (buf & a1 & j1 & p & bs & C1 & EF & -> & A1 & EC1 & (k1 & Lk1) & Pb & Lbuf & Bbuf & Tl & Hbig & Hsm & Hp).
      cbv zeta in EF. rewrite EF. clear EF. cbn [bind].
      (* whole buffers straight from the input *)
      assert (Loop : exists a2 j2 p2 n,
        (if (p + 256 <=? length b)%nat then update_loop3 (length b) c w b p (length b - 256) sec (length sec - 64) (per_block sec) (a1, j1)
         else Ok (a1, j1, p)) = Ok (a2, j2, p2)
        /\ p2 = (p + 256 * n)%nat /\ (p2 <= length b < p2 + 256)%nat /\ (a2, j2) = passes (swaps w) sec (C1 ++ firstn (256 * n) (skipn p b))
        /\ ((0 < n)%nat -> (p + 256 <= length b)%nat)).
      { destruct (Nat.leb_spec (p + 256) (length b)).
        - destruct (loop3_ok b Bb (length b) p C1 a1 j1 (4 * k1)%nat Lk1 A1 ltac:(lia) ltac:(lia)) as (a2 & j2 & p2 & n & E & Ep & En & El & Ea).
          exists a2, j2, p2, n. repeat split; auto; lia.
        - exists a1, j1, p, 0%nat. rewrite Nat.mul_0_r. cbn [firstn]. rewrite app_nil_r. repeat split; auto; lia. }
      destruct Loop as (a2 & j2 & p2 & n & EL & Ep2 & Lp2 & A2 & Hn). rewrite EL. clear EL. cbn [bind fst snd].
      set (C2 := C1 ++ firstn (256 * n) (skipn p b)) in *.
      assert (EC2 : C2 = D ++ firstn p2 b).
      { unfold C2. rewrite EC1, <- app_assoc, Ep2. f_equal. now rewrite firstn_add. }
      assert (Lk2 : length C2 = (64 * (4 * (k1 + n)))%nat).
      { unfold C2. rewrite app_length, firstn_length_le by (rewrite skipn_length; lia). lia. }
      assert (Tl2 : tail && (length b <=? 255)%nat = true -> C2 <> [] -> buf = skipn (length C2 - 256) C2).
      { intros T NE. apply andb_true_iff in T. destruct T as [T Sm]. apply Nat.leb_le in Sm.
        assert (n = 0)%nat. { destruct n; auto. specialize (Hn ltac:(lia)). lia. }
        subst n. unfold C2 in *. cbn [Nat.mul firstn] in *. rewrite app_nil_r in *. auto. }
      destruct (Nat.ltb_spec p2 (length b)) as [Rest|Done].
      + rewrite copy_ok by lia. cbn [bind]. cbn [firstn app]. rewrite (firstn_all2 (skipn p2 b)) by (rewrite skipn_length; lia).
        eexists; exists C2, (skipn p2 b). split; [reflexivity|]. cbn [customSecret seed3 secret3].
        split; [|repeat split]. split; cbn [acc buffer bufferedSize nbStripesPerBlock nbStripesSoFar secretLimit totalLen]; auto.
        * rewrite EC2, <- app_assoc, firstn_skipn. reflexivity.
        * eauto.
        * now rewrite skipn_length.
        * rewrite skipn_length. lia.
        * rewrite app_length, !skipn_length. lia.
        * apply bytes_app; now apply bytes_skipn.
        * rewrite firstn_app, Nat.sub_diag, firstn_all. cbn [firstn]. apply app_nil_r.
        * intros T NE. rewrite skipn_app, Nat.sub_diag, skipn_all. cbn [skipn app]. rewrite skipn_length. rewrite <- (Tl2 T NE). reflexivity.
        * rewrite <- size_app, HT. reflexivity.
      + cbn [bind]. assert (p2 = length b) by lia.
        eexists; exists C2, []. split; [reflexivity|]. cbn [customSecret seed3 secret3].
        split; [|repeat split]. split; cbn [acc buffer bufferedSize nbStripesPerBlock nbStripesSoFar secretLimit totalLen length firstn skipn]; auto.
        * rewrite EC2, app_nil_r. now rewrite firstn_all2 by lia.
        * eauto.
        * lia.
        * rewrite <- size_app, HT. reflexivity.
  Qed.

  (* ---- the digest of a long input ---- *)
  Lemma mod_app : forall (C R : list N) k, length C = (64 * (4 * k))%nat -> (length (C ++ R) mod 64 = length R mod 64)%nat.
  Proof. intros C R k L. rewrite app_length, L, Nat.add_comm, Nat.mul_comm. apply Nat.mod_add. lia. Qed.
  Lemma digest_long_ok : forall tail D C R st g, holds w sec tail D C R st -> bytes D -> (240 < length D)%nat -> length g = 64%nat ->
    tail = true \/ (length D mod 256 = 0)%nat \/ (64 <= length D mod 256)%nat ->
    digest_long c w sec g st = Ok (long_acc (swaps w) sec D).
  Proof.
    intros tail D C R st g H BD LD Lg Cond. destruct H as [HD HB HS HM HL HBB HF HK HA HP HLim HT].
    destruct HB as [k Hk]. destruct (per_bound sec Ls) as [P1 P2].
    destruct (pair_good _ _ C HA) as [G J].
    unfold digest_long, STRIPE_LEN, XXH_SECRET_LASTACC_START. rewrite HS, HP, HLim. replace (length sec - 64 - 7)%nat with (length sec - 71)%nat by lia.
    unfold long_acc. rewrite HD. rewrite (mod_app C R k Hk). rewrite (passes_app C R (4 * k) Hk), <- HA.
    destruct (Nat.leb_spec 64 (length R)) as [Big|Small].
    - assert (DR := Nat.div_mod (length R) 64 ltac:(lia)). assert (MR := Nat.mod_upper_bound (length R) 64 ltac:(lia)).
      destruct (consume_ok c w sec Bs Ls (buffer st) (length R / 64) 0 (nbStripesSoFar st) (acc st) G HBB J ltac:(lia) ltac:(lia)) as (a1 & j1 & E1 & G1 & J1 & O1).
      rewrite E1. cbn [bind].
      assert (EO : over (acc st, nbStripesSoFar st) R = (a1, j1)).
      { unfold over in *. rewrite over_full by lia. rewrite <- O1. cbn [skipn]. rewrite <- HF at 2. rewrite firstn_firstn. do 2 f_equal. lia. }
      rewrite EO. cbn [fst].
      destruct (Nat.eqb_spec (length R mod 64) 0) as [Z|Z].
      + destruct (Nat.ltb_spec 0 (length R mod 64)); [lia|reflexivity].
      + destruct (Nat.ltb_spec 0 (length R mod 64)); [|lia]. rewrite accumulate_512_ok by (auto; lia). do 2 f_equal.
        rewrite app_length, skipn_app, (skipn_all2 C) by lia. cbn [app]. replace (length C + length R - 64 - length C)%nat with (length R - 64)%nat by lia.
        rewrite <- HF at 2. rewrite <- (skip_in 64 (length R)) by lia. rewrite HF. apply firstn_all2. rewrite skipn_length. lia.
    - destruct (Nat.ltb_spec 0 (length R)) as [Pos|Zero].
      + assert (EO : over (acc st, nbStripesSoFar st) R = (acc st, nbStripesSoFar st)).
        { unfold over. apply over_small. lia. }
        rewrite EO. cbn [fst]. rewrite (Nat.mod_small (length R) 64) by lia.
        destruct (Nat.eqb_spec (length R) 0); [lia|].
        assert (LC : (256 <= length C)%nat).
        { rewrite HD, app_length in LD. destruct k; lia. }
        assert (T : tail = true).
        { destruct Cond as [T|Cond]; auto. exfalso.
          assert (M : (length D mod 256 = length R)%nat).
          { rewrite HD, app_length, Hk. replace (64 * (4 * k) + length R)%nat with (length R + k * 256)%nat by lia.
            rewrite Nat.mod_add by lia. apply Nat.mod_small. lia. }
          lia. }
        assert (NE : C <> []) by (intro; subst C; cbn in LC; lia).
        specialize (HK T NE).
        rewrite copy_ok by (unfold XXH3_INTERNALBUFFER_SIZE; lia). cbn [bind firstn app]. unfold XXH3_INTERNALBUFFER_SIZE.
        assert (LB : length (skipn (256 - (64 - length R)) (buffer st)) = (64 - length R)%nat) by (rewrite skipn_length; lia).
        rewrite (firstn_all2 (skipn _ (buffer st))) by lia.
        rewrite copy_ok by (rewrite ?app_length, ?LB, ?skipn_length; lia). cbn [bind skipn]. rewrite HF.
        rewrite firstn_app, LB, Nat.sub_diag, firstn_all2 by lia. cbn [firstn]. rewrite app_nil_r.
        rewrite (skipn_all2 (skipn _ (buffer st) ++ _)) by (rewrite app_length, LB, skipn_length; lia). rewrite app_nil_r.
        assert (EL : skipn (256 - (64 - length R)) (buffer st) ++ R = skipn (length (C ++ R) - 64) (C ++ R)).
        { rewrite skipn_app, app_length. replace (length C + length R - 64 - length C)%nat with 0%nat by lia. cbn [skipn]. f_equal.
          replace (256 - (64 - length R))%nat with (length R + 192)%nat by lia. rewrite <- skipn_skipn, HK, !skipn_skipn. f_equal. lia. }
        rewrite EL. rewrite accumulate_512_ok; auto; try lia.
        * do 2 f_equal. cbn [skipn]. apply firstn_all2. rewrite skipn_length. lia.
        * rewrite <- HD. now apply bytes_skipn.
        * rewrite skipn_length. rewrite <- HD. lia.
      + assert (R = []) by (apply length_zero_iff_nil; lia). subst R. cbn [length]. unfold over. rewrite over_small by (cbn; lia). reflexivity.
  Qed.

  Lemma reset_ok : forall seed sp, N.of_nat (length sec) < 2 ^ 32 + 64 ->
    exists st, reset_internal c seed sp (length sec) = Ok st /\ holds w sec true [] [] [] st
      /\ seed3 st = seed /\ secret3 st = sp /\ length (customSecret st) = 192%nat.
  Proof.
    intros seed sp B. unfold reset_internal, XXH3_SECRET_SIZE_MIN. rewrite assert_ok by (now apply Nat.leb_le). cbn [bind].
    assert (EL : N.to_nat (wrap 32 (wsub 64 (N.of_nat (length sec)) (N.of_nat STRIPE_LEN))) = (length sec - 64)%nat).
    { rewrite wsub_ge by (unfold STRIPE_LEN; change (2 ^ 64) with 18446744073709551616; change (2 ^ 32) with 4294967296 in B; lia).
      unfold wrap. rewrite N.mod_small by (unfold STRIPE_LEN; change (2 ^ 32) with 4294967296 in *; lia). unfold STRIPE_LEN. lia. }
    rewrite EL. eexists. split; [reflexivity|]. cbn [seed3 secret3 customSecret]. rewrite repeat_length. repeat split; auto.
    all: cbn [acc buffer bufferedSize nbStripesPerBlock nbStripesSoFar secretLimit totalLen length].
    - exists 0%nat. reflexivity.
    - lia.
    - apply Forall_forall. intros x I. apply repeat_spec in I. subst x. reflexivity.
    - congruence.
  Qed.

  (* any sequence of updates *)
  Fixpoint updates (st : state3) (bs : list (list N)) : outcome state3 :=
    match bs with [] => Ok st | b :: r => let! (e, st) := XXH3_update c w sec st (Some b) in let! _ := contract (match e with XXH_OK => true | _ => false end) in updates st r end.
  Lemma updates_ok : forall bs tail D C R st, holds w sec tail D C R st -> Forall bytes bs ->
    exists st' C' R', updates st bs = Ok st'
      /\ holds w sec (tail && forallb (fun b => length b <=? 255)%nat bs) (D ++ concat bs) C' R' st'
      /\ customSecret st' = customSecret st /\ seed3 st' = seed3 st /\ secret3 st' = secret3 st.
  Proof.
    induction bs; intros tail D C R st H B.
    - exists st, C, R. cbn [updates concat forallb]. rewrite app_nil_r, andb_true_r. auto.
    - inversion B; subst. cbn [updates concat forallb].
      destruct (update3_ok tail D C R st a H H2) as (st1 & C1 & R1 & E1 & I1 & F1 & F2 & F3). rewrite E1. cbn [bind contract].
      destruct (IHbs _ _ _ _ _ I1 H3) as (st2 & C2 & R2 & E2 & I2 & F4 & F5 & F6). exists st2, C2, R2.
      rewrite E2, app_assoc, andb_assoc. repeat split; auto; try congruence; apply I2.
  Qed.
End Stream.

(* Proofs about chunked_buffer and flat_vector_of_vector. *)
From Coq Require Import NArith ZArith List Lia Bool Arith.
Import ListNotations.
From Verif Require Import Base ChunkModel ChunkSpec.
Open Scope N_scope.

Section P.
  Context {A : Type}.
  Variable sz : N.
  Hypothesis Hsz : 0 < sz.

  Fixpoint chunks_of (i : nat) (hs : list (block A)) : list chunk :=
    match hs with
    | [] => []
    | b :: hs => mkchk (Some i) (N.of_nat (length (belems b))) (bcap b) :: chunks_of (S i) hs
    end.
  Definition elems (hs : list (block A)) : list A := concat (map belems hs).

  Definition inv (b : buf A) (l : list A) : Prop :=
    (heap b = [] /\ curr b = mkchk None 0 0 /\ full b = [] /\ full_size b = 0 /\ l = []) \/
    (exists hs lb, heap b = hs ++ [lb] /\
       curr b = mkchk (Some (length hs)) (N.of_nat (length (belems lb))) (bcap lb) /\
       full b = chunks_of 0 hs /\ full_size b = N.of_nat (length (elems hs)) /\
       N.of_nat (length (belems lb)) <= bcap lb /\ belems lb <> [] /\
       l = elems hs ++ belems lb).

  Lemma alloc_cap : forall n, n * sz < 2 ^ 64 -> @alloc A sz n = mkblk n [].
  Proof. intros n H. unfold alloc, wmul. rewrite wrap_small by exact H. rewrite N.div_mul by lia. reflexivity. Qed.

  Lemma construct_last : forall (hs : list (block A)) c l v, N.of_nat (length l) < c ->
    construct (hs ++ [mkblk c l]) (length hs) (N.of_nat (length l)) v = Ok (hs ++ [mkblk c (l ++ [v])]).
  Proof.
    intros hs c l v H. unfold construct. rewrite nth_error_app2, Nat.sub_diag by lia. cbn [nth_error bcap belems].
    apply N.ltb_lt in H. rewrite H, N.eqb_refl. cbn [andb defined bind].
    apply f_equal. clear. induction hs; [reflexivity|]. cbn. f_equal. assumption.
  Qed.

  Lemma chunks_of_app : forall hs i lb, chunks_of i (hs ++ [lb]) =
    chunks_of i hs ++ [mkchk (Some (i + length hs)%nat) (N.of_nat (length (belems lb))) (bcap lb)].
  Proof.
    induction hs; intros i lb; cbn; [rewrite Nat.add_0_r; reflexivity|]. rewrite IHhs.
    replace (S i + length hs)%nat with (i + S (length hs))%nat by lia. reflexivity.
  Qed.
  Lemma elems_app : forall hs lb, elems (hs ++ [lb]) = elems hs ++ belems lb.
  Proof. intros. unfold elems. rewrite map_app, concat_app. cbn. rewrite app_nil_r. reflexivity. Qed.

  Lemma emplace_inv : forall b l v,
    inv b l -> 0 < chunk_size b -> chunk_size b * sz < 2 ^ 64 -> N.of_nat (length l) + 1 < 2 ^ 64 ->
    exists b' r, emplace_back sz b v = Ok (b', r) /\ inv b' (l ++ [v]) /\ chunk_size b' = chunk_size b /\
      deref b' r = Ok v /\ (forall r' x, deref b r' = Ok x -> deref b' r' = Ok x) /\
      (forall x, deref b r <> Ok x).
  Proof.
    intros b l v I Hc Hb Hl. unfold emplace_back.
    destruct I as [(H1 & H2 & H3 & H4 & ->)|(hs & lb & H1 & H2 & H3 & H4 & H5 & H6 & ->)].
    - rewrite H2. cbn [is_valid chead cend negb N.eqb cbegin heap curr full full_size chunk_size].
      rewrite H1, H3, H4. cbn [length app].
      rewrite alloc_cap by assumption.
      replace (0 =? chunk_size b) with false by (symmetry; apply N.eqb_neq; lia).
      unfold is_valid. cbn [negb contract bind chead cend cbegin]. replace (0 =? chunk_size b) with false by (symmetry; apply N.eqb_neq; lia). cbn [negb contract bind].
      pose proof (construct_last [] (chunk_size b) [] v Hc) as K. cbn [app length] in K.
      change (N.of_nat 0) with 0 in K. rewrite K. cbn [bind].
      eexists. eexists. split; [reflexivity|]. split; [|split; [reflexivity|split; [reflexivity|split]]].
      + right. exists [], (mkblk (chunk_size b) [v]). cbn. repeat split; try reflexivity; try lia. discriminate.
      + intros r' x D. unfold deref in D. rewrite H1 in D. destruct (fst r'); discriminate.
      + intros x D. unfold deref in D. rewrite H1 in D. discriminate.
    - rewrite H2. unfold is_valid. cbn [chead cend cbegin].
      destruct lb as [c e]. cbn [belems bcap] in *.
      destruct (N.eqb_spec (N.of_nat (length e)) c) as [E|E].
      + (* a new chunk *)
        cbn [negb cbegin heap curr full full_size chunk_size].
        rewrite alloc_cap by assumption. cbn [chead cend].
        replace (0 =? chunk_size b) with false by (symmetry; apply N.eqb_neq; lia).
        cbn [negb contract bind cbegin chead cend].
        pose proof (construct_last (heap b) (chunk_size b) [] v Hc) as K. cbn [app length] in K.
        change (N.of_nat 0) with 0 in K. rewrite K. cbn [bind].
        eexists. eexists. split; [reflexivity|]. split; [|split; [reflexivity|split; [|split]]].
        * right. exists (heap b), (mkblk (chunk_size b) [v]). cbn [heap curr full full_size belems bcap length].
          split; [reflexivity|]. split; [reflexivity|].
          rewrite H1, chunks_of_app, elems_app, H3, H4. cbn [belems bcap]. cbn [Nat.add].
          split; [reflexivity|]. split; [|split; [lia|split; [discriminate|reflexivity]]].
          unfold wadd. rewrite app_length, wrap_small; [lia|]. rewrite app_length in Hl. lia.
        * unfold deref. cbn [fst snd heap]. rewrite nth_error_app2, Nat.sub_diag by lia. reflexivity.
        * intros r' x D. unfold deref in *. cbn [heap].
          destruct (nth_error (heap b) (fst r')) as [blk|] eqn:En; [|discriminate].
          rewrite nth_error_app1 by (apply nth_error_Some; congruence). rewrite En. exact D.
        * intros x D. unfold deref in D. cbn [fst snd] in D.
          replace (nth_error (heap b) (length (heap b))) with (@None (block A)) in D; [discriminate|].
          symmetry. apply nth_error_None. lia.
      + cbn [negb contract bind cbegin]. rewrite H1, H2. cbn [chead cend cbegin].
        replace (N.of_nat (length e) =? c) with false by (symmetry; apply N.eqb_neq; lia).
        cbn [negb contract bind].
        rewrite construct_last by lia. cbn [bind].
        eexists. eexists. split; [reflexivity|]. split; [|split; [reflexivity|split; [|split]]].
        * right. exists hs, (mkblk c (e ++ [v])). cbn [heap curr full full_size belems bcap].
          rewrite app_length. cbn [length].
          split; [reflexivity|]. split; [f_equal; lia|]. split; [assumption|]. split; [assumption|].
          split; [lia|]. split; [destruct e; discriminate|]. rewrite app_assoc. reflexivity.
        * unfold deref. cbn [fst snd heap]. rewrite nth_error_app2, Nat.sub_diag by lia. cbn [nth_error belems].
          apply aget_Ok. rewrite Nat2N.id. rewrite nth_error_app2, Nat.sub_diag by lia. reflexivity.
        * intros r' x D. unfold deref in *. cbn [heap]. rewrite H1 in D.
          destruct (Nat.lt_ge_cases (fst r') (length hs)).
          -- rewrite nth_error_app1 in D by lia. rewrite nth_error_app1 by lia. exact D.
          -- rewrite nth_error_app2 in D by lia. rewrite nth_error_app2 by lia.
             destruct (fst r' - length hs)%nat as [|k]; [|destruct k; discriminate].
             cbn [nth_error belems] in *. apply aget_Ok in D. apply aget_Ok.
             rewrite nth_error_app1; [exact D|]. apply nth_error_Some. congruence.
        * intros x D. unfold deref in D. rewrite H1 in D. cbn [fst snd] in D.
          rewrite nth_error_app2, Nat.sub_diag in D by lia. cbn [nth_error belems] in D.
          apply aget_Ok in D. rewrite Nat2N.id in D.
          replace (nth_error e (length e)) with (@None A) in D; [discriminate|].
          symmetry. apply nth_error_None. lia.
  Qed.

  Lemma crun_inv : forall os b l,
    inv b l -> 0 < chunk_size b -> chunk_size b * sz < 2 ^ 64 -> Forall (size_ok sz) os ->
    N.of_nat (length l + length (pushed os)) < 2 ^ 64 ->
    exists b' rs, crun sz b os = Ok (b', rs) /\ inv b' (l ++ pushed os) /\
      Forall2 (fun r v => deref b' r = Ok v) rs (pushed os) /\
      NoDup rs /\ (forall r x, deref b r = Ok x -> deref b' r = Ok x /\ ~ In r rs).
  Proof.
    induction os as [|o os IH]; intros b l I Hc Hb Ho Hl; cbn [crun pushed].
    - exists b, []. rewrite app_nil_r. split; [reflexivity|]. split; [assumption|].
      split; [constructor|]. split; [constructor|]. auto.
    - inversion Ho as [|? ? O1 O2]; subst. destruct o as [v|n]; cbn [pushed length] in *.
      + destruct (emplace_inv b l v I Hc Hb ltac:(lia)) as (b1 & r & E & I1 & C1 & D1 & D2 & D3).
        rewrite E. cbn [bind].
        destruct (IH b1 (l ++ [v]) I1) as (b2 & rs & E2 & I2 & F2 & N2 & K2);
          [rewrite C1; assumption..|assumption|rewrite app_length; cbn [length]; lia|].
        rewrite E2. cbn [bind]. exists b2, (r :: rs). split; [reflexivity|].
        split; [rewrite <- app_assoc in I2; exact I2|].
        split; [constructor; [apply K2; exact D1|exact F2]|].
        split; [constructor; [apply (K2 _ _ D1)|exact N2]|].
        intros r' x D. split; [apply K2, D2, D|].
        intros [->|H]; [exact (D3 _ D)|]. apply (proj2 (K2 _ _ (D2 _ _ D))). exact H.
      + destruct O1 as [O1 O3]. unfold set_chunk_size. apply N.ltb_lt in O1. rewrite O1. cbn [contract bind].
        apply N.ltb_lt in O1. apply (IH (mkbuf (heap b) (curr b) (full b) (full_size b) n) l); auto.
  Qed.

  Lemma chunk_elems_full : forall hs pre post j c,
    nth_error (chunks_of (length pre) hs) j = Some c ->
    exists b, nth_error hs j = Some b /\ chunk_elems (pre ++ hs ++ post) c = Ok (belems b).
  Proof.
    induction hs as [|b hs IH]; intros pre post j c H; [destruct j; discriminate|].
    destruct j as [|j]; cbn [chunks_of nth_error] in H.
    - injection H as <-. exists b. split; [reflexivity|]. unfold chunk_elems. cbn [cbegin chead].
      rewrite nth_error_app2, Nat.sub_diag by lia. cbn [nth_error app].
      rewrite N.leb_refl, Nat2N.id, firstn_all. reflexivity.
    - specialize (IH (pre ++ [b]) post j c). rewrite app_length in IH. cbn [length] in IH.
      replace (length pre + 1)%nat with (S (length pre)) in IH by lia. rewrite <- app_assoc in IH.
      apply IH. exact H.
  Qed.

  Lemma each_full : forall hs pre post,
    each (pre ++ hs ++ post) (chunks_of (length pre) hs) = Ok (map belems hs).
  Proof.
    induction hs as [|b hs IH]; intros pre post; cbn [chunks_of each map]; [reflexivity|].
    destruct (chunk_elems_full (b :: hs) pre post 0 _ eq_refl) as (b0 & E0 & E1).
    cbn in E0. injection E0 as <-. rewrite E1. cbn [bind].
    specialize (IH (pre ++ [b]) post). rewrite app_length in IH. cbn [length] in IH.
    replace (length pre + 1)%nat with (S (length pre)) in IH by lia. rewrite <- app_assoc in IH.
    cbn [app] in *. rewrite IH. reflexivity.
  Qed.

  Lemma curr_elems : forall hs (lb : block A),
    chunk_elems (hs ++ [lb]) (mkchk (Some (length hs)) (N.of_nat (length (belems lb))) (bcap lb)) = Ok (belems lb).
  Proof.
    intros. unfold chunk_elems. cbn [cbegin chead]. rewrite nth_error_app2, Nat.sub_diag by lia. cbn [nth_error].
    rewrite N.leb_refl, Nat2N.id, firstn_all. reflexivity.
  Qed.

  Lemma chunks_of_length : forall hs i, length (chunks_of i hs) = length hs.
  Proof. induction hs; intro i; cbn; auto. Qed.

  Lemma walk_full : forall n hs lb b k fuel,
    heap b = hs ++ [lb] -> curr b = mkchk (Some (length hs)) (N.of_nat (length (belems lb))) (bcap lb) ->
    full b = chunks_of 0 hs -> (k + n = length hs)%nat -> (n < fuel)%nat ->
    chunk_walk fuel b (Z.of_nat k) (Z.of_nat (length hs)) = Ok (map belems (skipn k hs) ++ [belems lb]).
  Proof.
    induction n; intros hs lb b k fuel H1 H2 H3 Hk Hf; destruct fuel as [|fuel]; try lia; cbn [chunk_walk].
    - assert (k = length hs) as -> by lia.
      replace (Z.of_nat (length hs) =? Z.of_nat (length hs) + 1)%Z with false by (symmetry; apply Z.eqb_neq; lia).
      cbn [negb]. rewrite Z.eqb_refl. rewrite H1, H2, curr_elems. cbn [bind].
      assert (forall f, chunk_walk f b (Z.of_nat (length hs) + 1) (Z.of_nat (length hs)) = Ok []) as ->.
      { intro f. destruct f; cbn [chunk_walk]; rewrite Z.eqb_refl; reflexivity. }
      cbn [bind]. rewrite skipn_all. reflexivity.
    - replace (Z.of_nat k =? Z.of_nat (length hs) + 1)%Z with false by (symmetry; apply Z.eqb_neq; lia).
      cbn [negb]. replace (Z.of_nat k =? Z.of_nat (length hs))%Z with false by (symmetry; apply Z.eqb_neq; lia).
      replace (Z.of_nat k <? 0)%Z with false by (symmetry; apply Z.ltb_ge; lia).
      rewrite Nat2Z.id, H3.
      destruct (nth_error (chunks_of 0 hs) k) as [c|] eqn:E.
      2: { apply nth_error_None in E. rewrite chunks_of_length in E. lia. }
      destruct (chunk_elems_full hs [] [lb] k c E) as (blk & E1 & E2). cbn [app] in E2.
      rewrite H1, E2. cbn [bind].
      replace (Z.of_nat k + 1)%Z with (Z.of_nat (S k)) by lia.
      rewrite (IHn hs lb b (S k) fuel) by (auto; lia). cbn [bind].
      assert (skipn k hs = blk :: skipn (S k) hs) as ->; [|reflexivity].
      clear - E1. revert k E1. induction hs; intros [|k] E1; cbn in *; try discriminate; [congruence|].
      apply IHhs. exact E1.
  Qed.

  Lemma chunks_spec : forall b l, inv b l -> exists cs, chunks b = Ok cs /\ concat cs = l.
  Proof.
    intros b l [(H1 & H2 & H3 & H4 & ->)|(hs & lb & H1 & H2 & H3 & H4 & H5 & H6 & ->)]; unfold chunks.
    - rewrite H2, H3. cbn. eauto.
    - rewrite H2. cbn [cbegin]. assert (length (full b) = length hs) as -> by (rewrite H3; apply chunks_of_length).
      change 0%Z with (Z.of_nat 0). rewrite (walk_full (length hs) hs lb) by (auto; lia).
      cbn [skipn]. eexists. split; [reflexivity|].
      rewrite concat_app. cbn. rewrite app_nil_r. reflexivity.
  Qed.

  Lemma size_spec : forall b l, inv b l -> N.of_nat (length l) < 2 ^ 64 -> size b = N.of_nat (length l).
  Proof.
    intros b l [(H1 & H2 & H3 & H4 & ->)|(hs & lb & H1 & H2 & H3 & H4 & H5 & H6 & ->)] Hl; unfold size, wadd.
    - rewrite H2, H4. reflexivity.
    - rewrite H2, H4. cbn [chead]. rewrite app_length in Hl. rewrite app_length, wrap_small; lia.
  Qed.

  (* with one chunk size c: every full chunk holds c elements *)
  Definition inv_c (c : N) (b : buf A) : Prop :=
    chunk_size b = c /\ Forall (fun x => bcap x = c) (heap b) /\
    forall hs lb, heap b = hs ++ [lb] -> Forall (fun x => N.of_nat (length (belems x)) = c) hs.

  Lemma app_last_inj : forall (T : Type) (a b : list T) x y, a ++ [x] = b ++ [y] -> a = b /\ x = y.
  Proof. intros. apply app_inj_tail. assumption. Qed.

  Lemma emplace_inv_c : forall b l v c b' r,
    inv b l -> inv_c c b -> 0 < c -> c * sz < 2 ^ 64 ->
    emplace_back sz b v = Ok (b', r) -> inv_c c b'.
  Proof.
    intros b l v c b' r I (K1 & K2 & K3) Hc Hb. unfold emplace_back.
    destruct I as [(H1 & H2 & H3 & H4 & ->)|(hs & lb & H1 & H2 & H3 & H4 & H5 & H6 & ->)].
    - rewrite H2. cbn [is_valid chead cend negb N.eqb cbegin heap curr full full_size chunk_size].
      rewrite H1, K1. cbn [length app]. rewrite alloc_cap by assumption.
      replace (0 =? c) with false by (symmetry; apply N.eqb_neq; lia).
      unfold is_valid. cbn [chead cend]. replace (0 =? c) with false by (symmetry; apply N.eqb_neq; lia).
      cbn [negb contract bind cbegin].
      pose proof (construct_last [] c [] v Hc) as K. cbn [app length] in K.
      change (N.of_nat 0) with 0 in K. cbn [chead]. rewrite K. cbn [bind]. intro E.
      injection E as <- _. split; [reflexivity|]. cbn [heap]. split; [constructor; auto|].
      intros hs lb Q. destruct hs as [|h [|? ?]]; try discriminate. constructor.
    - rewrite H2. unfold is_valid. cbn [chead cend cbegin].
      destruct lb as [c0 e]. cbn [belems bcap] in *.
      assert (c0 = c) as ->. { rewrite H1 in K2. apply Forall_app in K2. destruct K2 as [_ K2]. inversion K2 as [|? ? Q _]. exact Q. }
      destruct (N.eqb_spec (N.of_nat (length e)) c) as [E|E].
      + cbn [negb cbegin heap curr full full_size chunk_size]. rewrite K1.
        rewrite alloc_cap by assumption. cbn [chead cend].
        replace (0 =? c) with false by (symmetry; apply N.eqb_neq; lia).
        cbn [negb contract bind cbegin chead cend].
        pose proof (construct_last (heap b) c [] v Hc) as K. cbn [app length] in K.
        change (N.of_nat 0) with 0 in K. rewrite K. cbn [bind]. intro Q. injection Q as <- _.
        split; [reflexivity|]. cbn [heap]. split; [apply Forall_app; split; [assumption|constructor; auto]|].
        intros hs' lb' Q. apply app_last_inj in Q. destruct Q as [<- _]. rewrite H1.
        apply Forall_app. split; [eapply K3; eauto|constructor; auto].
      + cbn [negb contract bind cbegin]. rewrite H1, H2. cbn [chead cend cbegin].
        replace (N.of_nat (length e) =? c) with false by (symmetry; apply N.eqb_neq; lia).
        cbn [negb contract bind]. rewrite construct_last by lia. cbn [bind]. intro Q. injection Q as <- _.
        split; [assumption|]. cbn [heap]. split.
        * rewrite H1 in K2. apply Forall_app in K2. apply Forall_app. split; [tauto|constructor; auto].
        * intros hs' lb' Q. apply app_last_inj in Q. destruct Q as [<- _]. eapply K3; eauto.
  Qed.

  Lemma crun_inv_c : forall vs b l c b' rs,
    inv b l -> inv_c c b -> 0 < c -> c * sz < 2 ^ 64 -> N.of_nat (length l + length vs) < 2 ^ 64 ->
    crun sz b (map Push vs) = Ok (b', rs) -> inv_c c b'.
  Proof.
    induction vs as [|v vs IH]; intros b l c b' rs I K Hc Hb Hl E; cbn [map crun] in E.
    - injection E as <- _. exact K.
    - assert (chunk_size b = c) as Kc by apply K.
      destruct (emplace_inv b l v I ltac:(lia) ltac:(rewrite Kc; assumption) ltac:(cbn in Hl; lia))
        as (b1 & r & E1 & I1 & _).
      rewrite E1 in E. cbn [bind] in E. destruct (crun sz b1 (map Push vs)) as [[b2 rs2]| | |] eqn:E2; try discriminate.
      cbn [bind] in E. injection E as <- _.
      eapply IH; [exact I1| |exact Hc|exact Hb| |exact E2].
      + apply (emplace_inv_c b l v c b1 r I K Hc Hb E1).
      + rewrite app_length. cbn in *. lia.
  Qed.

  Lemma full_len : forall c hs, Forall (fun x : block A => N.of_nat (length (belems x)) = c) hs ->
    N.of_nat (length (elems hs)) = c * N.of_nat (length hs).
  Proof.
    intros c hs H. induction H as [|x hs H1 H2 IH]; cbn; [lia|]. unfold elems in *. cbn. rewrite app_length. lia.
  Qed.

  Lemma for_each_spec : forall b l c, inv b l -> inv_c c b -> 0 < c ->
    exists cs, for_each_chunk b = Ok cs /\
      concat cs = if N.of_nat (length l) mod c =? 0 then firstn (length l - N.to_nat c) l else l.
  Proof.
    intros b l c I K Hc.
    destruct I as [(H1 & H2 & H3 & H4 & ->)|(hs & lb & H1 & H2 & H3 & H4 & H5 & H6 & ->)]; unfold for_each_chunk.
    - rewrite H2, H3. cbn. exists []. split; [reflexivity|]. cbn.
      destruct (0 mod c =? 0); destruct (N.to_nat c); reflexivity.
    - destruct K as (K1 & K2 & K3). specialize (K3 _ _ H1). rewrite H1 in K2. apply Forall_app in K2.
      destruct K2 as [_ K2]. inversion K2 as [|? ? K4 _]. clear K1. subst c.
      rewrite H3, H1, H2. pose proof (each_full hs [] [lb]) as E. cbn [app length] in E. rewrite E. cbn [bind].
      unfold is_valid. cbn [chead cend].
      assert (N.of_nat (length (elems hs ++ belems lb)) = N.of_nat (length (belems lb)) + N.of_nat (length hs) * bcap lb) as EL.
      { rewrite app_length. apply full_len in K3. lia. }
      destruct (N.eqb_spec (N.of_nat (length (belems lb))) (bcap lb)) as [Q|Q]; cbn [negb].
      + exists (map belems hs). split; [reflexivity|].
        rewrite EL, Q. replace (bcap lb + N.of_nat (length hs) * bcap lb) with ((1 + N.of_nat (length hs)) * bcap lb) by lia.
        rewrite N.mod_mul by lia. cbn [N.eqb].
        rewrite app_length. replace (length (elems hs) + length (belems lb) - N.to_nat (bcap lb))%nat with (length (elems hs) + 0)%nat by lia.
        rewrite firstn_app_2. cbn [firstn]. rewrite app_nil_r. reflexivity.
      + rewrite curr_elems. cbn [bind]. exists (map belems hs ++ [belems lb]). split; [reflexivity|].
        rewrite EL, N.mod_add, N.mod_small by lia.
        assert (0 < length (belems lb))%nat by (destruct (belems lb); [congruence|cbn; lia]).
        replace (N.of_nat (length (belems lb)) =? 0) with false by (symmetry; apply N.eqb_neq; lia).
        rewrite concat_app. cbn. rewrite app_nil_r. reflexivity.
  Qed.

  Lemma dtor_own : forall (hs : list (block A)) i,
    flat_map (fun c => match cbegin c with Some k => [k] | None => [] end) (chunks_of i hs) = seq i (length hs).
  Proof. induction hs; intro i; cbn; [reflexivity|]. f_equal. apply IHhs. Qed.
End P.

(* ---- flat_vector_of_vector ---- *)
Section F.
  Context {A : Type}.
  Variable w : N.

  Fixpoint offs (n : N) (l : list (list A)) : list N :=
    match l with [] => [] | x :: l => n :: offs (n + N.of_nat (length x)) l end.
  Definition finv (f : flat A) (l : list (list A)) : Prop :=
    elements f = concat l /\ start_idx f = offs 0 l.

  Lemma offs_app : forall l n x, offs n (l ++ [x]) = offs n l ++ [n + N.of_nat (length (concat l))].
  Proof.
    induction l; intros n x; cbn; [f_equal; lia|]. rewrite IHl, app_length. cbn [app].
    replace (n + N.of_nat (length a + length (concat l))) with (n + N.of_nat (length a) + N.of_nat (length (concat l))) by lia. reflexivity.
  Qed.
  Lemma offs_length : forall l n, length (offs n l) = length l.
  Proof. induction l; intro n; cbn; auto. Qed.
  Lemma offs_nth : forall l n i, (i < length l)%nat ->
    nth_error (offs n l) i = Some (n + N.of_nat (length (concat (firstn i l)))).
  Proof.
    induction l; intros n [|i] H; cbn in *; try lia; [f_equal; lia|].
    rewrite IHl by lia. rewrite app_length. f_equal. lia.
  Qed.

  Lemma finv_size : forall f l, finv f l -> fsize f = N.of_nat (length l).
  Proof. intros f l [_ H]. unfold fsize. rewrite H, offs_length. reflexivity. Qed.

  Lemma between_mid : forall f l a x b, finv f l -> l = a ++ x :: b ->
    between f (N.of_nat (length (concat a))) (N.of_nat (length (concat a) + length x)) = Ok x.
  Proof.
    intros f l a x b [H _] ->. unfold between. rewrite H, concat_app. cbn [concat]. rewrite !app_length.
    replace (N.of_nat (length (concat a)) <=? N.of_nat (length (concat a) + length x)) with true
      by (symmetry; apply N.leb_le; lia).
    match goal with |- context [N.leb ?p ?q] => replace (N.leb p q) with true by (symmetry; apply N.leb_le; lia) end.
    cbn [andb]. apply f_equal.
    replace (N.to_nat (N.of_nat (length (concat a) + length x) - N.of_nat (length (concat a)))) with (length x) by lia.
    rewrite Nat2N.id, skipn_app, skipn_all, Nat.sub_diag. cbn [skipn app].
    rewrite firstn_app, firstn_all, Nat.sub_diag. cbn [firstn]. apply app_nil_r.
  Qed.

  Lemma findex_spec : forall f l i, finv f l -> N.of_nat (length l) < 2 ^ 64 ->
    findex f i = match nth_error l (N.to_nat i) with Some x => Ok x | None => Contract end.
  Proof.
    intros f l i I Hl. pose proof (finv_size _ _ I) as Hs. unfold findex. rewrite Hs.
    destruct (nth_error l (N.to_nat i)) as [x|] eqn:E.
    - assert (N.to_nat i < length l)%nat as Hi by (apply nth_error_Some; congruence).
      replace (i <? N.of_nat (length l)) with true by (symmetry; apply N.ltb_lt; lia). cbn [contract bind].
      unfold wadd. rewrite wrap_small by lia.
      pose proof (nth_error_split l _ E) as (a & b & El & La).
      destruct I as [I1 I2]. rewrite I2. unfold aget at 1. rewrite offs_nth by lia. cbn [bind].
      assert (firstn (N.to_nat i) l = a) as -> by (rewrite El, <- La, firstn_app, firstn_all, Nat.sub_diag; apply app_nil_r).
      rewrite N.add_0_l.
      destruct (N.eqb_spec (i + 1) (N.of_nat (length l))) as [Q|Q]; cbn [bind].
      + rewrite I1. replace (length (concat l)) with (length (concat a) + length x)%nat.
        * eapply between_mid; [split; eassumption|exact El].
        * rewrite El in *. rewrite app_length in *. cbn [length] in *. destruct b; [|cbn [length] in *; lia].
          rewrite concat_app. cbn. rewrite app_nil_r, app_length. lia.
      + unfold aget. rewrite offs_nth by lia. cbn [bind].
        replace (length (concat (firstn (N.to_nat (i + 1)) l))) with (length (concat a) + length x)%nat.
        * rewrite N.add_0_l. eapply between_mid; [split; eassumption|exact El].
        * rewrite El. replace (N.to_nat (i + 1)) with (length a + 1)%nat by lia.
          rewrite firstn_app_2. cbn [firstn]. rewrite concat_app, app_length. cbn. rewrite app_nil_r. lia.
    - apply nth_error_None in E. replace (i <? N.of_nat (length l)) with false by (symmetry; apply N.ltb_ge; lia).
      reflexivity.
  Qed.

  Lemma fwalk_spec : forall b a f l, finv f l -> l = a ++ b ->
    fwalk f (offs (N.of_nat (length (concat a))) b) = Ok b.
  Proof.
    induction b as [|x b IH]; intros a f l I El; cbn [offs fwalk]; [reflexivity|].
    assert (match offs (N.of_nat (length (concat a)) + N.of_nat (length x)) b with
            | [] => N.of_nat (length (elements f)) | e :: _ => e end
            = N.of_nat (length (concat a) + length x)) as ->.
    { destruct b; cbn [offs]; [|lia]. destruct I as [I _]. rewrite I, El, concat_app, app_length. cbn.
      rewrite app_nil_r. reflexivity. }
    rewrite (between_mid f l a x b I El). cbn [bind].
    specialize (IH (a ++ [x]) f l I). rewrite concat_app, app_length in IH. cbn [concat] in IH.
    rewrite app_nil_r, Nat2N.inj_add in IH. rewrite IH; [reflexivity|]. rewrite El, <- app_assoc. reflexivity.
  Qed.
  Lemma franges_spec : forall f l, finv f l -> franges f = Ok l.
  Proof. intros f l I. unfold franges. rewrite (proj2 I). apply (fwalk_spec l [] f l I). reflexivity. Qed.

  Lemma offs_last : forall l n x y, offs n (l ++ [x]) = offs n (l ++ [y]).
  Proof. intros. rewrite !offs_app. reflexivity. Qed.

  Lemma fstep_spec : forall f l o, finv f l -> N.of_nat (length (elements f)) < 2 ^ w ->
    match lstep l o with
    | Some l' => exists f', fstep w f o = Ok f' /\ finv f' l' /\
                   N.of_nat (length (elements f')) <= N.of_nat (length (elements f)) + fadds o
    | None => fstep w f o = Contract
    end.
  Proof.
    assert (P : forall f l vs, finv f l ->
      match add_last l vs with
      | Some l' => exists f', push_back_elements f vs = Ok f' /\ finv f' l' /\
                   N.of_nat (length (elements f')) <= N.of_nat (length (elements f)) + N.of_nat (length vs)
      | None => push_back_elements f vs = Contract
      end).
    { intros f l vs I. unfold add_last, push_back_elements. rewrite (finv_size _ _ I).
      destruct (rev l) as [|x r] eqn:E.
      - apply (f_equal (@rev _)) in E. rewrite rev_involutive in E. subst l. reflexivity.
      - apply (f_equal (@rev _)) in E. rewrite rev_involutive in E. cbn [rev] in E. subst l.
        rewrite app_length. cbn [length].
        replace (N.of_nat (length (rev r) + 1) =? 0) with false by (symmetry; apply N.eqb_neq; lia).
        cbn [negb contract bind]. eexists. split; [reflexivity|]. destruct I as [I1 I2]. split; [split|]; cbn [elements start_idx].
        + rewrite I1, !concat_app. cbn. rewrite !app_nil_r, <- app_assoc. reflexivity.
        + rewrite I2. apply offs_last.
        + rewrite app_length. lia. }
    intros f l o I Hw. destruct o as [|v|vs|]; cbn [lstep fstep fadds].
    - eexists. split; [reflexivity|]. destruct I as [I1 I2]. split; [split|]; cbn [start_new_range elements start_idx].
      + rewrite concat_app. cbn. rewrite !app_nil_r. exact I1.
      + rewrite wrap_small by exact Hw. rewrite offs_app, I2, I1. f_equal.
      + lia.
    - specialize (P f l [v] I). exact P.
    - apply P. exact I.
    - eexists. split; [reflexivity|]. split; [split; reflexivity|]. cbn. lia.
  Qed.

  Lemma frun_spec : forall os f l, finv f l -> N.of_nat (length (elements f)) + total os < 2 ^ w ->
    match lrun l os with
    | Some l' => exists f', frun w f os = Ok f' /\ finv f' l'
    | None => frun w f os = Contract
    end.
  Proof.
    induction os as [|o os IH]; intros f l I Ht; cbn [lrun frun].
    - eauto.
    - unfold total in *. cbn [map fold_right] in Ht.
      pose proof (fstep_spec f l o I ltac:(lia)) as S1. destruct (lstep l o) as [l1|].
      + destruct S1 as (f1 & E1 & I1 & L1). rewrite E1. cbn [bind]. apply IH; [exact I1|lia].
      + rewrite S1. reflexivity.
  Qed.
End F.

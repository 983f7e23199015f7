(* Proofs about objects behind a lock. *)
From Coq Require Import NArith Arith List Bool Lia.
From Verif Require Import Base SpinModel SpinSpec SpinProofs SyncModel SyncSpec.
Import ListNotations.

Section P.
  Context {S C R : Type} (body : C -> S -> outcome (S * R)) (P : C -> Prop).
  Notation tst := (tst S C R). Notation event := (event C R). Notation sys := (sys S C R). Notation ev := (ev C). Notation entry := (entry C R).

  (* the thread and the lock agree *)
  Definition agree (t : tst) (p : pc) : Prop :=
    match t with
    | Idle => p = Out
    | Waiting _ _ => p = LXchg \/ p = LLoad
    | _ => p = Held
    end.
  Definition tid (t : tst) : option nat :=
    match t with Idle => None | Waiting id _ | Running id _ | Inside id _ _ | Leaving id _ => Some id end.
  (* what the history and the order of effects know about a thread *)
  Definition known (s : S) (h : list event) (l : list entry) (k : nat) (t : tst) : Prop :=
    match t with
    | Idle => True
    | Waiting id c | Running id c => In (Inv id k c) h /\ ~ In id (map eid l)
    | Inside id c s' => In (Inv id k c) h /\ ~ In id (map eid l) /\ s' = s
    | Leaving id r => exists c, In (mke id c r) l
    end.
  Definition order (h : list event) (l : list entry) : Prop :=
    forall h1 id k c h2, h = h1 ++ Inv id k c :: h2 -> exists l0 l1, l = l0 ++ l1 /\ ~ In id (map eid l0) /\
      forall a r, In (Ret a r) h1 -> In a (map eid l0).
  Record ok (threads : nat) (s0 : S) (y : sys) (l : list entry) : Prop := mkok {
    o_lock : inv threads (lk y);
    o_len : length (ts y) = threads;
    o_agree : forall k t, nth_error (ts y) k = Some t -> exists p, nth_error (thr (lk y)) k = Some p /\ agree t p;
    o_seq : sequential body s0 l (ob y);
    o_known : forall k t, nth_error (ts y) k = Some t -> known (ob y) (hist y) l k t;
    o_ids : forall k j t u id, nth_error (ts y) k = Some t -> nth_error (ts y) j = Some u -> tid t = Some id -> tid u = Some id -> k = j;
    o_next : forall k t id, nth_error (ts y) k = Some t -> tid t = Some id -> (id < next y)%nat;
    o_once : NoDup (map eid l);
    o_lin : forall e, In e l -> (eid e < next y)%nat /\ exists k, In (Inv (eid e) k (ecall e)) (hist y);
    o_ret : forall id r, In (Ret id r) (hist y) -> exists c, In (mke id c r) l;
    o_order : order (hist y) l;
    o_inv : forall id k c, In (Inv id k c) (hist y) -> (id < next y)%nat;
    o_calls : forall id k c k' c', In (Inv id k c) (hist y) -> In (Inv id k' c') (hist y) -> k = k' /\ c = c';
    o_P : forall id k c, In (Inv id k c) (hist y) -> P c }.

  Lemma seq_app : forall l (s s1 s2 : S) e, sequential body s l s1 -> body (ecall e) s1 = Ok (s2, eres e) -> sequential body s (l ++ [e]) s2.
  Proof.
    induction l as [|x l IH]; intros s s1 s2 e H B; cbn [sequential app] in *.
    - subst s1. eauto.
    - destruct H as (s' & E & H). eauto.
  Qed.
  Lemma init_ok : forall threads s0, ok threads s0 (init threads s0) [].
  Proof.
    intros threads s0. assert (N : forall k t, nth_error (repeat (@Idle S C R) threads) k = Some t -> t = Idle).
    { intros k t H. apply nth_error_In, repeat_spec in H. exact H. }
    constructor; cbn [lk ts ob hist next init].
    - apply inv_init.
    - apply repeat_length.
    - intros k t H. pose proof (N k t H) as ->. exists Out. split; [|reflexivity]. unfold initial. cbn [thr].
      assert (L : (k < threads)%nat) by (rewrite <- (repeat_length (@Idle S C R) threads); apply nth_error_Some; congruence).
      apply nth_error_repeat. exact L.
    - reflexivity.
    - intros k t H. rewrite (N k t H). exact Logic.I.
    - intros k j t u id H _ T _. rewrite (N k t H) in T. discriminate.
    - intros k t id H T. rewrite (N k t H) in T. discriminate.
    - constructor.
    - intros e [].
    - intros id r [].
    - intros h1 id k c h2 E. destruct h1; discriminate.
    - intros id k c [].
    - intros id k c k' c' [].
    - intros id k c [].
  Qed.

  (* one thread moves; the lock of the others stays *)
  Definition thr_but (k : nat) (a b : SpinModel.state) : Prop := forall j, j <> k -> nth_error (thr b) j = nth_error (thr a) j.
  Lemma nth_set : forall (l : list tst) k j t u x, nth_error l k = Some x -> nth_error (lset l k t) j = Some u ->
    (j = k /\ u = t) \/ (j <> k /\ nth_error l j = Some u).
  Proof.
    intros l k j t u x H E. destruct (Nat.eq_dec j k) as [->|D].
    - left. rewrite lset_nth_eq in E by (apply nth_error_Some; congruence). split; congruence.
    - right. rewrite lset_nth_neq in E by auto. auto.
  Qed.
  Lemma held_one : forall threads s0 (y : sys) l k j t u, ok threads s0 y l -> nth_error (ts y) k = Some t -> nth_error (ts y) j = Some u ->
    agree t Held -> agree u Held -> t <> Idle -> u <> Idle -> k = j.
  Proof.
    intros threads s0 y l k j t u O Hk Hj Ak Aj Nk Nj. destruct (o_lock _ _ _ _ O) as (_ & _ & I3 & _).
    destruct (o_agree _ _ _ _ O _ _ Hk) as (p & Hp & A). destruct (o_agree _ _ _ _ O _ _ Hj) as (q & Hq & B).
    apply I3; unfold holds.
    - destruct t; cbn in *; try discriminate; try congruence. destruct Ak; discriminate.
    - destruct u; cbn in *; try discriminate; try congruence. destruct Aj; discriminate.
  Qed.

  (* a thread changes its place without an effect and without an event *)
  Lemma move_ok : forall threads s0 (y : sys) l k t t' lk' p, ok threads s0 y l -> nth_error (ts y) k = Some t ->
    inv threads lk' -> thr_but k (lk y) lk' -> nth_error (thr lk') k = Some p -> agree t' p -> tid t' = tid t ->
    (known (ob y) (hist y) l k t -> known (ob y) (hist y) l k t') -> ok threads s0 (put y lk' k t') l.
  Proof.
    intros threads s0 y l k t t' lk' p O Hk HI HB Hp A T K. destruct O as [O1 O2 O3 O4 O5 O6 O7 O8 O9 O10 O11 O12 O13 O14].
    constructor; cbn [put lk ts ob hist next]; auto.
    - rewrite lset_length. exact O2.
    - intros j u Hj. destruct (nth_set _ _ _ _ _ _ Hk Hj) as [(-> & ->)|(D & Hj')]; [eauto|]. rewrite (HB j D). eauto.
    - intros j u Hj. destruct (nth_set _ _ _ _ _ _ Hk Hj) as [(-> & ->)|(D & Hj')]; eauto.
    - intros i j u v id Hi Hj Tu Tv. destruct (nth_set _ _ _ _ _ _ Hk Hi) as [(-> & ->)|(D & Hi')], (nth_set _ _ _ _ _ _ Hk Hj) as [(-> & ->)|(D' & Hj')].
      + reflexivity.
      + rewrite T in Tu. apply (O6 _ _ _ _ id Hk Hj' Tu Tv).
      + rewrite T in Tv. apply (O6 _ _ _ _ id Hi' Hk Tu Tv).
      + apply (O6 _ _ _ _ id Hi' Hj' Tu Tv).
    - intros j u id Hj Tu. destruct (nth_set _ _ _ _ _ _ Hk Hj) as [(-> & ->)|(D & Hj')]; [rewrite T in Tu|]; eauto.
  Qed.

  Lemma go_but : forall st k c, thr_but k st (go st k c).
  Proof. intros st k c j D. unfold go. cbn [thr]. apply lset_nth_neq. auto. Qed.
  Lemma exchange_but : forall st k old st', exchange st k = Ok (old, st') -> thr st' = thr st.
  Proof. intros st k old st' H. unfold exchange in H. destruct (aget (views st) k); cbn [bind] in H; try discriminate. injection H as _ <-. reflexivity. Qed.
  Lemma step_lock : forall threads st k seen p, inv threads st -> nth_error (thr st) k = Some p -> p = LXchg \/ p = LLoad ->
    exists st' q, step st k seen = Ok (st', None) /\ thr_but k st st' /\ nth_error (thr st') k = Some q /\ (q = Held \/ q = LXchg \/ q = LLoad).
  Proof.
    intros threads st k seen p HI Hk Hp. pose proof HI as (I1 & I2 & _). assert (L : (k < length (thr st))%nat) by (apply nth_error_Some; congruence).
    unfold step. rewrite (nth_aget _ _ _ _ Hk). cbn [bind].
    destruct (nth_error (views st) k) as [w|] eqn:Hw; [|apply nth_error_None in Hw; lia].
    assert (G : forall s c, thr s = thr st -> thr_but k st (go s k c) /\ nth_error (thr (go s k c)) k = Some c).
    { intros s c E. unfold go, thr_but. cbn [thr]. rewrite E. split; [intros j D; apply lset_nth_neq; auto|apply lset_nth_eq; exact L]. }
    destruct Hp as [-> | ->].
    - unfold exchange. rewrite (nth_aget _ _ _ _ Hw). cbn [bind].
      destruct (negb (flag st)); do 2 eexists; (split; [reflexivity|]);
        match goal with |- context [go ?s k ?c] => destruct (G s c eq_refl) as (G1 & G2) end; (split; [exact G1|]); (split; [exact G2|]); auto.
    - destruct seen.
      + exists st, LLoad. split; [reflexivity|]. split; [intros j D; reflexivity|]. auto.
      + destruct (G st LXchg eq_refl) as (G1 & G2). do 2 eexists. split; [reflexivity|]. eauto.
  Qed.
  Lemma access_lock : forall threads st k, inv threads st -> nth_error (thr st) k = Some Held ->
    exists st', access st k = Ok st' /\ inv threads st' /\ thr st' = thr st.
  Proof.
    intros threads st k HI Hk. destruct (inv_access _ _ _ HI Hk) as (st' & E & HI'). exists st'. split; [exact E|]. split; [exact HI'|].
    unfold access in E. rewrite (nth_aget _ _ _ _ Hk) in E. cbn [bind] in E. destruct (aget (views st) k); cbn [bind] in E; try discriminate.
    destruct (defined _); cbn [bind] in E; try discriminate. injection E as <-. reflexivity.
  Qed.

  Notation fails := (fails_alone body P).

  Lemma in_snoc : forall T (x y : T) l, In x (l ++ [y]) <-> In x l \/ x = y.
  Proof. intros. rewrite in_app_iff. cbn. intuition. Qed.
  Lemma snoc_split : forall T (l : list T) x a y b, l ++ [x] = a ++ y :: b -> (a = l /\ y = x /\ b = []) \/ exists b', b = b' ++ [x] /\ l = a ++ y :: b'.
  Proof.
    intros T l x a y b H. destruct b as [|z b] using rev_ind.
    - apply app_inj_tail in H. destruct H as (-> & ->). auto.
    - right. rewrite app_comm_cons, app_assoc in H. apply app_inj_tail in H. destruct H as (-> & ->). eauto.
  Qed.

  (* a call that has not taken effect yet fails now *)
  Definition stuck {T} (y : sys) (l : list entry) (o : outcome T) : Prop :=
    exists id k c, In (Inv id k c) (hist y) /\ ~ In id (map eid l) /\ P c /\
      match o with Ok _ => False | Contract => body c (ob y) = Contract | UB => body c (ob y) = UB | OutOfFuel => body c (ob y) = OutOfFuel end.
  Lemma sstep_ok : forall threads s0 (y : sys) l e, ok threads s0 y l -> locked e -> calls P e ->
    (exists y' l', sstep body y e = Ok y' /\ ok threads s0 y' (l ++ l')) \/ stuck y l (sstep body y e).
  Proof.
    intros threads s0 y l e O HL HP. assert (SKIP : exists y' l', Ok y = Ok y' /\ ok threads s0 y' (l ++ l')).
    { exists y, []. rewrite app_nil_r. auto. }
    pose proof (o_lock _ _ _ _ O) as HI.
    destruct e as [k c|k seen|k|k|k|k c]; cbn [sstep locked calls] in *; try contradiction.
    - (* call *) destruct (nth_error (ts y) k) as [[|id c'|id c'|id c' s|id r]|] eqn:Hk; auto. left.
      destruct (o_agree _ _ _ _ O _ _ Hk) as (p & Hp & A). cbn [agree] in A. subst p.
      unfold start_lock. rewrite (nth_aget _ _ _ _ Hp). cbn [bind]. do 2 eexists. split; [reflexivity|]. rewrite app_nil_r.
      assert (HI' : inv threads (go (lk y) k LXchg)) by (eapply inv_go; eauto; discriminate).
      destruct O as [O1 O2 O3 O4 O5 O6 O7 O8 O9 O10 O11 O12 O13 O14].
      assert (Fr : ~ In (next y) (map eid l)). { intro H. apply in_map_iff in H. destruct H as (e & E & He). destruct (O9 e He). lia. }
      constructor; cbn [lk ts ob hist next]; auto.
      + rewrite lset_length. exact O2.
      + intros j u Hj. destruct (nth_set _ _ _ _ _ _ Hk Hj) as [(-> & ->)|(D & Hj')].
        * exists LXchg. split; [|left; reflexivity]. unfold go. cbn [thr]. apply lset_nth_eq. apply nth_error_Some. congruence.
        * rewrite (go_but _ _ _ j D). eauto.
      + intros j u Hj. destruct (nth_set _ _ _ _ _ _ Hk Hj) as [(-> & ->)|(D & Hj')].
        * cbn [known]. split; [apply in_snoc; auto|exact Fr].
        * specialize (O5 j u Hj'). destruct u; cbn [known] in *; auto; rewrite in_snoc; tauto.
      + intros i j u v id Hi Hj Tu Tv. destruct (nth_set _ _ _ _ _ _ Hk Hi) as [(-> & ->)|(D & Hi')], (nth_set _ _ _ _ _ _ Hk Hj) as [(-> & ->)|(D' & Hj')]; auto.
        * cbn in Tu. injection Tu as <-. specialize (O7 _ _ _ Hj' Tv). lia.
        * cbn in Tv. injection Tv as <-. specialize (O7 _ _ _ Hi' Tu). lia.
        * eapply O6; eauto.
      + intros j u id Hj Tu. destruct (nth_set _ _ _ _ _ _ Hk Hj) as [(-> & ->)|(D & Hj')].
        * cbn in Tu. injection Tu as <-. lia.
        * specialize (O7 _ _ _ Hj' Tu). lia.
      + intros e He. destruct (O9 e He) as (E1 & k' & E2). split; [lia|]. exists k'. apply in_snoc. auto.
      + intros id r H. apply in_snoc in H. destruct H as [H|H]; [auto|discriminate].
      + intros h1 id k' c' h2 E. apply snoc_split in E. destruct E as [(-> & E & ->)|(h2' & -> & E)].
        * injection E as -> -> ->. exists l, []. rewrite app_nil_r. split; [reflexivity|]. split; [exact Fr|].
          intros a r Ha. destruct (O10 a r Ha) as (c'' & Hc). apply (in_map eid) in Hc. exact Hc.
        * eapply O11; eauto.
      + intros id k' c' H. apply in_snoc in H. destruct H as [H|H]; [specialize (O12 _ _ _ H); lia|]. injection H as -> -> ->. lia.
      + intros id k1 c1 k2 c2 H1 H2. apply in_snoc in H1, H2. destruct H1 as [H1|H1], H2 as [H2|H2]; eauto.
        * injection H2 as -> -> ->. specialize (O12 _ _ _ H1). lia.
        * injection H1 as -> -> ->. specialize (O12 _ _ _ H2). lia.
        * injection H1 as -> -> ->. injection H2 as -> ->. auto.
      + intros id k' c' H. apply in_snoc in H. destruct H as [H|H]; [eauto|]. injection H as -> -> ->. exact HP.
    - (* tick *) destruct (nth_error (ts y) k) as [[|id c'|id c'|id c' s|id r]|] eqn:Hk; auto. left.
      destruct (o_agree _ _ _ _ O _ _ Hk) as (p & Hp & A). cbn [agree] in A.
      destruct (step_lock threads (lk y) k seen p HI Hp A) as (st' & q & E & B & Hq & Q). rewrite E. cbn [bind].
      rewrite (nth_aget _ _ _ _ Hq). cbn [bind]. do 2 eexists. split; [reflexivity|]. rewrite app_nil_r.
      eapply move_ok; [exact O|exact Hk|eapply inv_step; eauto|exact B|exact Hq| | |].
      + destruct Q as [->|[-> | ->]]; cbn; auto.
      + destruct q; reflexivity.
      + intros (K1 & K2). destruct q; cbn; auto.
    - (* begin *) destruct (nth_error (ts y) k) as [[|id c'|id c'|id c' s|id r]|] eqn:Hk; auto. left.
      destruct (o_agree _ _ _ _ O _ _ Hk) as (p & Hp & A). cbn [agree] in A. subst p.
      destruct (access_lock threads (lk y) k HI Hp) as (st' & E & HI' & ET). rewrite E. cbn [bind].
      do 2 eexists. split; [reflexivity|]. rewrite app_nil_r.
      eapply move_ok; [exact O|exact Hk|exact HI'| | | | |].
      + intros j D. rewrite ET. reflexivity.
      + rewrite ET. exact Hp.
      + reflexivity.
      + reflexivity.
      + cbn. intros (K1 & K2). auto.
    - (* finish *) destruct (nth_error (ts y) k) as [[|id c'|id c'|id c' s|id r]|] eqn:Hk; auto.
      destruct (o_agree _ _ _ _ O _ _ Hk) as (p & Hp & A). cbn [agree] in A. subst p.
      destruct (access_lock threads (lk y) k HI Hp) as (st' & E & HI' & ET). rewrite E. cbn [bind].
      destruct (o_known _ _ _ _ O _ _ Hk) as (K1 & K2 & ->).
      pose proof (o_seq _ _ _ _ O) as SQ.
      assert (PL : (forall e, In e l -> P (ecall e)) /\ P c').
      { split; [|eapply o_P; eauto]. intros e He. destruct (o_lin _ _ _ _ O e He) as (_ & k' & Hi). eapply o_P; eauto. }
      destruct PL as (PL & Pc).
      destruct (body c' (ob y)) as [[s2 r]| | |] eqn:EB; cbn [bind];
        [left|right; exists id, k, c'; auto|right; exists id, k, c'; auto|right; exists id, k, c'; auto].
      exists (mky st' s2 (lset (ts y) k (Leaving id r)) (next y) (hist y)), [mke id c' r]. split; [reflexivity|].
      assert (ONE : forall j u, j <> k -> nth_error (ts y) j = Some u -> forall i c s, u <> Inside i c s).
      { intros j u D Hj i c s ->. apply D. eapply (held_one threads s0 y l j k _ _ O Hj Hk); cbn; congruence. }
      destruct O as [O1 O2 O3 O4 O5 O6 O7 O8 O9 O10 O11 O12 O13 O14].
      constructor; cbn [lk ts ob hist next]; auto.
      + rewrite lset_length. exact O2.
      + intros j u Hj. rewrite ET. destruct (nth_set _ _ _ _ _ _ Hk Hj) as [(-> & ->)|(D & Hj')]; [exists Held; split; [exact Hp|reflexivity]|eauto].
      + eapply seq_app; [exact SQ|exact EB].
      + intros j u Hj. destruct (nth_set _ _ _ _ _ _ Hk Hj) as [(-> & ->)|(D & Hj')].
        * cbn [known]. exists c'. apply in_snoc. auto.
        * assert (DI : tid u <> Some id) by (intro T; apply D; eapply (O6 j k u _ id Hj' Hk T); reflexivity).
          specialize (O5 j u Hj'). specialize (ONE j u D Hj'). destruct u; cbn [known tid] in *; auto.
          -- rewrite map_app. cbn [map eid]. rewrite in_snoc. cbn in DI. intuition congruence.
          -- rewrite map_app. cbn [map eid]. rewrite in_snoc. cbn in DI. intuition congruence.
          -- exfalso. eapply ONE. reflexivity.
          -- destruct O5 as (c0 & Hc0). exists c0. apply in_snoc. auto.
      + intros i j u v id' Hi Hj Tu Tv. destruct (nth_set _ _ _ _ _ _ Hk Hi) as [(-> & ->)|(D & Hi')], (nth_set _ _ _ _ _ _ Hk Hj) as [(-> & ->)|(D' & Hj')]; auto.
        * exact (O6 k j _ _ id' Hk Hj' Tu Tv).
        * exact (O6 i k _ _ id' Hi' Hk Tu Tv).
        * eapply O6; eauto.
      + intros j u id' Hj Tu. destruct (nth_set _ _ _ _ _ _ Hk Hj) as [(-> & ->)|(D & Hj')]; [exact (O7 k _ id' Hk Tu)|eauto].
      + rewrite map_app. cbn [map eid]. apply NoDup_rev in O8. rewrite <- (rev_involutive (map eid l ++ [id])). apply NoDup_rev.
        rewrite rev_app_distr. cbn [rev app]. constructor; [rewrite <- in_rev; exact K2|exact O8].
      + intros e He. apply in_snoc in He. destruct He as [He| ->]; [auto|]. cbn [eid ecall]. split; [exact (O7 k _ id Hk eq_refl)|eauto].
      + intros i r' H. destruct (O10 i r' H) as (c0 & Hc0). exists c0. apply in_snoc. auto.
      + intros h1 i k' c0 h2 EH. destruct (O11 h1 i k' c0 h2 EH) as (l0 & l1 & -> & F1 & F2). exists l0, (l1 ++ [mke id c' r]). rewrite app_assoc. auto.
    - (* return *) destruct (nth_error (ts y) k) as [[|id c'|id c'|id c' s|id r]|] eqn:Hk; auto. left.
      destruct (o_agree _ _ _ _ O _ _ Hk) as (p & Hp & A). cbn [agree] in A. subst p.
      assert (EU : exists st', unlock (lk y) k = Ok st' /\ thr st' = lset (thr (lk y)) k Out).
      { unfold unlock. rewrite (nth_aget _ _ _ _ Hp). cbn [bind]. destruct (nth_error (views (lk y)) k) as [w|] eqn:Hw.
        - rewrite (nth_aget _ _ _ _ Hw). cbn [bind]. eexists. split; [reflexivity|]. reflexivity.
        - destruct HI as (I1 & I2 & _). apply nth_error_None in Hw. assert (k < length (thr (lk y)))%nat by (apply nth_error_Some; congruence). lia. }
      destruct EU as (st' & EU & ET). pose proof (inv_unlock _ _ _ _ HI EU) as HI'. rewrite EU. cbn [bind].
      destruct (o_known _ _ _ _ O _ _ Hk) as (c' & K).
      do 2 eexists. split; [reflexivity|]. rewrite app_nil_r. destruct O as [O1 O2 O3 O4 O5 O6 O7 O8 O9 O10 O11 O12 O13 O14].
      constructor; cbn [lk ts ob hist next]; auto.
      + rewrite lset_length. exact O2.
      + intros j u Hj. rewrite ET. destruct (nth_set _ _ _ _ _ _ Hk Hj) as [(-> & ->)|(D & Hj')].
        * exists Out. split; [apply lset_nth_eq; apply nth_error_Some; congruence|reflexivity].
        * rewrite lset_nth_neq by auto. eauto.
      + intros j u Hj. destruct (nth_set _ _ _ _ _ _ Hk Hj) as [(-> & ->)|(D & Hj')]; [exact Logic.I|].
        specialize (O5 j u Hj'). destruct u; cbn [known] in *; auto; rewrite in_snoc; tauto.
      + intros i j u v id' Hi Hj Tu Tv. destruct (nth_set _ _ _ _ _ _ Hk Hi) as [(-> & ->)|(D & Hi')], (nth_set _ _ _ _ _ _ Hk Hj) as [(-> & ->)|(D' & Hj')]; auto; try discriminate.
        eapply O6; eauto.
      + intros j u id' Hj Tu. destruct (nth_set _ _ _ _ _ _ Hk Hj) as [(-> & ->)|(D & Hj')]; [discriminate|eauto].
      + intros e He. destruct (O9 e He) as (E1 & k' & E2). split; [lia|]. exists k'. apply in_snoc. auto.
      + intros i r' H. apply in_snoc in H. destruct H as [H|H]; [auto|]. injection H as -> ->. eauto.
      + intros h1 i k' c0 h2 EH. apply snoc_split in EH. destruct EH as [(-> & E & ->)|(h2' & -> & EH)]; [discriminate|]. eapply O11; eauto.
      + intros i k' c0 H. apply in_snoc in H. destruct H as [H|H]; [specialize (O12 _ _ _ H); lia|discriminate].
      + intros i k1 c1 k2 c2 H1 H2. apply in_snoc in H1, H2. destruct H1 as [H1|H1], H2 as [H2|H2]; try discriminate. eauto.
      + intros i k' c0 H. apply in_snoc in H. destruct H as [H|H]; [eauto|discriminate].
  Qed.

  Lemma run_ok : forall threads s0 es (y : sys) l, ok threads s0 y l -> Forall locked es -> Forall (calls P) es ->
    (exists y' l', run body y es = Ok y' /\ ok threads s0 y' (l ++ l')) \/ fails s0 (run body y es).
  Proof.
    induction es as [|e es IH]; intros y l O F FP; cbn [run].
    - left. exists y, []. rewrite app_nil_r. auto.
    - inversion F as [|? ? Fe Fes]; subst. inversion FP as [|? ? Ge Ges]; subst. destruct (sstep_ok threads s0 y l e O Fe Ge) as [(y' & l' & E & O')|E].
      + rewrite E. cbn [bind]. destruct (IH y' _ O' Fes Ges) as [(y2 & l2 & E2 & O2)|E2]; [left|right; exact E2].
        exists y2, (l' ++ l2). rewrite app_assoc. auto.
      + right. destruct E as (id & k & c & _ & _ & Pc & E). exists l, (ob y), c. split; [exact (o_seq _ _ _ _ O)|]. split.
        { intros e' He'. destruct (o_lin _ _ _ _ O e' He') as (_ & k' & Hi). eapply o_P; eauto. }
        split; [exact Pc|]. destruct (sstep body y e); cbn [bind]; auto. contradiction.
  Qed.
  (* the same with the state in which the call fails *)
  Lemma run_stuck : forall threads s0 es (y : sys) l, ok threads s0 y l -> Forall locked es -> Forall (calls P) es ->
    (exists y' l', run body y es = Ok y' /\ ok threads s0 y' (l ++ l')) \/
    (exists es1 e es2 y' l', es = es1 ++ e :: es2 /\ run body y es1 = Ok y' /\ ok threads s0 y' (l ++ l') /\ stuck y' (l ++ l') (run body y es)).
  Proof.
    induction es as [|e es IH]; intros y l O F FP; cbn [run].
    - left. exists y, []. rewrite app_nil_r. auto.
    - inversion F as [|? ? Fe Fes]; subst. inversion FP as [|? ? Ge Ges]; subst. destruct (sstep_ok threads s0 y l e O Fe Ge) as [(y' & l' & E & O')|E].
      + rewrite E. cbn [bind]. destruct (IH y' _ O' Fes Ges) as [(y2 & l2 & E2 & O2)|(es1 & e2 & es2 & y2 & l2 & -> & E2 & O2 & S2)]; [left|right].
        * exists y2, (l' ++ l2). rewrite app_assoc. auto.
        * exists (e :: es1), e2, es2, y2, (l' ++ l2). rewrite app_assoc. split; [reflexivity|]. split; [|auto]. cbn [run]. rewrite E. exact E2.
      + right. exists [], e, es, y, []. rewrite app_nil_r. split; [reflexivity|]. split; [reflexivity|]. split; [exact O|].
        destruct E as (id & k & c & K1 & K2 & Pc & E). exists id, k, c. split; [exact K1|]. split; [exact K2|]. split; [exact Pc|].
        destruct (sstep body y e); cbn [bind]; auto. contradiction.
  Qed.
  Lemma ok_explains : forall threads s0 (y : sys) l, ok threads s0 y l -> explains l (hist y).
  Proof.
    intros threads s0 y l [O1 O2 O3 O4 O5 O6 O7 O8 O9 O10 O11 O12 O13 O14]. constructor; auto.
    - intros e He. apply O9, He.
    - intros h1 id k c h2 a r E Ha. destruct (O11 _ _ _ _ _ E) as (l0 & l1 & -> & N & H). exists l0, l1. eauto.
  Qed.

  (* a waiting thread that runs alone completes when nobody is inside *)
  Lemma complete : forall threads s0 (y : sys) l k id c s r, ok threads s0 y l -> nth_error (ts y) k = Some (Waiting id c) ->
    (forall j t, nth_error (ts y) j = Some t -> t = Idle \/ exists i d, t = Waiting i d) -> body c (ob y) = Ok (s, r) ->
    exists es y', Forall (by_thread k) es /\ Forall locked es /\ run body y es = Ok y' /\ ob y' = s /\ In (Ret id r) (hist y') /\ nth_error (ts y') k = Some Idle.
  Proof.
    intros threads s0 y l k id c s r O Hk NB EB. pose proof (o_lock _ _ _ _ O) as HI. pose proof HI as (I1 & I2 & _ & I4 & I5 & _).
    assert (LT : (k < length (ts y))%nat) by (apply nth_error_Some; congruence).
    assert (FL : flag (lk y) = false).
    { destruct (flag (lk y)) eqn:F; auto. destruct (I4 eq_refl) as (j & Hj). unfold holds in Hj.
      destruct (nth_error (ts y) j) as [t|] eqn:E.
      - destruct (o_agree _ _ _ _ O _ _ E) as (p & Hp & A). assert (p = Held) by congruence. subst p.
        destruct (NB j t E) as [->|(i & d & ->)]; cbn in A; [discriminate|destruct A; discriminate].
      - apply nth_error_None in E. rewrite (o_len _ _ _ _ O), <- I1 in E. assert (j < length (thr (lk y)))%nat by (apply nth_error_Some; congruence). lia. }
    (* with the lock in hand *)
    assert (REST : forall y1 l1, ok threads s0 y1 l1 -> nth_error (ts y1) k = Some (Running id c) -> ob y1 = ob y ->
      exists y', run body y1 [EBegin k; EFinish k; EReturn k] = Ok y' /\ ob y' = s /\ In (Ret id r) (hist y') /\ nth_error (ts y') k = Some Idle).
    { intros y1 l1 O1 H1 Ob. assert (L1 : (k < length (ts y1))%nat) by (apply nth_error_Some; congruence).
      cbn [run sstep]. rewrite H1. destruct (o_agree _ _ _ _ O1 _ _ H1) as (p & Hp & A). cbn in A. subst p.
      destruct (access_lock threads (lk y1) k (o_lock _ _ _ _ O1) Hp) as (s1 & E1 & J1 & T1). rewrite E1. cbn [bind put ts lk ob next hist].
      rewrite lset_nth_eq by exact L1. rewrite <- T1 in Hp. destruct (access_lock threads s1 k J1 Hp) as (s2 & E2 & J2 & T2).
      rewrite E2. cbn [bind]. rewrite Ob, EB. cbn [bind ts lk ob next hist]. rewrite lset_nth_eq by (rewrite lset_length; exact L1).
      rewrite <- T2 in Hp. unfold unlock. rewrite (nth_aget _ _ _ _ Hp). cbn [bind].
      destruct (nth_error (views s2) k) as [w|] eqn:Hw.
      - rewrite (nth_aget _ _ _ _ Hw). cbn [bind]. eexists. split; [reflexivity|]. cbn [ob hist ts]. split; [reflexivity|].
        split; [apply in_snoc; auto|]. apply lset_nth_eq. rewrite !lset_length. exact L1.
      - destruct J2 as (A1 & A2 & _). apply nth_error_None in Hw. assert (k < length (thr s2))%nat by (apply nth_error_Some; congruence). lia. }
    assert (TICK : forall y1 l1 p, ok threads s0 y1 l1 -> nth_error (ts y1) k = Some (Waiting id c) -> nth_error (thr (lk y1)) k = Some p ->
      flag (lk y1) = false -> ob y1 = ob y -> p = LXchg ->
      exists y2 l2, sstep body y1 (ETick k false) = Ok y2 /\ ok threads s0 y2 l2 /\ nth_error (ts y2) k = Some (Running id c) /\ ob y2 = ob y).
    { intros y1 l1 p O1 H1 Hp F1 Ob ->. destruct (sstep_ok threads s0 y1 l1 (ETick k false) O1 Logic.I Logic.I) as [(y2 & l2 & E & O2)|E].
      - exists y2, (l1 ++ l2). split; [exact E|]. split; [exact O2|]. cbn [sstep] in E. rewrite H1 in E.
        unfold step in E. rewrite (nth_aget _ _ _ _ Hp) in E. cbn [bind] in E. unfold exchange in E.
        destruct (aget (views (lk y1)) k) as [w| | |]; cbn [bind] in E; try discriminate. rewrite F1 in E. cbn [negb bind go thr] in E.
        assert (LK : (k < length (thr (lk y1)))%nat) by (apply nth_error_Some; congruence).
        unfold aget in E. rewrite lset_nth_eq in E by exact LK. cbn [bind] in E. injection E as <-. cbn [put ts ob].
        split; [|exact Ob]. apply lset_nth_eq. apply nth_error_Some. congruence.
      - exfalso. destruct E as (ll & s' & c' & _ & _ & _ & E). cbn [sstep] in E. rewrite H1 in E.
        destruct (step_lock threads (lk y1) k false LXchg (o_lock _ _ _ _ O1) Hp (or_introl eq_refl)) as (st' & q & E1 & _ & Hq & _).
        rewrite E1 in E. cbn [bind] in E. rewrite (nth_aget _ _ _ _ Hq) in E. exact E. }
    destruct (o_agree _ _ _ _ O _ _ Hk) as (p & Hp & [-> | ->]).
    - destruct (TICK y l LXchg O Hk Hp FL eq_refl eq_refl) as (y2 & l2 & E & O2 & H2 & Ob). destruct (REST y2 l2 O2 H2 Ob) as (y3 & E3 & X1 & X2 & X3).
      exists [ETick k false; EBegin k; EFinish k; EReturn k], y3. split; [repeat constructor|]. split; [repeat constructor|].
      split; [|auto]. cbn [run] in E3 |- *. rewrite E. cbn [bind]. exact E3.
    - set (y1 := put y (go (lk y) k LXchg) k (Waiting id c)).
      assert (E1 : sstep body y (ETick k false) = Ok y1).
      { cbn [sstep]. rewrite Hk. unfold step. rewrite (nth_aget _ _ _ _ Hp). cbn [bind]. unfold aget. cbn [go thr].
        rewrite lset_nth_eq by (apply nth_error_Some; congruence). reflexivity. }
      assert (O1 : ok threads s0 y1 l).
      { destruct (sstep_ok threads s0 y l (ETick k false) O Logic.I Logic.I) as [(y2 & l2 & E & O2)|(ll & s' & c' & _ & _ & _ & E)]; [|rewrite E1 in E; contradiction].
        unfold y1. eapply move_ok; [exact O|exact Hk| | | | | |]; auto.
        - eapply inv_go; eauto; discriminate.
        - apply go_but.
        - unfold go. cbn [thr]. apply lset_nth_eq. apply nth_error_Some. congruence.
        - left. reflexivity. }
      destruct (TICK y1 l LXchg O1) as (y2 & l2 & E & O2 & H2 & Ob); auto.
      + unfold y1. cbn [put ts]. apply lset_nth_eq. exact LT.
      + unfold y1. cbn [put lk go thr]. apply lset_nth_eq. apply nth_error_Some. congruence.
      + destruct (REST y2 l2 O2 H2 Ob) as (y3 & E3 & X1 & X2 & X3).
        exists [ETick k false; ETick k false; EBegin k; EFinish k; EReturn k], y3. split; [repeat constructor|]. split; [repeat constructor|].
        split; [|auto]. cbn [run] in E3 |- *. rewrite E1. cbn [bind]. rewrite E. cbn [bind]. exact E3.
  Qed.
End P.

(* Proofs about atomic_linked_pool. *)
From Coq Require Import NArith ZArith List Lia Bool Arith Permutation.
Import ListNotations.
From Verif Require Import Base LPoolModel LPoolSpec.
Open Scope N_scope.

Lemma idx_eqb_eq : forall a c, idx_eqb a c = true <-> a = c.
Proof.
  intros [i|] [j|]; cbn; split; intro H; try discriminate; auto.
  - apply Nat.eqb_eq in H. congruence.
  - injection H as ->. apply Nat.eqb_refl.
Qed.

Definition rnode (c : pc) : list nat := match c with RLoad i | RStore i _ _ | RCas i _ _ => [i] | _ => [] end.

Lemma thr_split : forall (l : list pc) k c, nth_error l k = Some c ->
  exists t1 t2, l = t1 ++ c :: t2 /\ forall c', lset l k c' = t1 ++ c' :: t2.
Proof.
  induction l as [|h t IH]; intros [|k] c H; cbn in *; try discriminate.
  - injection H as ->. exists [], t. auto.
  - destruct (IH k c H) as (t1 & t2 & -> & H2). exists (h :: t1), t2. cbn. split; [auto|]. intros. rewrite H2. auto.
Qed.

(* replacing what thread k is doing *)
Lemma rnode_lset : forall l k c c', nth_error l k = Some c ->
  exists r, Permutation (flat_map rnode l) (rnode c ++ r) /\ Permutation (flat_map rnode (lset l k c')) (rnode c' ++ r).
Proof.
  intros l k c c' H. destruct (thr_split _ _ _ H) as (t1 & t2 & -> & Hs). rewrite Hs.
  exists (flat_map rnode t1 ++ flat_map rnode t2). rewrite !flat_map_app. cbn [flat_map].
  split; rewrite !app_assoc; apply Permutation_app_tail; apply Permutation_app_comm.
Qed.

Lemma rnode_same : forall l k c c', nth_error l k = Some c -> rnode c = rnode c' ->
  flat_map rnode (lset l k c') = flat_map rnode l.
Proof.
  intros l k c c' H E. destruct (thr_split _ _ _ H) as (t1 & t2 & -> & Hs). rewrite Hs.
  rewrite !flat_map_app. cbn [flat_map]. rewrite E. auto.
Qed.

Lemma in_rnode : forall l k c i, nth_error l k = Some c -> In i (rnode c) -> In i (flat_map rnode l).
Proof. intros. apply in_flat_map. exists c. split; [eapply nth_error_In; eauto|auto]. Qed.

(* two different threads never release the same node *)
Lemma rnode_two : forall l j k c d i, nth_error l j = Some c -> nth_error l k = Some d -> j <> k ->
  In i (rnode c) -> In i (rnode d) -> ~ NoDup (flat_map rnode l).
Proof.
  induction l as [|h t IH]; intros j k c d i Hj Hk Hne Hc Hd; [destruct j; discriminate|].
  destruct j as [|j], k as [|k]; cbn in Hj, Hk; [congruence| | |].
  - injection Hj as ->. cbn. intro N. pose proof (in_rnode _ _ _ _ Hk Hd) as X.
    destruct c; cbn in Hc; try contradiction; destruct Hc as [<-|[]]; cbn in N; inversion N; auto.
  - injection Hk as ->. cbn. intro N. pose proof (in_rnode _ _ _ _ Hj Hc) as X.
    destruct d; cbn in Hd; try contradiction; destruct Hd as [<-|[]]; cbn in N; inversion N; auto.
  - cbn. intro N. eapply (IH j k); eauto.
    clear - N. induction (rnode h); [auto|]. cbn in N. inversion N; auto.
Qed.

Lemma NoDup_app_r : forall (A : Type) (u v : list A), NoDup (u ++ v) -> NoDup v.
Proof. induction u; cbn; intros v N; [auto|]. inversion N; auto. Qed.
Lemma NoDup_app_l : forall (A : Type) (u v : list A), NoDup (u ++ v) -> NoDup u.
Proof.
  induction u; cbn; intros v N; [constructor|]. inversion N; subst. constructor; [|eauto].
  intro. apply H1. apply in_or_app; auto.
Qed.
Lemma NoDup_app_disj : forall (A : Type) (u v : list A) x, NoDup (u ++ v) -> In x u -> ~ In x v.
Proof.
  induction u as [|a u IH]; intros v x N H; [destruct H|]. cbn in N. inversion N; subst. destruct H as [<-|H].
  - intro. apply H2. apply in_or_app; auto.
  - eauto.
Qed.

(* ---------- handles ---------- *)
Lemma pack_ipo : forall i g, N.of_nat i < 65535 -> h_ipo (pack i g) = N.of_nat (i + 1).
Proof.
  intros i g H. unfold h_ipo, pack. rewrite N.mod_add by (cbv; discriminate).
  rewrite N.mod_mod by (cbv; discriminate). apply N.mod_small. change (2 ^ 16) with 65536. lia.
Qed.
Lemma pack_gen : forall i g, N.of_nat i < 65535 -> h_gen (pack i g) = g mod 2 ^ 13.
Proof.
  intros i g H. unfold h_gen, pack. rewrite N.div_add by (cbv; discriminate).
  rewrite (N.div_small (N.of_nat (i + 1) mod 2 ^ 16)) by (apply N.mod_lt; cbv; discriminate).
  rewrite N.add_0_l. apply N.mod_mod. cbv; discriminate.
Qed.
Lemma pack_slot : forall i g, N.of_nat i < 65535 -> slot (pack i g) = i.
Proof. intros. unfold slot. rewrite pack_ipo by auto. lia. Qed.
Lemma pack_nz : forall i g, N.of_nat i < 65535 -> pack i g <> 0.
Proof.
  intros i g H E. pose proof (pack_ipo i g H) as P. rewrite E in P. unfold h_ipo in P. cbn in P. lia.
Qed.

(* ---------- the free list ---------- *)
Fixpoint fchain (a : list (option nat)) (h : option nat) (l : list nat) : Prop :=
  match l with
  | [] => h = None
  | i :: t => h = Some i /\ exists nx, nth_error a i = Some nx /\ fchain a nx t
  end.

Lemma fchain_lset : forall a i x l h, ~ In i l -> fchain a h l -> fchain (lset a i x) h l.
Proof.
  induction l as [|j t IH]; intros h Hi F; [exact F|]. destruct F as (-> & nx & E & F). split; [auto|].
  exists nx. split; [|apply IH; auto; intro; apply Hi; right; auto].
  rewrite lset_nth_neq; [auto|]. intros ->. apply Hi. left; auto.
Qed.

Section P.
  Variables (extra size threads : nat).
  Hypothesis Hextra : (1 <= extra)%nat.
  Hypothesis Hsize : (2 <= size)%nat.
  Hypothesis Hmax : N.of_nat size <= 65535.

  Lemma link_loop_ok : forall todo i a, (i + todo < length a)%nat ->
    exists a', link_loop todo i a = Ok a' /\ length a' = length a /\
      (forall j, (j < i)%nat -> nth_error a' j = nth_error a j) /\
      (forall j, (i + todo <= j)%nat -> nth_error a' j = nth_error a j) /\
      (forall j, (i <= j)%nat -> (j < i + todo)%nat -> nth_error a' j = Some (Some (j + 1)%nat)).
  Proof.
    induction todo as [|todo IH]; intros i a H; cbn [link_loop].
    - exists a. repeat split; auto. intros; lia.
    - rewrite aset_Ok by lia. cbn [bind].
      destruct (IH (i + 1)%nat (lset a i (Some (i + 1)%nat))) as (a' & E & L & B1 & B2 & B3); [rewrite lset_length; lia|].
      exists a'. split; [auto|]. rewrite lset_length in L. split; [auto|]. split; [|split].
      + intros j Hj. rewrite B1 by lia. apply lset_nth_neq. lia.
      + intros j Hj. rewrite B2 by lia. apply lset_nth_neq. lia.
      + intros j H1 H2. destruct (Nat.eq_dec j i) as [->|]; [|apply B3; lia].
        rewrite B1 by lia. apply lset_nth_eq. lia.
  Qed.

  Lemma fchain_seq : forall a k i, (i + k = size)%nat -> (0 < k)%nat ->
    (forall j, (j < size - 1)%nat -> nth_error a j = Some (Some (j + 1)%nat)) ->
    nth_error a (size - 1) = Some None -> fchain a (Some i) (seq i k).
  Proof.
    induction k as [|k IH]; intros i E Hk H H0; [lia|]. cbn [seq fchain]. split; [auto|].
    destruct k.
    - exists None. replace i with (size - 1)%nat by lia. split; [auto|reflexivity].
    - exists (Some (i + 1)%nat). split; [apply H; lia|]. replace (i + 1)%nat with (S i) by lia. apply IH; auto; lia.
  Qed.

  Lemma initialize_ok : exists a, initialize extra size threads =
    Ok (mks size (Some 0%nat) 1 a (repeat 0 size) (repeat Idle threads)) /\
    (size <= length a)%nat /\ fchain a (Some 0%nat) (seq 0 size).
  Proof.
    unfold initialize. destruct (N.leb_spec (N.of_nat size) (2 ^ 16 - 1)) as [|X]; [|change (2 ^ 16) with 65536 in X; lia].
    destruct (Nat.ltb_spec 1 size); [|lia]. cbn [contract bind].
    destruct (link_loop_ok (size - 1) 0 (repeat None (size - 1 + extra))) as (a & E & L & B1 & B2 & B3);
      [rewrite repeat_length; lia|].
    rewrite repeat_length in L. rewrite E. cbn [bind]. rewrite aset_Ok by lia. cbn [bind].
    eexists. split; [reflexivity|]. split; [rewrite lset_length; lia|].
    apply fchain_seq; [lia|lia| |].
    - intros j Hj. rewrite lset_nth_neq by lia. apply B3; lia.
    - apply lset_nth_eq. lia.
  Qed.

  Definition pc_ok (st : state) (v : view) (m : N) (c : pc) : Prop :=
    match c with
    | Idle | RLoad _ | RStore _ _ _ => True
    | QNext i ver => (i < size)%nat /\ ver = m mod 2 ^ 32 /\ m <= chg v /\ (chg v = m -> hidx st = Some i)
    | QCas i ver nx => (i < size)%nat /\ ver = m mod 2 ^ 32 /\ m <= chg v /\
        (chg v = m -> hidx st = Some i /\ nth_error (fl st) i = Some nx)
    | RCas i h _ => nth_error (fl st) i = Some h
    end.

  Definition linv (st : state) (v : view) (l : list nat) : Prop :=
    fchain (fl st) (hidx st) l /\ Permutation (l ++ map slot (own v) ++ flat_map rnode (thr st)) (seq 0 size).

  Definition handles_ok (gs : list N) (v : view) : Prop :=
    length gs = size /\ length (rel v) = size /\
    (forall i g c, nth_error gs i = Some g -> nth_error (rel v) i = Some c -> g = c mod 2 ^ 13) /\
    (forall h, In h (own v) -> h_ipo h = N.of_nat (slot h + 1) /\ nth_error gs (slot h) = Some (h_gen h)) /\
    (forall h c, In (h, c) (dead v) -> h_ipo h = N.of_nat (slot h + 1) /\
       exists c', nth_error (rel v) (slot h) = Some c' /\ 1 <= c <= c' /\ h_gen h = (c - 1) mod 2 ^ 13).

  Definition inv (st : state) (v : view) : Prop :=
    psize st = size /\ (size <= length (fl st))%nat /\ hver st = chg v mod 2 ^ 32 /\
    length (mark v) = length (thr st) /\ handles_ok (gen st) v /\
    (exists l, linv st v l) /\
    (forall k c m, nth_error (thr st) k = Some c -> nth_error (mark v) k = Some m -> pc_ok st v m c).

  Lemma repeat_nth : forall (A : Type) (x : A) n i y, nth_error (repeat x n) i = Some y -> y = x.
  Proof. induction n; intros [|i] y H; cbn in H; try discriminate; [congruence|eauto]. Qed.

  Lemma linv_nodup : forall st v l, linv st v l -> NoDup (l ++ map slot (own v) ++ flat_map rnode (thr st)).
  Proof. intros st v l (_ & P). eapply Permutation_NoDup; [apply Permutation_sym; exact P|apply seq_NoDup]. Qed.

  Lemma linv_lt : forall st v l i, linv st v l -> In i (l ++ map slot (own v) ++ flat_map rnode (thr st)) -> (i < size)%nat.
  Proof. intros st v l i (_ & P) H. eapply Permutation_in in H; [|exact P]. apply in_seq in H. lia. Qed.

  Lemma inv_init : forall st, initialize extra size threads = Ok st ->
    inv st (mkv [] [] 1 (repeat 0 threads) (repeat 0 size)).
  Proof.
    intros st H. destruct initialize_ok as (a & E & L & F). rewrite E in H.
    match type of H with Ok ?x = _ => assert (st = x) by congruence end. subst st. clear H E.
    unfold inv. cbn [psize fl hver chg mark thr gen hidx own dead rel].
    split; [auto|]. split; [auto|]. split; [reflexivity|]. split; [rewrite !repeat_length; auto|]. split; [|split].
    - unfold handles_ok. cbn [own dead rel]. rewrite !repeat_length. split; [auto|]. split; [auto|]. split; [|split].
      + intros i g c H1 H2. apply repeat_nth in H1, H2. subst. reflexivity.
      + intros h [].
      + intros h c [].
    - exists (seq 0 size). split; [exact F|]. cbn [own thr map app].
      replace (flat_map rnode (repeat Idle threads)) with (@nil nat); [rewrite app_nil_r; auto|].
      clear. induction threads; auto.
    - intros k c m H _. apply repeat_nth in H. subst c. exact I.
  Qed.

  (* reading the head as a candidate *)
  Lemma candidate_exact : forall st v k l, inv st v -> linv st v l ->
    candidate st k = match l with [] => Contract | i :: _ => Ok (with_thr st k (QNext i (hver st))) end.
  Proof. intros st v k l _ (F & _). unfold candidate. destruct l; cbn in F; [rewrite F|destruct F as (-> & _)]; auto. Qed.

  (* after a step that changes neither head, free list nor generations *)
  Lemma inv_quiet : forall st v k c c', inv st v -> nth_error (thr st) k = Some c -> rnode c = rnode c' ->
    (forall i ver, c' <> QNext i ver) ->
    (forall m, nth_error (mark v) k = Some m -> pc_ok st v m c') ->
    inv (with_thr st k c') (observe v st (with_thr st k c') k None).
  Proof.
    intros st v k c c' (I1 & I2 & I3 & I4 & I5 & (l & F & P) & I7) Hc E Hq Hok.
    assert (Hlt : (k < length (thr st))%nat) by (apply nth_error_Some; congruence).
    unfold observe. cbn [with_thr hver thr]. rewrite N.eqb_refl. rewrite lset_nth_eq by auto.
    assert (Em : match c' with QNext _ _ => lset (mark v) k (chg v) | _ => mark v end = mark v)
      by (destruct c'; auto; exfalso; eapply Hq; eauto).
    unfold inv. cbn [with_thr psize fl hver chg mark thr gen hidx own dead rel].
    split; [auto|]. split; [auto|]. split; [auto|]. split; [|split; [exact I5|split]].
    - rewrite lset_length. rewrite <- I4. destruct c'; auto. exfalso; eapply Hq; eauto.
    - exists l. unfold linv. cbn [with_thr fl hidx thr own]. split; [auto|]. rewrite (rnode_same _ _ _ _ Hc E). auto.
    - intros j d m Hj Hm.
      assert (Hm' : nth_error (mark v) j = Some m) by (destruct c'; auto; exfalso; eapply Hq; eauto).
      assert (X : pc_ok st v m d).
      { destruct (Nat.eq_dec j k) as [->|Hne].
        - rewrite lset_nth_eq in Hj by auto. injection Hj as <-. auto.
        - rewrite lset_nth_neq in Hj by auto. eauto. }
      destruct d; exact X.
  Qed.

  (* the thread becomes a candidate with the current head *)
  Lemma inv_candidate : forall st v k c st', inv st v -> nth_error (thr st) k = Some c -> rnode c = [] ->
    candidate st k = Ok st' -> inv st' (observe v st st' k None).
  Proof.
    intros st v k c st' I Hc E H. pose proof I as (I1 & I2 & I3 & I4 & I5 & (l & F & P) & I7).
    assert (Hlt : (k < length (thr st))%nat) by (apply nth_error_Some; congruence).
    rewrite (candidate_exact _ _ _ _ I (conj F P)) in H. destruct l as [|i t]; [discriminate|].
    assert (st' = with_thr st k (QNext i (hver st))) by congruence. subst st'. clear H.
    unfold observe. cbn [with_thr hver thr]. rewrite N.eqb_refl. rewrite lset_nth_eq by auto.
    unfold inv. cbn [with_thr psize fl hver chg mark thr gen hidx own dead rel].
    split; [auto|]. split; [auto|]. split; [auto|]. split; [rewrite !lset_length; auto|]. split; [exact I5|]. split.
    - exists (i :: t). unfold linv. cbn [with_thr fl hidx thr own]. split; [auto|].
      rewrite (rnode_same _ _ _ (QNext i (hver st)) Hc E). auto.
    - intros j d m Hj Hm. destruct (Nat.eq_dec j k) as [->|Hne].
      + rewrite lset_nth_eq in Hj by auto. rewrite lset_nth_eq in Hm by lia. injection Hj as <-. injection Hm as <-.
        cbn [pc_ok chg hidx]. split; [|split; [auto|split; [lia|]]].
        * eapply (linv_lt st v (i :: t)); [exact (conj F P)|left; auto].
        * intros _. apply F.
      + rewrite lset_nth_neq in Hj by auto. rewrite lset_nth_neq in Hm by auto. pose proof (I7 _ _ _ Hj Hm) as X. destruct d; exact X.
  Qed.

  Lemma wver : forall c, wadd 32 (c mod 2 ^ 32) 1 = (c + 1) mod 2 ^ 32.
  Proof.
    intro c. unfold wadd, wrap. rewrite N.add_mod_idemp_l by (cbv; discriminate). reflexivity.
  Qed.

  Lemma wver_ne : forall c, (wadd 32 (c mod 2 ^ 32) 1 =? c mod 2 ^ 32) = false.
  Proof.
    intro c. apply N.eqb_neq. unfold wadd, wrap. change (2 ^ 32) with 4294967296.
    pose proof (N.mod_lt c 4294967296 ltac:(discriminate)). set (x := c mod 4294967296) in *. clearbody x.
    destruct (N.eq_dec x 4294967295) as [->|]; [cbv; discriminate|]. rewrite N.mod_small by lia. lia.
  Qed.

  (* pc_ok of the other threads after the head changed *)
  Lemma pc_ok_head : forall st v st' v' m c, pc_ok st v m c -> fl st' = fl st -> chg v' = chg v + 1 -> pc_ok st' v' m c.
  Proof.
    intros st v st' v' m c H E1 E2. destruct c; cbn [pc_ok] in *; auto.
    - destruct H as (H1 & H2 & H3 & H4). rewrite E2. split; [auto|]. split; [auto|]. split; [lia|]. intros; lia.
    - destruct H as (H1 & H2 & H3 & H4). rewrite E2. split; [auto|]. split; [auto|]. split; [lia|]. intros; lia.
    - rewrite E1. auto.
  Qed.

  Lemma mod_window : forall a m : N, m <= a -> a < m + 2 ^ 32 -> a mod 2 ^ 32 = m mod 2 ^ 32 -> a = m.
  Proof.
    intros a m H1 H2 E. pose proof (N.div_mod a (2 ^ 32) ltac:(cbv; discriminate)) as A.
    pose proof (N.div_mod m (2 ^ 32) ltac:(cbv; discriminate)) as M. rewrite E in A.
    set (q := a / 2 ^ 32) in *. set (p := m / 2 ^ 32) in *. set (r := m mod 2 ^ 32) in *. clearbody q p r.
    change (2 ^ 32) with 4294967296 in *. lia.
  Qed.

  Lemma inv_step : forall st v k sp st' r, inv st v -> in_time v st k ->
    step st k sp = Ok (st', r) -> inv st' (observe v st st' k r).
  Proof.
    intros st v k sp st' r I T H. pose proof I as (I1 & I2 & I3 & I4 & I5 & (l & F & P) & I7).
    unfold step, aget in H. destruct (nth_error (thr st) k) as [c|] eqn:Hc; [|discriminate]. cbn [bind] in H.
    assert (Hlt : (k < length (thr st))%nat) by (apply nth_error_Some; congruence).
    assert (exists m, nth_error (mark v) k = Some m) as (m & Hm).
    { destruct (nth_error (mark v) k) eqn:Z; [eauto|]. apply nth_error_None in Z. lia. }
    pose proof (I7 _ _ _ Hc Hm) as Ok0.
    destruct c as [|i ver|i ver nx|i|i h ver|i h ver]; [discriminate| | | | |].
    - (* QNext *)
      cbn [pc_ok] in Ok0. destruct Ok0 as (O1 & O2 & O3 & O4).
      destruct (nth_error (fl st) i) as [nx|] eqn:Hn; [|discriminate]. cbn [bind] in H.
      assert (r = None) by congruence. assert (st' = with_thr st k (QCas i ver nx)) by congruence. subst r st'.
      eapply inv_quiet; [exact I|exact Hc|reflexivity|intros; discriminate|]. intros m' Hm'. assert (m' = m) by congruence. subst m'.
      cbn [pc_ok]. split; [auto|]. split; [auto|]. split; [auto|]. intro X. auto.
    - (* QCas *)
      cbn [pc_ok] in Ok0. destruct Ok0 as (O1 & O2 & O3 & O4).
      destruct (idx_eqb (hidx st) (Some i) && (hver st =? ver) && negb sp) eqn:Cas.
      + apply andb_true_iff in Cas. destruct Cas as (Cas & _). apply andb_true_iff in Cas. destruct Cas as (_ & Cv).
        apply N.eqb_eq in Cv. unfold in_time in T. rewrite Hc in T. destruct T as (m' & Hm' & T).
        assert (m' = m) by congruence. subst m'.
        assert (chg v = m) as Em by (apply mod_window; auto; congruence).
        destruct (O4 Em) as (O5 & O6). clear O4.
        cbn [with_thr with_head psize] in H. rewrite I1 in H. destruct (Nat.ltb_spec i size); [|lia]. cbn [contract bind gen] in H.
        destruct I5 as (G1 & G2 & G3 & G4 & G5).
        change (gen (with_thr (with_head st nx ver) k Idle)) with (gen st) in H.
        destruct (nth_error (gen st) i) as [g|] eqn:Hg; [|discriminate]. cbn [bind] in H.
        match type of H with Ok (?x, ?y) = _ => assert (st' = x) by congruence; assert (r = y) by congruence end. subst st' r. clear H.
        destruct l as [|i' t]; [cbn in F; congruence|]. destruct F as (F1 & nx' & F2 & F3).
        assert (i' = i) by congruence. subst i'. assert (nx' = nx) by congruence. subst nx'.
        pose proof (pack_ipo i g ltac:(lia)) as Pi. pose proof (pack_gen i g ltac:(lia)) as Pg. pose proof (pack_slot i g ltac:(lia)) as Ps.
        assert (Hgc : g mod 2 ^ 13 = g).
        { destruct (nth_error (rel v) i) as [c|] eqn:Hr.
          - rewrite (G3 i g c Hg Hr). apply N.mod_mod. cbv; discriminate.
          - apply nth_error_None in Hr. lia. }
        unfold observe. cbn [with_thr with_head hver thr]. rewrite <- Cv. rewrite I3. rewrite wver_ne.
        rewrite lset_nth_eq by auto.
        unfold inv. cbn [with_thr with_head psize fl hver chg mark thr gen hidx own dead rel].
        split; [auto|]. split; [auto|]. split; [apply wver|]. split; [rewrite lset_length; auto|]. split; [|split].
        * unfold handles_ok. cbn [own dead rel]. split; [auto|]. split; [auto|]. split; [auto|]. split; [|auto].
          intros h [<-|Hh]; [|auto]. rewrite Ps, Pi, Pg. split; [auto|]. congruence.
        * exists t. unfold linv. cbn [with_thr with_head with_fl fl hidx own thr map]. split; [auto|]. rewrite Ps.
          rewrite (rnode_same _ _ _ Idle Hc eq_refl). rewrite <- P. cbn [app]. apply Permutation_sym. apply Permutation_middle.
        * intros j d m' Hj Hm''. destruct (Nat.eq_dec j k) as [->|Hne].
          -- rewrite lset_nth_eq in Hj by auto. injection Hj as <-. exact Logic.I.
          -- rewrite lset_nth_neq in Hj by auto. eapply pc_ok_head; [eapply I7; eauto|reflexivity|reflexivity].
      + destruct (candidate st k) as [st1| | |] eqn:E; try discriminate. cbn [bind] in H.
        assert (r = None) by congruence. assert (st' = st1) by congruence. subst r st'.
        eapply inv_candidate; eauto.
    - (* RLoad *)
      assert (r = None) by congruence. assert (st' = with_thr st k (RStore i (hidx st) (hver st))) by congruence. subst r st'.
      eapply inv_quiet; [exact I|exact Hc|reflexivity|intros; discriminate|]. intros; exact Logic.I.
    - (* RStore *)
      assert (Hi : (i < size)%nat).
      { eapply (linv_lt st v l); [exact (conj F P)|]. rewrite !in_app_iff. right. right. eapply in_rnode; [exact Hc|left; auto]. }
      rewrite aset_Ok in H by lia. cbn [bind] in H.
      match type of H with Ok (?x, ?y) = _ => assert (st' = x) by congruence; assert (r = y) by congruence end. subst st' r. clear H.
      pose proof (linv_nodup st v l (conj F P)) as ND.
      assert (Hnl : ~ In i l).
      { intro X. apply (NoDup_app_disj _ _ _ _ ND X). apply in_or_app. right. eapply in_rnode; [exact Hc|left; auto]. }
      unfold observe. cbn [with_thr with_fl hver thr]. rewrite N.eqb_refl. rewrite lset_nth_eq by auto.
      unfold inv. cbn [with_thr with_fl psize fl hver chg mark thr gen hidx own dead rel].
      split; [auto|]. split; [rewrite lset_length; auto|]. split; [auto|]. split; [rewrite lset_length; auto|].
      split; [exact I5|]. split.
      + exists l. unfold linv. cbn [with_thr with_head with_fl fl hidx own thr]. split; [apply fchain_lset; auto|].
        rewrite (rnode_same _ _ _ (RCas i h ver) Hc eq_refl). auto.
      + intros j d m' Hj Hm'. destruct (Nat.eq_dec j k) as [->|Hne].
        * rewrite lset_nth_eq in Hj by auto. injection Hj as <-. cbn [pc_ok with_thr with_fl fl]. apply lset_nth_eq. lia.
        * rewrite lset_nth_neq in Hj by auto. pose proof (I7 _ _ _ Hj Hm') as X. destruct d as [|i' ver'|i' ver' nx|i'|i' h' ver'|i' h' ver']; auto.
          -- cbn [pc_ok with_thr with_fl fl hidx chg] in *. destruct X as (X1 & X2 & X3 & X4). split; [auto|]. split; [auto|]. split; [auto|].
             intro X5. destruct (X4 X5) as (X6 & X7). split; [auto|]. rewrite lset_nth_neq; [auto|].
             intros <-. apply Hnl. destruct l; cbn in F; [congruence|]. destruct F as (F & _). left. congruence.
          -- cbn [pc_ok with_thr with_fl fl] in *. rewrite lset_nth_neq; [auto|]. intros <-.
             apply (rnode_two _ _ _ _ _ i Hc Hj (not_eq_sym Hne)); [left; auto|left; auto|].
             apply NoDup_app_r in ND. apply NoDup_app_r in ND. auto.
    - (* RCas *)
      cbn [pc_ok] in Ok0.
      destruct (idx_eqb (hidx st) h && (hver st =? ver) && negb sp) eqn:Cas.
      + apply andb_true_iff in Cas. destruct Cas as (Cas & _). apply andb_true_iff in Cas. destruct Cas as (Ci & Cv).
        apply N.eqb_eq in Cv. apply idx_eqb_eq in Ci.
        match type of H with Ok (?x, ?y) = _ => assert (st' = x) by congruence; assert (r = y) by congruence end. subst st' r. clear H.
        unfold observe. cbn [with_thr with_head hver thr]. rewrite <- Cv. rewrite I3. rewrite wver_ne.
        rewrite lset_nth_eq by auto.
        unfold inv. cbn [with_thr with_head psize fl hver chg mark thr gen hidx own dead rel].
        split; [auto|]. split; [auto|]. split; [apply wver|]. split; [rewrite lset_length; auto|]. split; [exact I5|]. split.
        * exists (i :: l). unfold linv. cbn [with_thr with_head with_fl fl hidx own thr fchain]. split.
          -- split; [auto|]. exists h. split; [auto|]. rewrite <- Ci. auto.
          -- destruct (rnode_lset _ _ _ Idle Hc) as (r & R1 & R2). cbn [rnode app] in R1, R2. rewrite R2.
             rewrite <- P. rewrite R1. cbn [app]. rewrite !app_assoc. apply Permutation_middle.
        * intros j d m' Hj Hm'. destruct (Nat.eq_dec j k) as [->|Hne].
          -- rewrite lset_nth_eq in Hj by auto. injection Hj as <-. exact Logic.I.
          -- rewrite lset_nth_neq in Hj by auto. eapply pc_ok_head; [eapply I7; eauto|reflexivity|reflexivity].
      + assert (r = None) by congruence. assert (st' = with_thr st k (RStore i (hidx st) (hver st))) by congruence. subst r st'.
        eapply inv_quiet; [exact I|exact Hc|reflexivity|intros; discriminate|]. intros; exact Logic.I.
  Qed.

  Lemma read_owned : forall st v h, inv st v -> h_ipo h = N.of_nat (slot h + 1) -> (slot h < size)%nat ->
    read_handle_index st h = match nth_error (gen st) (slot h) with
      | Some g => if h_gen h =? g then Ok (slot h) else Contract
      | None => UB end.
  Proof.
    intros st v h (I1 & _) E Hs. unfold read_handle_index.
    destruct (N.eqb_spec h 0) as [->|]; [unfold h_ipo in E; cbn in E; lia|]. cbn [negb contract bind]. rewrite E, I1.
    rewrite wsub_ge by lia. replace (N.of_nat (slot h + 1) - 1) with (N.of_nat (slot h)) by lia.
    destruct (N.ltb_spec (N.of_nat (slot h)) (N.of_nat size)); [|lia]. cbn [contract bind]. rewrite Nat2N.id.
    unfold aget. destruct (nth_error (gen st) (slot h)) as [g|]; [|reflexivity]. cbn [bind].
    destruct (h_gen h =? g); reflexivity.
  Qed.

  Lemma own_lt : forall st v h, inv st v -> In h (own v) -> (slot h < size)%nat.
  Proof.
    intros st v h (_ & _ & _ & _ & _ & (l & L) & _) H. eapply linv_lt; [exact L|].
    rewrite !in_app_iff. right. left. apply in_map. auto.
  Qed.

  Lemma inv_release : forall st v k h o1 o2 st' c, inv st v -> own v = o1 ++ h :: o2 ->
    start_release st k h = Ok st' -> nth_error (rel v) (slot h) = Some c ->
    inv st' (mkv (o1 ++ o2) ((h, c + 1) :: dead v) (chg v) (mark v) (lset (rel v) (slot h) (c + 1))).
  Proof.
    intros st v k h o1 o2 st' c I Ho H Hr.
    assert (Hin : In h (own v)) by (rewrite Ho; apply in_or_app; right; left; auto).
    pose proof (own_lt _ _ _ I Hin) as Hs. pose proof I as (I1 & I2 & I3 & I4 & (G1 & G2 & G3 & G4 & G5) & (l & F & P) & I7).
    destruct (G4 h Hin) as (Hi & Hg).
    unfold start_release, aget in H. destruct (nth_error (thr st) k) as [d|] eqn:Hd; [|discriminate]. cbn [bind] in H.
    destruct d; try discriminate. rewrite (read_owned _ _ _ I Hi Hs), Hg, N.eqb_refl in H. cbn [bind] in H.
    rewrite Hg in H. cbn [bind] in H. rewrite aset_Ok in H by lia. cbn [bind] in H.
    match type of H with Ok ?x = _ => assert (st' = x) by congruence end. subst st'. clear H.
    assert (Hlt : (k < length (thr st))%nat) by (apply nth_error_Some; congruence).
    assert (Hgen : h_gen h = c mod 2 ^ 13) by (eapply G3; eauto).
    pose proof (linv_nodup st v l (conj F P)) as ND.
    unfold inv. cbn [psize fl hver chg mark thr gen hidx own dead rel].
    split; [auto|]. split; [auto|]. split; [auto|]. split; [rewrite lset_length; auto|]. split; [|split].
    - unfold handles_ok. cbn [own dead rel]. rewrite !lset_length. split; [auto|]. split; [auto|]. split; [|split].
      + intros i g c' A1 A2. destruct (Nat.eq_dec i (slot h)) as [->|Hne].
        * rewrite lset_nth_eq in A1 by lia. rewrite lset_nth_eq in A2 by lia. injection A1 as <-. injection A2 as <-. rewrite Hgen.
          unfold wadd, wrap. rewrite N.add_mod_idemp_l by (cbv; discriminate). reflexivity.
        * rewrite lset_nth_neq in A1 by auto. rewrite lset_nth_neq in A2 by auto. eauto.
      + intros h' Hh'.
        assert (Hin' : In h' (own v)) by (rewrite Ho; apply in_app_or in Hh'; apply in_or_app; cbn; tauto).
        destruct (G4 h' Hin') as (A1 & A2). split; [auto|]. rewrite lset_nth_neq; [auto|]. intro E.
        apply NoDup_app_r in ND. apply NoDup_app_l in ND. rewrite Ho, map_app in ND. cbn [map] in ND.
        apply NoDup_remove_2 in ND. apply ND. rewrite E, <- map_app. apply in_map. auto.
      + intros h' c' [X | X].
        * assert (h' = h) by congruence. assert (c' = c + 1) by congruence. subst h' c'. split; [auto|].
          exists (c + 1). split; [apply lset_nth_eq; lia|]. split; [lia|]. replace (c + 1 - 1) with c by lia. auto.
        * destruct (G5 _ _ X) as (A1 & c2 & A2 & A3 & A4). split; [auto|].
          destruct (Nat.eq_dec (slot h) (slot h')) as [E|Hne].
          -- rewrite <- E in *. assert (c2 = c) by congruence. subst c2. exists (c + 1).
             split; [apply lset_nth_eq; lia|]. split; [lia|auto].
          -- exists c2. split; [rewrite lset_nth_neq by auto; auto|]. auto.
    - exists l. unfold linv. cbn [with_thr with_head with_fl fl hidx own thr]. split; [auto|].
      destruct (rnode_lset _ _ _ (RLoad (slot h)) Hd) as (r & R1 & R2). cbn [rnode app] in R1, R2. rewrite R2.
      rewrite <- P. rewrite R1, Ho. rewrite !map_app. cbn [map]. apply Permutation_app_head.
      rewrite <- !app_assoc. apply Permutation_app_head. cbn [app]. apply Permutation_sym. apply Permutation_middle.
    - intros j d m Hj Hm. destruct (Nat.eq_dec j k) as [->|Hne].
      + rewrite lset_nth_eq in Hj by auto. injection Hj as <-. exact Logic.I.
      + rewrite lset_nth_neq in Hj by auto. pose proof (I7 _ _ _ Hj Hm) as X. destruct d; exact X.
  Qed.

  Lemma exec_inv : forall st v, exec extra size threads true st v -> inv st v.
  Proof.
    induction 1.
    - apply inv_init. auto.
    - unfold start_acquire, aget in H0. destruct (nth_error (thr st) k) as [c|] eqn:Hc; [|discriminate].
      cbn [bind] in H0. destruct c; try discriminate. eapply inv_candidate; eauto.
    - eapply inv_release; eauto.
    - eapply inv_step; eauto.
  Qed.
End P.

(* Proofs about atomic_linked_pool under release/acquire memory. *)
From Coq Require Import NArith ZArith List Lia Bool Arith Permutation.
Import ListNotations.
From Verif Require Import Base LPoolModel LPoolSpec LPoolProofs LPoolWeakModel.
Open Scope N_scope.

(* ---------- views ---------- *)
Definition vle (a b : tview) : Prop := (vh a <= vh b)%nat /\ forall x u, (va a x u <= va b x u)%nat.
Lemma vle_refl : forall a, vle a a. Proof. split; auto. Qed.
Lemma vle_trans : forall a b c, vle a b -> vle b c -> vle a c.
Proof. intros a b c [A1 A2] [B1 B2]. split; [lia|]. intros x u. specialize (A2 x u). specialize (B2 x u). lia. Qed.
Lemma vle_join_l : forall a b, vle a (join a b). Proof. split; cbn; intros; lia. Qed.
Lemma vle_join_r : forall a b, vle b (join a b). Proof. split; cbn; intros; lia. Qed.
Lemma vle_see : forall a i, vle a (see a i). Proof. split; cbn; intros; lia. Qed.
Lemma vle_join_if : forall b v m, vle v (join_if b v m). Proof. intros [] v m; [apply vle_join_l|apply vle_refl]. Qed.
Lemma updn_eq : forall A (f : nat -> A) k x, updn f k x k = x. Proof. intros. unfold updn. rewrite Nat.eqb_refl. auto. Qed.
Lemma updn_neq : forall A (f : nat -> A) k x j, j <> k -> updn f k x j = f j.
Proof. intros. unfold updn. destruct (Nat.eqb_spec j k); congruence. Qed.

(* V is ordered after all accesses to element i and all writes to generation i, and after all reads of it unless al *)
Section A.
Variable al : bool.
Definition cov (w : wstate) (V : tview) (i : nat) : Prop :=
  forall u, (u < length (thr (base w)))%nat -> (acc w (el i) u <= va V (el i) u)%nat /\ (lw w (ge i) u <= va V (ge i) u)%nat /\
    (al = false -> (acc w (ge i) u <= va V (ge i) u)%nat).
Lemma cov_le : forall w V V' i, vle V V' -> cov w V i -> cov w V' i.
Proof. intros w V V' i [_ L] C u Hu. destruct (C u Hu) as (? & ? & X). pose proof (L (el i) u). pose proof (L (ge i) u). repeat split; try lia. intro Z. specialize (X Z). lia. Qed.
Lemma cov_same : forall w w' V i, length (thr (base w')) = length (thr (base w)) -> acc w' = acc w -> lw w' = lw w -> cov w V i -> cov w' V i.
Proof. intros w w' V i E1 E2 E3 C u Hu. rewrite E2, E3. apply C. lia. Qed.

Definition hits (x i : nat) : Prop := x = el i \/ x = ge i.
Lemma hits_ne : forall x i j, hits x i -> j <> i -> el j <> x /\ ge j <> x.
Proof. intros x i j [-> | ->] N; unfold el, ge; lia. Qed.

Lemma ordered_spec : forall wr w v x u, ordered wr w v x = true -> (u < length (thr (base w)))%nat ->
  ((if wr then acc w x u else lw w x u) <= va v x u)%nat.
Proof.
  intros wr w v x u H Hu. unfold ordered in H. rewrite forallb_forall in H. apply Nat.leb_le. apply (H u). apply in_seq. lia.
Qed.
Lemma ordered_cov : forall w v i, cov w v i -> ordered true w v (el i) = true /\ ordered false w v (ge i) = true.
Proof.
  intros w v i C. unfold ordered. rewrite !forallb_forall. split; intros u Hu; apply in_seq in Hu; apply Nat.leb_le; apply C; lia.
Qed.

Lemma access_spec : forall wr x t w w' i, access wr x t w = Ok w' -> hits x i ->
  base w' = base w /\ hh w' = hh w /\ fv w' = fv w /\ seen w' = seen w /\ (forall u, vle (vw w u) (vw w' u)) /\
  (forall u, u <> t -> vw w' u = vw w u) /\
  (forall V j, j <> i -> cov w V j -> cov w' V j) /\
  (al = true -> wr = false -> x = ge i -> forall V j, cov w V j -> cov w' V j) /\
  (cov w (vw w t) i -> cov w' (vw w' t) i) /\ vh (vw w' t) = vh (vw w t) /\ ordered wr w (vw w t) x = true.
Proof.
  intros wr x t w w' i H Hx. unfold access in H. apply bind_Ok in H. destruct H as (d & Hd & H).
  match type of H with Ok ?z = _ => assert (w' = z) by congruence end. subst w'. clear H.
  unfold defined in Hd. destruct (ordered wr w (vw w t) x) eqn:O; [|discriminate]. clear Hd.
  cbn [base hh fv seen vw]. do 4 (split; [reflexivity|]). split; [|split; [|split; [|split; [|split; [|split]]]]].
  - intro u. destruct (Nat.eq_dec u t) as [->|N]; [rewrite updn_eq|rewrite updn_neq by auto; apply vle_refl].
    split; cbn [vh va]; [auto|]. intros y u. unfold upd2, updn. destruct (Nat.eqb_spec y x) as [->|]; [|auto].
    destruct (Nat.eqb_spec u t) as [->|]; [|auto]. lia.
  - intros u N. apply updn_neq. auto.
  - intros V j N C u Hu. destruct (hits_ne x i j Hx N) as [N1 N2]. cbn [base acc lw] in *. unfold upd2. destruct wr; rewrite !updn_neq by auto; apply C; auto.
  - intros Ea -> -> V j C u Hu. cbn [base acc lw] in *. unfold upd2. rewrite updn_neq by (unfold el, ge; lia). destruct (C u Hu) as (C1 & C2 & _).
    split; [auto|]. split; [auto|]. congruence.
  - intros C u Hu. rewrite updn_eq. cbn [base acc lw va] in *. destruct (C u Hu) as (C1 & C2 & C3). unfold upd2, updn.
    assert (N : el i <> ge i) by (unfold el, ge; lia). set (ei := el i) in *. set (gi := ge i) in *. clearbody ei gi.
    destruct Hx as [-> | ->]; destruct wr; (split; [|split; [|intro Z; specialize (C3 Z)]]);
      repeat match goal with |- context [(?a =? ?b)%nat] => destruct (Nat.eqb_spec a b); try congruence end; subst; lia.
  - rewrite updn_eq. reflexivity.
  - reflexivity.
Qed.
Lemma access_ok : forall wr x t w, ordered wr w (vw w t) x = true -> exists w', access wr x t w = Ok w'.
Proof. intros. unfold access. rewrite H. cbn [defined bind]. eauto. Qed.

(* which annotations are enough: the barriers on the free list, or release and acquire on the head *)
Definition by_free (o : orders) : bool := f_add o && f_swap o.
Definition by_load (o : orders) : bool := r_cas o && a_load o && a_fail o.
Definition by_cas (o : orders) : bool := r_cas o && a_cas o.

Section P.
  Variables (o : orders) (extra size threads : nat).
  Hypothesis Hextra : (1 <= extra)%nat.
  Hypothesis Hsize : (2 <= size)%nat.
  Hypothesis Hmax : N.of_nat size <= 65535.

  Definition isfree (w : wstate) (v : view) (i : nat) : Prop :=
    ~ In i (map slot (own v)) /\ ~ In i (flat_map rnode (thr (base w))).

  (* what thread k, doing c, is ordered after *)
  Definition tok (w : wstate) (v : view) (k : nat) (m : N) (c : pc) : Prop :=
    match c with
    | Idle => True
    | QNext i _ => chg v = m -> by_load o = true -> cov w (vw w k) i
    | QCas i _ _ => chg v = m -> by_free o = true \/ by_load o = true -> cov w (vw w k) i
    | RLoad i | RStore i _ _ => cov w (vw w k) i
    | RCas i _ _ => cov w (vw w k) i /\ (by_free o = true -> cov w (fv w i) i)
    end.

  Record winv (w : wstate) (v : view) : Prop := {
    w_base : inv size (base w) v;
    w_chg : chg v = N.of_nat (length (hh w));
    w_hist : forall j x ver m, nth_error (hh w) j = Some ((x, ver), m) -> ver = (N.of_nat j + 1) mod 2 ^ 32 /\ (forall i, x = Some i -> (i < size)%nat);
    w_last : nth_error (hh w) (length (hh w) - 1) = Some ((hidx (base w), hver (base w)), newest w);
    w_cover : forall i, isfree w v i -> (by_free o = true -> cov w (fv w i) i) /\ (r_cas o = true -> cov w (newest w) i);
    w_thr : forall k c m, nth_error (thr (base w)) k = Some c -> nth_error (mark v) k = Some m -> tok w v k m c }.

  Lemma head_free : forall w v i, inv size (base w) v -> hidx (base w) = Some i -> isfree w v i /\ (i < size)%nat.
  Proof.
    intros w v i (_ & _ & _ & _ & _ & (l & L) & _) E. pose proof (linv_nodup size _ _ _ L) as ND.
    pose proof L as (F & P). destruct l as [|i' t]; cbn in F; [congruence|]. destruct F as (F & _). assert (i' = i) by congruence. subst i'. split.
    - split; intro X; apply (NoDup_app_disj _ _ _ i ND (or_introl eq_refl)); apply in_or_app; auto.
    - eapply (linv_lt extra size Hextra Hsize Hmax); [exact L|]. apply in_or_app. left. left. auto.
  Qed.

  (* a pending acquire that looked at the newest head is about a free slot *)
  Lemma pend_free : forall w v k c m i, inv size (base w) v -> nth_error (thr (base w)) k = Some c -> nth_error (mark v) k = Some m ->
    (exists ver, c = QNext i ver) \/ (exists ver nx, c = QCas i ver nx) -> chg v = m -> isfree w v i.
  Proof.
    intros w v k c m i I Hc Hm X E. pose proof I as (_ & _ & _ & _ & _ & _ & I7). specialize (I7 _ _ _ Hc Hm).
    destruct X as [(ver & ->) | (ver & nx & ->)]; cbn [pc_ok] in I7; eapply (head_free w v i I); apply I7; auto.
  Qed.
  Lemma rel_busy : forall w k c i, nth_error (thr (base w)) k = Some c -> In i (rnode c) -> In i (flat_map rnode (thr (base w))).
  Proof. intros. eapply in_rnode; eauto. Qed.

  Lemma init_inv : forall w, w_init extra size threads = Ok w -> winv w (mkv [] [] 1 (repeat 0 threads) (repeat 0 size)).
  Proof.
    intros w H. unfold w_init in H. apply bind_Ok in H. destruct H as (s & Es & H).
    match type of H with Ok ?z = _ => assert (w = z) by congruence end. subst w. clear H.
    pose proof (inv_init extra size threads Hextra Hsize Hmax s Es) as I. constructor; cbn [base hh fv acc lw vw seen].
    - exact I.
    - reflexivity.
    - intros [|[|j]] x ver m E; cbn in E; try discriminate. injection E as <- <- <-. pose proof I as (_ & _ & I3 & _). split; [exact I3|].
      intros i E. eapply (head_free (mkW s [] (fun _ => zero) (fun _ _ => 0%nat) (fun _ _ => 0%nat) (fun _ => zero) (fun _ => 0%nat))); [exact I|exact E].
    - reflexivity.
    - intros i _. split; intros _ u _; cbn; lia.
    - intros k c m Hc _. destruct (initialize_ok extra size threads Hextra Hsize Hmax) as (a & E & _). rewrite E in Es.
      assert (s = mks size (Some 0%nat) 1 a (repeat 0 size) (repeat Idle threads)) by congruence. subst s. cbn in Hc.
      apply repeat_nth in Hc; auto. subst c. exact Logic.I.
  Qed.

  (* steps that only touch the view of one thread and grow it *)
  Lemma view_grow : forall w v t V, winv w v -> vle (vw w t) V -> winv (set_view w t V) v.
  Proof.
    intros w v t V W L. constructor; try apply W.
    intros k c m Hc Hm. pose proof (w_thr _ _ W k c m Hc Hm) as X.
    assert (Y : forall i, cov w (vw w k) i -> cov (set_view w t V) (vw (set_view w t V) k) i).
    { intros i C u Hu. cbn [set_view vw acc lw base] in *. destruct (Nat.eq_dec k t) as [->|N]; [rewrite updn_eq|rewrite updn_neq by auto; apply C; auto].
      apply (cov_le _ _ _ _ L C); auto. }
    destruct c; cbn [tok] in *; auto. destruct X as [X1 X2]. split; [auto|]. exact X2.
  Qed.

  (* accesses to the slot of a handle that is owned, or reads of a generation *)
  Lemma access_inv : forall wr x t w v w' i, winv w v -> access wr x t w = Ok w' -> hits x i ->
    In i (map slot (own v)) \/ (al = true /\ wr = false /\ x = ge i) -> winv w' v.
  Proof.
    intros wr x t w v w' i W H Hx Q. destruct (access_spec _ _ _ _ _ _ H Hx) as (B & E1 & E2 & E3 & L & _ & C1 & C2 & _ & _ & _).
    assert (C : forall V j, (isfree w v j \/ In j (flat_map rnode (thr (base w)))) -> cov w V j -> cov w' V j).
    { intros V j F C. destruct Q as [Q | (Q1 & Q2 & Q3)]; [|apply C2; auto]. apply C1; auto. intros ->.
      destruct F as [[F _] | F]; [auto|]. pose proof (w_base _ _ W) as (_ & _ & _ & _ & _ & (l & Li) & _).
      pose proof (linv_nodup size _ _ _ Li) as ND. apply NoDup_app_r in ND.
      apply (NoDup_app_disj _ _ _ i ND); auto. }
    constructor.
    - rewrite B. apply W.
    - rewrite E1. apply W.
    - rewrite E1. apply W.
    - unfold newest. rewrite B, E1. apply W.
    - intros j F. assert (F' : isfree w v j) by (unfold isfree in *; rewrite B in F; auto). destruct (w_cover _ _ W j F') as [X1 X2].
      unfold newest. rewrite E1, E2. split; intro Y; apply C; auto.
    - rewrite B. intros k c m Hc Hm. pose proof (w_thr _ _ W k c m Hc Hm) as X.
      assert (Y : forall j, (isfree w v j \/ In j (flat_map rnode (thr (base w)))) -> cov w (vw w k) j -> cov w' (vw w' k) j).
      { intros j F Cj. apply (cov_le _ _ _ _ (L k)). apply C; auto. }
      destruct c as [|j ver|j ver nx|j|j h ver|j h ver]; cbn [tok] in *; auto.
      + intros Z1 Z2. apply Y; auto. left. apply (pend_free w v k _ m j (w_base _ _ W) Hc Hm); eauto.
      + intros Z1 Z2. apply Y; auto. left. apply (pend_free w v k _ m j (w_base _ _ W) Hc Hm); eauto.
      + apply Y; auto. right. eapply rel_busy; [exact Hc|left; auto].
      + apply Y; auto. right. eapply rel_busy; [exact Hc|left; auto].
      + destruct X as [X1 X2]. assert (F : In j (flat_map rnode (thr (base w)))) by (eapply rel_busy; [exact Hc|left; auto]).
        split; [auto|]. intro Z. rewrite E2. auto.
  Qed.

  Lemma note_same : forall w v t, chg v = N.of_nat (length (hh w)) -> (forall i ver, nth_error (thr (base w)) t <> Some (QNext i ver)) ->
    note v w t None = v.
  Proof.
    intros w v t E N. unfold note. rewrite <- E. destruct v as [a b c d e]. cbn [own dead chg mark rel]. f_equal.
    destruct (nth_error (thr (base w)) t) as [[| | | | |]|] eqn:X; auto. exfalso. eapply N; eauto.
  Qed.

  Lemma load_spec : forall acq w t pick i x V, load acq w t pick = Some (i, x, V) ->
    exists m, nth_error (hh w) i = Some (x, m) /\ V = see (join_if acq (vw w t) m) i /\ (vh (vw w t) <= i)%nat.
  Proof.
    intros acq w t pick i x V H. unfold load in H. set (j := match pick with Some i => i | None => (length (hh w) - 1)%nat end) in *. clearbody j.
    destruct (Nat.leb_spec (vh (vw w t)) j); [|discriminate]. destruct (nth_error (hh w) j) as [[x' m]|] eqn:E; [|discriminate].
    assert (i = j) by congruence. assert (x = x') by congruence. subst. exists m. split; [auto|]. split; [congruence|auto].
  Qed.
  Lemma load_vle : forall acq w t m i, vle (vw w t) (see (join_if acq (vw w t) m) i).
  Proof. intros. eapply vle_trans; [apply vle_join_if|apply vle_see]. Qed.

  Lemma isfree_lset : forall w v s t c c' i, nth_error (thr (base w)) t = Some c -> rnode c = rnode c' -> thr s = lset (thr (base w)) t c' ->
    isfree (set_base w s) v i <-> isfree w v i.
  Proof. intros w v s t c c' i Hc E Es. unfold isfree. cbn [set_base base]. rewrite Es, (rnode_same _ _ _ _ Hc E). tauto. Qed.

  (* the thread becomes a candidate with entry j of the history *)
  Lemma candidate_inv : forall w v t c acq pick w', winv w v -> nth_error (thr (base w)) t = Some c -> rnode c = [] ->
    (forall i ver, c <> QNext i ver) -> (by_load o = true -> acq = true) ->
    w_candidate acq w t pick = Ok w' -> winv w' (note v w' t None).
  Proof.
    intros w v t c acq pick w' W Hc Er Nq Ha H. unfold w_candidate in H.
    destruct (load acq w t pick) as [[[j [[x|] ver]] V]|] eqn:Hl; [|discriminate|].
    2:{ assert (w' = w) by congruence. subst w'. rewrite note_same; [auto|apply W|]. intros i ver. rewrite Hc. intro X. injection X as ->. eapply Nq; eauto. }
    destruct (load_spec _ _ _ _ _ _ _ Hl) as (m & Hj & EV & _). clear Hl.
    match type of H with Ok ?z = _ => assert (w' = z) by congruence end. subst w'. clear H.
    pose proof (w_hist _ _ W _ _ _ _ Hj) as [Hver Hx]. specialize (Hx x eq_refl).
    assert (Hjl : (j < length (hh w))%nat) by (apply nth_error_Some; congruence).
    assert (Hlt : (t < length (thr (base w)))%nat) by (apply nth_error_Some; congruence).
    pose proof (w_base _ _ W) as I. pose proof I as (I1 & I2 & I3 & I4 & I5 & (l & F & P) & I7).
    assert (Hnew : N.of_nat j + 1 = chg v -> hidx (base w) = Some x /\ m = newest w).
    { intro E. rewrite (w_chg _ _ W) in E. replace j with (length (hh w) - 1)%nat in Hj by lia. rewrite (w_last _ _ W) in Hj. split; congruence. }
    assert (Emark : note v (set_seen (set_view (set_base w (with_thr (base w) t (QNext x ver))) t V) t j) t None =
       mkv (own v) (dead v) (chg v) (lset (mark v) t (N.of_nat j + 1)) (rel v)).
    { unfold note. cbn [set_seen set_view set_base base with_thr thr seen hh]. rewrite lset_nth_eq by auto. rewrite updn_eq, (w_chg _ _ W). reflexivity. }
    rewrite Emark. clear Emark. constructor; cbn [set_seen set_view set_base base hh chg].
    - unfold inv. cbn [with_thr psize fl hver chg mark thr gen hidx own dead rel].
      split; [auto|]. split; [auto|]. split; [auto|]. split; [rewrite !lset_length; auto|]. split; [exact I5|]. split.
      + exists l. unfold linv. cbn [with_thr fl hidx thr own]. split; [auto|].
        rewrite (rnode_same _ _ _ (QNext x ver) Hc Er). auto.
      + intros k d m' Hk Hm. destruct (Nat.eq_dec k t) as [->|Hne].
        * rewrite lset_nth_eq in Hk by auto. rewrite lset_nth_eq in Hm by lia. injection Hk as <-. injection Hm as <-.
          cbn [pc_ok chg hidx with_thr]. split; [auto|]. split; [auto|]. split; [rewrite (w_chg _ _ W); lia|]. intro E. apply Hnew. auto.
        * rewrite lset_nth_neq in Hk by auto. rewrite lset_nth_neq in Hm by auto. pose proof (I7 _ _ _ Hk Hm) as X. destruct d; exact X.
    - apply W.
    - apply W.
    - apply W.
    - intros i Fi. unfold isfree in Fi. cbn [set_seen set_view set_base base own with_thr thr] in Fi. rewrite (rnode_same _ _ _ _ Hc) in Fi by (rewrite Er; reflexivity).
      destruct (w_cover _ _ W i Fi) as [X1 X2]. cbn [fv].
      split; intro Y; [specialize (X1 Y)|specialize (X2 Y)]; (eapply cov_same; [| | |eassumption]); cbn; auto; apply lset_length.
    - intros k d m' Hk Hm.
      assert (Y : forall V' i, cov w V' i -> cov (set_seen (set_view (set_base w (with_thr (base w) t (QNext x ver))) t V) t j) V' i).
      { intros V' i C. eapply cov_same; [| | |exact C]; cbn; auto. apply lset_length. }
      cbn [with_thr thr mark] in Hk, Hm. destruct (Nat.eq_dec k t) as [->|Hne].
      + rewrite lset_nth_eq in Hk by auto. rewrite lset_nth_eq in Hm by lia. injection Hk as <-. injection Hm as <-.
        cbn [tok chg vw set_seen set_view]. intros E B. rewrite updn_eq. apply Y. destruct (Hnew (eq_sym E)) as [N1 N2].
        rewrite (Ha B) in EV. rewrite EV. apply (cov_le _ m); [eapply vle_trans; [apply vle_join_r|apply vle_see]|]. rewrite N2.
        destruct (head_free w v x I N1) as [Fx _]. apply (w_cover _ _ W x Fx). unfold by_load in B. destruct (r_cas o); auto.
      + rewrite lset_nth_neq in Hk by auto. rewrite lset_nth_neq in Hm by auto. pose proof (w_thr _ _ W _ _ _ Hk Hm) as X.
        assert (Ev : vw (set_seen (set_view (set_base w (with_thr (base w) t (QNext x ver))) t V) t j) k = vw w k) by (cbn; apply updn_neq; auto).
        destruct d; cbn [tok chg] in *; rewrite ?Ev; auto. destruct X as [X1 X2]. split; auto.
  Qed.

  Lemma observe_same : forall v st st' t c', nth_error (thr st') t = Some c' -> (forall i ver, c' <> QNext i ver) -> hver st' = hver st ->
    observe v st st' t None = v.
  Proof.
    intros [a b c d e] st st' t c' H N E. unfold observe. rewrite H, E, N.eqb_refl. cbn [own dead chg mark rel]. f_equal.
    destruct c'; auto. exfalso. eapply N; eauto.
  Qed.

  (* a step of thread t that changes neither the head nor which slots are free *)
  Lemma quiet_inv : forall w v t c c' s V FV j, winv w v -> nth_error (thr (base w)) t = Some c -> rnode c = rnode c' ->
    (forall i ver, c' <> QNext i ver) -> thr s = lset (thr (base w)) t c' -> hidx s = hidx (base w) -> hver s = hver (base w) ->
    inv size s v -> vle (vw w t) V -> vle (fv w j) FV ->
    (forall m, nth_error (mark v) t = Some m -> tok (set_fv (set_view (set_base w s) t V) j FV) v t m c') ->
    winv (set_fv (set_view (set_base w s) t V) j FV) (note v (set_fv (set_view (set_base w s) t V) j FV) t None).
  Proof.
    intros w v t c c' s V FV j W Hc Er Nq Es E1 E2 I L LF T.
    assert (Hlt : (t < length (thr (base w)))%nat) by (apply nth_error_Some; congruence).
    rewrite note_same; [|apply W|cbn; rewrite Es, lset_nth_eq by auto; intros i ver X; injection X as ->; eapply Nq; eauto].
    assert (Y : forall V' i, cov w V' i -> cov (set_fv (set_view (set_base w s) t V) j FV) V' i).
    { intros V' i C. eapply cov_same; [| | |exact C]; cbn; auto. rewrite Es. apply lset_length. }
    assert (YF : forall i, cov w (fv w i) i -> cov (set_fv (set_view (set_base w s) t V) j FV) (fv (set_fv (set_view (set_base w s) t V) j FV) i) i).
    { intros i C. apply Y. cbn [set_fv set_view set_base fv]. destruct (Nat.eq_dec i j) as [->|N]; [rewrite updn_eq; eapply cov_le; eauto|rewrite updn_neq; auto]. }
    constructor; cbn [set_fv set_view set_base base hh].
    - exact I.
    - apply W.
    - apply W.
    - rewrite E1, E2. apply W.
    - intros i Fi. unfold isfree in Fi. cbn [set_fv set_view set_base base] in Fi. rewrite Es, (rnode_same _ _ _ _ Hc Er) in Fi.
      destruct (w_cover _ _ W i Fi) as [X1 X2]. split; intro Z; [apply YF; auto|apply Y; apply X2; auto].
    - intros k d m Hk Hm. rewrite Es in Hk. destruct (Nat.eq_dec k t) as [->|Hne].
      + rewrite lset_nth_eq in Hk by auto. injection Hk as <-. auto.
      + rewrite lset_nth_neq in Hk by auto. pose proof (w_thr _ _ W _ _ _ Hk Hm) as X.
        assert (Ev : vw (set_fv (set_view (set_base w s) t V) j FV) k = vw w k) by (cbn; apply updn_neq; auto).
        destruct d; cbn [tok] in *; rewrite ?Ev; auto. destruct X as [X1 X2]. split; auto.
  Qed.

  Lemma set_fv_id : forall w v j, winv (set_fv w j (fv w j)) v -> winv w v.
  Proof.
    intros w v j W. assert (E : forall i, updn (fv w) j (fv w j) i = fv w i) by (intro i; unfold updn; destruct (Nat.eqb_spec i j); congruence).
    constructor; try apply W.
    - intros i Fi. destruct (w_cover _ _ W i Fi) as [X1 X2]. cbn [set_fv fv] in X1. rewrite E in X1. split; [exact X1|exact X2].
    - intros k c m Hc Hm. pose proof (w_thr _ _ W k c m Hc Hm) as X. destruct c; try exact X. cbn [tok set_fv fv] in X. rewrite E in X. exact X.
  Qed.

  Lemma reload_inv : forall w v t c i pick, winv w v -> nth_error (thr (base w)) t = Some c -> c = RLoad i \/ (exists h ver, c = RCas i h ver) ->
    exists w', w_reload w t i pick = Ok (w', None) /\ winv w' (note v w' t None).
  Proof.
    intros w v t c i pick W Hc Q. unfold w_reload.
    assert (Hlt : (t < length (thr (base w)))%nat) by (apply nth_error_Some; congruence).
    assert (Nq : forall j ver, c <> QNext j ver) by (intros j ver; destruct Q as [-> | (h & vr & ->)]; discriminate).
    destruct (load false w t pick) as [[[j [h ver]] V]|] eqn:Hl.
    2:{ exists w. split; [auto|]. rewrite note_same; [auto|apply W|]. intros j ver. rewrite Hc. intro X. injection X as ->. eapply Nq; eauto. }
    destruct (load_spec _ _ _ _ _ _ _ Hl) as (m & _ & -> & _). eexists. split; [reflexivity|].
    assert (Er : rnode c = rnode (RStore i h ver)) by (destruct Q as [-> | (h' & vr & ->)]; reflexivity).
    pose proof (inv_quiet size (base w) v t c (RStore i h ver) (w_base _ _ W) Hc Er ltac:(discriminate) ltac:(intros; exact Logic.I)) as I.
    rewrite (observe_same v _ _ t (RStore i h ver)) in I by (cbn [with_thr thr hver]; try (apply lset_nth_eq; auto); auto; discriminate).
    set (s := with_thr (base w) t (RStore i h ver)) in *. set (V := see (join_if false (vw w t) m) j).
    apply set_fv_id with (j := 0%nat). cbn [set_view set_base fv].
    apply (quiet_inv w v t c (RStore i h ver) s V (fv w 0%nat) 0 W Hc Er); auto; try discriminate; try apply vle_refl.
    - apply load_vle.
    - intros m' Hm. cbn [tok]. pose proof (w_thr _ _ W _ _ _ Hc Hm) as X.
      assert (C : cov w (vw w t) i) by (destruct Q as [-> | (h' & vr & ->)]; cbn [tok] in X; tauto).
      cbn [set_fv set_view set_base vw]. rewrite updn_eq. eapply cov_same; [| | |apply (cov_le _ _ _ _ (load_vle false w t m j) C)]; cbn; auto. apply lset_length.
  Qed.

  Lemma mark_some : forall w v t c, inv size (base w) v -> nth_error (thr (base w)) t = Some c -> exists m, nth_error (mark v) t = Some m.
  Proof.
    intros w v t c (_ & _ & _ & I4 & _) Hc. assert (t < length (thr (base w)))%nat by (apply nth_error_Some; congruence).
    destruct (nth_error (mark v) t) eqn:Z; [eauto|]. apply nth_error_None in Z. lia.
  Qed.
  Lemma acquired_lt : forall w v t i ver, inv size (base w) v -> nth_error (thr (base w)) t = Some (QNext i ver) -> (i < size)%nat.
  Proof.
    intros w v t i ver I Hc. destruct (mark_some w v t _ I Hc) as (m & Hm). destruct I as (_ & _ & _ & _ & _ & _ & I7).
    specialize (I7 _ _ _ Hc Hm). cbn [pc_ok] in I7. tauto.
  Qed.

  Lemma free_step : forall b w v t c i, winv w v -> in_time v (base w) t -> nth_error (thr (base w)) t = Some c ->
    (exists ver, c = QNext i ver /\ b = f_add o) \/ (exists h ver, c = RStore i h ver /\ b = f_swap o) ->
    exists w', w_free b w t i = Ok (w', None) /\ winv w' (note v w' t None).
  Proof.
    intros b w v t c i W T Hc Q. pose proof (w_base _ _ W) as I. pose proof I as (I1 & I2 & _ & _ & _ & (l & L) & I7).
    assert (Hlt : (t < length (thr (base w)))%nat) by (apply nth_error_Some; congruence).
    assert (Hi : (i < size)%nat).
    { destruct Q as [(ver & -> & _) | (h & ver & -> & _)]; [eapply acquired_lt; eauto|].
      eapply (linv_lt extra size Hextra Hsize Hmax); [exact L|]. rewrite !in_app_iff. right. right. eapply in_rnode; [exact Hc|left; auto]. }
    assert (exists c', step (base w) t false = Ok (match c with RStore i h _ => with_thr (with_fl (base w) (lset (fl (base w)) i h)) t c' | _ => with_thr (base w) t c' end, None) /\
      rnode c' = rnode c /\ ((exists ver nx, c = QNext i ver /\ c' = QCas i ver nx) \/ (exists h ver, c = RStore i h ver /\ c' = RCas i h ver))) as (c' & Es & Er & Q').
    { unfold step, aget. rewrite Hc. cbn [bind]. destruct Q as [(ver & -> & _) | (h & ver & -> & _)].
      - destruct (nth_error (fl (base w)) i) as [nx|] eqn:En; [|apply nth_error_None in En; lia]. cbn [bind]. eexists. split; [reflexivity|]. split; [auto|]. left. eauto.
      - rewrite aset_Ok by lia. cbn [bind]. eexists. split; [reflexivity|]. split; [auto|]. right. eauto. }
    unfold w_free. rewrite Es. cbn [bind].
    set (s := match c with RStore i h _ => with_thr (with_fl (base w) (lset (fl (base w)) i h)) t c' | _ => with_thr (base w) t c' end) in *.
    assert (S1 : thr s = lset (thr (base w)) t c') by (unfold s; destruct c; reflexivity).
    assert (S2 : hidx s = hidx (base w)) by (unfold s; destruct c; reflexivity).
    assert (S3 : hver s = hver (base w)) by (unfold s; destruct c; reflexivity).
    assert (Nq : forall j ver, c' <> QNext j ver) by (intros j vr; destruct Q' as [(ver & nx & _ & ->) | (h & ver & _ & ->)]; discriminate).
    pose proof (inv_step extra size Hextra Hsize Hmax _ _ _ _ _ _ I T Es) as I'.
    rewrite (observe_same v _ _ t c') in I' by (auto; rewrite S1; apply lset_nth_eq; auto).
    set (V := join_if b (vw w t) (fv w i)). eexists. split; [reflexivity|].
    assert (LV : vle (vw w t) V) by apply vle_join_if.
    apply (quiet_inv w v t c c' s V (if b then V else fv w i) i W Hc); auto.
    - destruct b; [apply vle_join_r|apply vle_refl].
    - intros m Hm. pose proof (w_thr _ _ W _ _ _ Hc Hm) as X. set (w' := set_fv (set_view (set_base w s) t V) i (if b then V else fv w i)).
      assert (Y : forall V' j, cov w V' j -> cov w' V' j).
      { intros V' j C. eapply cov_same; [| | |exact C]; cbn; auto. rewrite S1. apply lset_length. }
      assert (EV : vw w' t = V) by (cbn; apply updn_eq). assert (EF : fv w' i = if b then V else fv w i) by (cbn; apply updn_eq).
      destruct Q' as [(ver & nx & -> & ->) | (h & ver & -> & ->)]; cbn [tok] in *.
      + destruct Q as [(ver' & _ & ->) | (h & ver' & X' & _)]; [|discriminate]. intros E B. rewrite EV. apply Y. destruct B as [B | B].
        * unfold by_free in B. apply andb_true_iff in B. destruct B as [B1 B2]. apply (cov_le _ (fv w i)).
          -- unfold V. rewrite B1. apply vle_join_r.
          -- pose proof (pend_free w v t _ m i I Hc Hm (or_introl (ex_intro _ ver eq_refl)) E) as Fi. apply (w_cover _ _ W i Fi). unfold by_free. rewrite B1, B2. auto.
        * apply (cov_le _ _ _ _ LV). auto.
      + destruct Q as [(ver' & X' & _) | (h' & ver' & _ & ->)]; [discriminate|]. rewrite EV, EF. split; [apply Y; eapply cov_le; eauto|].
        intro B. unfold by_free in B. apply andb_true_iff in B. destruct B as [_ B]. rewrite B. apply Y. eapply cov_le; eauto.
  Qed.

  Lemma push_last : forall w m, nth_error (hh (push w m)) (length (hh (push w m)) - 1) = Some ((hidx (base w), hver (base w)), m).
  Proof.
    intros. cbn [push hh]. rewrite app_length. cbn [length]. rewrite nth_error_app2 by lia. replace (length (hh w) + 1 - 1 - length (hh w))%nat with 0%nat by lia. auto.
  Qed.
  Lemma push_newest : forall w m, newest (push w m) = m.
  Proof. intros. unfold newest. rewrite push_last. auto. Qed.

  Hypothesis Hsafe : by_free o || by_load o || by_cas o = true.

  Lemma acquired_step : forall w v t i ver nx, winv w v -> in_time v (base w) t -> nth_error (thr (base w)) t = Some (QCas i ver nx) ->
    hidx (base w) = Some i -> hver (base w) = ver ->
    exists w' r, w_step o w t None = Ok (w', r) /\ winv w' (note v w' t r) /\ r = Some (pack i (nth i (gen (base w)) 0)) /\ cov w' (vw w' t) i.
  Proof.
    intros w v t i ver nx W T Hc Eh Ev. pose proof (w_base _ _ W) as I. pose proof I as (I1 & I2 & I3 & _ & (G1 & _) & (l & L) & I7).
    assert (Hlt : (t < length (thr (base w)))%nat) by (apply nth_error_Some; congruence).
    destruct (mark_some w v t _ I Hc) as (m & Hm). pose proof (I7 _ _ _ Hc Hm) as (O1 & O2 & O3 & O4).
    assert (Em : chg v = m).
    { unfold in_time in T. rewrite Hc in T. destruct T as (m' & Hm' & T). assert (m' = m) by congruence. subst m'.
      apply (mod_window extra size Hextra Hsize Hmax); auto. congruence. }
    destruct (head_free w v i I Eh) as [Fi _].
    unfold w_step. unfold aget at 1. rewrite Hc. cbn [bind]. rewrite Eh. unfold idx_eqb at 1. rewrite Nat.eqb_refl, Ev, N.eqb_refl. cbn [andb].
    destruct (nth_error (gen (base w)) i) as [g|] eqn:Hg; [|apply nth_error_None in Hg; lia].
    set (s := with_thr (with_head (base w) nx ver) t Idle).
    assert (Es : step (base w) t false = Ok (s, Some (pack i g))).
    { unfold step, aget. rewrite Hc. cbn [bind]. rewrite Eh. unfold idx_eqb. rewrite Nat.eqb_refl, Ev, N.eqb_refl. cbn [andb negb].
      cbn [with_thr with_head psize]. rewrite I1. destruct (Nat.ltb_spec i size); [|lia]. cbn [contract bind gen].
      change (gen (with_thr (with_head (base w) nx ver) t Idle)) with (gen (base w)). rewrite Hg. reflexivity. }
    rewrite Es. cbn [bind].
    pose proof (inv_step extra size Hextra Hsize Hmax _ _ _ _ _ _ I T Es) as I'.
    set (V := see (join_if (a_cas o) (vw w t) (newest w)) (length (hh w))).
    set (w1 := set_view (push (set_base w s) (newest w)) t V).
    assert (LV : vle (vw w t) V) by (eapply vle_trans; [apply vle_join_if|apply vle_see]).
    assert (Y1 : forall V' j, cov w V' j -> cov w1 V' j).
    { intros V' j C. eapply cov_same; [| | |exact C]; cbn; auto. apply lset_length. }
    assert (CV : cov w1 (vw w1 t) i).
    { cbn [w1 set_view vw]. rewrite updn_eq. apply Y1. pose proof (w_thr _ _ W _ _ _ Hc Hm) as X. cbn [tok] in X. specialize (X Em).
      apply orb_true_iff in Hsafe. destruct Hsafe as [B | B].
      - apply (cov_le _ _ _ _ LV). apply X. apply orb_true_iff in B. auto.
      - unfold by_cas in B. apply andb_true_iff in B. destruct B as [B1 B2]. apply (cov_le _ (newest w)).
        + unfold V. rewrite B2. eapply vle_trans; [apply vle_join_r|apply vle_see].
        + apply (w_cover _ _ W i Fi). auto. }
    destruct (ordered_cov _ _ _ CV) as [O _]. destruct (access_ok _ _ _ _ O) as (w2 & E2). rewrite E2. cbn [bind].
    destruct (access_spec _ _ _ _ _ i E2 (or_introl eq_refl)) as (B2 & H2 & F2 & _ & L2 & V2 & C2 & _ & D2 & _). specialize (D2 CV).
    destruct (ordered_cov _ _ _ D2) as [_ O']. destruct (access_ok _ _ _ _ O') as (w3 & E3). rewrite E3. cbn [bind].
    destruct (access_spec _ _ _ _ _ i E3 (or_intror eq_refl)) as (B3 & H3 & F3 & _ & L3 & V3 & C3 & _ & D3 & _). specialize (D3 D2).
    assert (Eg : nth i (gen (base w)) 0 = g) by (apply nth_error_nth; auto).
    exists w3, (Some (pack i g)). split; [reflexivity|]. rewrite Eg. cut (winv w3 (note v w3 t (Some (pack i g)))); [auto|].
    assert (Y : forall V' j, j <> i -> cov w V' j -> cov w3 V' j) by auto.
    assert (BB : base w3 = s) by (rewrite B3, B2; reflexivity). assert (HH : hh w3 = hh (push (set_base w s) (newest w))) by (rewrite H3, H2; reflexivity).
    assert (FF : fv w3 = fv w) by (rewrite F3, F2; reflexivity).
    assert (VV : forall k, k <> t -> vw w3 k = vw w k) by (intros k N; rewrite V3, V2 by auto; cbn; apply updn_neq; auto).
    assert (LL : length (hh w3) = S (length (hh w))) by (rewrite HH; cbn; rewrite app_length; cbn; lia).
    assert (EN : note v w3 t (Some (pack i g)) = observe v (base w) s t (Some (pack i g))).
    { unfold note, observe. rewrite BB, LL. cbn [s with_thr thr hver with_head]. rewrite lset_nth_eq by auto. rewrite <- Ev at 1. rewrite I3.
      rewrite (wver_ne extra size Hextra Hsize Hmax). f_equal. rewrite (w_chg _ _ W). lia. }
    rewrite EN. assert (NN : newest w3 = newest w) by (unfold newest at 1; rewrite HH, push_last; auto).
    constructor.
    - rewrite BB. exact I'.
    - rewrite LL. unfold observe. cbn [s with_thr with_head hver chg]. rewrite <- Ev at 1. rewrite I3. rewrite (wver_ne extra size Hextra Hsize Hmax). rewrite (w_chg _ _ W). lia.
    - rewrite HH. intros j x vr m' Hj. cbn [push set_base hh base] in Hj. destruct (Nat.lt_ge_cases j (length (hh w))) as [Hl|Hl].
      + rewrite nth_error_app1 in Hj by auto. eapply (w_hist _ _ W); eauto.
      + rewrite nth_error_app2 in Hj by auto. destruct (j - length (hh w))%nat eqn:Z; [|destruct n; discriminate]. cbn [nth_error] in Hj.
        injection Hj as <- <- <-. replace j with (length (hh w)) by lia. split.
        * cbn [s with_thr with_head hver]. rewrite <- Ev, I3, wver, <- (w_chg _ _ W). reflexivity.
        * intros j' X. eapply (head_free (set_base w s)); [exact I'|exact X].
    - rewrite NN, BB, HH. apply push_last.
    - intros j [Fj1 Fj2]. rewrite BB in Fj2. cbn [s with_thr with_head thr] in Fj2. rewrite (rnode_same _ _ _ _ Hc) in Fj2 by auto.
      unfold observe in Fj1. cbn [own map] in Fj1. rewrite pack_slot in Fj1 by lia.
      assert (N : j <> i) by (intros ->; apply Fj1; left; auto).
      assert (Fw : isfree w v j) by (split; [intro; apply Fj1; right; auto|auto]). destruct (w_cover _ _ W j Fw) as [X1 X2].
      rewrite NN, FF. split; intro Z; apply Y; auto.
    - intros k d m' Hk Hm'. rewrite BB in Hk. cbn [s with_thr with_head thr] in Hk.
      assert (Hm2 : nth_error (mark v) k = Some m').
      { unfold observe in Hm'. cbn [mark s with_thr with_head thr] in Hm'. rewrite lset_nth_eq in Hm' by auto. exact Hm'. }
      assert (EC : chg (observe v (base w) s t (Some (pack i g))) = chg v + 1).
      { unfold observe. cbn [s with_thr with_head hver chg]. rewrite <- Ev at 1. rewrite I3. rewrite (wver_ne extra size Hextra Hsize Hmax). reflexivity. }
      destruct (Nat.eq_dec k t) as [->|Hne].
      + rewrite lset_nth_eq in Hk by auto. injection Hk as <-. exact Logic.I.
      + rewrite lset_nth_neq in Hk by auto. pose proof (w_thr _ _ W _ _ _ Hk Hm2) as X. pose proof (I7 _ _ _ Hk Hm2) as X'.
        assert (NR : forall j, In j (rnode d) -> j <> i).
        { intros j Hj ->. destruct Fi as [_ Fi]. apply Fi. eapply in_rnode; eauto. }
        destruct d as [|j vr|j vr nx'|j|j h vr|j h vr]; cbn [tok pc_ok rnode] in *; rewrite ?EC, ?(VV k Hne), ?FF; auto.
        * intro Z. exfalso. lia.
        * intro Z. exfalso. lia.
        * apply Y; auto. apply NR. left. auto.
        * apply Y; auto. apply NR. left. auto.
        * destruct X as [X1 X2]. assert (j <> i) by (apply NR; left; auto). split; [|intro Z]; apply Y; auto.
  Qed.

  Lemma released_step : forall w v t i h ver, winv w v -> in_time v (base w) t -> nth_error (thr (base w)) t = Some (RCas i h ver) ->
    hidx (base w) = h -> hver (base w) = ver ->
    exists w' r, w_step o w t None = Ok (w', r) /\ winv w' (note v w' t r).
  Proof.
    intros w v t i h ver W T Hc Eh Ev. pose proof (w_base _ _ W) as I. pose proof I as (I1 & I2 & I3 & _ & _ & (l & L) & I7).
    assert (Hlt : (t < length (thr (base w)))%nat) by (apply nth_error_Some; congruence).
    destruct (mark_some w v t _ I Hc) as (m & Hm). pose proof (w_thr _ _ W _ _ _ Hc Hm) as (X1 & X2).
    unfold w_step. unfold aget at 1. rewrite Hc. cbn [bind]. rewrite Eh. replace (idx_eqb h h) with true by (symmetry; apply idx_eqb_eq; auto).
    rewrite Ev, N.eqb_refl. cbn [andb]. set (s := with_thr (with_head (base w) (Some i) ver) t Idle).
    assert (Es : step (base w) t false = Ok (s, None)).
    { unfold step, aget. rewrite Hc. cbn [bind]. rewrite Eh. replace (idx_eqb h h) with true by (symmetry; apply idx_eqb_eq; auto). rewrite Ev, N.eqb_refl. reflexivity. }
    rewrite Es. cbn [bind]. pose proof (inv_step extra size Hextra Hsize Hmax _ _ _ _ _ _ I T Es) as I'.
    set (V := see (vw w t) (length (hh w))). set (M := join_if (r_cas o) (newest w) V).
    set (w1 := set_view (push (set_base w s) M) t V). exists w1, None. split; [reflexivity|].
    assert (Y : forall V' j, cov w V' j -> cov w1 V' j).
    { intros V' j C. eapply cov_same; [| | |exact C]; cbn; auto. apply lset_length. }
    assert (LL : length (hh w1) = S (length (hh w))) by (cbn; rewrite app_length; cbn; lia).
    assert (EC : chg (observe v (base w) s t None) = chg v + 1).
    { unfold observe. cbn [s with_thr with_head hver chg]. rewrite <- Ev at 1. rewrite I3. rewrite (wver_ne extra size Hextra Hsize Hmax). reflexivity. }
    assert (EN : note v w1 t None = observe v (base w) s t None).
    { unfold note, observe. rewrite LL. cbn [w1 set_view push set_base base s with_thr thr hver with_head]. rewrite lset_nth_eq by auto. rewrite <- Ev at 1. rewrite I3.
      rewrite (wver_ne extra size Hextra Hsize Hmax). f_equal. rewrite (w_chg _ _ W). lia. }
    rewrite EN. assert (NN : newest w1 = M) by (apply (push_newest (set_base w s))).
    constructor.
    - exact I'.
    - rewrite LL, EC, (w_chg _ _ W). lia.
    - intros j x vr m' Hj. cbn [w1 set_view push set_base hh base] in Hj. destruct (Nat.lt_ge_cases j (length (hh w))) as [Hl|Hl].
      + rewrite nth_error_app1 in Hj by auto. eapply (w_hist _ _ W); eauto.
      + rewrite nth_error_app2 in Hj by auto. destruct (j - length (hh w))%nat eqn:Z; [|destruct n; discriminate]. cbn [nth_error] in Hj.
        injection Hj as <- <- <-. replace j with (length (hh w)) by lia. split.
        * cbn [s with_thr with_head hver]. rewrite <- Ev, I3, wver, <- (w_chg _ _ W). reflexivity.
        * intros j' X. eapply (head_free (set_base w s)); [exact I'|exact X].
    - rewrite NN. apply (push_last (set_base w s)).
    - intros j [Fj1 Fj2]. cbn [w1 set_view push set_base base s with_thr with_head thr] in Fj2. unfold observe in Fj1. cbn [own] in Fj1.
      rewrite NN. destruct (Nat.eq_dec j i) as [->|N].
      + split; intro Z; apply Y; [apply X2; auto|]. unfold M. rewrite Z. apply (cov_le _ (vw w t)); [|auto]. eapply vle_trans; [apply vle_see|apply vle_join_r].
      + assert (Fw : isfree w v j).
        { split; [auto|]. intro Z. apply Fj2. destruct (rnode_lset _ _ _ Idle Hc) as (r & R1 & R2). cbn [rnode app] in R1, R2.
          apply (Permutation_in _ (Permutation_sym R2)). apply (Permutation_in _ R1) in Z. destruct Z as [Z|Z]; [congruence|auto]. }
        destruct (w_cover _ _ W j Fw) as [Z1 Z2]. split; intro Z; apply Y; [apply Z1; auto|].
        apply (cov_le _ (newest w)); [apply vle_join_if|auto].
    - intros k d m' Hk Hm'. cbn [w1 set_view push set_base base s with_thr with_head thr] in Hk.
      assert (Hm2 : nth_error (mark v) k = Some m').
      { unfold observe in Hm'. cbn [mark s with_thr with_head thr] in Hm'. rewrite lset_nth_eq in Hm' by auto. exact Hm'. }
      destruct (Nat.eq_dec k t) as [->|Hne].
      + rewrite lset_nth_eq in Hk by auto. injection Hk as <-. exact Logic.I.
      + rewrite lset_nth_neq in Hk by auto. pose proof (w_thr _ _ W _ _ _ Hk Hm2) as X. pose proof (I7 _ _ _ Hk Hm2) as X'.
        assert (VV : vw w1 k = vw w k) by (cbn; apply updn_neq; auto).
        destruct d as [|j vr|j vr nx'|j|j h' vr|j h' vr]; cbn [tok pc_ok rnode] in *; rewrite ?EC, ?VV; auto.
        * intro Z. exfalso. lia.
        * intro Z. exfalso. lia.
        * destruct X as [Z1 Z2]. split; [|intro Z]; apply Y; auto.
  Qed.

  Theorem step_inv : forall w v t c pick, winv w v -> in_time v (base w) t -> nth_error (thr (base w)) t = Some c -> c <> Idle ->
    w_step o w t pick = Contract \/ exists w' r, w_step o w t pick = Ok (w', r) /\ winv w' (note v w' t r).
  Proof.
    intros w v t c pick W T Hc N. destruct c as [|i ver|i ver nx|i|i h ver|i h ver]; [congruence| | | | |].
    - right. destruct (free_step (f_add o) w v t _ i W T Hc) as (w' & E & W'); [left; eauto|]. exists w', None. split; [|auto].
      unfold w_step, aget. rewrite Hc. cbn [bind]. exact E.
    - destruct (idx_eqb (hidx (base w)) (Some i) && (hver (base w) =? ver) && match pick with None => true | _ => false end) eqn:Cas.
      + right. apply andb_true_iff in Cas. destruct Cas as (Cas & Cp). apply andb_true_iff in Cas. destruct Cas as (Ci & Cv).
        apply idx_eqb_eq in Ci. apply N.eqb_eq in Cv. destruct pick; [discriminate|]. destruct (acquired_step w v t i ver nx W T Hc Ci Cv) as (w' & r & E & W' & _). eauto.
      + unfold w_step, aget. rewrite Hc. cbn [bind]. rewrite Cas.
        destruct (w_candidate (a_fail o) w t pick) as [w'| | |] eqn:E; cbn [bind]; auto.
        * right. exists w', None. split; [auto|]. apply (candidate_inv w v t _ (a_fail o) pick w' W Hc); auto; try discriminate.
          unfold by_load. intro B. apply andb_true_iff in B. tauto.
        * exfalso. unfold w_candidate in E. destruct (load _ _ _ _) as [[[? [[?|] ?]] ?]|]; discriminate.
        * exfalso. unfold w_candidate in E. destruct (load _ _ _ _) as [[[? [[?|] ?]] ?]|]; discriminate.
    - right. destruct (reload_inv w v t _ i pick W Hc (or_introl eq_refl)) as (w' & E & W'). exists w', None. split; [|auto].
      unfold w_step, aget. rewrite Hc. cbn [bind]. exact E.
    - right. destruct (free_step (f_swap o) w v t _ i W T Hc) as (w' & E & W'); [right; eauto|]. exists w', None. split; [|auto].
      unfold w_step, aget. rewrite Hc. cbn [bind]. exact E.
    - right. destruct (idx_eqb (hidx (base w)) h && (hver (base w) =? ver) && match pick with None => true | _ => false end) eqn:Cas.
      + apply andb_true_iff in Cas. destruct Cas as (Cas & Cp). apply andb_true_iff in Cas. destruct Cas as (Ci & Cv).
        apply idx_eqb_eq in Ci. apply N.eqb_eq in Cv. destruct pick; [discriminate|]. eapply released_step; eauto.
      + destruct (reload_inv w v t _ i pick W Hc) as (w' & E & W'); [right; eauto|]. exists w', None. split; [|auto].
        unfold w_step, aget. rewrite Hc. cbn [bind]. rewrite Cas. exact E.
  Qed.

  Lemma access_ge : forall wr i t w w', access wr (ge i) t w = Ok w' ->
    (wr = true -> forall u, (u < length (thr (base w)))%nat -> (lw w (ge i) u <= va (vw w t) (ge i) u)%nat) ->
    forall u, (u < length (thr (base w)))%nat -> (lw w' (ge i) u <= va (vw w' t) (ge i) u)%nat /\
      (wr = true -> (acc w' (ge i) u <= va (vw w' t) (ge i) u)%nat).
  Proof.
    intros wr i t w w' H C u Hu. unfold access in H. apply bind_Ok in H. destruct H as (d & Hd & H).
    match type of H with Ok ?z = _ => assert (w' = z) by congruence end. subst w'. clear H. cbn [lw acc vw]. rewrite updn_eq. cbn [va].
    unfold defined in Hd. destruct (ordered wr w (vw w t) (ge i)) eqn:O; [|discriminate]. pose proof (ordered_spec wr _ _ _ _ O Hu) as O'.
    assert (E : (lw w (ge i) u <= va (vw w t) (ge i) u)%nat) by (destruct wr; auto).
    unfold upd2, updn. rewrite !Nat.eqb_refl. destruct wr; rewrite ?Nat.eqb_refl; (split; [|intro Z; try discriminate]); destruct (Nat.eqb_spec u t) as [->|]; lia.
  Qed.

  Lemma read_index_owned : forall w v h, inv size (base w) v -> In h (own v) -> read_handle_index (base w) h = Ok (slot h).
  Proof.
    intros w v h I Hh. pose proof (own_lt extra size Hextra Hsize Hmax _ _ _ I Hh) as Hs. pose proof I as (_ & _ & _ & _ & (_ & _ & _ & G4 & _) & _).
    destruct (G4 h Hh) as (A1 & A2). rewrite (read_owned extra size Hextra Hsize Hmax _ _ _ I A1 Hs), A2, N.eqb_refl. reflexivity.
  Qed.

  Lemma release_inv : forall w v t h o1 o2 w' c, winv w v -> own v = o1 ++ h :: o2 -> w_release w t h = Ok w' ->
    nth_error (rel v) (slot h) = Some c ->
    winv w' (mkv (o1 ++ o2) ((h, c + 1) :: dead v) (chg v) (mark v) (lset (rel v) (slot h) (c + 1))).
  Proof.
    intros w v t h o1 o2 w' c W Ho H Hr. assert (Hin : In h (own v)) by (rewrite Ho; apply in_or_app; right; left; auto).
    assert (Hs : In (slot h) (map slot (own v))) by (apply in_map; auto).
    unfold w_release in H. apply bind_Ok in H. destruct H as ([] & Hi & H). rewrite (read_index_owned w v h (w_base _ _ W) Hin) in H. cbn [bind] in H.
    set (i := slot h) in *. apply bind_Ok in H. destruct H as (w1 & E1 & H). apply bind_Ok in H. destruct H as (w2 & E2 & H).
    apply bind_Ok in H. destruct H as (w3 & E3 & H). apply bind_Ok in H. destruct H as (s & Es & H). assert (w' = set_base w3 s) by congruence. subst w'. clear H.
    pose proof (access_inv _ _ _ _ _ _ i W E1 (or_intror eq_refl) (or_introl Hs)) as W1.
    pose proof (access_inv _ _ _ _ _ _ i W1 E2 (or_intror eq_refl) (or_introl Hs)) as W2.
    pose proof (access_inv _ _ _ _ _ _ i W2 E3 (or_introl eq_refl) (or_introl Hs)) as W3.
    destruct (access_spec _ _ _ _ _ i E1 (or_intror eq_refl)) as (B1 & _).
    destruct (access_spec _ _ _ _ _ i E2 (or_intror eq_refl)) as (B2 & _).
    destruct (access_spec _ _ _ _ _ i E3 (or_introl eq_refl)) as (B3 & H3 & F3 & _ & L3 & _ & C3 & _ & D3 & _ & O3).
    assert (C : cov w3 (vw w3 t) i).
    { apply D3. intros u Hu. split; [apply (ordered_spec true _ _ _ _ O3 Hu)|].
      assert (Hu1 : (u < length (thr (base w1)))%nat) by (rewrite B2 in Hu; auto).
      assert (X : forall u, (u < length (thr (base w1)))%nat -> (lw w1 (ge i) u <= va (vw w1 t) (ge i) u)%nat).
      { intros u' Hu'. apply (access_ge _ _ _ _ _ E1); [discriminate|rewrite B1 in Hu'; auto]. }
      destruct (access_ge _ _ _ _ _ E2 (fun _ => X) u Hu1) as [Y1 Y2]. auto. }
    assert (Hc : nth_error (thr (base w3)) t = Some Idle).
    { rewrite B3, B2, B1. unfold idle, aget in Hi. destruct (nth_error (thr (base w)) t) as [[| | | | |]|]; try discriminate. auto. }
    assert (Hlt : (t < length (thr (base w3)))%nat) by (apply nth_error_Some; congruence).
    pose proof (inv_release extra size Hextra Hsize Hmax _ _ _ _ _ _ _ _ (w_base _ _ W3) Ho Es Hr) as I'.
    assert (ES : thr s = lset (thr (base w3)) t (RLoad i) /\ hidx s = hidx (base w3) /\ hver s = hver (base w3)).
    { unfold start_release, aget in Es. rewrite Hc in Es. cbn [bind] in Es. rewrite (read_index_owned w3 v h (w_base _ _ W3) Hin) in Es. cbn [bind] in Es.
      apply bind_Ok in Es. destruct Es as (g & _ & Es). apply bind_Ok in Es. destruct Es as (gs & _ & Es).
      match type of Es with Ok ?z = _ => assert (s = z) by congruence end. subst s. auto. }
    destruct ES as (S1 & S2 & S3).
    assert (Y : forall V j, cov w3 V j -> cov (set_base w3 s) V j).
    { intros V j Cj. eapply cov_same; [| | |exact Cj]; cbn; auto. rewrite S1. apply lset_length. }
    constructor; cbn [set_base base hh chg].
    - exact I'.
    - apply W3.
    - apply W3.
    - rewrite S2, S3. apply W3.
    - intros j [Fj1 Fj2]. cbn [set_base base own] in Fj1, Fj2. destruct (rnode_lset _ _ _ (RLoad i) Hc) as (r & R1 & R2). cbn [rnode app] in R1, R2.
      assert (N : j <> i). { intros ->. apply Fj2. rewrite S1. apply (Permutation_in _ (Permutation_sym R2)). left. auto. }
      assert (Fw : isfree w3 v j).
      { split.
        - intro Z. rewrite Ho, map_app in Z. apply in_app_or in Z. apply Fj1. rewrite map_app. apply in_or_app. destruct Z as [Z|[Z|Z]]; auto. exfalso. apply N. auto.
        - intro Z. apply Fj2. rewrite S1. apply (Permutation_in _ (Permutation_sym R2)). right. apply (Permutation_in _ R1). auto. }
      destruct (w_cover _ _ W3 j Fw) as [X1 X2]. split; intro Z; apply Y; auto.
    - intros k d m Hk Hm. cbn [mark] in Hm. rewrite S1 in Hk. destruct (Nat.eq_dec k t) as [->|Hne].
      + rewrite lset_nth_eq in Hk by auto. injection Hk as <-. cbn [tok]. apply Y. exact C.
      + rewrite lset_nth_neq in Hk by auto. pose proof (w_thr _ _ W3 _ _ _ Hk Hm) as X. destruct d; cbn [tok chg] in *; auto.
        destruct X as [X1 X2]. split; auto.
  Qed.

  Theorem wexec_inv : forall w v, wexec o al extra size threads w v -> winv w v.
  Proof.
    induction 1 as [w H|w v t pick w' E W H|w v t h o1 o2 w' c E W Ho H Hr|w v t h wr w' E W Hin H|w v t h w' b E W Al H|w v u t E W|w v t pick w' r E W T H].
    - apply init_inv. auto.
    - unfold w_acquire, aget in H. destruct (nth_error (thr (base w)) t) as [c|] eqn:Hc; [|discriminate]. cbn [bind] in H. destruct c; try discriminate.
      apply (candidate_inv w v t _ (a_load o) pick w' W Hc); auto; try discriminate. unfold by_load. intro B. apply andb_true_iff in B. destruct B as [B _]. apply andb_true_iff in B. tauto.
    - eapply release_inv; eauto.
    - unfold w_use in H. apply bind_Ok in H. destruct H as ([] & _ & H). unfold get_index in H. rewrite (read_index_owned w v h (w_base _ _ W) Hin) in H. cbn [bind] in H.
      apply bind_Ok in H. destruct H as (w1 & E1 & H). assert (Hs : In (slot h) (map slot (own v))) by (apply in_map; auto).
      eapply (access_inv _ _ _ _ _ _ (slot h)); [eapply (access_inv _ _ _ _ _ _ (slot h)); [exact W|exact E1|right; auto|auto]|exact H|left; auto|auto].
    - unfold w_alive in H. apply bind_Ok in H. destruct H as ([] & _ & H). apply bind_Ok in H. destruct H as (b' & _ & H). apply bind_Ok in H. destruct H as (w1 & E1 & H).
      assert (w' = w1) by congruence. subst w'. eapply (access_inv _ _ _ _ _ _ (slot h)); [exact W|exact E1|right; auto|right; auto].
    - apply view_grow; [auto|apply vle_join_l].
    - unfold w_step, aget in H. destruct (nth_error (thr (base w)) t) as [c|] eqn:Hc; [|discriminate].
      assert (N : c <> Idle) by (intros ->; discriminate). destruct (step_inv w v t c pick W T Hc N) as [X | (w2 & r2 & X & W2)];
        unfold w_step, aget in X; rewrite Hc in X; rewrite X in H; [discriminate|]. assert (w2 = w') by congruence. assert (r2 = r) by congruence. subst. auto.
  Qed.
End P.
End A.

(* ---------- what every thread knows ---------- *)
Record kinv (n : nat) (w : wstate) : Prop := {
  k_thr : length (thr (base w)) = n;
  k_ne : (1 <= length (hh w))%nat;
  k_self : forall x t, (lw w x t <= acc w x t)%nat /\ (acc w x t <= va (vw w t) x t)%nat;
  k_vw : forall u, (vh (vw w u) < length (hh w))%nat;
  k_hh : forall j x m, nth_error (hh w) j = Some (x, m) -> (vh m < length (hh w))%nat;
  k_fv : forall i, (vh (fv w i) < length (hh w))%nat;
  k_top : length (hh w) = 1%nat \/ exists u, (u < n)%nat /\ S (vh (vw w u)) = length (hh w) }.

Lemma kb : forall n w s, kinv n w -> length (thr s) = n -> kinv n (set_base w s).
Proof. intros n w s K E. constructor; try apply K; auto. Qed.
Lemma ks : forall n w t i, kinv n w -> kinv n (set_seen w t i).
Proof. intros n w t i K. constructor; apply K. Qed.
Lemma kv : forall n w t V, kinv n w -> vle (vw w t) V -> (vh V < length (hh w))%nat -> kinv n (set_view w t V).
Proof.
  intros n w t V K [L1 L2] B. constructor; try apply K; cbn [set_view vw lw acc hh].
  - intros x u. destruct (k_self _ _ K x u) as [A1 A2]. split; [auto|]. unfold updn. destruct (Nat.eqb_spec u t) as [->|]; [|auto]. specialize (L2 x t). lia.
  - intro u. unfold updn. destruct (Nat.eqb_spec u t); [auto|apply K].
  - destruct (k_top _ _ K) as [T|(u & U & T)]; [auto|]. right. exists u. split; [auto|]. unfold updn. destruct (Nat.eqb_spec u t) as [->|]; lia.
Qed.
Lemma kf : forall n w i V, kinv n w -> (vh V < length (hh w))%nat -> kinv n (set_fv w i V).
Proof.
  intros n w i V K B. constructor; try apply K. intro j. cbn [set_fv fv hh]. unfold updn. destruct (Nat.eqb_spec j i); [auto|apply K].
Qed.
Lemma kp : forall n w M t V, kinv n w -> (t < n)%nat -> vle (vw w t) V -> vh V = length (hh w) -> (vh M <= length (hh w))%nat -> kinv n (set_view (push w M) t V).
Proof.
  intros n w M t V K Ht [L1 L2] E B. pose proof (k_ne _ _ K) as Kne. assert (LL : length (hh (set_view (push w M) t V)) = S (length (hh w))) by (cbn; rewrite app_length; cbn; lia).
  constructor; try rewrite LL; try apply K; try lia; cbn [set_view push vw lw acc hh fv].
  - intros x u. destruct (k_self _ _ K x u) as [A1 A2]. split; [auto|]. unfold updn. destruct (Nat.eqb_spec u t) as [->|]; [|auto]. specialize (L2 x t). lia.
  - intro u. unfold updn. destruct (Nat.eqb_spec u t); [lia|]. pose proof (k_vw _ _ K u). lia.
  - intros j x m Hj. destruct (Nat.lt_ge_cases j (length (hh w))) as [Hl|Hl].
    + rewrite nth_error_app1 in Hj by auto. pose proof (k_hh _ _ K _ _ _ Hj). lia.
    + rewrite nth_error_app2 in Hj by auto. destruct (j - length (hh w))%nat as [|[|]]; try discriminate. cbn in Hj. assert (m = M) by congruence. subst. lia.
  - intro i. pose proof (k_fv _ _ K i). lia.
  - right. exists t. split; [auto|]. rewrite updn_eq. lia.
Qed.
Lemma ka : forall n wr x t w w', kinv n w -> access wr x t w = Ok w' -> kinv n w'.
Proof.
  intros n wr x t w w' K H. unfold access in H. apply bind_Ok in H. destruct H as (d & _ & H).
  match type of H with Ok ?z = _ => assert (w' = z) by congruence end. subst w'. clear H. constructor; try apply K; cbn [vw lw acc hh].
  - intros y u. destruct (k_self _ _ K y u) as [A1 A2]. unfold upd2, updn.
    destruct (Nat.eqb_spec u t) as [->|]; cbn [va]; destruct (Nat.eqb_spec y x) as [->|]; destruct wr; rewrite ?Nat.eqb_refl;
      repeat match goal with |- context [(?a =? ?b)%nat] => destruct (Nat.eqb_spec a b); try congruence end; cbn [va]; try lia.
  - intro u. unfold updn. destruct (Nat.eqb_spec u t) as [->|]; apply K.
  - destruct (k_top _ _ K) as [T|(u & U & T)]; [auto|]. right. exists u. split; [auto|]. unfold updn. destruct (Nat.eqb_spec u t) as [->|]; auto.
Qed.

Lemma k_join : forall n w t m b, kinv n w -> (vh m < length (hh w))%nat -> (vh (join_if b (vw w t) m) < length (hh w))%nat.
Proof. intros n w t m [] K B; pose proof (k_vw _ _ K t); cbn [join_if join vh]; lia. Qed.
Lemma k_newest : forall n w, kinv n w -> (vh (newest w) < length (hh w))%nat.
Proof. intros n w K. pose proof (k_ne _ _ K). unfold newest. destruct (nth_error (hh w) _) as [[x m]|] eqn:E; [eapply (k_hh _ _ K); eauto|cbn; lia]. Qed.
Lemma k_load : forall n w acq t pick i x V, kinv n w -> load acq w t pick = Some (i, x, V) -> vle (vw w t) V /\ (vh V < length (hh w))%nat.
Proof.
  intros n w acq t pick i x V K H. destruct (load_spec _ _ _ _ _ _ _ H) as (m & Hi & -> & _). split; [apply load_vle|].
  pose proof (k_join n w t m acq K (k_hh _ _ K _ _ _ Hi)). assert (i < length (hh w))%nat by (apply nth_error_Some; congruence). unfold see. cbn [vh]. lia.
Qed.
Lemma k_cand : forall n w acq t pick w', kinv n w -> w_candidate acq w t pick = Ok w' -> kinv n w'.
Proof.
  intros n w acq t pick w' K H. unfold w_candidate in H. destruct (load acq w t pick) as [[[j [[x|] ver]] V]|] eqn:Hl; [|discriminate|].
  - match type of H with Ok ?z = _ => assert (w' = z) by congruence end. subst w'. destruct (k_load _ _ _ _ _ _ _ _ K Hl). apply ks. apply kv; auto.
    apply kb; [auto|]. cbn [with_thr thr]. rewrite lset_length. apply K.
  - assert (w' = w) by congruence. subst; auto.
Qed.
Lemma k_reload : forall n w t i pick w' r, kinv n w -> w_reload w t i pick = Ok (w', r) -> kinv n w'.
Proof.
  intros n w t i pick w' r K H. unfold w_reload in H. destruct (load false w t pick) as [[[j [h ver]] V]|] eqn:Hl.
  - match type of H with Ok (?z, _) = _ => assert (w' = z) by congruence end. subst w'. destruct (k_load _ _ _ _ _ _ _ _ K Hl). apply kv; auto.
    apply kb; [auto|]. cbn [with_thr thr]. rewrite lset_length. apply K.
  - assert (w' = w) by congruence. subst; auto.
Qed.
Lemma step_len : forall s t sp s' r, step s t sp = Ok (s', r) -> length (thr s') = length (thr s).
Proof.
  intros s t sp s' r H. unfold step in H. apply bind_Ok in H. destruct H as (c & _ & H). destruct c as [|i ver|i ver nx|i|i h ver|i h ver]; [discriminate| | | | |].
  - apply bind_Ok in H. destruct H as (nx & _ & H). injection H as <- _. apply lset_length.
  - destruct (_ && _ && _).
    + apply bind_Ok in H. destruct H as (? & _ & H). apply bind_Ok in H. destruct H as (? & _ & H). injection H as <- _. apply lset_length.
    + apply bind_Ok in H. destruct H as (s2 & E & H). injection H as <- _. unfold candidate in E. destruct (hidx s); [|discriminate]. injection E as <-. apply lset_length.
  - injection H as <- _. apply lset_length.
  - apply bind_Ok in H. destruct H as (? & _ & H). injection H as <- _. apply lset_length.
  - destruct (_ && _ && _); injection H as <- _; apply lset_length.
Qed.
Lemma k_free : forall n b w t i w' r, kinv n w -> w_free b w t i = Ok (w', r) -> kinv n w'.
Proof.
  intros n b w t i w' r K H. unfold w_free in H. destruct (step (base w) t false) as [[s r']| | |] eqn:E; try discriminate. cbn [bind] in H.
  match type of H with Ok (?z, _) = _ => assert (w' = z) by congruence end. subst w'. pose proof (k_join n w t (fv w i) b K (k_fv _ _ K i)) as J. apply kf.
  - apply kv; [|apply vle_join_if|auto]. apply kb; auto. rewrite (step_len _ _ _ _ _ E). apply K.
  - cbn. destruct b; [auto|apply K].
Qed.

Theorem wexec_kinv : forall o al extra size threads w v, wexec o al extra size threads w v -> kinv threads w.
Proof.
  induction 1 as [w H|w v t pick w' E K H|w v t h o1 o2 w' c E K Ho H Hr|w v t h wr w' E K Hin H|w v t h w' b E K Al H|w v u t E K|w v t pick w' r E K T H].
  - unfold w_init in H. apply bind_Ok in H. destruct H as (s & Es & H). match type of H with Ok ?z = _ => assert (w = z) by congruence end. subst w.
    constructor; cbn; try lia; auto.
    + unfold initialize in Es. repeat (apply bind_Ok in Es; destruct Es as (? & _ & Es)). injection Es as <-. cbn. apply repeat_length.
    + intros [|[|j]] x m X; cbn in X; try discriminate. injection X as _ <-. cbn. lia.
  - unfold w_acquire in H. apply bind_Ok in H. destruct H as (c & _ & H). destruct c; try discriminate. eapply k_cand; eauto.
  - unfold w_release in H. apply bind_Ok in H. destruct H as ([] & _ & H). apply bind_Ok in H. destruct H as (i & _ & H).
    apply bind_Ok in H. destruct H as (w1 & E1 & H). apply bind_Ok in H. destruct H as (w2 & E2 & H). apply bind_Ok in H. destruct H as (w3 & E3 & H).
    apply bind_Ok in H. destruct H as (s & Es & H). assert (w' = set_base w3 s) by congruence. subst w'.
    pose proof (ka _ _ _ _ _ _ (ka _ _ _ _ _ _ (ka _ _ _ _ _ _ K E1) E2) E3) as K3. apply kb; [auto|].
    unfold start_release in Es. apply bind_Ok in Es. destruct Es as (d & _ & Es). destruct d; try discriminate.
    repeat (apply bind_Ok in Es; destruct Es as (? & _ & Es)). injection Es as <-. cbn [thr]. rewrite lset_length. apply K3.
  - unfold w_use in H. apply bind_Ok in H. destruct H as ([] & _ & H). apply bind_Ok in H. destruct H as (i & _ & H). apply bind_Ok in H. destruct H as (w1 & E1 & H).
    eapply ka; [eapply ka; [exact K|exact E1]|exact H].
  - unfold w_alive in H. apply bind_Ok in H. destruct H as ([] & _ & H). apply bind_Ok in H. destruct H as (b' & _ & H). apply bind_Ok in H. destruct H as (w1 & E1 & H).
    assert (w' = w1) by congruence. subst w'. eapply ka; eauto.
  - apply kv; [auto|apply vle_join_l|]. pose proof (k_vw _ _ K t). pose proof (k_vw _ _ K u). cbn. lia.
  - unfold w_step, aget in H. destruct (nth_error (thr (base w)) t) as [c|] eqn:Hc; [|discriminate]. cbn [bind] in H.
    assert (Ht : (t < threads)%nat) by (rewrite <- (k_thr _ _ K); apply nth_error_Some; congruence).
    destruct c as [|i ver|i ver nx|i|i h ver|i h ver]; [discriminate| | | | |].
    + eapply k_free; eauto.
    + destruct (_ && _ && _).
      * destruct (step (base w) t false) as [[s r']| | |] eqn:Es; try discriminate. cbn [bind] in H.
        apply bind_Ok in H. destruct H as (w1 & E1 & H). apply bind_Ok in H. destruct H as (w2 & E2 & H). assert (w' = w2) by congruence. subst w'.
        eapply ka; [eapply ka; [|exact E1]|exact E2].
        pose proof (k_newest _ _ K) as KN. pose proof (k_join threads w t (newest w) (a_cas o) K KN) as J.
        apply kp; auto; cbn [set_base hh].
        -- apply kb; auto. rewrite (step_len _ _ _ _ _ Es). apply K.
        -- eapply vle_trans; [apply vle_join_if|apply vle_see].
        -- unfold see. cbn [vh]. lia.
        -- lia.
      * apply bind_Ok in H. destruct H as (w1 & E1 & H). assert (w' = w1) by congruence. subst. eapply k_cand; eauto.
    + eapply k_reload; eauto.
    + eapply k_free; eauto.
    + destruct (_ && _ && _); [|eapply k_reload; eauto]. destruct (step (base w) t false) as [[s r']| | |] eqn:Es; try discriminate. cbn [bind] in H.
      match type of H with Ok (?z, _) = _ => assert (w' = z) by congruence end. subst w'. pose proof (k_newest _ _ K) as KN. pose proof (k_vw _ _ K t) as KV. apply kp; auto; cbn [set_base hh].
      * apply kb; auto. rewrite (step_len _ _ _ _ _ Es). apply K.
      * apply vle_see.
      * unfold see. cbn [vh]. lia.
      * destruct (r_cas o); unfold see; cbn [join_if join vh]; lia.
Qed.

(* thread t waits for everything that has been done so far *)
Definition sync_all (w : wstate) (n t : nat) : wstate := fold_left (fun w u => w_sync w u t) (seq 0 n) w.
Lemma sync_list : forall o al extra size threads l w v t, wexec o al extra size threads w v ->
  let w' := fold_left (fun w u => w_sync w u t) l w in
  wexec o al extra size threads w' v /\ base w' = base w /\ hh w' = hh w /\ acc w' = acc w /\ lw w' = lw w /\ vle (vw w t) (vw w' t) /\
  (forall u, In u l -> vle (vw w u) (vw w' t)).
Proof.
  intros o al extra size threads. induction l as [|a l IH]; intros w v t E; cbn [fold_left].
  - repeat split; auto; contradiction.
  - destruct (IH (w_sync w a t) v t (wx_sync _ _ _ _ _ _ _ a t E)) as (E' & B & H & A & L & V & U). cbn [w_sync set_view base hh acc lw vw] in *.
    rewrite updn_eq in V. do 5 (split; [auto|]). split; [eapply vle_trans; [apply vle_join_l|exact V]|].
    intros u [-> | Hu]; [eapply vle_trans; [apply vle_join_r|exact V]|]. destruct (Nat.eq_dec u t) as [->|N].
    + eapply vle_trans; [apply vle_join_l|exact V].
    + specialize (U u Hu). rewrite updn_neq in U by auto. exact U.
Qed.

(* ---------- sequentially consistent executions ---------- *)
Lemma load_newest : forall n o al size w v acq t, kinv n w -> winv al o size w v -> forall pick, pick = None \/ pick = Some (length (hh w) - 1)%nat ->
  exists V, load acq w t pick = Some ((length (hh w) - 1)%nat, (hidx (base w), hver (base w)), V).
Proof.
  intros n o al size w v acq t K W pick Hp. unfold load. replace (match pick with Some i => i | None => (length (hh w) - 1)%nat end) with (length (hh w) - 1)%nat by (destruct Hp as [-> | ->]; auto).
  pose proof (k_vw _ _ K t). destruct (Nat.leb_spec (vh (vw w t)) (length (hh w) - 1)); [|lia]. rewrite (w_last _ _ _ _ _ W). eauto.
Qed.

Lemma note_obs : forall v w s w' t r, base w' = s ->
  N.of_nat (length (hh w')) = (if hver s =? hver (base w) then chg v else chg v + 1) ->
  (forall i ver, nth_error (thr s) t = Some (QNext i ver) -> S (seen w' t) = length (hh w')) ->
  note v w' t r = observe v (base w) s t r.
Proof.
  intros v w s w' t r B E S. unfold note, observe. rewrite B, E. f_equal. destruct (nth_error (thr s) t) as [[|i ver| | | |]|] eqn:X; auto.
  f_equal. rewrite <- E, <- (S _ _ eq_refl). lia.
Qed.

Lemma access_nc : forall wr x t w, access wr x t w <> Contract.
Proof. intros. unfold access, defined. destruct (ordered _ _ _ _); discriminate. Qed.

Section SC.
  Variables (al : bool) (extra size threads : nat).
  Hypothesis Hextra : (1 <= extra)%nat.
  Hypothesis Hsize : (2 <= size)%nat.
  Hypothesis Hmax : N.of_nat size <= 65535.
  Let W := wexec code al extra size threads.

  Lemma sc_inv : forall w v, W w v -> winv al code size w v.
  Proof. intros. eapply (wexec_inv al code extra size threads Hextra Hsize Hmax eq_refl); eauto. Qed.

  Lemma sc_candidate : forall w v t acq pick s, W w v -> candidate (base w) t = Ok s -> (t < length (thr (base w)))%nat -> pick = None \/ pick = Some (length (hh w) - 1)%nat ->
    exists w', w_candidate acq w t pick = Ok w' /\ base w' = s /\ note v w' t None = observe v (base w) s t None.
  Proof.
    intros w v t acq pick s X H Ht Hp. pose proof (wexec_kinv _ _ _ _ _ _ _ X) as K. pose proof (sc_inv _ _ X) as I.
    destruct (load_newest _ _ _ _ _ _ acq t K I pick Hp) as (V & E). unfold w_candidate. rewrite E. unfold candidate in H.
    destruct (hidx (base w)) as [i|]; [|discriminate]. assert (s = with_thr (base w) t (QNext i (hver (base w)))) by congruence. subst s.
    eexists. split; [reflexivity|]. split; [reflexivity|]. apply note_obs; [reflexivity| |].
    - cbn [set_seen set_view set_base hh with_thr hver]. rewrite N.eqb_refl. symmetry. apply (w_chg _ _ _ _ _ I).
    - intros i' ver' _. cbn [set_seen set_view set_base hh seen]. rewrite updn_eq. pose proof (k_ne _ _ K). lia.
  Qed.

  Lemma sc_step : forall w v t sp s r, W w v -> in_time v (base w) t -> step (base w) t sp = Ok (s, r) ->
    exists w', W w' (observe v (base w) s t r) /\ base w' = s.
  Proof.
    intros w v t sp s r X T H. pose proof (wexec_kinv _ _ _ _ _ _ _ X) as K. pose proof (sc_inv _ _ X) as I. pose proof (w_base _ _ _ _ _ I) as (_ & _ & I3 & _).
    pose proof H as H0. unfold step, aget in H. destruct (nth_error (thr (base w)) t) as [c|] eqn:Hc; [|discriminate]. cbn [bind] in H.
    assert (Ht : (t < length (thr (base w)))%nat) by (apply nth_error_Some; congruence).
    set (pick := if sp then Some (length (hh w) - 1)%nat else None).
    assert (Hp : pick = None \/ pick = Some (length (hh w) - 1)%nat) by (unfold pick; destruct sp; auto).
    assert (Hn : negb sp = match pick with None => true | _ => false end) by (unfold pick; destruct sp; auto).
    assert (G : forall w', w_step code w t pick = Ok (w', r) -> base w' = s -> note v w' t r = observe v (base w) s t r -> exists w', W w' (observe v (base w) s t r) /\ base w' = s).
    { intros w' E1 E2 E3. exists w'. split; [|auto]. rewrite <- E3. eapply wx_step; eauto. }
    assert (F : forall b i, (exists ver, c = QNext i ver) \/ (exists h ver, c = RStore i h ver) -> step (base w) t false = Ok (s, r) ->
      (forall i ver, nth_error (thr s) t <> Some (QNext i ver)) -> hver s = hver (base w) -> exists w', w_free b w t i = Ok (w', r) /\ base w' = s /\ note v w' t r = observe v (base w) s t r).
    { intros b i _ E N Eh. unfold w_free. rewrite E. cbn [bind]. eexists. split; [reflexivity|]. split; [reflexivity|]. apply note_obs; [reflexivity| |].
      - cbn [set_fv set_view set_base hh]. rewrite Eh, N.eqb_refl. symmetry. apply (w_chg _ _ _ _ _ I).
      - intros i' ver' Z. exfalso. eapply N; eauto. }
    assert (R : forall i, s = with_thr (base w) t (RStore i (hidx (base w)) (hver (base w))) -> r = None ->
      exists w', w_reload w t i pick = Ok (w', r) /\ base w' = s /\ note v w' t r = observe v (base w) s t r).
    { intros i -> ->. unfold w_reload. destruct (load_newest _ _ _ _ _ _ false t K I pick Hp) as (V & E). rewrite E. eexists. split; [reflexivity|]. split; [reflexivity|].
      apply note_obs; [reflexivity| |].
      - cbn [set_view set_base hh with_thr hver]. rewrite N.eqb_refl. symmetry. apply (w_chg _ _ _ _ _ I).
      - cbn [with_thr thr]. intros i' ver'. rewrite lset_nth_eq by auto. discriminate. }
    destruct c as [|i ver|i ver nx|i|i h ver|i h ver]; [discriminate| | | | |].
    - apply bind_Ok in H. destruct H as (nx & E & H). assert (s = with_thr (base w) t (QCas i ver nx)) by congruence.
      destruct (F (f_add code) i) as (w' & E1 & E2 & E3); eauto.
      + unfold step in H0 |- *. destruct (aget (thr (base w)) t) as [[| | | | |]| | |] eqn:Z; try exact H0; unfold aget in Z; rewrite Hc in Z; discriminate.
      + subst s. cbn [with_thr thr]. intros i' ver'. rewrite lset_nth_eq by auto. discriminate.
      + subst s. reflexivity.
      + apply (G w'); auto. unfold w_step, aget. rewrite Hc. exact E1.
    - rewrite Hn in H. destruct (_ && _ && _) eqn:Cas.
      + pose proof Cas as Cas0. apply andb_true_iff in Cas. destruct Cas as [_ Cp]. assert (sp = false) by (destruct sp; auto; discriminate). subst sp.
        destruct (step_inv al code extra size Hextra Hsize Hmax eq_refl w v t _ pick I T Hc ltac:(discriminate)) as [Z | (w' & r' & Z & _)].
        * exfalso. unfold w_step in Z. unfold aget at 1 in Z. rewrite Hc in Z. cbn [bind] in Z. rewrite Cas0, H0 in Z. cbn [bind] in Z. 
          destruct (access true _ _ _) as [w1| | |] eqn:Z1; cbn [bind] in Z; try discriminate; [|eapply access_nc; eauto].
          destruct (access false _ _ _) as [w2| | |] eqn:Z2; cbn [bind] in Z; try discriminate. eapply access_nc; eauto.
        * pose proof Z as Z0. unfold w_step in Z. unfold aget at 1 in Z. rewrite Hc in Z. cbn [bind] in Z. rewrite Cas0, H0 in Z. cbn [bind] in Z.
          apply bind_Ok in Z. destruct Z as (w1 & E1 & Z). apply bind_Ok in Z. destruct Z as (w2 & E2 & Z). assert (w' = w2) by congruence. assert (r' = r) by congruence. subst w' r'.
          destruct (access_spec al _ _ _ _ _ i E1 (or_introl eq_refl)) as (B1 & H1 & _). destruct (access_spec al _ _ _ _ _ i E2 (or_intror eq_refl)) as (B2 & H2 & _).
          assert (BB : base w2 = s) by (rewrite B2, B1; reflexivity). apply (G w2 Z0 BB). apply note_obs; [auto| |].
          -- rewrite H2, H1. cbn [set_view push set_base hh]. rewrite app_length. cbn [length].
             apply bind_Ok in H. destruct H as (? & _ & H). apply bind_Ok in H. destruct H as (g & _ & H).
             match type of H with Ok (?z, _) = _ => assert (Ez : s = z) by congruence end. rewrite Ez. cbn [with_thr with_head hver].
             apply andb_true_iff in Cas0. destruct Cas0 as [Cas0 _]. apply andb_true_iff in Cas0. destruct Cas0 as [_ Cv]. apply N.eqb_eq in Cv. rewrite <- Cv, I3.
             rewrite (wver_ne extra size Hextra Hsize Hmax). rewrite (w_chg _ _ _ _ _ I). lia.
          -- apply bind_Ok in H. destruct H as (? & _ & H). apply bind_Ok in H. destruct H as (g & _ & H).
             match type of H with Ok (?z, _) = _ => assert (Ez : s = z) by congruence end. rewrite Ez. cbn [with_thr with_head thr]. intros i' ver'. rewrite lset_nth_eq by auto. discriminate.
      + apply bind_Ok in H. destruct H as (s1 & E & H). assert (s1 = s) by congruence. assert (r = None) by congruence. subst s1 r.
        destruct (sc_candidate w v t (a_fail code) pick s X E Ht Hp) as (w' & E1 & E2 & E3). apply (G w'); auto.
        unfold w_step, aget. rewrite Hc. cbn [bind]. rewrite Cas, E1. reflexivity.
    - destruct (R i) as (w' & E1 & E2 & E3); [congruence|congruence|]. apply (G w'); auto. unfold w_step, aget. rewrite Hc. exact E1.
    - apply bind_Ok in H. destruct H as (a & E & H). assert (s = with_thr (with_fl (base w) a) t (RCas i h ver)) by congruence.
      destruct (F (f_swap code) i) as (w' & E1 & E2 & E3); eauto.
      + unfold step in H0 |- *. destruct (aget (thr (base w)) t) as [[| | | | |]| | |] eqn:Z; try exact H0; unfold aget in Z; rewrite Hc in Z; discriminate.
      + subst s. cbn [with_thr with_fl thr]. intros i' ver'. rewrite lset_nth_eq by auto. discriminate.
      + subst s. reflexivity.
      + apply (G w'); auto. unfold w_step, aget. rewrite Hc. exact E1.
    - rewrite Hn in H. destruct (_ && _ && _) eqn:Cas.
      + pose proof Cas as Cas0. apply andb_true_iff in Cas. destruct Cas as [Cas Cp]. assert (sp = false) by (destruct sp; auto; discriminate). subst sp.
        apply andb_true_iff in Cas. destruct Cas as [_ Cv]. apply N.eqb_eq in Cv.
        eapply G; [unfold w_step; unfold aget at 1; rewrite Hc; cbn [bind]; rewrite Cas0, H0; reflexivity|reflexivity|].
        apply note_obs; [reflexivity| |]; match type of H with Ok (?z, _) = _ => assert (s = z) by congruence end; subst s.
        * cbn [set_view push set_base hh with_thr with_head hver]. rewrite app_length. cbn [length]. rewrite <- Cv, I3.
          rewrite (wver_ne extra size Hextra Hsize Hmax). rewrite (w_chg _ _ _ _ _ I). lia.
        * cbn [with_thr with_head thr]. intros i' ver'. rewrite lset_nth_eq by auto. discriminate.
      + destruct (R i) as (w' & E1 & E2 & E3); [congruence|congruence|]. apply (G w'); auto. unfold w_step, aget. rewrite Hc. cbn [bind]. rewrite Cas. exact E1.
  Qed.

  (* whoever is ordered after every access to the slot of an owned handle may release it *)
  Lemma release_ok : forall o w v t h, winv al o size w v -> nth_error (thr (base w)) t = Some Idle -> In h (own v) ->
    ordered true w (vw w t) (el (slot h)) = true -> ordered true w (vw w t) (ge (slot h)) = true -> ordered false w (vw w t) (ge (slot h)) = true ->
    exists w' s, w_release w t h = Ok w' /\ start_release (base w) t h = Ok s /\ base w' = s.
  Proof.
    intros o w v t h I Hc Hh O1 O2 O3. pose proof (w_base _ _ _ _ _ I) as J. pose proof (read_index_owned extra size Hextra Hsize Hmax w v h J Hh) as Er.
    unfold w_release, idle, aget. rewrite Hc. cbn [bind]. rewrite Er. cbn [bind]. set (i := slot h) in *.
    destruct (access_ok _ _ _ _ O3) as (w1 & E1). rewrite E1. cbn [bind]. destruct (access_spec al _ _ _ _ _ i E1 (or_intror eq_refl)) as (B1 & _).
    assert (L : forall b x y w w', access b x t w = Ok w' -> ordered true w (vw w t) y = true -> ordered true w' (vw w' t) y = true).
    { clear. intros b x y w w' H O. unfold access in H. apply bind_Ok in H. destruct H as (d & _ & H).
      match type of H with Ok ?z = _ => assert (w' = z) by congruence end. subst w'. unfold ordered in *. cbn [base acc vw] in *. rewrite forallb_forall in *.
      intros u Hu. specialize (O u Hu). apply Nat.leb_le in O. apply Nat.leb_le. rewrite updn_eq. cbn [va]. unfold upd2, updn.
      repeat match goal with |- context [(?a =? ?b)%nat] => destruct (Nat.eqb_spec a b); try congruence end; subst; lia. }
    assert (O2' := L _ _ _ _ _ E1 O2). assert (O1' := L _ _ _ _ _ E1 O1).
    destruct (access_ok _ _ _ _ O2') as (w2 & E2). rewrite E2. cbn [bind]. destruct (access_spec al _ _ _ _ _ i E2 (or_intror eq_refl)) as (B2 & _).
    assert (O1'' := L _ _ _ _ _ E2 O1'). destruct (access_ok _ _ _ _ O1'') as (w3 & E3). rewrite E3. cbn [bind]. destruct (access_spec al _ _ _ _ _ i E3 (or_introl eq_refl)) as (B3 & _).
    rewrite B3, B2, B1. pose proof J as (_ & _ & _ & _ & (G1 & _) & _). pose proof (own_lt extra size Hextra Hsize Hmax _ _ _ J Hh) as Hs. fold i in Hs.
    unfold start_release, aget. rewrite Hc. cbn [bind]. rewrite Er. cbn [bind]. destruct (nth_error (gen (base w)) i) as [g|] eqn:Eg; [|apply nth_error_None in Eg; lia].
    cbn [bind]. rewrite aset_Ok by lia. cbn [bind]. do 2 eexists. split; [reflexivity|]. split; reflexivity.
  Qed.

  Lemma synced : forall w v t b x, W w v -> ordered b (sync_all w threads t) (vw (sync_all w threads t) t) x = true.
  Proof.
    intros w v t b x X. pose proof (wexec_kinv _ _ _ _ _ _ _ X) as K. destruct (sync_list _ _ _ _ _ (seq 0 threads) w v t X) as (_ & B & _ & A & L & _ & U).
    unfold sync_all. unfold ordered. rewrite B, A, L, (k_thr _ _ K). rewrite forallb_forall. intros u Hu. apply Nat.leb_le. destruct (U u Hu) as [_ U']. specialize (U' x u).
    destruct (k_self _ _ K x u). destruct b; lia.
  Qed.

  Theorem sc_exec : forall st v, exec extra size threads true st v -> exists w, W w v /\ base w = st.
  Proof.
    induction 1 as [st H|st v k st' E IH H|st v k h o1 o2 st' c E IH Ho H Hr|st v k sp st' r E IH T H].
    - destruct (initialize_ok extra size threads Hextra Hsize Hmax) as (a & Ea & _). eexists. split; [apply wx_init; unfold w_init; rewrite H; reflexivity|reflexivity].
    - destruct IH as (w & X & <-). unfold start_acquire, aget in H. destruct (nth_error (thr (base w)) k) as [c|] eqn:Hc; [|discriminate]. cbn [bind] in H. destruct c; try discriminate.
      assert (Ht : (k < length (thr (base w)))%nat) by (apply nth_error_Some; congruence).
      destruct (sc_candidate w v k (a_load code) None st' X H Ht (or_introl eq_refl)) as (w' & E1 & E2 & E3). exists w'. split; [|auto]. rewrite <- E3. eapply wx_acquire; [exact X|].
      unfold w_acquire, aget. rewrite Hc. exact E1.
    - destruct IH as (w & X & <-). destruct (sync_list _ _ _ _ _ (seq 0 threads) w v k X) as (X' & B & _). fold (sync_all w threads k) in X', B.
      assert (Hin : In h (own v)) by (rewrite Ho; apply in_or_app; right; left; auto).
      assert (Hc : nth_error (thr (base w)) k = Some Idle). { unfold start_release, aget in H. destruct (nth_error (thr (base w)) k) as [[| | | | |]|]; try discriminate. auto. }
      destruct (release_ok code (sync_all w threads k) v k h (sc_inv _ _ X')) as (w' & s & E1 & E2 & E3); auto; try (eapply synced; eauto); [rewrite B; auto|].
      rewrite B in E2. assert (s = st') by congruence. subst s. exists w'. split; [|auto]. eapply wx_release; eauto.
    - destruct IH as (w & X & <-). eapply sc_step; eauto.
  Qed.
End SC.

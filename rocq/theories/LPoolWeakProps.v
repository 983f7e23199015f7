(* C136: atomic_linked_pool under the release/acquire memory model of C++ (LPoolWeakModel.v), for every pool size, every
   number of threads and every choice of the values that loads may return. *)
From Coq Require Import NArith ZArith List Lia Bool Arith Permutation.
Import ListNotations.
From Verif Require Import Base LPoolModel LPoolSpec LPoolProofs LPoolProps LPoolWeakModel LPoolWeakProofs.
Open Scope N_scope.

(* the annotations that rule out data races: full barriers on the free list; or release on the compare-exchange of
   _release_node, and acquire on the successful compare-exchange or on both loads of acquire *)
Definition enough (o : orders) : bool := (f_add o && f_swap o) || (r_cas o && (a_cas o || (a_load o && a_fail o))).
Lemma enough_by : forall o, enough o = by_free o || by_load o || by_cas o.
Proof. intros [[] [] [] [] [] []]; reflexivity. Qed.
Example C136_code_enough : enough code = true. Proof. reflexivity. Qed.

(* no step of acquire or release is a data race or an access outside of the arrays *)
Theorem C136_no_data_race : forall o alive extra size threads w v t c pick, enough o = true -> sane extra size ->
  wexec o alive extra size threads w v -> in_time v (base w) t -> nth_error (thr (base w)) t = Some c -> c <> Idle ->
  w_step o w t pick <> UB.
Proof.
  intros o al extra size threads w v t c pick E (S1 & S2 & S3) X T Hc N. rewrite enough_by in E.
  pose proof (wexec_inv al o extra size threads S1 S2 S3 E _ _ X) as W.
  destruct (step_inv al o extra size S1 S2 S3 E w v t c pick W T Hc N) as [Z | (w' & r & Z & _)]; rewrite Z; discriminate.
Qed.

(* the same slot is never owned twice *)
Theorem C136_one_owner : forall o alive extra size threads w v, enough o = true -> sane extra size -> wexec o alive extra size threads w v ->
  NoDup (map slot (own v)) /\ Forall (fun h => (slot h < size)%nat /\ get_index (base w) h = Ok (slot h)) (own v).
Proof.
  intros o al extra size threads w v E (S1 & S2 & S3) X. rewrite enough_by in E.
  pose proof (w_base _ _ _ _ _ (wexec_inv al o extra size threads S1 S2 S3 E _ _ X)) as I. split.
  - destruct I as (_ & _ & _ & _ & _ & (l & L) & _). apply linv_nodup in L. apply NoDup_app_r in L. eapply NoDup_app_l; eauto.
  - apply Forall_forall. intros h Hh. split; [eapply own_lt; eauto|]. exact (read_index_owned extra size S1 S2 S3 w v h I Hh).
Qed.

(* Whoever acquires a slot is ordered after everything that was done with it before: the thread may use the element at once,
   and release it unless another thread asked is_alive. *)
Theorem C136_acquired_usable : forall o alive extra size threads w v t pick w' h write, enough o = true -> sane extra size ->
  wexec o alive extra size threads w v -> in_time v (base w) t -> w_step o w t pick = Ok (w', Some h) ->
  (exists w2, w_use w' t h write = Ok w2) /\ (alive = false -> exists w2, w_release w' t h = Ok w2).
Proof.
  intros o al extra size threads w v t pick w' h wr E (S1 & S2 & S3) X T H. rewrite enough_by in E.
  pose proof (wexec_inv al o extra size threads S1 S2 S3 E _ _ X) as W. pose proof (w_base _ _ _ _ _ W) as I.
  pose proof H as H0. unfold w_step in H. unfold aget at 1 in H. destruct (nth_error (thr (base w)) t) as [c|] eqn:Hc; [|discriminate]. cbn [bind] in H.
  assert (Ht : (t < length (thr (base w)))%nat) by (apply nth_error_Some; congruence).
  destruct c as [|i ver|i ver nx|i|i hd ver|i hd ver]; [discriminate| | | | |].
  - exfalso. destruct (free_step al o extra size S1 S2 S3 (f_add o) w v t _ i W T Hc) as (w2 & Z & _); [left; eauto|congruence].
  - destruct (_ && _ && _) eqn:Cas.
    2:{ apply bind_Ok in H. destruct H as (w2 & _ & H). discriminate. }
    apply andb_true_iff in Cas. destruct Cas as (Cas & Cp). apply andb_true_iff in Cas. destruct Cas as (Ci & Cv). apply idx_eqb_eq in Ci. apply N.eqb_eq in Cv.
    destruct pick; [discriminate|]. destruct (acquired_step al o extra size S1 S2 S3 E w v t i ver nx W T Hc Ci Cv) as (w2 & r & Z & W2 & Er & C).
    rewrite H0 in Z. assert (w2 = w') by congruence. assert (r = Some h) by congruence. subst w2 r. assert (Eh : h = pack i (nth i (gen (base w)) 0)) by congruence. rewrite <- Eh in W2.
    destruct (head_free extra size S1 S2 S3 w v i I Ci) as [_ Hi]. assert (Es : slot h = i) by (rewrite Eh; apply pack_slot; lia).
    pose proof (w_base _ _ _ _ _ W2) as I2. assert (Hh : In h (own (note v w' t (Some h)))) by (left; reflexivity).
    destruct (ordered_cov al _ _ _ C) as [O1 O2].
    assert (Hc' : nth_error (thr (base w')) t = Some Idle).
    { destruct (step (base w) t false) as [[s r]| | |] eqn:Es'; try discriminate. cbn [bind] in H.
      apply bind_Ok in H. destruct H as (w1 & E1 & H). apply bind_Ok in H. destruct H as (w2 & E2 & H). assert (w' = w2) by congruence. subst w2.
      destruct (access_spec al _ _ _ _ _ i E1 (or_introl eq_refl)) as (B1 & _). destruct (access_spec al _ _ _ _ _ i E2 (or_intror eq_refl)) as (B2 & _).
      rewrite B2, B1. cbn [set_view push set_base base]. unfold step, aget in Es'. rewrite Hc in Es'. cbn [bind] in Es'. rewrite Ci, Cv in Es'. unfold idx_eqb in Es'. rewrite Nat.eqb_refl, N.eqb_refl in Es'. cbn [andb negb] in Es'.
      apply bind_Ok in Es'. destruct Es' as (? & _ & Es'). apply bind_Ok in Es'. destruct Es' as (g & _ & Es'). injection Es' as <- _. cbn [with_thr with_head thr]. apply lset_nth_eq. auto. }
    split.
    + unfold w_use, idle, aget. rewrite Hc'. cbn [bind]. unfold get_index. rewrite (read_index_owned extra size S1 S2 S3 w' _ h I2 Hh). cbn [bind]. rewrite Es.
      destruct (access_ok _ _ _ _ O2) as (w3 & E3). rewrite E3. cbn [bind]. destruct (access_spec al _ _ _ _ _ i E3 (or_intror eq_refl)) as (_ & _ & _ & _ & _ & _ & _ & _ & D & _ & _).
      specialize (D C). destruct (ordered_cov al _ _ _ D) as [O3 _]. apply access_ok. destruct wr; [auto|].
      unfold ordered. rewrite forallb_forall. intros u Hu. apply Nat.leb_le. apply in_seq in Hu. destruct (D u ltac:(lia)) as (D1 & _).
      pose proof (wexec_kinv _ _ _ _ _ _ _ (wx_step _ _ _ _ _ _ _ _ _ _ _ X T H0)) as K. pose proof (k_self _ _ (ka _ _ _ _ _ _ K E3) (el i) u). lia.
    + intros ->. destruct (release_ok false extra size S1 S2 S3 o w' _ t h W2 Hc' Hh) as (w3 & s & R & _); rewrite ?Es; auto; [|eauto].
      unfold ordered. rewrite forallb_forall. intros u Hu. apply Nat.leb_le. apply in_seq in Hu. destruct (C u ltac:(lia)) as (_ & _ & D). auto.
  - exfalso. destruct (reload_inv al o size w v t _ i pick W Hc (or_introl eq_refl)) as (w2 & Z & _). congruence.
  - exfalso. destruct (free_step al o extra size S1 S2 S3 (f_swap o) w v t _ i W T Hc) as (w2 & Z & _); [right; eauto|congruence].
  - exfalso. destruct (_ && _ && _).
    + destruct (step (base w) t false) as [[s r]| | |] eqn:Es'; try discriminate. cbn [bind] in H. assert (r = Some h) by congruence. subst r.
      unfold step, aget in Es'. rewrite Hc in Es'. cbn [bind] in Es'. destruct (_ && _ && _); discriminate.
    + destruct (reload_inv al o size w v t _ i pick W Hc) as (w2 & Z & _); [right; eauto|congruence].
Qed.

(* whoever is ordered after all that was done with the slot of an owned handle may release it *)
Theorem C136_release : forall o alive extra size threads w v t h, enough o = true -> sane extra size -> wexec o alive extra size threads w v ->
  nth_error (thr (base w)) t = Some Idle -> In h (own v) ->
  (forall x u, x = el (slot h) \/ x = ge (slot h) -> (u < threads)%nat -> (acc w x u <= va (vw w t) x u)%nat) ->
  exists w', w_release w t h = Ok w'.
Proof.
  intros o al extra size threads w v t h E (S1 & S2 & S3) X Hc Hh H. rewrite enough_by in E.
  pose proof (wexec_inv al o extra size threads S1 S2 S3 E _ _ X) as W. pose proof (wexec_kinv _ _ _ _ _ _ _ X) as K.
  destruct (release_ok al extra size S1 S2 S3 o w v t h W Hc Hh) as (w' & _ & R & _); [| | |eauto];
    unfold ordered; rewrite forallb_forall; intros u Hu; apply Nat.leb_le; apply in_seq in Hu; rewrite (k_thr _ _ K) in Hu.
  - apply H; [auto|lia].
  - apply H; [auto|lia].
  - destruct (k_self _ _ K (ge (slot h)) u). specialize (H (ge (slot h)) u (or_intror eq_refl) ltac:(lia)). lia.
Qed.

(* the sequentially consistent executions of LPoolSpec.v are among those of the code *)
Theorem C136_includes_sc : forall alive extra size threads st v, sane extra size -> exec extra size threads true st v ->
  exists w, wexec code alive extra size threads w v /\ base w = st.
Proof. intros al extra size threads st v (S1 & S2 & S3) X. apply sc_exec; auto. Qed.

(* an acquire that comes after everything done so far reports a full pool exactly if no slot is free, whatever its load returns *)
Theorem C136_synchronized_acquire : forall alive extra size threads w v t pick, sane extra size -> wexec code alive extra size threads w v ->
  nth_error (thr (base w)) t = Some Idle -> let w1 := sync_all w threads t in
  wexec code alive extra size threads w1 v /\ (w_acquire code w1 t pick = Ok w1 \/ w_acquire code w1 t pick = w_acquire code w1 t None) /\
  ((length (own v) + count releasing (thr (base w)) < size)%nat -> exists w2, w_acquire code w1 t None = Ok w2 /\ w_step code w2 t None <> UB) /\
  ((length (own v) + count releasing (thr (base w)) >= size)%nat -> w_acquire code w1 t None = Contract).
Proof.
  intros al extra size threads w v t pick (S1 & S2 & S3) X Hc w1. destruct (sync_list _ _ _ _ _ (seq 0 threads) w v t X) as (X1 & B & HH & _ & _ & _ & U).
  fold (sync_all w threads t) in X1, B, HH, U. fold w1 in X1, B, HH, U. split; [exact X1|].
  pose proof (wexec_kinv _ _ _ _ _ _ _ X) as K. pose proof (wexec_kinv _ _ _ _ _ _ _ X1) as K1.
  pose proof (wexec_inv al code extra size threads S1 S2 S3 eq_refl _ _ X1) as W1. pose proof (w_base _ _ _ _ _ W1) as I.
  assert (Hc1 : nth_error (thr (base w1)) t = Some Idle) by (rewrite B; auto).
  assert (Top : (length (hh w1) <= S (vh (vw w1 t)))%nat).
  { rewrite HH. destruct (k_top _ _ K) as [Z | (u & Hu & Z)]; [lia|]. destruct (U u ltac:(apply in_seq; lia)) as [U1 _]. lia. }
  split; [|split].
  - unfold w_acquire, aget. rewrite Hc1. cbn [bind]. unfold w_candidate, load. destruct pick as [j|]; [|auto].
    destruct (Nat.leb_spec (vh (vw w1 t)) j) as [Hj|Hj]; [|auto]. destruct (nth_error (hh w1) j) as [[x m]|] eqn:Ej; [|auto].
    assert (j < length (hh w1))%nat by (apply nth_error_Some; congruence). assert (j = (length (hh w1) - 1)%nat) by lia. subst j.
    destruct (Nat.leb_spec (vh (vw w1 t)) (length (hh w1) - 1)); [|lia]. rewrite Ej. auto.
  - intro Q. pose proof I as (_ & _ & _ & _ & _ & (l & F & P) & _). pose proof (Permutation_length P) as PL. rewrite !app_length, map_length, seq_length, flat_count, B in PL.
    destruct l as [|i l]; cbn [length] in PL; [lia|]. destruct F as (F & _). destruct (load_newest _ _ _ _ _ _ (a_load code) t K1 W1 None (or_introl eq_refl)) as (V & E).
    rewrite F in E. assert (A : w_acquire code w1 t None = Ok (set_seen (set_view (set_base w1 (with_thr (base w1) t (QNext i (hver (base w1))))) t V) t (length (hh w1) - 1))).
    { unfold w_acquire, aget. rewrite Hc1. cbn [bind]. unfold w_candidate. rewrite E. reflexivity. }
    eexists. split; [exact A|]. eapply (C136_no_data_race code al extra size threads _ _ t (QNext i (hver (base w1)))); [reflexivity|split; auto|eapply wx_acquire; [exact X1|exact A]| | |discriminate].
    + unfold in_time. cbn [set_seen set_view set_base base with_thr thr]. rewrite lset_nth_eq; [exact Logic.I|]. apply nth_error_Some. congruence.
    + cbn [set_seen set_view set_base base with_thr thr]. apply lset_nth_eq. apply nth_error_Some. congruence.
  - intro Q. pose proof I as (_ & _ & _ & _ & _ & (l & F & P) & _). pose proof (Permutation_length P) as PL. rewrite !app_length, map_length, seq_length, flat_count, B in PL.
    destruct l as [|i l]; cbn [length] in PL; [|lia]. cbn in F. destruct (load_newest _ _ _ _ _ _ (a_load code) t K1 W1 None (or_introl eq_refl)) as (V & E).
    rewrite F in E. unfold w_acquire, aget. rewrite Hc1. cbn [bind]. unfold w_candidate. rewrite E. reflexivity.
Qed.

(* ---------- executions as lists of actions, for the witnesses ---------- *)
Inductive action := Acq (t : nat) (pick : option nat) | Rel (t : nat) (h : N) | Use (t : nat) (h : N) (write : bool) | Alive (t : nat) (h : N)
  | Sync (u t : nat) | Go (t : nat) (pick : option nat).
Fixpoint cut (h : N) (l : list N) : option (list N * list N) :=
  match l with [] => None | x :: l => if x =? h then Some ([], l) else match cut h l with Some (a, b) => Some (x :: a, b) | None => None end end.
Lemma cut_spec : forall h l a b, cut h l = Some (a, b) -> l = a ++ h :: b.
Proof.
  induction l as [|x l IH]; intros a b E; cbn in E; [discriminate|]. destruct (N.eqb_spec x h) as [->|].
  - injection E as <- <-. auto.
  - destruct (cut h l) as [[a' b']|]; [|discriminate]. injection E as <- <-. cbn. rewrite (IH _ _ eq_refl). auto.
Qed.
Definition in_timeb (v : view) (st : state) (t : nat) : bool :=
  match nth_error (thr st) t with Some (QCas _ _ _) => match nth_error (mark v) t with Some m => chg v <? m + 2 ^ 32 | None => false end | _ => true end.
Lemma in_timeb_spec : forall v st t, in_timeb v st t = true -> in_time v st t.
Proof.
  intros v st t H. unfold in_timeb, in_time in *. destruct (nth_error (thr st) t) as [[| | | | |]|]; auto. destruct (nth_error (mark v) t) as [m|]; [|discriminate].
  exists m. split; [auto|]. apply N.ltb_lt. auto.
Qed.
Definition perform (o : orders) (p : wstate * view) (a : action) : outcome (wstate * view) :=
  let (w, v) := p in
  match a with
  | Acq t pick => let! w' := w_acquire o w t pick in Ok (w', note v w' t None)
  | Rel t h => match cut h (own v), nth_error (rel v) (slot h) with
      | Some (o1, o2), Some c => let! w' := w_release w t h in Ok (w', mkv (o1 ++ o2) ((h, c + 1) :: dead v) (chg v) (mark v) (lset (rel v) (slot h) (c + 1)))
      | _, _ => OutOfFuel end
  | Use t h wr => if existsb (N.eqb h) (own v) then let! w' := w_use w t h wr in Ok (w', v) else OutOfFuel
  | Alive t h => let! (w', _) := w_alive w t h in Ok (w', v)
  | Sync u t => Ok (w_sync w u t, v)
  | Go t pick => if in_timeb v (base w) t then let! (w', r) := w_step o w t pick in Ok (w', note v w' t r) else OutOfFuel
  end.
Fixpoint performs (o : orders) (p : wstate * view) (l : list action) : outcome (wstate * view) :=
  match l with [] => Ok p | a :: l => let! p := perform o p a in performs o p l end.
Definition begin (size threads : nat) : outcome (wstate * view) :=
  let! w := w_init 1 size threads in Ok (w, mkv [] [] 1 (repeat 0 threads) (repeat 0 size)).
Definition whole (o : orders) (size threads : nat) (l : list action) : outcome (wstate * view) := let! p := begin size threads in performs o p l.

Lemma perform_exec : forall o size threads a w v w' v', wexec o true 1 size threads w v -> perform o (w, v) a = Ok (w', v') -> wexec o true 1 size threads w' v'.
Proof.
  intros o size threads a w v w' v' X H. destruct a as [t pick|t h|t h wr|t h|u t|t pick]; cbn [perform] in H.
  - apply bind_Ok in H. destruct H as (w1 & E & H). assert (w1 = w') by congruence. assert (v' = note v w1 t None) by congruence. subst. eapply wx_acquire; eauto.
  - destruct (cut h (own v)) as [[o1 o2]|] eqn:Ec; [|discriminate]. destruct (nth_error (rel v) (slot h)) as [c|] eqn:Er; [|discriminate].
    apply bind_Ok in H. destruct H as (w1 & E & H). match type of H with Ok (_, ?z) = _ => assert (w1 = w') by congruence; assert (v' = z) by congruence end. subst.
    eapply wx_release; eauto. apply cut_spec. auto.
  - destruct (existsb (N.eqb h) (own v)) eqn:Ex; [|discriminate]. apply bind_Ok in H. destruct H as (w1 & E & H). assert (w1 = w') by congruence. assert (v' = v) by congruence. subst.
    eapply wx_use; eauto. apply existsb_exists in Ex. destruct Ex as (y & Hy & Ey). apply N.eqb_eq in Ey. subst y. auto.
  - destruct (w_alive w t h) as [[w1 b]| | |] eqn:E; try discriminate. cbn [bind] in H. assert (w1 = w') by congruence. assert (v' = v) by congruence. subst. eapply wx_alive; eauto.
  - assert (w' = w_sync w u t) by congruence. assert (v' = v) by congruence. subst. apply wx_sync. auto.
  - destruct (in_timeb v (base w) t) eqn:It; [|discriminate]. destruct (w_step o w t pick) as [[w1 r]| | |] eqn:E; try discriminate. cbn [bind] in H.
    assert (w1 = w') by congruence. assert (v' = note v w1 t r) by congruence. subst. eapply wx_step; eauto. apply in_timeb_spec. auto.
Qed.
Lemma performs_exec : forall o size threads l w v w' v', wexec o true 1 size threads w v -> performs o (w, v) l = Ok (w', v') -> wexec o true 1 size threads w' v'.
Proof.
  induction l as [|a l IH]; intros w v w' v' X H; cbn [performs] in H.
  - assert (w = w') by congruence. assert (v = v') by congruence. subst. auto.
  - apply bind_Ok in H. destruct H as ([w1 v1] & E & H). eapply IH; [|exact H]. eapply perform_exec; eauto.
Qed.
Lemma whole_exec : forall o size threads l w v, whole o size threads l = Ok (w, v) -> wexec o true 1 size threads w v.
Proof.
  intros o size threads l w v H. unfold whole, begin in H. apply bind_Ok in H. destruct H as (p & E & H). apply bind_Ok in E. destruct E as (w0 & E & E').
  assert (p = (w0, mkv [] [] 1 (repeat 0 threads) (repeat 0 size))) by congruence. subst p. eapply performs_exec; [|exact H]. apply wx_init. auto.
Qed.

(* what is computed of an execution: not the views, which are functions *)
Definition after (o : orders) (size threads : nat) (l : list action) : wstate * view :=
  match whole o size threads l with Ok p => p | _ => (mkW (mks 0 None 0 [] [] []) [] (fun _ => zero) (fun _ _ => 0%nat) (fun _ _ => 0%nat) (fun _ => zero) (fun _ => 0%nat), mkv [] [] 0 [] []) end.
Definition is_Ok {A} (x : outcome A) : bool := match x with Ok _ => true | _ => false end.
Definition is_UB {A} (x : outcome A) : bool := match x with UB => true | _ => false end.
Lemma is_UB_eq : forall A (x : outcome A), is_UB x = true -> x = UB. Proof. intros A [| | |]; cbn; congruence. Qed.
Lemma after_exec : forall o size threads l, is_Ok (whole o size threads l) = true -> wexec o true 1 size threads (fst (after o size threads l)) (snd (after o size threads l)).
Proof.
  intros o size threads l H. unfold after. destruct (whole o size threads l) as [[w v]| | |] eqn:E; try discriminate. eapply whole_exec; eauto.
Qed.

Definition acq (t : nat) : list action := [Acq t None; Go t None; Go t None].
Definition release (t : nat) (h : N) : list action := [Rel t h; Go t None; Go t None; Go t None].

(* thread 1 reuses the slot that thread 0 used and released; in `late` it looked at the head before thread 0 began *)
Definition reuse : list action := acq 0 ++ [Use 0 1 true] ++ release 0 1 ++ [Acq 1 None; Go 1 None].
Definition late : list action := [Acq 1 None; Go 1 None] ++ acq 0 ++ [Use 0 1 true] ++ release 0 1 ++ [Go 1 None; Go 1 None].
Definition racy (o : orders) : list action := if is_UB (w_step o (fst (after o 2 2 reuse)) 1 None) then reuse else late.

(* Which annotations are needed: exactly those of `enough` rule out data races.  So with the full barriers that
   intrin_atomic_add and intrin_atomic_swap are, all four orders on the head could be relaxed, and with the orders on the
   head the free list could be read and written with relaxed operations; one of the two is needed. *)
Theorem C136_orders_exact : forall o, enough o = true <->
  (forall alive extra size threads w v t c pick, sane extra size -> wexec o alive extra size threads w v -> in_time v (base w) t ->
     nth_error (thr (base w)) t = Some c -> c <> Idle -> w_step o w t pick <> UB).
Proof.
  intro o. split.
  - intros. eapply C136_no_data_race; eauto.
  - intro H. destruct (enough o) eqn:E; [auto|exfalso].
    assert (X : is_Ok (whole o 2 2 (racy o)) = true /\ is_UB (w_step o (fst (after o 2 2 (racy o))) 1 None) = true /\
      in_timeb (snd (after o 2 2 (racy o))) (base (fst (after o 2 2 (racy o)))) 1 = true /\
      match nth_error (thr (base (fst (after o 2 2 (racy o))))) 1 with Some (QCas _ _ _) => true | _ => false end = true).
    { destruct o as [[] [] [] [] [] []]; try discriminate E; vm_compute; auto. }
    destruct X as (X1 & X2 & X3 & X4). apply after_exec in X1. apply is_UB_eq in X2. apply in_timeb_spec in X3.
    set (w := fst (after o 2 2 (racy o))) in *. set (v := snd (after o 2 2 (racy o))) in *. clearbody w v.
    destruct (nth_error (thr (base w)) 1) as [c|] eqn:Ec; [|discriminate].
    apply (H true 1%nat 2%nat 2%nat _ _ 1%nat c None ltac:(unfold sane; lia) X1 X3 Ec); [destruct c; discriminate|auto].
Qed.
Example C136_reuse : is_Ok (whole code 2 2 (reuse ++ [Go 1 None; Use 1 65537 true])) = true /\ is_Ok (whole code 2 2 (late ++ [Go 1 None; Use 1 65537 true])) = true
  /\ own (snd (after code 2 2 (late ++ [Go 1 None]))) = [65537] /\ slot 65537 = slot 1.
Proof. vm_compute. auto. Qed.
(* a stale first load is noticed by the compare-exchange *)
Example C136_stale_load : is_Ok (whole code 2 2 (acq 0 ++ [Acq 1 (Some 0%nat); Go 1 None; Go 1 None; Go 1 None; Go 1 None])) = true /\
  own (snd (after code 2 2 (acq 0 ++ [Acq 1 (Some 0%nat); Go 1 None; Go 1 None; Go 1 None; Go 1 None]))) = [2; 1].
Proof. vm_compute. auto. Qed.
(* the element of a handle that is shared may be read by both threads, and released by one of them after waiting for the other *)
Example C136_shared : is_Ok (whole code 2 2 (acq 0 ++ [Sync 0 1; Use 0 1 false; Use 1 1 false; Sync 1 0] ++ release 0 1)) = true /\
  is_Ok (whole code 2 2 (acq 0 ++ [Sync 0 1; Use 0 1 false; Use 1 1 false] ++ release 0 1)) = false.
Proof. vm_compute. auto. Qed.
(* is_alive reads the generation without synchronization: asking about a handle that its owner is releasing is a data race,
   on either side, even if only the owner ever used the element *)
Theorem C136_is_alive_refuted : exists w1 v1 w2 v2 h, wexec code true 1 2 2 w1 v1 /\ wexec code true 1 2 2 w2 v2 /\
  dead v1 = [(h, 1)] /\ is_alive (base w1) h = Ok false /\ w_alive w1 1 h = UB /\
  own v2 = [h] /\ w_release w2 0 h = UB.
Proof.
  exists (fst (after code 2 2 (acq 0 ++ [Sync 0 1; Rel 0 1]))), (snd (after code 2 2 (acq 0 ++ [Sync 0 1; Rel 0 1]))).
  exists (fst (after code 2 2 (acq 0 ++ [Sync 0 1; Alive 1 1]))), (snd (after code 2 2 (acq 0 ++ [Sync 0 1; Alive 1 1]))), 1.
  split; [apply after_exec; vm_compute; auto|]. split; [apply after_exec; vm_compute; auto|]. vm_compute. auto 8.
Qed.

(* two slots acquired and released again: all calls have returned and every slot is free, but thread 1, which is not ordered
   after them, may still load the old head and fail the assertion that the pool is not full *)
Theorem C136_full_report_refuted : exists w v pick, wexec code true 1 2 2 w v /\ own v = [] /\ thr (base w) = [Idle; Idle] /\
  w_acquire code w 1 pick = Contract /\ is_Ok (w_acquire code w 1 None) = true.
Proof.
  exists (fst (after code 2 2 (acq 0 ++ acq 0 ++ release 0 1 ++ release 0 2))), (snd (after code 2 2 (acq 0 ++ acq 0 ++ release 0 1 ++ release 0 2))), (Some 2%nat).
  split; [apply after_exec; vm_compute; auto|]. vm_compute. auto 8.
Qed.

Print Assumptions C136_no_data_race.
Print Assumptions C136_one_owner.
Print Assumptions C136_acquired_usable.
Print Assumptions C136_release.
Print Assumptions C136_includes_sc.
Print Assumptions C136_synchronized_acquire.
Print Assumptions C136_orders_exact.
Print Assumptions C136_is_alive_refuted.
Print Assumptions C136_full_report_refuted.

(* Theorems about the memory orders of spin_lock (C140). *)
From Coq Require Import NArith List Lia Bool Arith.
Import ListNotations.
From Verif Require Import Base SpinModel SpinSpec SpinProofs SpinWeakModel.
Open Scope N_scope.

(* no data race in any execution *)
Definition race_free (o : orders) (threads : nat) : Prop :=
  forall st k, wexec o threads st -> holds st k -> exists st', access st k = Ok st'.

(* ---------- mutual exclusion does not depend on the orders ---------- *)
Definition minv (threads : nat) (st : state) : Prop :=
  length (thr st) = threads /\ length (views st) = threads /\
  (forall j k, holds st j -> holds st k -> j = k) /\
  (flag st = false <-> free st).

Lemma minv_go : forall threads st k c d f fv vs ac, minv threads st -> nth_error (thr st) k = Some d -> length vs = threads ->
  (d <> Held /\ c <> Held /\ f = flag st) \/ (d <> Held /\ c = Held /\ flag st = false /\ f = true) \/ (d = Held /\ c <> Held /\ f = false) ->
  minv threads (mks f fv (lset (thr st) k c) vs ac).
Proof.
  intros threads st k c d f fv vs ac (I1 & I2 & I3 & I4) Hk Lv H. unfold minv, free, holds. cbn [thr views flag].
  rewrite lset_length. split; [auto|]. split; [auto|].
  assert (E : forall j, nth_error (lset (thr st) k c) j = Some Held <-> (j = k /\ c = Held) \/ (j <> k /\ holds st j)).
  { intro j. apply (holds_lset _ _ _ _ _ Hk). }
  destruct H as [(Hd & Hc & ->)|[(Hd & -> & Hf & ->)|(-> & Hc & ->)]].
  - assert (E' : forall j, nth_error (lset (thr st) k c) j = Some Held <-> holds st j).
    { intro j. rewrite E. split; [intros [(_ & X)|(_ & X)]; [congruence|auto]|intro X; right; split; [|auto]; intros ->; unfold holds in X; congruence]. }
    split; [intros a b A B; apply I3; apply E'; auto|]. rewrite I4. unfold free. split; intros F j X; apply (F j), E'; auto.
  - apply I4 in Hf. assert (E' : forall j, nth_error (lset (thr st) k Held) j = Some Held <-> j = k).
    { intro j. rewrite E. split; [intros [(X & _)|(_ & X)]; [auto|exfalso; exact (Hf _ X)]|auto]. }
    split; [intros a b A B; apply E' in A, B; congruence|]. split; [discriminate|]. intro F. exfalso. apply (F k), E'. auto.
  - assert (E' : forall j, nth_error (lset (thr st) k c) j <> Some Held).
    { intros j X. apply E in X. destruct X as [(_ & X)|(X & Y)]; [congruence|]. apply X. apply I3; auto. }
    split; [intros a b A; exfalso; exact (E' _ A)|]. split; auto.
Qed.

Lemma wexec_minv : forall o threads st, wexec o threads st -> minv threads st.
Proof.
  intros o threads st H. induction H.
  - destruct (inv_init threads) as (I1 & I2 & I3 & I4 & I5 & _). split; [auto|]. split; [auto|]. split; [auto|].
    destruct (I5 eq_refl) as (F & _). split; [intros _; exact F|]. intros _. reflexivity.
  - unfold start_lock in H0. destruct (aget (thr st) k) as [[]| | |] eqn:A; try discriminate. apply aget_nth in A.
    injection H0 as <-. unfold go. eapply minv_go; [exact IHwexec|exact A|exact (proj1 (proj2 IHwexec))|left; repeat split; discriminate].
  - unfold start_try in H0. destruct (aget (thr st) k) as [[]| | |] eqn:A; try discriminate. apply aget_nth in A.
    injection H0 as <-. unfold go. eapply minv_go; [exact IHwexec|exact A|exact (proj1 (proj2 IHwexec))|left; repeat split; discriminate].
  - unfold w_step in H0. destruct (aget (thr st) k) as [c| | |] eqn:A; try discriminate. apply aget_nth in A.
    assert (L2 : length (views st) = threads) by exact (proj1 (proj2 IHwexec)).
    assert (X : forall acq old s, w_exchange acq st k = Ok (old, s) ->
              old = flag st /\ exists vs, length vs = threads /\ s = mks true (fview st) (thr st) vs (accs st)).
    { intros acq old s X. unfold w_exchange in X. destruct (aget (views st) k); try discriminate. cbn [bind] in X. injection X as <- <-.
      split; [auto|]. eexists. split; [|reflexivity]. destruct acq; [rewrite lset_length|]; auto. }
    cbn [bind] in H0. destruct c; try discriminate.
    + destruct (w_exchange (o_lock o) st k) as [[old s]| | |] eqn:Y; try discriminate. destruct (X _ _ _ Y) as (-> & vs & Lv & ->).
      cbn [bind] in H0. destruct (flag st) eqn:F; cbn [negb] in H0; injection H0 as <- <-; unfold go; cbn;
        (eapply minv_go; [exact IHwexec|exact A|exact Lv|]); [left|right; left]; repeat split; congruence.
    + destruct seen; injection H0 as <- <-; [auto|]. unfold go. eapply minv_go; [exact IHwexec|exact A|exact L2|left; repeat split; discriminate].
    + destruct seen; injection H0 as <- <-; unfold go; (eapply minv_go; [exact IHwexec|exact A|exact L2|left; repeat split; discriminate]).
    + destruct (w_exchange (o_try o) st k) as [[old s]| | |] eqn:Y; try discriminate. destruct (X _ _ _ Y) as (-> & vs & Lv & ->).
      cbn [bind] in H0. destruct (flag st) eqn:F; cbn [negb] in H0; injection H0 as <- <-; unfold go; cbn;
        (eapply minv_go; [exact IHwexec|exact A|exact Lv|]); [left|right; left]; repeat split; congruence.
  - unfold w_unlock in H0. destruct (aget (thr st) k) as [[]| | |] eqn:A; try discriminate. apply aget_nth in A. cbn [bind] in H0.
    destruct (aget (views st) k); try discriminate. cbn [bind] in H0. injection H0 as <-. unfold go. cbn.
    eapply minv_go; [exact IHwexec|exact A|exact (proj1 (proj2 IHwexec))|right; right; repeat split; discriminate].
  - unfold access in H0. destruct (aget (thr st) k) as [[]| | |] eqn:A; try discriminate. cbn [bind] in H0.
    destruct (aget (views st) k) as [w| | |]; try discriminate. cbn [bind] in H0. destruct (defined (w =? accs st)); try discriminate.
    cbn [bind] in H0. injection H0 as <-. destruct IHwexec as (I1 & I2 & I3 & I4). unfold minv, free, holds. cbn [thr views flag].
    rewrite lset_length. auto.
  - destruct IHwexec as (I1 & I2 & I3 & I4). unfold minv, free, holds. cbn [thr views flag]. rewrite lset_length. auto.
Qed.

(* ================= C140 ================= *)
Theorem C140_mutual_exclusion : forall o threads st j k, wexec o threads st -> holds st j -> holds st k -> j = k.
Proof. intros o threads st j k H. apply wexec_minv in H. apply H. Qed.

(* the machine of the code is that of C53 *)
Lemma step_code : forall st k seen, w_step code st k seen = step st k seen.
Proof. reflexivity. Qed.
Theorem C140_code : forall threads st, exec threads st -> wexec code threads st.
Proof.
  intros threads st H. induction H; [apply wx_init|eapply wx_lock|eapply wx_try|eapply wx_step|eapply wx_unlock|eapply wx_access]; eauto.
Qed.

Lemma inv_sync : forall threads st j k u w, inv threads st -> nth_error (views st) j = Some u -> nth_error (views st) k = Some w ->
  inv threads (mks (flag st) (fview st) (thr st) (lset (views st) k (N.max w u)) (accs st)).
Proof.
  intros threads st j k u w (I1 & I2 & I3 & I4 & I5 & I6 & I7 & I8) Hj Hk. unfold inv, free, holds. cbn [thr views flag fview accs].
  rewrite lset_length. assert (Lk : (k < length (views st))%nat) by (apply nth_error_Some; congruence).
  pose proof (I7 _ _ Hj). pose proof (I7 _ _ Hk). do 5 (split; [auto|]). split; [|split; [|auto]].
  - intros a v A B. destruct (Nat.eq_dec a k) as [->|N].
    + rewrite lset_nth_eq in B by auto. injection B as <-. pose proof (I6 _ _ A Hk). lia.
    + rewrite lset_nth_neq in B by auto. eauto.
  - intros a v B. destruct (Nat.eq_dec a k) as [->|N].
    + rewrite lset_nth_eq in B by auto. injection B as <-. lia.
    + rewrite lset_nth_neq in B by auto. eauto.
Qed.
Theorem C140_no_data_race : forall threads, race_free code threads.
Proof.
  intros threads st k H Hk. assert (I : inv threads st).
  { clear Hk. induction H.
    - apply inv_init.
    - rename H0 into E. unfold start_lock in E. destruct (aget (thr st) k0) as [[]| | |] eqn:Hk; try discriminate. apply aget_nth in Hk.
      injection E as <-. eapply inv_go; eauto; discriminate.
    - rename H0 into E. unfold start_try in E. destruct (aget (thr st) k0) as [[]| | |] eqn:Hk; try discriminate. apply aget_nth in Hk.
      injection E as <-. eapply inv_go; eauto; discriminate.
    - rewrite step_code in H0. eapply inv_step; eauto.
    - eapply inv_unlock; eauto.
    - rename H0 into E. assert (Hk : holds st k0).
      { unfold access in E. unfold holds. destruct (aget (thr st) k0) as [[]| | |] eqn:Hk; try discriminate. apply aget_nth in Hk. auto. }
      destruct (inv_access _ _ _ IHwexec Hk) as (s & E' & I). congruence.
    - eapply inv_sync; eauto. }
  destruct (inv_access _ _ _ I Hk) as (st' & E & _). eauto.
Qed.

(* Without one of the orders two threads race, however many others there are: the first takes the lock (by `first`: lock, or
   try_lock), accesses the data and unlocks; the second takes it by lock or try_lock. *)
Definition start (by_try : bool) (st : state) (k : nat) : outcome state := if by_try then start_try st k else start_lock st k.
Definition take (o : orders) (by_try : bool) (st : state) (k : nat) : outcome state :=
  let! st := start by_try st k in
  let! r := w_step o st k false in
  if by_try then let! r := w_step o (fst r) k false in Ok (fst r) else Ok (fst r).
Lemma take_exec : forall o threads by_try st k st', wexec o threads st -> take o by_try st k = Ok st' -> wexec o threads st'.
Proof.
  intros o threads by_try st k st' H E. unfold take in E. apply bind_Ok in E. destruct E as (s1 & E1 & E).
  assert (H1 : wexec o threads s1) by (unfold start in E1; destruct by_try; [eapply wx_try|eapply wx_lock]; eauto).
  apply bind_Ok in E. destruct E as ((s2 & r2) & E2 & E). assert (H2 : wexec o threads s2) by (eapply wx_step; eauto). destruct by_try.
  - apply bind_Ok in E. destruct E as ((s3 & r3) & E3 & E). injection E as <-. eapply wx_step; eauto.
  - injection E as <-. exact H2.
Qed.
Definition two_holders (o : orders) (a b : bool) (st : state) : outcome state :=
  let! st := take o a st 0 in
  let! st := access st 0 in
  let! st := w_unlock o st 0 in
  take o b st 1.
Lemma two_exec : forall o threads a b st', two_holders o a b (initial threads) = Ok st' -> wexec o threads st'.
Proof.
  intros o threads a b st' E. unfold two_holders in E. apply bind_Ok in E. destruct E as (s1 & E1 & E).
  apply bind_Ok in E. destruct E as (s2 & E2 & E). apply bind_Ok in E. destruct E as (s3 & E3 & E).
  eapply take_exec; [|exact E]. eapply wx_unlock; [|exact E3]. eapply wx_access; [|exact E2]. eapply take_exec; [apply wx_init|exact E1].
Qed.
(* exactly when the access of the second holder races *)
Theorem C140_race : forall o n a b, exists st, two_holders o a b (initial (S (S n))) = Ok st /\ wexec o (S (S n)) st /\ holds st 1 /\
  (access st 1 = UB <-> o_unlock o = false \/ (if b then o_try o else o_lock o) = false) /\ access st 1 <> Contract /\ access st 1 <> OutOfFuel.
Proof.
  intros [l t u] n a b. assert (X : exists st, two_holders (mko l t u) a b (initial (S (S n))) = Ok st /\ holds st 1 /\
    (access st 1 = UB <-> u = false \/ (if b then t else l) = false) /\ access st 1 <> Contract /\ access st 1 <> OutOfFuel).
  { destruct l, t, u, a, b; (eexists; split; [reflexivity|]; split; [reflexivity|]; split; [|split; discriminate]);
      cbn; split; auto; try discriminate; intros [?|?]; discriminate. }
  destruct X as (st & E & X). exists st. split; [exact E|]. split; [eapply two_exec; exact E|exact X].
Qed.
(* the orders of the code are exactly those that are needed *)
Theorem C140_orders_exact : forall o threads, (2 <= threads)%nat -> (race_free o threads <-> o = code).
Proof.
  intros o [|[|n]] T; [lia|lia|]. split; [|intros ->; apply C140_no_data_race]. intro R.
  assert (G : forall b : bool, o_unlock o = true /\ (if b then o_try o else o_lock o) = true).
  { intro b. destruct (C140_race o n false b) as (st & _ & E & H & X & _). destruct (R _ _ E H) as (st' & A). rewrite A in X.
    destruct (o_unlock o); [|exfalso; assert (Ok st' = UB) by (apply X; auto); discriminate].
    split; [auto|]. destruct (if b then o_try o else o_lock o); [auto|]. exfalso. assert (Ok st' = UB) by (apply X; auto). discriminate. }
  destruct o as [l t u]. cbn in G. destruct (G true) as (-> & ->). destruct (G false) as (_ & ->). reflexivity.
Qed.
(* a single thread needs none *)
Theorem C140_one_thread : forall o, race_free o 1.
Proof.
  intros o st k H Hk. assert (I : exists f fv c, st = mks f fv [c] [accs st] (accs st) /\ fv <= accs st).
  { clear Hk k. induction H.
    - exists false, 0, Out. split; [reflexivity|]. cbn. lia.
    - destruct IHwexec as (f & fv & c & E & L). destruct st as [f0 v0 t0 w0 a0]. cbn [accs] in *. injection E as -> -> -> ->. destruct k as [|[|k]], c; try discriminate. injection H0 as <-. cbn [go accs thr flag fview views]. do 3 eexists; split; [reflexivity|]. cbn [fview]. lia.
    - destruct IHwexec as (f & fv & c & E & L). destruct st as [f0 v0 t0 w0 a0]. cbn [accs] in *. injection E as -> -> -> ->. destruct k as [|[|k]], c; try discriminate. injection H0 as <-. cbn [go accs thr flag fview views]. do 3 eexists; split; [reflexivity|]. cbn [fview]. lia.
    - destruct IHwexec as (f & fv & c & E & L). destruct st as [f0 v0 t0 w0 a0]. cbn [accs] in *. injection E as -> -> -> ->.
      assert (M : N.max a0 fv = a0) by lia.
      destruct k as [|[|k]], c, f, seen; try discriminate; cbn in H0; rewrite ?M in H0; destruct (o_lock o), (o_try o); injection H0 as <- <-; cbn [go accs thr flag fview views]; (do 3 eexists; split; [reflexivity|]); cbn [fview]; lia.
    - destruct IHwexec as (f & fv & c & E & L). destruct st as [f0 v0 t0 w0 a0]. cbn [accs] in *. injection E as -> -> -> ->. destruct k as [|[|k]], c; try discriminate. injection H0 as <-. cbn [go accs thr flag fview views]. do 3 eexists; split; [reflexivity|]. cbn [fview]. destruct (o_unlock o); lia.
    - destruct IHwexec as (f & fv & c & E & L). destruct st as [f0 v0 t0 w0 a0]. cbn [accs] in *. injection E as -> -> -> ->. destruct k as [|[|k]], c; try discriminate. unfold access in H0. cbn in H0.
      rewrite N.eqb_refl in H0. injection H0 as <-. cbn [go accs thr flag fview views]. do 3 eexists; split; [reflexivity|]. cbn [fview]. lia.
    - destruct IHwexec as (f & fv & c & E & L). destruct st as [f0 v0 t0 w0 a0]. cbn [accs] in *. injection E as -> -> -> ->. destruct j as [|[|]], k as [|[|]]; try discriminate.
      injection H0 as <-. injection H1 as <-. rewrite N.max_id. cbn [go accs thr flag fview views]. do 3 eexists; split; [reflexivity|]. exact L. }
  destruct I as (f & fv & c & E & _). rewrite E in Hk |- *. destruct k as [|[|k]]; try discriminate. cbn in Hk. injection Hk as ->.
  unfold access. cbn. rewrite N.eqb_refl. eexists. reflexivity.
Qed.

(* non-vacuity *)
Example C140_ex : exists st, wexec code 3 st /\ holds st 1 /\ accs st = 1 /\ access st 1 <> UB.
Proof.
  destruct (C140_race code 1 true true) as (st & E & X & H & _). exists st. split; [exact X|]. split; [exact H|].
  vm_compute in E. injection E as <-. split; [reflexivity|discriminate].
Qed.
(* ordering by other means makes a relaxed lock safe *)
Example C140_sync : exists st, wexec (mko false false false) 2 st /\ holds st 1 /\ accs st = 1 /\ access st 1 <> UB.
Proof.
  destruct (C140_race (mko false false false) 0 false false) as (st & E & X & H & _).
  vm_compute in E. injection E as <-. eexists. split; [eapply (wx_sync _ _ _ 0 1); [exact X|reflexivity|reflexivity]|].
  split; [reflexivity|]. split; [reflexivity|discriminate].
Qed.

Print Assumptions C140_mutual_exclusion.
Print Assumptions C140_code.
Print Assumptions C140_race.
Print Assumptions C140_orders_exact.
Print Assumptions C140_one_thread.

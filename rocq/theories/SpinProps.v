(* Theorems about spin_lock (C53). *)
From Coq Require Import NArith List Lia Bool Arith.
Import ListNotations.
From Verif Require Import Base SpinModel SpinSpec SpinProofs.
Open Scope N_scope.

(* at most one thread holds the lock *)
Theorem C53_mutual_exclusion : forall threads st j k, exec threads st -> holds st j -> holds st k -> j = k.
Proof. intros threads st j k H. apply exec_inv in H. destruct H as (_ & _ & I3 & _). auto. Qed.

(* The lock orders the accesses to the data it protects: no access of a holder races with an earlier one,
   whatever relaxed loads return. *)
Theorem C53_no_data_race : forall threads st k, exec threads st -> holds st k -> exists st', access st k = Ok st'.
Proof. intros threads st k H Hk. apply exec_inv in H. destruct (inv_access _ _ _ H Hk) as (st' & E & _). eauto. Qed.

(* A try_lock at its exchange succeeds exactly if the lock is free, and the thread then holds it; a
   try_lock that saw the flag set returns false. *)
Theorem C53_try_lock_exact : forall threads st k seen, exec threads st -> nth_error (thr st) k = Some TXchg ->
  exists st' b, step st k seen = Ok (st', Some b) /\ (b = true <-> free st) /\ (b = true <-> holds st' k).
Proof.
  intros threads st k seen H Hk. apply exec_inv in H. pose proof H as (I1 & I2 & _ & I4 & I5 & _).
  assert (Lk : (k < length (thr st))%nat) by (apply nth_error_Some; congruence).
  unfold step. rewrite (nth_aget _ _ _ _ Hk). cbn [bind].
  destruct (nth_error (views st) k) as [w|] eqn:Hw; [|apply nth_error_None in Hw; lia].
  unfold exchange. rewrite (nth_aget _ _ _ _ Hw). cbn [bind]. destruct (flag st) eqn:F; cbn [negb].
  - do 2 eexists. split; [reflexivity|]. split; split; try discriminate.
    + intro X. destruct (I4 eq_refl) as (j & J). exfalso. exact (X j J).
    + unfold holds, go. cbn [thr]. rewrite lset_nth_eq by auto. discriminate.
  - do 2 eexists. split; [reflexivity|]. split; split; auto.
    + intros _. apply I5. auto.
    + intros _. unfold holds, go. cbn [thr]. apply lset_nth_eq. auto.
Qed.
Theorem C53_try_lock_busy : forall threads st k seen, exec threads st -> nth_error (thr st) k = Some TLoad ->
  exists st', step st k seen = Ok (st', if seen then Some false else None) /\
  nth_error (thr st') k = Some (if seen then Out else TXchg).
Proof.
  intros threads st k seen H Hk. assert (Lk : (k < length (thr st))%nat) by (apply nth_error_Some; congruence).
  unfold step. rewrite (nth_aget _ _ _ _ Hk). cbn [bind].
  destruct seen; eexists; (split; [reflexivity|]); cbn; apply lset_nth_eq; auto.
Qed.

(* lock returns (the thread holds the lock) only by an exchange at a moment when the lock was free *)
Theorem C53_lock_waits : forall threads st k seen st' r, exec threads st -> ~ holds st k ->
  step st k seen = Ok (st', r) -> holds st' k -> free st.
Proof.
  intros threads st k seen st' r H Nk E Hh. apply exec_inv in H. unfold step in E.
  destruct (aget (thr st) k) as [c| | |] eqn:Hk; try discriminate. cbn [bind] in E. apply aget_nth in Hk.
  assert (Lk : (k < length (thr st))%nat) by (apply nth_error_Some; congruence).
  assert (G : forall s c', thr s = thr st -> c' <> Held -> ~ holds (go s k c') k).
  { intros s c' T N X. unfold holds, go in X. cbn [thr] in X. rewrite T, lset_nth_eq in X by auto. congruence. }
  destruct c; try discriminate.
  - destruct (exchange st k) as [[old s]| | |] eqn:X; try discriminate. cbn [bind] in E.
    destruct (inv_xchg _ _ _ _ _ _ H Hk ltac:(discriminate) X) as (_ & Y). destruct old; cbn [negb] in E; [|apply Y].
    exfalso. assert (st' = go s k LLoad) by congruence. subst. refine (G _ _ _ _ Hh); [|discriminate].
    unfold exchange in X. destruct (aget (views st) k); try discriminate. cbn [bind] in X. injection X as _ <-. auto.
  - exfalso. destruct seen; [assert (st' = st) by congruence; subst; auto|].
    assert (st' = go st k LXchg) by congruence. subst. refine (G _ _ _ _ Hh); [auto|discriminate].
  - exfalso. destruct seen; [assert (st' = go st k Out) by congruence|assert (st' = go st k TXchg) by congruence]; subst;
      (refine (G _ _ _ _ Hh); [auto|discriminate]).
  - destruct (exchange st k) as [[old s]| | |] eqn:X; try discriminate. cbn [bind] in E.
    destruct (inv_xchg _ _ _ _ _ _ H Hk ltac:(discriminate) X) as (_ & Y). destruct old; cbn [negb] in E; [|apply Y].
    exfalso. assert (st' = go s k Out) by congruence. subst. refine (G _ _ _ _ Hh); [|discriminate].
    unfold exchange in X. destruct (aget (views st) k); try discriminate. cbn [bind] in X. injection X as _ <-. auto.
Qed.

(* no deadlock: if the lock is free, a thread in lock gets it within two steps of its own when running alone *)
Theorem C53_free_lock_is_taken : forall threads st k, exec threads st -> free st ->
  nth_error (thr st) k = Some LXchg \/ nth_error (thr st) k = Some LLoad ->
  exists st', alone st k 2 = Ok st' /\ holds st' k.
Proof.
  intros threads st k H F Hk. apply exec_inv in H. destruct H as (I1 & I2 & _ & I4 & _).
  assert (Ff : flag st = false). { destruct (flag st) eqn:E; auto. destruct (I4 eq_refl) as (j & J). exfalso. exact (F j J). }
  assert (Lk : (k < length (thr st))%nat) by (apply nth_error_Some; destruct Hk as [Hk|Hk]; congruence).
  destruct (nth_error (views st) k) as [w|] eqn:Hw; [|apply nth_error_None in Hw; lia].
  assert (G : forall s n, nth_error (thr s) k = Some LXchg -> flag s = false -> views s = views st -> length (thr s) = length (thr st) ->
    exists st', alone s k (S n) = Ok st' /\ holds st' k).
  { intros s n Hs Fs Vs Ls. cbn [alone]. rewrite Hs. unfold step, exchange. rewrite (nth_aget _ _ _ _ Hs). cbn [bind].
    rewrite Vs, (nth_aget _ _ _ _ Hw). cbn [bind]. rewrite Fs. cbn [negb bind fst].
    assert (X : forall s' m, nth_error (thr s') k = Some Held -> alone s' k m = Ok s').
    { intros s' m Z. destruct m; cbn [alone]; [auto|rewrite Z; auto]. }
    eexists. split; [apply X|]; unfold holds; cbn [go thr]; apply lset_nth_eq; lia. }
  destruct Hk as [Hk|Hk]; [apply G; auto|].
  change 2%nat with (S 1). remember 1%nat as m. cbn [alone]. rewrite Hk. unfold step. rewrite (nth_aget _ _ _ _ Hk). cbn [bind].
  rewrite Ff. cbn [bind fst]. subst m. apply G; auto.
  - cbn. apply lset_nth_eq. auto.
  - cbn. apply lset_length.
Qed.

(* non-vacuity: two threads contend, the loser waits, gets the lock after unlock and may access the data *)
Example C53_ex : exists st, exec 2 st /\ holds st 1 /\ accs st = 1 /\ fview st = 1.
Proof.
  eexists. split.
  - eapply x_step with (k := 1%nat) (seen := false).
    eapply x_step with (k := 1%nat) (seen := false).
    eapply x_unlock with (k := 0%nat).
    eapply x_access with (k := 0%nat).
    eapply x_step with (k := 1%nat) (seen := true).
    eapply x_step with (k := 1%nat) (seen := false).
    eapply x_step with (k := 0%nat) (seen := false).
    eapply x_lock with (k := 1%nat).
    eapply x_lock with (k := 0%nat). apply x_init. all: reflexivity.
  - repeat split; reflexivity.
Qed.
Example C53_try_ex : exists st, exec 2 st /\ holds st 0 /\ nth_error (thr st) 1 = Some TXchg.
Proof.
  eexists. split.
  - eapply x_step with (k := 0%nat) (seen := false).
    eapply x_step with (k := 1%nat) (seen := false).
    eapply x_try with (k := 1%nat).
    eapply x_lock with (k := 0%nat). apply x_init. all: reflexivity.
  - repeat split; reflexivity.
Qed.

Print Assumptions C53_mutual_exclusion.
Print Assumptions C53_no_data_race.
Print Assumptions C53_try_lock_exact.
Print Assumptions C53_try_lock_busy.
Print Assumptions C53_lock_waits.
Print Assumptions C53_free_lock_is_taken.

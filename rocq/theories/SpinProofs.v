From Coq Require Import NArith List Lia Bool Arith.
Import ListNotations.
From Verif Require Import Base SpinModel SpinSpec.
Open Scope N_scope.

Definition inv (threads : nat) (st : state) : Prop :=
  length (thr st) = threads /\ length (views st) = threads /\
  (forall j k, holds st j -> holds st k -> j = k) /\
  (flag st = true -> exists k, holds st k) /\
  (flag st = false -> free st /\ fview st = accs st) /\
  (forall k w, holds st k -> nth_error (views st) k = Some w -> w = accs st) /\
  (forall k w, nth_error (views st) k = Some w -> w <= accs st) /\
  fview st <= accs st.

Lemma aget_nth : forall (A : Type) (l : list A) k x, aget l k = Ok x -> nth_error l k = Some x.
Proof. intros A l k x. unfold aget. destruct (nth_error l k); congruence. Qed.
Lemma nth_aget : forall (A : Type) (l : list A) k x, nth_error l k = Some x -> aget l k = Ok x.
Proof. intros A l k x H. unfold aget. rewrite H. auto. Qed.

Lemma holds_lset : forall l k c j d, nth_error l k = Some d ->
  (nth_error (lset l k c) j = Some Held <-> (j = k /\ c = Held) \/ (j <> k /\ nth_error l j = Some Held)).
Proof.
  intros l k c j d H. assert (Hk : (k < length l)%nat) by (apply nth_error_Some; congruence).
  destruct (Nat.eq_dec j k) as [->|N].
  - rewrite lset_nth_eq by auto. split; [intro X; left; split; congruence|intros [(_ & ->)|(X & _)]; congruence].
  - rewrite lset_nth_neq by auto. split; [auto|intros [(X & _)|(_ & X)]; congruence].
Qed.

Lemma inv_init : forall threads, inv threads (initial threads).
Proof.
  intro threads. unfold inv, initial, holds, free, holds. cbn [thr views flag fview accs]. rewrite !repeat_length.
  assert (N : forall k, nth_error (repeat Out threads) k <> Some Held).
  { intros k X. apply nth_error_In in X. apply repeat_spec in X. discriminate. }
  repeat split; try lia; auto; try (intros; exfalso; eapply N; eauto; fail); try discriminate.
  - intros k w X. apply nth_error_In, repeat_spec in X. subst. lia.
Qed.

(* moving between states other than Held *)
Lemma inv_go : forall threads st k c d, inv threads st -> nth_error (thr st) k = Some d -> d <> Held -> c <> Held ->
  inv threads (go st k c).
Proof.
  intros threads st k c d (I1 & I2 & I3 & I4 & I5 & I6 & I7 & I8) Hk Hd Hc.
  assert (E : forall j, holds (go st k c) j <-> holds st j).
  { intro j. unfold holds, go. cbn [thr]. rewrite (holds_lset _ _ _ _ _ Hk). split.
    - intros [(_ & X)|(_ & X)]; [congruence|auto].
    - intro X. right. split; auto. intros ->. congruence. }
  unfold inv. replace (length (thr (go st k c))) with threads by (cbn; rewrite lset_length; auto).
  change (views (go st k c)) with (views st). change (accs (go st k c)) with (accs st).
  change (flag (go st k c)) with (flag st). change (fview (go st k c)) with (fview st).
  split; [auto|]. split; [auto|]. split; [intros a b A B; apply I3; apply E; auto|].
  split; [intro X; destruct (I4 X) as (a & A); exists a; apply E; auto|].
  split; [intro X; destruct (I5 X) as (A & B); split; [intros a Ha; apply (A a), E; auto|auto]|].
  split; [intros a w A B; apply (I6 a w); [apply E; auto|auto]|]. auto.
Qed.

(* an exchange that found the flag set changes no view that matters, one that found it clear takes the lock *)
Lemma inv_xchg : forall threads st k d old st', inv threads st -> nth_error (thr st) k = Some d -> d <> Held ->
  exchange st k = Ok (old, st') ->
  old = flag st /\ (if old then forall c, c <> Held -> inv threads (go st' k c)
                    else free st /\ inv threads (go st' k Held)).
Proof.
  intros threads st k d old st' (I1 & I2 & I3 & I4 & I5 & I6 & I7 & I8) Hk Hd H. unfold exchange in H.
  destruct (aget (views st) k) as [w| | |] eqn:Hw; try discriminate. cbn [bind] in H. apply aget_nth in Hw.
  assert (old = flag st) by congruence. split; [auto|].
  assert (st' = mks true (fview st) (thr st) (lset (views st) k (N.max w (fview st))) (accs st)) by congruence. subst st'. clear H.
  assert (Lk : (k < length (views st))%nat) by (apply nth_error_Some; congruence).
  assert (V : forall j u, nth_error (lset (views st) k (N.max w (fview st))) j = Some u -> u <= accs st).
  { intros j u X. destruct (Nat.eq_dec j k) as [->|N].
    - rewrite lset_nth_eq in X by auto. pose proof (I7 _ _ Hw). assert (u = N.max w (fview st)) by congruence. lia.
    - rewrite lset_nth_neq in X by auto. eauto. }
  destruct old.
  - intros c Hc.
    assert (E : forall j, nth_error (lset (thr st) k c) j = Some Held <-> holds st j).
    { intro j. rewrite (holds_lset _ _ _ _ _ Hk). unfold holds. split.
      - intros [(_ & X)|(_ & X)]; [congruence|auto].
      - intro X. right. split; auto. intros ->. congruence. }
    unfold inv, go, free, holds. cbn [thr views flag fview accs]. rewrite !lset_length.
    split; [auto|]. split; [auto|]. split; [intros a b A B; apply I3; apply E; auto|].
    split; [intro X; destruct (I4 (eq_sym H0)) as (a & A); exists a; apply E; auto|].
    split; [discriminate|]. split; [|split; [exact V|auto]].
    intros j u A B. apply E in A. destruct (Nat.eq_dec j k) as [->|N]; [unfold holds in A; congruence|].
    rewrite lset_nth_neq in B by auto. eauto.
  - destruct (I5 (eq_sym H0)) as (F & Fv). split; [exact F|].
    assert (E : forall j, nth_error (lset (thr st) k Held) j = Some Held <-> j = k).
    { intro j. rewrite (holds_lset _ _ _ _ _ Hk). split.
      - intros [(X & _)|(_ & X)]; [auto|exfalso; exact (F j X)].
      - intros ->. left. auto. }
    unfold inv, go, free, holds. cbn [thr views flag fview accs]. rewrite !lset_length.
    split; [auto|]. split; [auto|]. split; [intros a b A B; apply E in A, B; congruence|].
    split; [intros _; exists k; apply E; auto|]. split; [discriminate|]. split; [|split; [exact V|auto]].
    intros j u A B. apply E in A. subst j. rewrite lset_nth_eq in B by auto. pose proof (I7 _ _ Hw).
    assert (u = N.max w (fview st)) by congruence. lia.
Qed.

Lemma inv_step : forall threads st k seen st' r, inv threads st -> step st k seen = Ok (st', r) -> inv threads st'.
Proof.
  intros threads st k seen st' r I H. unfold step in H. destruct (aget (thr st) k) as [c| | |] eqn:Hk; try discriminate.
  cbn [bind] in H. apply aget_nth in Hk. destruct c; try discriminate.
  - destruct (exchange st k) as [[old s]| | |] eqn:X; try discriminate. cbn [bind] in H.
    destruct (inv_xchg _ _ _ _ _ _ I Hk ltac:(discriminate) X) as (_ & Y). destruct old; cbn [negb] in H.
    + assert (st' = go s k LLoad) by congruence. subst. apply Y. discriminate.
    + assert (st' = go s k Held) by congruence. subst. apply Y.
  - destruct seen; [congruence|]. assert (st' = go st k LXchg) by congruence. subst. eapply inv_go; eauto; discriminate.
  - destruct seen; [assert (st' = go st k Out) by congruence|assert (st' = go st k TXchg) by congruence]; subst;
      eapply inv_go; eauto; discriminate.
  - destruct (exchange st k) as [[old s]| | |] eqn:X; try discriminate. cbn [bind] in H.
    destruct (inv_xchg _ _ _ _ _ _ I Hk ltac:(discriminate) X) as (_ & Y). destruct old; cbn [negb] in H.
    + assert (st' = go s k Out) by congruence. subst. apply Y. discriminate.
    + assert (st' = go s k Held) by congruence. subst. apply Y.
Qed.

Lemma inv_unlock : forall threads st k st', inv threads st -> unlock st k = Ok st' -> inv threads st'.
Proof.
  intros threads st k st' (I1 & I2 & I3 & I4 & I5 & I6 & I7 & I8) H. unfold unlock in H.
  destruct (aget (thr st) k) as [c| | |] eqn:Hk; try discriminate. cbn [bind] in H. apply aget_nth in Hk.
  destruct c; try discriminate. destruct (aget (views st) k) as [w| | |] eqn:Hw; try discriminate. cbn [bind] in H.
  apply aget_nth in Hw. pose proof (I6 _ _ Hk Hw) as Ew.
  assert (st' = go (mks false w (thr st) (views st) (accs st)) k Out) by congruence. subst st'.
  assert (E : forall j, nth_error (lset (thr st) k Out) j <> Some Held).
  { intros j X. apply (holds_lset _ _ _ _ _ Hk) in X. destruct X as [(_ & X)|(X & Y)]; [discriminate|]. apply X. apply I3; auto. }
  unfold inv, go, free, holds. cbn [thr views flag fview accs]. rewrite !lset_length.
  split; [auto|]. split; [auto|]. split; [intros a b A; exfalso; eapply E; eauto|]. split; [discriminate|].
  split; [intros _; split; auto|]. split; [intros a u A; exfalso; eapply E; eauto|]. split; [auto|]. lia.
Qed.

Lemma inv_access : forall threads st k, inv threads st -> holds st k -> exists st', access st k = Ok st' /\ inv threads st'.
Proof.
  intros threads st k (I1 & I2 & I3 & I4 & I5 & I6 & I7 & I8) Hk.
  assert (Lk : (k < length (views st))%nat) by (rewrite I2, <- I1; apply nth_error_Some; unfold holds in Hk; congruence).
  destruct (nth_error (views st) k) as [w|] eqn:Hw; [|apply nth_error_None in Hw; lia].
  pose proof (I6 _ _ Hk Hw) as Ew. subst w.
  unfold access. rewrite (nth_aget _ _ _ _ Hk). cbn [bind]. rewrite (nth_aget _ _ _ _ Hw). cbn [bind].
  rewrite N.eqb_refl. cbn [defined bind]. eexists. split; [reflexivity|].
  unfold inv, free, holds. cbn [thr views flag fview accs]. rewrite lset_length.
  split; [auto|]. split; [auto|]. split; [exact I3|]. split; [exact I4|].
  split; [intro X; destruct (I5 X) as (F & _); exfalso; exact (F k Hk)|].
  split.
  - intros j u A B. assert (j = k) by (apply I3; auto). subst j. rewrite lset_nth_eq in B by auto. congruence.
  - split; [|lia]. intros j u B. destruct (Nat.eq_dec j k) as [->|N].
    + rewrite lset_nth_eq in B by auto. assert (u = accs st + 1) by congruence. lia.
    + rewrite lset_nth_neq in B by auto. pose proof (I7 _ _ B). lia.
Qed.

Lemma exec_inv : forall threads st, exec threads st -> inv threads st.
Proof.
  intros threads st H. induction H as [|st k st' X IH H|st k st' X IH H|st k seen st' r X IH H|st k st' X IH H|st k st' X IH H].
  - apply inv_init.
  - unfold start_lock in H. destruct (aget (thr st) k) as [c| | |] eqn:Hk; try discriminate. cbn [bind] in H. apply aget_nth in Hk.
    destruct c; try discriminate. assert (st' = go st k LXchg) by congruence. subst. eapply inv_go; eauto; discriminate.
  - unfold start_try in H. destruct (aget (thr st) k) as [c| | |] eqn:Hk; try discriminate. cbn [bind] in H. apply aget_nth in Hk.
    destruct c; try discriminate. assert (st' = go st k TLoad) by congruence. subst. eapply inv_go; eauto; discriminate.
  - eapply inv_step; eauto.
  - eapply inv_unlock; eauto.
  - assert (Hk : holds st k). { unfold access in H. unfold holds. destruct (aget (thr st) k) as [c| | |] eqn:Hk; try discriminate.
      cbn [bind] in H. apply aget_nth in Hk. destruct c; try discriminate. auto. }
    destruct (inv_access _ _ _ IH Hk) as (s & E & I). congruence.
Qed.

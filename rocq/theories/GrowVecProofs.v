(* Capacities of a vector under the operations of its model. *)
From Coq Require Import NArith List Lia Bool Arith.
From Verif Require Import Base Cells GrowSpec GrowProofs VecModel.
Import ListNotations.
Open Scope N_scope.

Section V.
  Context {A : Type}.
  Variable m : N.
  Hypothesis Hm : m < 2 ^ 62.
  Let P62 : 2 ^ 62 * 2 = 2 ^ 63. Proof. reflexivity. Qed.
  Let P63 : 2 ^ 63 * 2 = 2 ^ 64. Proof. reflexivity. Qed.

  Definition ok (v : vec A) : Prop := size v <= cap v /\ cap v <= 2 * m.

  Lemma reserve_cap : forall v v' n, ok v -> n <= m -> reserve v n = Ok v' ->
    size v' = size v /\ n <= cap v' /\ ok v' /\ doubles (cap v) (cap v').
  Proof.
    intros v v' n [S C] Q H. unfold reserve in H. apply bind_Ok in H. destruct H as [_ [_ H]].
    destruct (N.leb_spec n (cap v)) as [L|L].
    - injection H as <-. unfold ok, doubles. repeat split; auto.
    - rewrite shl1 in H by lia. cbv zeta in H.
      set (nc := if 2 * cap v <? n then n else 2 * cap v) in H. assert (NC : nc = N.max (2 * cap v) n) by (unfold nc; destruct (N.ltb_spec (2 * cap v) n); lia).
      clearbody nc. apply bind_Ok in H. destruct H as [nd [_ H]]. injection H as <-. unfold ok, doubles. cbn [size cap].
      repeat split; lia.
  Qed.

  Lemma emplace_cap : forall v v' a, ok v -> size v' <= m -> emplace_back v a = Ok v' -> ok v' /\ doubles (cap v) (cap v').
  Proof.
    intros v v' a [S C] Q H. unfold emplace_back in H. destruct (N.eqb_spec (size v) (cap v)) as [E|E]; inv H; injection H as <-; cbn [size cap] in *;
      unfold ok, doubles; cbn [size cap]; rewrite wadd_small in * by lia.
    - destruct (N.eqb_spec (cap v) 0) as [Z|Z].
      + repeat split; lia.
      + rewrite shl1 by lia. repeat split; lia.
    - repeat split; lia.
  Qed.

  Lemma remove_loop_idx : forall p n i idx (d : list (cell A)) d' idx', remove_loop p n i idx d = Ok (d', idx') -> (idx' <= idx + n)%nat.
  Proof.
    induction n as [|n IH]; intros i idx d d' idx' H; cbn [remove_loop] in H; [injection H as <- <-; lia|].
    apply bind_Ok in H. destruct H as [x [_ H]]. destruct (p x).
    - apply IH in H. lia.
    - apply bind_Ok in H. destruct H as [d1 [_ H]]. apply IH in H. lia.
  Qed.

  Lemma smaller : forall (v : vec A) d s, ok v -> s <= size v -> ok (mkV d s (cap v)) /\ doubles (cap v) (cap (mkV d s (cap v))).
  Proof. intros v d s [S C] H. unfold ok, doubles. cbn [size cap]. repeat split; auto. lia. Qed.
  Lemma same : forall (v : vec A), ok v -> ok v /\ doubles (cap v) (cap v).
  Proof. intros. unfold doubles. auto. Qed.
  Lemma pop_small : forall (v : vec A), ok v -> (0 <? size v) = true -> wsub 64 (size v) 1 <= size v.
  Proof. intros v [S C] H. apply N.ltb_lt in H. rewrite wsub_ge; lia. Qed.

  Lemma remove_at_cap : forall (v v' : vec A) i, ok v -> remove_at v i = Ok v' -> ok v' /\ doubles (cap v) (cap v').
  Proof.
    intros v v' i I H. unfold remove_at in H. inv H. apply contract_Ok in E. apply N.ltb_lt in E.
    injection H as <-. apply smaller; auto. apply pop_small; auto. apply N.ltb_lt. lia.
  Qed.
  Lemma remove_un_cap : forall (v v' : vec A) i, ok v -> remove_at_unordered v i = Ok v' -> ok v' /\ doubles (cap v) (cap v').
  Proof.
    intros v v' i I H. unfold remove_at_unordered, pop_back in H. cbn [size data cap] in H. inv H. apply contract_Ok in E. apply N.ltb_lt in E.
    injection H as <-. apply smaller; auto. apply pop_small; auto. apply N.ltb_lt. lia.
  Qed.

  Lemma step_cap : forall v o v' r, ok v -> vasks o <= m /\ vno_wrap o -> step v o = Ok (v', r) -> size v' <= m ->
    ok v' /\ doubles (cap v) (cap v').
  Proof.
    intros v o v' r I [Q W] H B. pose proof I as [S C].
    destruct o; cbn [step vasks vno_wrap] in *; unfold ru, rv, rr in H.
    - inv H. injection H as <- _. eapply emplace_cap; eauto.
    - inv H. injection H as <- _. eapply emplace_cap; eauto.
    - inv H. injection H as <- _. unfold push_back_range in E. destruct vs as [|x vs]; [injection E as <-; apply same; auto|].
      inv E. injection E as <-. cbn [size cap] in *.
      match type of E0 with reserve _ ?n = _ => assert (L : n <= m) end.
      { pose proof E0 as E0'. unfold reserve in E0'. inv E0'. destruct (_ <=? cap v) in E0'; [injection E0' as <-; auto|].
        inv E0'. injection E0' as <-. cbn [size] in *. auto. }
      destruct (reserve_cap _ _ _ I L E0) as [SZ [NC [[I1 I2] D]]]. rewrite SZ in *. unfold ok. cbn [size cap]. auto.
    - inv H. injection H as <- _. unfold insert_range_at in E. inv E. destruct vs as [|x vs]; [injection E as <-; apply same; auto|].
      inv E. injection E as <-. cbn [size cap] in *.
      match goal with E : reserve v ?n = Ok _ |- _ => rename E into ER; assert (L : n <= m) end.
      { pose proof ER as E0'. unfold reserve in E0'. inv E0'. destruct (_ <=? cap v) in E0'; [injection E0' as <-; auto|].
        inv E0'. injection E0' as <-. cbn [size] in *. auto. }
      destruct (reserve_cap _ _ _ I L ER) as [SZ [NC [[I1 I2] D]]]. rewrite SZ in *. unfold ok. cbn [size cap]. auto.
    - inv H. injection H as <- _. unfold pop_back in E. inv E. apply contract_Ok in E0. injection E as <-. apply smaller; auto. apply pop_small; auto.
    - inv H. injection H as <- _. unfold get_and_pop_back in E. inv E. apply contract_Ok in E0. injection E as _ <-. apply smaller; auto. apply pop_small; auto.
    - inv H. injection H as <- _. destruct (reserve_cap _ _ _ I Q E) as [_ [_ [I' D]]]. auto.
    - inv H. injection H as <- _. unfold resize in E. apply bind_Ok in E. destruct E as [w [EW E]]. inv E. injection E as <-. cbn [size cap] in *.
      destruct (N.ltb_spec (cap v) n) as [L|L].
      + destruct (reserve_cap _ _ _ I Q EW) as [SZ [NC [[I1 I2] D]]]. unfold ok. cbn [size cap]. auto.
      + injection EW as <-. unfold ok, doubles. cbn [size cap]. auto.
    - inv H. injection H as <- _. unfold clear in E. inv E. injection E as <-. apply smaller; auto. lia.
    - inv H. injection H as <- _. unfold remove_all in E. apply bind_Ok in E. destruct E as [[d idx] [ER E]]. inv E. injection E as _ <-.
      apply smaller; auto. apply remove_loop_idx in ER. lia.
    - inv H. injection H as <- _. unfold remove_first in E. apply bind_Ok in E. destruct E as [[i|] [EF E]]; [|injection E as _ <-; apply same; auto].
      inv E. injection E as _ <-. eapply remove_at_cap; eauto.
    - inv H. injection H as <- _. unfold remove_first_unordered in E. apply bind_Ok in E. destruct E as [[i|] [EF E]]; [|injection E as _ <-; apply same; auto].
      inv E. injection E as _ <-. eapply remove_un_cap; eauto.
    - inv H. injection H as <- _. unfold remove_range in E. destruct (n =? 0); [injection E as <-; apply same; auto|].
      inv E. injection E as <-. apply contract_Ok in E1. apply N.leb_le in E1. rewrite wadd_small in E1 by lia.
      apply smaller; auto. rewrite wsub_ge; lia.
    - inv H. injection H as <- _. eapply remove_at_cap; eauto.
    - inv H. injection H as <- _. eapply remove_un_cap; eauto.
    - inv H. injection H as <- _. apply same; auto.
    - inv H. injection H as <- _. unfold set_at in E. inv E. injection E as <-. apply smaller; auto. lia.
    - inv H. injection H as <- _. apply same; auto.
    - inv H. injection H as <- _. apply same; auto.
    - injection H as <- _. apply same; auto.
    - inv H. injection H as <- _. apply same; auto.
  Qed.
End V.

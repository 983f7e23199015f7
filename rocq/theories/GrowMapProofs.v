(* Buckets of a map under the operations of its model. *)
From Coq Require Import NArith List Lia Bool Arith.
From Verif Require Import Base GrowSpec GrowProofs MapModel.
Import ListNotations.
Open Scope N_scope.

Lemma aset_len : forall B (a : list B) i x b, aset a i x = Ok b -> length b = length a.
Proof. intros B a i x b H. unfold aset in H. destruct (i <? length a)%nat; [injection H as <-; apply lset_length|discriminate]. Qed.

Section S.
  Context {K V : Type} (hash : K -> N) (eqb : K -> K -> bool) (dflt : V).
  Variable m : N.
  Hypothesis Hm : m < 2 ^ 61.

  (* a power of two, or no buckets at all; never more elements than buckets, except for the one added last *)
  Definition ok (x : map K V) : Prop :=
    (nbuckets x = 0 \/ exists k, nbuckets x = 2 ^ k /\ 2 <= k) /\ msize x <= nbuckets x + 1 /\ (nbuckets x = 0 -> msize x = 0) /\
    msize x <= m /\ nbuckets x <= N.max 4 (2 * (m + 1)).

  Lemma pad_cap : forall f k n c, n <= 2 ^ 61 -> k <= 62 -> pad f (2 ^ k) n = Ok c -> exists j, c = 2 ^ j /\ k <= j /\ n <= c /\ (c = 2 ^ k \/ c < 2 * n).
  Proof.
    induction f as [|f IH]; intros k n c Hn Hk H; cbn [pad] in H; [discriminate|].
    destruct (N.ltb_spec (2 ^ k) n) as [L|L].
    - assert (k < 61). { apply (N.pow_lt_mono_r_iff 2); lia. }
      rewrite N.shiftl_mul_pow2 in H. rewrite <- N.pow_add_r in H.
      rewrite wrap_small in H by (apply N.pow_lt_mono_r; lia).
      destruct (IH (k + 1) n c Hn ltac:(lia) H) as [j [-> [J1 [J2 J3]]]]. exists j. repeat split; auto; try lia.
      right. destruct J3 as [J3|J3]; auto. rewrite J3, N.pow_add_r. lia.
    - injection H as <-. exists k. repeat split; auto; lia.
  Qed.

  Lemma rehash_bucket_len : forall l es es', rehash_bucket (V:=V) hash l es = Ok es' -> length es' = length es.
  Proof.
    induction l as [|e l IH]; intros es es' H; cbn [rehash_bucket] in H; [injection H as <-; auto|].
    inv H. rewrite (IH _ _ H). eapply aset_len; eauto.
  Qed.
  Lemma rehash_len : forall old es es', rehash (V:=V) hash old es = Ok es' -> length es' = length es.
  Proof.
    induction old as [|l old IH]; intros es es' H; cbn [rehash] in H; [injection H as <-; auto|].
    inv H. rewrite (IH _ _ H). eapply rehash_bucket_len; eauto.
  Qed.

  Lemma reserve_cap : forall x n x', ok x -> n <= m + 1 -> reserve hash x n = Ok x' ->
    msize x' = msize x /\ ok x' /\ n <= nbuckets x' /\ doubles (nbuckets x) (nbuckets x').
  Proof.
    intros x n x' I Q H. pose proof I as [P [S [Z [B C]]]]. unfold reserve in H. destruct (N.leb_spec n (nbuckets x)) as [L|L].
    - injection H as <-. split; auto. split; auto. split; auto. left; auto.
    - apply bind_Ok in H. destruct H as [c [EP H]].
      destruct (pad_cap 64 2 n c ltac:(lia) ltac:(lia) EP) as [j [-> [J1 [J2 J3]]]].
      unfold reserve_ in H. inv H. injection H as <-.
      assert (NB : nbuckets (mkMap a0 (msize x) (fresh x)) = 2 ^ j).
      { unfold nbuckets. cbn [entries]. rewrite (rehash_len _ _ _ E0), repeat_length. lia. }
      assert (D : doubles (nbuckets x) (2 ^ j)).
      { unfold doubles. destruct P as [P|[k [P PK]]].
        - rewrite P. right. pose proof (N.pow_nonzero 2 j ltac:(lia)). lia.
        - right. split; [lia|]. rewrite P in *. assert (k < j) by (apply (N.pow_lt_mono_r_iff 2); lia).
          rewrite <- (N.pow_succ_r' 2 k). apply N.pow_le_mono_r; lia. }
      rewrite NB. split; auto. split; [|auto]. unfold ok. rewrite NB. cbn [msize].
      change (2 ^ 2) with 4 in J3. split; [right; eauto|]. split; [destruct D; lia|].
      split; [intro E'; pose proof (N.pow_nonzero 2 j ltac:(lia)); lia|]. split; auto. lia.
  Qed.

  Lemma same_cap : forall (x : map K V) es n f, ok x -> length es = length (entries x) -> n <= msize x \/ (n <= nbuckets x + 1 /\ n <= m /\ 0 < nbuckets x) ->
    ok (mkMap es n f) /\ doubles (nbuckets x) (nbuckets (mkMap es n f)).
  Proof.
    intros x es n f [P [S [Z [B C]]]] L H. unfold ok, doubles. replace (nbuckets (mkMap es n f)) with (nbuckets x) by (unfold nbuckets; cbn [entries]; rewrite L; auto).
    cbn [msize]. split; [|auto]. split; auto. split; [lia|]. split; [lia|]. split; lia.
  Qed.

  Lemma find_cap : forall x k v x' p, ok x -> msize x' <= m -> find_or_insert hash eqb x k v = Ok (x', p) -> ok x' /\ doubles (nbuckets x) (nbuckets x').
  Proof.
    intros x k v x' p I B H. pose proof I as [P [S [Z [B0 C]]]]. unfold find_or_insert in H. apply bind_Ok in H. destruct H as [y [E H]].
    assert (Y : msize y = msize x /\ ok y /\ doubles (nbuckets x) (nbuckets y) /\ msize y <= nbuckets y /\ 0 < nbuckets y).
    { unfold make_room in E. destruct (N.eqb_spec (nbuckets x) 0) as [Z0|Z0]; cbn [orb] in E.
      - rewrite (Z Z0) in E. cbn [N.eqb] in E. assert (R : forall n, n <= 4 -> reserve hash x n = Ok y -> msize y = msize x /\ ok y /\ doubles (nbuckets x) (nbuckets y) /\ (n = 4 -> 4 <= nbuckets y)).
        { intros n Hn HR. unfold reserve in HR. destruct (N.leb_spec n (nbuckets x)) as [L|L].
          - injection HR as <-. split; auto. split; auto. split; [left; auto|lia].
          - apply bind_Ok in HR. destruct HR as [c [EP HR]].
            destruct (pad_cap 64 2 n c ltac:(change (2 ^ 61) with 2305843009213693952; lia) ltac:(lia) EP) as [j [-> [J1 [J2 J3]]]].
            assert (F : 2 ^ j = 4 \/ 2 ^ j < 2 * n) by (change 4 with (2 ^ 2); auto).
            unfold reserve_ in HR. inv HR. injection HR as <-.
            assert (NB : nbuckets (mkMap a0 (msize x) (fresh x)) = 2 ^ j).
            { unfold nbuckets. cbn [entries]. rewrite (rehash_len _ _ _ E1), repeat_length. lia. }
            assert (J4 : 2 ^ j <= 4). { destruct F; [lia|]. assert (j < 3); [apply (N.pow_lt_mono_r_iff 2); [lia|change (2 ^ 3) with 8; lia]|]. replace j with 2 by lia. change (2 ^ 2) with 4. lia. }
            assert (J5 : 4 <= 2 ^ j) by (change 4 with (2 ^ 2); apply N.pow_le_mono_r; lia).
            split; auto. unfold ok, doubles. rewrite NB. cbn [msize]. rewrite (Z Z0) in *. repeat split; try lia.
            right. exists j. auto. }
        destruct (R 4 ltac:(lia) E) as [R1 [R2 [R3 R4]]]. specialize (R4 eq_refl). rewrite R1, (Z Z0). repeat split; auto; try lia.
        all: try apply R2.
      - destruct (N.ltb_spec (nbuckets x) (msize x)) as [L|L].
        + destruct (N.eqb_spec (msize x) 0); [lia|]. rewrite wadd_small in E by (assert (2 ^ 61 * 8 = 2 ^ 64) by reflexivity; lia).
          destruct (reserve_cap x (msize x + 1) _ I ltac:(lia) E) as [R1 [R2 [R3 R4]]]. rewrite R1. repeat split; auto; try lia. all: apply R2.
        + injection E as <-. split; auto. split; auto. split; [left; auto|]. lia. }
    destruct Y as [Y1 [Y2 [Y3 [Y4 Y5]]]]. apply bind_Ok in H. destruct H as [i [E1 H]]. apply bind_Ok in H. destruct H as [l [E2 H]].
    destruct (find _ l).
    - injection H as <- _. auto.
    - inv H. injection H as <- _. cbn [msize] in B. rewrite wadd_small in * by (destruct Y2 as [_ [_ [_ [YM _]]]]; assert (2 ^ 61 * 8 = 2 ^ 64) by reflexivity; lia).
      destruct (same_cap y a (msize y + 1) (Datatypes.S (fresh y)) Y2 (aset_len _ _ _ _ _ E0)) as [R1 R2]; [right; lia|].
      split; auto. unfold doubles in *. lia.
  Qed.

  Lemma step_cap : forall x o x' r, ok x -> masks o <= m + 1 -> step hash eqb dflt x o = Ok (x', r) -> msize x' <= m -> ok x' /\ doubles (nbuckets x) (nbuckets x').
  Proof.
    intros x o x' r I G H B. pose proof I as [P [S [Z [B0 C]]]]. assert (SAME : ok x /\ doubles (nbuckets x) (nbuckets x)) by (split; auto; left; auto).
    destruct o; cbn [step masks] in *.
    - apply bind_Ok in H. destruct H as [[y p] [E H]]. apply bind_Ok in H. destruct H as [z [E2 H]]. injection H as <- _.
      unfold store in E2. destruct (live y p); [|discriminate]. injection E2 as <-. cbn [msize] in B.
      destruct (find_cap _ _ _ _ _ I B E) as [R1 R2]. destruct (same_cap y (List.map (List.map (upd_ent p v)) (entries y)) (msize y) (fresh y) R1 (map_length _ _) (or_introl (N.le_refl _))) as [R3 R4].
      split; auto. unfold doubles in *. lia.
    - apply bind_Ok in H. destruct H as [[y p] [E H]]. inv H. injection H as <- _. eapply find_cap; eauto.
    - apply bind_Ok in H. destruct H as [[y p] [E H]]. inv H. injection H as <- _. eapply find_cap; eauto.
    - apply bind_Ok in H. destruct H as [[y p] [E H]]. injection H as <- _. unfold remove_key in E.
      destruct (N.eqb_spec (msize x) 0) as [Z0|Z0]; [injection E as <- _; auto|].
      assert (LT : msize x < 2 ^ 64) by (assert (2 ^ 61 * 8 = 2 ^ 64) by reflexivity; lia).
      apply bind_Ok in E. destruct E as [i [E1 E]]. apply bind_Ok in E. destruct E as [l [E2 E]].
      destruct l as [|e t]; [injection E as <- _; auto|]. destruct (hit eqb k e).
      + inv E. injection E as <- _. apply same_cap; auto; [eapply aset_len; eauto|]. left. rewrite wsub_ge; lia.
      + apply bind_Ok in E. destruct E as [[l' rm] [E3 E]]. destruct rm; [|injection E as <- _; auto]. inv E. injection E as <- _.
        apply same_cap; auto; [eapply aset_len; eauto|]. left. rewrite wsub_ge; lia.
    - inv H. injection H as <- _. auto.
    - injection H as <- _. unfold clear. apply same_cap; auto; [apply map_length|]. left. lia.
    - inv H. injection H as <- _. destruct (reserve_cap _ _ _ I G E) as [R1 [R2 [R3 R4]]]. auto.
  Qed.
  Lemma ok_init : ok init.
  Proof. unfold ok. cbn. repeat split; auto; lia. Qed.
End S.

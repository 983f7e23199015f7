(* Buckets of a set under the operations of its model. *)
From Coq Require Import NArith List Lia Bool Arith.
From Verif Require Import Base HashModel GrowSpec GrowProofs SetModel.
Import ListNotations.
Open Scope N_scope.

Section S.
  Context {T : Type} (hash : T -> N) (eqb : T -> T -> bool).
  Variable m : N.
  Hypothesis Hm : m < 2 ^ 62.
  Let P62 : 2 ^ 62 * 4 = 2 ^ 64. Proof. reflexivity. Qed.

  Definition ok (s : set T) : Prop := ssize s <= nbuckets s /\ ssize s <= m /\ nbuckets s <= N.max 4 (2 * m).

  Lemma aset_len : forall B (a : list B) i x b, aset a i x = Ok b -> length b = length a.
  Proof. intros B a i x b H. unfold aset in H. destruct (i <? length a)%nat; [injection H as <-; apply lset_length|discriminate]. Qed.
  Lemma rehash_bucket_len : forall l es es', rehash_bucket hash l es = Ok es' -> length es' = length es.
  Proof.
    induction l as [|e l IH]; intros es es' H; cbn [rehash_bucket] in H; [injection H as <-; auto|].
    inv H. rewrite (IH _ _ H). eapply aset_len; eauto.
  Qed.
  Lemma rehash_len : forall old es es', rehash hash old es = Ok es' -> length es' = length es.
  Proof.
    induction old as [|l old IH]; intros es es' H; cbn [rehash] in H; [injection H as <-; auto|].
    inv H. rewrite (IH _ _ H). eapply rehash_bucket_len; eauto.
  Qed.
  Lemma reserve_len : forall s n s', reserve_ hash s n = Ok s' -> nbuckets s' = n /\ ssize s' = ssize s.
  Proof.
    intros s n s' H. unfold reserve_ in H. inv H. injection H as <-. unfold nbuckets. cbn [entries ssize].
    rewrite (rehash_len _ _ _ E), repeat_length. split; auto. lia.
  Qed.

  Lemma add_cap : forall s v s' b, ok s -> ssize s' <= m -> add hash eqb s (Val v) = Ok (s', b) -> ok s' /\ doubles (nbuckets s) (nbuckets s').
  Proof.
    intros s v s' b [S [B0 C]] B H. unfold add in H. apply bind_Ok in H. destruct H as [[s1 v1] [E H]].
    assert (K : ssize s1 = ssize s /\ ssize s1 < nbuckets s1 /\ doubles (nbuckets s) (nbuckets s1) /\ nbuckets s1 <= N.max 4 (2 * m)).
    { destruct (N.leb_spec (nbuckets s) (ssize s)) as [L|L].
      - inv E. injection E as -> _. destruct (reserve_len _ _ _ E0) as [NB SZ]. rewrite NB, SZ. unfold doubles.
        destruct (N.eqb_spec (ssize s) 0) as [Z|Z].
        + repeat split; lia.
        + unfold wmul. rewrite wrap_small by lia. repeat split; lia.
      - inv E. injection E as <- _. unfold doubles. repeat split; auto. }
    destruct K as [K1 [K2 [K3 K4]]].
    apply bind_Ok in H. destruct H as [i [E1 H]]. apply bind_Ok in H. destruct H as [l [E2 H]].
    destruct (existsb _ l).
    - injection H as <- _. unfold ok. repeat split; auto; lia.
    - inv H. injection H as <- _. unfold ok in *. unfold nbuckets in *. cbn [entries ssize] in *. rewrite (aset_len _ _ _ _ _ E0).
      rewrite wadd_small in * by lia. repeat split; auto; lia.
  Qed.

  Lemma step_cap : forall s o s' b, ok s -> set_op o -> step hash eqb s o = Ok (s', b) -> ssize s' <= m -> ok s' /\ doubles (nbuckets s) (nbuckets s').
  Proof.
    intros s o s' b I G H B. pose proof I as [S [B0 C]]. assert (SAME : ok s /\ doubles (nbuckets s) (nbuckets s)) by (split; auto; left; auto).
    destruct o; cbn [step set_op] in *; try contradiction.
    - eapply add_cap; eauto.
    - unfold remove in H. destruct (N.eqb_spec (ssize s) 0) as [Z|Z]; [injection H as <- _; auto|].
      apply bind_Ok in H. destruct H as [i [E1 H]]. apply bind_Ok in H. destruct H as [l [E2 H]].
      assert (D : forall es l', aset (entries s) (N.to_nat i) l' = Ok es -> ok (mkSet es (wsub 64 (ssize s) 1)) /\
        doubles (nbuckets s) (nbuckets (mkSet es (wsub 64 (ssize s) 1)))).
      { intros es l' E. unfold ok, doubles, nbuckets in *. cbn [entries ssize]. rewrite (aset_len _ _ _ _ _ E). rewrite wsub_ge by lia. repeat split; auto; lia. }
      destruct l as [|e t]; [injection H as <- _; auto|]. destruct (eqb e v).
      + inv H. injection H as <- _. eapply D; eauto.
      + apply bind_Ok in H. destruct H as [[l' rm] [E3 H]]. destruct rm; [|injection H as <- _; auto]. inv H. injection H as <- _. eapply D; eauto.
    - inv H. injection H as <- _. auto.
    - injection H as <- _. unfold ok, doubles, clear, nbuckets in *. cbn [entries ssize]. rewrite map_length. repeat split; auto; lia.
  Qed.
  Lemma ok_init : ok init.
  Proof. unfold ok. cbn. repeat split; lia. Qed.
End S.

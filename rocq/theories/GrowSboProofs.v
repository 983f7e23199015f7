(* Capacities of an sbo_string under the operations of its model. *)
From Coq Require Import NArith List Lia Bool Arith.
From Verif Require Import Base GrowSpec GrowProofs SboModel SboSpec.
From Verif Require SboProofs.
Import ListNotations.
Open Scope N_scope.

Section S.
  Variables sc m : N.
  Hypothesis Hsc : 7 <= sc < 2 ^ 60.
  Hypothesis Hm : m < 2 ^ 62.
  Let P62 : 2 ^ 62 * 2 = 2 ^ 63. Proof. reflexivity. Qed.
  Let P63 : 2 ^ 63 * 2 = 2 ^ 64. Proof. reflexivity. Qed.
  Let P60 : 2 ^ 60 * 4 = 2 ^ 62. Proof. reflexivity. Qed.

  (* capacity(), where it is defined *)
  Definition cap_of (s : sbo) : N := match capacity sc s with Ok c => c | _ => 0 end.
  Definition ok (s : sbo) : Prop := capacity sc s = Ok (cap_of s) /\ ssz s <= cap_of s /\ sc <= cap_of s /\ cap_of s <= N.max sc (2 * m).

  Lemma put_cap : forall s b b' n, buffer s = Ok b -> capacity sc (put s b' n) = capacity sc s /\ ssz (put s b' n) = n.
  Proof. intros s b b' n H. unfold buffer, put, capacity, is_short in *. destruct (loc s); try discriminate; auto. Qed.
  Lemma set_heap_cap : forall s b n c, c < 2 ^ 64 -> capacity sc (set_heap s b n c) = Ok c.
  Proof. intros. unfold set_heap, capacity, is_short. cbn [loc un]. apply SboProofs.read_write_cap; auto. Qed.

  Lemma put_ok : forall s b b' n, buffer s = Ok b -> ok s -> n <= cap_of s -> ok (put s b' n) /\ doubles (cap_of s) (cap_of (put s b' n)).
  Proof.
    intros s b b' n Hb [C [S [L U]]] H. destruct (put_cap s b b' n Hb) as [E Z].
    assert (E' : cap_of (put s b' n) = cap_of s) by (unfold cap_of; rewrite E; auto).
    unfold ok, doubles. rewrite E', E, Z. repeat split; auto.
  Qed.
  Lemma heap_ok : forall s b n nc, ok s -> nc = N.max (2 * cap_of s) n -> cap_of s < n -> n <= m ->
    ok (set_heap s b n nc) /\ doubles (cap_of s) (cap_of (set_heap s b n nc)).
  Proof.
    intros s b n nc [C [S [L U]]] E H B. pose proof (set_heap_cap s b n nc ltac:(lia)) as E1.
    assert (E' : cap_of (set_heap s b n nc) = nc) by (unfold cap_of; rewrite E1; auto).
    unfold ok, doubles. rewrite E', E1. unfold set_heap. cbn [ssz]. repeat split; auto; lia.
  Qed.

  Lemma append_cap : forall s a s', ok s -> ssz s' <= m -> append sc s a = Ok s' -> ok s' /\ doubles (cap_of s) (cap_of s').
  Proof.
    intros s a s' I B H. pose proof I as [C [S [L U]]]. unfold append in H. rewrite C in H. cbn [bind] in H.
    apply bind_Ok in H. destruct H as [b [Hb H]].
    set (n := wadd 64 (ssz s) (slen a)) in H. destruct (N.leb_spec n (cap_of s)) as [Q|Q].
    - inv H. injection H as <-. eapply put_ok; eauto.
    - rewrite shl1 in H by lia. cbv zeta in H. set (nc := if 2 * cap_of s <? n then n else 2 * cap_of s) in H.
      assert (NC : nc = N.max (2 * cap_of s) n) by (unfold nc; destruct (N.ltb_spec (2 * cap_of s) n); lia). clearbody nc.
      inv H. injection H as <-. apply heap_ok; auto.
  Qed.

  Lemma replace_cap : forall s pos cnt a s', ok s -> pos + cnt < 2 ^ 64 -> ssz s' <= m -> replace sc s pos cnt a = Ok s' -> ok s' /\ doubles (cap_of s) (cap_of s').
  Proof.
    intros s pos cnt a s' I W B H. pose proof I as [C [S [L U]]]. unfold replace in H.
    apply bind_Ok in H. destruct H as [u1 [C1 H]]. apply bind_Ok in H. destruct H as [u2 [C2 H]]. apply bind_Ok in H. destruct H as [b [Hb H]].
    destruct (cnt =? slen a).
    - inv H. injection H as <-. eapply put_ok; eauto.
    - rewrite C in H. cbn [bind] in H. set (n := wadd 64 (wsub 64 (ssz s) cnt) (slen a)) in H.
      destruct (N.ltb_spec (cap_of s) n) as [Q|Q].
      + rewrite shl1 in H by lia. cbv zeta in H. set (nc := if 2 * cap_of s <? n then n else 2 * cap_of s) in H.
        assert (NC : nc = N.max (2 * cap_of s) n) by (unfold nc; destruct (N.ltb_spec (2 * cap_of s) n); lia). clearbody nc.
        inv H. injection H as <-. apply heap_ok; auto.
      + inv H. injection H as <-. eapply put_ok; eauto.
  Qed.

  Lemma push_cap : forall s c s', ok s -> ssz s' <= m -> push_back sc s c = Ok s' -> ok s' /\ doubles (cap_of s) (cap_of s').
  Proof.
    intros s c s' I B H. pose proof I as [C [S [L U]]]. unfold push_back in H. rewrite C in H. cbn [bind] in H.
    rewrite shl1 in H by lia. apply bind_Ok in H. destruct H as [s1 [G H]]. apply bind_Ok in H. destruct H as [b [Hb H]].
    inv H. injection H as <-. destruct (put_cap s1 b a0 (wadd 64 (ssz s1) 1) Hb) as [EP Z]. rewrite Z in B.
    destruct (N.eqb_spec (ssz s) (cap_of s)) as [Q|Q].
    - assert (G1 : capacity sc s1 = Ok (2 * cap_of s) /\ ssz s1 = ssz s).
      { unfold reserve_force in G. inv G. injection G as <-. split; [apply set_heap_cap; lia|reflexivity]. }
      destruct G1 as [EC Z1]. rewrite Z1 in *. rewrite wadd_small in * by lia.
      assert (E' : cap_of (put s1 a0 (ssz s + 1)) = 2 * cap_of s) by (unfold cap_of at 1; rewrite EP, EC; auto).
      unfold ok, doubles. rewrite E', Z, EP, EC. repeat split; auto; try lia.
    - injection G as <-. eapply put_ok; eauto. rewrite wadd_small; lia.
  Qed.

  Lemma step_cap : forall s o s' r, ok s -> appends o -> step sc s o = Ok (s', r) -> ssz s' <= m -> ok s' /\ doubles (cap_of s) (cap_of s').
  Proof.
    intros s o s' r I G H B. assert (SAME : ok s /\ doubles (cap_of s) (cap_of s)) by (split; auto; left; auto).
    destruct o; cbn [appends] in G; try contradiction; cbn [step] in H; unfold ru, rc in H.
    - inv H. injection H as <- _. eapply push_cap; eauto.
    - inv H. injection H as <- _. eapply append_cap; eauto.
    - inv H. injection H as <- _. eapply append_cap; eauto.
    - inv H. injection H as <- _. unfold pop_back in E. inv E. injection E as <-. eapply put_ok; eauto.
      apply contract_Ok in E0. apply negb_true_iff, N.eqb_neq in E0. destruct I as [C [S [L U]]]. rewrite wsub_ge; lia.
    - inv H. injection H as <- _. eapply replace_cap; eauto.
    - inv H. injection H as <- _. unfold insert in E. eapply replace_cap; [eauto| |eauto|eauto]. lia.
    - inv H. injection H as <- _. auto.
    - inv H. injection H as <- _. unfold set_at in E. inv E. injection E as <-. eapply put_ok; eauto. destruct I as [C [S [L U]]]. auto.
    - inv H. injection H as <- _. auto.
    - inv H. injection H as <- _. auto.
    - injection H as <- _. auto.
  Qed.

  Lemma ok_init : ok (sinit sc).
  Proof. unfold ok, cap_of. cbn. repeat split; lia. Qed.
End S.

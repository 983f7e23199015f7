(* Capacities of a string_stream under the operations of its model. *)
From Coq Require Import NArith List Lia Bool Arith.
From Verif Require Import Base GrowSpec GrowProofs SStrModel.
From Verif Require SStrProofs.
Import ListNotations.
Open Scope N_scope.

Section S.
  Variables m r : N.
  Hypothesis Hm : m + r < 2 ^ 62.
  Let P62 : 2 ^ 62 * 2 = 2 ^ 63. Proof. reflexivity. Qed.
  Let P63 : 2 ^ 63 * 2 = 2 ^ 64. Proof. reflexivity. Qed.

  Definition ok (x : stream * heap) : Prop := size (fst x) <= cap (fst x) /\ cap (fst x) <= 2 * (m + r).

  Lemma reserve_cap : forall s h n s' h', ok (s, h) -> size s + n <= m + r -> reserve s n h = Ok (s', h') ->
    curr s' = curr s /\ size s + n <= cap s' /\ ok (s', h') /\ doubles (cap s) (cap s').
  Proof.
    intros s h n s' h' [S C] Q H. cbn [fst] in *. unfold reserve in H. rewrite wadd_small in H by lia.
    destruct (N.leb_spec (size s + n) (cap s)) as [L|L].
    - injection H as <- <-. unfold ok, doubles. cbn [fst]. repeat split; auto.
    - rewrite shl1 in H by lia. cbv zeta in H.
      set (nc := if 2 * cap s <? size s + n then size s + n else 2 * cap s) in H.
      assert (NC : nc = N.max (2 * cap s) (size s + n)) by (unfold nc; destruct (N.ltb_spec (2 * cap s) (size s + n)); lia).
      clearbody nc. inv H. injection H as <- _. unfold ok, doubles, size in *. cbn [fst curr cap]. repeat split; lia.
  Qed.

  Lemma write_cap : forall s sv h s' h', ok (s, h) -> size s' <= m -> append s sv h = Ok (s', h') -> ok (s', h') /\ doubles (cap s) (cap s').
  Proof.
    intros s sv h s' h' I B H. unfold append in H. destruct sv as [|c sv].
    - injection H as <- <-. split; auto. left; auto.
    - remember (length (c :: sv)) as k eqn:EK. apply bind_Ok in H. destruct H as [[s1 h1] [ER H]]. inv H. injection H as <- _.
      assert (SZ : curr s1 = curr s).
      { unfold reserve in ER. destruct (_ <=? cap s); [injection ER as <- _; auto|]. cbv zeta in ER. inv ER. injection ER as <- _. auto. }
      unfold size in B. cbn [curr] in B. rewrite SZ in B.
      destruct (reserve_cap s h (N.of_nat k) _ _ I ltac:(unfold size; lia) ER) as [_ [RC [[I1 I2] D]]].
      unfold ok, size in *. cbn [fst curr cap] in *. rewrite SZ. repeat split; auto. lia.
  Qed.

  Lemma sstep_cap : forall x o x' u, ok x /\ size (fst x) <= m -> room_most r o -> sstep x o = Ok (x', u) -> size (fst x') <= m ->
    (ok x' /\ size (fst x') <= m) /\ doubles (cap (fst x)) (cap (fst x')).
  Proof.
    intros [s h] o [s' h'] u [I B0] G H B. cbn [fst] in *. unfold sstep in H. apply bind_Ok in H. destruct H as [y [E H]]. injection H as -> _.
    destruct o; cbn [room_most] in *.
    - destruct (write_cap _ _ _ _ _ I B E). auto.
    - rewrite SStrProofs.put_append in E. destruct (write_cap _ _ _ _ _ I B E). auto.
    - destruct (reserve_cap s h n _ _ I ltac:(lia) E) as [_ [_ [I' D]]]. auto.
    - injection E as <- <-. destruct I as [I1 I2]. cbn [fst] in *. unfold ok, doubles, clear, size in *. cbn [fst curr cap]. repeat split; auto; cbn; lia.
  Qed.
End S.

From Coq Require Import Arith List Bool Lia.
From Verif Require Import Base Tagged ResModel ResSpec.
Import ListNotations.

Section P.
  Context {A : Type}.
  Variable (eqA : A -> A -> bool) (e0 : A).
  Notation R := (@rep (result A) (content A) shape).

  Lemma look_nth : forall (w : store A) k c, look w k = Some c -> nth_error w k = Some (Some c).
  Proof. intros w k c. unfold look. destruct (nth_error w k); congruence. Qed.
  Lemma put_upd : forall (w : store A) k c, put w k c = upd w k c.
  Proof. reflexivity. Qed.
  Lemma rshape : forall (w : store A) k c, look w k = Some c -> nth_error (R w) k = Some (Some (shape c)).
  Proof. intros w k c H. apply rep_nth, look_nth. auto. Qed.
  Lemma look_lt : forall (w : store A) k c, look w k = Some c -> k < length w.
  Proof. intros w k c H. apply look_nth in H. eapply nth_lt; eauto. Qed.

  (* destroying the content leaves raw storage *)
  Lemma dtor_ok : forall (w : store A) k c, look w k = Some c ->
    impl_dtor (R w) k = Ok (upd (R w) k (mkr (has_value c) TRaw)).
  Proof.
    intros w k c H. pose proof (rshape _ _ _ H) as N. unfold impl_dtor. rewrite (var_Ok _ _ _ N).
    destruct c as [v|e|[]]; auto.
  Qed.

  (* filling raw storage *)
  Lemma copy_from_ok : forall (w : world A) k j b (c : content A), k <> j -> nth_error w k = Some (Some (mkr b TRaw)) ->
    nth_error w j = Some (Some (shape c)) -> readable c = true -> copy_from w k j = Ok (upd w k (shape c)).
  Proof.
    intros w k j b c N Hk Hj Rd. unfold copy_from. rewrite (var_Ok _ _ _ Hj). cbn [bind].
    unfold set_isv. rewrite (var_Ok _ _ _ Hk). cbn [bind dat].
    assert (Hj' : nth_error (upd w k (mkr (isv (shape c)) TRaw)) j = Some (Some (shape c))) by (rewrite nth_upd_neq; auto).
    rewrite (var_Ok _ _ _ Hj'). cbn [bind]. unfold read. rewrite (var_Ok _ _ _ Hj'). cbn [bind].
    unfold place. erewrite var_Ok by (eapply nth_upd_eq; exact Hk).
    destruct c as [v|e|]; try discriminate; cbn [bind shape isv dat tag tread tplace Nat.eqb]; rewrite upd_upd; auto.
  Qed.
  Lemma move_from_ok : forall (w : world A) k j b (c : content A), k <> j -> nth_error w k = Some (Some (mkr b TRaw)) ->
    nth_error w j = Some (Some (shape c)) -> readable c = true ->
    move_from w k j = Ok (upd (upd w k (shape c)) j (shape (@Hollow A (has_value c)))).
  Proof.
    intros w k j b c N Hk Hj Rd. unfold move_from. rewrite (var_Ok _ _ _ Hj). cbn [bind].
    unfold set_isv. rewrite (var_Ok _ _ _ Hk). cbn [bind dat].
    assert (Hj' : nth_error (upd w k (mkr (isv (shape c)) TRaw)) j = Some (Some (shape c))) by (rewrite nth_upd_neq; auto).
    rewrite (var_Ok _ _ _ Hj'). cbn [bind]. unfold take. rewrite (var_Ok _ _ _ Hj'). cbn [bind].
    destruct c as [v|e|]; try discriminate; cbn [bind shape isv dat tag ttake Nat.eqb fst snd has_value]; unfold place;
      (erewrite var_Ok by (rewrite nth_upd_neq by auto; eapply nth_upd_eq; exact Hk)); cbn [bind isv dat tag tplace];
      rewrite (upd_swap _ j k) by auto; rewrite upd_upd; auto.
  Qed.

  Lemma new_ok : forall (w : store A) b v,
    place (add (R w) (mkr false TRaw)) (length w) b v = Ok (add (R w) (mkr false (TObj (tag b) v))).
  Proof.
    intros w b v. unfold place. rewrite <- (rep_length shape w). rewrite (var_Ok _ _ _ (nth_add_new _ _)). cbn [bind dat tplace isv].
    rewrite upd_add_new. auto.
  Qed.

  Lemma step_ok : forall (w : store A) o w' r, ideal eqA e0 w o = Some (w', r) -> unaliased o = true ->
    step eqA e0 (R w) o = Ok (R w', r).
  Proof.
    intros w o w' r H U. unfold ret in *. destruct o as [|v|e|j|j|k j|k j|k|k|k|k|k|k d|k v|k e]; cbn [ideal step] in *.
    - injection H as <- <-. unfold new_error. rewrite rep_length, new_ok. change (w ++ [Some (E e0)]) with (add w (E e0)). rewrite rep_add. auto.
    - injection H as <- <-. unfold new_value. rewrite rep_length, new_ok. cbn [bind]. unfold set_isv.
      rewrite <- (rep_length shape w). rewrite (var_Ok _ _ _ (nth_add_new _ _)). cbn [bind dat tag]. rewrite upd_add_new.
      change (w ++ [Some (V v)]) with (add w (V v)). rewrite rep_add. auto.
    - injection H as <- <-. unfold new_error. rewrite rep_length, new_ok. change (w ++ [Some (E e)]) with (add w (E e)). rewrite rep_add. auto.
    - destruct (look w j) as [c|] eqn:L; [|discriminate]. destruct (readable c) eqn:Rd; [|discriminate]. injection H as <- <-.
      unfold new_copy. pose proof (look_lt _ _ _ L) as Lt.
      rewrite (copy_from_ok _ (length (R w)) j false c); [|rewrite rep_length; lia|apply nth_add_new|apply nth_add, rshape; auto|auto].
      rewrite upd_add_new. change (w ++ [Some c]) with (add w c). rewrite rep_add. auto.
    - destruct (look w j) as [c|] eqn:L; [|discriminate]. destruct (readable c) eqn:Rd; [|discriminate]. injection H as <- <-.
      unfold new_move. pose proof (look_lt _ _ _ L) as Lt.
      rewrite (move_from_ok _ (length (R w)) j false c); [|rewrite rep_length; lia|apply nth_add_new|apply nth_add, rshape; auto|auto].
      rewrite upd_add_new, upd_add by (rewrite rep_length; auto).
      change (put w j (Hollow (has_value c)) ++ [Some c]) with (add (upd w j (Hollow (has_value c))) c). rewrite rep_add, rep_upd. auto.
    - destruct (look w k) as [d|] eqn:Lk; [|discriminate]. destruct (look w j) as [c|] eqn:Lj; [|discriminate]. unfold copy_assign.
      destruct (Nat.eqb_spec k j) as [->|N]; cbn [negb].
      + injection H as <- <-. rewrite (var_Ok _ _ _ (rshape _ _ _ Lk)). auto.
      + destruct (readable c) eqn:Rd; [|discriminate]. injection H as <- <-. rewrite (dtor_ok _ _ _ Lk). cbn [bind].
        pose proof (rshape _ _ _ Lk) as Nk. pose proof (rshape _ _ _ Lj) as Nj.
        erewrite (copy_from_ok _ k j _ c); [|auto|eapply nth_upd_eq; exact Nk|rewrite nth_upd_neq; auto|auto].
        rewrite upd_upd, put_upd, rep_upd. auto.
    - destruct (look w k) as [d|] eqn:Lk; [|discriminate]. destruct (look w j) as [c|] eqn:Lj; [|discriminate].
      destruct (readable c) eqn:Rd; [|discriminate]. cbn [unaliased] in U. unfold move_assign.
      destruct (Nat.eqb_spec k j) as [->|N]; [discriminate|]. injection H as <- <-. rewrite (dtor_ok _ _ _ Lk). cbn [bind].
      pose proof (rshape _ _ _ Lk) as Nk. pose proof (rshape _ _ _ Lj) as Nj.
      erewrite (move_from_ok _ k j _ c); [|auto|eapply nth_upd_eq; exact Nk|rewrite nth_upd_neq; auto|auto].
      rewrite upd_upd, !put_upd, !rep_upd. auto.
    - destruct (look w k) as [d|] eqn:Lk; [|discriminate]. injection H as <- <-. unfold destroy. rewrite (dtor_ok _ _ _ Lk). cbn [bind].
      erewrite var_Ok by (eapply nth_upd_eq; exact (rshape _ _ _ Lk)). cbn [bind dat tfree]. unfold unit_. cbn [bind].
      rewrite del_upd. change (lset w k None) with (del w k). rewrite rep_del. auto.
    - destruct (look w k) as [c|] eqn:L; [|discriminate]. injection H as <- <-. rewrite (var_Ok _ _ _ (rshape _ _ _ L)). destruct c; auto.
    - destruct (look w k) as [c|] eqn:L; [|discriminate]. injection H as <- <-. rewrite (var_Ok _ _ _ (rshape _ _ _ L)). destruct c; auto.
    - destruct (look w k) as [[v|e|b]|] eqn:L; try discriminate. injection H as <- <-. unfold value, read.
      rewrite (var_Ok _ _ _ (rshape _ _ _ L)). auto.
    - destruct (look w k) as [[v|e|b]|] eqn:L; try discriminate. injection H as <- <-. unfold error, read.
      rewrite (var_Ok _ _ _ (rshape _ _ _ L)). auto.
    - unfold value_or, read. destruct (look w k) as [[v|e|b]|] eqn:L; try discriminate; injection H as <- <-;
      rewrite (var_Ok _ _ _ (rshape _ _ _ L)); auto.
    - unfold is_value_v, read. destruct (look w k) as [[v'|e|b]|] eqn:L; try discriminate; injection H as <- <-;
      rewrite (var_Ok _ _ _ (rshape _ _ _ L)); auto.
    - unfold is_error_e, read. destruct (look w k) as [[v'|e'|b]|] eqn:L; try discriminate; injection H as <- <-;
      rewrite (var_Ok _ _ _ (rshape _ _ _ L)); auto.
  Qed.

  Lemma run_ok : forall os (w : store A) w' rs, ideal_run eqA e0 w os = Some (w', rs) -> forallb unaliased os = true ->
    run eqA e0 (R w) os = Ok (R w', rs).
  Proof.
    induction os as [|o os IH]; intros w w' rs H U; cbn [ideal_run run forallb] in *.
    - injection H as <- <-. auto.
    - apply andb_true_iff in U. destruct U as (U1 & U2). destruct (ideal eqA e0 w o) as [[w1 r]|] eqn:Eo; [|discriminate].
      destruct (ideal_run eqA e0 w1 os) as [[w2 rs']|] eqn:E2; [|discriminate]. injection H as <- <-.
      rewrite (step_ok _ _ _ _ Eo U1). cbn [bind fst snd]. rewrite (IH _ _ _ E2 U2). auto.
  Qed.
End P.

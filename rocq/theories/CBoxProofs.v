From Coq Require Import Arith List Bool Lia.
From Verif Require Import Base Tagged CBoxModel CBoxSpec.
Import ListNotations.

Section P.
  Context {A : Type}.
  Variable hm : bool.
  Notation R := (@rep (box A) (content A) (shape hm)).

  Lemma look_nth : forall (w : store A) k c, look w k = Some c -> nth_error w k = Some (Some c).
  Proof. intros w k c. unfold look. destruct (nth_error w k); congruence. Qed.
  Lemma rshape : forall (w : store A) k c, look w k = Some c -> nth_error (R w) k = Some (Some (shape hm c)).
  Proof. intros w k c H. apply rep_nth, look_nth. auto. Qed.
  Lemma put_upd : forall (w : store A) k c, put w k c = upd w k c.
  Proof. reflexivity. Qed.
  Lemma look_lt : forall (w : store A) k c, look w k = Some c -> k < length w.
  Proof. intros w k c H. apply look_nth in H. eapply nth_lt; eauto. Qed.

  (* after the destructor the storage is raw *)
  Lemma run_dtor_ok : forall c : content A, exists b, run_dtor (shape hm c) = Ok b /\ dat b = TRaw.
  Proof.
    intros [t v|t]; unfold run_dtor, shape; [|destruct hm]; cbn [dtor dat tkill]; rewrite ?Nat.eqb_refl; cbn [bind]; eexists; split; eauto.
  Qed.
  Lemma construct_ok : forall b t (v : A), dat b = TRaw -> construct hm b t v = Ok (shape hm (Full t v)).
  Proof. intros [d x y] t v H. cbn in H. subst d. reflexivity. Qed.

  Lemma assign_ok : forall (w : store A) k c t v, look w k = Some c ->
    (let! b := var (R w) k in let! b := run_dtor b in let! b := construct hm b t v in Ok (upd (R w) k b)) = Ok (R (put w k (Full t v))).
  Proof.
    intros w k c t v H. rewrite (var_Ok _ _ _ (rshape _ _ _ H)). cbn [bind]. destruct (run_dtor_ok c) as (b & E & D).
    rewrite E. cbn [bind]. rewrite construct_ok by auto. cbn [bind]. rewrite put_upd, rep_upd. auto.
  Qed.

End P.
Section Q.
  Context {A : Type}.
  Notation R hm := (@rep (box A) (content A) (shape hm)).

  Lemma step_ok : forall hm (w : store A) o w' r, ideal w o = Some (w', r) -> supported hm o = true ->
    step hm (R hm w) o = Ok (R hm w', r).
  Proof.
    intros hm w o w' r H U. unfold ret in *.
    destruct o as [t v|t v|k t v|j|k j|k t v|k|k]; cbn [ideal step] in *.
    - injection H as <- <-. unfold new_val. rewrite construct_ok by auto. cbn [bind]. unfold unit_. cbn [bind].
      change (w ++ [Some (Full t v)]) with (add w (Full t v)). rewrite rep_add. auto.
    - injection H as <- <-. unfold make, emplace. rewrite (var_Ok _ _ _ (nth_add_new _ _)). cbn [bind run_dtor dtor].
      rewrite construct_ok by auto. cbn [bind]. unfold unit_. cbn [bind]. rewrite upd_add_new.
      change (w ++ [Some (Full t v)]) with (add w (Full t v)). rewrite rep_add. auto.
    - destruct (look w k) as [c|] eqn:L; [|discriminate]. injection H as <- <-. unfold assign_val.
      rewrite (assign_ok _ _ _ _ _ _ L). auto.
    - destruct (look w j) as [[t v|]|] eqn:L; try discriminate. injection H as <- <-. pose proof (look_lt _ _ _ L) as Lt.
      cbn [supported] in U. destruct hm; [discriminate|]. unfold new_move, move_data.
      set (W := rep (shape false) w). assert (LW : length W = length w) by apply rep_length.
      assert (Nj : nth_error W j = Some (Some (mkb (TObj t v) (Some t) None))) by exact (rshape false _ _ _ L).
      set (X := add W (@mkb A TRaw None None)). set (k := length W).
      assert (NX : nth_error X j = Some (Some (mkb (TObj t v) (Some t) None))) by (apply nth_add; auto).
      assert (KX : nth_error X k = Some (Some (mkb TRaw None None))) by apply nth_add_new.
      assert (N : k <> j) by (subst k; lia).
      assert (Vj : forall x y, var (upd (upd X j y) k x) j = Ok y).
      { intros x y. apply var_Ok. rewrite nth_upd_neq by auto. eapply nth_upd_eq; eauto. }
      assert (Vk0 : forall y, var (upd X j y) k = Ok (mkb TRaw None None)).
      { intros y. apply var_Ok. rewrite nth_upd_neq by auto. auto. }
      assert (Vk : forall x y, var (upd (upd X j y) k x) k = Ok x).
      { intros x y. apply var_Ok. eapply nth_upd_eq. rewrite nth_upd_neq by auto. eauto. }
      rewrite (var_Ok _ _ _ NX). cbv zeta. cbn [bind]. unfold set_dat. cbn [dtor mv dat]. rewrite Vk0. cbn [bind dat tfree dtor mv].
      rewrite Vj. cbn [bind dtor]. rewrite Vk. cbn [bind dat mv]. rewrite upd_upd, Vj. cbn [bind dat mv]. unfold unit_. cbn [bind].
      rewrite (upd_swap _ k j) by auto. rewrite upd_upd. subst X k. rewrite upd_add by lia.
      replace (length W) with (length (upd W j (@mkb A TRaw None None))) by apply upd_length. rewrite upd_add_new.
      change (put w j (Hollow t) ++ [Some (Full t v)]) with (add (upd w j (Hollow t)) (Full t v)). rewrite rep_add, rep_upd. auto.
    - destruct (look w k) as [c|] eqn:Lk; [|discriminate]. destruct (look w j) as [[t v|]|] eqn:Lj; try discriminate.
      destruct (Nat.eqb_spec k j) as [|N]; [discriminate|]. injection H as <- <-. cbn [supported] in U. subst hm.
      unfold move_assign. rewrite (var_Ok _ _ _ (rshape true _ _ _ Lk)). cbn [bind]. destruct (run_dtor_ok true c) as (b & E & D).
      rewrite E. cbn [bind]. rewrite var_Ok with (x := shape true (Full t v)) by (rewrite nth_upd_neq by auto; apply rshape; auto).
      cbn [bind]. rewrite upd_upd. cbn [shape dtor]. rewrite D. destruct b as [d0 x0 y0]. cbn [mv dat] in *. subst d0.
      pose proof (rshape true _ _ _ Lj) as Nj. pose proof (rshape true _ _ _ Lk) as Nk. cbn [shape] in Nj.
      set (W := rep (shape true) w) in *.
      assert (Vj : forall x, var (upd W k x) j = Ok (mkb (TObj t v) (Some t) (Some t))).
      { intro x. apply var_Ok. rewrite nth_upd_neq by auto. auto. }
      assert (Vj2 : forall x y, var (upd (upd W j y) k x) j = Ok y).
      { intros x y. apply var_Ok. rewrite nth_upd_neq by auto. eapply nth_upd_eq; eauto. }
      assert (Vk : forall x y, var (upd (upd W j y) k x) k = Ok x).
      { intros x y. apply var_Ok. eapply nth_upd_eq. rewrite nth_upd_neq by auto. eauto. }
      assert (S1 : forall x y, upd (upd W k x) j y = upd (upd W j y) k x) by (intros; apply upd_swap; auto).
      unfold move_data. rewrite Vj. cbn [bind mv dat ttake]. rewrite Nat.eqb_refl. cbn [bind fst snd].
      unfold set_dat. cbn [dtor mv]. rewrite S1, Vk. cbn [bind dat tplace dtor mv]. rewrite upd_upd, Vj2. cbn [bind].
      rewrite Vk. cbn [bind dat dtor mv]. rewrite upd_upd, Vj2. cbn [bind dat dtor]. unfold unit_. cbn [bind].
      rewrite (upd_swap _ k j) by auto. rewrite upd_upd. rewrite !put_upd, !rep_upd. auto.
    - destruct (look w k) as [c|] eqn:L; [|discriminate]. injection H as <- <-. unfold emplace.
      rewrite (assign_ok _ _ _ _ _ _ L). auto.
    - destruct (look w k) as [c|] eqn:L; [|discriminate]. injection H as <- <-. unfold destroy.
      rewrite (var_Ok _ _ _ (rshape _ _ _ _ L)). cbn [bind]. destruct (run_dtor_ok hm c) as (b & E & D). rewrite E. cbn [bind]. rewrite D.
      cbn [tfree bind]. unfold unit_. cbn [bind]. change (lset w k None) with (del w k). rewrite rep_del. auto.
    - destruct (look w k) as [[t v|]|] eqn:L; try discriminate. injection H as <- <-. unfold get.
      rewrite (var_Ok _ _ _ (rshape _ _ _ _ L)). reflexivity.
  Qed.
  Lemma run_ok : forall hm os (w : store A) w' rs, ideal_run w os = Some (w', rs) -> forallb (supported hm) os = true ->
    run hm (R hm w) os = Ok (R hm w', rs).
  Proof.
    intro hm. induction os as [|o os IH]; intros w w' rs H U; cbn [ideal_run run forallb] in *.
    - injection H as <- <-. auto.
    - apply andb_true_iff in U. destruct U as (U1 & U2). destruct (ideal w o) as [[w1 r]|] eqn:E; [|discriminate].
      destruct (ideal_run w1 os) as [[w2 rs']|] eqn:E2; [|discriminate]. injection H as <- <-.
      rewrite (step_ok _ _ _ _ _ E U1). cbn [bind fst snd]. rewrite (IH _ _ _ E2 U2). auto.
  Qed.
End Q.

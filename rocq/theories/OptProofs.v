From Coq Require Import Arith List Bool Lia.
From Verif Require Import Base Tagged OptModel OptSpec.
Import ListNotations.

Section P.
  Context {A : Type}.
  Variables (eqA ltA : A -> A -> bool).
  Implicit Types (k j : nat) (v : A).
  Notation R := (@rep (opt A) (content A) shape).

  Lemma look_nth : forall (w : store A) k c, look w k = Some c -> nth_error w k = Some (Some c).
  Proof. intros w k c. unfold look. destruct (nth_error w k); congruence. Qed.
  Lemma put_upd : forall (w : store A) k c, put w k c = upd w k c.
  Proof. reflexivity. Qed.

  Lemma kill_full : forall (w : world A) k v, nth_error w k = Some (Some (mko true (TObj 0 v))) ->
    kill_value w k = Ok (upd w k (mko true TRaw)).
  Proof. intros w k v H. unfold kill_value. rewrite (var_Ok _ _ _ H). auto. Qed.
  Lemma kill_husk : forall (w : world A) k, nth_error w k = Some (Some (mko true (THusk 0))) ->
    kill_value w k = Ok (upd w k (mko true TRaw)).
  Proof. intros w k H. unfold kill_value. rewrite (var_Ok _ _ _ H). auto. Qed.
  Lemma kill_empty : forall (w : world A) k c, nth_error w k = Some (Some (mko false c)) -> kill_value w k = Ok w.
  Proof. intros w k c H. unfold kill_value. rewrite (var_Ok _ _ _ H). auto. Qed.
  Lemma set_has_Ok : forall (w : world A) k b b' c, nth_error w k = Some (Some (mko b' c)) -> set_has w k b = Ok (upd w k (mko b c)).
  Proof. intros w k b b' c H. unfold set_has. rewrite (var_Ok _ _ _ H). auto. Qed.
  Lemma place_Ok : forall (w : world A) k b v, nth_error w k = Some (Some (mko b TRaw)) -> place_value w k v = Ok (upd w k (mko b (TObj 0 v))).
  Proof. intros w k b v H. unfold place_value. rewrite (var_Ok _ _ _ H). auto. Qed.
  Lemma take_Ok : forall (w : world A) k b v, nth_error w k = Some (Some (mko b (TObj 0 v))) -> take_value w k = Ok (v, upd w k (mko b (THusk 0))).
  Proof. intros w k b v H. unfold take_value. rewrite (var_Ok _ _ _ H). auto. Qed.
  Lemma deref_Ok : forall (w : world A) k b v, nth_error w k = Some (Some (mko b (TObj 0 v))) -> deref w k = Ok v.
  Proof. intros w k b v H. unfold deref. rewrite (var_Ok _ _ _ H). auto. Qed.

  (* the shape of a variable *)
  Lemma rshape : forall (w : store A) k c, look w k = Some c -> nth_error (R w) k = Some (Some (shape c)).
  Proof. intros w k c H. apply rep_nth, look_nth. auto. Qed.

  Lemma src_ok : forall (w : store A) s v, arg w s = Some v -> src_check (R w) s = Ok tt /\ src_read (R w) s = Ok v.
  Proof.
    intros w [u|j] v H; cbn in *; [split; congruence|]. destruct (look w j) as [[|u|]|] eqn:L; try discriminate.
    pose proof (rshape _ _ _ L) as N. unfold value_check. rewrite (var_Ok _ _ _ N). cbn [bind shape has contract].
    split; auto. erewrite deref_Ok by exact N. congruence.
  Qed.

  (* assign_null makes a variable empty *)
  Lemma null_ok : forall (w : store A) k c, look w k = Some c -> assign_null (R w) k = Ok (R (put w k Empty)).
  Proof.
    intros w k c H. pose proof (rshape _ _ _ H) as N. rewrite put_upd, rep_upd. cbn [shape].
    unfold assign_null. rewrite (var_Ok _ _ _ N). cbn [bind]. destruct c as [|v|]; cbn [shape has] in *.
    - rewrite (upd_same _ _ _ N). auto.
    - erewrite kill_full by exact N. cbn [bind]. erewrite set_has_Ok by (eapply nth_upd_eq; exact N). rewrite upd_upd. auto.
    - erewrite kill_husk by exact N. cbn [bind]. erewrite set_has_Ok by (eapply nth_upd_eq; exact N). rewrite upd_upd. auto.
  Qed.

  Lemma look_put_eq : forall (w : store A) k c c', look w k = Some c' -> look (put w k c) k = Some c.
  Proof. intros w k c c' H. apply look_nth in H. unfold look. rewrite put_upd, (nth_upd_eq _ _ _ _ H). auto. Qed.
  Lemma look_put_neq : forall (w : store A) k j c, j <> k -> look (put w k c) j = look w j.
  Proof. intros w k j c H. unfold look. rewrite put_upd, nth_upd_neq by auto. auto. Qed.
  Lemma look_lt : forall (w : store A) k c, look w k = Some c -> k < length w.
  Proof. intros w k c H. apply look_nth in H. eapply nth_lt; eauto. Qed.
  Lemma look_add : forall (w : store A) k c x, look w k = Some c -> look (w ++ [x]) k = Some c.
  Proof. intros w k c x H. unfold look. rewrite nth_error_app1 by (eapply look_lt; eauto). exact H. Qed.
  Lemma look_new : forall (w : store A) c, look (w ++ [Some c]) (length w) = Some c.
  Proof. intros w c. unfold look. rewrite nth_error_app2, Nat.sub_diag by auto. auto. Qed.

  (* placing a value into an empty variable *)
  Lemma fill_ok : forall (w : store A) k v, look w k = Some Empty ->
    (let! w := place_value (R w) k v in set_has w k true) = Ok (R (put w k (Full v))).
  Proof.
    intros w k v H. pose proof (rshape _ _ _ H) as N. cbn [shape] in N. erewrite place_Ok by exact N. cbn [bind].
    erewrite set_has_Ok by (eapply nth_upd_eq; exact N). rewrite upd_upd, put_upd, rep_upd. auto.
  Qed.
  Lemma new_empty_ok : forall w : store A, new_empty (R w) = R (w ++ [Some Empty]).
  Proof. intro w. unfold new_empty. change (w ++ [Some Empty]) with (add w (@Empty A)). rewrite rep_add. auto. Qed.
  Lemma put_new : forall (w : store A) c c', put (w ++ [Some c]) (length w) c' = w ++ [Some c'].
  Proof. intros. exact (upd_add_new w c c'). Qed.
  Lemma put_add : forall (w : store A) k c c', k < length w -> put (w ++ [Some c]) k c' = put w k c' ++ [Some c].
  Proof. intros w k c c' H. exact (upd_add w k c c' H). Qed.

  Lemma new_value_ok : forall (w : store A) s v, arg w s = Some v -> new_value (R w) s = Ok (R (w ++ [Some (Full v)])).
  Proof.
    intros w s v H. destruct (src_ok _ _ _ H) as (E1 & E2). unfold new_value. rewrite E1, E2. cbn [bind].
    rewrite rep_length, new_empty_ok, fill_ok by apply look_new. rewrite put_new. auto.
  Qed.

  (* the middle part of move construction and move assignment *)
  Definition relocate (w : world A) (k j : nat) : outcome (world A) :=
    let! m := take_value w j in
    let! w := place_value (snd m) k (fst m) in
    let! r := var w j in let! c := tkill (dat r) 0 in
    let! w := set_has (upd w j (mko (has r) c)) j false in
    set_has w k true.
  Lemma relocate_ok : forall (w : store A) k j v, k <> j -> look w k = Some Empty -> look w j = Some (Full v) ->
    relocate (R w) k j = Ok (R (put (put w k (Full v)) j Empty)).
  Proof.
    intros w k j v N Hk Hj. pose proof (rshape _ _ _ Hk) as Nk. pose proof (rshape _ _ _ Hj) as Nj. cbn [shape] in *.
    unfold relocate. erewrite take_Ok by exact Nj. cbn [bind fst snd].
    erewrite place_Ok by (rewrite nth_upd_neq by auto; exact Nk). cbn [bind].
    erewrite var_Ok by (rewrite nth_upd_neq by auto; eapply nth_upd_eq; exact Nj). cbn [bind dat has tkill Nat.eqb].
    erewrite set_has_Ok; [|eapply nth_upd_eq; rewrite nth_upd_neq by auto; eapply nth_upd_eq; exact Nj]. cbn [bind].
    erewrite set_has_Ok; [|rewrite !nth_upd_neq by auto; eapply nth_upd_eq; rewrite nth_upd_neq by auto; exact Nk].
    f_equal. rewrite !put_upd, !rep_upd. cbn [shape]. rewrite upd_upd.
    rewrite (upd_swap _ j k) by auto. rewrite upd_upd. rewrite (upd_swap _ k j) by auto. rewrite upd_upd.
    rewrite (upd_swap _ j k) by auto. auto.
  Qed.

  Lemma move_assign_ok : forall (w : store A) k j c d, look w k = Some d -> look w j = Some c -> k <> j -> readable c = true ->
    move_assign (R w) k j = Ok (R (put (put w k c) j Empty)).
  Proof.
    intros w k j c d Hk Hj N Rd. unfold move_assign. rewrite (null_ok _ _ _ Hk). cbn [bind].
    pose proof (look_put_eq w k Empty d Hk) as Hk'. assert (Hj' : look (put w k Empty) j = Some c) by (rewrite look_put_neq; auto).
    pose proof (rshape _ _ _ Hj') as Nj. rewrite (var_Ok _ _ _ Nj). cbn [bind]. destruct c as [|v|]; cbn [shape has readable] in *; try discriminate.
    - f_equal. f_equal. rewrite !put_upd. symmetry. apply upd_same. rewrite nth_upd_neq by auto. apply look_nth. auto.
    - fold (relocate (R (put w k Empty)) k j). rewrite (relocate_ok _ _ _ v) by auto. f_equal. f_equal. rewrite !put_upd, upd_upd. auto.
  Qed.

  Lemma destroy_ok : forall (w : store A) k c, look w k = Some c -> destroy (R w) k = Ok (R (lset w k None)).
  Proof.
    intros w k c H. pose proof (rshape _ _ _ H) as N. change (lset w k None) with (del w k). rewrite rep_del.
    unfold destroy. destruct c as [|v|]; cbn [shape] in N.
    - erewrite kill_empty by exact N. cbn [bind]. rewrite (var_Ok _ _ _ N). auto.
    - erewrite kill_full by exact N. cbn [bind]. erewrite var_Ok by (eapply nth_upd_eq; exact N). cbn [bind dat tfree].
      rewrite del_upd. auto.
    - erewrite kill_husk by exact N. cbn [bind]. erewrite var_Ok by (eapply nth_upd_eq; exact N). cbn [bind dat tfree].
      rewrite del_upd. auto.
  Qed.

  Lemma emplace_ok : forall (w : store A) k s v c, look w k = Some c -> arg w s = Some v ->
    (match s with Own j => k <> j | _ => True end) -> emplace (R w) k s = Ok (R (put w k (Full v))).
  Proof.
    intros w k s v c Hk Hs Na. destruct (src_ok _ _ _ Hs) as (E1 & E2). unfold emplace. rewrite E1. cbn [bind].
    pose proof (rshape _ _ _ Hk) as N. rewrite put_upd, rep_upd.
    assert (G : exists b, kill_value (R w) k = Ok (upd (R w) k (mko b TRaw))).
    { destruct c as [|u|]; cbn [shape] in N.
      - exists false. erewrite kill_empty by exact N. f_equal. symmetry. apply upd_same. exact N.
      - exists true. eapply kill_full; eauto.
      - exists true. eapply kill_husk; eauto. }
    destruct G as (b & ->). cbn [bind].
    assert (E3 : src_read (upd (R w) k (mko b TRaw)) s = Ok v).
    { destruct s as [u|j]; cbn in *; [auto|]. unfold deref, var in *. rewrite nth_upd_neq by auto. exact E2. }
    rewrite E3. cbn [bind]. erewrite place_Ok by (eapply nth_upd_eq; exact N). cbn [bind].
    erewrite set_has_Ok by (eapply nth_upd_eq; eapply nth_upd_eq; exact N). rewrite !upd_upd. auto.
  Qed.

  Lemma step_ok : forall (w : store A) o w' r, ideal eqA ltA w o = Some (w', r) -> unaliased o = true ->
    step eqA ltA (R w) o = Ok (R w', r).
  Proof.
    intros w o w' r H U. unfold ret in *.
    destruct o as [|s|j|j|j f|k|k j|k j|k s|k s|k|k f|k|k d|k|k|k d|k j|k j|k u|k j]; cbn [ideal step] in *.
    - injection H as <- <-. rewrite new_empty_ok. auto.
    - destruct (arg w s) as [v|] eqn:Ha; [|discriminate]. injection H as <- <-. rewrite (new_value_ok _ _ _ Ha). auto.
    - destruct (look w j) as [c|] eqn:L; [|discriminate]. destruct (readable c) eqn:Rd; [|discriminate]. injection H as <- <-.
      unfold new_move. rewrite rep_length, new_empty_ok.
      pose proof (look_add _ _ _ (Some Empty) L) as L2. pose proof (look_lt _ _ _ L) as Lt.
      rewrite (var_Ok _ _ _ (rshape _ _ _ L2)). cbn [bind]. destruct c as [|v|]; cbn [shape has readable] in *; try discriminate.
      + unfold unit_. cbn [bind]. do 3 f_equal. rewrite put_upd, upd_same by (apply look_nth; auto). auto.
      + fold (relocate (R (w ++ [Some Empty])) (length w) j).
        rewrite (relocate_ok _ _ _ v); [|lia|apply look_new|auto]. unfold unit_. cbn [bind]. do 3 f_equal.
        rewrite put_new, put_add by auto. auto.
    - destruct (look w j) as [c|] eqn:L; [|discriminate]. destruct (readable c) eqn:Rd; [|discriminate]. injection H as <- <-.
      unfold new_copy. rewrite rep_length, new_empty_ok.
      pose proof (look_add _ _ _ (Some Empty) L) as L2.
      rewrite (var_Ok _ _ _ (rshape _ _ _ L2)). cbn [bind]. destruct c as [|v|]; cbn [shape has readable] in *; try discriminate.
      + auto.
      + pose proof (rshape _ _ _ L2) as N2. cbn [shape] in N2. erewrite deref_Ok by exact N2. cbn [bind].
        rewrite fill_ok by apply look_new. rewrite put_new. auto.
    - destruct (look w j) as [[|v|]|] eqn:L; try discriminate; injection H as <- <-; unfold new_map;
        pose proof (rshape _ _ _ L) as N; rewrite (var_Ok _ _ _ N); cbn [bind shape has].
      + rewrite new_empty_ok. auto.
      + cbn [shape] in N. erewrite deref_Ok by exact N. cbn [bind]. rewrite (new_value_ok w (Ext (f v)) (f v)) by auto. auto.
    - destruct (look w k) as [c|] eqn:L; [|discriminate]. injection H as <- <-. rewrite (null_ok _ _ _ L). auto.
    - destruct (look w k) as [d|] eqn:Lk; [|discriminate]. destruct (look w j) as [c|] eqn:Lj; [|discriminate].
      destruct (Nat.eqb_spec k j) as [->|N].
      + injection H as <- <-. unfold move_assign. rewrite (null_ok _ _ _ Lk). cbn [bind].
        rewrite (var_Ok _ _ _ (rshape _ _ _ (look_put_eq w j Empty d Lk))). auto.
      + destruct (readable c) eqn:Rd; [|discriminate]. injection H as <- <-. rewrite (move_assign_ok w k j c d) by auto. auto.
    - destruct (look w k) as [d|] eqn:Lk; [|discriminate]. destruct (look w j) as [c|] eqn:Lj; [|discriminate].
      cbn [unaliased] in U. destruct (Nat.eqb_spec k j) as [->|N]; [discriminate|].
      destruct (readable c) eqn:Rd; [|discriminate]. injection H as <- <-. unfold copy_assign. rewrite (null_ok _ _ _ Lk). cbn [bind].
      assert (Lj' : look (put w k Empty) j = Some c) by (rewrite look_put_neq; auto).
      rewrite (var_Ok _ _ _ (rshape _ _ _ Lj')). cbn [bind]. destruct (Nat.eqb_spec k j); [congruence|]. cbn [negb andb].
      destruct c as [|v|]; cbn [shape has readable] in *; try discriminate; [auto|].
      pose proof (rshape _ _ _ Lj') as Nj. cbn [shape] in Nj. erewrite deref_Ok by exact Nj. cbn [bind].
      rewrite fill_ok by (eapply look_put_eq; eauto). unfold unit_. cbn [bind]. rewrite !put_upd, upd_upd. auto.
    - destruct (look w k) as [d|] eqn:Lk; [|discriminate]. destruct (arg w s) as [v|] eqn:Ha; [|discriminate].
      injection H as <- <-. unfold assign_t. rewrite (new_value_ok _ _ _ Ha), rep_length. cbn [bind].
      pose proof (look_lt _ _ _ Lk) as Lt.
      rewrite (move_assign_ok (w ++ [Some (Full v)]) k (length w) (Full v) d); [|apply look_add; auto|apply look_new|lia|auto].
      cbn [bind]. rewrite put_add by auto.
      assert (E : length (put w k (Full v)) = length w) by apply lset_length.
      rewrite <- E. set (w1 := put w k (Full v)) in *. clearbody w1. rewrite put_new.
      rewrite (destroy_ok _ _ Empty) by apply look_new. cbn [bind]. unfold unit_. cbn [bind]. do 2 f_equal.
      change (lset (w1 ++ [Some Empty]) (length w1) None) with (del (add w1 (@Empty A)) (length w1)).
      unfold rep. rewrite firstn_map, del_add_new. auto.
    - destruct (look w k) as [d|] eqn:Lk; [|discriminate]. destruct (arg w s) as [v|] eqn:Ha; [|discriminate].
      injection H as <- <-. rewrite (emplace_ok _ _ _ _ _ Lk Ha); auto. destruct s; auto. cbn in U.
      destruct (Nat.eqb_spec k j); [discriminate|auto].
    - destruct (look w k) as [d|] eqn:Lk; [|discriminate]. injection H as <- <-. rewrite (destroy_ok _ _ _ Lk). auto.
    - unfold transform. destruct (look w k) as [[|v|]|] eqn:L; try discriminate; injection H as <- <-;
        pose proof (rshape _ _ _ L) as N; rewrite (var_Ok _ _ _ N); cbn [bind shape has]; auto.
      cbn [shape] in N. erewrite deref_Ok by exact N. unfold unit_. cbn [bind]. rewrite put_upd, rep_upd. auto.
    - destruct (look w k) as [[|v|]|] eqn:L; try discriminate. injection H as <- <-. unfold move_value, value_check.
      pose proof (rshape _ _ _ L) as N. rewrite (var_Ok _ _ _ N). cbn [bind shape has contract] in *.
      erewrite take_Ok by exact N. cbn [bind fst snd]. rewrite put_upd, rep_upd. auto.
    - unfold move_value_or. destruct (look w k) as [[|v|]|] eqn:L; try discriminate; injection H as <- <-;
        pose proof (rshape _ _ _ L) as N; rewrite (var_Ok _ _ _ N); cbn [bind shape has fst snd] in *; auto.
      erewrite take_Ok by exact N. cbn [bind fst snd]. rewrite put_upd, rep_upd. auto.
    - destruct (look w k) as [c|] eqn:L; [|discriminate]. pose proof (rshape _ _ _ L) as N. rewrite (var_Ok _ _ _ N).
      destruct c; injection H as <- <-; auto.
    - destruct (look w k) as [[|v|]|] eqn:L; try discriminate. injection H as <- <-. unfold value_check.
      pose proof (rshape _ _ _ L) as N. rewrite (var_Ok _ _ _ N). cbn [bind shape has contract] in *.
      erewrite deref_Ok by exact N. auto.
    - unfold value_or. destruct (look w k) as [[|v|]|] eqn:L; try discriminate; injection H as <- <-;
        pose proof (rshape _ _ _ L) as N; rewrite (var_Ok _ _ _ N); cbn [bind shape has fst snd] in *; auto.
      erewrite deref_Ok by exact N. auto.
    - unfold equal. destruct (look w k) as [[|x|]|] eqn:Lk; try discriminate; destruct (look w j) as [[|y|]|] eqn:Lj; try discriminate;
        injection H as <- <-; pose proof (rshape _ _ _ Lk) as Nk; pose proof (rshape _ _ _ Lj) as Nj;
        rewrite (var_Ok _ _ _ Nk), (var_Ok _ _ _ Nj); cbn [bind shape has andb] in *; auto.
      erewrite deref_Ok by exact Nk. cbn [bind]. erewrite deref_Ok by exact Nj. auto.
    - unfold not_equal. destruct (look w k) as [[|x|]|] eqn:Lk; try discriminate; destruct (look w j) as [[|y|]|] eqn:Lj; try discriminate;
        injection H as <- <-; pose proof (rshape _ _ _ Lk) as Nk; pose proof (rshape _ _ _ Lj) as Nj;
        rewrite (var_Ok _ _ _ Nk), (var_Ok _ _ _ Nj); cbn [bind shape has andb] in *; auto.
      erewrite deref_Ok by exact Nk. cbn [bind]. erewrite deref_Ok by exact Nj. auto.
    - unfold equal_value. destruct (look w k) as [[|x|]|] eqn:Lk; try discriminate;
        injection H as <- <-; pose proof (rshape _ _ _ Lk) as Nk; rewrite (var_Ok _ _ _ Nk); cbn [bind shape has andb] in *; auto.
      erewrite deref_Ok by exact Nk. auto.
    - unfold less. destruct (look w k) as [[|x|]|] eqn:Lk; try discriminate; destruct (look w j) as [[|y|]|] eqn:Lj; try discriminate;
        injection H as <- <-; pose proof (rshape _ _ _ Lk) as Nk; pose proof (rshape _ _ _ Lj) as Nj;
        rewrite (var_Ok _ _ _ Nk), (var_Ok _ _ _ Nj); cbn [bind shape has andb negb] in *; auto.
      erewrite deref_Ok by exact Nk. cbn [bind]. erewrite deref_Ok by exact Nj. auto.
  Qed.

  Lemma run_ok : forall os (w : store A) w' rs, ideal_run eqA ltA w os = Some (w', rs) -> forallb unaliased os = true ->
    run eqA ltA (R w) os = Ok (R w', rs).
  Proof.
    induction os as [|o os IH]; intros w w' rs H U; cbn [ideal_run run forallb] in *.
    - injection H as <- <-. auto.
    - apply andb_true_iff in U. destruct U as (U1 & U2). destruct (ideal eqA ltA w o) as [[w1 r]|] eqn:E; [|discriminate].
      destruct (ideal_run eqA ltA w1 os) as [[w2 rs']|] eqn:E2; [|discriminate]. injection H as <- <-.
      rewrite (step_ok _ _ _ _ E U1). cbn [bind fst snd]. rewrite (IH _ _ _ E2 U2). auto.
  Qed.
End P.

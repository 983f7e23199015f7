From Coq Require Import NArith Arith List Bool Lia.
From Verif Require Import Base Cells VecModel VecSpec.
Import ListNotations.
Open Scope nat_scope.

Lemma nth_mid : forall A (p q : list A) c n, n = length p -> nth_error (p ++ c :: q) n = Some c.
Proof. intros. subst. rewrite nth_error_app2 by lia. rewrite Nat.sub_diag. auto. Qed.
Lemma lset_mid : forall A (p q : list A) c x n, n = length p -> lset (p ++ c :: q) n x = p ++ x :: q.
Proof. intros A p q c x n ->. induction p; cbn; auto. f_equal. auto. Qed.

Section Cells.
  Context {A : Type}.
  Implicit Types (p q d : list (cell A)) (l vs : list A).
  Definition live (c : cell A) : Prop := match c with Raw => False | _ => True end.
  Notation raws := (@raw_storage A).

  Lemma construct_mid : forall p q x n, n = length p -> construct (p ++ Raw :: q) n x = Ok (p ++ Obj x :: q).
  Proof. intros. unfold construct. rewrite nth_mid, lset_mid; auto. Qed.
  Lemma cread_mid : forall p q x n, n = length p -> cread (p ++ Obj x :: q) n = Ok x.
  Proof. intros. unfold cread. rewrite nth_mid; auto. Qed.
  Lemma move_out_mid : forall p q x n, n = length p -> move_out (p ++ Obj x :: q) n = Ok (x, p ++ Husk :: q).
  Proof. intros. unfold move_out. rewrite nth_mid, lset_mid; auto. Qed.
  Lemma destroy_mid : forall p q c n, n = length p -> live c -> destroy (p ++ c :: q) n = Ok (p ++ Raw :: q).
  Proof. intros. unfold destroy. rewrite nth_mid, lset_mid; auto. destruct c; auto. contradiction. Qed.
  Lemma assign_mid : forall p q c x n, n = length p -> live c -> assign (p ++ c :: q) n x = Ok (p ++ Obj x :: q).
  Proof. intros. unfold assign. rewrite nth_mid, lset_mid; auto. destruct c; auto. contradiction. Qed.

  Lemma raws_S : forall n, raws (S n) = Raw :: raws n.
  Proof. auto. Qed.
  Lemma raws_add : forall n m, raws (n + m) = raws n ++ raws m.
  Proof. intros. unfold raw_storage. apply repeat_app. Qed.
  Lemma raws_snoc : forall n, raws (S n) = raws n ++ [Raw].
  Proof. intros. replace (S n) with (n + 1) by lia. apply raws_add. Qed.
  Lemma husks_snoc : forall n (q : list (cell A)), repeat Husk n ++ Husk :: q = repeat Husk (S n) ++ q.
  Proof. induction n; intros; cbn; auto. f_equal. rewrite IHn. auto. Qed.
  Lemma release_raws : forall n, release (raws n) = Ok tt.
  Proof. intro n. apply release_Ok. intros i H. rewrite raw_storage_length in H. apply raw_storage_nth; auto. Qed.
  Lemma live_objs : forall l, Forall live (map Obj l).
  Proof. induction l; cbn; constructor; cbn; auto. Qed.
  Lemma live_husks : forall n, Forall live (repeat Husk n).
  Proof. induction n; cbn; constructor; cbn; auto. Qed.

  Lemma copy_construct_spec : forall vs p q i, i = length p ->
    copy_construct vs i (p ++ raws (length vs) ++ q) = Ok (p ++ map Obj vs ++ q).
  Proof.
    induction vs as [|x vs IH]; intros p q i E; auto. cbn [copy_construct length]. rewrite raws_S. cbn [app].
    rewrite construct_mid by auto. cbn [bind]. replace (p ++ Obj x :: raws (length vs) ++ q) with ((p ++ [Obj x]) ++ raws (length vs) ++ q) by (rewrite <- app_assoc; auto).
    rewrite IH by (rewrite app_length; cbn; lia). rewrite <- app_assoc. auto.
  Qed.
  Lemma read_range_spec : forall l p q i, i = length p -> read_range (length l) i (p ++ map Obj l ++ q) = Ok l.
  Proof.
    induction l as [|x l IH]; intros p q i E; auto. cbn [read_range length map app]. rewrite cread_mid by auto. cbn [bind].
    replace (p ++ Obj x :: map Obj l ++ q) with ((p ++ [Obj x]) ++ map Obj l ++ q) by (rewrite <- app_assoc; auto).
    rewrite IH by (rewrite app_length; cbn; lia). auto.
  Qed.
  Lemma move_construct_spec : forall l p q p' q' i, i = length p -> i = length p' ->
    move_construct (length l) i (p ++ map Obj l ++ q) (p' ++ raws (length l) ++ q') =
      Ok (p ++ repeat Husk (length l) ++ q, p' ++ map Obj l ++ q').
  Proof.
    induction l as [|x l IH]; intros p q p' q' i E E'; auto. cbn [move_construct length map app]. rewrite move_out_mid by auto. cbn [bind].
    rewrite raws_S. cbn [app]. rewrite construct_mid by auto. cbn [bind].
    replace (p ++ Husk :: map Obj l ++ q) with ((p ++ [Husk]) ++ map Obj l ++ q) by (rewrite <- app_assoc; auto).
    replace (p' ++ Obj x :: raws (length l) ++ q') with ((p' ++ [Obj x]) ++ raws (length l) ++ q') by (rewrite <- app_assoc; auto).
    rewrite IH by (rewrite app_length; cbn; lia). rewrite <- ?app_assoc. auto.
  Qed.
  Lemma destroy_reverse_spec : forall m p q n to, n = length m -> to = length p -> Forall live m ->
    destroy_reverse n to (p ++ m ++ q) = Ok (p ++ raws n ++ q).
  Proof.
    induction m as [|c m IH] using rev_ind; intros p q n to E1 E2 F; subst; auto.
    rewrite app_length. cbn [length]. rewrite Nat.add_1_r. cbn [destroy_reverse]. apply Forall_app in F. destruct F as [F1 F2]. inversion F2; subst.
    rewrite <- app_assoc. cbn [app]. rewrite app_assoc. rewrite destroy_mid; auto; [|rewrite app_length; lia]. cbn [bind].
    rewrite <- app_assoc. rewrite IH; auto. rewrite raws_snoc, <- ?app_assoc. auto.
  Qed.
  Lemma relocate_spec : forall l p q k s, s = length p -> 1 <= k ->
    relocate (length l) s k (p ++ map Obj l ++ raws k ++ q) = Ok (p ++ raws k ++ map Obj l ++ q).
  Proof.
    induction l as [|x l IH] using rev_ind; intros p q k s E K; auto.
    rewrite app_length. cbn [length]. rewrite Nat.add_1_r. cbn [relocate]. rewrite map_app. cbn [map].
    rewrite <- app_assoc. cbn [app]. rewrite app_assoc. rewrite move_out_mid by (rewrite app_length, map_length; lia). cbn [bind].
    destruct k as [|k]; [lia|].
    replace ((p ++ map Obj l) ++ Husk :: raws (S k) ++ q) with ((p ++ map Obj l ++ Husk :: raws k) ++ Raw :: q)
      by (rewrite raws_snoc; rewrite <- ?app_assoc; cbn; rewrite <- ?app_assoc; auto).
    rewrite construct_mid by (repeat (rewrite app_length; cbn [length]); rewrite map_length, raw_storage_length; lia). cbn [bind].
    replace ((p ++ map Obj l ++ Husk :: raws k) ++ Obj x :: q) with ((p ++ map Obj l) ++ Husk :: raws k ++ Obj x :: q)
      by (rewrite <- ?app_assoc; auto).
    rewrite destroy_mid; [|rewrite app_length, map_length; lia|exact I]. cbn [bind].
    replace ((p ++ map Obj l) ++ Raw :: raws k ++ Obj x :: q) with (p ++ map Obj l ++ raws (S k) ++ (Obj x :: q))
      by (cbn; rewrite <- ?app_assoc; auto).
    rewrite IH by auto. cbn. rewrite <- app_assoc. auto.
  Qed.
  Lemma move_assign_mid : forall p g m x q i j, i = length p -> j = length p + S (length m) -> live g ->
    move_assign_elem (p ++ g :: m ++ Obj x :: q) i j = Ok (p ++ Obj x :: m ++ Husk :: q).
  Proof.
    intros p g m x q i j E1 E2 G. unfold move_assign_elem.
    replace (p ++ g :: m ++ Obj x :: q) with ((p ++ g :: m) ++ Obj x :: q) by (rewrite <- app_assoc; auto).
    rewrite move_out_mid by (rewrite app_length; cbn; lia). cbn [bind].
    replace ((p ++ g :: m) ++ Husk :: q) with (p ++ g :: m ++ Husk :: q) by (rewrite <- app_assoc; auto).
    apply assign_mid; auto.
  Qed.
  Lemma shift_spec : forall l p g q i k, i = length p -> k = length g -> 1 <= k -> Forall live g ->
    exists g', length g' = k /\ Forall live g' /\ shift (length l) i k (p ++ g ++ map Obj l ++ q) = Ok (p ++ map Obj l ++ g' ++ q).
  Proof.
    induction l as [|x l IH]; intros p g q i k E1 E2 K F.
    - exists g. auto.
    - destruct g as [|c g]; [cbn in *; lia|]. cbn [length shift]. inversion F; subst.
      cbn [map app]. rewrite (move_assign_mid p c g x) by (cbn; auto). cbn [bind].
      destruct (IH (p ++ [Obj x]) (g ++ [Husk]) q (S (length p)) (length (c :: g))) as [g' [L [F' E']]];
        try (rewrite app_length; cbn; lia); auto.
      + apply Forall_app. split; auto. constructor; cbn; auto.
      + exists g'. split; auto. split; auto. rewrite <- ?app_assoc in E'. cbn [app] in E'. rewrite <- ?app_assoc in E'. cbn [app] in E'.
        rewrite E'. rewrite <- ?app_assoc. auto.
  Qed.
  Lemma shift64_shift : forall n i k d f, (N.of_nat (i + n + k) < 2 ^ 64)%N -> n < f ->
    shift64 f (N.of_nat i) (N.of_nat (i + n)) (N.of_nat k) d = shift n i k d.
  Proof.
    induction n as [|n IH]; intros i k d f B F; destruct f; try lia; cbn [shift shift64].
    - destruct (N.ltb_spec (N.of_nat i) (N.of_nat (i + 0))); auto. lia.
    - destruct (N.ltb_spec (N.of_nat i) (N.of_nat (i + S n))); [|lia].
      rewrite wadd_small by lia. rewrite (wadd_small 64 (N.of_nat i) 1) by lia.
      replace (N.to_nat (N.of_nat i + N.of_nat k)) with (i + k) by lia. rewrite Nat2N.id.
      replace (N.of_nat i + 1)%N with (N.of_nat (S i)) by lia. replace (i + S n) with (S i + n) by lia.
      destruct (move_assign_elem d i (i + k)); cbn [bind]; auto. apply IH; lia.
  Qed.
  Lemma remove_loop_spec : forall pr l p g q i idx, idx = length p -> i = length p + length g -> Forall live g ->
    exists g', length g' = length g + length (filter pr l) /\ Forall live g' /\
      remove_loop pr (length l) i idx (p ++ g ++ map Obj l ++ q) =
        Ok (p ++ map Obj (filter (fun x => negb (pr x)) l) ++ g' ++ q, length p + length (filter (fun x => negb (pr x)) l)).
  Proof.
    intros pr. induction l as [|x l IH]; intros p g q i idx E1 E2 F.
    - exists g. cbn. split; [lia|]. split; auto. subst. rewrite Nat.add_0_r. auto.
    - cbn [length remove_loop map app filter]. rewrite app_assoc. rewrite cread_mid by (rewrite app_length; lia). cbn [bind].
      rewrite <- app_assoc. destruct (pr x) eqn:P; cbn [negb].
      + destruct (IH p (g ++ [Obj x]) q (S i) idx) as [g' [L [F' E']]]; auto; [rewrite app_length; cbn; lia|apply Forall_app; split; auto; constructor; cbn; auto|].
        rewrite <- ?app_assoc in E'. cbn [app] in E'. exists g'. split; [rewrite L, app_length; cbn; lia|]. auto.
      + destruct g as [|c g].
        * cbn [length] in *. replace (idx =? i) with true by (symmetry; apply Nat.eqb_eq; lia). cbn [bind app].
          destruct (IH (p ++ [Obj x]) [] q (S i) (S idx)) as [g' [L [F' E']]]; auto; try (rewrite app_length; cbn; lia).
          rewrite <- ?app_assoc in E'. cbn [app] in E'. exists g'. split; auto. split; auto. rewrite E'.
          rewrite <- ?app_assoc. cbn [app map length]. rewrite app_length. cbn [length]. do 2 f_equal. lia.
        * inversion F; subst. replace (length p =? length p + length (c :: g)) with false by (symmetry; apply Nat.eqb_neq; cbn; lia). cbn [app].
          rewrite move_assign_mid by (cbn; auto). cbn [bind].
          destruct (IH (p ++ [Obj x]) (g ++ [Husk]) q (S (length p + length (c :: g))) (S (length p))) as [g' [L [F' E']]];
            try (rewrite !app_length; cbn; lia); [apply Forall_app; split; auto; constructor; cbn; auto|].
          rewrite <- ?app_assoc in E'. cbn [app] in E'. rewrite <- ?app_assoc in E'. cbn [app] in E'. exists g'. split; [rewrite L, app_length; cbn; lia|]. split; auto. rewrite E'.
          rewrite <- ?app_assoc. cbn [app map length]. rewrite app_length. cbn [length]. do 2 f_equal. lia.
  Qed.
  Lemma find_loop_spec : forall pr l p q i, i = length p ->
    find_loop pr (length l) i (p ++ map Obj l ++ q) = Ok (option_map (fun j => i + j) (first_match pr l)).
  Proof.
    intros pr. induction l as [|x l IH]; intros p q i E; auto. cbn [length find_loop map app first_match]. rewrite cread_mid by auto. cbn [bind].
    destruct (pr x); cbn; [rewrite Nat.add_0_r; auto|].
    replace (p ++ Obj x :: map Obj l ++ q) with ((p ++ [Obj x]) ++ map Obj l ++ q) by (rewrite <- app_assoc; auto).
    rewrite IH by (rewrite app_length; cbn; lia). f_equal. destruct (first_match pr l); cbn; auto.
  Qed.
  Lemma equal_loop_spec : forall eqb rhs l p q i, i = length p -> length l = length rhs ->
    equal_loop eqb i (p ++ map Obj l ++ q) rhs = Ok (forallb (fun ab => eqb (fst ab) (snd ab)) (combine l rhs)).
  Proof.
    intros eqb. induction rhs as [|y rhs IH]; intros l p q i E L; destruct l as [|x l]; try discriminate; auto.
    cbn [equal_loop map app combine forallb fst snd]. rewrite cread_mid by auto. cbn [bind]. destruct (eqb x y); cbn; auto.
    replace (p ++ Obj x :: map Obj l ++ q) with ((p ++ [Obj x]) ++ map Obj l ++ q) by (rewrite <- app_assoc; auto).
    rewrite IH; auto. rewrite app_length; cbn; lia.
  Qed.
End Cells.

Lemma replace_at_lset : forall A (l : list A) i x, replace_at l i x = lset l i x.
Proof. induction l; intros [|i] x; cbn; auto. f_equal. auto. Qed.
Lemma split_nth : forall A (l : list A) i x, nth_error l i = Some x -> l = firstn i l ++ x :: skipn (S i) l /\ i = length (firstn i l).
Proof.
  induction l; intros [|i] x E; cbn in *; try discriminate; [inversion E; auto|].
  destruct (IHl _ _ E) as [E1 E2]. split; [f_equal; exact E1|f_equal; exact E2].
Qed.
Lemma replace_at_split : forall A (l : list A) i x y, nth_error l i = Some y -> replace_at l i x = firstn i l ++ x :: skipn (S i) l.
Proof. induction l; intros [|i] x y E; cbn in *; try discriminate; auto. f_equal. eapply IHl; eauto. Qed.

Ltac pows := change (2 ^ 47)%N with 140737488355328%N in *; change (2 ^ 48)%N with 281474976710656%N in *;
  change (2 ^ 49)%N with 562949953421312%N in *; change (2 ^ 64)%N with 18446744073709551616%N in *.

Section V.
  Context {A : Type}.
  Implicit Types (v : vec A) (l vs : list A).
  Notation raws := (@raw_storage A).

  Record rep v l : Prop := {
    r_size : size v = N.of_nat (length l);
    r_max : (cap v <= 2 ^ 49)%N;
    r_cap : length l <= N.to_nat (cap v);
    r_data : data v = map Obj l ++ raws (N.to_nat (cap v) - length l) }.

  Lemma rep_init : rep init [].
  Proof. constructor; cbn; auto; lia. Qed.

  Lemma move_to_spec : forall v l m q, size v = N.of_nat (length l) -> data v = map Obj l ++ raws m ->
    move_to v (raws (length l) ++ q) = Ok (map Obj l ++ q).
  Proof.
    intros v l m q S D. unfold move_to. rewrite S, Nat2N.id, D.
    pose proof (move_construct_spec l [] (raws m) [] q 0 eq_refl eq_refl) as M. cbn [app] in M. rewrite M. cbn [bind].
    pose proof (destroy_reverse_spec (repeat Husk (length l)) [] (raws m) (length l) 0) as DR. cbn [app] in DR.
    rewrite DR; auto; [|rewrite repeat_length; auto|apply live_husks]. cbn [bind].
    rewrite <- raws_add, release_raws. auto.
  Qed.

  Lemma eval_own : forall v l i, rep v l ->
    eval v (Own i) = match nth_error l (N.to_nat i) with Some x => Ok x | None => UB end.
  Proof.
    intros v l i R. cbn. rewrite (r_data _ _ R). unfold cread. destruct (nth_error l (N.to_nat i)) eqn:E.
    - rewrite nth_error_app1 by (rewrite map_length; apply nth_error_Some; congruence). rewrite nth_error_map, E. auto.
    - apply nth_error_None in E. rewrite nth_error_app2 by (rewrite map_length; auto). rewrite map_length.
      destruct (nth_error (raws _) _) eqn:F; auto. apply nth_error_In in F. apply repeat_spec in F. subst. auto.
  Qed.

  Lemma emplace_back_spec : forall v l a x, rep v l -> (N.of_nat (length l) < 2 ^ 48)%N -> eval v a = Ok x ->
    exists v', emplace_back v a = Ok v' /\ rep v' (l ++ [x]).
  Proof.
    intros v l a x R B EV. pose proof (r_size _ _ R) as S. pose proof (r_max _ _ R) as M. pose proof (r_cap _ _ R) as C.
    pose proof (r_data _ _ R) as D. unfold emplace_back. rewrite EV. cbn [bind].
    assert (LL : length (l ++ [x]) = length l + 1) by (rewrite app_length; auto).
    destruct (N.eqb_spec (size v) (cap v)) as [E|E].
    - set (nc := (if (cap v =? 0)%N then 1 else wrap 64 (N.shiftl (cap v) 1))%N).
      assert (NC : (size v < nc /\ nc <= 2 ^ 49)%N).
      { unfold nc. rewrite N.shiftl_mul_pow2. change (2 ^ 1)%N with 2%N. pows. destruct (N.eqb_spec (cap v) 0); [lia|].
        rewrite wrap_small by (pows; lia). lia. }
      clearbody nc. rewrite S, Nat2N.id.
      replace (raws (N.to_nat nc)) with (raws (length l) ++ Raw :: raws (N.to_nat nc - length l - 1)).
      2:{ rewrite <- raws_S, <- raws_add. f_equal. lia. }
      rewrite construct_mid by (rewrite raw_storage_length; auto). cbn [bind].
      rewrite (move_to_spec v l _ _ S D). cbn [bind]. eexists. split; [reflexivity|]. rewrite wadd_small by (pows; lia).
      constructor; cbn [size cap data]; rewrite ?LL; try lia. rewrite map_app, <- app_assoc. cbn. do 3 f_equal. lia.
    - rewrite D. replace (raws (N.to_nat (cap v) - length l)) with (Raw :: raws (N.to_nat (cap v) - length l - 1)) by (rewrite <- raws_S; f_equal; lia).
      rewrite S, Nat2N.id, construct_mid by (rewrite map_length; auto). cbn [bind]. eexists. split; [reflexivity|].
      rewrite wadd_small by (pows; lia).
      constructor; cbn [size cap data]; rewrite ?LL; try lia. rewrite map_app, <- app_assoc. cbn. do 3 f_equal. lia.
  Qed.

  Lemma reserve_spec : forall v l n, rep v l -> (n <= 2 ^ 48)%N ->
    exists v', reserve v n = Ok v' /\ rep v' l /\ (n <= cap v')%N /\ ((n <= cap v)%N -> v' = v).
  Proof.
    intros v l n R B. pose proof (r_size _ _ R) as S. pose proof (r_max _ _ R) as M. pose proof (r_cap _ _ R) as C.
    pose proof (r_data _ _ R) as D. unfold reserve. rewrite (proj2 (N.leb_le _ _) B). cbn [contract bind].
    destruct (N.leb_spec n (cap v)); [exists v; auto|].
    set (nc := (if (wrap 64 (N.shiftl (cap v) 1) <? n)%N then n else wrap 64 (N.shiftl (cap v) 1))).
    assert (NC : (n <= nc /\ nc <= 2 ^ 49)%N).
    { unfold nc. rewrite N.shiftl_mul_pow2. change (2 ^ 1)%N with 2%N. pows. rewrite wrap_small by (pows; lia).
      destruct (N.ltb_spec (cap v * 2) n); lia. }
    clearbody nc. replace (raws (N.to_nat nc)) with (raws (length l) ++ raws (N.to_nat nc - length l)) by (rewrite <- raws_add; f_equal; lia).
    rewrite (move_to_spec v l _ _ S D). cbn [bind]. eexists. split; [reflexivity|]. split; [|cbn; split; [lia|lia]].
    constructor; cbn [size cap data]; auto; lia.
  Qed.
  Lemma reserve_too_much : forall v n, (2 ^ 48 < n)%N -> reserve v n = Contract.
  Proof. intros v n H. unfold reserve. destruct (N.leb_spec n (2 ^ 48)); auto. lia. Qed.

  Lemma push_back_range_spec : forall v l vs, rep v l -> (N.of_nat (length l + length vs) <= 2 ^ 48)%N ->
    exists v', push_back_range v vs = Ok v' /\ rep v' (l ++ vs).
  Proof.
    intros v l vs R B. unfold push_back_range. destruct vs as [|x vs]; [exists v; rewrite app_nil_r; auto|].
    set (ws := x :: vs) in *. clearbody ws. rewrite (r_size _ _ R), wadd_small by (pows; lia).
    destruct (reserve_spec v l (N.of_nat (length l) + N.of_nat (length ws)) R) as [v' [E [R' [C _]]]]; [pows; lia|].
    rewrite E. cbn [bind]. pose proof (r_size _ _ R') as S. pose proof (r_data _ _ R') as D. rewrite S, Nat2N.id, D.
    replace (raws (N.to_nat (cap v') - length l)) with (raws (length ws) ++ raws (N.to_nat (cap v') - (length l + length ws)))
      by (rewrite <- raws_add; f_equal; lia).
    rewrite copy_construct_spec by (rewrite map_length; auto). cbn [bind]. eexists. split; [reflexivity|].
    rewrite wadd_small by (pows; lia). pose proof (r_max _ _ R').
    constructor; cbn [size cap data]; rewrite ?app_length; try lia. rewrite map_app, <- app_assoc. auto.
  Qed.

  Lemma push_back_own_range_spec : forall v l p n, rep v l -> (p + n <= N.of_nat (length l))%N -> (N.of_nat (length l) + n <= 2 ^ 48)%N ->
    if ((n =? 0) || (N.of_nat (length l) + n <=? cap v))%N
    then exists v', push_back_own_range v p n = Ok v' /\ rep v' (l ++ firstn (N.to_nat n) (skipn (N.to_nat p) l))
    else push_back_own_range v p n = UB.
  Proof.
    intros v l p n R B B2. unfold push_back_own_range. destruct (N.eqb_spec n 0) as [Z|Z]; cbn [orb].
    - subst. exists v. rewrite firstn_O, app_nil_r. auto.
    - rewrite (r_size _ _ R), wadd_small by (pows; lia).
      destruct (reserve_spec v l (N.of_nat (length l) + n) R) as [v' [E [R' [C Q]]]]; [auto|]. rewrite E. cbn [bind].
      destruct (N.leb_spec (N.of_nat (length l) + n) (cap v)) as [H|H]; cbn [defined bind]; auto.
      rewrite (Q H) in *. clear v' E Q R'. set (ws := firstn (N.to_nat n) (skipn (N.to_nat p) l)).
      assert (LW : length ws = N.to_nat n) by (unfold ws; rewrite firstn_length, skipn_length; lia).
      assert (SP : l = firstn (N.to_nat p) l ++ ws ++ skipn (N.to_nat n) (skipn (N.to_nat p) l)).
      { unfold ws. rewrite firstn_skipn, firstn_skipn. auto. }
      pose proof (r_data _ _ R) as D.
      assert (RD : read_range (N.to_nat n) (N.to_nat p) (data v) = Ok ws).
      { rewrite D, SP, !map_app, <- !app_assoc, <- LW. apply read_range_spec. rewrite map_length, firstn_length. lia. }
      rewrite RD. cbn [bind]. rewrite (r_size _ _ R), Nat2N.id, D.
      replace (raws (N.to_nat (cap v) - length l)) with (raws (length ws) ++ raws (N.to_nat (cap v) - (length l + length ws)))
        by (rewrite <- raws_add; f_equal; lia).
      rewrite copy_construct_spec by (rewrite map_length; auto). cbn [bind]. eexists. split; [reflexivity|].
      rewrite wadd_small by (pows; lia). pose proof (r_max _ _ R).
      constructor; cbn [size cap data]; rewrite ?app_length; try lia. rewrite map_app, <- app_assoc. auto.
  Qed.

  Lemma insert_spec : forall v l i vs, rep v l -> (N.of_nat (length l + length vs) <= 2 ^ 48)%N -> N.to_nat i <= length l ->
    exists v', insert_range_at v i vs = Ok v' /\ rep v' (firstn (N.to_nat i) l ++ vs ++ skipn (N.to_nat i) l).
  Proof.
    intros v l i vs R B I. unfold insert_range_at. pose proof (r_size _ _ R) as S0.
    replace (i <=? size v)%N with true by (symmetry; apply N.leb_le; lia). cbn [contract bind].
    destruct vs as [|x vs]; [exists v; cbn [app]; rewrite firstn_skipn; auto|].
    assert (W1 : 1 <= length (x :: vs)) by (cbn; lia).
    set (ws := x :: vs) in *. clearbody ws. rewrite (r_size _ _ R), wadd_small by (pows; lia).
    destruct (reserve_spec v l (N.of_nat (length l) + N.of_nat (length ws)) R) as [v' [E [R' [C _]]]]; [pows; lia|].
    rewrite E. cbn [bind]. pose proof (r_size _ _ R') as S. pose proof (r_data _ _ R') as D. rewrite S, D.
    rewrite wsub_ge by (pows; lia).
    set (l1 := firstn (N.to_nat i) l). set (l2 := skipn (N.to_nat i) l).
    assert (SP : l = l1 ++ l2) by (unfold l1, l2; rewrite firstn_skipn; auto).
    assert (L1 : length l1 = N.to_nat i) by (unfold l1; rewrite firstn_length; lia).
    assert (L12 : length l = length l1 + length l2) by (rewrite SP, app_length; auto).
    replace (N.to_nat (N.of_nat (length l) - i)) with (length l2) by lia.
    replace (raws (N.to_nat (cap v') - length l)) with (raws (length ws) ++ raws (N.to_nat (cap v') - (length l + length ws)))
      by (rewrite <- raws_add; f_equal; lia).
    replace (map Obj l) with (map Obj l1 ++ @map A (cell A) Obj l2) by (rewrite SP, map_app; auto).
    rewrite <- app_assoc, relocate_spec; [|rewrite map_length; auto|auto]. cbn [bind].
    rewrite copy_construct_spec by (rewrite map_length; auto). cbn [bind]. eexists. split; [reflexivity|].
    rewrite wadd_small by (pows; lia). pose proof (r_max _ _ R').
    constructor; cbn [size cap data]; rewrite ?app_length; try lia. rewrite !map_app, <- !app_assoc. do 4 f_equal. lia.
  Qed.

  Lemma destroy_to_spec : forall v l1 g q, data v = map Obj l1 ++ g ++ q -> Forall live g -> size v = N.of_nat (length l1 + length g) ->
    destroy_to v (N.of_nat (length l1)) = Ok (map Obj l1 ++ raws (length g) ++ q).
  Proof.
    intros v l1 g q D F S. unfold destroy_to. rewrite S, !Nat2N.id, D. replace (length l1 + length g - length l1) with (length g) by lia.
    apply destroy_reverse_spec; auto. rewrite map_length. auto.
  Qed.
  (* after the elements have been compacted: drop everything behind l1 *)
  Lemma shrunk : forall v l l1 g, rep v l -> length l1 + length g = length l -> Forall live g ->
    exists v', (let! d := destroy_to (mkV (map Obj l1 ++ g ++ raws (N.to_nat (cap v) - length l)) (size v) (cap v)) (N.of_nat (length l1)) in
                Ok (mkV d (N.of_nat (length l1)) (cap v))) = Ok v' /\ rep v' l1.
  Proof.
    intros v l l1 g R L F. rewrite (destroy_to_spec _ l1 g (raws (N.to_nat (cap v) - length l))); auto.
    - cbn [bind]. eexists. split; [reflexivity|]. pose proof (r_cap _ _ R). constructor; cbn [size cap data]; auto; [apply (r_max _ _ R)|lia|].
      rewrite <- raws_add. do 2 f_equal. lia.
    - cbn. rewrite (r_size _ _ R). f_equal. lia.
  Qed.

  Lemma last_split : forall (l : list A) x t, rev l = x :: t -> l = removelast l ++ [x] /\ removelast l = rev t.
  Proof.
    intros l x t E. assert (l = rev t ++ [x]) by (rewrite <- (rev_involutive l), E; auto). subst.
    rewrite removelast_last. auto.
  Qed.
  Lemma rep_snoc : forall v l x, rep v (l ++ [x]) ->
    wsub 64 (size v) 1 = N.of_nat (length l) /\ (0 <? size v)%N = true /\
    data v = map Obj l ++ Obj x :: raws (N.to_nat (cap v) - length l - 1) /\
    forall d', d' = map Obj l ++ Raw :: raws (N.to_nat (cap v) - length l - 1) -> rep (mkV d' (N.of_nat (length l)) (cap v)) l.
  Proof.
    intros v l x R. pose proof (r_size _ _ R) as S. pose proof (r_cap _ _ R) as C. pose proof (r_max _ _ R) as M. pose proof (r_data _ _ R) as D.
    rewrite app_length in *. cbn in S, C, D. split; [rewrite S, wsub_ge by (pows; lia); lia|].
    split; [apply N.ltb_lt; lia|]. split; [rewrite D, map_app, <- app_assoc; cbn; do 3 f_equal; lia|].
    intros d' ->. constructor; cbn [size cap data]; auto; try lia. f_equal. rewrite <- raws_S. f_equal. lia.
  Qed.
  Lemma pop_back_spec : forall v l x, rep v (l ++ [x]) -> exists v', pop_back v = Ok v' /\ rep v' l.
  Proof.
    intros v l x R. destruct (rep_snoc _ _ _ R) as [W [P [D N]]]. unfold pop_back. rewrite P. cbn [contract bind].
    rewrite W, Nat2N.id, D, destroy_mid; [|rewrite map_length; auto|exact I]. cbn [bind]. eexists. split; [reflexivity|]. auto.
  Qed.
  Lemma get_pop_spec : forall v l x, rep v (l ++ [x]) -> exists v', get_and_pop_back v = Ok (x, v') /\ rep v' l.
  Proof.
    intros v l x R. destruct (rep_snoc _ _ _ R) as [W [P [D N]]]. unfold get_and_pop_back. rewrite P. cbn [contract bind].
    rewrite W, Nat2N.id, D, move_out_mid by (rewrite map_length; auto). cbn [bind].
    rewrite destroy_mid; [|rewrite map_length; auto|exact I]. cbn [bind]. eexists. split; [reflexivity|]. auto.
  Qed.

  Lemma resize_spec : forall v l n x, rep v l -> (n <= 2 ^ 48)%N ->
    exists v', resize v n x = Ok v' /\ rep v' (firstn (N.to_nat n) l ++ repeat x (N.to_nat n - length l)).
  Proof.
    intros v l n x R B. unfold resize.
    assert (E : exists v', (if (cap v <? n)%N then reserve v n else Ok v) = Ok v' /\ rep v' l /\ (n <= cap v')%N).
    { destruct (N.ltb_spec (cap v) n); [|exists v; split; auto]. destruct (reserve_spec v l n R B) as [v' [E [R' [C _]]]]. exists v'. auto. }
    destruct E as [v0 [-> [R0 C]]]. clear v R. rename v0 into v, R0 into R. cbn [bind]. pose proof (r_size _ _ R) as S. pose proof (r_cap _ _ R) as C2. pose proof (r_data _ _ R) as D.
    rewrite S, Nat2N.id, D. set (k := N.to_nat n - length l).
    replace (raws (N.to_nat (cap v) - length l)) with (raws (length (repeat x k)) ++ raws (N.to_nat (cap v) - (length l + k)))
      by (rewrite <- raws_add, repeat_length; f_equal; lia).
    rewrite copy_construct_spec by (rewrite map_length; auto). cbn [bind].
    destruct (le_lt_dec (N.to_nat n) (length l)) as [Q|Q].
    - replace k with 0 by lia. cbn [repeat map app]. rewrite app_nil_r, Nat.add_0_r.
      set (l1 := firstn (N.to_nat n) l). set (l2 := skipn (N.to_nat n) l). assert (SP : l = l1 ++ l2) by (unfold l1, l2; rewrite firstn_skipn; auto).
      assert (L1 : length l1 = N.to_nat n) by (unfold l1; rewrite firstn_length; lia).
      destruct (shrunk v l l1 (map Obj l2) R) as [v' [E R']]; [rewrite map_length, SP, app_length; auto|apply live_objs|].
      exists v'. split; auto. rewrite <- E. replace (N.of_nat (length l1)) with n by lia. rewrite S. replace (map Obj l) with (map Obj l1 ++ @map A (cell A) Obj l2) by (rewrite SP, map_app; auto).
      rewrite <- app_assoc. auto.
    - rewrite firstn_all2 by lia. assert (LK : length (l ++ repeat x k) = N.to_nat n) by (rewrite app_length, repeat_length; lia).
      unfold destroy_to. cbn [size data cap]. replace (N.to_nat (N.of_nat (length l)) - N.to_nat n) with 0 by lia. cbn [destroy_reverse bind].
      eexists. split; [reflexivity|]. pose proof (r_max _ _ R). constructor; cbn [size cap data]; rewrite ?LK; auto; try lia.
      rewrite map_app, <- app_assoc. do 3 f_equal. lia.
  Qed.

  Lemma clear_spec : forall v l, rep v l -> exists v', clear v = Ok v' /\ rep v' [].
  Proof.
    intros v l R. destruct (shrunk v l [] (map Obj l) R) as [v' [E R']]; [rewrite map_length; auto|apply live_objs|].
    exists v'. split; auto. rewrite <- E. unfold clear. cbn [app map]. rewrite <- (r_data _ _ R). destruct v; auto.
  Qed.
  Lemma destructor_spec : forall v l, rep v l -> destructor v = Ok tt.
  Proof.
    intros v l R. unfold destructor. pose proof (destroy_to_spec v [] (map Obj l) (raws (N.to_nat (cap v) - length l))) as E.
    cbn [length map app] in E. change (N.of_nat 0) with 0%N in E. rewrite E; [|apply (r_data _ _ R)|apply live_objs|rewrite map_length; apply (r_size _ _ R)].
    cbn [bind]. rewrite <- raws_add. apply release_raws.
  Qed.

  Lemma filter_split_length : forall (p : A -> bool) l, length (filter (fun x => negb (p x)) l) + length (filter p l) = length l.
  Proof. induction l; cbn; auto. destruct (p a); cbn; lia. Qed.
  Lemma remove_all_spec : forall v l p, rep v l -> (N.of_nat (length l) < 2 ^ 64)%N ->
    exists v', remove_all v p = Ok (N.of_nat (length (filter p l)), v') /\ rep v' (filter (fun x => negb (p x)) l).
  Proof.
    intros v l p R B. unfold remove_all. rewrite (r_size _ _ R), Nat2N.id, (r_data _ _ R).
    destruct (remove_loop_spec p l [] [] (raws (N.to_nat (cap v) - length l)) 0 0) as [g [L [F E]]]; auto.
    cbn [app length] in E. rewrite E. cbn [bind]. rewrite Nat.add_0_l. cbn in L.
    destruct (shrunk v l (filter (fun x => negb (p x)) l) g R) as [v' [E2 R']]; auto; [pose proof (filter_split_length p l); lia|].
    exists v'. rewrite <- (r_size _ _ R) in *. split; auto.
    match type of E2 with bind ?d _ = _ => destruct d; try discriminate end. cbn [bind] in *. rewrite (r_size _ _ R) in *.
    injection E2 as <-. rewrite wsub_ge; [|lia|pose proof (filter_split_length p l); lia].
    do 2 f_equal. pose proof (filter_split_length p l). lia.
  Qed.

  Lemma remove_range_spec : forall v l i n, rep v l -> (i + n < 2 ^ 64)%N -> (0 < n)%N ->
    if N.to_nat i + N.to_nat n <=? length l
    then exists v', remove_range v i n = Ok v' /\ rep v' (firstn (N.to_nat i) l ++ skipn (N.to_nat i + N.to_nat n) l)
    else remove_range v i n = Contract.
  Proof.
    intros v l i n R B Z. unfold remove_range. rewrite (proj2 (N.eqb_neq n 0)) by lia. rewrite wadd_small by auto.
    pose proof (r_size _ _ R) as S. pose proof (r_max _ _ R) as M. pose proof (r_cap _ _ R) as C. pose proof (r_data _ _ R) as D.
    destruct (Nat.leb_spec (N.to_nat i + N.to_nat n) (length l)) as [H|H].
    2:{ destruct (N.ltb_spec i (size v)); cbn [contract bind]; auto. destruct (N.leb_spec (i + n) (size v)); cbn; auto. lia. }
    rewrite (proj2 (N.ltb_lt i (size v))) by lia. rewrite (proj2 (N.leb_le (i + n) (size v))) by lia. cbn [contract bind].
    rewrite wsub_ge by (pows; lia).
    set (l1 := firstn (N.to_nat i) l). set (g := firstn (N.to_nat n) (skipn (N.to_nat i) l)). set (l2 := skipn (N.to_nat i + N.to_nat n) l).
    assert (L1 : length l1 = N.to_nat i) by (unfold l1; rewrite firstn_length; lia).
    assert (LG : length g = N.to_nat n) by (unfold g; rewrite firstn_length, skipn_length; lia).
    assert (SP : l = l1 ++ g ++ l2).
    { unfold l1, g, l2. rewrite <- skipn_skipn, firstn_skipn, firstn_skipn. auto. }
    assert (LL : length l = length l1 + length g + length l2) by (rewrite SP, !app_length; lia).
    assert (LD : length (data v) = N.to_nat (cap v)) by (rewrite D, app_length, map_length, raw_storage_length; lia).
    assert (SH : shift64 (Datatypes.S (length (data v))) i (size v - n) n (data v) = shift (length l2) (N.to_nat i) (N.to_nat n) (data v)).
    { rewrite <- (shift64_shift (length l2) (N.to_nat i) (N.to_nat n) (data v) (Datatypes.S (length (data v)))); [|lia|lia].
      rewrite !N2Nat.id. f_equal. lia. }
    rewrite SH, D. clear SH. replace (map Obj l) with (map Obj l1 ++ map Obj g ++ @map A (cell A) Obj l2) by (rewrite SP, !map_app; auto).
    rewrite <- !app_assoc.
    destruct (shift_spec l2 (map Obj l1) (map Obj g) (raws (N.to_nat (cap v) - length l)) (N.to_nat i) (N.to_nat n)) as [g' [G1 [G2 E]]];
      [rewrite map_length; auto|rewrite map_length; auto|lia|apply live_objs|].
    rewrite E. cbn [bind]. destruct (shrunk v l (l1 ++ l2) g' R) as [v' [E2 R']]; auto; [rewrite app_length; lia|].
    exists v'. split; auto. rewrite <- E2. rewrite map_app, <- !app_assoc. replace (N.of_nat (length (l1 ++ l2))) with (size v - n)%N by (rewrite app_length; lia).
    auto.
  Qed.

  Lemma remove_at_spec : forall v l i, rep v l -> N.to_nat i < length l ->
    exists v', remove_at v i = Ok v' /\ rep v' (firstn (N.to_nat i) l ++ skipn (S (N.to_nat i)) l).
  Proof.
    intros v l i R H. pose proof (r_size _ _ R) as S. pose proof (r_max _ _ R) as M. pose proof (r_cap _ _ R) as C. pose proof (r_data _ _ R) as D.
    unfold remove_at. rewrite (proj2 (N.ltb_lt i (size v))) by lia. cbn [contract bind]. rewrite wsub_ge by (pows; lia).
    destruct (nth_error l (N.to_nat i)) as [x|] eqn:NE; [|apply nth_error_None in NE; lia].
    destruct (split_nth _ _ _ _ NE) as [SP L1]. set (l1 := firstn (N.to_nat i) l) in *. set (l2 := skipn (Datatypes.S (N.to_nat i)) l) in *.
    assert (LL : length l = length l1 + 1 + length l2) by (rewrite SP, app_length; cbn; lia).
    replace (N.to_nat (size v) - N.to_nat i - 1) with (length l2) by lia.
    rewrite D. replace (map Obj l) with (map Obj l1 ++ Obj x :: @map A (cell A) Obj l2) by (rewrite SP, map_app; auto).
    rewrite <- app_assoc. cbn [map app].
    destruct (shift_spec l2 (map Obj l1) [Obj x] (raws (N.to_nat (cap v) - length l)) (N.to_nat i) 1) as [g' [G1 [G2 E]]];
      auto; [rewrite map_length; auto|repeat constructor|]. cbn [app] in E. rewrite E. cbn [bind].
    destruct g' as [|c [|]]; try discriminate. pose proof (Forall_inv G2) as Lc. cbn [app].
    replace (map Obj l1 ++ map Obj l2 ++ c :: raws (N.to_nat (cap v) - length l)) with (map Obj (l1 ++ l2) ++ c :: raws (N.to_nat (cap v) - length l))
      by (rewrite map_app, <- app_assoc; auto).
    rewrite destroy_mid; auto; [|rewrite map_length, app_length; lia]. cbn [bind]. eexists. split; [reflexivity|].
    constructor; cbn [size cap data]; rewrite ?app_length; try lia. f_equal. rewrite <- raws_S. f_equal. lia.
  Qed.

  Lemma swap_spec : forall l i x y t (q : list (cell A)), nth_error l i = Some x -> rev l = y :: t ->
    exists d, swap (map Obj l ++ q) i (length l - 1) = Ok d /\ d = map Obj (removelast (replace_at l i y) ++ [x]) ++ q.
  Proof.
    intros l i x y t q NE RV. destruct (last_split _ _ _ RV) as [SP _]. set (m := removelast l) in *.
    assert (LL : length l = length m + 1) by (rewrite SP, app_length; auto).
    unfold swap.
    assert (Hi : i < length l) by (apply nth_error_Some; congruence).
    destruct (Nat.eqb_spec i (length l - 1)) as [E|E].
    - assert (i = length m) by lia. clear E. assert (x = y) by (rewrite SP, nth_error_app2 in NE by lia; replace (i - length m) with 0 in NE by lia; inversion NE; auto).
      subst x. replace (map Obj l) with (map Obj m ++ [@Obj A y]) by (rewrite SP, map_app; auto). rewrite <- app_assoc. cbn [map app].
      rewrite move_out_mid by (rewrite map_length; auto). cbn [bind]. rewrite assign_mid; [|rewrite map_length; lia|exact I].
      eexists. split; [reflexivity|]. rewrite replace_at_lset. replace (lset l i y) with (lset (m ++ [y]) i y) by (rewrite <- SP; auto). rewrite lset_mid by auto. rewrite removelast_last, map_app, <- app_assoc. auto.
    - assert (NM : nth_error m i = Some x) by (rewrite SP, nth_error_app1 in NE by lia; auto).
      destruct (split_nth _ _ _ _ NM) as [SM LM]. set (m1 := firstn i m) in *. set (m2 := skipn (S i) m) in *. clearbody m1 m2 m. clear NM.
      assert (LM2 : length m = length m1 + 1 + length m2) by (rewrite SM, app_length; cbn [length]; lia).
      assert (SL : l = m1 ++ x :: m2 ++ [y]) by (rewrite SP, SM, <- app_assoc; auto).
      replace (map Obj l) with (map Obj m1 ++ @map A (cell A) Obj (x :: m2 ++ [y])) by (rewrite SL, map_app; auto). rewrite <- app_assoc. cbn [map app].
      rewrite move_out_mid by (rewrite map_length; auto). cbn [bind]. rewrite (map_app Obj m2), <- app_assoc. cbn [map app].
      rewrite move_assign_mid; [|rewrite map_length; auto|rewrite !map_length; lia|exact I]. cbn [bind].
      replace (map Obj m1 ++ Obj y :: map Obj m2 ++ Husk :: q) with ((map Obj m1 ++ Obj y :: map Obj m2) ++ Husk :: q) by (rewrite <- app_assoc; auto).
      rewrite assign_mid; [|rewrite app_length; cbn; rewrite !map_length; lia|exact I]. eexists. split; [reflexivity|].
      rewrite replace_at_lset. replace (lset l i y) with (lset (m1 ++ x :: m2 ++ [y]) i y) by (rewrite <- SL; auto). rewrite lset_mid by auto.
      replace (m1 ++ y :: m2 ++ [y]) with ((m1 ++ y :: m2) ++ [y]) by (rewrite <- app_assoc; auto). rewrite removelast_last.
      rewrite !map_app, <- !app_assoc. auto.
  Qed.
  Lemma unordered_spec : forall v l i, rep v l -> N.to_nat i < length l ->
    exists v', remove_at_unordered v i = Ok v' /\ rep v' (unordered_remove l (N.to_nat i)).
  Proof.
    intros v l i R H. pose proof (r_size _ _ R) as S. pose proof (r_max _ _ R) as M. pose proof (r_cap _ _ R) as C.
    unfold remove_at_unordered, empty. rewrite (proj2 (N.ltb_lt i (size v))) by lia. rewrite (proj2 (N.eqb_neq (size v) 0)) by lia. cbn [contract bind negb].
    rewrite wsub_ge by (pows; lia). destruct (nth_error l (N.to_nat i)) as [x|] eqn:NE; [|apply nth_error_None in NE; lia].
    unfold unordered_remove. destruct (rev l) as [|y t] eqn:RV; [apply (f_equal (@length A)) in RV; rewrite rev_length in RV; cbn in RV; lia|].
    rewrite (r_data _ _ R). destruct (swap_spec l _ x y t (raws (N.to_nat (cap v) - length l)) NE RV) as [d [E D]]. replace (N.to_nat (size v - 1)) with (length l - 1) by lia. rewrite E. cbn [bind].
    assert (LR : length (removelast (replace_at l (N.to_nat i) y)) + 1 = length l).
    { destruct (last_split _ _ _ RV) as [SP _]. assert (length (replace_at l (N.to_nat i) y) = length l) by (rewrite replace_at_lset, lset_length; auto).
      set (z := replace_at l (N.to_nat i) y) in *. destruct (exists_last (l := z)) as [z' [w Ez]]; [intro Z; rewrite Z in *; cbn in *; lia|].
      rewrite Ez in *. rewrite removelast_last. rewrite app_length in *. cbn in *. lia. }
    eapply pop_back_spec. constructor; cbn [size cap data]; rewrite ?app_length; cbn [length]; try lia.
    rewrite D. do 2 f_equal. lia.
  Qed.

  Lemma first_match_exists : forall (p : A -> bool) l, existsb p l = match first_match p l with Some _ => true | None => false end.
  Proof. induction l; cbn; auto. destruct (p a); cbn; auto. rewrite IHl. destruct (first_match p l); auto. Qed.
  Lemma first_match_lt : forall (p : A -> bool) l i, first_match p l = Some i -> i < length l.
  Proof. induction l; cbn; intros i E; try discriminate. destruct (p a); [inversion E; lia|]. destruct (first_match p l); inversion E. specialize (IHl _ eq_refl). lia. Qed.
  Lemma first_match_remove : forall (p : A -> bool) l, remove_first_match p l =
    match first_match p l with Some i => firstn i l ++ skipn (S i) l | None => l end.
  Proof. induction l; cbn; auto. destruct (p a); cbn; auto. rewrite IHl. destruct (first_match p l); auto. Qed.

  Lemma find_spec : forall v l p, rep v l -> find_loop p (N.to_nat (size v)) 0 (data v) = Ok (first_match p l).
  Proof.
    intros v l p R. rewrite (r_size _ _ R), Nat2N.id, (r_data _ _ R).
    pose proof (find_loop_spec p l [] (raws (N.to_nat (cap v) - length l)) 0 eq_refl) as E. cbn [app] in E. rewrite E.
    destruct (first_match p l); auto.
  Qed.

  Lemma index_spec : forall v l i, rep v l -> index v i = match nth_error l (N.to_nat i) with Some x => Ok x | None => Contract end.
  Proof.
    intros v l i R. unfold index. pose proof (eval_own v l i R) as E. cbn in E. rewrite E. rewrite (r_size _ _ R).
    destruct (nth_error l (N.to_nat i)) eqn:NE.
    - assert (N.to_nat i < length l) by (apply nth_error_Some; congruence). rewrite (proj2 (N.ltb_lt _ _)) by lia. auto.
    - apply nth_error_None in NE. destruct (N.ltb_spec i (N.of_nat (length l))); cbn; auto. lia.
  Qed.
  Lemma front_spec : forall v l, rep v l -> front v = match l with x :: _ => Ok x | [] => Contract end.
  Proof.
    intros v l R. unfold front, empty. rewrite (r_size _ _ R), (r_data _ _ R). destruct l; auto.
  Qed.
  Lemma back_spec : forall v l, rep v l -> back v = match rev l with x :: _ => Ok x | [] => Contract end.
  Proof.
    intros v l R. unfold back, empty. destruct (rev l) as [|x t] eqn:RV.
    - rewrite (r_size _ _ R). assert (l = []) by (rewrite <- (rev_involutive l), RV; auto). subst. auto.
    - destruct (last_split _ _ _ RV) as [SP _]. rewrite SP in R. destruct (rep_snoc _ _ _ R) as [W [P [D _]]].
      apply N.ltb_lt in P. rewrite (proj2 (N.eqb_neq (size v) 0)) by lia. cbn [contract bind negb]. rewrite W, Nat2N.id, D.
      apply cread_mid. rewrite map_length. auto.
  Qed.
  Lemma set_spec : forall v l i x, rep v l -> N.to_nat i < length l ->
    exists v', set_at v i x = Ok v' /\ rep v' (replace_at l (N.to_nat i) x).
  Proof.
    intros v l i x R H. unfold set_at. pose proof (r_size _ _ R) as S. rewrite (proj2 (N.ltb_lt i (size v))) by lia. cbn [contract bind].
    destruct (nth_error l (N.to_nat i)) as [y|] eqn:NE; [|apply nth_error_None in NE; lia].
    destruct (split_nth _ _ _ _ NE) as [SP L1]. rewrite (replace_at_split _ _ _ _ _ NE). rewrite (r_data _ _ R).
    set (l1 := firstn _ l) in *. set (l2 := skipn _ l) in *. clearbody l1 l2. clear NE.
    assert (LL : length l = length l1 + 1 + length l2) by (rewrite SP, app_length; cbn; lia).
    replace (map Obj l) with (map Obj l1 ++ Obj y :: @map A (cell A) Obj l2) by (rewrite SP, map_app; auto).
    rewrite <- app_assoc. cbn [app]. rewrite assign_mid; [|rewrite map_length; auto|exact I]. cbn [bind]. eexists. split; [reflexivity|].
    pose proof (r_cap _ _ R). pose proof (r_max _ _ R).
    constructor; cbn [size cap data]; rewrite ?app_length; cbn [length]; auto; try lia. rewrite map_app, <- app_assoc. cbn [map app]. rewrite LL. do 5 f_equal. lia.
  Qed.

  Lemma values_spec : forall v l, rep v l -> values v = Ok l.
  Proof.
    intros v l R. unfold values. rewrite (r_size _ _ R), Nat2N.id, (r_data _ _ R).
    pose proof (read_range_spec l [] (raws (N.to_nat (cap v) - length l)) 0 eq_refl) as E. exact E.
  Qed.
  Lemma fill_spec : forall vs n, n = length vs -> copy_construct vs 0 (raws n) = Ok (map Obj vs).
  Proof.
    intros vs n ->. pose proof (copy_construct_spec vs [] [] 0 eq_refl) as E. cbn [app] in E. rewrite !app_nil_r in E. auto.
  Qed.
  Lemma make_sized_spec : forall n (x : A), (n <= 2 ^ 49)%N -> exists v, make_sized n x = Ok v /\ rep v (repeat x (N.to_nat n)).
  Proof.
    intros n x B. unfold make_sized. rewrite fill_spec by (rewrite repeat_length; auto). cbn [bind]. eexists. split; [reflexivity|].
    constructor; cbn [size cap data]; rewrite ?repeat_length; auto; try lia. rewrite Nat.sub_diag. cbn. rewrite app_nil_r. auto.
  Qed.
  Lemma make_from_spec : forall vs, (N.of_nat (length vs) <= 2 ^ 48)%N -> exists v, make_from vs = Ok v /\ rep v vs.
  Proof.
    intros vs B. unfold make_from. destruct (reserve_spec init [] _ rep_init B) as [v [E [R [C _]]]]. rewrite E. cbn [bind].
    rewrite (r_data _ _ R). cbn [map app length]. rewrite Nat.sub_0_r.
    replace (raws (N.to_nat (cap v))) with (raws (length vs) ++ raws (N.to_nat (cap v) - length vs)) by (rewrite <- raws_add; f_equal; lia).
    pose proof (copy_construct_spec vs [] (raws (N.to_nat (cap v) - length vs)) 0 eq_refl) as CC. cbn [app] in CC. rewrite CC. cbn [bind].
    eexists. split; [reflexivity|]. pose proof (r_max _ _ R). constructor; cbn [size cap data]; auto; lia.
  Qed.
  Lemma copy_assign_spec : forall v l rhs r, rep v l -> rep rhs r -> (N.of_nat (length r) <= 2 ^ 49)%N ->
    exists v', copy_assign v rhs = Ok v' /\ rep v' r.
  Proof.
    intros v l rhs r R R2 B. unfold copy_assign. pose proof (r_cap _ _ R) as C. pose proof (r_max _ _ R) as M.
    pose proof (destroy_to_spec v [] (map Obj l) (raws (N.to_nat (cap v) - length l))) as E.
    cbn [length map app] in E. change (N.of_nat 0) with 0%N in E. rewrite E; [|apply (r_data _ _ R)|apply live_objs|rewrite map_length; apply (r_size _ _ R)].
    cbn [bind]. rewrite <- raws_add, map_length. replace (length l + (N.to_nat (cap v) - length l)) with (N.to_nat (cap v)) by lia.
    rewrite release_raws. cbn [bind]. rewrite (r_size _ _ R2). rewrite (values_spec _ _ R2). destruct (N.ltb_spec (cap v) (N.of_nat (length r))); cbn [bind].
    - rewrite fill_spec by (rewrite Nat2N.id; auto). cbn [bind]. eexists. split; [reflexivity|].
      constructor; cbn [size cap data]; auto; try lia. rewrite Nat2N.id, Nat.sub_diag. cbn. rewrite app_nil_r. auto.
    - replace (raws (N.to_nat (cap v))) with (raws (length r) ++ raws (N.to_nat (cap v) - length r)) by (rewrite <- raws_add; f_equal; lia).
      pose proof (copy_construct_spec r [] (raws (N.to_nat (cap v) - length r)) 0 eq_refl) as CC. cbn [app] in CC. rewrite CC. cbn [bind].
      eexists. split; [reflexivity|]. constructor; cbn [size cap data]; auto; lia.
  Qed.

  Lemma shrink_spec : forall v l, rep v l -> exists v' old,
    shrink_to_fit v = Ok (v', old) /\ rep v' l /\ cap v' = size v' /\
    old = (if (size v =? cap v)%N then [] else repeat Husk (length l) ++ raws (N.to_nat (cap v) - length l)).
  Proof.
    intros v l R. unfold shrink_to_fit. pose proof (r_size _ _ R) as S. pose proof (r_max _ _ R) as M. pose proof (r_cap _ _ R) as C.
    destruct (N.eqb_spec (size v) (cap v)); [exists v, []; auto|].
    rewrite S, Nat2N.id, (r_data _ _ R). pose proof (move_construct_spec l [] (raws (N.to_nat (cap v) - length l)) [] [] 0 eq_refl eq_refl) as E.
    cbn [app] in E. rewrite !app_nil_r in E. rewrite E. cbn [bind]. eexists _, _. split; [reflexivity|]. cbn. split; auto.
    constructor; cbn [size cap data]; auto; try lia. rewrite Nat2N.id, Nat.sub_diag. cbn. rewrite app_nil_r. auto.
  Qed.

  Definition asks1 (o : op A) : N := match o with Reserve n | Resize n _ => n | _ => 0%N end.
  Definition no_wrap1 (o : op A) : Prop := match o with RemoveRange i n => (i + n < 2 ^ 64)%N | _ => True end.

  Lemma ideal_len : forall l o l' r, ideal l o = Some (l', r) ->
    (N.of_nat (length l') <= N.max (N.of_nat (length l) + adds o) (asks1 o))%N.
  Proof.
    assert (F : forall p l, length (@filter A p l) <= length l) by (induction l; cbn; auto; destruct (p a); cbn; lia).
    assert (RL : forall l : list A, length (removelast l) <= length l).
    { intro l. destruct l as [|x l] using rev_ind; cbn; auto. rewrite removelast_last, app_length. lia. }
    assert (RM : forall p l, length (@remove_first_match A p l) <= length l) by (induction l; cbn; auto; destruct (p a); cbn; lia).
    assert (RU : forall l i, length (@unordered_remove A l i) <= length l).
    { intros l i. unfold unordered_remove. destruct (rev l); cbn; [lia|]. etransitivity; [apply RL|]. rewrite replace_at_lset, lset_length. auto. }
    intros l o l' r E. destruct o; cbn in *;
      repeat match type of E with
      | match ?x with _ => _ end = _ => destruct x eqn:?; try discriminate
      end; try (injection E as <- <-); rewrite ?app_length, ?firstn_length, ?skipn_length, ?repeat_length; cbn [length]; try lia.
    all: try (pose proof (RL l); lia).
    - pose proof (RL (a :: l0)). cbn [length removelast] in *. lia.
    - pose proof (F (fun x => negb (p x)) l). lia.
    - pose proof (RM p l). lia.
    - destruct (first_match p l); [pose proof (RU l n)|]; lia.
    - destruct l; cbn [length]; rewrite ?skipn_length; lia.
    - pose proof (RU l (N.to_nat i)). lia.
    - rewrite replace_at_lset, lset_length. lia.
  Qed.

  Lemma step_spec : forall v l o, rep v l -> (N.of_nat (length l) + adds o <= 2 ^ 48)%N -> (asks1 o <= 2 ^ 48)%N -> no_wrap1 o ->
    match ideal l o with
    | Some (l', r) => exists v', step v o = Ok (v', r) /\ rep v' l'
    | None => step v o = Contract
    end.
  Proof.
    intros v l o R B Q W.
    assert (RU : forall (x : outcome (vec A)) l', (exists v', x = Ok v' /\ rep v' l') -> exists v', ru x = Ok (v', RUnit) /\ rep v' l').
    { intros x l' [v' [-> H]]. exists v'. auto. }
    pose proof (r_size _ _ R) as S.
    destruct o; cbn [ideal step adds asks1 no_wrap1] in *.
    - apply RU. eapply emplace_back_spec; eauto. pows; lia.
    - pose proof (eval_own v l i R) as E. rewrite S. destruct (nth_error l (N.to_nat i)) eqn:NE.
      + assert (N.to_nat i < length l) by (apply nth_error_Some; congruence). rewrite (proj2 (N.ltb_lt _ _)) by lia. cbn [contract bind].
        apply RU. eapply emplace_back_spec; eauto. pows; lia.
      + apply nth_error_None in NE. destruct (N.ltb_spec i (N.of_nat (length l))); cbn; auto. lia.
    - apply RU. apply push_back_range_spec; auto. lia.
    - destruct (Nat.leb_spec (N.to_nat i) (length l)).
      + apply RU. apply insert_spec; auto. lia.
      + unfold insert_range_at. rewrite S. destruct (N.leb_spec i (N.of_nat (length l))); cbn; auto. lia.
    - destruct (rev l) as [|x t] eqn:RV.
      + assert (l = []) by (rewrite <- (rev_involutive l), RV; auto). subst. unfold pop_back. rewrite S. auto.
      + destruct (last_split _ _ _ RV) as [SP _]. destruct l as [|y l0]; [discriminate|]. apply RU. set (l := y :: l0) in *. rewrite SP in R. eapply pop_back_spec; eauto.
    - destruct (rev l) as [|x t] eqn:RV.
      + assert (l = []) by (rewrite <- (rev_involutive l), RV; auto). subst. unfold get_and_pop_back. rewrite S. auto.
      + destruct (last_split _ _ _ RV) as [SP _]. rewrite SP in R. destruct (get_pop_spec _ _ _ R) as [v' [E R']]. exists v'. unfold rv. rewrite E. auto.
    - apply RU. destruct (reserve_spec v l n R Q) as [v' [E [R' _]]]. eauto.
    - apply RU. apply resize_spec; auto.
    - apply RU. eapply clear_spec; eauto.
    - destruct (remove_all_spec v l p R) as [v' [E R']]; [pows; lia|]. exists v'. unfold rv. rewrite E. auto.
    - unfold remove_first. rewrite (find_spec _ _ p R). cbn [bind]. rewrite first_match_exists, first_match_remove.
      destruct (first_match p l) as [i|] eqn:FM; [|exists v; auto]. pose proof (first_match_lt _ _ _ FM).
      destruct (remove_at_spec v l (N.of_nat i) R) as [v' [E R']]; [lia|]. rewrite Nat2N.id in R'. exists v'. unfold rv. rewrite E. auto.
    - unfold remove_first_unordered. rewrite (find_spec _ _ p R). cbn [bind]. rewrite first_match_exists.
      destruct (first_match p l) as [i|] eqn:FM; [|exists v; auto]. pose proof (first_match_lt _ _ _ FM).
      destruct (unordered_spec v l (N.of_nat i) R) as [v' [E R']]; [lia|]. rewrite Nat2N.id in R'. exists v'. unfold rv. rewrite E. auto.
    - destruct (N.eqb_spec n 0) as [Z|Z].
      + apply RU. exists v. unfold remove_range. subst. auto.
      + pose proof (remove_range_spec v l i n R W ltac:(lia)) as H. destruct (_ <=? _); [apply RU; auto|]. rewrite H. auto.
    - destruct (Nat.ltb_spec (N.to_nat i) (length l)).
      + apply RU. apply remove_at_spec; auto.
      + unfold remove_at. rewrite S. destruct (N.ltb_spec i (N.of_nat (length l))); cbn; auto. lia.
    - destruct (Nat.ltb_spec (N.to_nat i) (length l)).
      + apply RU. apply unordered_spec; auto.
      + unfold remove_at_unordered. rewrite S. destruct (N.ltb_spec i (N.of_nat (length l))); cbn; auto. lia.
    - rewrite (index_spec _ _ i R). destruct (nth_error l (N.to_nat i)); cbn; eauto.
    - destruct (Nat.ltb_spec (N.to_nat i) (length l)).
      + apply RU. apply set_spec; auto.
      + unfold set_at. rewrite S. destruct (N.ltb_spec i (N.of_nat (length l))); cbn; auto. lia.
    - rewrite (front_spec _ _ R). destruct l; cbn; eauto.
    - rewrite (back_spec _ _ R). destruct (rev l); cbn; eauto.
    - exists v. rewrite S. auto.
    - unfold contains. rewrite (find_spec _ _ p R). cbn. rewrite first_match_exists. eauto.
  Qed.

  (* ---- stores ---- *)
  Definition srep (b : N) (ov : option (vec A)) (ol : option (list A)) : Prop :=
    match ov, ol with
    | Some v, Some l => rep v l /\ (N.of_nat (length l) <= b)%N
    | None, None => True
    | _, _ => False
    end.
  Definition wrep b (w : world) (iw : iworld A) : Prop := Forall2 (srep b) w iw.

  Lemma srep_mono : forall b b' x y, (b <= b')%N -> srep b x y -> srep b' x y.
  Proof. intros b b' [v|] [l|] L H; cbn in *; auto. destruct H. split; auto. lia. Qed.
  Lemma wrep_mono : forall b b' w iw, (b <= b')%N -> wrep b w iw -> wrep b' w iw.
  Proof. intros b b' w iw L H. induction H; constructor; auto. eapply srep_mono; eauto. Qed.
  Lemma wrep_get : forall b w iw k, wrep b w iw -> named iw k -> exists v, getv w k = Ok v /\ rep v (iget iw k) /\ (N.of_nat (length (iget iw k)) <= b)%N.
  Proof.
    intros b w iw k H. revert k. induction H; intros k [l0 N].
    - destruct k; discriminate.
    - destruct k; cbn in N.
      + injection N as ->. unfold getv, iget. cbn. destruct x as [v|]; cbn in H; [|contradiction]. exists v. tauto.
      + destruct (IHForall2 k (ex_intro _ l0 N)) as [v [E1 E2]]. exists v. unfold getv, iget in *. cbn. auto.
  Qed.
  Lemma wrep_set : forall b w iw k x y, wrep b w iw -> srep b x y -> wrep b (lset w k x) (replace_at iw k y).
  Proof. intros b w iw k x y H S. revert k. induction H; intros [|k]; cbn; constructor; auto. apply IHForall2. Qed.
  Lemma wrep_app : forall b w iw x y, wrep b w iw -> srep b x y -> wrep b (w ++ [x]) (iw ++ [y]).
  Proof. intros. apply Forall2_app; auto. Qed.

  Lemma lset_self : forall B (w : list B) k x, nth_error w k = Some x -> lset w k x = w.
  Proof. induction w; intros [|k] x E; cbn in *; try discriminate; [inversion E; auto|]. f_equal. auto. Qed.

  Lemma wstep_spec : forall b w iw o, wrep b w iw -> wf_op iw o -> (b + wadds o <= 2 ^ 48)%N -> (2 ^ 47 <= b)%N -> (asks o <= 2 ^ 47)%N -> no_wrap o ->
    match iworld_step iw o with
    | Some (iw', r) => exists w', wstep w o = Ok (w', r) /\ wrep (b + wadds o) w' iw'
    | None => wstep w o = Contract
    end.
  Proof.
    intros b w iw o R W B B2 Q NW.
    destruct o; cbn [wstep iworld_step wf_op wadds asks no_wrap] in *; rewrite ?N.add_0_r.
    - destruct (wrep_get _ _ _ _ R W) as [v [G [RV L]]]. rewrite G. cbn [bind].
      assert (AQ : (asks1 o <= 2 ^ 47)%N) by (destruct o; cbn in *; auto).
      pose proof (step_spec v _ o RV) as H. specialize (H ltac:(lia) ltac:(pows; lia)).
      assert (NW1 : no_wrap1 o) by (destruct o; cbn in *; auto). specialize (H NW1).
      destruct (ideal (iget iw k) o) as [[l r]|] eqn:ID; [|rewrite H; auto]. destruct H as [v' [E R']]. rewrite E. cbn [bind].
      eexists. split; [reflexivity|]. apply wrep_set; [eapply wrep_mono; [|eauto]; lia|]. cbn. split; auto.
      pose proof (ideal_len _ _ _ _ ID). lia.
    - eexists. split; [reflexivity|]. apply wrep_app; auto. cbn. split; [apply rep_init|lia].
    - destruct (make_sized_spec n x) as [v [E RV]]; [pows; lia|]. rewrite E. cbn [bind]. eexists. split; [reflexivity|].
      apply wrep_app; auto. cbn. split; auto. rewrite repeat_length. lia.
    - destruct (make_from_spec vs) as [v [E RV]]; [pows; lia|]. rewrite E. cbn [bind]. eexists. split; [reflexivity|].
      apply wrep_app; auto. cbn. split; auto. lia.
    - destruct (wrep_get _ _ _ _ R W) as [v [G [RV L]]]. rewrite G. cbn [bind]. unfold copy_ctor. rewrite (values_spec _ _ RV). cbn [bind].
      destruct (make_from_spec (iget iw k)) as [v' [E RV']]; [lia|]. rewrite E. cbn [bind]. eexists. split; [reflexivity|].
      apply wrep_app; auto. cbn. auto.
    - destruct (wrep_get _ _ _ _ R W) as [v [G [RV L]]]. rewrite G. cbn [bind move_ctor]. eexists. split; [reflexivity|].
      apply wrep_app; [apply wrep_set; auto|]; cbn; auto. split; [apply rep_init|lia].
    - destruct W as [W1 W2]. destruct (wrep_get _ _ _ _ R W1) as [v [G [RV L]]]. destruct (wrep_get _ _ _ _ R W2) as [v2 [G2 [RV2 L2]]]. rewrite G, G2. cbn [bind].
      destruct (Nat.eqb_spec k j).
      + subst. eexists. split; [reflexivity|]. replace (replace_at iw j (Some (iget iw j))) with iw; auto.
        symmetry. rewrite replace_at_lset. apply lset_self. destruct W1 as [l E]. unfold iget. rewrite E. auto.
      + destruct (copy_assign_spec _ _ _ _ RV RV2) as [v' [E R']]; [pows; lia|]. rewrite E. cbn [bind]. eexists. split; [reflexivity|].
        apply wrep_set; cbn; auto.
    - destruct W as [W1 W2]. destruct (wrep_get _ _ _ _ R W1) as [v [G [RV L]]]. destruct (wrep_get _ _ _ _ R W2) as [v2 [G2 [RV2 L2]]]. rewrite G, G2. cbn [bind].
      destruct (Nat.eqb_spec k j).
      + subst. unfold self_move_assign. rewrite (destructor_spec _ _ RV). cbn [bind]. eexists. split; [reflexivity|].
        replace (replace_at (replace_at iw j (Some (iget iw j))) j (Some [])) with (replace_at iw j (Some [])).
        * apply wrep_set; auto. cbn. split; [apply rep_init|lia].
        * rewrite !replace_at_lset. f_equal. symmetry. apply lset_self. destruct W1 as [l E]. unfold iget. rewrite E. auto.
      + unfold move_assign. rewrite (destructor_spec _ _ RV). cbn [bind]. eexists. split; [reflexivity|].
        apply wrep_set; [apply wrep_set; cbn; auto|]. cbn. split; [apply rep_init|lia].
    - destruct (wrep_get _ _ _ _ R W) as [v [G [RV L]]]. rewrite G. cbn [bind]. rewrite (destructor_spec _ _ RV). cbn [bind]. eexists. split; [reflexivity|].
      apply wrep_set; auto.
  Qed.

  Lemma wrun_spec : forall os b w iw, wrep b w iw -> wf iw os -> (b + fold_right N.add 0 (map wadds os) <= 2 ^ 48)%N -> (2 ^ 47 <= b)%N ->
    Forall (fun o => (asks o <= 2 ^ 47)%N /\ no_wrap o) os ->
    match iworld_run iw os with
    | Some (iw', rs) => exists w', wrun w os = Ok (w', rs) /\ wrep (2 ^ 48) w' iw'
    | None => wrun w os = Contract
    end.
  Proof.
    induction os as [|o os IH]; intros b w iw R W B B2 F; cbn [iworld_run wrun wf map fold_right] in *.
    - exists w. split; auto. eapply wrep_mono; [|eauto]. lia.
    - inversion F as [|? ? [F1 F2] F3]; subst. destruct W as [W1 W2]. pose proof (wstep_spec b w iw o R W1 ltac:(lia) B2 F1 F2) as H.
      destruct (iworld_step iw o) as [[iw1 r]|]; [|rewrite H; auto]. destruct H as [w1 [E R1]]. rewrite E. cbn [bind].
      specialize (IH _ _ _ R1 W2 ltac:(lia) ltac:(lia) F3). destruct (iworld_run iw1 os) as [[iw2 rs]|]; [|rewrite IH; auto].
      destruct IH as [w2 [E2 R2]]. rewrite E2. cbn. eauto.
  Qed.
End V.

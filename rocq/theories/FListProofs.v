From Coq Require Import List Arith Bool Lia.
From Verif Require Import Base FListModel FListSpec.
Import ListNotations.

Lemma upd_length : forall B (l : list B) j x, j < length l -> length (upd l j x) = length l.
Proof. intros. unfold upd. rewrite app_length, firstn_length. cbn [length]. rewrite skipn_length. lia. Qed.
Lemma upd_nth : forall B (l : list B) j x i, j < length l ->
  nth_error (upd l j x) i = if j =? i then Some x else nth_error l i.
Proof.
  intros B l j x i H. unfold upd. destruct (Nat.eqb_spec j i).
  - subst. rewrite nth_error_app2 by (rewrite firstn_length; lia). rewrite firstn_length.
    replace (i - min i (length l)) with 0 by lia. reflexivity.
  - destruct (Nat.lt_ge_cases i j).
    + rewrite nth_error_app1 by (rewrite firstn_length; lia). apply nth_error_firstn_lt. auto.
    + rewrite nth_error_app2 by (rewrite firstn_length; lia). rewrite firstn_length.
      replace (i - min j (length l)) with (S (i - S j)) by lia. cbn [nth_error].
      rewrite nth_error_skipn. f_equal. lia.
Qed.

Section P.
  Context {A : Type}.
  Notation heap := (heap A).
  Implicit Types (h : heap) (l : list A).

  Fixpoint chain h (p : option nat) (ad : list nat) l : Prop :=
    match ad, l with
    | [], [] => p = None
    | a :: ad, v :: l => p = Some a /\ exists nx, nth_error h a = Some (Some (mkNode v nx)) /\ chain h nx ad l
    | _, _ => False
    end.

  Lemma chain_len : forall ad h p l, chain h p ad l -> length ad = length l.
  Proof. induction ad; intros h p [|v l] H; cbn in *; auto; try tauto. destruct H as [_ [nx [_ H]]]. f_equal. eauto. Qed.
  Lemma chain_live : forall ad h p l a, chain h p ad l -> In a ad -> exists n, nth_error h a = Some (Some n).
  Proof.
    induction ad; intros h p [|v l] a0 H I; cbn in *; try tauto. destruct H as [_ [nx [E H]]].
    destruct I as [->|I]; eauto.
  Qed.
  Lemma chain_frame : forall ad h h' p l, (forall a, In a ad -> nth_error h' a = nth_error h a) ->
    chain h p ad l -> chain h' p ad l.
  Proof.
    induction ad; intros h h' p [|v l] F H; cbn in *; auto. destruct H as [-> [nx [E H]]]. split; auto.
    exists nx. rewrite F by auto. split; auto. eapply IHad; eauto.
  Qed.
  Lemma chain_fuel : forall ad h p l, chain h p ad l -> NoDup ad -> length ad < fuel h.
  Proof.
    intros ad h p l H ND. unfold fuel.
    assert (length ad <= length (seq 0 (length h))).
    { apply NoDup_incl_length; auto. intros a I. destruct (chain_live _ _ _ _ _ H I) as [n E].
      apply in_seq. assert (a < length h) by (apply nth_error_Some; congruence). lia. }
    rewrite seq_length in *. lia.
  Qed.
  Lemma chain_nil : forall ad h p, chain h p ad [] -> p = None /\ ad = [].
  Proof. destruct ad; cbn; intros; tauto. Qed.

  Lemma load_Some : forall h a n, nth_error h a = Some (Some n) -> load h (Some a) = Ok n.
  Proof. intros. unfold load. rewrite H. reflexivity. Qed.

  Lemma size_loop_spec : forall ad h p l f s, chain h p ad l -> length ad < f -> size_loop f h p s = Ok (s + length l).
  Proof.
    induction ad; intros h p [|v l] f s H F; cbn in H; try tauto; destruct f; cbn [length] in *; try lia.
    - subst. cbn. f_equal. lia.
    - destruct H as [-> [nx [E H]]]. cbn [size_loop]. rewrite (load_Some _ _ _ E). cbn [bind nnext].
      erewrite IHad by (eauto; lia). f_equal. lia.
  Qed.
  Lemma iterate_spec : forall ad h p l f, chain h p ad l -> length ad < f -> iterate f h p = Ok l.
  Proof.
    induction ad; intros h p [|v l] f H F; cbn in H; try tauto; destruct f; cbn [length] in *; try lia.
    - subst. reflexivity.
    - destruct H as [-> [nx [E H]]]. cbn [iterate]. rewrite (load_Some _ _ _ E). cbn [bind nnext].
      erewrite IHad by (eauto; lia). reflexivity.
  Qed.

  Lemma free_Ok : forall h a n, nth_error h a = Some (Some n) -> free h (Some a) = Ok (lset h a None).
  Proof. intros. unfold free. rewrite (load_Some _ _ _ H). reflexivity. Qed.
  Lemma set_next_Ok : forall h a v nx x, nth_error h a = Some (Some (mkNode v nx)) ->
    set_next h (Some a) x = Ok (lset h a (Some (mkNode v x))).
  Proof. intros. unfold set_next. rewrite (load_Some _ _ _ H). reflexivity. Qed.

  Lemma nth_lt : forall h a x, nth_error h a = Some x -> a < length h.
  Proof. intros. apply nth_error_Some. congruence. Qed.
  Lemma lset_other : forall h a x b, b <> a -> nth_error (lset h a x) b = nth_error h b.
  Proof. intros. apply lset_nth_neq. auto. Qed.
  Lemma lset_same : forall h a x y, nth_error h a = Some y -> nth_error (lset h a x) a = Some x.
  Proof. intros. apply lset_nth_eq. eapply nth_lt; eauto. Qed.

  (* effect of freeing the nodes ad *)
  Definition freed h h' (ad : list nat) : Prop :=
    length h' = length h /\ (forall a, In a ad -> nth_error h' a = Some None) /\
    (forall a, ~ In a ad -> nth_error h' a = nth_error h a).

  Lemma clear_loop_spec : forall ad h p l f, chain h p ad l -> NoDup ad -> length ad < f ->
    exists h', clear_loop f h p = Ok h' /\ freed h h' ad.
  Proof.
    induction ad; intros h p [|v l] f H ND F; cbn in H; try tauto; destruct f; cbn [length] in *; try lia.
    - subst. exists h. split; auto. split; [auto|split; [intros a []|auto]].
    - destruct H as [-> [nx [E H]]]. cbn [clear_loop]. rewrite (load_Some _ _ _ E). cbn [bind nnext].
      rewrite (free_Ok _ _ _ E). cbn [bind]. inversion ND; subst.
      destruct (IHad (lset h a None) nx l f) as [h' [E' [L [F1 F2]]]]; auto; try lia.
      { eapply chain_frame; [|eauto]. intros b I. apply lset_other. intro; subst; tauto. }
      exists h'. split; auto. split; [rewrite L, lset_length; auto|]. split.
      + intros b [->|I]; auto. rewrite F2 by auto. eapply lset_same; eauto.
      + intros b I. cbn in I. rewrite F2 by tauto. apply lset_other. intro; subst; tauto.
  Qed.
  Lemma clear_spec : forall ad h p l, chain h p ad l -> NoDup ad ->
    exists h', clear h p = Ok (h', None) /\ freed h h' ad.
  Proof.
    intros ad h p l H ND. destruct (clear_loop_spec ad h p l (fuel h) H ND (chain_fuel _ _ _ _ H ND)) as [h' [E F]].
    exists h'. unfold clear. rewrite E. auto.
  Qed.

  Lemma chain_snoc : forall ad h p l b v, chain h p (ad ++ [b]) l -> NoDup (ad ++ [b]) ->
    ~ In (length h) (ad ++ [b]) ->
    exists w, nth_error h b = Some (Some (mkNode w None)) /\
    chain (lset (h ++ [Some (mkNode v None)]) b (Some (mkNode w (Some (length h))))) p (ad ++ [b; length h]) (l ++ [v]).
  Proof.
    induction ad as [|a ad IH]; intros h p l b v H ND NI.
    - cbn in H. destruct l as [|w [|? ?]]; try tauto. 2:{ destruct H as [_ [nx [_ []]]]. }
      destruct H as [-> [nx [E ->]]]. exists w. split; auto. cbn [app chain]. split; auto.
      exists (Some (length h)). split.
      + eapply lset_same. rewrite nth_error_app1 by (eapply nth_lt; eauto). eauto.
      + split; auto. exists None. split; auto. assert (b < length h) by (eapply nth_lt; eauto).
        rewrite lset_other by lia. rewrite nth_error_app2 by lia. rewrite Nat.sub_diag. reflexivity.
    - cbn [app] in *. cbn [chain] in H. destruct l as [|w l]; [tauto|]. destruct H as [-> [nx [E H]]].
      inversion ND; subst. destruct (IH h nx l b v H) as [w' [E' C]]; auto.
      { cbn in NI. tauto. }
      exists w'. split; auto. cbn [chain app]. split; auto. exists nx. split; auto.
      assert (a <> b). { intro; subst. apply H2. apply in_or_app. cbn. auto. }
      rewrite lset_other by auto. rewrite nth_error_app1 by (eapply nth_lt; eauto). auto.
  Qed.

  Lemma seq_snoc : forall m n, seq m (S n) = seq m n ++ [m + n].
  Proof. intros. rewrite seq_S. reflexivity. Qed.

  Lemma copy_loop_spec : forall rl m h rn ras pn first nl f,
    chain h rn ras rl -> (forall a, In a ras -> a < m) -> length h = m + length nl ->
    chain h first (seq m (length nl)) nl ->
    pn = (match nl with [] => None | _ => Some (m + length nl - 1) end) -> length rl < f ->
    exists h' first', copy_loop f h rn pn first = Ok (h', first') /\
      chain h' first' (seq m (length nl + length rl)) (nl ++ rl) /\ length h' = m + length nl + length rl /\
      forall a, a < m -> nth_error h' a = nth_error h a.
  Proof.
    induction rl as [|v rl IH]; intros m h rn ras pn first nl f R RL HL C P F.
    - destruct (chain_nil _ _ _ R) as [-> ->]. destruct f; [lia|]. exists h, first. split; auto.
      cbn [length]. rewrite app_nil_r, !Nat.add_0_r. auto.
    - destruct f; [lia|]. destruct ras as [|ra ras]; cbn [chain] in R; [tauto|]. destruct R as [-> [nx [E R]]].
      cbn [copy_loop]. rewrite (load_Some _ _ _ E). cbn [bind nvalue alloc].
      set (h1 := h ++ [Some (mkNode v None)]).
      assert (RAm : ra < m) by (apply RL; cbn; auto).
      assert (E1 : nth_error h1 ra = Some (Some (mkNode v nx))).
      { unfold h1. rewrite nth_error_app1 by (eapply nth_lt; eauto). auto. }
      destruct nl as [|w nl].
      + subst pn. cbn in C. subst first. rewrite (load_Some _ _ _ E1). cbn [bind nnext].
        destruct (IH m h1 nx ras (Some (length h)) (Some (length h)) [v] f) as [h' [f' [E' [C' [L' P']]]]].
        * eapply chain_frame; [|eauto]. intros b I. unfold h1. apply nth_error_app1.
          destruct (chain_live _ _ _ _ _ R I) as [n En]. eapply nth_lt; eauto.
        * intros; apply RL; cbn; auto.
        * unfold h1. rewrite app_length. cbn [length] in *. lia.
        * cbn [length seq chain] in *. split; [f_equal; lia|]. exists None. split; auto.
          unfold h1. rewrite nth_error_app2 by lia. replace (m - length h) with 0 by lia. reflexivity.
        * cbn [length] in *. f_equal. lia.
        * cbn [length] in F. lia.
        * exists h', f'. split; auto. cbn [length app] in *. split; [|split].
          { replace (0 + S (length rl)) with (1 + length rl) by lia. exact C'. }
          { lia. }
          { intros a Ha. rewrite P' by auto. unfold h1. apply nth_error_app1. lia. }
      + set (nl' := w :: nl) in *. set (b := m + length nl' - 1).
        assert (LN : length nl' = S (length nl)) by reflexivity.
        rewrite LN, seq_snoc in C. replace (m + length nl) with b in C by (unfold b; lia).
        destruct (chain_snoc _ _ _ _ _ v C) as [x [Eb C2]].
        { unfold b. replace (m + length nl' - 1) with (m + length nl) by lia. rewrite <- seq_snoc. apply seq_NoDup. }
        { intro I. apply in_app_or in I. destruct I as [I|[I|[]]]; [apply in_seq in I; lia|unfold b in I; lia]. }
        subst pn. fold b.
        assert (E1b : nth_error h1 b = Some (Some (mkNode x None))).
        { unfold h1. rewrite nth_error_app1 by (eapply nth_lt; eauto). auto. }
        rewrite (set_next_Ok _ _ _ _ _ E1b). cbn [bind]. fold h1 in C2.
        set (h2 := lset h1 b (Some (mkNode x (Some (length h))))) in *.
        assert (E2 : nth_error h2 ra = Some (Some (mkNode v nx))).
        { unfold h2. rewrite lset_other; auto. unfold b. lia. }
        rewrite (load_Some _ _ _ E2). cbn [bind nnext].
        destruct (IH m h2 nx ras (Some (length h)) first (nl' ++ [v]) f) as [h' [f' [E' [C' [L' P']]]]].
        * eapply chain_frame; [|eauto]. intros c I. assert (c < m) by (apply RL; cbn; auto).
          unfold h2. rewrite lset_other by (unfold b; lia). unfold h1. apply nth_error_app1. lia.
        * intros; apply RL; cbn; auto.
        * unfold h2, h1. rewrite lset_length, !app_length. cbn [length]. lia.
        * rewrite app_length. cbn [length]. replace (length nl' + 1) with (S (S (length nl))) by lia.
          rewrite seq_snoc, seq_snoc, <- app_assoc. cbn [app].
          replace (m + length nl) with b by (unfold b; lia). replace (m + S (length nl)) with (length h) by lia. exact C2.
        * replace (match nl' ++ [v] with [] => None | _ :: _ => Some (m + length (nl' ++ [v]) - 1) end)
            with (Some (m + length (nl' ++ [v]) - 1)) by (unfold nl'; reflexivity).
          rewrite app_length. cbn [length]. f_equal. lia.
        * cbn [length] in F. lia.
        * exists h', f'. split; auto. rewrite app_length in *. rewrite <- app_assoc in C'. cbn [app length] in *.
          split; [|split].
          { replace (length nl' + S (length rl)) with (length nl' + 1 + length rl) by lia. exact C'. }
          { lia. }
          { intros a Ha. rewrite P' by auto. unfold h2. rewrite lset_other by (unfold b; lia).
            unfold h1. apply nth_error_app1. lia. }
  Qed.

  Lemma copy_spec : forall ad h p l, chain h p ad l -> NoDup ad ->
    exists h' q, copy_loop (fuel h) h p None None = Ok (h', q) /\
      chain h' q (seq (length h) (length l)) l /\ length h' = length h + length l /\
      forall a, a < length h -> nth_error h' a = nth_error h a.
  Proof.
    intros ad h p l H ND.
    destruct (copy_loop_spec l (length h) h p ad None None [] (fuel h)) as [h' [q [E [C [L P]]]]]; auto.
    - intros a I. destruct (chain_live _ _ _ _ _ H I) as [n En]. eapply nth_lt; eauto.
    - reflexivity.
    - rewrite <- (chain_len _ _ _ _ H). eapply chain_fuel; eauto.
    - exists h', q. split; auto. cbn [length] in *. split; [exact C|]. split; [lia|auto].
  Qed.

  Lemma advance_spec : forall i ad h p l, chain h p ad l -> i < length l ->
    exists a v nx, advance i h p = Ok (Some a) /\ nth_error h a = Some (Some (mkNode v nx)) /\
      nth_error ad i = Some a /\ nth_error l i = Some v /\ chain h nx (skipn (S i) ad) (skipn (S i) l).
  Proof.
    induction i; intros ad h p l H L; destruct l as [|v l]; cbn [length] in L; try lia;
      destruct ad as [|a ad]; cbn [chain] in H; try tauto; destruct H as [-> [nx [E H]]].
    - exists a, v, nx. cbn. auto.
    - cbn [advance]. rewrite (load_Some _ _ _ E). cbn [bind nnext].
      destruct (IHi ad h nx l H) as [b [w [ny [E1 [E2 [E3 [E4 C]]]]]]]; [lia|]. exists b, w, ny. auto.
  Qed.
  Lemma advance_past : forall i ad h p l, chain h p ad l -> length l <= i ->
    (let! q := advance i h p in load h q) = UB.
  Proof.
    induction i; intros ad h p l H L; destruct l as [|v l]; cbn [length] in L; try lia.
    - destruct (chain_nil _ _ _ H) as [-> _]. reflexivity.
    - destruct (chain_nil _ _ _ H) as [-> _]. reflexivity.
    - destruct ad as [|a ad]; cbn [chain] in H; try tauto; destruct H as [-> [nx [E H]]].
      cbn [advance]. rewrite (load_Some _ _ _ E). cbn [bind nnext]. eapply IHi; eauto. lia.
  Qed.

  (* changing the next pointer of element i *)
  Lemma chain_cut : forall i ad h p l a v ny ad2 l2, chain h p ad l -> NoDup ad ->
    nth_error ad i = Some a -> nth_error l i = Some v ->
    chain (lset h a (Some (mkNode v ny))) ny ad2 l2 -> ~ In a ad2 ->
    chain (lset h a (Some (mkNode v ny))) p (firstn (S i) ad ++ ad2) (firstn (S i) l ++ l2).
  Proof.
    induction i; intros ad h p l a v ny ad2 l2 H ND Ea Ev C NI; destruct ad as [|b ad]; destruct l as [|w l];
      cbn [chain nth_error] in *; try discriminate; destruct H as [-> [nx [E H]]].
    - inversion Ea; inversion Ev; subst. cbn. split; auto. exists ny. split; auto. eapply lset_same; eauto.
    - cbn [firstn app chain]. split; auto. inversion ND; subst.
      exists nx. split.
      + rewrite lset_other; auto. intro; subst. apply H2. eapply nth_error_In; eauto.
      + exact (IHi ad h nx l a v ny ad2 l2 H H3 Ea Ev C NI).
  Qed.

  Lemma remove_at_In : forall B (l : list B) i x, In x (remove_at l i) -> In x l.
  Proof.
    intros B l i x H. unfold remove_at in H. apply in_app_or in H. destruct H as [H|H].
    - rewrite <- (firstn_skipn i l). apply in_or_app; auto.
    - rewrite <- (firstn_skipn (S i) l). apply in_or_app; auto.
  Qed.
  Lemma remove_at_NoDup : forall B (l : list B) i, NoDup l -> NoDup (remove_at l i).
  Proof.
    intros B l i H. unfold remove_at. revert i. induction l; intro i.
    - destruct i; cbn; constructor.
    - inversion H; subst. destruct i; cbn; auto. constructor; [|apply IHl; auto].
      intro I. apply H2. apply (remove_at_In _ _ i). exact I.
  Qed.
  Lemma nth_split2 : forall B (l : list B) i x, nth_error l i = Some x -> skipn i l = x :: skipn (S i) l.
  Proof. induction l; intros [|i] x H; cbn in *; try discriminate; [congruence|auto]. Qed.
  Lemma remove_at_gone : forall B (l : list B) i x, NoDup l -> nth_error l i = Some x -> ~ In x (remove_at l i).
  Proof.
    intros B l i x ND E I. rewrite <- (firstn_skipn i l) in ND. rewrite (nth_split2 _ _ _ _ E) in ND.
    apply NoDup_remove_2 in ND. apply ND. exact I.
  Qed.
  Lemma remove_at_rest : forall B (l : list B) i x y, nth_error l i = Some x -> In y l -> y = x \/ In y (remove_at l i).
  Proof.
    intros B l i x y E I. rewrite <- (firstn_skipn i l) in I. rewrite (nth_split2 _ _ _ _ E) in I.
    apply in_app_or in I. unfold remove_at. destruct I as [I|[I|I]]; auto; right; apply in_or_app; auto.
  Qed.

  Lemma erase_after_spec : forall i ad h p l, chain h p ad l -> NoDup ad -> S i < length l ->
    exists q e h', advance i h p = Ok q /\ erase_after h q = Ok h' /\ nth_error ad (S i) = Some e /\
      chain h' p (remove_at ad (S i)) (remove_at l (S i)) /\ length h' = length h /\
      nth_error h' e = Some None /\ (forall a, ~ In a ad -> nth_error h' a = nth_error h a).
  Proof.
    intros i ad h p l H ND L. destruct (advance_spec i ad h p l H) as [a [v [nx [E1 [E2 [E3 [E4 C]]]]]]]; [lia|].
    exists (Some a). rewrite E1. unfold erase_after. rewrite (load_Some _ _ _ E2). cbn [bind nnext].
    pose proof (chain_len _ _ _ _ H) as LA.
    destruct (nth_error ad (S i)) as [e|] eqn:Ee; [|apply nth_error_None in Ee; lia].
    destruct (nth_error l (S i)) as [w|] eqn:Ew; [|apply nth_error_None in Ew; lia].
    rewrite (nth_split2 _ _ _ _ Ee), (nth_split2 _ _ _ _ Ew) in C. cbn [chain] in C.
    destruct C as [-> [ny [E5 C]]]. cbn [empty negb contract bind].
    rewrite (load_Some _ _ _ E5). cbn [bind nnext]. rewrite (set_next_Ok _ _ _ _ _ E2). cbn [bind].
    assert (NDe : e <> a).
    { intro; subst. assert (S i = i); [|lia]. eapply NoDup_nth_error; eauto; [lia|congruence]. }
    rewrite (free_Ok _ _ (mkNode w ny)) by (rewrite lset_other; auto).
    set (h1 := lset h a (Some (mkNode v ny))).
    assert (SK : forall x, In x (skipn (S (S i)) ad) -> In x (remove_at ad (S i))).
    { intros x I. unfold remove_at. apply in_or_app; auto. }
    assert (NIe : ~ In e (remove_at ad (S i))) by (apply remove_at_gone; auto).
    assert (NIa : ~ In a (skipn (S (S i)) ad)).
    { intro I. apply In_nth_error in I. destruct I as [n En]. rewrite nth_error_skipn in En.
      assert (S (S i) + n = i); [|lia]. eapply NoDup_nth_error; eauto; [|congruence].
      apply nth_error_Some. congruence. }
    assert (Ch1 : chain h1 ny (skipn (S (S i)) ad) (skipn (S (S i)) l)).
    { eapply chain_frame; [|exact C]. intros x I. unfold h1. apply lset_other. intro; subst; tauto. }
    pose proof (chain_cut i ad h p l a v ny _ _ H ND E3 E4 Ch1 NIa) as CC. fold h1 in CC.
    exists e, (lset h1 e None). split; auto. split; auto. split; auto. split; [|split; [|split]].
    - unfold remove_at. eapply chain_frame; [|exact CC]. intros x I. apply lset_other. intro; subst. apply NIe. exact I.
    - unfold h1. rewrite !lset_length. auto.
    - apply lset_same with (y := Some (mkNode w ny)). unfold h1. rewrite lset_other; auto.
    - intros x I. rewrite lset_other. 2:{ intro; subst. apply I. eapply nth_error_In; eauto. }
      unfold h1. apply lset_other. intro; subst. apply I. eapply nth_error_In; eauto.
  Qed.

  (* pool invariant; ad maps each list to the addresses of its nodes *)
  Definition inv (ad : nat -> list nat) (p : pool A) (ls : list (list A)) : Prop :=
    length (pfirst p) = length ls /\
    (forall j f l, nth_error (pfirst p) j = Some f -> nth_error ls j = Some l -> chain (pheap p) f (ad j) l) /\
    (forall j, j < length ls -> NoDup (ad j)) /\
    (forall i j a, i < length ls -> j < length ls -> In a (ad i) -> In a (ad j) -> i = j) /\
    (forall a n, nth_error (pheap p) a = Some (Some n) -> exists j, j < length ls /\ In a (ad j)).

  Definition dead h a := forall n, nth_error h a <> Some (Some n).

  Lemma inv_upd : forall ad p ls j h' f' ad' l', inv ad p ls -> j < length ls ->
    chain h' f' ad' l' -> NoDup ad' ->
    (forall a n, nth_error (pheap p) a = Some (Some n) -> ~ In a (ad j) -> nth_error h' a = nth_error (pheap p) a) ->
    (forall a, In a ad' -> In a (ad j) \/ dead (pheap p) a) ->
    (forall a n, nth_error h' a = Some (Some n) -> In a ad' \/ (~ In a (ad j) /\ nth_error (pheap p) a = Some (Some n))) ->
    inv (fun i => if i =? j then ad' else ad i) (put p h' j f') (upd ls j l').
  Proof.
    intros ad p ls j h' f' ad' l' [I1 [I2 [I3 [I4 I5]]]] Hj C ND FR NW LV.
    unfold inv, put. cbn [pheap pfirst]. rewrite upd_length by auto.
    assert (Hjf : j < length (pfirst p)) by lia.
    split; [rewrite lset_length; auto|]. split; [|split; [|split]].
    - intros i f l E1 E2. rewrite lset_nth in E1. rewrite upd_nth in E2 by auto.
      destruct (Nat.ltb_spec j (length (pfirst p))); [|lia].
      rewrite (Nat.eqb_sym i j). destruct (Nat.eqb_spec j i).
      + inversion E1; inversion E2; subst. auto.
      + pose proof (I2 i f l E1 E2) as Ci. eapply chain_frame; [|exact Ci]. intros a I.
        destruct (chain_live _ _ _ _ _ Ci I) as [x Ex]. apply (FR a x); auto.
        intro J. apply n. apply (I4 j i a); auto. apply nth_error_Some. congruence.
    - intros i Hi. destruct (Nat.eqb_spec i j); auto.
    - intros i1 i2 a H1 H2 J1 J2.
      assert (X : forall i, i < length ls -> i <> j -> In a (ad i) -> In a ad' -> False).
      { intros i Hi Hn Ji J'. destruct (NW a J') as [K|K].
        - apply Hn. apply (I4 i j a); auto.
        - destruct (nth_error (pfirst p) i) as [f|] eqn:Ef; [|apply nth_error_None in Ef; lia].
          destruct (nth_error ls i) as [l|] eqn:El; [|apply nth_error_None in El; lia].
          destruct (chain_live _ _ _ _ _ (I2 i f l Ef El) Ji) as [x Ex]. apply (K x). auto. }
      destruct (Nat.eqb_spec i1 j), (Nat.eqb_spec i2 j); subst; auto.
      + exfalso. apply (X i2); auto.
      + exfalso. apply (X i1); auto.
      + eapply I4; eauto.
    - intros a n E. destruct (LV a n E) as [J|[J K]].
      + exists j. rewrite Nat.eqb_refl. auto.
      + destruct (I5 a n K) as [i [Hi Ii]]. exists i. split; auto.
        destruct (Nat.eqb_spec i j); auto. subst. tauto.
  Qed.

  Lemma inv_new : forall ad p ls, inv ad p ls ->
    inv (fun i => if i =? length ls then [] else ad i) (mkP (pheap p) (pfirst p ++ [None])) (ls ++ [[]]).
  Proof.
    intros ad p ls [I1 [I2 [I3 [I4 I5]]]]. unfold inv. cbn [pheap pfirst]. rewrite !app_length. cbn [length].
    split; [lia|]. split; [|split; [|split]].
    - intros j f l E1 E2. destruct (Nat.eqb_spec j (length ls)).
      + subst. rewrite nth_error_app2 in E1, E2 by lia. rewrite <- I1 in E1. rewrite I1, Nat.sub_diag in E1. rewrite Nat.sub_diag in E2.
        cbn in *. inversion E1; inversion E2; subst. reflexivity.
      + assert (j < length ls).
        { assert (j < length (ls ++ [[]])) by (apply nth_error_Some; congruence). rewrite app_length in *. cbn in *. lia. }
        rewrite nth_error_app1 in E1 by lia. rewrite nth_error_app1 in E2 by lia. auto.
    - intros j Hj. destruct (Nat.eqb_spec j (length ls)); [constructor|]. apply I3. lia.
    - intros i j a Hi Hj. destruct (Nat.eqb_spec i (length ls)), (Nat.eqb_spec j (length ls)); cbn; try tauto.
      apply I4; lia.
    - intros a n E. destruct (I5 a n E) as [j [Hj Ij]]. exists j. split; [lia|].
      destruct (Nat.eqb_spec j (length ls)); [lia|auto].
  Qed.

  (* hand over the nodes of list k to the empty list j *)
  Lemma inv_move : forall ad p ls j k fk lk, inv ad p ls -> j <> k ->
    nth_error (pfirst p) k = Some fk -> nth_error ls k = Some lk -> nth_error ls j = Some [] ->
    exists ad', inv ad' (mkP (pheap p) (lset (lset (pfirst p) j fk) k None)) (upd (upd ls j lk) k []).
  Proof.
    intros ad p ls j k fk lk [I1 [I2 [I3 [I4 I5]]]] N Ef El Ej.
    assert (Hj : j < length ls) by (apply nth_error_Some; congruence).
    assert (Hk : k < length ls) by (apply nth_error_Some; congruence).
    assert (ADJ : ad j = []).
    { destruct (nth_error (pfirst p) j) as [f|] eqn:E; [|apply nth_error_None in E; lia].
      eapply chain_nil. apply (I2 j f []); auto. }
    exists (fun i => if i =? j then ad k else if i =? k then [] else ad i).
    unfold inv. cbn [pheap pfirst]. rewrite !lset_length. rewrite !upd_length by (rewrite ?upd_length; auto).
    split; auto. split; [|split; [|split]].
    - intros i f l E1 E2. rewrite !lset_nth in E1. rewrite lset_length in E1.
      rewrite upd_nth in E2 by (rewrite upd_length; auto). rewrite upd_nth in E2 by auto.
      rewrite I1 in E1.
      destruct (Nat.ltb_spec k (length ls)); [|lia]. destruct (Nat.ltb_spec j (length ls)); [|lia].
      rewrite (Nat.eqb_sym i j), (Nat.eqb_sym i k).
      destruct (Nat.eqb_spec k i).
      + subst. destruct (Nat.eqb_spec j i); [lia|]. inversion E1; inversion E2. reflexivity.
      + destruct (Nat.eqb_spec j i).
        * inversion E1; inversion E2; subst. apply I2; auto.
        * auto.
    - intros i Hi. destruct (Nat.eqb_spec i j); auto. destruct (Nat.eqb_spec i k); auto. constructor.
    - intros x y a Hx Hy. destruct (Nat.eqb_spec x j), (Nat.eqb_spec x k), (Nat.eqb_spec y j), (Nat.eqb_spec y k); cbn; subst; auto; try tauto.
      + intros J1 J2. assert (k = y) by (eapply (I4 k y a); auto). lia.
      + intros J1 J2. assert (x = k) by (eapply (I4 x k a); auto). lia.
      + intros J1 J2. eapply I4; eauto.
    - intros a n E. destruct (I5 a n E) as [x [Hx Ix]]. destruct (Nat.eq_dec x k).
      + exists j. rewrite Nat.eqb_refl. subst. auto.
      + exists x. split; auto. destruct (Nat.eqb_spec x j); [subst; rewrite ADJ in Ix; destruct Ix|].
        destruct (Nat.eqb_spec x k); [lia|auto].
  Qed.

  Lemma upd_same_len : forall B (l : list B) x y, upd (l ++ [x]) (length l) y = l ++ [y].
  Proof.
    intros. unfold upd. rewrite firstn_app, firstn_all, Nat.sub_diag. cbn [firstn]. rewrite app_nil_r.
    rewrite skipn_all2 by (rewrite app_length; cbn; lia). reflexivity.
  Qed.
  Lemma lset_same_len : forall B (l : list B) x y, lset (l ++ [x]) (length l) y = l ++ [y].
  Proof.
    intros. induction l; cbn; auto. f_equal. auto.
  Qed.
  Lemma upd_app : forall B (l m : list B) j x, j < length l -> upd (l ++ m) j x = upd l j x ++ m.
  Proof.
    intros. unfold upd. rewrite firstn_app. rewrite skipn_app.
    replace (j - length l) with 0 by lia. replace (S j - length l) with 0 by lia. rewrite skipn_O, firstn_O, app_nil_r.
    rewrite <- app_assoc. reflexivity.
  Qed.
  Lemma upd_upd : forall B (l : list B) j x y, j < length l -> upd (upd l j x) j y = upd l j y.
  Proof.
    intros. apply nth_ext_err. intro i. rewrite !upd_nth by (rewrite ?upd_length; auto).
    destruct (j =? i); auto.
  Qed.

  Lemma inv_get : forall ad p ls j l, inv ad p ls -> nth_error ls j = Some l ->
    exists f, nth_error (pfirst p) j = Some f /\ chain (pheap p) f (ad j) l /\ NoDup (ad j) /\ j < length ls.
  Proof.
    intros ad p ls j l [I1 [I2 [I3 _]]] E. assert (j < length ls) by (apply nth_error_Some; congruence).
    destruct (nth_error (pfirst p) j) as [f|] eqn:Ef; [|apply nth_error_None in Ef; lia].
    exists f. auto.
  Qed.
  Lemma inv_none : forall ad p ls j, inv ad p ls -> nth_error ls j = None -> get p j = UB.
  Proof.
    intros ad p ls j [I1 _] E. unfold get. apply nth_error_None in E.
    destruct (nth_error (pfirst p) j) eqn:Ef; auto. assert (j < length (pfirst p)) by (apply nth_error_Some; congruence). lia.
  Qed.
  Lemma get_Some : forall (p : pool A) j f, nth_error (pfirst p) j = Some f -> get p j = Ok f.
  Proof. intros. unfold get. rewrite H. auto. Qed.
  Lemma dead_fresh : forall h a, length h <= a -> dead h a.
  Proof. intros h a H n E. apply nth_lt in E. lia. Qed.

  Lemma push_inv : forall ad p ls j l f v, inv ad p ls -> nth_error ls j = Some l ->
    nth_error (pfirst p) j = Some f ->
    exists h q ad', emplace_front (pheap p) f v = Ok (h, q) /\ inv ad' (put p h j q) (upd ls j (v :: l)).
  Proof.
    intros ad p ls j l f v I E Ef. destruct (inv_get _ _ _ _ _ I E) as [f0 [Ef0 [C [ND Hj]]]].
    rewrite Ef in Ef0. inversion Ef0; subst f0. set (h := pheap p) in *. unfold emplace_front. cbn [alloc].
    set (a := length h).
    assert (En : nth_error (h ++ [Some (mkNode v None)]) a = Some (Some (mkNode v None))).
    { unfold a. rewrite nth_error_app2 by lia. rewrite Nat.sub_diag. reflexivity. }
    rewrite (set_next_Ok _ _ _ _ _ En). cbn [bind].
    assert (G : forall b, b <> a -> nth_error (lset (h ++ [Some (mkNode v None)]) a (Some (mkNode v f))) b = nth_error h b).
    { intros b Hb. rewrite lset_other by auto. destruct (Nat.lt_ge_cases b a).
      - apply nth_error_app1. auto.
      - transitivity (@None (option (@node A))); [|symmetry]; apply nth_error_None; [rewrite app_length; cbn; lia|lia]. }
    eexists _, _, _. split; [reflexivity|]. eapply inv_upd with (ad' := a :: ad j); eauto.
    - cbn [chain]. split; auto. exists f. split; [eapply lset_same; eauto|].
      eapply chain_frame; [|exact C]. intros b Hb. apply G. destruct (chain_live _ _ _ _ _ C Hb) as [n E2].
      apply nth_lt in E2. unfold a. lia.
    - constructor; auto. intro J. destruct (chain_live _ _ _ _ _ C J) as [n E2]. apply nth_lt in E2. unfold a in E2. lia.
    - intros b n E2 _. apply G. apply nth_lt in E2. unfold a. fold h in E2. lia.
    - intros b [<-|J]; auto. right. apply dead_fresh. fold h. unfold a. lia.
    - intros b n E2. destruct (Nat.eq_dec b a); [left; cbn; auto|]. rewrite G in E2 by auto.
      destruct (in_dec Nat.eq_dec b (ad j)); [left; cbn; auto|right; auto].
  Qed.

  Lemma clear_inv : forall ad p ls j l f, inv ad p ls -> nth_error ls j = Some l -> nth_error (pfirst p) j = Some f ->
    exists h ad', clear (pheap p) f = Ok (h, None) /\ inv ad' (put p h j None) (upd ls j []).
  Proof.
    intros ad p ls j l f I E Ef. destruct (inv_get _ _ _ _ _ I E) as [f0 [Ef0 [C [ND Hj]]]].
    rewrite Ef in Ef0. inversion Ef0; subst f0.
    destruct (clear_spec _ _ _ _ C ND) as [h [Eh [L [F1 F2]]]]. exists h. eexists. split; eauto.
    eapply inv_upd with (ad' := []); eauto; try (cbn; tauto).
    - constructor.
    - intros a n En. destruct (in_dec Nat.eq_dec a (ad j)) as [J|J].
      + rewrite F1 in En by auto. discriminate.
      + rewrite F2 in En by auto. auto.
  Qed.

  (* copying list k into the empty list j *)
  Lemma copy_inv : forall ad p ls j k lk fk, inv ad p ls -> nth_error ls k = Some lk -> nth_error (pfirst p) k = Some fk ->
    nth_error ls j = Some [] ->
    exists h q ad', copy_loop (fuel (pheap p)) (pheap p) fk None None = Ok (h, q) /\ inv ad' (put p h j q) (upd ls j lk).
  Proof.
    intros ad p ls j k lk fk I Ek Ef Ej. destruct (inv_get _ _ _ _ _ I Ek) as [f0 [Ef0 [C [ND Hk]]]].
    rewrite Ef in Ef0. inversion Ef0; subst f0.
    destruct (inv_get _ _ _ _ _ I Ej) as [f1 [Ef1 [C1 [ND1 Hj]]]].
    destruct (copy_spec _ _ _ _ C ND) as [h [q [E [C' [L F]]]]]. exists h, q. eexists. split; eauto.
    eapply inv_upd; eauto.
    - apply seq_NoDup.
    - intros a n En _. apply F. eapply nth_lt; eauto.
    - intros a J. apply in_seq in J. right. apply dead_fresh. lia.
    - intros a n En. destruct (Nat.lt_ge_cases a (length (pheap p))).
      + right. rewrite F in En by auto. split; auto. destruct (chain_nil _ _ _ C1) as [_ ->]. cbn. tauto.
      + left. apply in_seq. apply nth_lt in En. lia.
  Qed.

  Lemma load_pop : forall a h f l v (t : list A) ad, l = v :: t -> chain h f (a :: ad) l ->
    exists nx, f = Some a /\ nth_error h a = Some (Some (mkNode v nx)) /\ chain h nx ad t.
  Proof. intros. subst. cbn in H0. destruct H0 as [-> [nx [E C]]]. eauto. Qed.

  Lemma step_spec : forall o ad p ls, inv ad p ls -> not_self o ->
    match ideal_step ls o with
    | Ok (ls', v) => exists p' ad', step p o = Ok (p', v) /\ inv ad' p' ls'
    | Contract => step p o = Contract
    | UB => step p o = UB
    | OutOfFuel => False
    end.
  Proof.
    intros o ad p ls I NS. destruct o; cbn [ideal_step step].
    - (* New *) eexists _, _. split; [reflexivity|]. apply inv_new. eauto.
    - (* NewCopy *) destruct (nth_error ls j) as [l|] eqn:E; [|rewrite (inv_none _ _ _ _ I E); reflexivity].
      destruct (inv_get _ _ _ _ _ I E) as [f [Ef [C [ND Hj]]]]. rewrite (get_Some _ _ _ Ef). cbn [bind].
      pose proof (inv_new _ _ _ I) as I'. pose proof (proj1 I) as LL.
      destruct (copy_inv _ _ _ (length ls) j l f I') as [h [q [ad' [E' I2]]]].
      + rewrite nth_error_app1 by auto. auto.
      + cbn [pfirst]. rewrite nth_error_app1 by lia. auto.
      + rewrite nth_error_app2 by lia. rewrite Nat.sub_diag. reflexivity.
      + cbn [pheap] in E'. unfold copy_ctor. rewrite E'. cbn [bind]. eexists _, ad'. split; [reflexivity|].
        rewrite upd_same_len in I2. unfold put in I2. cbn [pfirst] in I2. rewrite <- LL, lset_same_len in I2. exact I2.
    - (* NewMove *) destruct (nth_error ls j) as [l|] eqn:E; [|rewrite (inv_none _ _ _ _ I E); reflexivity].
      destruct (inv_get _ _ _ _ _ I E) as [f [Ef [C [ND Hj]]]]. rewrite (get_Some _ _ _ Ef). cbn [bind].
      pose proof (inv_new _ _ _ I) as I'. pose proof (proj1 I) as LL.
      destruct (inv_move _ _ _ (length ls) j f l I') as [ad' I2].
      + lia.
      + cbn [pfirst]. rewrite nth_error_app1 by lia. auto.
      + rewrite nth_error_app1 by auto. auto.
      + rewrite nth_error_app2 by lia. rewrite Nat.sub_diag. reflexivity.
      + eexists _, ad'. split; [reflexivity|]. cbn [pheap pfirst] in I2.
        rewrite upd_same_len in I2. rewrite <- LL, lset_same_len in I2.
        rewrite upd_app in I2 by auto. rewrite lset_app1 in I2 by lia. exact I2.
    - (* EmplaceFront *) destruct (nth_error ls j) as [l|] eqn:E; [|rewrite (inv_none _ _ _ _ I E); reflexivity].
      destruct (inv_get _ _ _ _ _ I E) as [f [Ef _]]. rewrite (get_Some _ _ _ Ef). cbn [bind].
      destruct (push_inv _ _ _ _ _ _ v I E Ef) as [h [q [ad' [E' I2]]]]. rewrite E'. cbn [bind]. eauto.
    - (* PushOf *) destruct (nth_error ls j) as [l|] eqn:E; [|rewrite (inv_none _ _ _ _ I E); reflexivity].
      destruct (inv_get _ _ _ _ _ I E) as [f [Ef _]]. rewrite (get_Some _ _ _ Ef). cbn [bind].
      destruct (nth_error ls k) as [m|] eqn:Ek; [|rewrite (inv_none _ _ _ _ I Ek); reflexivity].
      destruct (inv_get _ _ _ _ _ I Ek) as [fk [Efk [Ck _]]]. rewrite (get_Some _ _ _ Efk). cbn [bind].
      destruct (nth_error m i) as [v|] eqn:Ev.
      + destruct (advance_spec i _ _ _ _ Ck) as [a [w [nx [E1 [E2 [E3 [E4 _]]]]]]]; [apply nth_error_Some; congruence|].
        rewrite E1. cbn [bind]. rewrite (load_Some _ _ _ E2). cbn [bind nvalue].
        rewrite Ev in E4. inversion E4; subst w.
        destruct (push_inv _ _ _ _ _ _ v I E Ef) as [h [q [ad' [E' I2]]]]. rewrite E'. cbn [bind]. eauto.
      + apply nth_error_None in Ev. pose proof (advance_past i _ _ _ _ Ck Ev) as P.
        destruct (advance i (pheap p) fk) as [q| | |]; cbn [bind] in *; try congruence. rewrite P. reflexivity.
    - (* PopFront *) destruct (nth_error ls j) as [l|] eqn:E; [|rewrite (inv_none _ _ _ _ I E); reflexivity].
      destruct (inv_get _ _ _ _ _ I E) as [f [Ef [C [ND Hj]]]]. rewrite (get_Some _ _ _ Ef). cbn [bind].
      destruct l as [|v t].
      + destruct (chain_nil _ _ _ C) as [-> _]. reflexivity.
      + destruct (ad j) as [|a adj] eqn:Ad; [destruct C|].
        destruct (load_pop _ _ _ _ _ _ _ eq_refl C) as [nx [-> [En C']]].
        unfold pop_front. cbn [empty negb contract bind]. rewrite (load_Some _ _ _ En). cbn [bind].
        rewrite (free_Ok _ _ _ En). cbn [bind nvalue nnext]. inversion ND; subst.
        eexists _, _. split; [reflexivity|]. eapply inv_upd with (ad' := adj); eauto.
        * eapply chain_frame; [|exact C']. intros b J. apply lset_other. intro; subst; tauto.
        * intros b n Eb J. apply lset_other. intro; subst. apply J. rewrite Ad. cbn; auto.
        * intros b J. left. rewrite Ad. cbn; auto.
        * intros b n Eb. destruct (Nat.eq_dec b a).
          { subst. rewrite (lset_same _ _ _ _ En) in Eb. discriminate. }
          { rewrite lset_other in Eb by auto. destruct (in_dec Nat.eq_dec b adj); auto. right. split; auto.
            rewrite Ad. cbn. intros [J|J]; auto. }
    - (* EraseAfter *) destruct (nth_error ls j) as [l|] eqn:E; [|rewrite (inv_none _ _ _ _ I E); reflexivity].
      destruct (inv_get _ _ _ _ _ I E) as [f [Ef [C [ND Hj]]]]. rewrite (get_Some _ _ _ Ef). cbn [bind].
      destruct (Nat.ltb_spec (S i) (length l)); [|destruct (Nat.eqb_spec (S i) (length l))].
      + destruct (erase_after_spec i _ _ _ _ C ND H) as [q [e [h' [E1 [E2 [Ee [C' [L [De F]]]]]]]]].
        rewrite E1. cbn [bind]. rewrite E2. cbn [bind]. eexists _, _. split; [reflexivity|].
        eapply inv_upd; eauto.
        * apply remove_at_NoDup; auto.
        * intros a J. left. eapply remove_at_In; eauto.
        * intros a n En. destruct (in_dec Nat.eq_dec a (ad j)) as [J|J].
          { destruct (remove_at_rest _ _ _ _ a Ee J) as [->|K]; auto. congruence. }
          { rewrite F in En by auto. auto. }
      + destruct (advance_spec i _ _ _ _ C) as [a [w [nx [E1 [E2 [E3 [E4 C']]]]]]]; [lia|].
        rewrite E1. cbn [bind]. unfold erase_after. rewrite (load_Some _ _ _ E2). cbn [bind nnext].
        rewrite (skipn_all2 l) in C' by lia. destruct (chain_nil _ _ _ C') as [-> _]. reflexivity.
      + pose proof (advance_past i _ _ _ _ C ltac:(lia)) as P.
        destruct (advance i (pheap p) f) as [q| | |]; cbn [bind] in *; try congruence.
        unfold erase_after. rewrite P. reflexivity.
    - (* Clear *) destruct (nth_error ls j) as [l|] eqn:E; [|rewrite (inv_none _ _ _ _ I E); reflexivity].
      destruct (inv_get _ _ _ _ _ I E) as [f [Ef _]]. rewrite (get_Some _ _ _ Ef). cbn [bind].
      destruct (clear_inv _ _ _ _ _ _ I E Ef) as [h [ad' [E' I2]]]. rewrite E'. cbn [bind]. eauto.
    - (* CopyAssign *) destruct (nth_error ls j) as [l|] eqn:E; [|rewrite (inv_none _ _ _ _ I E); reflexivity].
      destruct (inv_get _ _ _ _ _ I E) as [f [Ef [_ [_ Hj]]]]. rewrite (get_Some _ _ _ Ef). cbn [bind].
      destruct (clear_inv _ _ _ _ _ _ I E Ef) as [h [ad' [E' I2]]]. rewrite E'. cbn [bind]. cbn in NS.
      destruct (nth_error ls k) as [m|] eqn:Ek.
      + assert (Ek' : nth_error (upd ls j []) k = Some m).
        { rewrite upd_nth by auto. destruct (Nat.eqb_spec j k); [lia|auto]. }
        destruct (inv_get _ _ _ _ _ I2 Ek') as [fk [Efk _]]. rewrite (get_Some _ _ _ Efk). cbn [bind].
        destruct (copy_inv _ _ _ j k m fk I2 Ek' Efk) as [h2 [q [ad2 [E2 I3]]]].
        { rewrite upd_nth by auto. rewrite Nat.eqb_refl. auto. }
        rewrite E2. cbn [bind]. rewrite upd_upd in I3 by auto. eauto.
      + rewrite (inv_none _ _ _ _ I2); auto. rewrite upd_nth by auto. destruct (Nat.eqb_spec j k); [lia|auto].
    - (* MoveAssign *) destruct (nth_error ls j) as [l|] eqn:E; [|rewrite (inv_none _ _ _ _ I E); reflexivity].
      destruct (inv_get _ _ _ _ _ I E) as [f [Ef [_ [_ Hj]]]]. rewrite (get_Some _ _ _ Ef). cbn [bind].
      destruct (clear_inv _ _ _ _ _ _ I E Ef) as [h [ad' [E' I2]]]. rewrite E'. cbn [bind]. cbn in NS.
      destruct (nth_error ls k) as [m|] eqn:Ek.
      + assert (Ek' : nth_error (upd ls j []) k = Some m).
        { rewrite upd_nth by auto. destruct (Nat.eqb_spec j k); [lia|auto]. }
        destruct (inv_get _ _ _ _ _ I2 Ek') as [fk [Efk _]]. rewrite (get_Some _ _ _ Efk). cbn [bind].
        destruct (inv_move _ _ _ j k fk m I2 NS Efk Ek') as [ad2 I3].
        { rewrite upd_nth by auto. rewrite Nat.eqb_refl. auto. }
        rewrite upd_upd in I3 by auto. eexists _, ad2. split; [reflexivity|]. exact I3.
      + rewrite (inv_none _ _ _ _ I2); auto. rewrite upd_nth by auto. destruct (Nat.eqb_spec j k); [lia|auto].
  Qed.

  Lemma inv_init : inv (fun _ => []) pinit [].
  Proof.
    unfold inv, pinit. cbn. repeat split; intros; try lia; try constructor; try tauto.
    - destruct j; discriminate.
    - destruct a; discriminate.
  Qed.

  Lemma run_spec : forall os ad p ls, inv ad p ls -> Forall not_self os ->
    match ideal_run ls os with
    | Ok (ls', vs) => exists p' ad', run p os = Ok (p', vs) /\ inv ad' p' ls'
    | Contract => run p os = Contract
    | UB => run p os = UB
    | OutOfFuel => False
    end.
  Proof.
    induction os as [|o os IH]; intros ad p ls I NS; cbn [ideal_run run].
    - eauto.
    - inversion NS; subst. pose proof (step_spec o ad p ls I H1) as S.
      destruct (ideal_step ls o) as [[ls' v]| | |]; cbn [bind]; try (rewrite S; reflexivity); try tauto.
      destruct S as [p' [ad' [E I']]]. rewrite E. cbn [bind]. specialize (IH ad' p' ls' I' H2).
      destruct (ideal_run ls' os) as [[ls2 vs]| | |]; cbn [bind]; try (rewrite IH; reflexivity); try tauto.
      destruct IH as [p2 [ad2 [E2 I2]]]. rewrite E2. cbn [bind]. eauto.
  Qed.

  Lemma observe : forall ad p ls j l, inv ad p ls -> nth_error ls j = Some l ->
    exists f, nth_error (pfirst p) j = Some f /\ size (pheap p) f = Ok (length l) /\
      contents (pheap p) f = Ok l /\ empty f = (match l with [] => true | _ => false end) /\
      front (pheap p) f = (match l with v :: _ => Ok v | [] => Contract end).
  Proof.
    intros ad p ls j l I E. destruct (inv_get _ _ _ _ _ I E) as [f [Ef [C [ND Hj]]]]. exists f. split; auto.
    pose proof (chain_fuel _ _ _ _ C ND) as F. split; [|split; [|split]].
    - unfold size. rewrite (size_loop_spec _ _ _ _ _ 0 C F). reflexivity.
    - unfold contents. eapply iterate_spec; eauto.
    - destruct l as [|v l]; [destruct (chain_nil _ _ _ C) as [-> _]; auto|].
      destruct (ad j); cbn in C; [tauto|]. destruct C as [-> _]. reflexivity.
    - destruct l as [|v l]; [destruct (chain_nil _ _ _ C) as [-> _]; auto|].
      destruct (ad j); cbn in C; [tauto|]. destruct C as [-> [nx [En _]]]. unfold front. cbn [empty negb contract bind].
      rewrite (load_Some _ _ _ En). reflexivity.
  Qed.

  (* destroying every list frees every node, and each exactly once (a second free is UB) *)
  Lemma clear_all_spec : forall n ad h (fs done : list (option nat)) ls, length fs = n ->
    inv ad (mkP h (done ++ fs)) ls -> (forall j, j < length done -> nth_error ls j = Some []) ->
    exists h' ad', clear_all h fs = Ok h' /\ inv ad' (mkP h' (map (fun _ => None) (done ++ fs))) (map (fun _ => []) ls).
  Proof.
    induction n; intros ad h fs dn ls L I D.
    - destruct fs; [|discriminate]. exists h, ad. split; auto. rewrite app_nil_r in *.
      pose proof (proj1 I) as LL. cbn [pfirst] in LL.
      assert (X : map (fun _ => []) ls = ls).
      { apply nth_ext_err. intro i. rewrite nth_error_map. destruct (nth_error ls i) eqn:E; auto.
        assert (i < length ls) by (apply nth_error_Some; congruence). rewrite D in E by lia. inversion E. auto. }
      assert (Y : map (fun _ : option nat => None) dn = dn).
      { apply nth_ext_err. intro i. rewrite nth_error_map. destruct (nth_error dn i) eqn:E; auto.
        assert (i < length dn) by (apply nth_error_Some; congruence).
        destruct (inv_get _ _ _ i [] I) as [f [Ef [C _]]]; [apply D; auto|]. cbn [pfirst] in Ef. rewrite E in Ef. inversion Ef; subst.
        destruct (chain_nil _ _ _ C) as [-> _]. reflexivity. }
      rewrite X. rewrite Y. exact I.
    - destruct fs as [|f fs]; [discriminate|]. cbn [clear_all].
      pose proof (proj1 I) as LL. cbn [pfirst] in LL. rewrite app_length in LL. cbn [length] in LL.
      destruct (nth_error ls (length dn)) as [l|] eqn:E; [|apply nth_error_None in E; lia].
      destruct (clear_inv ad (mkP h (dn ++ f :: fs)) ls (length dn) l f I E) as [h' [ad' [E' I2]]].
      { cbn [pfirst]. rewrite nth_error_app2 by lia. rewrite Nat.sub_diag. reflexivity. }
      cbn [pheap] in E'. rewrite E'. cbn [bind].
      unfold put in I2. cbn [pfirst] in I2.
      assert (LS : forall B (x : B) d t y, lset (d ++ x :: t) (length d) y = (d ++ [y]) ++ t).
      { intros B x d t y. induction d; cbn; auto. f_equal. auto. }
      rewrite LS in I2.
      assert (D2 : forall j, j < length (dn ++ [None]) -> nth_error (upd ls (length dn) []) j = Some []).
      { intros j Hj. rewrite app_length in Hj. cbn [length] in Hj. rewrite upd_nth by lia.
        destruct (Nat.eqb_spec (length dn) j); auto. apply D. lia. }
      cbn [length] in L. destruct (IHn ad' h' fs (dn ++ [None]) _ ltac:(lia) I2 D2) as [h2 [ad2 [E2 I3]]].
      exists h2, ad2. split; auto.
      assert (X : map (fun _ : list A => @nil A) (upd ls (length dn) []) = map (fun _ => []) ls).
      { apply nth_ext_err. intro i. rewrite !nth_error_map, upd_nth by lia.
        destruct (Nat.eqb_spec (length dn) i); auto. subst. rewrite E. reflexivity. }
      rewrite X in I3. rewrite !map_app in *. cbn [map] in *. rewrite <- app_assoc in I3. exact I3.
  Qed.

  Lemma leak_free_spec : forall ad p ls, inv ad p (map (fun _ : list A => []) ls) -> leak_free (pheap p) = true.
  Proof.
    intros ad p ls I. unfold leak_free. apply forallb_forall. intros c J. apply In_nth_error in J. destruct J as [a E].
    destruct c as [n|]; auto. pose proof I as [_ [_ [_ [_ I5]]]]. destruct (I5 a n E) as [j [Hj Ij]].
    destruct (inv_get _ _ _ j [] I) as [f [_ [C _]]].
    - rewrite nth_error_map. rewrite map_length in Hj. destruct (nth_error ls j) eqn:E2; auto. apply nth_error_None in E2. lia.
    - destruct (chain_nil _ _ _ C) as [_ Z]. rewrite Z in Ij. destruct Ij.
  Qed.

  Lemma history : forall os, Forall not_self os ->
    match ideal_run [] os with
    | Ok (ls, popped) => exists p, run pinit os = Ok (p, popped) /\ length (pfirst p) = length ls /\
        (forall j l, nth_error ls j = Some l -> exists f, nth_error (pfirst p) j = Some f /\
           size (pheap p) f = Ok (length l) /\ contents (pheap p) f = Ok l /\
           empty f = (match l with [] => true | _ => false end) /\
           front (pheap p) f = (match l with v :: _ => Ok v | [] => Contract end)) /\
        exists h, clear_all (pheap p) (pfirst p) = Ok h /\ leak_free h = true
    | Contract => run pinit os = Contract
    | UB => run pinit os = UB
    | OutOfFuel => False
    end.
  Proof.
    intros os NS. pose proof (run_spec os _ _ _ inv_init NS) as P. destruct (ideal_run [] os) as [[ls vs]| | |]; auto.
    destruct P as [p [ad [E I]]]. exists p. split; auto. split; [apply I|]. split.
    - intros. eapply observe; eauto.
    - destruct p as [h fs]. cbn [pheap pfirst]. destruct (clear_all_spec (length fs) ad h fs [] ls eq_refl I) as [h' [ad' [E' I']]].
      + cbn. intros; lia.
      + exists h'. split; auto. exact (leak_free_spec _ _ _ I').
  Qed.

  (* what self-assignment really does *)
  Lemma self_assign : forall ad p ls j l, inv ad p ls -> nth_error ls j = Some l ->
    exists p1 p2 ad1 ad2, step p (CopyAssign j j) = Ok (p1, None) /\ inv ad1 p1 (upd ls j []) /\
      step p (MoveAssign j j) = Ok (p2, None) /\ inv ad2 p2 (upd ls j []).
  Proof.
    intros ad p ls j l I E. destruct (inv_get _ _ _ _ _ I E) as [f [Ef [_ [_ Hj]]]].
    destruct (clear_inv _ _ _ _ _ _ I E Ef) as [h [ad' [E' I2]]].
    assert (G : get (put p h j None) j = Ok None).
    { apply get_Some. unfold put. cbn [pfirst]. apply lset_nth_eq. apply nth_error_Some. congruence. }
    cbn [step]. rewrite (get_Some _ _ _ Ef). cbn [bind]. rewrite E'. cbn [bind]. rewrite G. cbn [bind].
    assert (PP : put (put p h j None) h j None = put p h j None).
    { unfold put. cbn [pfirst]. f_equal. apply nth_ext_err. intro i. rewrite !lset_nth, lset_length.
      destruct (j =? i); auto. }
    assert (P2 : put (put (put p h j None) h j None) h j None = put p h j None) by (rewrite PP; exact PP).
    exists (put p h j None), (put p h j None), ad', ad'.
    split; [|split; [exact I2|split; [|exact I2]]].
    - change (pheap (put p h j None)) with h. unfold fuel. cbn [copy_loop bind]. rewrite PP. reflexivity.
    - f_equal. f_equal. exact P2.
  Qed.
End P.

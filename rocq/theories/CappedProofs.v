From Coq Require Import NArith Arith List Bool Lia.
From Verif Require Import Base Cells VecModel VecSpec VecProofs CappedModel CappedSpec.
Import ListNotations.
Open Scope nat_scope.

Lemma width_fits : forall n al, (n < 2 ^ 64)%N -> (n < 2 ^ width n al)%N.
Proof.
  intros n al H. unfold width.
  destruct (N.ltb_spec n (2 ^ 8)); destruct (N.ltb_spec n (2 ^ 16)); destruct (N.ltb_spec n (2 ^ 32));
    destruct (al <=? 1)%N; destruct (al <=? 2)%N; destruct (al <=? 4)%N; cbn [andb]; auto.
Qed.

Section C.
  Context {A : Type} (cap al : N) (CAP : (cap < 2 ^ 64)%N).
  Implicit Types (v : cvec A) (l vs : list A).
  Notation w := (width cap al).
  Notation n := (N.to_nat cap).
  Notation raws := (@raw_storage A).

  Record crep v l : Prop := {
    c_size : csize v = N.of_nat (length l);
    c_fits : length l <= n;
    c_cells : cells v = map Obj l ++ raws (n - length l) }.

  Lemma W : (cap < 2 ^ w)%N.
  Proof. apply width_fits. auto. Qed.
  Lemma crep_init : crep (cinit cap) [].
  Proof. constructor; cbn; auto; [lia|]. rewrite Nat.sub_0_r. auto. Qed.

  Lemma ceval_own : forall v l i, crep v l -> ceval v (Own i) = match nth_error l (N.to_nat i) with Some x => Ok x | None => UB end.
  Proof.
    intros v l i R. cbn. rewrite (c_cells _ _ R). unfold cread. destruct (nth_error l (N.to_nat i)) eqn:E.
    - rewrite nth_error_app1 by (rewrite map_length; apply nth_error_Some; congruence). rewrite nth_error_map, E. auto.
    - apply nth_error_None in E. rewrite nth_error_app2 by (rewrite map_length; auto). rewrite map_length.
      destruct (nth_error (raws _) _) eqn:F; auto. apply nth_error_In in F. apply repeat_spec in F. subst. auto.
  Qed.
  Lemma cpush_spec : forall v l a x, crep v l -> ceval v a = Ok x ->
    if length l <? n then exists v', cpush cap al v a = Ok v' /\ crep v' (l ++ [x]) else cpush cap al v a = Contract.
  Proof.
    intros v l a x R EV. pose proof W as HW. unfold cpush. rewrite (c_size _ _ R). destruct (Nat.ltb_spec (length l) n).
    - rewrite (proj2 (N.ltb_lt _ _)) by lia. cbn [contract bind]. rewrite EV. cbn [bind]. rewrite Nat2N.id, (c_cells _ _ R).
      replace (raws (n - length l)) with (Raw :: raws (n - length l - 1)) by (rewrite <- raws_S; f_equal; lia).
      rewrite construct_mid by (rewrite map_length; auto). cbn [bind]. eexists. split; [reflexivity|].
      rewrite wadd_small by lia. constructor; cbn [csize cells]; rewrite ?app_length; cbn [length]; try lia.
      rewrite map_app, <- app_assoc. cbn. do 3 f_equal. lia.
    - rewrite (proj2 (N.ltb_ge _ _)) by lia. auto.
  Qed.

  Lemma crep_snoc : forall v l x, crep v (l ++ [x]) ->
    wsub w (csize v) 1 = N.of_nat (length l) /\ (csize v - 1 = N.of_nat (length l))%N /\ (0 <? csize v)%N = true /\
    cells v = map Obj l ++ Obj x :: raws (n - length l - 1) /\
    forall d', d' = map Obj l ++ Raw :: raws (n - length l - 1) -> crep (mkC d' (N.of_nat (length l))) l.
  Proof.
    intros v l x R. pose proof W. pose proof (c_size _ _ R) as S. pose proof (c_fits _ _ R) as C. pose proof (c_cells _ _ R) as D.
    rewrite app_length in *. cbn in S, C, D. split; [rewrite S, wsub_ge by lia; lia|]. split; [lia|].
    split; [apply N.ltb_lt; lia|]. split; [rewrite D, map_app, <- app_assoc; cbn; do 3 f_equal; lia|].
    intros d' ->. constructor; cbn [csize cells]; auto; try lia. f_equal. rewrite <- raws_S. f_equal. lia.
  Qed.
  Lemma cpop_spec : forall v l x, crep v (l ++ [x]) -> exists v', cpop cap al v = Ok v' /\ crep v' l.
  Proof.
    intros v l x R. destruct (crep_snoc _ _ _ R) as [E [_ [P [D N]]]]. unfold cpop. rewrite P. cbn [contract bind].
    rewrite E, Nat2N.id, D, destroy_mid; [|rewrite map_length; auto|exact I]. cbn [bind]. eexists. split; [reflexivity|]. auto.
  Qed.

  Lemma cdestroy_to_spec : forall v l1 g q, cells v = map Obj l1 ++ g ++ q -> Forall live g -> csize v = N.of_nat (length l1 + length g) ->
    cdestroy_to v (N.of_nat (length l1)) = Ok (map Obj l1 ++ raws (length g) ++ q).
  Proof.
    intros v l1 g q D F S. unfold cdestroy_to. rewrite S, !Nat2N.id, D. replace (length l1 + length g - length l1) with (length g) by lia.
    apply destroy_reverse_spec; auto. rewrite map_length. auto.
  Qed.
  Lemma cclear_spec : forall v l, crep v l -> cdestroy_to v 0 = Ok (raws n).
  Proof.
    intros v l R. pose proof (c_fits _ _ R). pose proof (cdestroy_to_spec v [] (map Obj l) (raws (n - length l))) as E. cbn [length map app] in E.
    change (N.of_nat 0) with 0%N in E. rewrite E; [|apply (c_cells _ _ R)|apply live_objs|rewrite map_length; apply (c_size _ _ R)].
    rewrite map_length, <- raws_add. do 2 f_equal. lia.
  Qed.
  Lemma cresize_spec : forall v l m x, crep v l ->
    if N.to_nat m <=? n then exists v', cresize cap al v m x = Ok v' /\ crep v' (firstn (N.to_nat m) l ++ repeat x (N.to_nat m - length l))
    else cresize cap al v m x = Contract.
  Proof.
    intros v l m x R. pose proof W. pose proof (c_size _ _ R) as S. pose proof (c_fits _ _ R) as C. pose proof (c_cells _ _ R) as D. unfold cresize.
    destruct (Nat.leb_spec (N.to_nat m) n) as [M|M]; [|rewrite (proj2 (N.leb_gt _ _)) by lia; auto].
    rewrite (proj2 (N.leb_le _ _)) by lia. cbn [contract bind]. rewrite S, Nat2N.id, D. set (k := N.to_nat m - length l).
    replace (raws (n - length l)) with (raws (length (repeat x k)) ++ raws (n - (length l + k)))
      by (rewrite <- raws_add, repeat_length; f_equal; lia).
    rewrite copy_construct_spec by (rewrite map_length; auto). cbn [bind]. rewrite wrap_small by lia.
    destruct (le_lt_dec (N.to_nat m) (length l)) as [Q|Q].
    - replace k with 0 by lia. cbn [repeat map app]. rewrite app_nil_r, Nat.add_0_r.
      assert (SP : l = firstn (N.to_nat m) l ++ skipn (N.to_nat m) l) by (rewrite firstn_skipn; auto).
      assert (L1 : length (firstn (N.to_nat m) l) = N.to_nat m) by (rewrite firstn_length; lia).
      set (l1 := firstn (N.to_nat m) l) in *. set (l2 := skipn (N.to_nat m) l) in *. clearbody l1 l2.
      assert (LL : length l = length l1 + length l2) by (rewrite SP, app_length; auto).
      pose proof (cdestroy_to_spec (mkC (map Obj l ++ raws (n - length l)) (N.of_nat (length l))) l1 (map Obj l2) (raws (n - length l))) as E.
      replace (N.of_nat (length l1)) with m in E by lia. rewrite E; [|cbn; rewrite app_assoc, <- map_app, <- SP; auto|apply live_objs|cbn; rewrite map_length; lia].
      cbn [bind]. eexists. split; [reflexivity|]. constructor; cbn [csize cells]; try lia. rewrite <- raws_add, map_length. do 2 f_equal. lia.
    - rewrite firstn_all2 by lia. assert (LK : length (l ++ repeat x k) = N.to_nat m) by (rewrite app_length, repeat_length; lia).
      unfold cdestroy_to. cbn [csize cells]. replace (N.to_nat (N.of_nat (length l)) - N.to_nat m) with 0 by lia. cbn [destroy_reverse bind].
      eexists. split; [reflexivity|]. constructor; cbn [csize cells]; rewrite ?LK; auto; try lia.
      rewrite map_app, <- app_assoc. do 3 f_equal. lia.
  Qed.
  Lemma cremove_at_spec : forall v l i, crep v l -> N.to_nat i < length l ->
    exists v', cremove_at cap al v i = Ok v' /\ crep v' (firstn (N.to_nat i) l ++ skipn (S (N.to_nat i)) l).
  Proof.
    intros v l i R H. pose proof W. pose proof (c_size _ _ R) as S. pose proof (c_fits _ _ R) as C. pose proof (c_cells _ _ R) as D.
    unfold cremove_at. rewrite (proj2 (N.ltb_lt i (csize v))) by lia. cbn [contract bind]. rewrite wsub_ge by lia.
    destruct (nth_error l (N.to_nat i)) as [x|] eqn:NE; [|apply nth_error_None in NE; lia].
    destruct (split_nth _ _ _ _ NE) as [SP L1]. set (l1 := firstn (N.to_nat i) l) in *. set (l2 := skipn (Datatypes.S (N.to_nat i)) l) in *. clearbody l1 l2.
    assert (LL : length l = length l1 + 1 + length l2) by (rewrite SP, app_length; cbn [length]; lia).
    replace (N.to_nat (csize v) - N.to_nat i - 1) with (length l2) by lia.
    rewrite D. replace (map Obj l) with (map Obj l1 ++ Obj x :: @map A (cell A) Obj l2) by (rewrite SP, map_app; auto).
    rewrite <- app_assoc. cbn [map app].
    destruct (shift_spec l2 (map Obj l1) [Obj x] (raws (n - length l)) (N.to_nat i) 1) as [g' [G1 [G2 E]]];
      auto; [rewrite map_length; auto|repeat constructor|]. cbn [app] in E. rewrite E. cbn [bind].
    destruct g' as [|c [|]]; try discriminate. pose proof (Forall_inv G2) as Lc. cbn [app].
    replace (map Obj l1 ++ map Obj l2 ++ c :: raws (n - length l)) with (map Obj (l1 ++ l2) ++ c :: raws (n - length l))
      by (rewrite map_app, <- app_assoc; auto).
    rewrite destroy_mid; auto; [|rewrite map_length, app_length; lia]. cbn [bind]. eexists. split; [reflexivity|].
    constructor; cbn [csize cells]; rewrite ?app_length; try lia. f_equal. rewrite <- raws_S. f_equal. lia.
  Qed.
  Lemma cunordered_spec : forall v l i, crep v l -> N.to_nat i < length l ->
    exists v', cremove_at_unordered cap al v i = Ok v' /\ crep v' (unordered_remove l (N.to_nat i)).
  Proof.
    intros v l i R H. pose proof (c_size _ _ R) as S. pose proof (c_fits _ _ R) as C.
    unfold cremove_at_unordered. rewrite (proj2 (N.ltb_lt i (csize v))) by lia. rewrite (proj2 (N.ltb_lt 0 (csize v))) by lia. cbn [contract bind].
    destruct (nth_error l (N.to_nat i)) as [x|] eqn:NE; [|apply nth_error_None in NE; lia].
    unfold unordered_remove. destruct (rev l) as [|y t] eqn:RV; [apply (f_equal (@length A)) in RV; rewrite rev_length in RV; cbn in RV; lia|].
    rewrite (c_cells _ _ R). destruct (swap_spec l _ x y t (raws (n - length l)) NE RV) as [d [E D]].
    replace (N.to_nat (csize v - 1)) with (length l - 1) by lia. rewrite E. cbn [bind].
    assert (LR : length (removelast (replace_at l (N.to_nat i) y)) + 1 = length l).
    { assert (Q : length (replace_at l (N.to_nat i) y) = length l) by (rewrite replace_at_lset, lset_length; auto).
      set (z := replace_at l (N.to_nat i) y) in *. destruct (exists_last (l := z)) as [z' [q Ez]]; [intro Z; rewrite Z in *; cbn in *; lia|].
      rewrite Ez in *. rewrite removelast_last. rewrite app_length in *. cbn in *. lia. }
    eapply cpop_spec. constructor; cbn [csize cells]; rewrite ?app_length; cbn [length]; try lia.
    rewrite D. do 2 f_equal. lia.
  Qed.
  Lemma cindex_spec : forall v l i, crep v l -> cindex v i = match nth_error l (N.to_nat i) with Some x => Ok x | None => Contract end.
  Proof.
    intros v l i R. unfold cindex. pose proof (ceval_own v l i R) as E. cbn in E. rewrite E. rewrite (c_size _ _ R).
    destruct (nth_error l (N.to_nat i)) eqn:NE.
    - assert (N.to_nat i < length l) by (apply nth_error_Some; congruence). rewrite (proj2 (N.ltb_lt _ _)) by lia. auto.
    - apply nth_error_None in NE. destruct (N.ltb_spec i (N.of_nat (length l))); cbn; auto. lia.
  Qed.
  Lemma cfront_spec : forall v l, crep v l -> cfront v = match l with x :: _ => Ok x | [] => Contract end.
  Proof. intros v l R. unfold cfront. rewrite (c_size _ _ R), (c_cells _ _ R). destruct l; auto. Qed.
  Lemma cback_spec : forall v l, crep v l -> cback v = match rev l with x :: _ => Ok x | [] => Contract end.
  Proof.
    intros v l R. unfold cback. destruct (rev l) as [|x t] eqn:RV.
    - rewrite (c_size _ _ R). assert (l = []) by (rewrite <- (rev_involutive l), RV; auto). subst. auto.
    - destruct (last_split _ _ _ RV) as [SP _]. rewrite SP in R. destruct (crep_snoc _ _ _ R) as [_ [E [P [D _]]]].
      rewrite P. cbn [contract bind]. rewrite E, Nat2N.id, D. apply cread_mid. rewrite map_length. auto.
  Qed.
  Lemma cset_spec : forall v l i x, crep v l -> N.to_nat i < length l ->
    exists v', cset v i x = Ok v' /\ crep v' (replace_at l (N.to_nat i) x).
  Proof.
    intros v l i x R H. unfold cset. pose proof (c_size _ _ R) as S. rewrite (proj2 (N.ltb_lt i (csize v))) by lia. cbn [contract bind].
    destruct (nth_error l (N.to_nat i)) as [y|] eqn:NE; [|apply nth_error_None in NE; lia].
    destruct (split_nth _ _ _ _ NE) as [SP L1]. rewrite (replace_at_split _ _ _ _ _ NE). rewrite (c_cells _ _ R).
    set (l1 := firstn _ l) in *. set (l2 := skipn _ l) in *. clearbody l1 l2. clear NE.
    assert (LL : length l = length l1 + 1 + length l2) by (rewrite SP, app_length; cbn; lia).
    replace (map Obj l) with (map Obj l1 ++ Obj y :: @map A (cell A) Obj l2) by (rewrite SP, map_app; auto).
    rewrite <- app_assoc. cbn [app]. rewrite assign_mid; [|rewrite map_length; auto|exact I]. cbn [bind]. eexists. split; [reflexivity|].
    pose proof (c_fits _ _ R).
    constructor; cbn [csize cells]; rewrite ?app_length; cbn [length]; auto; try lia. rewrite map_app, <- app_assoc. cbn [map app]. rewrite LL. do 5 f_equal. lia.
  Qed.
  Lemma cfind_spec : forall v l p, crep v l -> find_loop p (N.to_nat (csize v)) 0 (cells v) = Ok (first_match p l).
  Proof.
    intros v l p R. rewrite (c_size _ _ R), Nat2N.id, (c_cells _ _ R).
    pose proof (find_loop_spec p l [] (raws (n - length l)) 0 eq_refl) as E. cbn [app] in E. rewrite E. destruct (first_match p l); auto.
  Qed.
  Lemma cvalues_spec : forall v l, crep v l -> cvalues v = Ok l.
  Proof.
    intros v l R. unfold cvalues. rewrite (c_size _ _ R), Nat2N.id, (c_cells _ _ R).
    pose proof (read_range_spec l [] (raws (n - length l)) 0 eq_refl) as E. exact E.
  Qed.
  Lemma cfill_spec : forall vs, length vs <= n -> copy_construct vs 0 (raws n) = Ok (map Obj vs ++ raws (n - length vs)).
  Proof.
    intros vs L. replace (raws n) with (raws (length vs) ++ raws (n - length vs)) by (rewrite <- raws_add; f_equal; lia).
    pose proof (copy_construct_spec vs [] (raws (n - length vs)) 0 eq_refl) as E. exact E.
  Qed.
  Lemma cmake_from_spec : forall vs,
    if length vs <=? n then exists v, cmake_from cap al vs = Ok v /\ crep v vs else cmake_from cap al vs = Contract.
  Proof.
    intros vs. pose proof W. unfold cmake_from. destruct (Nat.leb_spec (length vs) n).
    - rewrite (proj2 (N.leb_le _ _)) by lia. cbn [contract bind cinit cells]. rewrite cfill_spec by auto. cbn [bind]. eexists. split; [reflexivity|].
      rewrite wrap_small by lia. constructor; cbn; auto.
    - rewrite (proj2 (N.leb_gt _ _)) by lia. auto.
  Qed.
  Lemma ccopy_ctor_spec : forall v l, crep v l -> exists v', ccopy_ctor cap al v = Ok v' /\ crep v' l.
  Proof.
    intros v l R. pose proof W. pose proof (c_fits _ _ R). unfold ccopy_ctor. rewrite (cvalues_spec _ _ R). cbn [bind cinit cells].
    rewrite cfill_spec by auto. cbn [bind]. eexists. split; [reflexivity|]. rewrite (c_size _ _ R), wrap_small by lia. constructor; cbn; auto.
  Qed.
  Lemma assign_range_spec : forall vs p m q i, i = length p -> length m = length vs -> Forall live m ->
    assign_range vs i (p ++ m ++ q) = Ok (p ++ map Obj vs ++ q).
  Proof.
    induction vs as [|x vs IH]; intros p m q i E L F; destruct m as [|c m]; try discriminate; auto.
    cbn [assign_range app map]. inversion F; subst. rewrite assign_mid by auto. cbn [bind].
    replace (p ++ Obj x :: m ++ q) with ((p ++ [Obj x]) ++ m ++ q) by (rewrite <- app_assoc; auto).
    rewrite IH; auto; [|rewrite app_length; cbn; lia]. rewrite <- app_assoc. auto.
  Qed.
  Lemma ccopy_assign_spec : forall v l rhs r, crep v l -> crep rhs r -> exists v', ccopy_assign v rhs = Ok v' /\ crep v' r.
  Proof.
    intros v l rhs r R R2. unfold ccopy_assign. rewrite (cvalues_spec _ _ R2). cbn [bind].
    pose proof (c_size _ _ R) as S. pose proof (c_size _ _ R2) as S2. pose proof (c_fits _ _ R) as C. pose proof (c_fits _ _ R2) as C2.
    set (k := Nat.min (length l) (length r)). replace (N.to_nat (N.min (csize v) (csize rhs))) with k by lia.
    assert (D : cdestroy_to v (csize rhs) = Ok (map Obj (firstn k l) ++ raws (n - k))).
    { assert (SP : l = firstn k l ++ skipn k l) by (rewrite firstn_skipn; auto).
      assert (L1 : length (firstn k l) = k) by (rewrite firstn_length; lia).
      assert (L2 : length (skipn k l) = length l - k) by (rewrite skipn_length; lia).
      unfold cdestroy_to. rewrite S, S2, !Nat2N.id, (c_cells _ _ R).
      destruct (le_lt_dec (length l) (length r)).
      - replace (length l - length r) with 0 by lia. cbn. rewrite firstn_all2 by lia. do 3 f_equal. lia.
      - replace (length l - length r) with (length (map (@Obj A) (skipn k l))) by (rewrite map_length; lia).
        rewrite SP at 2. rewrite map_app, <- app_assoc. rewrite destroy_reverse_spec; [|auto|rewrite map_length; lia|apply live_objs].
        rewrite <- raws_add, map_length. do 3 f_equal. lia. }
    rewrite D. cbn [bind]. clear D.
    pose proof (assign_range_spec (firstn k r) [] (map Obj (firstn k l)) (raws (n - k)) 0 eq_refl) as E. cbn [app] in E.
    rewrite E; [|rewrite map_length, !firstn_length; lia|apply live_objs]. cbn [bind]. clear E.
    replace (raws (n - k)) with (raws (length (skipn k r)) ++ raws (n - length r)) by (rewrite <- raws_add, skipn_length; f_equal; lia).
    rewrite copy_construct_spec by (rewrite map_length, firstn_length; lia). cbn [bind]. eexists. split; [reflexivity|].
    constructor; cbn [csize cells]; auto. rewrite app_assoc, <- map_app, firstn_skipn. auto.
  Qed.
  Lemma cdestructor_spec : forall v l, crep v l -> cdestructor v = Ok tt.
  Proof. intros v l R. unfold cdestructor. rewrite (cclear_spec _ _ R). cbn [bind]. apply release_raws. Qed.
  Lemma cmove_ctor_spec : forall v l, crep v l -> exists v' src, cmove_ctor cap al v = Ok (v', src) /\ crep v' l /\
    csize src = 0%N /\ cells src = repeat Husk (length l) ++ raws (n - length l).
  Proof.
    intros v l R. pose proof W. pose proof (c_fits _ _ R). unfold cmove_ctor. rewrite (c_size _ _ R), Nat2N.id, (c_cells _ _ R). cbn [cinit cells].
    replace (raws n) with (raws (length l) ++ raws (n - length l)) by (rewrite <- raws_add; f_equal; lia).
    pose proof (move_construct_spec l [] (raws (n - length l)) [] (raws (n - length l)) 0 eq_refl eq_refl) as E. cbn [app] in E. rewrite E.
    cbn [bind]. eexists _, _. split; [reflexivity|]. rewrite wrap_small by lia. split; [constructor; cbn; auto|]. auto.
  Qed.

  (* ---- histories ---- *)
  Lemma cstep_spec : forall v l o, crep v l ->
    match ideal l (unbounded o) with
    | Some (l', r) => if length l' <=? n then exists v', cstep cap al v o = Ok (v', r) /\ crep v' l' else cstep cap al v o = Contract
    | None => cstep cap al v o = Contract
    end.
  Proof.
    intros v l o R. pose proof (c_size _ _ R) as S. pose proof (c_fits _ _ R) as C.
    assert (SAME : forall l', length l' <= length l -> length l' <=? n = true) by (intros; apply Nat.leb_le; lia).
    assert (RU : forall (x : outcome (cvec A)) l', length l' <= length l -> (exists v', x = Ok v' /\ crep v' l') ->
      if length l' <=? n then exists v', cru x = Ok (v', RUnit) /\ crep v' l' else cru x = Contract).
    { intros x l' L [v' [-> H]]. rewrite SAME by auto. exists v'. auto. }
    assert (PU : forall a x, ceval v a = Ok x ->
      if length (l ++ [x]) <=? n then exists v', cru (cpush cap al v a) = Ok (v', RUnit) /\ crep v' (l ++ [x]) else cru (cpush cap al v a) = Contract).
    { intros a x EV. pose proof (cpush_spec v l a x R EV) as H. rewrite app_length. cbn [length]. rewrite Nat.add_1_r.
      change (Datatypes.S (length l) <=? n) with (length l <? n). destruct (length l <? n).
      - destruct H as [v' [-> H]]. exists v'. auto.
      - rewrite H. auto. }
    destruct o as [x|i| | |m x|i|i|i|i x| | | |p]; cbn [unbounded ideal cstep].
    - apply PU. auto.
    - pose proof (ceval_own v l i R) as E. rewrite S. destruct (nth_error l (N.to_nat i)) eqn:NE.
      + assert (N.to_nat i < length l) by (apply nth_error_Some; congruence). rewrite (proj2 (N.ltb_lt _ _)) by lia. cbn [contract bind]. apply PU. auto.
      + apply nth_error_None in NE. destruct (N.ltb_spec i (N.of_nat (length l))); cbn; auto. lia.
    - destruct (rev l) as [|x t] eqn:RV.
      + assert (l = []) by (rewrite <- (rev_involutive l), RV; auto). subst. unfold cpop. rewrite S. auto.
      + destruct (last_split _ _ _ RV) as [SP _]. destruct l as [|y l0]; [discriminate|]. apply RU.
        * rewrite SP at 2. rewrite app_length. lia.
        * set (l := y :: l0) in *. rewrite SP in R. eapply cpop_spec; eauto.
    - apply RU; [cbn; lia|]. unfold cclear. rewrite (cclear_spec _ _ R). cbn [bind]. eexists. split; [reflexivity|].
      constructor; cbn; auto; [lia|]. rewrite Nat.sub_0_r. auto.
    - pose proof (cresize_spec v l m x R) as H.
      replace (length (firstn (N.to_nat m) l ++ repeat x (N.to_nat m - length l))) with (N.to_nat m) by (rewrite app_length, firstn_length, repeat_length; lia).
      destruct (N.to_nat m <=? n); [destruct H as [v' [-> H]]; exists v'; auto|rewrite H; auto].
    - destruct (Nat.ltb_spec (N.to_nat i) (length l)).
      + apply RU; [rewrite app_length, firstn_length, skipn_length; lia|]. apply cremove_at_spec; auto.
      + unfold cremove_at. rewrite S. destruct (N.ltb_spec i (N.of_nat (length l))); cbn; auto. lia.
    - destruct (Nat.ltb_spec (N.to_nat i) (length l)).
      + apply RU; [|apply cunordered_spec; auto]. pose proof (ideal_len l (RemoveAtUnordered i) (unordered_remove l (N.to_nat i)) RUnit) as IL.
        cbn [ideal] in IL. rewrite (proj2 (Nat.ltb_lt (N.to_nat i) (length l))) in IL by auto. specialize (IL eq_refl). cbn in IL. lia.
      + unfold cremove_at_unordered. rewrite S. destruct (N.ltb_spec i (N.of_nat (length l))); cbn; auto. lia.
    - rewrite (cindex_spec _ _ i R). destruct (nth_error l (N.to_nat i)); cbn; auto. rewrite SAME by auto. eauto.
    - destruct (Nat.ltb_spec (N.to_nat i) (length l)).
      + apply RU; [rewrite replace_at_lset, lset_length; auto|]. apply cset_spec; auto.
      + unfold cset. rewrite S. destruct (N.ltb_spec i (N.of_nat (length l))); cbn; auto. lia.
    - rewrite (cfront_spec _ _ R). destruct l; cbn [crr bind]; auto. rewrite SAME by auto. eauto.
    - rewrite (cback_spec _ _ R). destruct (rev l); cbn [crr bind]; auto. rewrite SAME by auto. eauto.
    - rewrite SAME by auto. exists v. rewrite S. auto.
    - rewrite SAME by auto. unfold ccontains. rewrite (cfind_spec _ _ p R). cbn. rewrite first_match_exists. eauto.
  Qed.

  Definition csrep (ov : option (cvec A)) (ol : option (list A)) : Prop :=
    match ov, ol with Some v, Some l => crep v l | None, None => True | _, _ => False end.
  Definition cwrep (st : list (option (cvec A))) (iw : iworld A) : Prop := Forall2 csrep st iw.
  Lemma cwrep_get : forall st iw k, cwrep st iw -> named iw k -> exists v, cgetv st k = Ok v /\ crep v (iget iw k).
  Proof.
    intros st iw k H. revert k. induction H; intros k [l0 N].
    - destruct k; discriminate.
    - destruct k; cbn in N.
      + injection N as ->. unfold cgetv, iget. cbn. destruct x as [v|]; cbn in H; [|contradiction]. exists v. tauto.
      + destruct (IHForall2 k (ex_intro _ l0 N)) as [v [E1 E2]]. exists v. unfold cgetv, iget in *. cbn. auto.
  Qed.
  Lemma cwrep_set : forall st iw k x y, cwrep st iw -> csrep x y -> cwrep (lset st k x) (replace_at iw k y).
  Proof. intros st iw k x y H S. revert k. induction H; intros [|k]; cbn; constructor; auto. apply IHForall2. Qed.
  Lemma cwrep_app : forall st iw x y, cwrep st iw -> csrep x y -> cwrep (st ++ [x]) (iw ++ [y]).
  Proof. intros. apply Forall2_app; auto. Qed.
  Lemma cwrep_fits : forall st (iw : iworld A), cwrep st iw -> fits n iw = true.
  Proof.
    intros st iw H. induction H; auto. unfold fits in *. cbn [forallb]. rewrite IHForall2, andb_true_r. destruct x, y; cbn in H; try contradiction; auto.
    apply Nat.leb_le. apply (c_fits _ _ H).
  Qed.
  Lemma fits_set : forall st iw k l, cwrep st iw -> named iw k -> length l <=? n = false -> fits n (replace_at iw k (Some l)) = false.
  Proof.
    intros st iw k l H. revert k. induction H; intros k [l9 N] L.
    - destruct k; discriminate.
    - destruct k; cbn in *.
      + rewrite L. auto.
      + unfold fits in IHForall2. erewrite IHForall2; [apply andb_false_r|eexists; eauto|auto].
  Qed.
  Lemma fits_app : forall iw l, fits n (iw ++ [Some l]) = fits n iw && (length l <=? n).
  Proof. intros. unfold fits. rewrite forallb_app. cbn. rewrite andb_true_r. auto. Qed.

  Lemma cwstep_spec : forall st iw o, cwrep st iw -> wf_op iw (unbounded_w o) ->
    match bounded_step n iw o with
    | Some (iw', r) => exists st', cwstep cap al st o = Ok (st', r) /\ cwrep st' iw'
    | None => cwstep cap al st o = Contract
    end.
  Proof.
    intros st iw o R F. unfold bounded_step.
    assert (FITS : forall st' iw', cwrep st' iw' -> fits n iw' = true) by (intros; eapply cwrep_fits; eauto).
    destruct o as [k o| |m x|vs|k|k j|k]; cbn [unbounded_w wf_op cwstep iworld_step] in *.
    - destruct (cwrep_get _ _ _ R F) as [v [G RV]]. rewrite G. cbn [bind]. pose proof (cstep_spec v _ o RV) as H.
      destruct (ideal (iget iw k) (unbounded o)) as [[l r]|]; [|rewrite H; auto].
      destruct (length l <=? n) eqn:L.
      + destruct H as [v' [E R']]. rewrite E. cbn [bind]. assert (Q : cwrep (lset st k (Some v')) (replace_at iw k (Some l))) by (apply cwrep_set; auto).
        rewrite (FITS _ _ Q). eauto.
      + rewrite (fits_set _ _ _ _ R F L). rewrite H. auto.
    - assert (Q : cwrep (st ++ [Some (cinit cap)]) (iw ++ [Some []])) by (apply cwrep_app; auto; apply crep_init).
      rewrite (FITS _ _ Q). eauto.
    - rewrite fits_app, (FITS _ _ R), repeat_length. unfold cmake_sized. pose proof (cresize_spec _ _ m x crep_init) as H.
      rewrite firstn_nil, Nat.sub_0_r in H. cbn [app length andb] in *. destruct (Nat.leb_spec (N.to_nat m) n).
      + destruct H as [v [E RV]]. rewrite (proj2 (N.leb_le _ _)) by lia. cbn [contract bind]. rewrite E. cbn [bind]. eexists. split; [reflexivity|].
        apply cwrep_app; auto.
      + rewrite (proj2 (N.leb_gt _ _)) by lia. auto.
    - rewrite fits_app, (FITS _ _ R). cbn [andb]. pose proof (cmake_from_spec vs) as H. destruct (length vs <=? n).
      + destruct H as [v [E RV]]. rewrite E. cbn [bind]. eexists. split; [reflexivity|]. apply cwrep_app; auto.
      + rewrite H. auto.
    - destruct (cwrep_get _ _ _ R F) as [v [G RV]]. rewrite G. cbn [bind]. destruct (ccopy_ctor_spec _ _ RV) as [v' [E RV']]. rewrite E. cbn [bind].
      assert (Q : cwrep (st ++ [Some v']) (iw ++ [Some (iget iw k)])) by (apply cwrep_app; auto). rewrite (FITS _ _ Q). eauto.
    - destruct F as [F1 F2]. destruct (cwrep_get _ _ _ R F1) as [v [G RV]]. destruct (cwrep_get _ _ _ R F2) as [v2 [G2 RV2]]. rewrite G, G2. cbn [bind].
      destruct (ccopy_assign_spec _ _ _ _ RV RV2) as [v' [E RV']]. rewrite E. cbn [bind].
      assert (Q : cwrep (lset st k (Some v')) (replace_at iw k (Some (iget iw j)))) by (apply cwrep_set; auto). rewrite (FITS _ _ Q). eauto.
    - destruct (cwrep_get _ _ _ R F) as [v [G RV]]. rewrite G. cbn [bind]. rewrite (cdestructor_spec _ _ RV). cbn [bind].
      assert (Q : cwrep (lset st k None) (replace_at iw k None)) by (apply cwrep_set; cbn; auto). rewrite (FITS _ _ Q). eauto.
  Qed.
  Lemma cwrun_spec : forall os st iw, cwrep st iw -> bounded_wf n iw os ->
    match bounded_run n iw os with
    | Some (iw', rs) => exists st', cwrun cap al st os = Ok (st', rs) /\ cwrep st' iw'
    | None => cwrun cap al st os = Contract
    end.
  Proof.
    induction os as [|o os IH]; intros st iw R F; cbn [bounded_run bounded_wf cwrun] in *; [eauto|].
    destruct F as [F1 F2]. pose proof (cwstep_spec st iw o R F1) as H. destruct (bounded_step n iw o) as [[iw1 r]|]; [|rewrite H; auto].
    destruct H as [st1 [E R1]]. rewrite E. cbn [bind]. specialize (IH _ _ R1 F2). destruct (bounded_run n iw1 os) as [[iw2 rs]|]; [|rewrite IH; auto].
    destruct IH as [st2 [E2 R2]]. rewrite E2. cbn. eauto.
  Qed.
End C.

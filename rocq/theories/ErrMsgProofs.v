(* Proofs about error messages. *)
From Coq Require Import Ascii String ZArith Arith List Bool Lia.
From Verif Require Import Base ErrMsgModel ErrMsgSpec.
Import ListNotations.

(* ---- drawing ---- *)
Definition rect (H W : nat) (g : grid) : Prop := length g = H /\ Forall (fun r => length r = W) g.
Definition inside (H W : nat) (w : Z * Z * ascii) : Prop := let '(y, x, _) := w in (0 <= y < Z.of_nat H)%Z /\ (0 <= x < Z.of_nat W)%Z.
Lemma plot_ok : forall H W g y x c, rect H W g -> inside H W (y, x, c) -> exists g', plot g y x c = Ok g' /\ rect H W g' /\
  forall y' x', at_ g' y' x' = if ((y =? Z.of_nat y') && (x =? Z.of_nat x'))%Z then Some c else at_ g y' x'.
Proof.
  intros H W g y x c (L & F) (Hy & Hx). unfold plot. rewrite L.
  replace ((0 <=? y) && (y <? Z.of_nat H))%Z with true by (symmetry; apply andb_true_iff; lia). cbn [contract bind].
  destruct (nth_error g (Z.to_nat y)) as [row|] eqn:E; [|apply nth_error_None in E; lia].
  assert (aget g (Z.to_nat y) = Ok row) as -> by (apply aget_Ok; exact E). cbn [bind].
  assert (length row = W) as Lr by (rewrite Forall_forall in F; apply F; apply nth_error_In in E; exact E). rewrite Lr.
  replace ((0 <=? x) && (x <? Z.of_nat W))%Z with true by (symmetry; apply andb_true_iff; lia). cbn [contract bind].
  rewrite aset_Ok by lia. cbn [bind]. rewrite aset_Ok by lia. eexists. split; [reflexivity|]. split.
  - split; [rewrite lset_length; exact L|]. rewrite Forall_forall in *. intros r I. apply In_nth_error in I as (k & I).
    rewrite lset_nth in I. destruct (Nat.eqb_spec (Z.to_nat y) k) as [Ek|N].
    + destruct (_ <? _); [|discriminate]. injection I as <-. rewrite lset_length. exact Lr.
    + apply F. apply nth_error_In in I. exact I.
  - intros y' x'. unfold at_. rewrite lset_nth. destruct (Z.eqb_spec y (Z.of_nat y')) as [->|N]; cbn [andb].
    + rewrite Nat2Z.id in *. rewrite Nat.eqb_refl. replace (y' <? length g) with true by (symmetry; apply Nat.ltb_lt; lia).
      rewrite lset_nth. rewrite E. destruct (Z.eqb_spec x (Z.of_nat x')) as [->|N].
      * rewrite Nat2Z.id, Nat.eqb_refl. replace (x' <? length row) with true by (symmetry; apply Nat.ltb_lt; lia). reflexivity.
      * destruct (Nat.eqb_spec (Z.to_nat x) x'); [lia|reflexivity].
    + destruct (Nat.eqb_spec (Z.to_nat y) y'); [lia|reflexivity].
Qed.
Fixpoint lastw (ws : list (Z * Z * ascii)) (y x : nat) : option ascii :=
  match ws with
  | [] => None
  | (y', x', c) :: ws => match lastw ws y x with Some c => Some c | None => if ((y' =? Z.of_nat y) && (x' =? Z.of_nat x))%Z then Some c else None end
  end.
Lemma plots_ok : forall H W ws g, rect H W g -> Forall (inside H W) ws -> exists g', plots g ws = Ok g' /\ rect H W g' /\
  forall y x, at_ g' y x = match lastw ws y x with Some c => Some c | None => at_ g y x end.
Proof.
  intros H W. induction ws as [|[[y x] c] ws IH]; intros g R F; cbn [plots lastw]; [eauto|].
  inversion F as [|? ? F1 F2]; subst. destruct (plot_ok _ _ _ _ _ _ R F1) as (g1 & -> & R1 & A1). cbn [bind].
  destruct (IH g1 R1 F2) as (g2 & -> & R2 & A2). eexists. split; [reflexivity|]. split; [exact R2|].
  intros y' x'. rewrite A2, A1. destruct (lastw ws y' x'); [reflexivity|]. destruct (_ && _)%Z; reflexivity.
Qed.
Lemma plots_app : forall a b g, plots g (a ++ b) = let! g := plots g a in plots g b.
Proof. induction a as [|[[y x] c] a IH]; intros b g; cbn [plots app bind]; [reflexivity|]. destruct (plot g y x c); cbn [bind]; auto. Qed.
Lemma lastw_app : forall a b y x, lastw (a ++ b) y x = match lastw b y x with Some c => Some c | None => lastw a y x end.
Proof.
  induction a as [|[[y' x'] c] a IH]; intros b y x; cbn [lastw app]; [destruct (lastw b y x); reflexivity|].
  rewrite IH. destruct (lastw b y x); reflexivity.
Qed.
Lemma lastw_in : forall ws y x c, lastw ws y x = Some c -> In (Z.of_nat y, Z.of_nat x, c) ws.
Proof.
  induction ws as [|[[y' x'] c'] ws IH]; intros y x c E; cbn [lastw] in E; [discriminate|].
  destruct (lastw ws y x) as [d|] eqn:D; [right; apply IH; congruence|].
  destruct (Z.eqb_spec y' (Z.of_nat y)) as [->|]; [|discriminate]. destruct (Z.eqb_spec x' (Z.of_nat x)) as [->|]; [|discriminate].
  injection E as ->. left. reflexivity.
Qed.
Lemma lastw_some : forall ws y x c, In (Z.of_nat y, Z.of_nat x, c) ws -> lastw ws y x <> None.
Proof.
  induction ws as [|[[y' x'] c'] ws IH]; intros y x c []; cbn [lastw].
  - injection H as -> -> ->. rewrite !Z.eqb_refl. destruct (lastw ws y x); discriminate.
  - destruct (lastw ws y x) eqn:D; [discriminate|]. exfalso. exact (IH _ _ _ H D).
Qed.
Lemma lastw_unique : forall ws y x c, In (Z.of_nat y, Z.of_nat x, c) ws -> (forall c', In (Z.of_nat y, Z.of_nat x, c') ws -> c' = c) -> lastw ws y x = Some c.
Proof.
  intros ws y x c I U. destruct (lastw ws y x) as [d|] eqn:D; [f_equal; apply U, lastw_in; exact D|]. exfalso. exact (lastw_some _ _ _ _ I D).
Qed.
Lemma at_blank : forall H W y x c, at_ (repeat (repeat " "%char W) H) y x = Some c -> c = " "%char.
Proof.
  intros H W y x c E. unfold at_ in E. destruct (nth_error (repeat _ H) y) as [r|] eqn:R; [|discriminate].
  apply nth_error_In, repeat_spec in R. subst r. apply nth_error_In, repeat_spec in E. exact E.
Qed.
Lemma rect_blank : forall H W, rect H W (repeat (repeat " "%char W) H).
Proof. intros H W. split; [apply repeat_length|]. apply Forall_forall. intros r I. apply repeat_spec in I. subst r. apply repeat_length. Qed.

Lemma upto_in : forall a b x, In x (upto a b) <-> (a <= x < b)%Z.
Proof.
  intros a b x. unfold upto. rewrite in_map_iff. split.
  - intros (i & <- & I). apply in_seq in I. lia.
  - intros R. exists (Z.to_nat (x - a)). split; [lia|]. apply in_seq. lia.
Qed.
Lemma markers_in : forall is y x c, In (y, x, c) (markers is) <-> exists e, In e is /\ y = Z.of_nat (moff e) /\ (mstart e <= x < mend e)%Z /\ c = "^"%char.
Proof.
  intros is y x c. unfold markers. rewrite in_flat_map. split.
  - intros (e & I & J). apply in_map_iff in J as (x' & E & K). apply upto_in in K. injection E as <- <- <-. eauto 6.
  - intros (e & I & -> & R & ->). exists e. split; [exact I|]. apply in_map_iff. exists x. split; [reflexivity|]. apply upto_in. exact R.
Qed.
Lemma connectors_in : forall n is y x c, In (y, x, c) (connectors n is) ->
  exists e, In e is /\ (0 <= y < Z.of_nat n + Z.of_nat (toff e))%Z /\ x = tstart e /\ c = "|"%char.
Proof.
  intros n is y x c. unfold connectors. rewrite in_flat_map. intros (e & I & J). apply in_map_iff in J as (y' & E & K). apply upto_in in K.
  injection E as <- <- <-. exists e. split; [exact I|]. split; [lia|]. auto.
Qed.
Definition body (e : info) : text := lit "* " ++ imsg e.
Lemma texts_in : forall n is y x c, In (y, x, c) (texts n is) <->
  exists e k, In e is /\ y = (Z.of_nat n + Z.of_nat (toff e))%Z /\ x = (tstart e + Z.of_nat k)%Z /\ nth_error (body e) k = Some c.
Proof.
  intros n is y x c. unfold texts. rewrite in_flat_map.
  assert (forall (l : text) a k d, In (k, d) (combine (seq a (length l)) l) <-> a <= k /\ nth_error l (k - a) = Some d) as IC.
  { induction l as [|u l IH]; intros a k d; cbn [length seq combine In].
    - split; [tauto|]. intros [_ E]. destruct (k - a); discriminate.
    - rewrite IH. split.
      + intros [E|[L E]]; [injection E as -> ->; rewrite Nat.sub_diag; auto|]. split; [lia|].
        replace (k - a) with (S (k - S a)) by lia. exact E.
      + intros [L E]. destruct (Nat.eq_dec k a) as [->|N]; [left; rewrite Nat.sub_diag in E; cbn in E; congruence|]. right. split; [lia|].
        replace (k - a) with (S (k - S a)) in E by lia. exact E. }
  split.
  - intros (e & I & J). apply in_map_iff in J as ((k & d) & E & K). apply IC in K as [_ K]. rewrite Nat.sub_0_r in K. cbn [fst snd] in E.
    injection E as <- <- <-. exists e, k. auto.
  - intros (e & k & I & -> & -> & E). exists e. split; [exact I|]. apply in_map_iff. exists (k, c). split; [reflexivity|]. apply IC.
    split; [lia|]. rewrite Nat.sub_0_r. exact E.
Qed.

(* ---- layout ---- *)
Definition same_but_off (e e' : info) : Prop :=
  imsg e' = imsg e /\ mstart e' = mstart e /\ mend e' = mend e /\ tstart e' = tstart e /\ tend e' = tend e.
Definition above (off : info -> nat) (n : nat) (errs : list info) : nat := length (filter (fun e => n <=? off e) errs).
Lemma above_le : forall off n errs, above off n errs <= length errs.
Proof. intros off n errs. unfold above. induction errs as [|e errs IH]; cbn; [lia|]. destruct (n <=? off e); cbn; lia. Qed.
Lemma above_S : forall off n errs, above off (S n) errs <= above off n errs.
Proof.
  intros off n errs. unfold above. induction errs as [|e errs IH]; cbn [filter length]; [lia|].
  destruct (Nat.leb_spec (S n) (off e)), (Nat.leb_spec n (off e)); cbn [length]; lia.
Qed.
Lemma above_lt : forall off n errs e, In e errs -> off e = n -> above off (S n) errs < above off n errs.
Proof.
  intros off n errs e. unfold above. induction errs as [|e' errs IH]; intros []; cbn [filter length]; intros E.
  - subst e'. pose proof (above_S off n errs) as A. unfold above in A.
    destruct (Nat.leb_spec (S n) (off e)), (Nat.leb_spec n (off e)); cbn [length]; lia.
  - specialize (IH H E). destruct (Nat.leb_spec (S n) (off e')), (Nat.leb_spec n (off e')); cbn [length]; lia.
Qed.
Lemma alloc_marker_ok : forall fuel errs e, above moff (moff e) errs < fuel -> exists e', alloc_marker fuel errs e = Ok e' /\ same_but_off e e' /\ toff e' = toff e /\
  forall ee, In ee errs -> moff ee = moff e' -> overlaps_marker ee e' = false.
Proof.
  induction fuel as [|fuel IH]; intros errs e H; [lia|]. cbn [alloc_marker]. destruct (existsb _ errs) eqn:X.
  - apply existsb_exists in X as (ee & I & X). apply andb_true_iff in X as [X _]. apply Nat.eqb_eq in X.
    destruct (IH errs (set_moff e (S (moff e)))) as (e' & E & Sm & T & N).
    { cbn [set_moff moff]. pose proof (above_lt moff _ _ _ I X). lia. }
    exists e'. split; [exact E|]. unfold same_but_off in *. cbn in *. auto.
  - exists e. split; [reflexivity|]. split; [repeat split|]. split; [reflexivity|]. intros ee I E.
    destruct (overlaps_marker ee e) eqn:O; [|reflexivity]. exfalso. assert (existsb (fun ee => (moff ee =? moff e) && overlaps_marker ee e) errs = true); [|congruence].
    apply existsb_exists. exists ee. split; [exact I|]. rewrite O, E, Nat.eqb_refl. reflexivity.
Qed.
Lemma alloc_text_ok : forall fuel errs e, above toff (toff e) errs < fuel -> exists e', alloc_text fuel errs e = Ok e' /\ same_but_off e e' /\ moff e' = moff e /\
  forall ee, In ee errs -> toff ee = toff e' -> overlaps_text ee e' = false.
Proof.
  induction fuel as [|fuel IH]; intros errs e H; [lia|]. cbn [alloc_text]. destruct (existsb _ errs) eqn:X.
  - apply existsb_exists in X as (ee & I & X). apply andb_true_iff in X as [X _]. apply Nat.eqb_eq in X.
    destruct (IH errs (set_toff e (S (toff e)))) as (e' & E & Sm & T & N).
    { cbn [set_toff toff]. pose proof (above_lt toff _ _ _ I X). lia. }
    exists e'. split; [exact E|]. unfold same_but_off in *. cbn in *. auto.
  - exists e. split; [reflexivity|]. split; [repeat split|]. split; [reflexivity|]. intros ee I E.
    destruct (overlaps_text ee e) eqn:O; [|reflexivity]. exfalso. assert (existsb (fun ee => (toff ee =? toff e) && overlaps_text ee e) errs = true); [|congruence].
    apply existsb_exists. exists ee. split; [exact I|]. rewrite O, E, Nat.eqb_refl. reflexivity.
Qed.
Lemma overlaps_sep : forall st en e r, overlaps st en e r = false -> (en r + 1 < st e)%Z \/ (en e < st r)%Z.
Proof. intros st en e r H. unfold overlaps in H. destruct (Z.ltb_spec (en r) (st e - 1)); [lia|]. destruct (Z.gtb_spec (st r) (en e)); [lia|discriminate]. Qed.

(* an entry of the layout for an error of the line *)
Definition entry (i : info) (m : mark) : Prop :=
  imsg i = mmsg m /\ mstart i = Z.of_nat (ma m) /\ mend i = Z.of_nat (mb m) /\ ma m < mb m /\
  tstart i = Z.of_nat ((ma m + mb m - 1) / 2) /\ tend i = (tstart i + 2 + Z.of_nat (length (mmsg m)))%Z.
Definition fits (l : layout) (i : info) : Prop := moff i < nmark l /\ toff i < ntext l /\ (mend i <= width l)%Z /\ (tend i <= width l)%Z.
Definition separate (e r : info) : Prop :=
  (moff e = moff r -> (mend r < mstart e)%Z \/ (mend e < mstart r)%Z) /\ (toff e = toff r -> (tend r < tstart e)%Z \/ (tend e < tstart r)%Z).
Definition good_layout (l : layout) (ms : list mark) : Prop :=
  Forall2 entry (infos l) ms /\ Forall (fits l) (infos l) /\ ForallOrdPairs separate (infos l).

Lemma pairs_snoc : forall T (R : T -> T -> Prop) l x, ForallOrdPairs R l -> Forall (fun y => R y x) l -> ForallOrdPairs R (l ++ [x]).
Proof.
  induction l as [|y l IH]; intros x P F; cbn.
  - constructor; [constructor|constructor].
  - inversion P; inversion F; subst. constructor; [|apply IH; assumption]. apply Forall_app. split; [assumption|]. constructor; [assumption|constructor].
Qed.
Lemma pairs_nth : forall T (R : T -> T -> Prop) l, ForallOrdPairs R l -> forall i j x y, i < j -> nth_error l i = Some x -> nth_error l j = Some y -> R x y.
Proof.
  intros T R l P. induction P as [|a l F P IH]; intros i j x y L Ei Ej; [destruct i; discriminate|].
  destruct j as [|j]; [lia|]. destruct i as [|i]; cbn in Ei, Ej.
  - injection Ei as ->. rewrite Forall_forall in F. apply F. apply nth_error_In in Ej. exact Ej.
  - apply (IH i j); auto. lia.
Qed.
Lemma snoc_ok : forall l ms i m, good_layout l ms -> entry i m ->
  (forall ee, In ee (infos l) -> moff ee = moff i -> overlaps_marker ee i = false) ->
  (forall ee, In ee (infos l) -> toff ee = toff i -> overlaps_text ee i = false) ->
  good_layout (mkl (infos l ++ [i]) (Nat.max (nmark l) (S (moff i))) (Nat.max (ntext l) (S (toff i))) (Z.max (Z.max (width l) (mend i)) (tend i))) (ms ++ [m]).
Proof.
  intros l ms i m (G1 & G2 & G3) E O1 O2. split; [|split]; cbn [infos].
  - apply Forall2_app; [exact G1|]. constructor; [exact E|constructor].
  - apply Forall_app. split.
    + eapply Forall_impl; [|exact G2]. intros e (F1 & F2 & F3 & F4). unfold fits. cbn [nmark ntext width]. lia.
    + constructor; [|constructor]. unfold fits. cbn [nmark ntext width]. lia.
  - apply pairs_snoc; [exact G3|]. apply Forall_forall. intros e I. split; intros Eq.
    + specialize (O1 _ I Eq). apply overlaps_sep in O1. lia.
    + specialize (O2 _ I Eq). apply overlaps_sep in O2. lia.
Qed.

Definition to_err (e : nat * nat * text) : err := let '(b, e, m) := e in mkerr (Z.of_nat b) (Z.of_nat e) m.
(* the target begins in the line or the code skips it *)
Definition proper (p : nat) (e : nat * nat * text) : Prop := let '(b, e, m) := e in b <= e /\ (b < p -> e <= p).
Lemma prepare_ok : forall p size errors l ms, Forall (proper p) errors -> good_layout l ms ->
  exists l', prepare (Z.of_nat p) (Z.of_nat size) (map to_err errors) l = Ok l' /\ good_layout l' (ms ++ marks_of p size errors).
Proof.
  intros p size. induction errors as [|[[b e] m] errors IH]; intros l ms F G; cbn [map prepare to_err marks_of flat_map].
  - rewrite app_nil_r. eauto.
  - inversion F as [|? ? F0 F3]; subst. cbn [proper] in F0. destruct F0 as (F1 & F2). cbn [ebegin eend emsg].
    change (flat_map (fun '(b, e, m) => if (p <=? b) && (b <=? p + size) then [mkmark (b - p) (if b =? e then S (b - p) else e - p) m] else []) errors) with (marks_of p size errors).
    set (me := if (Z.of_nat b - Z.of_nat p =? Z.of_nat e - Z.of_nat p)%Z then (Z.of_nat e - Z.of_nat p + 1)%Z else (Z.of_nat e - Z.of_nat p)%Z).
    assert (me = (Z.of_nat (if (b =? e)%nat then S b else e) - Z.of_nat p)%Z) as Eme.
    { unfold me. destruct (Z.eqb_spec (Z.of_nat b - Z.of_nat p) (Z.of_nat e - Z.of_nat p)), (Nat.eqb_spec b e); lia. }
    destruct (Nat.leb_spec p b) as [Pb|Pb]; cbn [andb].
    + assert ((me <=? 0)%Z = false) as -> by (apply Z.leb_gt; destruct (Nat.eqb_spec b e); lia).
      destruct (Nat.leb_spec b (p + size)) as [Ps|Ps].
      * replace (Z.of_nat b - Z.of_nat p >? Z.of_nat size)%Z with false by (symmetry; rewrite Z.gtb_ltb; apply Z.ltb_ge; lia).
        set (ts := Z.quot _ _).
        set (mk := mkmark (b - p) (if b =? e then S (b - p) else e - p) m).
        assert (ts = Z.of_nat ((ma mk + mb mk - 1) / 2)) as Ets.
        { unfold ts. rewrite Z.quot_div_nonneg by (destruct (Nat.eqb_spec b e); lia). rewrite Nat2Z.inj_div. f_equal. subst mk. cbn [ma mb]. destruct (Nat.eqb_spec b e); lia. }
        set (i0 := mkinfo m _ me 0 ts _ 0).
        destruct (alloc_marker_ok (S (length (infos l))) (infos l) i0) as (i1 & -> & S1 & T1 & N1).
        { pose proof (above_le moff (moff i0) (infos l)). lia. }
        cbn [bind]. destruct (alloc_text_ok (S (length (infos l))) (infos l) i1) as (i2 & -> & S2 & T2 & N2).
        { pose proof (above_le toff (toff i1) (infos l)). lia. }
        cbn [bind]. destruct S1 as (A1 & A2 & A3 & A4 & A5), S2 as (B1 & B2 & B3 & B4 & B5).
        assert (entry i2 mk) as En.
        { unfold entry. rewrite B1, A1, B2, A2, B3, A3, B4, A4, B5, A5. unfold i0. cbn [imsg mstart mend tstart tend].
          rewrite Ets. subst mk. cbn [mmsg ma mb]. split; [reflexivity|]. split; [lia|]. split; [destruct (Nat.eqb_spec b e); lia|]. split; [destruct (Nat.eqb_spec b e); lia|]. split; [reflexivity|lia]. }
        destruct (IH _ (ms ++ [mk]) F3 (snoc_ok l ms i2 mk G En ltac:(intros ee I E; rewrite T2 in E; specialize (N1 _ I E);
          unfold overlaps_marker, overlaps in *; rewrite B2, B3; exact N1) N2)) as (l' & E' & G').
        exists l'. split; [exact E'|]. rewrite <- app_assoc in G'. exact G'.
      * replace (Z.of_nat b - Z.of_nat p >? Z.of_nat size)%Z with true by (symmetry; rewrite Z.gtb_ltb; apply Z.ltb_lt; lia).
        apply IH; assumption.
    + assert ((me <=? 0)%Z = true) as -> by (apply Z.leb_le; specialize (F2 Pb); destruct (Nat.eqb_spec b e); lia).
      apply IH; assumption.
Qed.

Lemma Forall2_nth1 : forall S T (R : S -> T -> Prop) l l', Forall2 R l l' -> forall i x, nth_error l i = Some x -> exists y, nth_error l' i = Some y /\ R x y.
Proof. intros S T R l l' F. induction F; intros [|i] z E; cbn in *; try discriminate; [injection E as ->; eauto|eauto]. Qed.
Lemma Forall2_nth2 : forall S T (R : S -> T -> Prop) l l', Forall2 R l l' -> forall i y, nth_error l' i = Some y -> exists x, nth_error l i = Some x /\ R x y.
Proof. intros S T R l l' F. induction F; intros [|i] z E; cbn in *; try discriminate; [injection E as ->; eauto|eauto]. Qed.

Lemma draw_ok : forall l ms, good_layout l ms -> exists rows, draw l = Ok rows /\ shows ms rows.
Proof.
  intros l ms (G1 & G2 & G3).
  assert (Fit : forall e, In e (infos l) -> fits l e) by (rewrite Forall_forall in G2; exact G2).
  assert (Ent : forall e, In e (infos l) -> exists m, entry e m).
  { intros e I. apply In_nth_error in I as (i & I). destruct (Forall2_nth1 _ _ _ _ _ G1 _ _ I) as (m & _ & E). eauto. }
  assert (Half : forall m, ma m < mb m -> ma m <= (ma m + mb m - 1) / 2 < mb m).
  { intros m L. split; [apply Nat.div_le_lower_bound; lia|apply Nat.div_lt_upper_bound; lia]. }
  assert (Bl : forall e m, entry e m -> length (body e) = 2 + length (mmsg m)).
  { intros e m (E1 & _). unfold body. rewrite app_length, E1. reflexivity. }
  destruct (infos l) as [|i0 is0] eqn:EI.
  { inversion G1; subst. exists []. unfold draw. rewrite EI. split; [reflexivity|]. exists []. split; [reflexivity|]. split; [reflexivity|].
    split; [intros [|i]; discriminate|]. split; [intros [|i]; discriminate|]. intros [|y] x c; discriminate. }
  rewrite <- EI in *. set (H := nmark l + ntext l). set (W := Z.to_nat (width l)). set (n := nmark l) in *.
  assert (In1 : Forall (inside H W) (connectors n (infos l))).
  { apply Forall_forall. intros [[y x] c] I. apply connectors_in in I as (e & I & Y & -> & _). destruct (Fit _ I) as (A & B & C & D).
    destruct (Ent _ I) as (m & _ & _ & _ & L & T1 & T2). unfold inside, H, W. lia. }
  assert (In2 : Forall (inside H W) (markers (infos l))).
  { apply Forall_forall. intros [[y x] c] I. apply markers_in in I as (e & I & -> & Y & _). destruct (Fit _ I) as (A & B & C & D).
    destruct (Ent _ I) as (m & _ & M1 & M2 & L & T1 & T2). unfold inside, H, W. lia. }
  assert (In3 : Forall (inside H W) (texts n (infos l))).
  { apply Forall_forall. intros [[y x] c] I. apply texts_in in I as (e & k & I & -> & -> & K). destruct (Fit _ I) as (A & B & C & D).
    destruct (Ent _ I) as (m & En). assert (k < length (body e)) as Lk by (apply nth_error_Some; congruence). rewrite (Bl _ _ En) in Lk.
    destruct En as (_ & M1 & M2 & L & T1 & T2). unfold inside, H, W. lia. }
  pose proof (plots_ok H W (connectors n (infos l) ++ markers (infos l) ++ texts n (infos l)) _ (rect_blank H W)) as P.
  destruct P as (rows & E & R & At). { rewrite !Forall_app. auto. }
  exists rows. split.
  { unfold draw. rewrite EI. rewrite <- EI. fold H W n. rewrite plots_app in E. destruct (plots _ (connectors n (infos l))) as [g1| | |]; try discriminate.
    cbn [bind] in *. rewrite plots_app in E. exact E. }
  assert (nlt : forall y x c, In (Z.of_nat y, Z.of_nat x, c) (texts n (infos l)) -> n <= y).
  { intros y x c I. apply texts_in in I as (e & k & I & Y & _). lia. }
  assert (nlm : forall y x c, In (Z.of_nat y, Z.of_nat x, c) (markers (infos l)) -> y < n).
  { intros y x c I. apply markers_in in I as (e & I & Y & _). destruct (Fit _ I) as (A & _). unfold n. lia. }
  assert (Tx : forall y x c, In (Z.of_nat y, Z.of_nat x, c) (texts n (infos l)) -> lastw (texts n (infos l)) y x = Some c).
  { intros y x c I. apply lastw_unique; [exact I|]. intros c' I'. apply texts_in in I as (e & k & I & Y & X & K). apply texts_in in I' as (e' & k' & I' & Y' & X' & K').
    assert (k < length (body e)) as Lk by (apply nth_error_Some; congruence). assert (k' < length (body e')) as Lk' by (apply nth_error_Some; congruence).
    destruct (Ent _ I) as (m & En). destruct (Ent _ I') as (m' & En'). rewrite (Bl _ _ En) in Lk. rewrite (Bl _ _ En') in Lk'.
    destruct En as (_ & _ & _ & _ & _ & T), En' as (_ & _ & _ & _ & _ & T').
    apply In_nth_error in I as (i & I). apply In_nth_error in I' as (i' & I'). destruct (Nat.lt_trichotomy i i') as [L|[->|L]].
    - pose proof (pairs_nth _ _ _ G3 _ _ _ _ L I I') as (_ & Sp). lia.
    - assert (e' = e) as -> by congruence. assert (k' = k) as -> by lia. congruence.
    - pose proof (pairs_nth _ _ _ G3 _ _ _ _ L I' I) as (_ & Sp). lia. }
  set (pl := fun i => mkplace (moff i) (n + toff i) (Z.to_nat (tstart i))). exists (map pl (infos l)).
  assert (Pl : forall i m p, nth_error ms i = Some m -> nth_error (map pl (infos l)) i = Some p ->
     exists e, nth_error (infos l) i = Some e /\ p = pl e /\ entry e m /\ fits l e).
  { intros i m p Em Ep. destruct (Forall2_nth2 _ _ _ _ _ G1 _ _ Em) as (e & Ee & En). exists e. rewrite nth_error_map, Ee in Ep. cbn in Ep.
    split; [exact Ee|]. split; [congruence|]. split; [exact En|]. apply Fit. apply nth_error_In in Ee. exact Ee. }
  split; [rewrite map_length; symmetry; revert G1; clear; induction 1; cbn; auto|].
  split; [intros ->; inversion G1 as [Hn|]; rewrite EI in Hn; discriminate|]. split; [|split].
  - intros i m p Em Ep. destruct (Pl _ _ _ Em Ep) as (e & Ee & -> & En & (A & B & C & D)). pose proof En as (E1 & E2 & E3 & E4 & E5 & E6). cbn [pl prow trow tcol].
    rewrite E5, Nat2Z.id. split; [unfold n; lia|]. split; [apply Half; exact E4|]. apply nth_error_In in Ee. split.
    + intros x Hx. rewrite At, !lastw_app.
      destruct (lastw (texts n (infos l)) (moff e) x) as [c|] eqn:Lt; [apply lastw_in, nlt in Lt; unfold n in Lt; lia|].
      rewrite (lastw_unique (markers (infos l)) (moff e) x "^"%char); [reflexivity| |].
      * apply markers_in. exists e. repeat split; auto; lia.
      * intros c' I. apply markers_in in I as (? & _ & _ & _ & ->). reflexivity.
    + intros k c Hk. rewrite At, !lastw_app, (Tx _ _ c); [reflexivity|]. apply texts_in. exists e, k. split; [exact Ee|]. split; [lia|]. split; [lia|].
      unfold body. rewrite E1. exact Hk.
  - intros i j m p m' p' N Em Ep Em' Ep'. destruct (Pl _ _ _ Em Ep) as (e & Ee & -> & En & (A & B & C & D)).
    destruct (Pl _ _ _ Em' Ep') as (e' & Ee' & -> & En' & (A' & B' & C' & D')).
    destruct En as (E1 & E2 & E3 & E4 & E5 & E6), En' as (E1' & E2' & E3' & E4' & E5' & E6').
    assert (separate e e' \/ separate e' e) as Sp.
    { destruct (Nat.lt_gt_cases i j) as [X _]. destruct (X N) as [L|L]; [left|right]; eapply (pairs_nth _ _ _ G3); eauto. }
    cbn [pl prow trow tcol]. unfold apart. split; [unfold n; lia|]. unfold separate in Sp. split; intros Eq; destruct Sp as [(S1 & S2)|(S1 & S2)]; lia.
  - intros y x c E'. rewrite At, !lastw_app in E'.
    destruct (lastw (texts n (infos l)) y x) as [d|] eqn:Lt.
    { apply lastw_in in Lt. apply texts_in in Lt as (e & k & I & Y & X & K). assert (k < length (body e)) as Lk by (apply nth_error_Some; congruence).
      apply In_nth_error in I as (i & I). destruct (Forall2_nth1 _ _ _ _ _ G1 _ _ I) as (m & Em & En). rewrite (Bl _ _ En) in Lk. right. right.
      exists i, m, (pl e). split; [exact Em|]. split; [rewrite nth_error_map, I; reflexivity|]. right. cbn [pl trow tcol].
      destruct En as (_ & _ & _ & _ & T & _). lia. }
    destruct (lastw (markers (infos l)) y x) as [d|] eqn:Lm.
    { apply lastw_in in Lm. apply markers_in in Lm as (e & I & Y & X & ->).
      apply In_nth_error in I as (i & I). destruct (Forall2_nth1 _ _ _ _ _ G1 _ _ I) as (m & Em & En). right. right.
      exists i, m, (pl e). split; [exact Em|]. split; [rewrite nth_error_map, I; reflexivity|]. left. cbn [pl prow].
      destruct En as (_ & M1 & M2 & _). lia. }
    destruct (lastw (connectors n (infos l)) y x) as [d|] eqn:Lc.
    { apply lastw_in in Lc. apply connectors_in in Lc as (e & I & Y & X & ->). right. left. congruence. }
    left. apply at_blank in E'. exact E'.
Qed.

(* ---- the whole message ---- *)
Lemma split_nonempty : forall s, split s <> [].
Proof. induction s as [|c s IH]; cbn; [discriminate|]. destruct (split s); [contradiction|]. destruct (Ascii.eqb c nl); discriminate. Qed.
Lemma join_cons : forall l ls, ls <> [] -> join (l :: ls) = l ++ nl :: join ls.
Proof. intros l [|x ls] N; [contradiction|reflexivity]. Qed.
Lemma split_lines : forall s, lines_of s (split s).
Proof.
  induction s as [|c s (IH1 & IH2 & IH3)]; cbn [split].
  - split; [discriminate|]. split; [reflexivity|]. constructor; [intros []|constructor].
  - destruct (split s) as [|l ls]; [contradiction|]. destruct (Ascii.eqb_spec c nl) as [->|N].
    + split; [discriminate|]. split; [rewrite join_cons by discriminate; rewrite IH2; reflexivity|]. constructor; [intros []|exact IH3].
    + split; [discriminate|]. inversion IH3; subst. split.
      * destruct ls; reflexivity.
      * constructor; [intros [E|E]; [congruence|contradiction]|assumption].
Qed.
Lemma join_rows : forall (f : text -> text) rows x rest,
  join (x :: map f rows ++ rest) = x ++ flat_map (fun r => nl :: f r) rows ++ match rest with [] => [] | _ => nl :: join rest end.
Proof.
  intros f. induction rows as [|r rows IH]; intros x rest; cbn [map app flat_map].
  - destruct rest; cbn [join app]; [rewrite app_nil_r; reflexivity|]. reflexivity.
  - rewrite join_cons by discriminate. rewrite IH. cbn [app]. f_equal. f_equal. rewrite <- app_assoc. reflexivity.
Qed.
Lemma shown_nonempty : forall p ls errors out, shown p ls errors out -> ls <> [] -> out <> [].
Proof. intros p [|l ls] errors out H N; [contradiction|]. destruct H as (rows & rest & _ & _ & ->). discriminate. Qed.

Definition in_str (str : text) (e : nat * nat * text) : Prop := let '(b, e, _) := e in single str b e.
Lemma lines_loop_ok : forall str errors, Forall (in_str str) errors -> forall ls pre first res, ls <> [] ->
  str = pre ++ join ls -> (pre = [] \/ exists q, pre = q ++ [nl]) ->
  exists out, shown (length pre) ls errors out /\
    lines_loop (Z.of_nat (length pre)) first ls (map to_err errors) res = Ok (res ++ (if first then [] else [nl]) ++ join out).
Proof.
  intros str errors F. induction ls as [|l ls IH]; intros pre first res N Es Hp; [contradiction|]. cbn [lines_loop shown].
  assert (Forall (proper (length pre)) errors) as Fp.
  { eapply Forall_impl; [|exact F]. intros [[b e] m] (B & S). cbn [proper]. split; [lia|]. intros L.
    destruct (Nat.le_gt_cases e (length pre)) as [|G]; [assumption|]. exfalso. destruct Hp as [->|(q & ->)]; [cbn in L; lia|].
    rewrite app_length in *. cbn [length] in *. apply (S (length q)); [lia|lia|]. rewrite Es, <- app_assoc. rewrite nth_error_app2 by lia. rewrite Nat.sub_diag. reflexivity. }
  destruct (prepare_ok (length pre) (length l) errors (mkl [] 0 0 0) [] Fp) as (lay & -> & G). { split; [constructor|]. split; constructor. }
  cbn [bind]. destruct (draw_ok _ _ G) as (rows & -> & Sh). cbn [bind app] in *.
  set (res1 := (res ++ (if first then [] else [nl]) ++ lit "> " ++ l) ++ flat_map (fun r => nl :: lit "  " ++ r) rows).
  destruct ls as [|l2 ls].
  - cbn [lines_loop]. exists ((lit "> " ++ l) :: map (app (lit "  ")) rows ++ []). split; [exists rows, []; split; [exact Sh|]; split; reflexivity|].
    f_equal. rewrite join_rows, app_nil_r. unfold res1. rewrite <- !app_assoc. reflexivity.
  - destruct (IH (pre ++ l ++ [nl]) false res1) as (rest & Sr & Er).
    + discriminate.
    + rewrite Es, join_cons by discriminate. rewrite <- !app_assoc. reflexivity.
    + right. exists (pre ++ l). apply app_assoc.
    + replace (length (pre ++ l ++ [nl])) with (length pre + length l + 1) in * by (rewrite !app_length; cbn; lia).
      exists ((lit "> " ++ l) :: map (app (lit "  ")) rows ++ rest). split; [exists rows, rest; split; [exact Sh|]; split; [exact Sr|reflexivity]|].
      replace (Z.of_nat (length pre) + Z.of_nat (length l) + 1)%Z with (Z.of_nat (length pre + length l + 1)) by lia. rewrite Er. f_equal.
      rewrite join_rows. unfold res1. pose proof (shown_nonempty _ _ _ _ Sr) as Ne. destruct rest as [|r0 rest]; [exfalso; apply Ne; [discriminate|reflexivity]|].
      rewrite <- !app_assoc. reflexivity.
Qed.

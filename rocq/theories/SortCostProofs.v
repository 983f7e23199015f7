(* Proofs about the number of comparisons of sort.hh. *)
From Coq Require Import ZArith List Bool Lia Psatz Permutation.
From Verif Require Import Base SortModel SortSpec SortProofs SortCostModel.
Import ListNotations.
Open Scope Z_scope.

Definition val {X} (m : counted X) : outcome X := let! (x, _) := m in Ok x.

Lemma val_bindc : forall {X Y} (m : counted X) (k : X -> counted Y), val (bindc m k) = bind (val m) (fun x => val (k x)).
Proof. intros X Y [[x c]| | |] k; cbn; auto. destruct (k x) as [[y d]| | |]; reflexivity. Qed.
Lemma val_free : forall {X} (m : outcome X), val (free m) = m.
Proof. intros X [x| | |]; reflexivity. Qed.
Lemma val_Ok : forall {X} (m : counted X) x, val m = Ok x -> exists c, m = Ok (x, c).
Proof. intros X [[y c]| | |] x H; cbn in H; try discriminate. injection H as ->. eauto. Qed.
Lemma bind_ext : forall {X Y} (m : outcome X) (f g : X -> outcome Y), (forall x, f x = g x) -> bind m f = bind m g.
Proof. intros X Y [x| | |] f g H; cbn; auto. Qed.

(* ---- the results are those of SortModel.v ---- *)
Section Erase.
  Context {A : Type}.
  Variable less : A -> A -> bool.
  Variables lo hi : Z.

  Lemma val_cmp : forall a i j, val (cmp_c less lo hi a i j) = cmp less lo hi a i j.
  Proof. intros. unfold cmp_c. destruct (cmp less lo hi a i j); reflexivity. Qed.

  Lemma val_sort2 : forall a i j, val (sort2_c less lo hi a i j) = sort2 less lo hi a i j.
  Proof. intros. unfold sort2_c, sort2. rewrite val_bindc, val_cmp. apply bind_ext. intros []; apply val_free. Qed.

  Lemma val_sort3 : forall a i j k, val (sort3_c less lo hi a i j k) = sort3 less lo hi a i j k.
  Proof.
    intros. unfold sort3_c, sort3. rewrite val_bindc, val_sort2. apply bind_ext. intro b.
    rewrite val_bindc, val_sort2. apply bind_ext. intro c. apply val_sort2.
  Qed.

  Lemma val_sink : forall fuel a start j, val (sink_c less lo hi fuel a start j) = sink less lo hi fuel a start j.
  Proof.
    induction fuel; intros; [reflexivity|]. cbn [sink_c sink]. destruct (start <? j); [|reflexivity].
    rewrite val_bindc, val_cmp. apply bind_ext. intros []; [reflexivity|].
    rewrite val_bindc, val_free. apply bind_ext. intro b. apply IHfuel.
  Qed.

  Lemma val_insertion : forall fuel a start i e, val (insertion_c less lo hi fuel a start i e) = insertion less lo hi fuel a start i e.
  Proof.
    induction fuel; intros; [reflexivity|]. cbn [insertion_c insertion]. destruct (i <? e); [|reflexivity].
    rewrite val_bindc, val_sink. apply bind_ext. intro b. apply IHfuel.
  Qed.

  Lemma val_small_sort : forall a start size, val (small_sort_c less lo hi a start size) = small_sort less lo hi a start size.
  Proof.
    intros. unfold small_sort_c, small_sort. destruct (size <=? 1); [reflexivity|].
    destruct (size =? 2); [apply val_sort2|]. destruct (size =? 3); [apply val_sort3|]. apply val_insertion.
  Qed.

  Lemma val_scan_up : forall fuel a start first, val (scan_up_c less lo hi fuel a start first) = scan_up less lo hi fuel a start first.
  Proof.
    induction fuel; intros; [reflexivity|]. cbn [scan_up_c scan_up].
    rewrite val_bindc, val_cmp. apply bind_ext. intros []; [apply IHfuel|reflexivity].
  Qed.
  Lemma val_scan_down : forall fuel a start last, val (scan_down_c less lo hi fuel a start last) = scan_down less lo hi fuel a start last.
  Proof.
    induction fuel; intros; [reflexivity|]. cbn [scan_down_c scan_down].
    rewrite val_bindc, val_cmp. apply bind_ext. intros []; [reflexivity|apply IHfuel].
  Qed.
  Lemma val_scan_down_guarded : forall fuel a start first last,
    val (scan_down_guarded_c less lo hi fuel a start first last) = scan_down_guarded less lo hi fuel a start first last.
  Proof.
    induction fuel; intros; [reflexivity|]. cbn [scan_down_guarded_c scan_down_guarded]. destruct (first <? last); [|reflexivity].
    rewrite val_bindc, val_cmp. apply bind_ext. intros []; [reflexivity|apply IHfuel].
  Qed.

  Lemma val_part_loop : forall fuel a start first last,
    val (part_loop_c less lo hi fuel a start first last) = part_loop less lo hi fuel a start first last.
  Proof.
    induction fuel; intros; [reflexivity|]. cbn [part_loop_c part_loop]. destruct (first <? last); [|reflexivity].
    rewrite val_bindc, val_free. apply bind_ext. intro b.
    rewrite val_bindc, val_scan_up. apply bind_ext. intro f.
    rewrite val_bindc, val_scan_down. apply bind_ext. intro g. apply IHfuel.
  Qed.

  Lemma val_partition_right : forall a start size, val (partition_right_c less lo hi a start size) = partition_right less lo hi a start size.
  Proof.
    intros. unfold partition_right_c, partition_right. cbv zeta.
    rewrite val_bindc, val_scan_up. apply bind_ext. intro f.
    rewrite val_bindc. destruct (f - 1 =? start).
    - rewrite val_scan_down_guarded. apply bind_ext. intro g. rewrite val_bindc, val_part_loop. apply bind_ext. intros [b p].
      cbn [fst snd]. rewrite val_bindc, val_free. apply bind_ext. intro c. apply val_free.
    - rewrite val_scan_down. apply bind_ext. intro g. rewrite val_bindc, val_part_loop. apply bind_ext. intros [b p].
      cbn [fst snd]. rewrite val_bindc, val_free. apply bind_ext. intro c. apply val_free.
  Qed.

  Lemma val_choose_pivot : forall a start size, val (choose_pivot_c less lo hi a start size) = choose_pivot less lo hi a start size.
  Proof.
    intros. unfold choose_pivot_c, choose_pivot. cbv zeta. destruct (128 <? size); [|apply val_sort3].
    do 4 (rewrite val_bindc, val_sort3; apply bind_ext; intro). apply val_free.
  Qed.

  Variable select : Z -> Z -> outcome bool.
  Definition val3 (m : outcome (list A * Z * Z)) : outcome (list A) := let! (x, _) := m in Ok (fst x).

  Lemma val_impl : forall fuel a start size,
    val3 (sort_ex_impl_c less lo hi select fuel a start size) = sort_ex_impl less lo hi select fuel a start size.
  Proof.
    induction fuel; intros; [reflexivity|]. cbn [sort_ex_impl_c sort_ex_impl]. destruct (size <=? 16).
    - rewrite <- val_small_sort. destruct (small_sort_c less lo hi a start size) as [[b c]| | |]; reflexivity.
    - cbv zeta. rewrite <- val_choose_pivot. destruct (choose_pivot_c less lo hi a start size) as [[b c1]| | |]; cbn [bind val val3]; auto.
      rewrite <- val_partition_right. destruct (partition_right_c less lo hi b start size) as [[[c p] c2]| | |]; cbn [bind val val3 fst snd]; auto.
      destruct (select start (p - start)) as [sl| | |]; cbn [bind val3]; auto.
      destruct sl; cbn [bind fst snd].
      + rewrite <- IHfuel. destruct (sort_ex_impl_c less lo hi select fuel c start (p - start)) as [[[l c3] d1]| | |]; cbn [bind val3 fst snd]; auto.
        destruct (select (p + 1) (start + size - (p + 1))) as [[]| | |]; cbn [bind val3 fst snd]; auto.
        rewrite <- IHfuel. destruct (sort_ex_impl_c less lo hi select fuel l (p + 1) _) as [[[r c4] d2]| | |]; cbn [bind val3 fst snd]; auto.
      + destruct (select (p + 1) (start + size - (p + 1))) as [[]| | |]; cbn [bind val3 fst snd]; auto.
        rewrite <- IHfuel. destruct (sort_ex_impl_c less lo hi select fuel c (p + 1) _) as [[[r c4] d2]| | |]; cbn [bind val3 fst snd]; auto.
  Qed.
End Erase.

Section EraseP.
  Context {A : Type}.
  Variable r : A -> bool.
  Variables lo hi : Z.
  Lemma val_skip_left : forall fuel a first e, val (skip_left_c r lo hi fuel a first e) = skip_left r lo hi fuel a first e.
  Proof.
    induction fuel; intros; [reflexivity|]. cbn [skip_left_c skip_left]. destruct (first <? e); [|reflexivity].
    rewrite val_bindc. destruct (get lo hi a first) as [x| | |]; cbn [val bind]; auto. destruct (r x); [reflexivity|apply IHfuel].
  Qed.
  Lemma val_skip_right : forall fuel a s last, val (skip_right_c r lo hi fuel a s last) = skip_right r lo hi fuel a s last.
  Proof.
    induction fuel; intros; [reflexivity|]. cbn [skip_right_c skip_right]. destruct (s <? last); [|reflexivity].
    rewrite val_bindc. destruct (get lo hi a last) as [x| | |]; cbn [val bind]; auto. destruct (r x); [apply IHfuel|reflexivity].
  Qed.
  Lemma val_partition_loop : forall fuel a s e first last,
    val (partition_loop_c r lo hi fuel a s e first last) = partition_loop r lo hi fuel a s e first last.
  Proof.
    induction fuel; intros; [reflexivity|]. cbn [partition_loop_c partition_loop].
    rewrite val_bindc, val_skip_left. apply bind_ext. intro f. rewrite val_bindc, val_skip_right. apply bind_ext. intro g.
    destruct (g <=? f); [reflexivity|]. rewrite val_bindc, val_free. apply bind_ext. intro b. apply IHfuel.
  Qed.
  Variable less : A -> A -> bool.
  Lemma val_is_sorted_loop : forall fuel a i e, val (is_sorted_loop_c less lo hi fuel a i e) = is_sorted_loop less lo hi fuel a i e.
  Proof.
    induction fuel; intros; [reflexivity|]. cbn [is_sorted_loop_c is_sorted_loop]. destruct (i <? e); [|reflexivity].
    rewrite val_bindc, val_cmp. apply bind_ext. intros []; [reflexivity|apply IHfuel].
  Qed.
End EraseP.

(* ---- counting ---- *)
Lemma bindc_inv : forall {X Y} (m : counted X) (k : X -> counted Y) y c, bindc m k = Ok (y, c) ->
  exists x c1 c2, m = Ok (x, c1) /\ k x = Ok (y, c2) /\ c = c1 + c2.
Proof.
  intros X Y [[x c1]| | |] k y c H; cbn in H; try discriminate.
  destruct (k x) as [[y' c2]| | |] eqn:E; cbn in H; try discriminate. injection H as -> <-. exists x, c1, c2. auto.
Qed.
Lemma free_inv : forall {X} (m : outcome X) x c, free m = Ok (x, c) -> m = Ok x /\ c = 0.
Proof. intros X [y| | |] x c H; cbn in H; try discriminate. injection H as -> <-. auto. Qed.

Section Count.
  Context {A : Type}.
  Variable less : A -> A -> bool.
  Variables lo hi : Z.

  Lemma cmp_inv : forall a i j b c, cmp_c less lo hi a i j = Ok (b, c) -> cmp less lo hi a i j = Ok b /\ c = 1.
  Proof. unfold cmp_c. intros a i j b c H. destruct (cmp less lo hi a i j); cbn in H; try discriminate. injection H as -> <-. auto. Qed.

  Lemma sort2_count : forall a i j b c, sort2_c less lo hi a i j = Ok (b, c) -> c = 1.
  Proof.
    unfold sort2_c. intros a i j b c H. apply bindc_inv in H. destruct H as (x & c1 & c2 & H1 & H2 & ->).
    apply cmp_inv in H1. destruct H1 as [_ ->]. destruct x; apply free_inv in H2; destruct H2 as [_ ->]; reflexivity.
  Qed.
  Lemma sort3_count : forall a i j k b c, sort3_c less lo hi a i j k = Ok (b, c) -> c = 3.
  Proof.
    unfold sort3_c. intros a i j k b c H. apply bindc_inv in H. destruct H as (x & c1 & c2 & H1 & H2 & ->).
    apply bindc_inv in H2. destruct H2 as (y & c3 & c4 & H2 & H3 & ->).
    apply sort2_count in H1. apply sort2_count in H2. apply sort2_count in H3. lia.
  Qed.
  Lemma choose_pivot_count : forall a start size b c, choose_pivot_c less lo hi a start size = Ok (b, c) ->
    c = if 128 <? size then 12 else 3.
  Proof.
    unfold choose_pivot_c. cbv zeta. intros a start size b c H. destruct (128 <? size).
    - apply bindc_inv in H. destruct H as (x1 & c1 & r1 & H1 & H & ->).
      apply bindc_inv in H. destruct H as (x2 & c2 & r2 & H2 & H & ->).
      apply bindc_inv in H. destruct H as (x3 & c3 & r3 & H3 & H & ->).
      apply bindc_inv in H. destruct H as (x4 & c4 & r4 & H4 & H & ->).
      apply sort3_count in H1, H2, H3, H4. apply free_inv in H. lia.
    - apply sort3_count in H. auto.
  Qed.

  Lemma sink_count : forall fuel a start j b c, start <= j -> sink_c less lo hi fuel a start j = Ok (b, c) -> 0 <= c <= j - start.
  Proof.
    induction fuel; intros a start j b c HJ H; [discriminate|]. cbn [sink_c] in H. destruct (Z.ltb_spec start j).
    - apply bindc_inv in H. destruct H as (x & c1 & c2 & H1 & H & ->). apply cmp_inv in H1. destruct H1 as [_ ->].
      destruct x.
      + apply free_inv in H. lia.
      + apply bindc_inv in H. destruct H as (y & c3 & c4 & H3 & H & ->). apply free_inv in H3. apply IHfuel in H; lia.
    - apply free_inv in H. lia.
  Qed.
  Lemma insertion_count : forall fuel a start i e b c, start <= i <= e -> insertion_c less lo hi fuel a start i e = Ok (b, c) ->
    0 <= c /\ 2 * c <= (e - start) * (e - start - 1) - (i - start) * (i - start - 1).
  Proof.
    induction fuel; intros a start i e b c HI H; [discriminate|]. cbn [insertion_c] in H. destruct (Z.ltb_spec i e).
    - apply bindc_inv in H. destruct H as (x & c1 & c2 & H1 & H & ->). apply sink_count in H1; [|lia].
      apply IHfuel in H; [|lia]. nia.
    - apply free_inv in H. assert (i = e) by lia. subst. lia.
  Qed.
  Lemma small_sort_count : forall a start size b c, 0 <= size -> small_sort_c less lo hi a start size = Ok (b, c) ->
    0 <= c /\ 2 * c <= size * size - size \/ size <= 1 /\ c = 0.
  Proof.
    unfold small_sort_c. intros a start size b c H0 H. destruct (Z.leb_spec size 1); [apply free_inv in H; right; lia|]. left.
    destruct (Z.eqb_spec size 2) as [->|]; [apply sort2_count in H; lia|].
    destruct (Z.eqb_spec size 3) as [->|]; [apply sort3_count in H; lia|].
    apply insertion_count in H; [|lia]. nia.
  Qed.

  Lemma scan_up_count : forall fuel a start first f c, scan_up_c less lo hi fuel a start first = Ok (f, c) -> c = f - first.
  Proof.
    induction fuel; intros a start first f c H; [discriminate|]. cbn [scan_up_c] in H.
    apply bindc_inv in H. destruct H as (x & c1 & c2 & H1 & H & ->). apply cmp_inv in H1. destruct H1 as [_ ->].
    destruct x; [apply IHfuel in H; lia|]. apply free_inv in H. destruct H as [E ->]. injection E as <-. lia.
  Qed.
  Lemma scan_down_count : forall fuel a start last f c, scan_down_c less lo hi fuel a start last = Ok (f, c) -> c = last - f.
  Proof.
    induction fuel; intros a start last f c H; [discriminate|]. cbn [scan_down_c] in H.
    apply bindc_inv in H. destruct H as (x & c1 & c2 & H1 & H & ->). apply cmp_inv in H1. destruct H1 as [_ ->].
    destruct x; [|apply IHfuel in H; lia]. apply free_inv in H. destruct H as [E ->]. injection E as <-. lia.
  Qed.
  Lemma scan_down_guarded_count : forall fuel a start first last f c, scan_down_guarded_c less lo hi fuel a start first last = Ok (f, c) -> c = last - f.
  Proof.
    induction fuel; intros a start first last f c H; [discriminate|]. cbn [scan_down_guarded_c] in H.
    destruct (first <? last); [|apply free_inv in H; destruct H as [E ->]; injection E as <-; lia].
    apply bindc_inv in H. destruct H as (x & c1 & c2 & H1 & H & ->). apply cmp_inv in H1. destruct H1 as [_ ->].
    destruct x; [|apply IHfuel in H; lia]. apply free_inv in H. destruct H as [E ->]. injection E as <-. lia.
  Qed.

  (* the loop compares each element between first and last, and at most one of them twice *)
  Hypothesis LO : 0 <= lo.
  Lemma part_loop_count : forall fuel a start end_ first last b p c, hi <= Z.of_nat (length a) ->
    lo <= start -> end_ <= hi -> start < first -> first < end_ -> start <= last -> last < end_ -> first <= last + 1 ->
    ge_at less a first start -> (start < last -> first < last -> lt_at less a last start) ->
    part_loop_c less lo hi fuel a start first last = Ok ((b, p), c) -> last - first <= c <= last - first + 1.
  Proof.
    induction fuel; intros a start end_ first last b p c HL HS HE H1 H2 H3 H4 H5 GF LL H; [discriminate|].
    cbn [part_loop_c] in H. destruct (Z.ltb_spec first last) as [Hlt|Hge]; [|apply free_inv in H; lia].
    apply bindc_inv in H. destruct H as (a1 & c1 & r1 & Hs & H & ->). apply free_inv in Hs. destruct Hs as [Hs ->].
    apply bindc_inv in H. destruct H as (f & c2 & r2 & Hf & H & ->).
    apply bindc_inv in H. destruct H as (g & c3 & r3 & Hg & H & ->).
    destruct (swap_eq lo hi a first last LO HL ltac:(lia) ltac:(lia)) as [x [y [b1 [Ex [Ey [S [G R]]]]]]].
    rewrite S in Hs. injection Hs as ->.
    assert (R1 : reord (start + 1) end_ a a1) by (apply R; lia).
    pose proof (reord_len _ _ _ _ R1) as LE.
    assert (PS : at_ a1 start = at_ a start) by (apply (reord_out _ _ _ _ _ R1); lia).
    assert (GL : ge_at less a1 last start).
    { intros u v Hu Hv. rewrite PS in Hv. rewrite G, Z.eqb_refl in Hu. inversion Hu; subst u. apply (GF x v); auto. }
    assert (LF : lt_at less a1 first start).
    { intros u v Hu Hv. rewrite PS in Hv. rewrite G, Z.eqb_refl in Hu. destruct (Z.eqb_spec first last); [lia|].
      inversion Hu; subst u. apply (LL ltac:(lia) Hlt y v); auto. }
    destruct (scan_up_spec less lo hi LO (Datatypes.S (length a1)) a1 start first last ltac:(lia) ltac:(lia) ltac:(lia) Hlt ltac:(lia) GL ltac:(lia)) as [f' [Ef [F1 [F2 F3]]]].
    destruct (scan_down_spec less lo hi LO (Datatypes.S (length a1)) a1 start last first ltac:(lia) ltac:(lia) ltac:(lia) Hlt ltac:(lia) LF ltac:(lia)) as [g' [Eg [G1 [G2 G3]]]].
    assert (f' = f). { rewrite <- val_scan_up, Hf in Ef. cbn in Ef. injection Ef as ->. reflexivity. } subst f'.
    assert (g' = g). { rewrite <- val_scan_down, Hg in Eg. cbn in Eg. injection Eg as ->. reflexivity. } subst g'.
    apply scan_up_count in Hf. apply scan_down_count in Hg.
    assert (f <= g + 1).
    { destruct (Z.le_gt_cases f (g + 1)) as [|C]; auto. exfalso.
      destruct (at_ex a1 (g + 1) ltac:(lia)) as [u Hu]. destruct (at_ex a1 start ltac:(lia)) as [v Hv].
      assert (T : less u v = true).
      { apply (F3 (g + 1)); auto. lia. }
      destruct (Z.eq_dec (g + 1) last) as [E|N].
      - rewrite <- E in GL. rewrite (GL u v Hu Hv) in T. discriminate.
      - rewrite (G3 (g + 1) ltac:(lia) u v Hu Hv) in T. discriminate. }
    apply (IHfuel a1 start end_ f g b p) in H; auto; lia.
  Qed.

  Lemma partition_right_count : forall a start size stop b p c, hi <= Z.of_nat (length a) ->
    lo <= start -> start + size <= hi -> start < stop < start + size -> ge_at less a stop start ->
    partition_right_c less lo hi a start size = Ok ((b, p), c) -> size <= c <= size + 1.
  Proof.
    intros a start size stop b p c HL HS HE Hst HG H. unfold partition_right_c in H. cbv zeta in H.
    apply bindc_inv in H. destruct H as (f & c1 & r1 & Hf & H & ->).
    apply bindc_inv in H. destruct H as (g & c2 & r2 & Hg & H & ->).
    apply bindc_inv in H. destruct H as ([b' p'] & c3 & r3 & Hl & H & ->).
    apply bindc_inv in H. destruct H as (x & c4 & r4 & Hs & H & ->).
    apply free_inv in Hs. apply free_inv in H. destruct Hs as [_ ->]. destruct H as [_ ->].
    destruct (scan_up_spec less lo hi LO (S (length a)) a start start stop HL ltac:(lia) ltac:(lia) ltac:(lia) ltac:(lia) HG ltac:(lia))
      as [f' [Ef [F1 [F2 F3]]]].
    assert (f' = f). { rewrite <- val_scan_up, Hf in Ef. cbn in Ef. injection Ef as ->. reflexivity. } subst f'.
    apply scan_up_count in Hf.
    assert (X : c2 = start + size - g /\ start <= g < start + size /\ f <= g + 1 /\ (f < g -> lt_at less a g start)).
    { destruct (Z.eqb_spec (f - 1) start) as [E|NE].
      - destruct (scan_down_guarded_spec less lo hi LO (S (length a)) a start f (start + size) HL ltac:(lia) ltac:(lia) ltac:(lia) HE ltac:(lia))
          as [g' [Eg [G1 [G2 [G3 G4]]]]].
        assert (g' = g). { rewrite <- val_scan_down_guarded, Hg in Eg. cbn in Eg. injection Eg as ->. reflexivity. } subst g'.
        apply scan_down_guarded_count in Hg. split; [lia|].
        assert (D : f < g \/ f = g) by lia. destruct D as [D|D].
        + destruct (G2 D). split; [lia|]. split; [lia|auto].
        + split; [lia|]. split; lia.
      - assert (LT : lt_at less a (f - 1) start) by (apply F3; lia).
        destruct (scan_down_spec less lo hi LO (S (length a)) a start (start + size) (f - 1) HL ltac:(lia) ltac:(lia) ltac:(lia) ltac:(lia) LT ltac:(lia))
          as [g' [Eg [G1 [G2 G3]]]].
        assert (g' = g). { rewrite <- val_scan_down, Hg in Eg. cbn in Eg. injection Eg as ->. reflexivity. } subst g'.
        apply scan_down_count in Hg. split; [lia|]. split; [lia|]. split; [lia|auto]. }
    destruct X as [-> [G1 [G2 G3]]].
    apply (part_loop_count _ a start (start + size)) in Hl; auto; lia.
  Qed.

  Hypothesis SW : strict_weak less.
  Variable select : Z -> Z -> outcome bool.

  (* one call of sort_ex_impl on more than 16 elements *)
  Lemma impl_step : forall fuel a start size b c d, hi <= Z.of_nat (length a) ->
    lo <= start -> start + size <= hi -> 16 < size ->
    sort_ex_impl_c less lo hi select (S fuel) a start size = Ok (b, c, d) ->
    exists a2 p c1 c2 sl l cl dl sr cr dr,
      reord start (start + size) a a2 /\ start <= p < start + size /\
      (forall i, start <= i < p -> lt_at less a2 i p) /\
      c1 = (if 128 <? size then 12 else 3) /\ size <= c2 <= size + 1 /\
      select start (p - start) = Ok sl /\
      (if sl then sort_ex_impl_c less lo hi select fuel a2 start (p - start) else Ok (a2, 0, 0)) = Ok (l, cl, dl) /\
      select (p + 1) (start + size - (p + 1)) = Ok sr /\
      (if sr then sort_ex_impl_c less lo hi select fuel l (p + 1) (start + size - (p + 1)) else Ok (l, 0, 0)) = Ok (b, cr, dr) /\
      c = c1 + c2 + cl + cr /\ d = 1 + Z.max dl dr.
  Proof.
    intros fuel a start size b c d HL HS HE HB H. cbn [sort_ex_impl_c] in H.
    destruct (Z.leb_spec size 16); [lia|]. cbv zeta in H.
    destruct (choose_pivot_spec less SW lo hi LO a start size HL HS HE HB) as [a1 [stop [E1 [R1 [Hst G1]]]]].
    rewrite <- val_choose_pivot in E1. apply val_Ok in E1. destruct E1 as [c1 E1]. rewrite E1 in H. cbn [bind] in H.
    pose proof (reord_len _ _ _ _ R1) as L1.
    destruct (partition_right_spec less lo hi LO a1 start size stop ltac:(lia) HS HE Hst G1) as [a2 [p [E2 [R2 [Hp [P1 P2]]]]]].
    rewrite <- val_partition_right in E2. apply val_Ok in E2. destruct E2 as [c2 E2]. rewrite E2 in H. cbn [bind fst snd] in H.
    destruct (select start (p - start)) as [sl| | |] eqn:SL; cbn [bind] in H; try discriminate.
    destruct (if sl then sort_ex_impl_c less lo hi select fuel a2 start (p - start) else Ok (a2, 0, 0)) as [[[l cl] dl]| | |] eqn:EL;
      cbn [bind fst snd] in H; try discriminate.
    destruct (select (p + 1) (start + size - (p + 1))) as [sr| | |] eqn:SR; cbn [bind] in H; try discriminate.
    destruct (if sr then sort_ex_impl_c less lo hi select fuel l (p + 1) (start + size - (p + 1)) else Ok (l, 0, 0)) as [[[r cr] dr]| | |] eqn:ER;
      cbn [bind fst snd] in H; try discriminate.
    injection H as -> <- <-.
    apply choose_pivot_count in E1. apply (partition_right_count a1 start size stop) in E2; auto; try lia.
    exists a2, p, c1, c2, sl, l, cl, dl, sr, cr, dr. repeat split; auto; try lia.
    - apply (reord_trans _ _ _ _ _ R1 R2).
    - apply (reord_trans _ _ _ _ _ R1 R2).
    - apply (reord_trans _ _ _ _ _ R1 R2).
    - apply (reord_trans _ _ _ _ _ R1 R2).
  Qed.

  Lemma impl_reord : forall fuel a start size b c d, hi <= Z.of_nat (length a) ->
    lo <= start -> start + size <= hi -> 0 <= size ->
    sort_ex_impl_c less lo hi select fuel a start size = Ok (b, c, d) -> length b = length a.
  Proof.
    induction fuel; intros a start size b c d HL HS HE H0 H; [discriminate|].
    destruct (Z.le_gt_cases size 16) as [Hs|Hb].
    - cbn [sort_ex_impl_c] in H. destruct (Z.leb_spec size 16); [|lia].
      destruct (small_sort_spec less SW lo hi LO a start size HL HS HE H0) as [b' [E [R _]]].
      rewrite <- val_small_sort in E. apply val_Ok in E. destruct E as [c' E]. rewrite E in H. cbn in H.
      injection H as -> _ _. apply (reord_len _ _ _ _ R).
    - apply impl_step in H; auto. destruct H as (a2 & p & c1 & c2 & sl & l & cl & dl & sr & cr & dr & R & Hp & _ & _ & _ & _ & EL & _ & ER & _).
      pose proof (reord_len _ _ _ _ R) as L2.
      assert (LL : length l = length a2).
      { destruct sl; [|injection EL as -> _ _; reflexivity]. eapply IHfuel; [| | | |exact EL]; lia. }
      assert (LB : length b = length l).
      { destruct sr; [|injection ER as -> _ _; reflexivity]. eapply IHfuel; [| | | |exact ER]; lia. }
      congruence.
  Qed.

  Lemma impl_upper : forall fuel a start size b c d, hi <= Z.of_nat (length a) ->
    lo <= start -> start + size <= hi -> 0 <= size ->
    sort_ex_impl_c less lo hi select fuel a start size = Ok (b, c, d) ->
    0 <= c /\ 2 * c <= size * size + 27 * size /\ 1 <= d <= Z.max 1 (size - 15).
  Proof.
    induction fuel; intros a start size b c d HL HS HE H0 H; [discriminate|].
    destruct (Z.le_gt_cases size 16) as [Hs|Hb].
    - cbn [sort_ex_impl_c] in H. destruct (Z.leb_spec size 16); [|lia].
      destruct (small_sort_c less lo hi a start size) as [[b' c']| | |] eqn:E; cbn [bind] in H; try discriminate.
      injection H as -> <- <-. apply small_sort_count in E; auto. nia.
    - apply impl_step in H; auto. destruct H as (a2 & p & c1 & c2 & sl & l & cl & dl & sr & cr & dr & R & Hp & _ & C1 & C2 & _ & EL & _ & ER & -> & ->).
      pose proof (reord_len _ _ _ _ R) as L2.
      assert (LL : length l = length a2).
      { destruct sl; [|injection EL as -> _ _; reflexivity]. eapply impl_reord; [| | | |exact EL]; lia. }
      assert (Q1 : 0 <= (p - start) * (p - start)) by (apply Z.mul_nonneg_nonneg; lia).
      assert (Q2 : 0 <= (start + size - (p + 1)) * (start + size - (p + 1))) by (apply Z.mul_nonneg_nonneg; lia).
      assert (BL : 0 <= cl /\ 2 * cl <= (p - start) * (p - start) + 27 * (p - start) /\ 0 <= dl <= Z.max 1 (p - start - 15)).
      { destruct sl; [|injection EL as _ <- <-; lia]. apply IHfuel in EL; lia. }
      assert (BR : let n := start + size - (p + 1) in 0 <= cr /\ 2 * cr <= n * n + 27 * n /\ 0 <= dr <= Z.max 1 (n - 15)).
      { cbv zeta. destruct sr; [|injection ER as _ <- <-; lia]. apply IHfuel in ER; lia. }
      cbv zeta in BR. remember (p - start) as u. remember (start + size - (p + 1)) as v.
      assert (0 <= u /\ 0 <= v) by lia. assert (size = u + v + 1) by lia. subst size. clear Hequ Heqv EL ER IHfuel.
      assert (c1 <= 12) by (destruct (128 <? u + v + 1); lia). assert (0 <= c1) by (destruct (128 <? u + v + 1); lia).
      assert (0 <= u * v) by (apply Z.mul_nonneg_nonneg; lia).
      assert ((u + v + 1) * (u + v + 1) = u * u + v * v + 2 * (u * v) + 2 * u + 2 * v + 1) by ring.
      split; [lia|]. split; lia.
  Qed.

  (* no input needs only linearly many comparisons *)
  Fixpoint slack (k : nat) : Z := match k with O => 0 | S k => 17 * (Z.of_nat k + 1) + 2 * slack k end.
  Lemma slack_nonneg : forall k, 0 <= slack k.
  Proof. induction k; cbn [slack]; lia. Qed.
  Lemma impl_lower : (forall s n, select s n = Ok true) -> forall k fuel a start size b c d, hi <= Z.of_nat (length a) ->
    lo <= start -> start + size <= hi -> 0 <= size ->
    sort_ex_impl_c less lo hi select fuel a start size = Ok (b, c, d) ->
    Z.of_nat k * size - slack k <= c.
  Proof.
    intros ALL k. induction k as [|k IHk]; intros fuel a start size b c d HL HS HE H0 H.
    { apply impl_upper in H; auto. cbn [slack]. lia. }
    destruct fuel as [|fuel]; [discriminate|]. cbn [slack]. pose proof (slack_nonneg k).
    destruct (Z.le_gt_cases size 16) as [Hs|Hb].
    - apply impl_upper in H; auto. nia.
    - apply impl_step in H; auto. destruct H as (a2 & p & c1 & c2 & sl & l & cl & dl & sr & cr & dr & R & Hp & _ & C1 & C2 & SL & EL & SR & ER & -> & ->).
      rewrite ALL in SL, SR. injection SL as <-. injection SR as <-.
      pose proof (reord_len _ _ _ _ R) as L2.
      assert (LL : length l = length a2) by (eapply impl_reord; [| | | |exact EL]; lia).
      apply IHk in EL; try lia. apply IHk in ER; try lia.
      assert (0 <= c1) by (destruct (128 <? size); lia). nia.
  Qed.

  (* ---- copies of one element ---- *)
  Variable x : A.
  Variable N : nat.
  Lemma perm_repeat : forall b, Permutation (repeat x N) b -> b = repeat x N.
  Proof. intros b P. apply Permutation_sym in P. apply Permutation_repeat in P. exact P. Qed.
  Lemma at_repeat : forall i y, at_ (repeat x N) i = Some y -> y = x.
  Proof.
    intros i y H. unfold at_ in H. destruct (i <? 0); [discriminate|].
    apply nth_error_In in H. apply repeat_spec in H. auto.
  Qed.
  Hypothesis HN : hi <= Z.of_nat N.
  Lemma sink_equal : forall fuel start j b c, lo <= start -> start <= j -> j < hi ->
    sink_c less lo hi fuel (repeat x N) start j = Ok (b, c) -> b = repeat x N /\ c = j - start.
  Proof.
    induction fuel; intros start j b c HS HJ HH H; [discriminate|]. cbn [sink_c] in H. destruct (Z.ltb_spec start j).
    - assert (LN : hi <= Z.of_nat (length (repeat x N))) by (rewrite repeat_length; auto).
      apply bindc_inv in H. destruct H as (t & c1 & c2 & H1 & H & ->). apply cmp_inv in H1. destruct H1 as [H1 ->].
      destruct (cmp_eq less lo hi LO (repeat x N) (j - 1) j LN ltac:(lia) ltac:(lia)) as [u [v [Eu [Ev C]]]].
      rewrite C in H1. injection H1 as <-. apply at_repeat in Eu, Ev. subst u v. rewrite (sw_irrefl _ SW) in H.
      apply bindc_inv in H. destruct H as (a1 & c3 & c4 & H3 & H & ->). apply free_inv in H3. destruct H3 as [H3 ->].
      destruct (swap_eq lo hi (repeat x N) (j - 1) j LO LN ltac:(lia) ltac:(lia)) as [u [v [a' [_ [_ [S [_ R]]]]]]].
      rewrite S in H3. injection H3 as ->.
      assert (a1 = repeat x N). { apply perm_repeat. apply (R lo hi); lia. } subst a1.
      apply IHfuel in H; try lia. destruct H as [-> ->]. split; auto. lia.
    - apply free_inv in H. destruct H as [E ->]. injection E as <-. split; auto. lia.
  Qed.
  Lemma insertion_equal : forall fuel start i e b c, lo <= start -> start <= i <= e -> e <= hi ->
    insertion_c less lo hi fuel (repeat x N) start i e = Ok (b, c) ->
    2 * c = (e - start) * (e - start - 1) - (i - start) * (i - start - 1).
  Proof.
    induction fuel; intros start i e b c HS HI HE H; [discriminate|]. cbn [insertion_c] in H. destruct (Z.ltb_spec i e).
    - apply bindc_inv in H. destruct H as (y & c1 & c2 & H1 & H & ->). apply sink_equal in H1; try lia. destruct H1 as [-> ->].
      apply IHfuel in H; try lia.
    - apply free_inv in H. assert (i = e) by lia. subst. lia.
  Qed.
  Lemma small_sort_equal : forall start size b c, lo <= start -> start + size <= hi -> 0 <= size ->
    small_sort_c less lo hi (repeat x N) start size = Ok (b, c) -> 2 * c = size * (size - 1).
  Proof.
    unfold small_sort_c. intros start size b c HS HE H0 H. destruct (Z.leb_spec size 1).
    { apply free_inv in H. assert (size = 0 \/ size = 1) as [->| ->] by lia; lia. }
    destruct (Z.eqb_spec size 2) as [->|]; [apply sort2_count in H; lia|].
    destruct (Z.eqb_spec size 3) as [->|]; [apply sort3_count in H; lia|].
    apply insertion_equal in H; lia.
  Qed.

  Lemma impl_equal : forall fuel start size b c d, lo <= start -> start + size <= hi -> 0 <= size ->
    (forall s n, start < s -> 0 < n -> s + n = start + size -> select s n = Ok true) ->
    sort_ex_impl_c less lo hi select fuel (repeat x N) start size = Ok (b, c, d) ->
    size * (size - 1) <= 2 * c /\ d = Z.max 1 (size - 15).
  Proof.
    induction fuel; intros start size b c d HS HE H0 SEL H; [discriminate|].
    assert (LN : hi <= Z.of_nat (length (repeat x N))) by (rewrite repeat_length; auto).
    destruct (Z.le_gt_cases size 16) as [Hs|Hb].
    - cbn [sort_ex_impl_c] in H. destruct (Z.leb_spec size 16); [|lia].
      destruct (small_sort_c less lo hi (repeat x N) start size) as [[b' c']| | |] eqn:E; cbn [bind] in H; try discriminate.
      injection H as -> <- <-. apply small_sort_equal in E; auto. lia.
    - apply impl_step in H; auto. destruct H as (a2 & p & c1 & c2 & sl & l & cl & dl & sr & cr & dr & R & Hp & P & C1 & C2 & SL & EL & SR & ER & -> & ->).
      assert (a2 = repeat x N) by (apply perm_repeat; apply R). subst a2.
      assert (p = start).
      { destruct (Z.eq_dec p start) as [|NE]; auto. exfalso.
        destruct (at_ex (repeat x N) start ltac:(lia)) as [u Hu]. destruct (at_ex (repeat x N) p ltac:(lia)) as [v Hv].
        pose proof (P start ltac:(lia) u v Hu Hv) as T. apply at_repeat in Hu, Hv. subst u v. rewrite (sw_irrefl _ SW) in T. discriminate. }
      subst p. replace (start + size - (start + 1)) with (size - 1) in * by lia. replace (start - start) with 0 in * by lia.
      rewrite SEL in SR by lia. injection SR as <-.
      assert (X : l = repeat x N /\ cl = 0 /\ 0 <= dl <= 1).
      { destruct sl.
        - destruct fuel; [discriminate|]. cbn in EL. injection EL as <- <- <-. repeat split; lia.
        - injection EL as <- <- <-. repeat split; lia. }
      destruct X as [-> [-> D]].
      apply IHfuel in ER; try lia.
      + assert (0 <= c1) by (destruct (128 <? size); lia). nia.
      + intros s n A1 A2 A3. apply SEL; lia.
  Qed.
End Count.

(* ---- partition_ex and is_sorted ---- *)
Section CountP.
  Context {A : Type}.
  Variable r : A -> bool.
  Variables s e : Z.
  Hypothesis S0 : 0 <= s.

  Lemma get1_inv : forall lo hi (a : list A) i x c, (let! x := get lo hi a i in Ok (x, 1)) = Ok (x, c) -> c = 1.
  Proof. intros lo hi a i x c H. destruct (get lo hi a i); cbn in H; try discriminate. injection H as _ <-. reflexivity. Qed.

  Lemma skip_left_count : forall fuel a first f c, first <= e -> skip_left_c r s e fuel a first e = Ok (f, c) ->
    0 <= c <= f - first + (if f <? e then 1 else 0).
  Proof.
    induction fuel; intros a first f c HF H; [discriminate|]. cbn [skip_left_c] in H. destruct (Z.ltb_spec first e).
    - apply bindc_inv in H. destruct H as (x & c1 & c2 & H1 & H & ->). apply get1_inv in H1. subst c1.
      destruct (r x).
      + apply free_inv in H. destruct H as [E ->]. injection E as <-. destruct (Z.ltb_spec first e); lia.
      + apply IHfuel in H; [|lia]. lia.
    - apply free_inv in H. destruct H as [E ->]. injection E as <-. destruct (Z.ltb_spec first e); lia.
  Qed.
  Lemma skip_right_count : forall fuel a last f c, skip_right_c r s e fuel a s last = Ok (f, c) ->
    0 <= c <= last - f + (if s <? f then 1 else 0).
  Proof.
    induction fuel; intros a last f c H; [discriminate|]. cbn [skip_right_c] in H. destruct (Z.ltb_spec s last).
    - apply bindc_inv in H. destruct H as (x & c1 & c2 & H1 & H & ->). apply get1_inv in H1. subst c1.
      destruct (r x).
      + apply IHfuel in H. lia.
      + apply free_inv in H. destruct H as [E ->]. injection E as <-. destruct (Z.ltb_spec s last); lia.
    - apply free_inv in H. destruct H as [E ->]. injection E as <-. destruct (Z.ltb_spec s last); lia.
  Qed.

  Lemma partition_loop_count : forall fuel a first last b p c, e <= Z.of_nat (length a) ->
    s <= first -> last < e -> first <= e -> s <= last + 1 -> first <= last + 1 ->
    (forall i x, s <= i < first -> at_ a i = Some x -> r x = false) ->
    (forall i x, last < i < e -> at_ a i = Some x -> r x = true) ->
    partition_loop_c r s e fuel a s e first last = Ok ((b, p), c) ->
    0 <= c <= last - first + 3.
  Proof.
    induction fuel; intros a first last b p c HL H1 H2 H3 H4 H5 BL BR H; [discriminate|]. cbn [partition_loop_c] in H.
    apply bindc_inv in H. destruct H as (f & c1 & r1 & Hf & H & ->).
    apply bindc_inv in H. destruct H as (g & c2 & r2 & Hg & H & ->).
    destruct (skip_left_spec r s e S0 (S (length a)) a first HL H1 ltac:(lia)) as [f' [Ef [F1 [F2 [F3 F4]]]]].
    destruct (skip_right_spec r s e S0 (S (length a)) a last HL H2 ltac:(lia)) as [g' [Eg [G1 [G2 [G3 G4]]]]].
    assert (f' = f). { rewrite <- val_skip_left, Hf in Ef. cbn in Ef. injection Ef as ->. reflexivity. } subst f'.
    assert (g' = g). { rewrite <- val_skip_right, Hg in Eg. cbn in Eg. injection Eg as ->. reflexivity. } subst g'.
    apply skip_left_count in Hf; auto. apply skip_right_count in Hg.
    assert (BL' : forall i x, s <= i < f -> at_ a i = Some x -> r x = false).
    { intros i x Hi Hx. destruct (Z.lt_ge_cases i first); [apply (BL i); auto; lia|apply (F3 i); auto; lia]. }
    assert (BR' : forall i x, g < i < e -> at_ a i = Some x -> r x = true).
    { intros i x Hi Hx. destruct (Z.lt_ge_cases last i); [apply (BR i); auto; lia|apply (G3 i); auto; lia]. }
    assert (X : f <= g + 1).
    { destruct (Z.le_gt_cases f (g + 1)) as [|C]; auto. exfalso.
      destruct (at_ex a (g + 1) ltac:(lia)) as [u Hu].
      assert (r u = false) by (apply (BL' (g + 1)); auto; lia). assert (r u = true) by (apply (BR' (g + 1)); auto; lia). congruence. }
    destruct (Z.leb_spec g f) as [Hle|Hgt].
    - apply free_inv in H. destruct H as [_ ->]. destruct (f <? e), (s <? g); lia.
    - apply bindc_inv in H. destruct H as (a1 & c3 & c4 & Hs & H & ->). apply free_inv in Hs. destruct Hs as [Hs ->].
      destruct (swap_eq s e a f g S0 HL ltac:(lia) ltac:(lia)) as [x [y [b1 [Ex [Ey [Sw [G R]]]]]]].
      rewrite Sw in Hs. injection Hs as ->.
      assert (R1 : reord s e a a1) by (apply R; lia). pose proof (reord_len _ _ _ _ R1) as LL.
      apply IHfuel in H; try lia.
      + destruct (f <? e), (s <? g); lia.
      + intros i u Hi Hu. rewrite G in Hu. destruct (Z.eqb_spec i g); [lia|]. destruct (Z.eqb_spec i f).
        * inversion Hu; subst u. apply G4; auto. lia.
        * apply (BL' i); auto. lia.
      + intros i u Hi Hu. rewrite G in Hu. destruct (Z.eqb_spec i g).
        * inversion Hu; subst u. apply F4; auto. lia.
        * destruct (Z.eqb_spec i f); [lia|]. apply (BR' i); auto. lia.
  Qed.

  Variable less : A -> A -> bool.
  Lemma is_sorted_loop_count : forall fuel a i b c, is_sorted_loop_c less s e fuel a i e = Ok (b, c) -> 0 <= c <= Z.max 0 (e - i).
  Proof.
    induction fuel; intros a i b c H; [discriminate|]. cbn [is_sorted_loop_c] in H. destruct (Z.ltb_spec i e).
    - apply bindc_inv in H. destruct H as (x & c1 & c2 & H1 & H & ->). apply cmp_inv in H1. destruct H1 as [_ ->].
      destruct x; [apply free_inv in H; lia|apply IHfuel in H; lia].
    - apply free_inv in H. lia.
  Qed.
End CountP.

(* sort_ex with any get and swap that act like those of one list does what SortModel.v does on that list. *)
From Coq Require Import ZArith List Bool Lia Permutation.
From Verif Require Import Base SortModel SortSpec SortProofs SortMultiModel.
Import ListNotations.
Open Scope Z_scope.

Definition orel {X Y} (R : X -> Y -> Prop) (m : outcome X) (m' : outcome Y) : Prop :=
  match m, m' with
  | Ok x, Ok y => R x y
  | Contract, Contract => True
  | UB, UB => True
  | OutOfFuel, OutOfFuel => True
  | _, _ => False
  end.
Lemma orel_bind : forall {X Y X' Y'} (P : X -> Y -> Prop) (Q : X' -> Y' -> Prop) m m' k k',
  orel P m m' -> (forall x y, P x y -> orel Q (k x) (k' y)) -> orel Q (bind m k) (bind m' k').
Proof. intros X Y X' Y' P Q [x| | |] [y| | |] k k' H K; cbn in *; auto; contradiction. Qed.

Section Sim.
  Context {St T A : Type}.
  Variable getf : St -> Z -> outcome T.
  Variable less : T -> T -> bool.
  Variable swapf : St -> Z -> Z -> outcome St.
  Variable fuel_n : nat.
  Variable less' : A -> A -> bool.
  Variables lo hi : Z.
  Variable R : St -> list A -> Prop.
  Variable K : T -> A -> Prop.
  Hypothesis LEN : forall s a, R s a -> fuel_n = S (length a).
  Hypothesis GET : forall s a i, R s a -> orel K (getf s i) (get lo hi a i).
  Hypothesis LESS : forall x y p q, K x p -> K y q -> less x y = less' p q.
  Hypothesis SWAP : forall s a i j, R s a -> orel R (swapf s i j) (swap lo hi a i j).

  Lemma sim_cmp : forall s a i j, R s a -> orel eq (cmpf getf less s i j) (cmp less' lo hi a i j).
  Proof.
    intros s a i j H. unfold cmpf, cmp. apply (orel_bind K); [apply GET; auto|]. intros x p HX.
    apply (orel_bind K); [apply GET; auto|]. intros y q HY. cbn. apply LESS; auto.
  Qed.
  Lemma sim_sort2 : forall s a i j, R s a -> orel R (sort2f getf less swapf s i j) (sort2 less' lo hi a i j).
  Proof.
    intros s a i j H. unfold sort2f, sort2. apply (orel_bind eq); [apply sim_cmp; auto|]. intros b ? <-.
    destruct b; [apply SWAP; auto|auto].
  Qed.
  Lemma sim_sort3 : forall s a i j k, R s a -> orel R (sort3f getf less swapf s i j k) (sort3 less' lo hi a i j k).
  Proof.
    intros s a i j k H. unfold sort3f, sort3. apply (orel_bind R); [apply sim_sort2; auto|]. intros s1 a1 H1.
    apply (orel_bind R); [apply sim_sort2; auto|]. intros s2 a2 H2. apply sim_sort2; auto.
  Qed.
  Lemma sim_sink : forall fuel s a start j, R s a -> orel R (sinkf getf less swapf fuel s start j) (sink less' lo hi fuel a start j).
  Proof.
    induction fuel; intros s a start j H; [exact Logic.I|]. cbn [sinkf sink]. destruct (start <? j); [|auto].
    apply (orel_bind eq); [apply sim_cmp; auto|]. intros b ? <-. destruct b; [auto|].
    apply (orel_bind R); [apply SWAP; auto|]. intros s1 a1 H1. apply IHfuel; auto.
  Qed.
  Lemma sim_insertion : forall fuel s a start i e, R s a ->
    orel R (insertionf getf less swapf fuel_n fuel s start i e) (insertion less' lo hi fuel a start i e).
  Proof.
    induction fuel; intros s a start i e H; [exact Logic.I|]. cbn [insertionf insertion]. destruct (i <? e); [|auto].
    apply (orel_bind R); [rewrite (LEN _ _ H); apply sim_sink; auto|]. intros s1 a1 H1. apply IHfuel; auto.
  Qed.
  Lemma sim_small_sort : forall s a start size, R s a -> orel R (small_sortf getf less swapf fuel_n s start size) (small_sort less' lo hi a start size).
  Proof.
    intros s a start size H. unfold small_sortf, small_sort. destruct (size <=? 1); [auto|].
    destruct (size =? 2); [apply sim_sort2; auto|]. destruct (size =? 3); [apply sim_sort3; auto|].
    rewrite <- (LEN _ _ H). apply sim_insertion; auto.
  Qed.
  Lemma sim_scan_up : forall fuel s a start first, R s a -> orel eq (scan_upf getf less fuel s start first) (scan_up less' lo hi fuel a start first).
  Proof.
    induction fuel; intros s a start first H; [exact Logic.I|]. cbn [scan_upf scan_up].
    apply (orel_bind eq); [apply sim_cmp; auto|]. intros b ? <-. destruct b; [apply IHfuel; auto|reflexivity].
  Qed.
  Lemma sim_scan_down : forall fuel s a start last, R s a -> orel eq (scan_downf getf less fuel s start last) (scan_down less' lo hi fuel a start last).
  Proof.
    induction fuel; intros s a start last H; [exact Logic.I|]. cbn [scan_downf scan_down].
    apply (orel_bind eq); [apply sim_cmp; auto|]. intros b ? <-. destruct b; [reflexivity|apply IHfuel; auto].
  Qed.
  Lemma sim_scan_down_guarded : forall fuel s a start first last, R s a ->
    orel eq (scan_down_guardedf getf less fuel s start first last) (scan_down_guarded less' lo hi fuel a start first last).
  Proof.
    induction fuel; intros s a start first last H; [exact Logic.I|]. cbn [scan_down_guardedf scan_down_guarded]. destruct (first <? last); [|reflexivity].
    apply (orel_bind eq); [apply sim_cmp; auto|]. intros b ? <-. destruct b; [reflexivity|apply IHfuel; auto].
  Qed.
  Definition RP (x : St * Z) (y : list A * Z) : Prop := R (fst x) (fst y) /\ snd x = snd y.
  Lemma sim_part_loop : forall fuel s a start first last, R s a ->
    orel RP (part_loopf getf less swapf fuel_n fuel s start first last) (part_loop less' lo hi fuel a start first last).
  Proof.
    induction fuel; intros s a start first last H; [exact Logic.I|]. cbn [part_loopf part_loop]. destruct (first <? last); [|split; auto].
    apply (orel_bind R); [apply SWAP; auto|]. intros s1 a1 H1. rewrite <- (LEN _ _ H1).
    apply (orel_bind eq); [apply sim_scan_up; auto|]. intros f ? <-.
    apply (orel_bind eq); [apply sim_scan_down; auto|]. intros g ? <-. apply IHfuel; auto.
  Qed.
  Lemma sim_partition_right : forall s a start size, R s a ->
    orel RP (partition_rightf getf less swapf fuel_n s start size) (partition_right less' lo hi a start size).
  Proof.
    intros s a start size H. unfold partition_rightf, partition_right. cbv zeta. rewrite <- (LEN _ _ H).
    apply (orel_bind eq); [apply sim_scan_up; auto|]. intros f ? <-.
    apply (orel_bind eq); [destruct (f - 1 =? start); [apply sim_scan_down_guarded|apply sim_scan_down]; auto|]. intros g ? <-.
    apply (orel_bind RP); [apply sim_part_loop; auto|]. intros [s1 p] [a1 p'] [H1 E]. cbn in H1, E. subst p'.
    apply (orel_bind R); [apply SWAP; auto|]. intros s2 a2 H2. split; auto.
  Qed.
  Lemma sim_choose_pivot : forall s a start size, R s a ->
    orel R (choose_pivotf getf less swapf s start size) (choose_pivot less' lo hi a start size).
  Proof.
    intros s a start size H. unfold choose_pivotf, choose_pivot. cbv zeta. destruct (128 <? size); [|apply sim_sort3; auto].
    apply (orel_bind R); [apply sim_sort3; auto|]. intros s1 a1 H1.
    apply (orel_bind R); [apply sim_sort3; auto|]. intros s2 a2 H2.
    apply (orel_bind R); [apply sim_sort3; auto|]. intros s3 a3 H3.
    apply (orel_bind R); [apply sim_sort3; auto|]. intros s4 a4 H4. apply SWAP; auto.
  Qed.
  Variable select : Z -> Z -> outcome bool.
  Lemma sim_impl : forall fuel s a start size, R s a ->
    orel R (sort_ex_implf getf less swapf fuel_n select fuel s start size) (sort_ex_impl less' lo hi select fuel a start size).
  Proof.
    induction fuel; intros s a start size H; [exact Logic.I|]. cbn [sort_ex_implf sort_ex_impl].
    destruct (size <=? 16); [apply sim_small_sort; auto|]. cbv zeta.
    apply (orel_bind R); [apply sim_choose_pivot; auto|]. intros s1 a1 H1.
    apply (orel_bind RP); [apply sim_partition_right; auto|]. intros [s2 p] [a2 p'] [H2 E]. cbn in H2, E. subst p'.
    apply (orel_bind eq); [destruct (select start (p - start)); cbn; auto|]. intros sl ? <-.
    apply (orel_bind R); [destruct sl; [apply IHfuel; auto|auto]|]. intros s3 a3 H3.
    apply (orel_bind eq); [destruct (select (p + 1) (start + size - (p + 1))); cbn; auto|]. intros sr ? <-.
    destruct sr; [apply IHfuel; auto|auto].
  Qed.
End Sim.

(* ---- ranges ---- *)
Section Ranges.
  Context {V : Type}.

  Lemma map_lset : forall {X Y} (f : X -> Y) l i x, map f (lset l i x) = lset (map f l) i (f x).
  Proof. intros X Y f l. induction l as [|h t IH]; intros [|i] x; cbn; auto. f_equal. apply IH. Qed.

  Lemma range_lset_eq : forall (m : @mem V) r l, (r < length m)%nat -> range (lset m r l) r = l.
  Proof. intros m r l H. unfold range. apply nth_error_nth. apply lset_nth_eq. auto. Qed.
  Lemma range_lset_neq : forall (m : @mem V) r r' l, r <> r' -> range (lset m r l) r' = range m r'.
  Proof.
    intros m r r' l H. unfold range.
    destruct (nth_error m r') as [x|] eqn:E.
    - rewrite (nth_error_nth _ _ _ E). apply nth_error_nth. rewrite lset_nth_neq; auto.
    - rewrite !nth_overflow; auto; [|rewrite lset_length]; apply nth_error_None; auto.
  Qed.

  Lemma at_z_ok : forall (l : list V) i, 0 <= i < Z.of_nat (length l) -> exists x, at_z l i = Ok x /\ nth_error l (Z.to_nat i) = Some x.
  Proof.
    intros l i H. unfold at_z. destruct (Z.leb_spec 0 i); [|lia].
    destruct (aget_lt l (Z.to_nat i) ltac:(lia)) as [x E]. exists x. split; auto. apply aget_Ok. auto.
  Qed.
  Lemma at_z_ub : forall (l : list V) i, ~ (0 <= i < Z.of_nat (length l)) -> at_z l i = UB.
  Proof.
    intros l i H. unfold at_z. destruct (Z.leb_spec 0 i); auto. unfold aget.
    destruct (nth_error l (Z.to_nat i)) eqn:E; auto. assert (Z.to_nat i < length l)%nat by (apply nth_error_Some; congruence). lia.
  Qed.

  (* the ranges rs of m are those of m0 read in the order p *)
  Definition arranged (m0 : @mem V) (rs : list nat) (n : nat) (m : @mem V) (p : list nat) : Prop :=
    length m = length m0 /\ length p = n /\
    (forall r, In r rs -> map Some (range m r) = map (nth_error (range m0 r)) p) /\
    (forall r, ~ In r rs -> range m r = range m0 r).

  Lemma arranged_len : forall m0 rs n m p r, arranged m0 rs n m p -> In r rs -> length (range m r) = n.
  Proof.
    intros m0 rs n m p r [_ [L [C _]]] H. apply C in H. apply (f_equal (@length _)) in H. rewrite !map_length in H. congruence.
  Qed.

  Lemma swap_all_eq : forall rs (m : @mem V) n a b, NoDup rs -> (forall r, In r rs -> (r < length m)%nat /\ length (range m r) = n) ->
    0 <= a < Z.of_nat n -> 0 <= b < Z.of_nat n ->
    exists m', swap_all m rs a b = Ok m' /\ length m' = length m /\
      (forall r, In r rs -> exists x y, nth_error (range m r) (Z.to_nat a) = Some x /\ nth_error (range m r) (Z.to_nat b) = Some y /\
        range m' r = lset (lset (range m r) (Z.to_nat a) y) (Z.to_nat b) x) /\
      (forall r, ~ In r rs -> range m' r = range m r).
  Proof.
    induction rs as [|r rs IH]; intros m n a b ND H Ha Hb.
    - exists m. cbn. repeat split; auto. intros r [].
    - inversion ND as [|? ? NI ND']; subst. destruct (H r ltac:(left; auto)) as [Hr Lr].
      cbn [swap_all]. unfold swap_range.
      destruct (at_z_ok (range m r) a ltac:(lia)) as [x [Ex Nx]]. destruct (at_z_ok (range m r) b ltac:(lia)) as [y [Ey Ny]].
      rewrite Ex, Ey. cbn [bind]. set (m1 := lset m r _).
      destruct (IH m1 n a b ND') as [m' [E [L [C D]]]]; auto.
      { intros r' Hr'. assert (r <> r') by (intro; subst; contradiction). unfold m1. rewrite lset_length, range_lset_neq by auto.
        apply H. right; auto. }
      exists m'. split; auto. split; [rewrite L; unfold m1; apply lset_length|]. split.
      + intros r' [<-|Hr'].
        * exists x, y. split; auto. split; auto. rewrite D by auto. unfold m1. apply range_lset_eq. auto.
        * assert (NE : r <> r') by (intro; subst; contradiction).
          destruct (C r' Hr') as [u [v [A1 [A2 A3]]]]. unfold m1 in A1, A2, A3. rewrite range_lset_neq in A1, A2, A3 by auto.
          exists u, v. auto.
      + intros r' NI'. rewrite D by (intro; apply NI'; right; auto). unfold m1. apply range_lset_neq. intro; subst; apply NI'; left; auto.
  Qed.
  Lemma swap_all_ub : forall rs (m : @mem V) n a b, rs <> [] -> (forall r, In r rs -> length (range m r) = n) ->
    ~ (0 <= a < Z.of_nat n) \/ ~ (0 <= b < Z.of_nat n) -> swap_all m rs a b = UB.
  Proof.
    intros [|r rs] m n a b NE H O; [contradiction|]. cbn [swap_all]. unfold swap_range. pose proof (H r ltac:(left; auto)) as L.
    destruct (Z_le_dec 0 a) as [A1|A1]; [destruct (Z_lt_dec a (Z.of_nat n)) as [A2|A2]|];
      try (rewrite (at_z_ub (range m r) a) by lia; reflexivity).
    destruct (at_z_ok (range m r) a ltac:(lia)) as [x [Ex _]]. rewrite Ex. cbn [bind].
    rewrite (at_z_ub (range m r) b) by lia. reflexivity.
  Qed.

  Lemma swap_sim : forall (m0 : @mem V) rs n m p a b, NoDup rs -> rs <> [] -> (forall r, In r rs -> (r < length m0)%nat) ->
    arranged m0 rs n m p -> orel (arranged m0 rs n) (swap_all m rs a b) (swap 0 (Z.of_nat n) p a b).
  Proof.
    intros m0 rs n m p a b ND NE HR HA. pose proof HA as [L [LP [C D]]].
    assert (LR : forall r, In r rs -> length (range m r) = n) by (intros; eapply arranged_len; eauto).
    destruct (Z_le_dec 0 a) as [A1|A1]; [destruct (Z_lt_dec a (Z.of_nat n)) as [A2|A2]|].
    2, 3: rewrite (swap_all_ub rs m n a b) by (auto; left; lia); unfold swap, get;
      destruct (Z.leb_spec 0 a); destruct (Z.ltb_spec a (Z.of_nat n)); try lia; exact Logic.I.
    destruct (Z_le_dec 0 b) as [B1|B1]; [destruct (Z_lt_dec b (Z.of_nat n)) as [B2|B2]|].
    2, 3: rewrite (swap_all_ub rs m n a b) by (auto; right; lia); unfold swap, get;
      destruct (Z.leb_spec 0 a); destruct (Z.ltb_spec a (Z.of_nat n)); try lia; cbn [andb];
      destruct (aget_lt p (Z.to_nat a) ltac:(lia)) as [u Eu]; rewrite Eu; cbn [bind];
      destruct (Z.leb_spec 0 b); destruct (Z.ltb_spec b (Z.of_nat n)); try lia; exact Logic.I.
    destruct (swap_all_eq rs m n a b ND) as [m' [E [L' [C' D']]]]; auto; try lia.
    { intros r Hr. split; [rewrite L; auto|auto]. }
    rewrite E. unfold swap, get, put.
    destruct (Z.leb_spec 0 a); [|lia]. destruct (Z.ltb_spec a (Z.of_nat n)); [|lia].
    destruct (Z.leb_spec 0 b); [|lia]. destruct (Z.ltb_spec b (Z.of_nat n)); [|lia]. cbn [andb].
    destruct (aget_lt p (Z.to_nat a) ltac:(lia)) as [u Eu]. destruct (aget_lt p (Z.to_nat b) ltac:(lia)) as [v Ev].
    rewrite Eu, Ev. cbn [bind]. rewrite aset_Ok by lia. cbn [bind]. rewrite aset_Ok by (rewrite lset_length; lia). cbn [orel].
    apply aget_Ok in Eu, Ev.
    split; [congruence|]. split; [rewrite !lset_length; auto|]. split.
    - intros r Hr. destruct (C' r Hr) as [x [y [X1 [X2 X3]]]]. rewrite X3, !map_lset, (C r Hr).
      assert (F : forall i q z, nth_error p i = Some q -> nth_error (range m r) i = Some z -> Some z = nth_error (range m0 r) q).
      { intros i q z Q1 Q2. pose proof (C r Hr) as CC. apply (f_equal (fun l => nth_error l i)) in CC.
        rewrite (map_nth_error _ _ _ Q2), (map_nth_error _ _ _ Q1) in CC. congruence. }
      rewrite (F _ _ _ Eu X1), (F _ _ _ Ev X2). reflexivity.
    - intros r Hr. rewrite D' by auto. auto.
  Qed.

  Lemma map_Some_inj : forall (l l' : list V), map Some l = map Some l' -> l = l'.
  Proof. induction l as [|h t IH]; intros [|h' t'] H; cbn in H; try discriminate; auto. injection H as -> H. f_equal. auto. Qed.

  Lemma arranged_id : forall (m : @mem V) rs n, (forall r, In r rs -> length (range m r) = n) -> arranged m rs n m (seq 0 n).
  Proof.
    intros m rs n H. split; auto. split; [apply seq_length|]. split; auto. intros r Hr. rewrite <- (H r Hr).
    generalize (range m r). clear. intro l. induction l as [|h t IH]; cbn [length seq map]; auto.
    f_equal. rewrite <- seq_shift, map_map. cbn. exact IH.
  Qed.
End Ranges.

(* positions behind the end come last *)
Definition oless {K} (less : K -> K -> bool) (x y : option K) : bool :=
  match x, y with Some x, Some y => less x y | Some _, None => true | None, _ => false end.
Lemma oless_strict_weak : forall {K} (less : K -> K -> bool), strict_weak less -> strict_weak (oless less).
Proof.
  intros K less SW. constructor.
  - intros [x|]; cbn; auto. apply (sw_irrefl _ SW).
  - intros [x|] [y|] [z|]; cbn; try discriminate; auto. apply (sw_trans _ SW).
  - intros [x|] [y|] [z|]; cbn; try discriminate; auto. apply (sw_neg _ SW).
Qed.

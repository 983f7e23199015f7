From Coq Require Import ZArith List Bool Lia Permutation.
From Verif Require Import Base SortModel SortSpec.
Import ListNotations.
Open Scope Z_scope.

(* element at a (nonnegative) integer position *)
Definition at_ {A} (a : list A) (i : Z) : option A := if i <? 0 then None else nth_error a (Z.to_nat i).

Lemma at_lt : forall {A} (a : list A) i x, at_ a i = Some x -> 0 <= i < Z.of_nat (length a).
Proof.
  intros A a i x H. unfold at_ in H. destruct (Z.ltb_spec i 0); [discriminate|].
  assert (Z.to_nat i < length a)%nat by (apply nth_error_Some; congruence). lia.
Qed.

Lemma at_ex : forall {A} (a : list A) i, 0 <= i < Z.of_nat (length a) -> exists x, at_ a i = Some x.
Proof.
  intros A a i H. unfold at_. destruct (Z.ltb_spec i 0); [lia|].
  destruct (nth_error a (Z.to_nat i)) eqn:E; eauto. apply nth_error_None in E. lia.
Qed.

Lemma at_nat : forall {A} (a : list A) n, at_ a (Z.of_nat n) = nth_error a n.
Proof. intros. unfold at_. destruct (Z.ltb_spec (Z.of_nat n) 0); [lia|]. rewrite Nat2Z.id. reflexivity. Qed.

Section P.
  Context {A : Type}.
  Implicit Types a : list A.

  (* a' is a rearrangement of a that moves only positions inside [lo, hi) *)
  Definition reord (lo hi : Z) a a' : Prop :=
    length a' = length a /\ Permutation a a' /\
    (forall i, ~ (lo <= i < hi) -> at_ a' i = at_ a i) /\
    (forall i, lo <= i < hi -> exists j, lo <= j < hi /\ at_ a' i = at_ a j).

  Lemma reord_refl : forall lo hi a, reord lo hi a a.
  Proof. intros. repeat split; auto. intros i Hi. exists i. auto. Qed.

  Lemma reord_trans : forall lo hi a b c, reord lo hi a b -> reord lo hi b c -> reord lo hi a c.
  Proof.
    intros lo hi a b c [L1 [P1 [O1 I1]]] [L2 [P2 [O2 I2]]]. split; [congruence|].
    split; [eapply Permutation_trans; eauto|]. split.
    - intros i Hi. rewrite O2, O1; auto.
    - intros i Hi. destruct (I2 i Hi) as [j [Hj E]]. destruct (I1 j Hj) as [k [Hk E']].
      exists k. split; auto. congruence.
  Qed.

  Lemma reord_mono : forall lo hi lo' hi' a b, lo' <= lo -> hi <= hi' -> reord lo hi a b -> reord lo' hi' a b.
  Proof.
    intros lo hi lo' hi' a b H1 H2 [L [P [O I]]]. split; [auto|]. split; [auto|]. split.
    - intros i Hi. apply O. lia.
    - intros i Hi. assert (D : lo <= i < hi \/ ~ (lo <= i < hi)) by lia. destruct D as [D|D].
      + destruct (I i D) as [j [Hj E]]. exists j. split; auto. lia.
      + exists i. split; auto.
  Qed.

  Lemma reord_len : forall lo hi a b, reord lo hi a b -> length b = length a.
  Proof. intros lo hi a b H. apply H. Qed.

  Lemma reord_all : forall lo hi a b (P : A -> Prop), reord lo hi a b ->
    (forall i x, lo <= i < hi -> at_ a i = Some x -> P x) ->
    forall i x, lo <= i < hi -> at_ b i = Some x -> P x.
  Proof.
    intros lo hi a b P [_ [_ [_ I]]] H i x Hi Hx. destruct (I i Hi) as [j [Hj E]].
    apply (H j); auto. congruence.
  Qed.

  Lemma reord_out : forall lo hi a b i, reord lo hi a b -> ~ (lo <= i < hi) -> at_ b i = at_ a i.
  Proof. intros lo hi a b i [_ [_ [O _]]] H. auto. Qed.

  (* ---- accesses ---- *)
  Lemma get_eq : forall lo hi a i, 0 <= lo -> hi <= Z.of_nat (length a) -> lo <= i < hi ->
    exists x, at_ a i = Some x /\ get lo hi a i = Ok x.
  Proof.
    intros lo hi a i H1 H2 Hi. destruct (at_ex a i ltac:(lia)) as [x E]. exists x. split; auto.
    unfold get. destruct (Z.leb_spec lo i); [|lia]. destruct (Z.ltb_spec i hi); [|lia]. cbn [andb].
    apply aget_Ok. unfold at_ in E. destruct (Z.ltb_spec i 0); [lia|]. auto.
  Qed.

  Lemma lset_lset_perm : forall a i j x y, nth_error a i = Some x -> nth_error a j = Some y ->
    Permutation a (lset (lset a i y) j x).
  Proof.
    induction a as [|h t IH]; intros i j x y Hi Hj.
    - destruct i; discriminate.
    - destruct i as [|i], j as [|j]; cbn in *.
      + inversion Hi; inversion Hj; subst. reflexivity.
      + inversion Hi; subst. clear IH Hi. revert x j Hj. induction t as [|u t IH]; intros x [|j] Hj; cbn in *; try discriminate.
        * inversion Hj; subst. constructor.
        * specialize (IH x j Hj).
          apply Permutation_trans with (u :: x :: t); [constructor|].
          apply Permutation_trans with (u :: y :: lset t j x); [constructor; auto|constructor].
      + inversion Hj; subst. clear IH Hj. revert y i Hi. induction t as [|u t IH]; intros y [|i] Hi; cbn in *; try discriminate.
        * inversion Hi; subst. constructor.
        * specialize (IH y i Hi).
          apply Permutation_trans with (u :: y :: t); [constructor|].
          apply Permutation_trans with (u :: x :: lset t i y); [constructor; auto|constructor].
      + constructor. apply IH; auto.
  Qed.

  Definition sw (a : list A) (i j : Z) (x y : A) : list A := lset (lset a (Z.to_nat i) y) (Z.to_nat j) x.

  Lemma sw_at : forall a i j x y k, 0 <= i < Z.of_nat (length a) -> 0 <= j < Z.of_nat (length a) ->
    at_ (sw a i j x y) k = if k =? j then Some x else if k =? i then Some y else at_ a k.
  Proof.
    intros a i j x y k Hi Hj. unfold at_, sw.
    destruct (Z.ltb_spec k 0).
    - destruct (Z.eqb_spec k j); [lia|]. destruct (Z.eqb_spec k i); [lia|]. reflexivity.
    - rewrite !lset_nth, !lset_length.
      destruct (Nat.eqb_spec (Z.to_nat j) (Z.to_nat k)), (Z.eqb_spec k j); try lia.
      + destruct (Nat.ltb_spec (Z.to_nat j) (length a)); [reflexivity|lia].
      + destruct (Nat.eqb_spec (Z.to_nat i) (Z.to_nat k)), (Z.eqb_spec k i); try lia; auto.
        destruct (Nat.ltb_spec (Z.to_nat i) (length a)); [reflexivity|lia].
  Qed.

  Lemma swap_eq : forall lo hi a i j, 0 <= lo -> hi <= Z.of_nat (length a) -> lo <= i < hi -> lo <= j < hi ->
    exists x y a', at_ a i = Some x /\ at_ a j = Some y /\ swap lo hi a i j = Ok a' /\
      (forall k, at_ a' k = if k =? j then Some x else if k =? i then Some y else at_ a k) /\
      (forall l h, l <= i < h -> l <= j < h -> reord l h a a').
  Proof.
    intros lo hi a i j H1 H2 Hi Hj.
    destruct (get_eq lo hi a i H1 H2 Hi) as [x [Ex Gx]]. destruct (get_eq lo hi a j H1 H2 Hj) as [y [Ey Gy]].
    exists x, y, (sw a i j x y). split; auto. split; auto.
    split; [|split; [intro; apply sw_at; lia|]].
    - unfold swap. rewrite Gx, Gy. cbn [bind]. unfold put.
      destruct (Z.leb_spec lo i); [|lia]. destruct (Z.ltb_spec i hi); [|lia].
      destruct (Z.leb_spec lo j); [|lia]. destruct (Z.ltb_spec j hi); [|lia]. cbn [andb].
      rewrite aset_Ok by lia. cbn [bind]. rewrite aset_Ok by (rewrite lset_length; lia). reflexivity.
    - intros l h Li Lj. unfold at_ in Ex, Ey.
      destruct (Z.ltb_spec i 0); [lia|]. destruct (Z.ltb_spec j 0); [lia|].
      split; [unfold sw; rewrite !lset_length; auto|]. split; [apply lset_lset_perm; auto|]. split.
      + intros k Hk. rewrite sw_at by lia. destruct (Z.eqb_spec k j); [lia|]. destruct (Z.eqb_spec k i); [lia|]. auto.
      + intros k Hk. rewrite sw_at by lia.
        destruct (Z.eqb_spec k j); [exists i; split; auto; unfold at_; destruct (Z.ltb_spec i 0); [lia|auto]|].
        destruct (Z.eqb_spec k i); [exists j; split; auto; unfold at_; destruct (Z.ltb_spec j 0); [lia|auto]|].
        exists k. auto.
  Qed.

  Variable less : A -> A -> bool.
  Hypothesis SW : strict_weak less.

  Lemma asym : forall x y, less x y = true -> less y x = false.
  Proof.
    intros x y H. destruct (less y x) eqn:E; auto.
    rewrite <- (sw_irrefl _ SW x). symmetry. eapply (sw_trans _ SW); eauto.
  Qed.

  (* x <= y is less y x = false *)
  Lemma le_trans : forall x y z, less y x = false -> less z y = false -> less z x = false.
  Proof.
    intros x y z H1 H2. destruct (less z x) eqn:E; auto.
    destruct (sw_neg _ SW _ y _ E); congruence.
  Qed.
  Lemma lt_le_trans : forall x y z, less x y = true -> less z y = false -> less x z = true.
  Proof. intros x y z H1 H2. destruct (sw_neg _ SW _ z _ H1); auto. congruence. Qed.
  Lemma le_lt_trans : forall x y z, less y x = false -> less y z = true -> less x z = true.
  Proof. intros x y z H1 H2. destruct (sw_neg _ SW _ x _ H2); auto. congruence. Qed.

  Definition le_at a i j : Prop := forall x y, at_ a i = Some x -> at_ a j = Some y -> less y x = false.

  Lemma le_at_trans : forall a i j k, (0 <= j < Z.of_nat (length a)) -> le_at a i j -> le_at a j k -> le_at a i k.
  Proof.
    intros a i j k Hj H1 H2 x z Hx Hz. destruct (at_ex a j Hj) as [y Hy]. eapply le_trans; eauto.
  Qed.
  Lemma le_at_refl : forall a i, le_at a i i.
  Proof. intros a i x y H1 H2. rewrite H1 in H2. inversion H2; subst. apply (sw_irrefl _ SW). Qed.

  Section W.
  Variables lo hi : Z.
  Hypothesis LO : 0 <= lo.

  Lemma cmp_eq : forall a i j, hi <= Z.of_nat (length a) -> lo <= i < hi -> lo <= j < hi ->
    exists x y, at_ a i = Some x /\ at_ a j = Some y /\ cmp less lo hi a i j = Ok (less x y).
  Proof.
    intros a i j H2 Hi Hj.
    destruct (get_eq lo hi a i LO H2 Hi) as [x [Ex Gx]]. destruct (get_eq lo hi a j LO H2 Hj) as [y [Ey Gy]].
    exists x, y. unfold cmp. rewrite Gx, Gy. auto.
  Qed.

  Lemma sort2_spec : forall a i j, hi <= Z.of_nat (length a) -> lo <= i < hi -> lo <= j < hi -> i <> j ->
    exists a', sort2 less lo hi a i j = Ok a' /\ le_at a' i j /\
      (forall k, k <> i -> k <> j -> at_ a' k = at_ a k) /\
      ((at_ a' i = at_ a i /\ at_ a' j = at_ a j) \/ (at_ a' i = at_ a j /\ at_ a' j = at_ a i)) /\
      (forall l h, l <= i < h -> l <= j < h -> reord l h a a').
  Proof.
    intros a i j H2 Hi Hj NE. unfold sort2.
    destruct (cmp_eq a j i H2 Hj Hi) as [y [x [Ey [Ex C]]]]. rewrite C. cbn [bind].
    destruct (less y x) eqn:L.
    - destruct (swap_eq lo hi a i j LO H2 Hi Hj) as [x' [y' [a' [Ex' [Ey' [S [G R]]]]]]].
      rewrite Ex in Ex'. rewrite Ey in Ey'. inversion Ex'; inversion Ey'; subst x' y'.
      exists a'. split; auto. split; [|split; [|split; [|exact R]]].
      + intros u v Hu Hv. rewrite G in Hu, Hv. rewrite Z.eqb_refl in *.
        destruct (Z.eqb_spec i j); [lia|]. inversion Hu; inversion Hv; subst. apply asym; auto.
      + intros k K1 K2. rewrite G. destruct (Z.eqb_spec k j); [lia|]. destruct (Z.eqb_spec k i); [lia|]. auto.
      + right. rewrite !G, !Z.eqb_refl. destruct (Z.eqb_spec i j); [lia|]. auto.
    - exists a. split; auto. split; [|split; [|split]]; auto.
      + intros u v Hu Hv. congruence.
      + intros. apply reord_refl.
  Qed.

  Lemma sort3_spec : forall a i j k, hi <= Z.of_nat (length a) -> lo <= i < hi -> lo <= j < hi -> lo <= k < hi ->
    i <> j -> j <> k -> i <> k ->
    exists a', sort3 less lo hi a i j k = Ok a' /\ le_at a' i j /\ le_at a' j k /\
      (forall l h, l <= i < h -> l <= j < h -> l <= k < h -> reord l h a a').
  Proof.
    intros a i j k H2 Hi Hj Hk N1 N2 N3. unfold sort3.
    destruct (sort2_spec a i j H2 Hi Hj N1) as [b [E1 [L1 [O1 [C1 R1]]]]]. rewrite E1. cbn [bind].
    assert (Lb : length b = length a) by (apply (reord_len lo hi); apply R1; auto).
    destruct (sort2_spec b j k ltac:(lia) Hj Hk N2) as [c [E2 [L2 [O2 [C2 R2]]]]]. rewrite E2. cbn [bind].
    assert (Lc : length c = length b) by (apply (reord_len lo hi); apply R2; auto).
    destruct (sort2_spec c i j ltac:(lia) Hi Hj N1) as [d [E3 [L3 [O3 [C3 R3]]]]]. rewrite E3.
    exists d. split; auto. split; auto. split.
    - (* d[k] = c[k]; both c[i] = b[i] <= b[j] and c[j] <= c[k]; c[k] is max *)
      assert (M : le_at c i k).
      { intros x z Hx Hz. rewrite (O2 i) in Hx by lia.
        destruct (at_ex b j ltac:(lia)) as [y Hy].
        destruct C2 as [[C2a C2b]|[C2a C2b]].
        - apply (le_trans x y z); [apply (L1 x y); auto|apply (L2 y z); congruence].
        - apply (L1 x z); congruence. }
      intros y z Hy Hz. rewrite (O3 k) in Hz by lia.
      destruct C3 as [[C3a C3b]|[C3a C3b]].
      + apply (L2 y z); congruence.
      + apply (M y z); congruence.
    - intros l h A1 A2 A3. eapply reord_trans; [apply R1; auto|]. eapply reord_trans; [apply R2; auto|apply R3; auto].
  Qed.

  (* sorted on [s, e) *)
  Definition srt a s e : Prop := forall i j, s <= i < j -> j < e -> le_at a i j.

  Lemma sink_spec : forall fuel a start j, (Z.to_nat (j - start) < fuel)%nat -> hi <= Z.of_nat (length a) ->
    lo <= start -> start <= j -> j < hi ->
    (* [start, j] sorted except that position j may be too small, plus the tail up to e is consistent *)
    forall e, e <= hi -> j < e ->
    (forall i k, start <= i < k -> k < e -> k <> j -> le_at a i k) ->
    exists a', sink less lo hi fuel a start j = Ok a' /\ reord start (j + 1) a a' /\ srt a' start e.
  Proof.
    induction fuel; intros a start j HF HL HS HJ HH e He Hje INV; [lia|].
    cbn [sink]. destruct (Z.ltb_spec start j) as [Hlt|Hge].
    - destruct (cmp_eq a (j - 1) j HL ltac:(lia) ltac:(lia)) as [x [y [Ex [Ey C]]]]. rewrite C. cbn [bind].
      destruct (less x y) eqn:L.
      + exists a. split; auto. split; [apply reord_refl|].
        intros i k Hi Hk. destruct (Z.eq_dec k j) as [->|NK]; [|apply INV; auto].
        assert (LJ : le_at a (j - 1) j) by (intros u v Hu Hv; rewrite Ex in Hu; rewrite Ey in Hv; inversion Hu; inversion Hv; subst; apply asym; auto).
        destruct (Z.eq_dec i (j - 1)) as [->|NI]; [auto|].
        apply le_at_trans with (j - 1); [lia|apply INV; lia|auto].
      + destruct (swap_eq lo hi a (j - 1) j LO HL ltac:(lia) ltac:(lia)) as [x' [y' [a' [Ex' [Ey' [S [G R]]]]]]].
        rewrite Ex in Ex'. rewrite Ey in Ey'. inversion Ex'; inversion Ey'; subst x' y'. clear Ex' Ey'.
        rewrite S. cbn [bind].
        assert (R1 : reord start (j + 1) a a') by (apply R; lia).
        pose proof (reord_len _ _ _ _ R1) as LL.
        destruct (IHfuel a' start (j - 1) ltac:(lia) ltac:(lia) HS ltac:(lia) ltac:(lia) e He ltac:(lia)) as [b [Eb [Rb Sb]]].
        * intros i k Hi Hk NK u v Hu Hv. rewrite G in Hu, Hv.
          destruct (Z.eqb_spec i j) as [->|NI].
          -- inversion Hu; subst u. destruct (Z.eqb_spec k j); [lia|]. destruct (Z.eqb_spec k (j - 1)); [lia|].
             apply (INV (j - 1) k ltac:(lia) Hk ltac:(lia) x v); auto.
          -- destruct (Z.eqb_spec i (j - 1)) as [->|NI'].
             ++ inversion Hu; subst u. destruct (Z.eqb_spec k j).
                ** inversion Hv; subst v. auto.
                ** destruct (Z.eqb_spec k (j - 1)); [lia|]. apply (INV j k ltac:(lia) Hk ltac:(lia) y v); auto.
             ++ destruct (Z.eqb_spec k j).
                ** inversion Hv; subst v. apply (INV i (j - 1) ltac:(lia) ltac:(lia) ltac:(lia) u x); auto.
                ** destruct (Z.eqb_spec k (j - 1)); [lia|]. apply (INV i k ltac:(lia) Hk ltac:(lia) u v); auto.
        * exists b. split; auto. split; auto. eapply reord_trans; [exact R1|].
          apply (reord_mono start (j - 1 + 1)); [lia|lia|auto].
    - assert (j = start) by lia. subst j. exists a. split; auto. split; [apply reord_refl|].
      intros i k Hi Hk. apply INV; auto. lia.
  Qed.

  Lemma insertion_spec : forall fuel a start i end_, (Z.to_nat (end_ - i) < fuel)%nat ->
    hi <= Z.of_nat (length a) -> lo <= start -> start < i -> end_ <= hi -> i <= end_ ->
    srt a start i ->
    exists a', insertion less lo hi fuel a start i end_ = Ok a' /\ reord start end_ a a' /\ srt a' start end_.
  Proof.
    induction fuel; intros a start i end_ HF HL HS HI HE HIE SR; [lia|].
    cbn [insertion]. destruct (Z.ltb_spec i end_) as [Hlt|Hge].
    - destruct (sink_spec (S (length a)) a start i ltac:(lia) HL HS ltac:(lia) ltac:(lia) (i + 1) ltac:(lia) ltac:(lia)) as [b [Eb [Rb Sb]]].
      { intros p q Hp Hq NQ. apply SR; lia. }
      rewrite Eb. cbn [bind]. pose proof (reord_len _ _ _ _ Rb) as LL.
      destruct (IHfuel b start (i + 1) end_ ltac:(lia) ltac:(lia) HS ltac:(lia) HE ltac:(lia) Sb) as [c [Ec [Rc Sc]]].
      exists c. split; auto. split; auto. eapply reord_trans; [|exact Rc].
      apply (reord_mono start (i + 1)); [lia|lia|auto].
    - assert (i = end_) by lia. subst. exists a. split; auto. split; auto. apply reord_refl.
  Qed.

  Lemma small_sort_spec : forall a start size, hi <= Z.of_nat (length a) -> lo <= start -> start + size <= hi -> 0 <= size ->
    exists a', small_sort less lo hi a start size = Ok a' /\ reord start (start + size) a a' /\ srt a' start (start + size).
  Proof.
    intros a start size HL HS HE H0. unfold small_sort.
    destruct (Z.leb_spec size 1).
    { exists a. split; auto. split; [apply reord_refl|]. intros i j Hi Hj. lia. }
    destruct (Z.eqb_spec size 2) as [->|N2].
    { destruct (sort2_spec a start (start + 1) HL ltac:(lia) ltac:(lia) ltac:(lia)) as [b [E [L [_ [_ R]]]]].
      exists b. split; auto. split; [apply R; lia|]. intros i j Hi Hj.
      assert (i = start) by lia. assert (j = start + 1) by lia. subst. auto. }
    destruct (Z.eqb_spec size 3) as [->|N3].
    { destruct (sort3_spec a start (start + 1) (start + 2) HL ltac:(lia) ltac:(lia) ltac:(lia) ltac:(lia) ltac:(lia) ltac:(lia))
        as [b [E [L1 [L2 R]]]].
      exists b. split; auto. assert (RR : reord start (start + 3) a b) by (apply R; lia). split; auto.
      pose proof (reord_len _ _ _ _ RR). intros i j Hi Hj.
      assert (C : (i = start /\ j = start + 1) \/ (i = start + 1 /\ j = start + 2) \/ (i = start /\ j = start + 2)) by lia.
      destruct C as [[-> ->]|[[-> ->]|[-> ->]]]; auto. apply le_at_trans with (start + 1); auto. lia. }
    apply insertion_spec; auto; try lia.
    intros i j Hi Hj. lia.
  Qed.

  (* ---- partition ---- *)
  Definition lt_at a i j : Prop := forall x y, at_ a i = Some x -> at_ a j = Some y -> less x y = true.
  Definition ge_at a i j : Prop := forall x y, at_ a i = Some x -> at_ a j = Some y -> less x y = false.

  Lemma scan_up_spec : forall fuel a start first stop, hi <= Z.of_nat (length a) ->
    lo <= start < hi -> lo <= first + 1 -> first < stop -> stop < hi -> ge_at a stop start ->
    (Z.to_nat (stop - first) < fuel)%nat ->
    exists f, scan_up less lo hi fuel a start first = Ok f /\ first < f <= stop /\ ge_at a f start /\
      forall i, first < i < f -> lt_at a i start.
  Proof.
    induction fuel; intros a start first stop HL HS HF HFS HST HG HFu; [lia|].
    cbn [scan_up]. destruct (cmp_eq a (first + 1) start HL ltac:(lia) HS) as [x [y [Ex [Ey C]]]].
    rewrite C. cbn [bind]. destruct (less x y) eqn:L.
    - assert (NE : first + 1 <> stop).
      { intro E. subst stop. rewrite (HG x y Ex Ey) in L. discriminate. }
      destruct (IHfuel a start (first + 1) stop HL HS ltac:(lia) ltac:(lia) HST HG ltac:(lia)) as [f [E [F1 [F2 F3]]]].
      exists f. split; auto. split; [lia|]. split; auto. intros i Hi.
      destruct (Z.eq_dec i (first + 1)) as [->|N]; [|apply F3; lia].
      intros u v Hu Hv. congruence.
    - exists (first + 1). split; auto. split; [lia|]. split; [|intros i Hi; lia].
      intros u v Hu Hv. congruence.
  Qed.

  Lemma scan_down_spec : forall fuel a start last stop, hi <= Z.of_nat (length a) ->
    lo <= start < hi -> last - 1 < hi -> stop < last -> lo <= stop -> lt_at a stop start ->
    (Z.to_nat (last - stop) < fuel)%nat ->
    exists f, scan_down less lo hi fuel a start last = Ok f /\ stop <= f < last /\ lt_at a f start /\
      forall i, f < i < last -> ge_at a i start.
  Proof.
    induction fuel; intros a start last stop HL HS HF HFS HST HG HFu; [lia|].
    cbn [scan_down]. destruct (cmp_eq a (last - 1) start HL ltac:(lia) HS) as [x [y [Ex [Ey C]]]].
    rewrite C. cbn [bind]. destruct (less x y) eqn:L.
    - exists (last - 1). split; auto. split; [lia|]. split; [|intros i Hi; lia].
      intros u v Hu Hv. congruence.
    - assert (NE : last - 1 <> stop).
      { intro E. subst stop. rewrite (HG x y Ex Ey) in L. discriminate. }
      destruct (IHfuel a start (last - 1) stop HL HS ltac:(lia) ltac:(lia) HST HG ltac:(lia)) as [f [E [F1 [F2 F3]]]].
      exists f. split; auto. split; [lia|]. split; auto. intros i Hi.
      destruct (Z.eq_dec i (last - 1)) as [->|N]; [|apply F3; lia].
      intros u v Hu Hv. congruence.
  Qed.

  Lemma scan_down_guarded_spec : forall fuel a start first last, hi <= Z.of_nat (length a) ->
    lo <= start < hi -> lo <= first -> first <= last -> last <= hi -> (Z.to_nat (last - first) < fuel)%nat ->
    exists f, scan_down_guarded less lo hi fuel a start first last = Ok f /\ first <= f <= last /\
      (first < f -> lt_at a f start /\ f < last) /\
      (first = f -> forall i, first < i < last -> ge_at a i start) /\
      (first < f -> forall i, f < i < last -> ge_at a i start).
  Proof.
    induction fuel; intros a start first last HL HS HF HFL HLH HFu; [lia|].
    cbn [scan_down_guarded]. destruct (Z.ltb_spec first last) as [Hlt|Hge].
    - destruct (cmp_eq a (last - 1) start HL ltac:(lia) HS) as [x [y [Ex [Ey C]]]].
      rewrite C. cbn [bind]. destruct (less x y) eqn:L.
      + exists (last - 1). split; auto. split; [lia|]. split; [|split].
        * intro. split; [intros u v Hu Hv; congruence|lia].
        * intros; lia.
        * intros; lia.
      + destruct (IHfuel a start first (last - 1) HL HS HF ltac:(lia) ltac:(lia) ltac:(lia)) as [f [E [F1 [F2 [F3 F4]]]]].
        exists f. split; auto. split; [lia|]. split; [|split].
        * intro H. destruct (F2 H). split; auto. lia.
        * intros H i Hi. destruct (Z.eq_dec i (last - 1)) as [->|N]; [intros u v Hu Hv; congruence|apply F3; auto; lia].
        * intros H i Hi. destruct (Z.eq_dec i (last - 1)) as [->|N]; [intros u v Hu Hv; congruence|apply F4; auto; lia].
    - exists last. split; auto. split; [lia|]. split; [lia|]. split; intros; lia.
  Qed.

  Lemma part_loop_spec : forall fuel a start end_ first last, hi <= Z.of_nat (length a) ->
    lo <= start -> end_ <= hi -> start < first -> first < end_ -> start <= last -> last < end_ ->
    (Z.to_nat (last - first) < fuel)%nat ->
    ge_at a first start -> (start < last -> first < last -> lt_at a last start) ->
    (forall i, start < i < first -> lt_at a i start) -> (forall i, last < i < end_ -> ge_at a i start) ->
    exists a' f, part_loop less lo hi fuel a start first last = Ok (a', f) /\ reord (start + 1) end_ a a' /\
      start < f < end_ /\
      (forall i, start < i < f -> lt_at a' i start) /\ (forall i, f <= i < end_ -> ge_at a' i start).
  Proof.
    induction fuel; intros a start end_ first last HL HS HE H1 H2 H3 H4 HFu GF LL BL BR; [lia|].
    cbn [part_loop]. destruct (Z.ltb_spec first last) as [Hlt|Hge].
    - destruct (swap_eq lo hi a first last LO HL ltac:(lia) ltac:(lia)) as [x [y [b [Ex [Ey [S [G R]]]]]]].
      rewrite S. cbn [bind].
      assert (R1 : reord (start + 1) end_ a b) by (apply R; lia).
      pose proof (reord_len _ _ _ _ R1) as LE.
      assert (PS : at_ b start = at_ a start) by (apply (reord_out _ _ _ _ _ R1); lia).
      assert (GL : ge_at b last start).
      { intros u v Hu Hv. rewrite PS in Hv. rewrite G, Z.eqb_refl in Hu. inversion Hu; subst u. apply (GF x v); auto. }
      assert (LF : lt_at b first start).
      { intros u v Hu Hv. rewrite PS in Hv. rewrite G, Z.eqb_refl in Hu. destruct (Z.eqb_spec first last); [lia|].
        inversion Hu; subst u. apply (LL ltac:(lia) Hlt y v); auto. }
      destruct (scan_up_spec (Datatypes.S (length b)) b start first last ltac:(lia) ltac:(lia) ltac:(lia) Hlt ltac:(lia) GL ltac:(lia)) as [f [Ef [F1 [F2 F3]]]].
      rewrite Ef. cbn [bind].
      destruct (scan_down_spec (Datatypes.S (length b)) b start last first ltac:(lia) ltac:(lia) ltac:(lia) Hlt ltac:(lia) LF ltac:(lia)) as [g [Eg [G1 [G2 G3]]]].
      rewrite Eg. cbn [bind].
      destruct (IHfuel b start end_ f g ltac:(lia) HS HE ltac:(lia) ltac:(lia) ltac:(lia) ltac:(lia) ltac:(lia) F2) as [c [p [Ec [Rc [Pc [Lc Gc]]]]]].
      + auto.
      + intros i Hi. destruct (Z.eq_dec i first) as [->|N]; auto.
        assert (D : i < first \/ first < i) by lia. destruct D as [D|D]; [|apply F3; lia].
        intros u v Hu Hv. rewrite PS in Hv. rewrite G in Hu.
        destruct (Z.eqb_spec i last); [lia|]. destruct (Z.eqb_spec i first); [lia|]. apply (BL i ltac:(lia) u v); auto.
      + intros i Hi. destruct (Z.eq_dec i last) as [->|N]; auto.
        assert (D : i < last \/ last < i) by lia. destruct D as [D|D]; [apply G3; lia|].
        intros u v Hu Hv. rewrite PS in Hv. rewrite G in Hu.
        destruct (Z.eqb_spec i last); [lia|]. destruct (Z.eqb_spec i first); [lia|]. apply (BR i ltac:(lia) u v); auto.
      + exists c, p. split; auto. split; [eapply reord_trans; eauto|]. auto.
    - exists a, first. split; auto. split; [apply reord_refl|]. split; [lia|]. split; auto.
      intros i Hi. destruct (Z.eq_dec i first) as [->|N]; auto. apply BR. lia.
  Qed.

  (* after partitioning: pivot at p, strictly smaller before, not smaller behind *)
  Lemma partition_right_spec : forall a start size stop, hi <= Z.of_nat (length a) ->
    lo <= start -> start + size <= hi -> start < stop < start + size -> ge_at a stop start ->
    exists a' p, partition_right less lo hi a start size = Ok (a', p) /\ reord start (start + size) a a' /\
      start <= p < start + size /\
      (forall i, start <= i < p -> lt_at a' i p) /\ (forall i, p < i < start + size -> ge_at a' i p).
  Proof.
    intros a start size stop HL HS HE Hst HG. unfold partition_right. cbv zeta.
    destruct (scan_up_spec (S (length a)) a start start stop HL ltac:(lia) ltac:(lia) ltac:(lia) ltac:(lia) HG ltac:(lia))
      as [f [Ef [F1 [F2 F3]]]].
    rewrite Ef. cbn [bind].
    assert (LAST : exists g, (if f - 1 =? start then scan_down_guarded less lo hi (S (length a)) a start f (start + size)
                       else scan_down less lo hi (S (length a)) a start (start + size)) = Ok g /\
              start <= g < start + size /\ (f < g -> lt_at a g start) /\ (forall i, g < i < start + size -> ge_at a i start)).
    { destruct (Z.eqb_spec (f - 1) start) as [E|NE].
      - destruct (scan_down_guarded_spec (S (length a)) a start f (start + size) HL ltac:(lia) ltac:(lia) ltac:(lia) HE ltac:(lia))
          as [g [Eg [G1 [G2 [G3 G4]]]]].
        exists g. split; auto.
        assert (D : f < g \/ f = g) by lia. destruct D as [D|D].
        + destruct (G2 D). split; [lia|]. split; auto.
        + split; [lia|]. split; [lia|]. subst g. auto.
      - assert (LT : lt_at a (f - 1) start) by (apply F3; lia).
        destruct (scan_down_spec (S (length a)) a start (start + size) (f - 1) HL ltac:(lia) ltac:(lia) ltac:(lia) ltac:(lia) LT ltac:(lia))
          as [g [Eg [G1 [G2 G3]]]].
        exists g. split; auto. split; [lia|]. split; auto. }
    destruct LAST as [g [Eg [G1 [G2 G3]]]]. rewrite Eg. cbn [bind].
    destruct (part_loop_spec (S (length a)) a start (start + size) f g HL HS HE ltac:(lia) ltac:(lia) ltac:(lia) ltac:(lia) ltac:(lia) F2)
      as [b [p [Eb [Rb [Pb [Lb Gb]]]]]]; auto.
    rewrite Eb. cbn [bind].
    pose proof (reord_len _ _ _ _ Rb) as LLb.
    destruct (swap_eq lo hi b (p - 1) start LO ltac:(lia) ltac:(lia) ltac:(lia)) as [x [y [c [Ex [Ey [S [G R]]]]]]].
    rewrite S. cbn [bind].
    exists c, (p - 1). split; auto. split.
    { eapply reord_trans; [|apply R; lia]. apply (reord_mono (start + 1) (start + size)); auto; lia. }
    split; [lia|].
    assert (CP : at_ c (p - 1) = Some y).
    { rewrite G. destruct (Z.eqb_spec (p - 1) start) as [E|N]; [|rewrite Z.eqb_refl; auto].
      rewrite E in Ex. congruence. }
    split.
    - intros i Hi u v Hu Hv. rewrite CP in Hv. inversion Hv; subst v.
      rewrite G in Hu. destruct (Z.eqb_spec i start) as [->|N].
      + inversion Hu; subst u. apply (Lb (p - 1) ltac:(lia) x y); auto.
      + destruct (Z.eqb_spec i (p - 1)); [lia|]. apply (Lb i ltac:(lia) u y); auto.
    - intros i Hi u v Hu Hv. rewrite CP in Hv. inversion Hv; subst v.
      rewrite G in Hu. destruct (Z.eqb_spec i start); [lia|]. destruct (Z.eqb_spec i (p - 1)); [lia|].
      apply (Gb i ltac:(lia) u y); auto.
  Qed.

  Lemma choose_pivot_spec : forall a start size, hi <= Z.of_nat (length a) ->
    lo <= start -> start + size <= hi -> 16 < size ->
    exists a' stop, choose_pivot less lo hi a start size = Ok a' /\ reord start (start + size) a a' /\
      start < stop < start + size /\ ge_at a' stop start.
  Proof.
    intros a start size HL HS HE HZ. unfold choose_pivot. cbv zeta.
    assert (HH : 2 * Z.shiftr size 1 <= size <= 2 * Z.shiftr size 1 + 1).
    { rewrite Z.shiftr_div_pow2 by lia. change (2 ^ 1) with 2.
      pose proof (Z.div_mod size 2 ltac:(lia)). pose proof (Z.mod_pos_bound size 2 ltac:(lia)). lia. }
    set (h := Z.shiftr size 1) in *. clearbody h.
    destruct (Z.ltb_spec 128 size) as [Hbig|Hsm].
    - destruct (sort3_spec a start (start + h) (start + size - 1) HL ltac:(lia) ltac:(lia) ltac:(lia) ltac:(lia) ltac:(lia) ltac:(lia))
        as [b [Eb [_ [_ Rb]]]]. rewrite Eb. cbn [bind].
      assert (R1 : reord start (start + size) a b) by (apply Rb; lia). pose proof (reord_len _ _ _ _ R1).
      destruct (sort3_spec b (start + 1) (start + (h - 1)) (start + size - 2) ltac:(lia) ltac:(lia) ltac:(lia) ltac:(lia) ltac:(lia) ltac:(lia) ltac:(lia))
        as [c [Ec [_ [_ Rc]]]]. rewrite Ec. cbn [bind].
      assert (R2 : reord start (start + size) b c) by (apply Rc; lia). pose proof (reord_len _ _ _ _ R2).
      destruct (sort3_spec c (start + 2) (start + (h + 1)) (start + size - 3) ltac:(lia) ltac:(lia) ltac:(lia) ltac:(lia) ltac:(lia) ltac:(lia) ltac:(lia))
        as [d [Ed [_ [_ Rd]]]]. rewrite Ed. cbn [bind].
      assert (R3 : reord start (start + size) c d) by (apply Rd; lia). pose proof (reord_len _ _ _ _ R3).
      destruct (sort3_spec d (start + (h - 1)) (start + h) (start + (h + 1)) ltac:(lia) ltac:(lia) ltac:(lia) ltac:(lia) ltac:(lia) ltac:(lia) ltac:(lia))
        as [e [Ee [_ [L4 Re]]]]. rewrite Ee. cbn [bind].
      assert (R4 : reord start (start + size) d e) by (apply Re; lia). pose proof (reord_len _ _ _ _ R4).
      destruct (swap_eq lo hi e start (start + h) LO ltac:(lia) ltac:(lia) ltac:(lia)) as [x [y [f [Ex [Ey [S [G R]]]]]]].
      exists f, (start + (h + 1)). split; auto. split; [|split; [lia|]].
      + eapply reord_trans; [exact R1|]. eapply reord_trans; [exact R2|]. eapply reord_trans; [exact R3|].
        eapply reord_trans; [exact R4|]. apply R; lia.
      + intros u v Hu Hv. rewrite G in Hu, Hv.
        destruct (Z.eqb_spec (start + (h + 1)) (start + h)); [lia|]. destruct (Z.eqb_spec (start + (h + 1)) start); [lia|].
        destruct (Z.eqb_spec start (start + h)); [lia|]. rewrite Z.eqb_refl in Hv. inversion Hv; subst v.
        apply (L4 y u); auto.
    - destruct (sort3_spec a (start + h) start (start + size - 1) HL ltac:(lia) ltac:(lia) ltac:(lia) ltac:(lia) ltac:(lia) ltac:(lia))
        as [b [Eb [L1 [L2 Rb]]]].
      exists b, (start + size - 1). split; auto. split; [apply Rb; lia|]. split; [lia|].
      intros u v Hu Hv. apply (L2 v u); auto.
  Qed.

  Variable select : Z -> Z -> outcome bool.
  Variable w : Z -> Prop.
  (* select never fails on sub-ranges and skips only ranges without wanted positions *)
  Variables top_s top_e : Z.
  Hypothesis SEL : forall s n, top_s <= s -> 0 <= n -> s + n <= top_e ->
    exists b, select s n = Ok b /\ (b = false -> forall i, s <= i < s + n -> ~ w i).

  Lemma impl_spec : forall fuel a start size, hi <= Z.of_nat (length a) ->
    lo <= start -> start + size <= hi -> 0 <= size -> top_s <= start -> start + size <= top_e ->
    (Z.to_nat size < fuel)%nat ->
    exists a', sort_ex_impl less lo hi select fuel a start size = Ok a' /\ reord start (start + size) a a' /\
      forall i j, start <= i < j -> j < start + size -> w i \/ w j -> le_at a' i j.
  Proof.
    induction fuel; intros a start size HL HS HE H0 HT1 HT2 HF; [lia|].
    cbn [sort_ex_impl]. destruct (Z.leb_spec size 16) as [Hsm|Hbig].
    - destruct (small_sort_spec a start size HL HS HE H0) as [b [Eb [Rb Sb]]].
      exists b. split; auto.
    - destruct (choose_pivot_spec a start size HL HS HE Hbig) as [b [stop [Eb [Rb [Hst Gb]]]]].
      rewrite Eb. cbn [bind]. pose proof (reord_len _ _ _ _ Rb) as Lb.
      destruct (partition_right_spec b start size stop ltac:(lia) HS HE Hst Gb) as [c [p [Ec [Rc [Hp [LP GP]]]]]].
      rewrite Ec. cbn [bind]. pose proof (reord_len _ _ _ _ Rc) as Lc.
      destruct (SEL start (p - start) ltac:(lia) ltac:(lia) ltac:(lia)) as [sl [Esl Nsl]]. rewrite Esl. cbn [bind].
      assert (LEFT : exists d, (if sl then sort_ex_impl less lo hi select fuel c start (p - start) else Ok c) = Ok d /\
                reord start p c d /\ forall i j, start <= i < j -> j < p -> w i \/ w j -> le_at d i j).
      { destruct sl.
        - destruct (IHfuel c start (p - start) ltac:(lia) HS ltac:(lia) ltac:(lia) HT1 ltac:(lia) ltac:(lia)) as [d [Ed [Rd Sd]]].
          replace (start + (p - start)) with p in * by lia. exists d. auto.
        - exists c. split; auto. split; [apply reord_refl|]. intros i j Hi Hj [W|W]; exfalso.
          + apply (Nsl eq_refl i); auto. lia.
          + apply (Nsl eq_refl j); auto. lia. }
      destruct LEFT as [d [Ed [Rd Sd]]]. rewrite Ed. cbn [bind]. pose proof (reord_len _ _ _ _ Rd) as Ld.
      destruct (SEL (p + 1) (start + size - (p + 1)) ltac:(lia) ltac:(lia) ltac:(lia)) as [sr [Esr Nsr]]. rewrite Esr. cbn [bind].
      assert (RIGHT : exists e, (if sr then sort_ex_impl less lo hi select fuel d (p + 1) (start + size - (p + 1)) else Ok d) = Ok e /\
                reord (p + 1) (start + size) d e /\
                forall i j, p + 1 <= i < j -> j < start + size -> w i \/ w j -> le_at e i j).
      { destruct sr.
        - destruct (IHfuel d (p + 1) (start + size - (p + 1)) ltac:(lia) ltac:(lia) ltac:(lia) ltac:(lia) ltac:(lia) ltac:(lia) ltac:(lia)) as [e [Ee [Re Se]]].
          replace (p + 1 + (start + size - (p + 1))) with (start + size) in * by lia. exists e. auto.
        - exists d. split; auto. split; [apply reord_refl|]. intros i j Hi Hj [W|W]; exfalso.
          + apply (Nsr eq_refl i); auto. lia.
          + apply (Nsr eq_refl j); auto. lia. }
      destruct RIGHT as [e [Ee [Re Se]]]. exists e. split; auto.
      pose proof (reord_len _ _ _ _ Re) as Le.
      split.
      { eapply reord_trans; [exact Rb|]. eapply reord_trans; [exact Rc|].
        eapply reord_trans; [apply (reord_mono start p start (start + size)); [lia|lia|exact Rd]|].
        apply (reord_mono (p + 1) (start + size)); [lia|lia|exact Re]. }
      (* pivot value *)
      destruct (at_ex c p ltac:(lia)) as [pv Hpv].
      assert (Pd : at_ d p = Some pv) by (rewrite (reord_out _ _ _ _ _ Rd); [auto|lia]).
      assert (Pe : at_ e p = Some pv) by (rewrite (reord_out _ _ _ _ _ Re); [auto|lia]).
      assert (LE : forall i x, start <= i < p -> at_ e i = Some x -> less x pv = true).
      { intros i x Hi Hx. rewrite (reord_out _ _ _ _ _ Re) in Hx by lia.
        refine (reord_all _ _ _ _ (fun x => less x pv = true) Rd _ i x Hi Hx).
        intros k u Hk Hu. apply (LP k Hk u pv); auto. }
      assert (GE : forall i x, p < i < start + size -> at_ e i = Some x -> less x pv = false).
      { intros i x Hi Hx.
        refine (reord_all _ _ _ _ (fun x => less x pv = false) Re _ i x _ Hx); [|lia].
        intros k u Hk Hu. rewrite (reord_out _ _ _ _ _ Rd) in Hu by lia. apply (GP k ltac:(lia) u pv); auto. }
      intros i j Hi Hj W.
      assert (D : j < p \/ j = p \/ p < j) by lia. destruct D as [D|[D|D]].
      + (* both left *)
        intros x y Hx Hy. rewrite (reord_out _ _ _ _ _ Re) in Hx by lia. rewrite (reord_out _ _ _ _ _ Re) in Hy by lia. apply (Sd i j Hi D W x y); auto.
      + subst j. intros x y Hx Hy. rewrite Pe in Hy. inversion Hy; subst y. apply asym. apply (LE i); auto; lia.
      + assert (D' : i < p \/ i = p \/ p < i) by lia. destruct D' as [D'|[D'|D']].
        * intros x y Hx Hy. apply asym. apply (lt_le_trans x pv y); [apply (LE i); auto; lia|apply (GE j); auto; lia].
        * subst i. intros x y Hx Hy. rewrite Pe in Hx. inversion Hx; subst x. apply (GE j); auto; lia.
        * apply Se; auto. lia.
  Qed.
  End W.
End P.

(* ---- results in terms of lists ---- *)
Lemma reord_split : forall {A} (p m s a' : list A),
  reord (Z.of_nat (length p)) (Z.of_nat (length p) + Z.of_nat (length m)) (p ++ m ++ s) a' ->
  exists m', a' = p ++ m' ++ s /\ Permutation m m'.
Proof.
  intros A p m s a' [L [P [O _]]].
  exists (firstn (length m) (skipn (length p) a')).
  assert (E : a' = p ++ firstn (length m) (skipn (length p) a') ++ s).
  { rewrite !app_length in L.
    rewrite <- (firstn_skipn (length p) a') at 1. f_equal.
    - apply (nth_ext_err _ _). intro n.
      destruct (Nat.lt_ge_cases n (length p)) as [H|H].
      + rewrite nth_error_firstn_lt by auto. rewrite <- at_nat, O by lia.
        rewrite at_nat, nth_error_app1 by auto. reflexivity.
      + transitivity (@None A); [|symmetry]; apply nth_error_None; [rewrite firstn_length|]; lia.
    - rewrite <- (firstn_skipn (length m) (skipn (length p) a')) at 1. f_equal.
      rewrite skipn_skipn. apply nth_ext_err. intro n.
      rewrite nth_error_skipn. rewrite <- at_nat, O by lia. rewrite at_nat.
      rewrite nth_error_app2 by lia. rewrite nth_error_app2 by lia. f_equal. lia. }
  split; auto. rewrite E in P at 1.
  apply Permutation_app_inv_l in P. apply Permutation_app_inv_r in P. exact P.
Qed.

Section Top.
  Context {A : Type}.
  Variable less : A -> A -> bool.
  Hypothesis SW : strict_weak less.

  Lemma sort_ex_sorts : forall p m s,
    exists m', sort_ex less (p ++ m ++ s) (Z.of_nat (length p)) (Z.of_nat (length m)) (fun _ _ => Ok true)
               = Ok (p ++ m' ++ s) /\ Permutation m m' /\ sorted less m'.
  Proof.
    intros p m s. unfold sort_ex.
    set (st := Z.of_nat (length p)). set (n := Z.of_nat (length m)).
    destruct (impl_spec less SW st (st + n) ltac:(lia) (fun _ _ => Ok true) (fun _ => True) st (st + n)
      ltac:(intros; exists true; split; [reflexivity|discriminate])
      (S (Z.to_nat n)) (p ++ m ++ s) st n) as [a' [E [R S]]]; try lia.
    { rewrite !app_length. lia. }
    destruct (reord_split p m s a' R) as [m' [-> P]].
    exists m'. split; auto. split; auto.
    intros i j x y Hij Hx Hy.
    assert (Hj : (j < length m')%nat) by (apply nth_error_Some; congruence).
    pose proof (Permutation_length P) as PL.
    apply (S (st + Z.of_nat i) (st + Z.of_nat j) ltac:(lia) ltac:(lia) ltac:(auto) x y).
    - unfold st. rewrite <- Nat2Z.inj_add, at_nat, nth_error_app2 by lia.
      replace (length p + i - length p)%nat with i by lia. rewrite nth_error_app1 by lia. auto.
    - unfold st. rewrite <- Nat2Z.inj_add, at_nat, nth_error_app2 by lia.
      replace (length p + j - length p)%nat with j by lia. rewrite nth_error_app1 by lia. auto.
  Qed.

  Lemma sort_sorts : forall l, exists l', sort less l = Ok l' /\ Permutation l l' /\ sorted less l'.
  Proof.
    intro l. destruct (sort_ex_sorts [] l []) as [l' [E [P S]]]. cbn [app length] in E.
    rewrite !app_nil_r in E. exists l'. auto.
  Qed.

  (* generic consequence of the selection engine *)
  Lemma sort_ex_window : forall l select (w : Z -> Prop),
    (forall s n, 0 <= s -> 0 <= n -> s + n <= Z.of_nat (length l) ->
      exists b, select s n = Ok b /\ (b = false -> forall i, s <= i < s + n -> ~ w i)) ->
    exists l', sort_ex less l 0 (Z.of_nat (length l)) select = Ok l' /\ Permutation l l' /\
      forall i j x y, (i < j)%nat -> w (Z.of_nat i) \/ w (Z.of_nat j) ->
        nth_error l' i = Some x -> nth_error l' j = Some y -> less y x = false.
  Proof.
    intros l select w SEL. unfold sort_ex.
    destruct (impl_spec less SW 0 (0 + Z.of_nat (length l)) ltac:(lia) select w 0 (Z.of_nat (length l))
      SEL (S (Z.to_nat (Z.of_nat (length l)))) l 0 (Z.of_nat (length l))) as [a' [E [R S]]]; try lia.
    exists a'. split; auto. split; [apply R|].
    intros i j x y Hij W Hx Hy. pose proof (reord_len _ _ _ _ R) as L.
    assert (Hj : (j < length a')%nat) by (apply nth_error_Some; congruence).
    apply (S (Z.of_nat i) (Z.of_nat j) ltac:(lia) ltac:(lia) W x y); rewrite at_nat; auto.
  Qed.

  Lemma quickselect_spec : forall l k, (k < length l)%nat -> Z.of_nat (length l) < 2 ^ 63 ->
    exists l', quickselect less l (Z.of_nat k) = Ok l' /\ Permutation l l' /\ in_place less l' k.
  Proof.
    intros l k Hk HB. unfold quickselect, to_i64. destruct (Z.ltb_spec (Z.of_nat k) (2 ^ 63)); [|lia].
    destruct (sort_ex_window l (index_in_range (Z.of_nat k)) (fun i => i = Z.of_nat k)) as [l' [E [P S]]].
    { intros s n H1 H2 H3. eexists; split; [reflexivity|]. intros HF i Hi ->.
      destruct (Z.leb_spec s (Z.of_nat k)); [|lia]. destruct (Z.ltb_spec (Z.of_nat k) (s + n)); [discriminate|lia]. }
    exists l'. split; auto. split; auto. intros x Hx. split.
    - intros i y Hi Hy. apply (S i k y x); auto.
    - intros j y Hj Hy. apply (S k j x y); auto.
  Qed.

  Lemma quickselect_range_spec : forall l idx count, 0 <= idx -> 0 <= count -> idx + count < 2 ^ 63 ->
    exists l', quickselect_range less l idx count = Ok l' /\ Permutation l l' /\
      forall k, idx <= Z.of_nat k < idx + count -> in_place less l' k.
  Proof.
    intros l idx count H1 H2 H3. unfold quickselect_range, to_i64.
    destruct (Z.ltb_spec idx (2 ^ 63)); [|lia]. destruct (Z.ltb_spec count (2 ^ 63)); [|lia].
    destruct (sort_ex_window l (overlaps_range idx count) (fun i => idx <= i < idx + count)) as [l' [E [P S]]].
    { intros s n G1 G2 G3. unfold overlaps_range, i64.
      destruct (Z.leb_spec (- 2 ^ 63) (idx + count)); [|lia]. destruct (Z.ltb_spec (idx + count) (2 ^ 63)); [|lia].
      cbn [andb bind]. eexists; split; [reflexivity|]. intros HF i Hi Hw.
      destruct (Z.leb_spec s (idx + count)); [|lia]. destruct (Z.leb_spec idx (s + n)); [discriminate|lia]. }
    exists l'. split; auto. split; auto. intros k Hk x Hx. split.
    - intros i y Hi Hy. apply (S i k y x); auto.
    - intros j y Hj Hy. apply (S k j x y); auto.
  Qed.

  (* in_place determines the element up to equivalence: count elements *)
  Definition count_if (P : A -> bool) (l : list A) : nat := length (filter P l).

  Lemma count_perm : forall P l l', Permutation l l' -> count_if P l = count_if P l'.
  Proof.
    intros P l l' H. unfold count_if. induction H; cbn [filter]; auto.
    - destruct (P x); cbn [length]; auto.
    - destruct (P x), (P y); reflexivity.
    - congruence.
  Qed.

  Lemma count_le : forall P l, (count_if P l <= length l)%nat.
  Proof.
    intros P l. unfold count_if. induction l; cbn [filter length]; [lia|].
    destruct (P a); cbn [length]; lia.
  Qed.

  Lemma count_app : forall P l l', count_if P (l ++ l') = (count_if P l + count_if P l')%nat.
  Proof. intros. unfold count_if. rewrite filter_app, app_length. reflexivity. Qed.

  Lemma count_imp : forall P Q l, (forall x, P x = true -> Q x = true) -> (count_if P l <= count_if Q l)%nat.
  Proof.
    intros P Q l H. unfold count_if. induction l; cbn [filter]; auto.
    destruct (P a) eqn:E.
    - rewrite (H _ E). cbn [length]. lia.
    - destruct (Q a); cbn [length]; lia.
  Qed.

  Lemma count_none : forall P l, (forall x, In x l -> P x = false) -> count_if P l = O.
  Proof.
    intros P l H. unfold count_if. induction l; cbn [filter]; auto.
    rewrite (H a) by (left; auto). apply IHl. intros x Hx. apply H. right. auto.
  Qed.
  Lemma count_all : forall P l, (forall x, In x l -> P x = true) -> count_if P l = length l.
  Proof.
    intros P l H. unfold count_if. induction l; cbn [filter length]; auto.
    rewrite (H a) by (left; auto). cbn [length]. f_equal. apply IHl. intros x Hx. apply H. right. auto.
  Qed.

  Lemma in_place_counts : forall l k x, in_place less l k -> nth_error l k = Some x ->
    (count_if (fun y => less y x) l <= k < count_if (fun y => negb (less x y)) l)%nat.
  Proof.
    intros l k x H Hx. destruct (H x Hx) as [B F].
    destruct (nth_error_split l k Hx) as [l1 [l2 [-> LK]]].
    assert (B' : forall y, In y l1 -> less x y = false).
    { intros y Hy. apply In_nth_error in Hy. destruct Hy as [n Hn]. apply (B n).
      - rewrite <- LK. apply nth_error_Some. congruence.
      - rewrite nth_error_app1; auto. apply nth_error_Some. congruence. }
    assert (F' : forall y, In y l2 -> less y x = false).
    { intros y Hy. apply In_nth_error in Hy. destruct Hy as [n Hn]. apply (F (k + 1 + n)%nat); [lia|].
      rewrite nth_error_app2 by lia. replace (k + 1 + n - length l1)%nat with (S n) by lia. auto. }
    change (x :: l2) with ([x] ++ l2). rewrite !count_app.
    rewrite (count_none (fun y => less y x) l2) by auto.
    rewrite (count_all (fun y => negb (less x y)) l1) by (intros y Hy; rewrite B'; auto).
    pose proof (count_le (fun y => less y x) l1).
    assert (E1 : count_if (fun y => less y x) [x] = O).
    { apply count_none. intros y [<-|[]]. apply (sw_irrefl _ SW). }
    assert (E2 : count_if (fun y => negb (less x y)) [x] = 1%nat).
    { apply (count_all _ [x]). intros y [<-|[]]. rewrite (sw_irrefl _ SW). reflexivity. }
    lia.
  Qed.

  Lemma counts_unique : forall l k x y,
    (count_if (fun z => less z x) l <= k < count_if (fun z => negb (less x z)) l)%nat ->
    (count_if (fun z => less z y) l <= k < count_if (fun z => negb (less y z)) l)%nat ->
    less x y = false.
  Proof.
    intros l k x y H1 H2. destruct (less x y) eqn:E; auto. exfalso.
    assert (count_if (fun z => negb (less x z)) l <= count_if (fun z => less z y) l)%nat; [|lia].
    apply count_imp. intros z Hz. apply negb_true_iff in Hz. apply (le_lt_trans less SW z x y); auto.
  Qed.

  (* what sits in place at k is what every fully sorted arrangement has there, up to equivalence *)
  Lemma in_place_rank : forall l l' s k x y, Permutation l l' -> in_place less l' k ->
    Permutation l s -> sorted less s -> nth_error l' k = Some x -> nth_error s k = Some y -> equiv less x y.
  Proof.
    intros l l' s k x y P1 I P2 S Hx Hy.
    assert (I2 : in_place less s k).
    { intros z Hz. split; intros i u Hi Hu; [apply (S i k u z)|apply (S k i z u)]; auto. }
    pose proof (in_place_counts _ _ _ I Hx) as C1. pose proof (in_place_counts _ _ _ I2 Hy) as C2.
    rewrite <- (count_perm _ _ _ P1), <- (count_perm _ _ _ P1) in C1.
    rewrite <- (count_perm _ _ _ P2), <- (count_perm _ _ _ P2) in C2.
    split; eapply counts_unique; eauto.
  Qed.

  (* ---- is_sorted ---- *)
  Lemma is_sorted_loop_spec : forall fuel l i, (length l < fuel + Z.to_nat i)%nat -> 1 <= i ->
    (0 < fuel)%nat ->
    exists b, is_sorted_loop less 0 (Z.of_nat (length l)) fuel l i (Z.of_nat (length l)) = Ok b /\
      (b = true <-> forall j x y, i <= j -> at_ l (j - 1) = Some x -> at_ l j = Some y -> less y x = false).
  Proof.
    induction fuel; intros l i HF Hi H0; [lia|]. cbn [is_sorted_loop].
    destruct (Z.ltb_spec i (Z.of_nat (length l))) as [Hlt|Hge].
    - destruct (cmp_eq less 0 (Z.of_nat (length l)) ltac:(lia) l i (i - 1) ltac:(lia) ltac:(lia) ltac:(lia))
        as [y [x [Ey [Ex C]]]]. rewrite C. cbn [bind]. destruct (less y x) eqn:L.
      + exists false. split; auto. split; [discriminate|]. intro H. rewrite (H i x y) in L; auto; lia.
      + destruct (IHfuel l (i + 1) ltac:(lia) ltac:(lia) ltac:(lia)) as [b [E B]]. exists b. split; auto.
        rewrite B. split; intros H j u v Hj Hu Hv.
        * destruct (Z.eq_dec j i) as [->|N]; [congruence|]. apply (H j); auto. lia.
        * apply (H j); auto. lia.
    - exists true. split; auto. split; auto. intros _ j x y Hj Hx Hy. apply at_lt in Hy. lia.
  Qed.

  Lemma is_sorted_spec : forall l, exists b,
    is_sorted_ex less l 0 (Z.of_nat (length l)) = Ok b /\ (b = true <-> sorted less l).
  Proof.
    intro l. unfold is_sorted_ex. cbn [Z.add].
    destruct (is_sorted_loop_spec (S (length l)) l 1 ltac:(lia) ltac:(lia) ltac:(lia)) as [b [E B]].
    exists b. split; auto. rewrite B. split.
    - intros H. 
      assert (G : forall d i x y, nth_error l i = Some x -> nth_error l (i + d) = Some y -> less y x = false).
      { induction d; intros i x y Hx Hy.
        - rewrite Nat.add_0_r in Hy. rewrite Hx in Hy. inversion Hy; subst. apply (sw_irrefl _ SW).
        - assert (Hl : (i + S d < length l)%nat) by (apply nth_error_Some; congruence).
          destruct (nth_error l (i + d)) as [z|] eqn:Ez; [|apply nth_error_None in Ez; lia].
          apply (le_trans less SW x z y); [apply (IHd i); auto|].
          apply (H (Z.of_nat (i + S d)) z y); [lia| |rewrite at_nat; auto].
          replace (Z.of_nat (i + S d) - 1) with (Z.of_nat (i + d)) by lia. rewrite at_nat. auto. }
      intros i j x y Hij Hx Hy. apply (G (j - i)%nat i); auto. replace (i + (j - i))%nat with j by lia. auto.
    - intros H j x y Hj Hx Hy. pose proof (at_lt _ _ _ Hy).
      apply (H (Z.to_nat (j - 1)) (Z.to_nat j) x y); [lia| |].
      + rewrite <- at_nat, Z2Nat.id by lia. auto.
      + rewrite <- at_nat, Z2Nat.id by lia. auto.
  Qed.

  Lemma is_strictly_sorted_loop_spec : forall fuel l i, (length l < fuel + Z.to_nat i)%nat -> 1 <= i ->
    (0 < fuel)%nat ->
    exists b, is_strictly_sorted_loop less 0 (Z.of_nat (length l)) fuel l i (Z.of_nat (length l)) = Ok b /\
      (b = true <-> forall j x y, i <= j -> at_ l (j - 1) = Some x -> at_ l j = Some y -> less x y = true).
  Proof.
    induction fuel; intros l i HF Hi H0; [lia|]. cbn [is_strictly_sorted_loop].
    destruct (Z.ltb_spec i (Z.of_nat (length l))) as [Hlt|Hge].
    - destruct (cmp_eq less 0 (Z.of_nat (length l)) ltac:(lia) l (i - 1) i ltac:(lia) ltac:(lia) ltac:(lia))
        as [x [y [Ex [Ey C]]]]. rewrite C. cbn [bind]. destruct (less x y) eqn:L.
      + destruct (IHfuel l (i + 1) ltac:(lia) ltac:(lia) ltac:(lia)) as [b [E B]]. exists b. split; auto.
        rewrite B. split; intros H j u v Hj Hu Hv.
        * destruct (Z.eq_dec j i) as [->|N]; [congruence|]. apply (H j); auto. lia.
        * apply (H j); auto. lia.
      + exists false. split; auto. split; [discriminate|]. intro H. rewrite (H i x y) in L; auto; lia.
    - exists true. split; auto. split; auto. intros _ j x y Hj Hx Hy. apply at_lt in Hy. lia.
  Qed.

  Lemma is_strictly_sorted_spec : forall l, exists b,
    is_strictly_sorted_ex less l 0 (Z.of_nat (length l)) = Ok b /\ (b = true <-> strictly_sorted less l).
  Proof.
    intro l. unfold is_strictly_sorted_ex. cbn [Z.add].
    destruct (is_strictly_sorted_loop_spec (S (length l)) l 1 ltac:(lia) ltac:(lia) ltac:(lia)) as [b [E B]].
    exists b. split; auto. rewrite B. split.
    - intros H. 
      assert (G : forall d i x y, nth_error l i = Some x -> nth_error l (i + S d) = Some y -> less x y = true).
      { induction d; intros i x y Hx Hy.
        - apply (H (Z.of_nat (i + 1)) x y); [lia| |rewrite at_nat; auto].
          replace (Z.of_nat (i + 1) - 1) with (Z.of_nat i) by lia. rewrite at_nat. auto.
        - assert (Hl : (i + S (S d) < length l)%nat) by (apply nth_error_Some; congruence).
          destruct (nth_error l (i + S d)) as [z|] eqn:Ez; [|apply nth_error_None in Ez; lia].
          apply (sw_trans _ SW x z y); [apply (IHd i); auto|].
          apply (H (Z.of_nat (i + S (S d))) z y); [lia| |rewrite at_nat; auto].
          replace (Z.of_nat (i + S (S d)) - 1) with (Z.of_nat (i + S d)) by lia. rewrite at_nat. auto. }
      intros i j x y Hij Hx Hy. apply (G (j - i - 1)%nat i); auto. replace (i + S (j - i - 1))%nat with j by lia. auto.
    - intros H j x y Hj Hx Hy. pose proof (at_lt _ _ _ Hy).
      apply (H (Z.to_nat (j - 1)) (Z.to_nat j) x y); [lia| |].
      + rewrite <- at_nat, Z2Nat.id by lia. auto.
      + rewrite <- at_nat, Z2Nat.id by lia. auto.
  Qed.
End Top.

(* ---- partition ---- *)
Section Part.
  Context {A : Type}.
  Variable r : A -> bool.
  Variables s e : Z.
  Hypothesis S0 : 0 <= s.

  Lemma skip_left_spec : forall fuel a first, e <= Z.of_nat (length a) -> s <= first -> (Z.to_nat (e - first) < fuel)%nat ->
    exists f, skip_left r s e fuel a first e = Ok f /\ first <= f /\ f <= Z.max first e /\
      (forall i x, first <= i < f -> at_ a i = Some x -> r x = false) /\
      (f < e -> forall x, at_ a f = Some x -> r x = true).
  Proof.
    induction fuel; intros a first HL HS HF; [lia|]. cbn [skip_left].
    destruct (Z.ltb_spec first e) as [Hlt|Hge].
    - destruct (get_eq s e a first S0 HL ltac:(lia)) as [x [Ex G]]. rewrite G. cbn [bind].
      destruct (r x) eqn:R.
      + exists first. split; auto. split; [lia|]. split; [lia|]. split; [intros; lia|]. intros. congruence.
      + destruct (IHfuel a (first + 1) HL ltac:(lia) ltac:(lia)) as [f [E [F1 [F2 [F3 F4]]]]].
        exists f. split; auto. split; [lia|]. split; [lia|]. split; auto.
        intros i y Hi Hy. destruct (Z.eq_dec i first) as [->|N]; [congruence|]. apply (F3 i); auto. lia.
    - exists first. split; auto. split; [lia|]. split; [lia|]. split; intros; lia.
  Qed.

  Lemma skip_right_spec : forall fuel a last, e <= Z.of_nat (length a) -> last < e -> (Z.to_nat (last - s) < fuel)%nat ->
    exists f, skip_right r s e fuel a s last = Ok f /\ f <= last /\ Z.min last s <= f /\
      (forall i x, f < i <= last -> at_ a i = Some x -> r x = true) /\
      (s < f -> forall x, at_ a f = Some x -> r x = false).
  Proof.
    induction fuel; intros a last HL HS HF; [lia|]. cbn [skip_right].
    destruct (Z.ltb_spec s last) as [Hlt|Hge].
    - destruct (get_eq s e a last S0 HL ltac:(lia)) as [x [Ex G]]. rewrite G. cbn [bind].
      destruct (r x) eqn:R.
      + destruct (IHfuel a (last - 1) HL ltac:(lia) ltac:(lia)) as [f [E [F1 [F2 [F3 F4]]]]].
        exists f. split; auto. split; [lia|]. split; [lia|]. split; auto.
        intros i y Hi Hy. destruct (Z.eq_dec i last) as [->|N]; [congruence|]. apply (F3 i); auto. lia.
      + exists last. split; auto. split; [lia|]. split; [lia|]. split; [intros; lia|]. intros. congruence.
    - exists last. split; auto. split; [lia|]. split; [lia|]. split; intros; lia.
  Qed.

  Lemma partition_loop_spec : forall fuel a first last, e <= Z.of_nat (length a) ->
    s <= first -> last < e -> first <= last + 2 -> (first <= e) -> s <= last + 1 ->
    (Z.to_nat (last - first + 1) < fuel)%nat ->
    (forall i x, s <= i < first -> at_ a i = Some x -> r x = false) ->
    (forall i x, last < i < e -> at_ a i = Some x -> r x = true) ->
    (first = last + 2 -> False) ->
    exists a' f, partition_loop r s e fuel a s e first last = Ok (a', f) /\ reord s e a a' /\ s <= f <= e /\
      (forall i x, s <= i < f -> at_ a' i = Some x -> r x = false) /\
      (forall i x, f <= i < e -> at_ a' i = Some x -> r x = true).
  Proof.
    induction fuel; intros a first last HL H1 H2 H3 H3' H4 HF BL BR NE; [lia|].
    cbn [partition_loop].
    destruct (skip_left_spec (S (length a)) a first HL H1 ltac:(lia)) as [f [Ef [F1 [F2 [F3 F4]]]]].
    rewrite Ef. cbn [bind].
    destruct (skip_right_spec (S (length a)) a last HL H2 ltac:(lia)) as [g [Eg [G1 [G2 [G3 G4]]]]].
    rewrite Eg. cbn [bind].
    assert (BL' : forall i x, s <= i < f -> at_ a i = Some x -> r x = false).
    { intros i x Hi Hx. destruct (Z.lt_ge_cases i first); [apply (BL i); auto; lia|apply (F3 i); auto; lia]. }
    assert (BR' : forall i x, g < i < e -> at_ a i = Some x -> r x = true).
    { intros i x Hi Hx. destruct (Z.lt_ge_cases last i); [apply (BR i); auto; lia|apply (G3 i); auto; lia]. }
    destruct (Z.leb_spec g f) as [Hle|Hgt].
    - exists a, f. split; auto. split; [apply reord_refl|]. split; [lia|]. split; auto.
      intros i x Hi Hx. destruct (Z.eq_dec i f) as [->|N]; [apply F4; auto; lia|]. apply (BR' i); auto. lia.
    - destruct (swap_eq s e a f g S0 HL ltac:(lia) ltac:(lia)) as [x [y [b [Ex [Ey [Sw [G R]]]]]]].
      rewrite Sw. cbn [bind].
      assert (R1 : reord s e a b) by (apply R; lia). pose proof (reord_len _ _ _ _ R1) as LL.
      destruct (IHfuel b (f + 1) (g - 1) ltac:(lia) ltac:(lia) ltac:(lia) ltac:(lia) ltac:(lia) ltac:(lia) ltac:(lia)) as [c [k [Ec [Rc K]]]].
      + intros i u Hi Hu. rewrite G in Hu. destruct (Z.eqb_spec i g); [lia|]. destruct (Z.eqb_spec i f).
        * inversion Hu; subst u. apply G4; auto. lia.
        * apply (BL' i); auto. lia.
      + intros i u Hi Hu. rewrite G in Hu. destruct (Z.eqb_spec i g).
        * inversion Hu; subst u. apply F4; auto. lia.
        * destruct (Z.eqb_spec i f); [lia|]. apply (BR' i); auto. lia.
      + lia.
      + exists c, k. split; auto. split; [eapply reord_trans; eauto|auto].
  Qed.
End Part.

Lemma partition_ex_spec : forall {A} (r : A -> bool) p m q,
  exists m' f, partition_ex r (p ++ m ++ q) (Z.of_nat (length p)) (Z.of_nat (length m))
               = Ok (p ++ m' ++ q, Z.of_nat (length p + f)) /\
    Permutation m m' /\ (f <= length m')%nat /\
    (forall x, In x (firstn f m') -> r x = false) /\ (forall x, In x (skipn f m') -> r x = true).
Proof.
  intros A r p m q. unfold partition_ex. set (s := Z.of_nat (length p)). set (n := Z.of_nat (length m)).
  destruct (partition_loop_spec r s (s + n) ltac:(lia) (S (length (p ++ m ++ q))) (p ++ m ++ q) s (s + n - 1))
    as [a' [f [E [R [F [FL FR]]]]]]; try lia.
  { rewrite !app_length. lia. }
  { rewrite !app_length. lia. }
  destruct (reord_split p m q a' R) as [m' [-> P]].
  pose proof (Permutation_length P) as PL.
  exists m', (Z.to_nat (f - s)). split; [rewrite E; do 2 f_equal; lia|].
  split; auto. split; [lia|].
  assert (AT : forall i, (i < length m')%nat -> at_ (p ++ m' ++ q) (s + Z.of_nat i) = nth_error m' i).
  { intros i Hi. unfold s. rewrite <- Nat2Z.inj_add, at_nat, nth_error_app2 by lia.
    replace (length p + i - length p)%nat with i by lia. apply nth_error_app1. auto. }
  split.
  - intros x Hx. apply In_nth_error in Hx. destruct Hx as [i Hi].
    assert (Li : (i < length (firstn (Z.to_nat (f - s)) m'))%nat) by (apply nth_error_Some; congruence).
    rewrite firstn_length in Li. rewrite nth_error_firstn_lt in Hi by lia.
    apply (FL (s + Z.of_nat i)); [lia|]. rewrite AT by lia. auto.
  - intros x Hx. apply In_nth_error in Hx. destruct Hx as [i Hi].
    assert (Li : (i < length (skipn (Z.to_nat (f - s)) m'))%nat) by (apply nth_error_Some; congruence).
    rewrite skipn_length in Li. rewrite nth_error_skipn in Hi.
    apply (FR (s + Z.of_nat (Z.to_nat (f - s) + i))); [lia|]. rewrite AT by lia. auto.
Qed.

Lemma filter_none : forall {A} (r : A -> bool) l, (forall x, In x l -> r x = false) -> filter r l = [].
Proof.
  intros A r l H. induction l; cbn [filter]; auto. rewrite (H a) by (left; auto). apply IHl. intros. apply H. right; auto.
Qed.

Lemma partition_by_spec : forall {A} (r : A -> bool) l,
  exists l' f, partition_by r l = Ok (l', Z.of_nat f) /\ Permutation l l' /\
    f = length (filter (fun x => negb (r x)) l) /\
    (forall x, In x (firstn f l') -> r x = false) /\ (forall x, In x (skipn f l') -> r x = true).
Proof.
  intros A r l. destruct (partition_ex_spec r [] l []) as [l' [f [E [P [F [FL FR]]]]]].
  cbn [app length plus] in E. rewrite !app_nil_r in E.
  exists l', f. split; [exact E|]. split; auto. split; auto.
  fold (count_if (fun x => negb (r x)) l). rewrite (count_perm _ _ _ P).
  rewrite <- (firstn_skipn f l'). rewrite count_app.
  rewrite (count_all _ (firstn f l')), (count_none _ (skipn f l')).
  - rewrite firstn_length. lia.
  - intros x Hx. rewrite FR; auto.
  - intros x Hx. rewrite FL; auto.
Qed.

Lemma strict_weak_key : forall {A K} (key : A -> K) (less : K -> K -> bool), strict_weak less ->
  strict_weak (fun x y => less (key x) (key y)).
Proof.
  intros A K key less [I T N]. constructor; intros; eauto.
Qed.

Lemma sort_by_sorts : forall A K (key : A -> K) (less : K -> K -> bool), strict_weak less -> forall l,
  exists l', sort (fun x y => less (key x) (key y)) l = Ok l' /\ Permutation l l' /\ sorted less (map key l').
Proof.
  intros A K key less SW l. destruct (sort_sorts _ (strict_weak_key key less SW) l) as [l' [E [P S]]].
  exists l'. split; auto. split; auto. intros i j x y Hij Hx Hy.
  rewrite nth_error_map in Hx, Hy.
  destruct (nth_error l' i) as [u|] eqn:Eu; [|discriminate]. destruct (nth_error l' j) as [v|] eqn:Ev; [|discriminate].
  inversion Hx; inversion Hy; subst. apply (S i j u v); auto.
Qed.

(* Proofs about the range algorithms. *)
From Coq Require Import Arith List Bool Lia.
From Verif Require Import Base AlgoModel AlgoSpec.
Import ListNotations.

Lemma nth_ext_error {A} : forall (a b : list A), (forall i, nth_error a i = nth_error b i) -> a = b.
Proof.
  induction a as [|x a IH]; intros [|y b] E; [reflexivity|specialize (E 0); discriminate|specialize (E 0); discriminate|].
  pose proof (E 0) as E0. cbn in E0. injection E0 as ->. f_equal. apply IH. intros i. apply (E (S i)).
Qed.
Lemma nth_firstn {A} : forall n (l : list A) i, nth_error (firstn n l) i = if i <? n then nth_error l i else None.
Proof.
  induction n as [|n IH]; intros l i; [cbn; destruct i; reflexivity|]. destruct l as [|x l].
  - cbn [firstn]. destruct (i <? S n); destruct i; reflexivity.
  - cbn [firstn]. destruct i as [|i]; [reflexivity|]. cbn [nth_error]. rewrite IH. reflexivity.
Qed.
Lemma nth_skipn {A} : forall n (l : list A) i, nth_error (skipn n l) i = nth_error l (n + i).
Proof. induction n as [|n IH]; intros [|x l] i; cbn; try reflexivity; [destruct i; reflexivity|apply IH]. Qed.
Lemma nth_replaced {A} (m l : list A) p i : p + length l <= length m ->
  nth_error (replaced m p l) i = if (p <=? i) && (i <? p + length l) then nth_error l (i - p) else nth_error m i.
Proof.
  intros L. unfold replaced. assert (length (firstn p m) = p) as Lp by (rewrite firstn_length; lia).
  destruct (Nat.leb_spec p i) as [H|H]; cbn [andb].
  - rewrite nth_error_app2, Lp by lia. destruct (Nat.ltb_spec i (p + length l)).
    + apply nth_error_app1. lia.
    + rewrite nth_error_app2 by lia. rewrite nth_skipn. f_equal. lia.
  - rewrite nth_error_app1, nth_firstn by lia. destruct (Nat.ltb_spec i p); [reflexivity|lia].
Qed.

Section Algo.
  Context {A : Type}.
  Implicit Types m : list A.

  Lemma valid_at p e : is_valid (mkc (Some p) (Some e)) = negb (p =? e).
  Proof. reflexivity. Qed.
  Lemma copy_step fuel m from to : copy_loop (S fuel) m from to =
    if is_valid from
    then
      let! _ := contract (is_valid to) in
      let! p := get from in let! x := aget m p in
      let! q := get to in let! m := aset m q x in
      let! to := advance to in let! from := advance from in
      copy_loop fuel m from to
    else Ok m.
  Proof. reflexivity. Qed.
  Lemma fill_step fuel m c v : fill_loop (S fuel) m c v =
    if is_valid c
    then
      let! q := get c in
      let! x := match v with inl p => aget m p | inr x => Ok x end in
      let! m := aset m q x in
      let! c := advance c in
      fill_loop fuel m c v
    else Ok m.
  Proof. reflexivity. Qed.
  (* the loop in terms of addresses *)
  Lemma copy_loop_ok n : forall m f t k, f + n <= length m -> t + n <= length m ->
    (t <= f \/ f + n <= t) ->
    copy_loop (S n) m (mkc (Some f) (Some (f + n))) (mkc (Some t) (Some (t + n + k))) = Ok (replaced m t (firstn n (skipn f m))).
  Proof.
    induction n as [|n IH]; intros m f t k Lf Lt O; rewrite copy_step; rewrite valid_at.
    - rewrite Nat.add_0_r, Nat.eqb_refl. cbn. f_equal. unfold replaced. cbn. rewrite Nat.add_0_r. symmetry. apply firstn_skipn.
    - destruct (Nat.eqb_spec f (f + S n)); [lia|]. cbn [negb]. rewrite valid_at. destruct (Nat.eqb_spec t (t + S n + k)); [lia|]. cbn [negb contract bind].
      unfold get. rewrite !valid_at. destruct (Nat.eqb_spec f (f + S n)); [lia|]. destruct (Nat.eqb_spec t (t + S n + k)); [lia|]. cbn [ccurr negb contract bind].
      destruct (aget_lt m f) as [x E]; [lia|]. rewrite E. cbn [bind]. apply aget_Ok in E. rewrite aset_Ok by lia. cbn [bind].
      unfold advance. rewrite !valid_at. destruct (Nat.eqb_spec f (f + S n)); [lia|]. destruct (Nat.eqb_spec t (t + S n + k)); [lia|]. cbn [ccurr cend negb contract bind].
      replace (f + S n) with (S f + n) by lia. replace (t + S n + k) with (S t + n + k) by lia.
      rewrite IH by (rewrite ?lset_length; lia). f_equal. apply nth_ext_error. intros i.
      assert (forall (m : list A) f n, f + n <= length m -> length (firstn n (skipn f m)) = n) as Ln by (intros; rewrite firstn_length, skipn_length; lia).
      rewrite !nth_replaced by (rewrite ?Ln, ?lset_length by (rewrite ?lset_length; lia); lia).
      rewrite !Ln by (rewrite ?lset_length; lia).
      destruct (Nat.leb_spec (S t) i), (Nat.ltb_spec i (S t + n)), (Nat.leb_spec t i), (Nat.ltb_spec i (t + S n)); cbn [andb]; try lia.
      + rewrite !nth_firstn, !nth_skipn. destruct (Nat.ltb_spec (i - S t) n), (Nat.ltb_spec (i - t) (S n)); try lia.
        rewrite lset_nth_neq by lia. f_equal. lia.
      + rewrite lset_nth_neq by lia. reflexivity.
      + replace i with t by lia. rewrite lset_nth_eq by lia. rewrite Nat.sub_diag, nth_firstn, nth_skipn, Nat.add_0_r. cbn. symmetry. exact E.
      + apply lset_nth_neq. lia.
  Qed.
  Lemma copy_loop_short k : forall n m f t, f + n <= length m -> t + k <= length m -> k < n ->
    copy_loop (S n) m (mkc (Some f) (Some (f + n))) (mkc (Some t) (Some (t + k))) = Contract.
  Proof.
    induction k as [|k IH]; intros n m f t Lf Lt Lk; (destruct n as [|n]; [lia|]); rewrite copy_step; rewrite !valid_at;
      (destruct (Nat.eqb_spec f (f + S n)); [lia|]); cbn [negb].
    - rewrite Nat.add_0_r, Nat.eqb_refl. reflexivity.
    - destruct (Nat.eqb_spec t (t + S k)); [lia|]. cbn [negb contract bind].
      unfold get. rewrite !valid_at. destruct (Nat.eqb_spec f (f + S n)); [lia|]. destruct (Nat.eqb_spec t (t + S k)); [lia|]. cbn [ccurr negb contract bind].
      destruct (aget_lt m f) as [x E]; [lia|]. rewrite E. cbn [bind]. rewrite aset_Ok by lia. cbn [bind].
      unfold advance. rewrite !valid_at. destruct (Nat.eqb_spec f (f + S n)); [lia|]. destruct (Nat.eqb_spec t (t + S k)); [lia|]. cbn [ccurr cend negb contract bind].
      replace (f + S n) with (S f + n) by lia. replace (t + S k) with (S t + k) by lia. apply IH; rewrite ?lset_length; lia.
  Qed.
  Lemma copy_ok m from to : in_array (length m) from -> in_array (length m) to ->
    (rsize to < rsize from -> copy m from to = Contract) /\
    (rsize from <= rsize to -> no_overrun from to -> copy m from to = Ok (replaced m (offset to) (elements m from))).
  Proof.
    unfold copy, to_cursor, in_array, no_overrun, elements, offset. destruct from as [[f|] n], to as [[t|] k]; cbn [rdata rsize option_map]; intros Hf Ht.
    - split; [intros L; apply copy_loop_short; assumption|]. intros L O. replace k with (n + (k - n)) by lia. rewrite Nat.add_assoc.
      apply copy_loop_ok; lia.
    - subst k. split.
      + intros L. destruct n as [|n]; [lia|]. rewrite copy_step. rewrite valid_at. destruct (Nat.eqb_spec f (f + S n)); [lia|]. reflexivity.
      + intros L _. assert (n = 0) as -> by lia. rewrite copy_step. rewrite valid_at, Nat.add_0_r, Nat.eqb_refl. reflexivity.
    - subst n. split; [lia|]. intros _ _. cbn. f_equal. unfold replaced. cbn. rewrite Nat.add_0_r. symmetry. apply firstn_skipn.
    - subst n k. split; [lia|]. intros _ _. reflexivity.
  Qed.
  (* the value of the reference v in m *)
  Definition deref (m : list A) (v : nat + A) : option A := match v with inl p => nth_error m p | inr x => Some x end.
  Lemma fill_loop_ok n : forall m p v x, p + n <= length m -> deref m v = Some x ->
    fill_loop (S n) m (mkc (Some p) (Some (p + n))) v = Ok (replaced m p (repeat x n)).
  Proof.
    induction n as [|n IH]; intros m p v x L V; rewrite fill_step; rewrite valid_at.
    - rewrite Nat.add_0_r, Nat.eqb_refl. cbn. f_equal. unfold replaced. cbn. rewrite Nat.add_0_r. symmetry. apply firstn_skipn.
    - destruct (Nat.eqb_spec p (p + S n)); [lia|]. cbn [negb].
      unfold get. rewrite valid_at. destruct (Nat.eqb_spec p (p + S n)); [lia|]. cbn [ccurr negb contract bind].
      assert (match v with inl p => aget m p | inr x => Ok x end = Ok x) as ->.
      { destruct v as [q|y]; cbn in V; [apply aget_Ok, V|congruence]. }
      cbn [bind]. rewrite aset_Ok by lia. cbn [bind]. unfold advance. rewrite valid_at. destruct (Nat.eqb_spec p (p + S n)); [lia|]. cbn [ccurr cend negb contract bind].
      replace (p + S n) with (S p + n) by lia. rewrite (IH _ _ _ x).
      + f_equal. apply nth_ext_error. intros i. rewrite !nth_replaced by (rewrite ?lset_length, ?repeat_length; lia). rewrite !repeat_length.
        assert (forall n i, i < n -> nth_error (repeat x n) i = Some x) as Rp.
        { clear. induction n; intros [|i] L; cbn; try lia; [reflexivity|]. apply IHn. lia. }
        destruct (Nat.leb_spec (S p) i), (Nat.ltb_spec i (S p + n)), (Nat.leb_spec p i), (Nat.ltb_spec i (p + S n)); cbn [andb]; try lia.
        * rewrite !Rp by lia. reflexivity.
        * apply lset_nth_neq. lia.
        * rewrite Rp by lia. replace i with p by lia. apply lset_nth_eq. lia.
        * apply lset_nth_neq. lia.
      + rewrite lset_length. lia.
      + destruct v as [q|y]; cbn in V |- *; [|exact V]. destruct (Nat.eq_dec p q) as [->|Ne]; [apply lset_nth_eq; lia|].
        rewrite lset_nth_neq by exact Ne. exact V.
  Qed.
  Lemma fill_ok m r v x : in_array (length m) r -> deref m v = Some x -> fill m r v = Ok (replaced m (offset r) (repeat x (rsize r))).
  Proof.
    unfold fill, to_cursor, in_array, offset. destruct r as [[p|] n]; cbn [rdata rsize option_map]; intros H V.
    - apply fill_loop_ok; assumption.
    - subst n. cbn. reflexivity.
  Qed.

  Context {B : Type} (neq : A -> B -> bool).
  Lemma differ_ok : forall a b, length a = length b -> differ neq a b = Ok (existsb (fun p => neq (fst p) (snd p)) (combine a b)).
  Proof.
    induction a as [|x a IH]; intros [|y b] L; cbn in L |- *; try lia; [reflexivity|]. destruct (neq x y); [reflexivity|]. apply IH. lia.
  Qed.
  Lemma any_of_ok (eq : A -> B -> bool) r lhs : any_of_test eq r lhs = existsb (eq lhs) r.
  Proof. induction r as [|x r IH]; cbn; [reflexivity|]. destruct (eq lhs x); [reflexivity|exact IH]. Qed.
  Lemma fold_or_ok l : fold_or l = existsb (fun b => b) l.
  Proof. induction l as [|b [|c r] IH]; [reflexivity|cbn; destruct b; reflexivity|]. change (fold_or (b :: c :: r)) with (b || fold_or (c :: r)). rewrite IH. reflexivity. Qed.
End Algo.

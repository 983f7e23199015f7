(* Proofs about cc::capped_array. *)
From Coq Require Import NArith Arith List Bool Lia.
From Verif Require Import Base Cells CapArrModel CapArrSpec OwnHeap.
Import ListNotations.
Open Scope N_scope.

Lemma put_lset : forall T (l : list T) i x, put l i x = lset l i x.
Proof. induction l; intros [|i] x; cbn; auto. f_equal. auto. Qed.
Definition size_of {A} (x : option (list A)) : N := match x with Some l => N.of_nat (length l) | None => 0 end.
Lemma population_lset : forall A (s : store A) k x y, nth_error s k = Some x ->
  population (lset s k y) + size_of x = population s + size_of y.
Proof.
  induction s as [|z s IH]; intros [|k] x y H; cbn [nth_error lset population] in *; try discriminate.
  - injection H as ->. destruct x, y; cbn [size_of]; lia.
  - specialize (IH _ _ y H). destruct z; lia.
Qed.
Lemma population_app : forall A (s : store A) x, population (s ++ [x]) = population s + size_of x.
Proof. induction s as [|z s IH]; intro x; cbn [app population]; [destruct x; cbn [size_of]; lia|]. rewrite IH. destruct z; lia. Qed.
Lemma population_none : forall A (s : store A), (forall k l, nth_error s k = Some l -> l = None) -> population s = 0.
Proof.
  induction s as [|z s IH]; intro H; [reflexivity|]. pose proof (H 0%nat z eq_refl) as ->. cbn [population].
  apply IH. intros k l E. apply (H (S k)). exact E.
Qed.

Lemma nth_error_ext : forall T (a b : list T), (forall i, nth_error a i = nth_error b i) -> a = b.
Proof.
  induction a as [|x a IH]; intros [|y b] H; [reflexivity|specialize (H 0%nat); discriminate..|].
  f_equal; [specialize (H 0%nat); cbn in H; congruence|]. apply IH. intro i. apply (H (S i)).
Qed.

Section P.
  Context {A : Type} (dflt : A) (cap : N).
  Notation cells := (list (cell A)).
  Notation storage := (@storage A cap).
  Definition alive (c : option (cell A)) : Prop := match c with Some (Obj _) | Some Husk => True | _ => False end.
  (* c' is c with the cells i ... i+n-1 replaced by f *)
  Definition patched (c c' : cells) (i n : nat) (f : nat -> option (cell A)) : Prop :=
    length c' = length c /\
    (forall q, (i <= q < i + n)%nat -> nth_error c' q = f q) /\
    (forall q, (q < i \/ i + n <= q)%nat -> nth_error c' q = nth_error c q).
  Lemma patched_nil : forall c i f, patched c c i 0 f.
  Proof. intros. split; [reflexivity|]. split; intros; [lia|reflexivity]. Qed.
  Lemma patched_step : forall (c c' : cells) i n f x, (i < length c)%nat -> Some x = f i -> patched (lset c i x) c' (S i) n f -> patched c c' i (S n) f.
  Proof.
    intros c c' i n f x Hi Hx (L & H1 & H2). rewrite lset_length in L. split; [exact L|]. split.
    - intros q Hq. destruct (Nat.eq_dec q i) as [->|N].
      + rewrite H2 by lia. rewrite lset_nth_eq by exact Hi. exact Hx.
      + apply H1. lia.
    - intros q Hq. rewrite H2 by lia. apply lset_nth_neq. lia.
  Qed.
  Lemma patched_down : forall (c c' : cells) i n f x, (i + n < length c)%nat -> Some x = f (i + n)%nat -> patched (lset c (i + n) x) c' i n f -> patched c c' i (S n) f.
  Proof.
    intros c c' i n f x Hi Hx (L & H1 & H2). rewrite lset_length in L. split; [exact L|]. split.
    - intros q Hq. destruct (Nat.eq_dec q (i + n)) as [->|N].
      + rewrite H2 by lia. rewrite lset_nth_eq by exact Hi. exact Hx.
      + apply H1. lia.
    - intros q Hq. rewrite H2 by lia. apply lset_nth_neq. lia.
  Qed.

  (* the world with array k replaced *)
  Definition wset (w : world A) (k : nat) (a : carr) (m g : N) : world A := mkw (lset (objs w) k (Some a)) (made w + m) (gone w + g).
  Definition others (w w' : world A) (k : nat) : Prop := forall q, q <> k -> nth_error (objs w') q = nth_error (objs w) q.
  Lemma get_nth : forall (w : world A) k a, get w k = Ok a <-> nth_error (objs w) k = Some (Some a).
  Proof. intros w k a. unfold get. destruct (nth_error (objs w) k) as [[?|]|]; split; intro H; congruence. Qed.
  Lemma get_lt : forall (w : world A) k a, get w k = Ok a -> (k < length (objs w))%nat.
  Proof. intros w k a H. apply get_nth in H. apply nth_error_Some. congruence. Qed.
  Lemma get_wset : forall w k a b m g, get w k = Ok b -> get (wset w k a m g) k = Ok a.
  Proof. intros w k a b m g H. apply get_nth. cbn [wset objs]. apply lset_nth_eq. exact (get_lt _ _ _ H). Qed.
  Lemma get_wset_neq : forall w k j a m g, k <> j -> get (wset w k a m g) j = get w j.
  Proof. intros w k j a m g N. unfold get, wset. cbn [objs]. rewrite lset_nth_neq by exact N. reflexivity. Qed.
  Lemma wset_wset : forall w k a b m g m' g', wset (wset w k a m g) k b m' g' = wset w k b (m + m') (g + g').
  Proof. intros. unfold wset. cbn [objs made gone]. rewrite lset_twice, !N.add_assoc. reflexivity. Qed.
  Lemma wset_id : forall w k a, get w k = Ok a -> wset w k a 0 0 = w.
  Proof. intros [o m g] k a H. apply get_nth in H. unfold wset. cbn [objs made gone] in *. rewrite lset_same by exact H. rewrite !N.add_0_r. reflexivity. Qed.
  Lemma wset_others : forall w k a m g, others w (wset w k a m g) k.
  Proof. intros w k a m g q N. cbn [wset objs]. apply lset_nth_neq. congruence. Qed.
  Lemma mkw_wset : forall (w : world A) k a m g, mkw (lset (objs w) k (Some a)) m g = mkw (objs (wset w k a 0 0)) m g.
  Proof. reflexivity. Qed.

  Lemma construct_at_ok : forall (w : world A) k i v a, get w k = Ok a -> (i < length (cmem a))%nat ->
    construct_at w k i v = Ok (wset w k (mkc (csize a) (lset (cmem a) i (Obj v))) 1 0).
  Proof.
    intros w k i v a G L. unfold construct_at. rewrite G. cbn [bind].
    destruct (nth_error (cmem a) i) eqn:E; [|apply nth_error_None in E; lia]. unfold wset. rewrite N.add_0_r. reflexivity.
  Qed.
  Lemma assign_at_ok : forall (w : world A) k i v a, get w k = Ok a -> alive (nth_error (cmem a) i) ->
    assign_at w k i v = Ok (wset w k (mkc (csize a) (lset (cmem a) i (Obj v))) 0 0).
  Proof.
    intros w k i v a G L. unfold assign_at. rewrite G. cbn [bind]. unfold assign.
    destruct (nth_error (cmem a) i) as [[|x|]|]; cbn [alive] in L; try contradiction; cbn [bind]; unfold wset, set_obj; rewrite !N.add_0_r; reflexivity.
  Qed.
  Lemma destroy_at_ok : forall (w : world A) k i a, get w k = Ok a -> alive (nth_error (cmem a) i) ->
    destroy_at w k i = Ok (wset w k (mkc (csize a) (lset (cmem a) i Raw)) 0 1).
  Proof.
    intros w k i a G L. unfold destroy_at. rewrite G. cbn [bind]. unfold destroy.
    destruct (nth_error (cmem a) i) as [[|x|]|]; cbn [alive] in L; try contradiction; cbn [bind]; unfold wset; rewrite !N.add_0_r; reflexivity.
  Qed.
  Lemma set_size_ok : forall (w : world A) k n a, get w k = Ok a -> set_size w k n = Ok (wset w k (mkc n (cmem a)) 0 0).
  Proof. intros w k n a G. unfold set_size. rewrite G. cbn [bind]. unfold wset, set_obj. rewrite !N.add_0_r. reflexivity. Qed.
  Lemma take_ok : forall (w : world A) k i a v, get w k = Ok a -> nth_error (cmem a) i = Some (Obj v) ->
    take w k i = Ok (v, wset w k (mkc (csize a) (lset (cmem a) i Husk)) 0 0).
  Proof.
    intros w k i a v G E. unfold take. rewrite G. cbn [bind]. rewrite (move_out_Ok _ _ v E). cbn [bind].
    unfold wset, set_obj. rewrite !N.add_0_r. reflexivity.
  Qed.
  Lemma alive_lt : forall (c : cells) i, alive (nth_error c i) -> (i < length c)%nat.
  Proof. intros c i H. apply nth_error_Some. destruct (nth_error c i); [discriminate|contradiction]. Qed.

  Lemma destroy_down_ok : forall n to (w : world A) k a, get w k = Ok a ->
    (forall q, (to <= q < to + n)%nat -> alive (nth_error (cmem a) q)) ->
    exists c, destroy_down n to w k = Ok (wset w k (mkc (csize a) c) 0 (N.of_nat n)) /\ patched (cmem a) c to n (fun _ => Some Raw).
  Proof.
    induction n as [|n IH]; intros to w k a G H; cbn [destroy_down].
    - exists (cmem a). split; [|apply patched_nil]. f_equal. symmetry. destruct a. apply wset_id. exact G.
    - pose proof (H (to + n)%nat ltac:(lia)) as Hn. rewrite (destroy_at_ok _ _ _ a) by assumption. cbn [bind].
      destruct (IH to _ k _ (get_wset w k (mkc (csize a) (lset (cmem a) (to + n) Raw)) a 0 1 G)) as (c & E & P).
      { intros q Hq. cbn [cmem]. rewrite lset_nth_neq by lia. apply H. lia. }
      cbn [csize cmem] in *. exists c. split.
      + rewrite E, wset_wset. do 2 f_equal. lia.
      + apply (patched_down _ _ _ _ _ Raw); auto. apply alive_lt. exact Hn.
  Qed.

  (* sources that do not depend on array k *)
  Definition src_ok (w : world A) (k i : nat) (src : world A -> nat -> outcome A) (l : list A) : Prop :=
    forall w', others w w' k -> forall q x, nth_error l q = Some x -> src w' (i + q)%nat = Ok x.
  Lemma src_step : forall w k i src x l b m g, src_ok w k i src (x :: l) -> src_ok (wset w k b m g) k (S i) src l.
  Proof.
    intros w k i src x l b m g H w' O q y E. replace (S i + q)%nat with (i + S q)%nat by lia. apply (H w'); [|exact E].
    intros p N. rewrite O by exact N. apply wset_others. exact N.
  Qed.
  Lemma src_head : forall w k i src x l, src_ok w k i src (x :: l) -> src w i = Ok x.
  Proof. intros w k i src x l H. specialize (H w (fun _ _ => eq_refl) 0%nat x eq_refl). rewrite Nat.add_0_r in H. exact H. Qed.
  Definition from (i : nat) (l : list A) (q : nat) : option (cell A) := option_map (@Obj A) (nth_error l (q - i)).
  Lemma patched_ext : forall c c' i n f g, (forall q, (i <= q < i + n)%nat -> f q = g q) -> patched c c' i n f -> patched c c' i n g.
  Proof. intros c c' i n f g E (L & H1 & H2). split; [exact L|]. split; [|exact H2]. intros q Hq. rewrite <- E by exact Hq. auto. Qed.
  Lemma from_step : forall i x (l : list A) q, (S i <= q)%nat -> from (S i) l q = from i (x :: l) q.
  Proof. intros i x l q H. unfold from. replace (q - i)%nat with (S (q - S i))%nat by lia. reflexivity. Qed.
  Lemma from_head : forall i x (l : list A), from i (x :: l) i = Some (Obj x).
  Proof. intros. unfold from. rewrite Nat.sub_diag. reflexivity. Qed.

  Lemma construct_loop_ok : forall (l : list A) i src (w : world A) k a, get w k = Ok a -> (i + length l <= length (cmem a))%nat ->
    src_ok w k i src l ->
    exists c, construct_loop (length l) i src w k = Ok (wset w k (mkc (csize a) c) (N.of_nat (length l)) 0) /\
      patched (cmem a) c i (length l) (from i l).
  Proof.
    induction l as [|x l IH]; intros i src w k a G L H; cbn [length construct_loop] in *.
    - exists (cmem a). split; [|apply patched_nil]. f_equal. symmetry. destruct a. apply wset_id. exact G.
    - rewrite (src_head _ _ _ _ _ _ H). cbn [bind]. rewrite (construct_at_ok _ _ _ _ a) by (auto; lia). cbn [bind].
      destruct (IH (S i) src _ k _ (get_wset w k (mkc (csize a) (lset (cmem a) i (Obj x))) a 1 0 G)) as (c & E & P).
      + cbn [cmem]. rewrite lset_length. lia.
      + eapply src_step. exact H.
      + cbn [csize cmem] in *. exists c. split.
        * rewrite E, wset_wset. do 2 f_equal. lia.
        * apply (patched_step _ _ _ _ _ (Obj x)); [lia|symmetry; apply from_head|].
          eapply patched_ext; [|exact P]. intros q Hq. apply from_step. lia.
  Qed.
  Lemma assign_loop_ok : forall (l : list A) i src (w : world A) k a, get w k = Ok a ->
    (forall q, (i <= q < i + length l)%nat -> alive (nth_error (cmem a) q)) -> src_ok w k i src l ->
    exists c, assign_loop (length l) i src w k = Ok (wset w k (mkc (csize a) c) 0 0) /\ patched (cmem a) c i (length l) (from i l).
  Proof.
    induction l as [|x l IH]; intros i src w k a G L H; cbn [length assign_loop] in *.
    - exists (cmem a). split; [|apply patched_nil]. f_equal. symmetry. destruct a. apply wset_id. exact G.
    - rewrite (src_head _ _ _ _ _ _ H). cbn [bind]. rewrite (assign_at_ok _ _ _ _ a) by (auto; apply L; lia). cbn [bind].
      destruct (IH (S i) src _ k _ (get_wset w k (mkc (csize a) (lset (cmem a) i (Obj x))) a 0 0 G)) as (c & E & P).
      + intros q Hq. cbn [cmem]. rewrite lset_nth_neq by lia. apply L. lia.
      + eapply src_step. exact H.
      + cbn [csize cmem] in *. exists c. split.
        * rewrite E, wset_wset. reflexivity.
        * apply (patched_step _ _ _ _ _ (Obj x)); [apply alive_lt; apply L; lia|symmetry; apply from_head|].
          eapply patched_ext; [|exact P]. intros q Hq. apply from_step. lia.
  Qed.
  (* v[i] = v[i] changes nothing *)
  Lemma assign_self_ok : forall n i (w : world A) k a, get w k = Ok a ->
    (forall q, (i <= q < i + n)%nat -> exists x, nth_error (cmem a) q = Some (Obj x)) ->
    assign_loop n i (fun w i => read w k i) w k = Ok w.
  Proof.
    induction n as [|n IH]; intros i w k a G H; cbn [assign_loop]; [reflexivity|].
    destruct (H i ltac:(lia)) as (x & E). unfold read at 1. rewrite G. cbn [bind]. rewrite (cread_Ok _ _ x E). cbn [bind].
    rewrite (assign_at_ok _ _ _ _ a) by (auto; rewrite E; exact I). rewrite lset_same by exact E. cbn [bind].
    replace (mkc (csize a) (cmem a)) with a by (destruct a; reflexivity). rewrite (wset_id _ _ _ G).
    apply (IH (S i) w k a G). intros q Hq. apply H. lia.
  Qed.

  (* moves out of another array j: j keeps its size and the number of its cells *)
  Lemma wset_swap : forall w k j a b m g m' g', k <> j -> wset (wset w k a m g) j b m' g' = wset (wset w j b m' g') k a m g.
  Proof. intros. unfold wset. cbn [objs made gone]. rewrite lset_swap by assumption. f_equal; lia. Qed.
  Lemma move_construct_ok : forall (l : list A) i (w : world A) k j a r, k <> j -> get w k = Ok a -> get w j = Ok r ->
    (i + length l <= length (cmem a))%nat -> (forall q x, nth_error l q = Some x -> nth_error (cmem r) (i + q) = Some (Obj x)) ->
    exists c d, move_construct_loop (length l) i w k j =
        Ok (wset (wset w j (mkc (csize r) d) 0 0) k (mkc (csize a) c) (N.of_nat (length l)) 0) /\
      patched (cmem a) c i (length l) (from i l) /\ patched (cmem r) d i (length l) (fun _ => Some Husk).
  Proof.
    induction l as [|x l IH]; intros i w k j a r N G Gr L H; cbn [length move_construct_loop] in *.
    - exists (cmem a), (cmem r). split; [|split; apply patched_nil].
      replace (mkc (csize r) (cmem r)) with r by (destruct r; reflexivity). replace (mkc (csize a) (cmem a)) with a by (destruct a; reflexivity).
      rewrite (wset_id w j) by exact Gr. f_equal. symmetry. apply wset_id. exact G.
    - pose proof (H 0%nat x eq_refl) as E0. rewrite Nat.add_0_r in E0.
      rewrite (take_ok _ _ _ r x) by assumption. cbn [bind].
      assert (get (wset w j (mkc (csize r) (lset (cmem r) i Husk)) 0 0) k = Ok a) as G1 by (rewrite get_wset_neq by congruence; exact G).
      rewrite (construct_at_ok _ _ _ _ a) by (auto; lia). cbn [bind].
      rewrite wset_swap by congruence.
      set (w1 := wset (wset w k _ _ _) j _ _ _).
      assert (get w1 k = Ok (mkc (csize a) (lset (cmem a) i (Obj x)))) as G2
        by (unfold w1; rewrite get_wset_neq by congruence; apply (get_wset _ _ _ a); exact G).
      assert (get w1 j = Ok (mkc (csize r) (lset (cmem r) i Husk))) as G3.
      { unfold w1. apply (get_wset _ _ _ r). rewrite get_wset_neq by exact N. exact Gr. }
      destruct (IH (S i) w1 k j _ _ N G2 G3) as (c & d & E & P & Q).
      + cbn [cmem]. rewrite lset_length. lia.
      + intros q y Ey. cbn [cmem]. rewrite lset_nth_neq by lia. replace (S i + q)%nat with (i + S q)%nat by lia. apply H. exact Ey.
      + cbn [csize cmem] in *. exists c, d. split; [|split].
        * rewrite E. unfold w1. rewrite wset_wset, (wset_swap w k j) by exact N. rewrite wset_wset. do 2 f_equal. lia.
        * apply (patched_step _ _ _ _ _ (Obj x)); [lia|symmetry; apply from_head|].
          eapply patched_ext; [|exact P]. intros q Hq. apply from_step. lia.
        * apply (patched_step _ _ _ _ _ Husk); [apply nth_error_Some; congruence|reflexivity|exact Q].
  Qed.
  Lemma move_assign_ok : forall (l : list A) i (w : world A) k j a r, k <> j -> get w k = Ok a -> get w j = Ok r ->
    (forall q, (i <= q < i + length l)%nat -> alive (nth_error (cmem a) q)) ->
    (forall q x, nth_error l q = Some x -> nth_error (cmem r) (i + q) = Some (Obj x)) ->
    exists c d, move_assign_loop (length l) i w k j =
        Ok (wset (wset w j (mkc (csize r) d) 0 0) k (mkc (csize a) c) 0 0) /\
      patched (cmem a) c i (length l) (from i l) /\ patched (cmem r) d i (length l) (fun _ => Some Husk).
  Proof.
    induction l as [|x l IH]; intros i w k j a r N G Gr L H; cbn [length move_assign_loop] in *.
    - exists (cmem a), (cmem r). split; [|split; apply patched_nil].
      replace (mkc (csize r) (cmem r)) with r by (destruct r; reflexivity). replace (mkc (csize a) (cmem a)) with a by (destruct a; reflexivity).
      rewrite (wset_id w j) by exact Gr. f_equal. symmetry. apply wset_id. exact G.
    - pose proof (H 0%nat x eq_refl) as E0. rewrite Nat.add_0_r in E0.
      rewrite (take_ok _ _ _ r x) by assumption. cbn [bind].
      assert (get (wset w j (mkc (csize r) (lset (cmem r) i Husk)) 0 0) k = Ok a) as G1 by (rewrite get_wset_neq by congruence; exact G).
      rewrite (assign_at_ok _ _ _ _ a) by (auto; apply L; lia). cbn [bind].
      rewrite wset_swap by congruence.
      set (w1 := wset (wset w k _ _ _) j _ _ _).
      assert (get w1 k = Ok (mkc (csize a) (lset (cmem a) i (Obj x)))) as G2
        by (unfold w1; rewrite get_wset_neq by congruence; apply (get_wset _ _ _ a); exact G).
      assert (get w1 j = Ok (mkc (csize r) (lset (cmem r) i Husk))) as G3.
      { unfold w1. apply (get_wset _ _ _ r). rewrite get_wset_neq by exact N. exact Gr. }
      destruct (IH (S i) w1 k j _ _ N G2 G3) as (c & d & E & P & Q).
      + intros q Hq. cbn [cmem]. rewrite lset_nth_neq by lia. apply L. lia.
      + intros q y Ey. cbn [cmem]. rewrite lset_nth_neq by lia. replace (S i + q)%nat with (i + S q)%nat by lia. apply H. exact Ey.
      + cbn [csize cmem] in *. exists c, d. split; [|split].
        * rewrite E. unfold w1. rewrite wset_wset, (wset_swap w k j) by exact N. rewrite wset_wset. reflexivity.
        * apply (patched_step _ _ _ _ _ (Obj x)); [apply alive_lt; apply L; lia|symmetry; apply from_head|].
          eapply patched_ext; [|exact P]. intros q Hq. apply from_step. lia.
        * apply (patched_step _ _ _ _ _ Husk); [apply nth_error_Some; congruence|reflexivity|exact Q].
  Qed.
  (* v[i] = move(v[i]): the elements keep their value in the model *)
  Lemma move_assign_self_ok : forall n i (w : world A) k a, get w k = Ok a ->
    (forall q, (i <= q < i + n)%nat -> exists x, nth_error (cmem a) q = Some (Obj x)) ->
    move_assign_loop n i w k k = Ok w.
  Proof.
    induction n as [|n IH]; intros i w k a G H; cbn [move_assign_loop]; [reflexivity|].
    destruct (H i ltac:(lia)) as (x & E). rewrite (take_ok _ _ _ a x) by assumption. cbn [bind].
    assert (i < length (cmem a))%nat as Hi by (apply nth_error_Some; congruence).
    rewrite (assign_at_ok _ _ _ _ (mkc (csize a) (lset (cmem a) i Husk))).
    2: { apply (get_wset _ _ _ a). exact G. }
    2: { cbn [cmem]. rewrite lset_nth_eq by exact Hi. exact I. }
    cbn [csize cmem bind]. rewrite lset_twice, (lset_same _ _ _ _ E), wset_wset.
    replace (mkc (csize a) (cmem a)) with a by (destruct a; reflexivity). change (0 + 0) with 0. rewrite (wset_id _ _ _ G).
    apply (IH (S i) w k a G). intros q Hq. apply H. lia.
  Qed.

  (* ---- representation ---- *)
  Definition ok (a : carr) (l : list A) : Prop :=
    csize a = N.of_nat (length l) /\ N.of_nat (length (cmem a)) = cap /\ N.of_nat (length l) <= cap /\
    forall q x, nth_error l q = Some x -> nth_error (cmem a) q = Some (Obj x).
  Definition good (o : option carr) (x : option (list A)) : Prop :=
    match o, x with Some a, Some l => ok a l | None, None => True | _, _ => False end.
  Definition rep (os : list (option carr)) (s : store A) : Prop :=
    length os = length s /\ forall i o x, nth_error os i = Some o -> nth_error s i = Some x -> good o x.
  Definition R (lost : N) (w : world A) (s : store A) : Prop := rep (objs w) s /\ made w = gone w + population s + lost.

  Lemma sget_nth : forall (s : store A) k l, sget s k = Some l -> nth_error s k = Some (Some l).
  Proof. intros s k l H. unfold sget in H. destruct (nth_error s k) as [[?|]|]; congruence. Qed.
  Lemma rep_lset : forall os s k a l, rep os s -> good a l -> rep (lset os k a) (lset s k l).
  Proof.
    intros os s k a l (R1 & R2) K. split; [rewrite !lset_length; exact R1|]. intros i o x Oi Si.
    apply lset_cases in Oi. apply lset_cases in Si.
    destruct Oi as [(-> & -> & _)|(N & Oi)]; destruct Si as [(M & -> & _)|(M & Si)]; try congruence. apply (R2 i); auto.
  Qed.
  Lemma rep_app : forall os s a l, rep os s -> good a l -> rep (os ++ [a]) (s ++ [l]).
  Proof.
    intros os s a l (R1 & R2) K. split; [rewrite !app_length, R1; reflexivity|]. intros i o x Oi Si.
    apply nth_snoc in Oi. apply nth_snoc in Si.
    destruct Oi as [Oi|(-> & ->)]; destruct Si as [Si|(M & ->)]; auto.
    - apply (R2 i); auto.
    - assert (i < length os)%nat by (apply nth_error_Some; congruence). lia.
    - assert (length os < length s)%nat by (apply nth_error_Some; congruence). lia.
  Qed.

  Lemma ok_alive : forall a l q, ok a l -> (q < length l)%nat -> exists x, nth_error (cmem a) q = Some (Obj x).
  Proof.
    intros a l q (_ & _ & _ & H) Hq. destruct (nth_error l q) as [x|] eqn:E; [eauto|]. apply nth_error_None in E. lia.
  Qed.

  Lemma storage_len : length storage = N.to_nat cap.
  Proof. apply repeat_length. Qed.
  Lemma push_get : forall (w : world A) a, get (push w a) (length (objs w)) = Ok a.
  Proof. intros. apply get_nth. cbn [push objs]. apply nth_app_new. Qed.
  Lemma push_wset : forall (w : world A) a b m g, wset (push w a) (length (objs w)) b m g = mkw (objs w ++ [Some b]) (made w + m) (gone w + g).
  Proof. intros. unfold wset, push. cbn [objs made gone]. rewrite lset_app_new. reflexivity. Qed.

  Lemma patched_ok : forall c c' n (l : list A), N.of_nat (length c) = cap -> n = N.of_nat (length l) -> N.of_nat (length l) <= cap ->
    patched c c' 0 (length l) (from 0 l) -> ok (mkc n c') l.
  Proof.
    intros c c' n l Hc -> Hl (L & H1 & H2). unfold ok. cbn [csize cmem]. split; [reflexivity|]. split; [rewrite L; exact Hc|]. split; [exact Hl|].
    intros q x E. assert (q < length l)%nat by (apply nth_error_Some; congruence). rewrite H1 by lia. unfold from. rewrite Nat.sub_0_r, E. reflexivity.
  Qed.

  Lemma build_ok : forall lost w s n l src, R lost w s -> n = N.of_nat (length l) -> n <= cap ->
    src_ok (push w (mkc n storage)) (length (objs w)) 0 src l ->
    exists w', build cap w n src = Ok w' /\ R lost w' (s ++ [Some l]).
  Proof.
    intros lost w s n l src (HR & HC) Hn Hcap Hs. subst n. unfold build. rewrite Nat2N.id.
    destruct (construct_loop_ok l 0 src _ _ _ (push_get w (mkc (N.of_nat (length l)) storage))) as (c & E & P).
    - cbn [cmem]. rewrite storage_len. lia.
    - exact Hs.
    - rewrite E. eexists. split; [reflexivity|]. rewrite push_wset. cbn [csize cmem] in *. split; cbn [objs made gone].
      + apply rep_app; [exact HR|]. apply (patched_ok storage); auto. rewrite storage_len, N2Nat.id. reflexivity.
      + rewrite population_app. cbn [size_of]. lia.
  Qed.

  Lemma pop_obj : forall (s : store A) k l l' (w : world A) lost m g, made w = gone w + population s + lost -> sget s k = Some l ->
    N.of_nat (length l) + m = N.of_nat (length l') + g ->
    made w + m = gone w + g + population (lset s k (Some l')) + lost.
  Proof.
    intros s k l l' w lost m g HC Sk H. pose proof (population_lset _ s k _ (Some l') (sget_nth _ _ _ Sk)) as P. cbn [size_of] in P. lia.
  Qed.

  Lemma read_other : forall w w' k j a l q x, others w w' k -> k <> j -> get w j = Ok a -> ok a l -> nth_error l q = Some x -> read w' j q = Ok x.
  Proof.
    intros w w' k j a l q x O N G K E. unfold read.
    assert (get w' j = Ok a) as -> by (apply get_nth; rewrite O by congruence; apply get_nth; exact G).
    cbn [bind]. apply cread_Ok. apply K. exact E.
  Qed.
  Lemma src_repeat : forall w k src v n, (forall w', others w w' k -> forall q, src w' q = Ok v) -> src_ok w k 0 src (repeat v n).
  Proof. intros w k src v n H w' O q x E. rewrite H by exact O. apply nth_error_In, repeat_spec in E. congruence. Qed.
  Lemma others_trans : forall w w1 w2 k, others w w1 k -> others w1 w2 k -> others w w2 k.
  Proof. intros w w1 w2 k H1 H2 q N. rewrite H2, H1 by exact N. reflexivity. Qed.
  Lemma push_others : forall w a, forall w', others (push w a) w' (length (objs w)) ->
    forall j b, get w j = Ok b -> get w' j = Ok b.
  Proof.
    intros w a w' O j b G. pose proof (get_lt _ _ _ G). apply get_nth. rewrite O by lia. cbn [push objs].
    rewrite nth_error_app1 by lia. apply get_nth. exact G.
  Qed.
  Lemma eval_push : forall w s x v lost a, R lost w s -> argval s x = Some v ->
    forall w', others (push w a) w' (length (objs w)) -> eval x w' = Ok v.
  Proof.
    intros w s x v lost a ((R1 & R2) & _) Hx w' O. destruct x as [x|j i]; cbn [argval eval] in *; [congruence|].
    destruct (sget s j) as [l|] eqn:Sj; [|discriminate]. pose proof (sget_nth _ _ _ Sj) as Nj.
    destruct (nth_error (objs w) j) as [o|] eqn:Oj.
    2: { apply nth_error_None in Oj. assert (j < length s)%nat by (apply nth_error_Some; congruence). lia. }
    pose proof (R2 _ _ _ Oj Nj) as K. destruct o as [b|]; [|contradiction].
    unfold read. rewrite (push_others _ _ _ O j b) by (apply get_nth; exact Oj). cbn [bind]. apply cread_Ok. apply K. exact Hx.
  Qed.

  Lemma step_ok : forall lost w s o, R lost w s -> no_self o ->
    match ideal dflt cap s o with
    | Some (Some (s', r)) => exists w', step dflt cap w o = Ok (w', r) /\ R (lost + moved s o) w' s'
    | Some None => step dflt cap w o = Contract
    | None => True
    end.
  Proof.
    intros lost w s o HRC Hn. pose proof HRC as (HR & HC).
    assert (G : forall k x, sget s k = Some x -> exists a, get w k = Ok a /\ ok a x /\ (k < length (objs w))%nat).
    { intros k x Sk. pose proof (sget_nth _ _ _ Sk) as Nk. destruct HR as (R1 & R2).
      destruct (nth_error (objs w) k) as [o0|] eqn:Ok0.
      2: { apply nth_error_None in Ok0. assert (k < length s)%nat by (apply nth_error_Some; congruence). lia. }
      pose proof (R2 _ _ _ Ok0 Nk) as K. destruct o0 as [a|]; [|contradiction]. exists a.
      split; [apply get_nth; exact Ok0|]. split; [exact K|]. apply nth_error_Some. congruence. }
    assert (KO : forall w' lost' s', R lost' w' s' -> lost' = lost + 0 -> R (lost + 0) w' s') by (intros; subst; assumption).
    destruct o as [|n|vs|n|n x|k n x|j|j|k j|k j|k|k i|k i x|k]; cbn [ideal step moved no_self] in *.
    - (* New *) eexists. split; [reflexivity|]. split; cbn [push objs made gone].
      + apply rep_app; [exact HR|]. cbn [good]. unfold ok. cbn [csize cmem length N.of_nat]. rewrite storage_len, N2Nat.id.
        split; [reflexivity|]. split; [reflexivity|]. split; [lia|]. intros [|q] y H; discriminate.
      + rewrite population_app. cbn [size_of length N.of_nat]. lia.
    - (* NewSized *)
      destruct (N.leb_spec n cap) as [Hc|Hc]; cbn [contract bind]; [|reflexivity].
      destruct (build_ok lost w s n (repeat dflt (N.to_nat n)) (fun _ _ => Ok dflt) HRC) as (w' & E & HR').
      + rewrite repeat_length, N2Nat.id. reflexivity.
      + exact Hc.
      + apply src_repeat. reflexivity.
      + rewrite E. cbn [bind]. rewrite N.add_0_r. eauto.
    - (* NewFrom *)
      destruct (N.leb_spec (N.of_nat (length vs)) cap) as [Hc|Hc]; cbn [contract bind]; [|reflexivity].
      destruct (build_ok lost w s _ vs (fun _ i => aget vs i) HRC eq_refl Hc) as (w' & E & HR').
      + intros w' O q x E. cbn [Nat.add]. apply aget_Ok. exact E.
      + rewrite E. cbn [bind]. rewrite N.add_0_r. eauto.
    - (* Uninit *)
      destruct (N.leb_spec n cap) as [Hc|Hc]; cbn [contract bind]; [|reflexivity].
      destruct (N.eqb_spec n 0) as [->|Hz]; [|exact Logic.I].
      eexists. split; [reflexivity|]. split; cbn [push objs made gone].
      + apply rep_app; [exact HR|]. cbn [good]. unfold ok. cbn [csize cmem length N.of_nat]. rewrite storage_len, N2Nat.id.
        split; [reflexivity|]. split; [reflexivity|]. split; [lia|]. intros [|q] y H; discriminate.
      + rewrite population_app. cbn [size_of length N.of_nat]. lia.
    - (* Filled *)
      destruct (N.leb_spec n cap) as [Hc|Hc]; cbn [contract bind]; [|reflexivity].
      destruct (argval s x) as [v|] eqn:Hx; [|exact Logic.I].
      destruct (build_ok lost w s n (repeat v (N.to_nat n)) (fun w _ => eval x w) HRC) as (w' & E & HR').
      + rewrite repeat_length, N2Nat.id. reflexivity.
      + exact Hc.
      + apply src_repeat. intros w' O q. eapply eval_push; eauto.
      + rewrite E. cbn [bind]. rewrite N.add_0_r. eauto.
    - (* Emplace *)
      destruct (sget s k) as [l|] eqn:Sk; [|exact Logic.I]. destruct (G _ _ Sk) as (a & Ga & Ka & Hk).
      rewrite Ga. cbn [bind]. destruct (N.leb_spec n cap) as [Hc|Hc]; cbn [contract bind]; [|reflexivity].
      destruct (argval s x) as [v|] eqn:Hx; [|exact Logic.I]. pose proof Ka as (K1 & K2 & K3 & K4).
      unfold destroy_reverse. rewrite N.sub_0_r, K1, Nat2N.id. change (N.to_nat 0) with 0%nat.
      destruct (destroy_down_ok (length l) 0 w k a Ga) as (c & E & P).
      { intros q Hq. destruct (ok_alive _ _ q Ka ltac:(lia)) as (y & ->). exact I. }
      rewrite E. cbn [bind]. rewrite (set_size_ok _ _ _ _ (get_wset _ _ _ a _ _ Ga)), wset_wset. cbn [cmem bind].
      set (w1 := wset w k (mkc n c) (0 + 0) (N.of_nat (length l) + 0)).
      assert (get w1 k = Ok (mkc n c)) as G1 by (apply (get_wset _ _ _ a); exact Ga).
      destruct (construct_loop_ok (repeat v (N.to_nat n)) 0 (fun w _ => eval x w) w1 k _ G1) as (c2 & E2 & P2).
      { cbn [cmem]. rewrite repeat_length. destruct P as (PL & _). lia. }
      { apply src_repeat. intros w' O q. destruct x as [x|j i]; cbn [argval eval] in *; [congruence|].
        destruct (sget s j) as [lj|] eqn:Sj; [|discriminate]. destruct (G _ _ Sj) as (aj & Gj & Kj & _).
        apply (read_other w w' k j aj lj); auto. apply (others_trans _ w1); [apply wset_others|exact O]. }
      rewrite repeat_length in E2. rewrite E2. cbn [bind csize cmem] in *. unfold w1. rewrite wset_wset. eexists. split; [reflexivity|].
      rewrite put_lset. split; cbn [wset objs made gone].
      + apply rep_lset; [exact HR|]. cbn [good]. rewrite !repeat_length in P2. apply (patched_ok c).
        * destruct P as (PL & _). rewrite PL. exact K2.
        * rewrite repeat_length, N2Nat.id. reflexivity.
        * rewrite repeat_length, N2Nat.id. exact Hc.
        * rewrite repeat_length. exact P2.
      + rewrite (N.add_0_r lost). apply (pop_obj s k l); [exact HC|exact Sk|]. rewrite !repeat_length. lia.
    - (* CopyNew *)
      destruct (sget s j) as [l|] eqn:Sj; [|exact Logic.I]. destruct (G _ _ Sj) as (a & Ga & Ka & Hj). pose proof Ka as (K1 & K2 & K3 & K4).
      rewrite Ga. cbn [bind].
      destruct (build_ok lost w s (csize a) l (fun w i => read w j i) HRC K1 ltac:(lia)) as (w' & E & HR').
      + intros w' O q x E. cbn [Nat.add]. unfold read. rewrite (push_others _ _ _ O j a Ga). cbn [bind]. apply cread_Ok. apply K4. exact E.
      + rewrite E. cbn [bind]. rewrite N.add_0_r. eauto.
    - (* MoveNew *)
      destruct (sget s j) as [l|] eqn:Sj; [|exact Logic.I]. destruct (G _ _ Sj) as (a & Ga & Ka & Hj). pose proof Ka as (K1 & K2 & K3 & K4).
      rewrite Ga. cbn [bind]. rewrite K1, Nat2N.id.
      set (w0 := push w (mkc (N.of_nat (length l)) storage)).
      assert (get w0 (length (objs w)) = Ok (mkc (N.of_nat (length l)) storage)) as G0 by apply push_get.
      assert (get w0 j = Ok a) as Gj0 by (apply (push_others w (mkc (N.of_nat (length l)) storage) w0 (fun _ _ => eq_refl)); exact Ga).
      destruct (move_construct_ok l 0 w0 (length (objs w)) j _ _ ltac:(lia) G0 Gj0) as (c & d & E & P & Q).
      { cbn [cmem]. rewrite storage_len. lia. }
      { intros q x E. cbn [Nat.add]. apply K4. exact E. }
      rewrite E. cbn [bind csize cmem] in *.
      rewrite (set_size_ok _ _ _ (mkc (csize a) d)) by (rewrite get_wset_neq by lia; apply (get_wset _ _ _ a); exact Gj0).
      rewrite (wset_swap _ _ j) by lia. rewrite wset_wset. cbn [bind cmem].
      eexists. split; [reflexivity|]. rewrite put_lset. unfold wset, w0. cbn [push objs made gone]. rewrite lset_app1 by exact Hj.
      rewrite <- (lset_length (objs w) j (Some (mkc 0 d))), lset_app_new.
      split; cbn [objs made gone].
      + apply rep_app.
        * apply rep_lset; [exact HR|]. cbn [good]. unfold ok. cbn [csize cmem length N.of_nat]. destruct Q as (QL & _). rewrite QL.
          split; [reflexivity|]. split; [exact K2|]. split; [lia|]. intros [|q] y H; discriminate.
        * cbn [good]. apply (patched_ok storage); auto. rewrite storage_len, N2Nat.id. reflexivity.
      + rewrite population_app. pose proof (population_lset _ s j _ (Some []) (sget_nth _ _ _ Sj)) as Pp. cbn [size_of length N.of_nat] in *. lia.
    - (* CopyAssign *)
      destruct (sget s k) as [lk|] eqn:Sk; [|exact Logic.I]. destruct (sget s j) as [l|] eqn:Sj; [|exact Logic.I].
      destruct (G _ _ Sk) as (a & Ga & Ka & Hk). destruct (G _ _ Sj) as (r & Gr & Kr & Hj).
      pose proof Ka as (A1 & A2 & A3 & A4). pose proof Kr as (B1 & B2 & B3 & B4).
      rewrite Ga, Gr. cbn [bind]. rewrite A1, B1. unfold destroy_reverse. rewrite !Nat2N.id.
      replace (N.of_nat (length lk) <? N.of_nat (length l)) with (length lk <? length l)%nat
        by (destruct (Nat.ltb_spec (length lk) (length l)), (N.ltb_spec (N.of_nat (length lk)) (N.of_nat (length l))); try reflexivity; lia).
      set (cm := if (length lk <? length l)%nat then N.of_nat (length lk) else N.of_nat (length l)).
      assert (cm = N.of_nat (Nat.min (length lk) (length l))) as Ecm by (unfold cm; destruct (Nat.ltb_spec (length lk) (length l)); lia).
      destruct (destroy_down_ok (N.to_nat (N.of_nat (length lk) - N.of_nat (length l))) (length l) w k a Ga) as (c & E & P).
      { intros q Hq. destruct (ok_alive _ _ q Ka ltac:(lia)) as (y & ->). exact I. }
      rewrite E. cbn [bind]. rewrite (set_size_ok _ _ _ _ (get_wset _ _ _ a _ _ Ga)), wset_wset. cbn [cmem bind].
      set (w1 := wset w k (mkc (N.of_nat (length l)) c) _ _).
      assert (get w1 k = Ok (mkc (N.of_nat (length l)) c)) as G1 by (apply (get_wset _ _ _ a); exact Ga).
      destruct P as (PL & _ & P2).
      destruct (Nat.eq_dec j k) as [->|N].
      + assert (r = a) as -> by congruence. assert (lk = l) as -> by congruence.
        assert (w1 = w) as Ew.
        { unfold w1. replace (N.of_nat (N.to_nat (N.of_nat (length l) - N.of_nat (length l))) + 0) with 0 by lia.
          replace (mkc (N.of_nat (length l)) c) with a; [apply wset_id; exact Ga|]. destruct a as [sz0 mm]. cbn [csize cmem] in *. f_equal; [congruence|].
          apply nth_error_ext. intro q. symmetry. apply P2. lia. }
        rewrite Ew. rewrite (assign_self_ok _ _ w k a Ga) by (intros q Hq; apply (ok_alive _ l q Ka); lia). cbn [bind].
        replace (N.to_nat (N.of_nat (length l) - cm)) with 0%nat by lia. cbn [construct_loop bind].
        eexists. split; [reflexivity|]. rewrite put_lset, lset_same by (apply sget_nth; exact Sk). rewrite N.add_0_r. split; assumption.
      + set (l1 := firstn (N.to_nat cm) l). set (l2 := skipn (N.to_nat cm) l).
        assert (length l1 = N.to_nat cm) as L1 by (unfold l1; rewrite firstn_length; lia).
        assert (length l2 = N.to_nat (N.of_nat (length l) - cm)) as L2 by (unfold l2; rewrite skipn_length; lia).
        assert (SRC : forall ll i, (forall q x, nth_error ll q = Some x -> nth_error l (i + q) = Some x) ->
                  forall w', others w w' k -> src_ok w' k i (fun w i => read w j i) ll).
        { intros ll i H w' O w2 O2 q x Eq. apply (read_other w w2 k j r l); auto. apply (others_trans _ w'); assumption. }
        destruct (assign_loop_ok l1 0 (fun w i => read w j i) w1 k _ G1) as (c3 & E3 & Q3).
        { intros q Hq. cbn [cmem]. rewrite P2 by lia. destruct (ok_alive _ _ q Ka ltac:(lia)) as (y & ->). exact I. }
        { apply SRC; [|apply wset_others]. intros q x Eq. cbn [Nat.add]. unfold l1 in Eq.
          assert (q < length l1)%nat by (apply nth_error_Some; unfold l1; congruence).
          rewrite <- (firstn_skipn (N.to_nat cm) l). rewrite nth_error_app1 by (fold l1; lia). exact Eq. }
        rewrite L1 in E3. rewrite E3. unfold w1 at 1. rewrite wset_wset. cbn [bind csize cmem] in *.
        set (w2 := wset w k _ _ _). assert (get w2 k = Ok (mkc (N.of_nat (length l)) c3)) as G2 by (apply (get_wset _ _ _ a); exact Ga).
        destruct Q3 as (QL & Q3 & Q4).
        destruct (construct_loop_ok l2 (N.to_nat cm) (fun w i => read w j i) w2 k _ G2) as (c4 & E4 & S4).
        { cbn [cmem]. lia. }
        { apply SRC; [|apply wset_others]. intros q x Eq. unfold l2 in Eq. rewrite <- (firstn_skipn (N.to_nat cm) l).
          rewrite nth_error_app2 by (fold l1; lia). fold l1. replace (N.to_nat cm + q - length l1)%nat with q by lia. exact Eq. }
        rewrite <- L2. rewrite E4. unfold w2 at 1. rewrite wset_wset. cbn [bind csize cmem] in *. eexists. split; [reflexivity|].
        rewrite put_lset, (N.add_0_r lost). destruct S4 as (SL & S3 & S4). split; cbn [wset objs made gone].
        * apply rep_lset; [exact HR|]. cbn [good]. unfold ok. cbn [csize cmem]. split; [reflexivity|]. split; [lia|]. split; [exact B3|].
          intros q x Eq. assert (q < length l)%nat by (apply nth_error_Some; congruence).
          rewrite <- (firstn_skipn (N.to_nat cm) l) in Eq. fold l1 l2 in Eq.
          destruct (Nat.lt_ge_cases q (N.to_nat cm)).
          -- rewrite S4 by lia. rewrite Q3 by lia. unfold from. rewrite Nat.sub_0_r. rewrite nth_error_app1 in Eq by lia. rewrite Eq. reflexivity.
          -- rewrite S3 by lia. unfold from. rewrite nth_error_app2 in Eq by lia. rewrite L1 in Eq. rewrite Eq. reflexivity.
        * apply (pop_obj _ _ lk); auto. lia.
    - (* MoveAssign *)
      destruct (sget s k) as [lk|] eqn:Sk; [|exact Logic.I]. destruct (sget s j) as [l|] eqn:Sj; [|exact Logic.I].
      destruct (G _ _ Sk) as (a & Ga & Ka & Hk). destruct (G _ _ Sj) as (r & Gr & Kr & Hj).
      pose proof Ka as (A1 & A2 & A3 & A4). pose proof Kr as (B1 & B2 & B3 & B4).
      rewrite Ga, Gr. cbn [bind]. rewrite A1, B1. unfold destroy_reverse. rewrite !Nat2N.id.
      replace (N.of_nat (length lk) <? N.of_nat (length l)) with (length lk <? length l)%nat
        by (destruct (Nat.ltb_spec (length lk) (length l)), (N.ltb_spec (N.of_nat (length lk)) (N.of_nat (length l))); try reflexivity; lia).
      set (cm := if (length lk <? length l)%nat then N.of_nat (length lk) else N.of_nat (length l)).
      assert (cm = N.of_nat (Nat.min (length lk) (length l))) as Ecm by (unfold cm; destruct (Nat.ltb_spec (length lk) (length l)); lia).
      destruct (destroy_down_ok (N.to_nat (N.of_nat (length lk) - N.of_nat (length l))) (length l) w k a Ga) as (c & E & P).
      { intros q Hq. destruct (ok_alive _ _ q Ka ltac:(lia)) as (y & ->). exact I. }
      rewrite E. cbn [bind]. rewrite (set_size_ok _ _ _ _ (get_wset _ _ _ a _ _ Ga)), wset_wset. cbn [cmem bind].
      set (w1 := wset w k (mkc (N.of_nat (length l)) c) _ _).
      assert (get w1 k = Ok (mkc (N.of_nat (length l)) c)) as G1 by (apply (get_wset _ _ _ a); exact Ga).
      destruct P as (PL & _ & P2). rewrite !put_lset.
      destruct (Nat.eq_dec j k) as [->|N].
      + assert (r = a) as -> by congruence. assert (lk = l) as -> by congruence.
        assert (w1 = w) as Ew.
        { unfold w1. replace (N.of_nat (N.to_nat (N.of_nat (length l) - N.of_nat (length l))) + 0) with 0 by lia.
          replace (mkc (N.of_nat (length l)) c) with a; [apply wset_id; exact Ga|]. destruct a as [sz0 mm]. cbn [csize cmem] in *. f_equal; [congruence|].
          apply nth_error_ext. intro q. symmetry. apply P2. lia. }
        rewrite Ew. rewrite (move_assign_self_ok _ _ w k a Ga) by (intros q Hq; apply (ok_alive _ l q Ka); lia). cbn [bind].
        replace (N.to_nat (N.of_nat (length l) - cm)) with 0%nat by lia. cbn [move_construct_loop bind].
        rewrite (set_size_ok _ _ _ _ Ga). cbn [bind]. eexists. split; [reflexivity|]. rewrite lset_twice. split; cbn [wset objs made gone].
        * apply rep_lset; [exact HR|]. cbn [good]. unfold ok. cbn [csize cmem length N.of_nat].
          split; [reflexivity|]. split; [exact A2|]. split; [lia|]. intros [|q] y H; discriminate.
        * pose proof (population_lset _ s k _ (Some []) (sget_nth _ _ _ Sk)) as Pp. cbn [size_of length N.of_nat] in *. lia.
      + set (l1 := firstn (N.to_nat cm) l). set (l2 := skipn (N.to_nat cm) l).
        assert (length l1 = N.to_nat cm) as L1 by (unfold l1; rewrite firstn_length; lia).
        assert (length l2 = N.to_nat (N.of_nat (length l) - cm)) as L2 by (unfold l2; rewrite skipn_length; lia).
        assert (get w1 j = Ok r) as Gr1 by (unfold w1; rewrite get_wset_neq by congruence; exact Gr).
        destruct (move_assign_ok l1 0 w1 k j _ r ltac:(congruence) G1 Gr1) as (c3 & d3 & E3 & Q3 & D3).
        { intros q Hq. cbn [cmem]. rewrite P2 by lia. destruct (ok_alive _ _ q Ka ltac:(lia)) as (y & ->). exact I. }
        { intros q x Eq. cbn [Nat.add]. apply B4.
          assert (q < length l1)%nat by (apply nth_error_Some; congruence).
          rewrite <- (firstn_skipn (N.to_nat cm) l). rewrite nth_error_app1 by (fold l1; lia). exact Eq. }
        rewrite L1 in E3. rewrite E3. cbn [bind csize cmem] in *.
        destruct Q3 as (QL & Q3 & Q4). destruct D3 as (DL & _ & D4).
        set (w2 := wset (wset w1 j _ _ _) k _ _ _).
        assert (get w2 k = Ok (mkc (N.of_nat (length l)) c3)) as G2.
        { unfold w2. apply (get_wset _ _ _ (mkc (N.of_nat (length l)) c)). rewrite get_wset_neq by exact N. exact G1. }
        assert (get w2 j = Ok (mkc (csize r) d3)) as Gr2.
        { unfold w2. rewrite get_wset_neq by congruence. apply (get_wset _ _ _ r). exact Gr1. }
        destruct (move_construct_ok l2 (N.to_nat cm) w2 k j _ _ ltac:(congruence) G2 Gr2) as (c4 & d4 & E4 & S4 & T4).
        { cbn [cmem]. lia. }
        { intros q x Eq. cbn [cmem]. rewrite D4 by lia. apply B4. rewrite <- (firstn_skipn (N.to_nat cm) l).
          rewrite nth_error_app2 by (fold l1; lia). fold l1. replace (N.to_nat cm + q - length l1)%nat with q by lia. exact Eq. }
        rewrite <- L2. rewrite E4. cbn [bind csize cmem] in *.
        rewrite (set_size_ok _ _ _ (mkc (csize r) d4)) by (rewrite get_wset_neq by congruence; apply (get_wset _ _ _ (mkc (csize r) d3)); exact Gr2).
        cbn [bind cmem]. eexists. split; [reflexivity|].
        destruct S4 as (SL & S3 & S4). destruct T4 as (TL & _).
        rewrite (wset_swap _ k j) by congruence. rewrite wset_wset. unfold w2. rewrite (wset_swap _ k j) by congruence. rewrite wset_wset, wset_wset.
        unfold w1. rewrite (wset_swap _ k j) by congruence. rewrite wset_wset. split; cbn [wset objs made gone].
        * assert (lset (lset s k (Some l)) j (Some []) = lset (lset s j (Some [])) k (Some l)) as -> by (apply lset_swap; congruence).
          apply rep_lset; [apply rep_lset; [exact HR|]|]; cbn [good]; unfold ok; cbn [csize cmem length N.of_nat].
          -- split; [reflexivity|]. split; [lia|]. split; [lia|]. intros [|q] y H; discriminate.
          -- split; [reflexivity|]. split; [lia|]. split; [exact B3|].
             intros q x Eq. assert (q < length l)%nat by (apply nth_error_Some; congruence).
             rewrite <- (firstn_skipn (N.to_nat cm) l) in Eq. fold l1 l2 in Eq.
             destruct (Nat.lt_ge_cases q (N.to_nat cm)).
             ++ rewrite S4 by lia. rewrite Q3 by lia. unfold from. rewrite Nat.sub_0_r. rewrite nth_error_app1 in Eq by lia. rewrite Eq. reflexivity.
             ++ rewrite S3 by lia. unfold from. rewrite nth_error_app2 in Eq by lia. rewrite L1 in Eq. rewrite Eq. reflexivity.
        * pose proof (population_lset _ s k _ (Some l) (sget_nth _ _ _ Sk)) as Pp.
          assert (nth_error (lset s k (Some l)) j = Some (Some l)) as Ej by (rewrite lset_nth_neq by congruence; apply sget_nth; exact Sj).
          pose proof (population_lset _ _ j _ (Some []) Ej) as Pq. cbn [size_of length N.of_nat] in *. lia.
    - (* Destroy *)
      destruct (sget s k) as [l|] eqn:Sk; [|exact Logic.I]. destruct (G _ _ Sk) as (a & Ga & Ka & Hk). pose proof Ka as (K1 & _).
      rewrite Ga. cbn [bind]. unfold destroy_reverse. rewrite N.sub_0_r, K1, Nat2N.id. change (N.to_nat 0) with 0%nat.
      destruct (destroy_down_ok (length l) 0 w k a Ga) as (c & E & P).
      { intros q Hq. destruct (ok_alive _ _ q Ka ltac:(lia)) as (y & ->). exact I. }
      rewrite E. cbn [bind wset objs made gone]. eexists. split; [reflexivity|]. rewrite put_lset, lset_twice. split; cbn [objs made gone].
      + apply rep_lset; [exact HR|exact I].
      + pose proof (population_lset _ s k _ None (sget_nth _ _ _ Sk)) as Pp. cbn [size_of] in *. lia.
    - (* Get *)
      destruct (sget s k) as [l|] eqn:Sk; [|exact Logic.I]. destruct (G _ _ Sk) as (a & Ga & Ka & Hk). pose proof Ka as (K1 & K2 & K3 & K4).
      rewrite Ga. cbn [bind]. rewrite K1. destruct (nth_error l (N.to_nat i)) as [v|] eqn:E.
      + assert (N.to_nat i < length l)%nat by (apply nth_error_Some; congruence).
        replace (i <? N.of_nat (length l)) with true by (symmetry; apply N.ltb_lt; lia). cbn [contract bind]. unfold read. rewrite Ga. cbn [bind].
        rewrite (cread_Ok _ _ v) by (apply K4; exact E). cbn [bind]. rewrite N.add_0_r. eauto.
      + apply nth_error_None in E. replace (i <? N.of_nat (length l)) with false by (symmetry; apply N.ltb_ge; lia). reflexivity.
    - (* Set_ *)
      destruct (sget s k) as [l|] eqn:Sk; [|exact Logic.I]. destruct (G _ _ Sk) as (a & Ga & Ka & Hk). pose proof Ka as (K1 & K2 & K3 & K4).
      rewrite Ga. cbn [bind]. rewrite K1. destruct (nth_error l (N.to_nat i)) as [v|] eqn:E.
      + assert (N.to_nat i < length l)%nat as Hi by (apply nth_error_Some; congruence).
        replace (i <? N.of_nat (length l)) with true by (symmetry; apply N.ltb_lt; lia). cbn [contract bind].
        rewrite (assign_at_ok _ _ _ _ a) by (auto; rewrite (K4 _ _ E); exact I). cbn [bind]. eexists. split; [reflexivity|].
        rewrite !put_lset, (N.add_0_r lost). split; cbn [wset objs made gone].
        * apply rep_lset; [exact HR|]. cbn [good]. unfold ok. cbn [csize cmem]. rewrite !lset_length. repeat split; auto.
          intros q y Eq. apply lset_cases in Eq. destruct Eq as [(<- & -> & _)|(N & Eq)].
          -- apply lset_nth_eq. lia.
          -- rewrite lset_nth_neq by exact N. apply K4. exact Eq.
        * apply (pop_obj _ _ l); auto. rewrite lset_length. lia.
      + apply nth_error_None in E. replace (i <? N.of_nat (length l)) with false by (symmetry; apply N.ltb_ge; lia). reflexivity.
    - (* Size *)
      destruct (sget s k) as [l|] eqn:Sk; [|exact Logic.I]. destruct (G _ _ Sk) as (a & Ga & Ka & Hk). pose proof Ka as (K1 & _).
      rewrite Ga. cbn [bind]. rewrite K1, N.add_0_r. eauto.
  Qed.

  Lemma run_ok : forall os lost w s, R lost w s -> Forall no_self os ->
    match irun dflt cap s os with
    | Some (Some (s', rs, n)) => exists w', run dflt cap w os = Ok (w', rs) /\ R (lost + n) w' s'
    | Some None => run dflt cap w os = Contract
    | None => True
    end.
  Proof.
    induction os as [|o os IH]; intros lost w s HR F; cbn [irun run].
    { rewrite N.add_0_r. eauto. }
    inversion F as [|? ? Fa Fb]; subst.
    pose proof (step_ok lost w s o HR Fa) as S1. destruct (ideal dflt cap s o) as [[[s1 r]|]|]; [| |exact Logic.I].
    + destruct S1 as (w1 & E1 & R1). rewrite E1. cbn [bind]. specialize (IH _ w1 s1 R1 Fb).
      destruct (irun dflt cap s1 os) as [[[[s2 rs] n]|]|]; [| |exact Logic.I].
      * destruct IH as (w2 & E2 & R2). rewrite E2. cbn [bind]. rewrite N.add_assoc. eauto.
      * rewrite IH. reflexivity.
    + rewrite S1. reflexivity.
  Qed.
End P.

(* Proofs about cc::array. *)
From Coq Require Import NArith Arith List Bool Lia.
From Verif Require Import Base Cells ArrModel ArrSpec.
Import ListNotations.
Open Scope N_scope.

Lemma put_lset : forall T (l : list T) i x, put l i x = lset l i x.
Proof. induction l; intros [|i] x; cbn; auto. f_equal. auto. Qed.
Lemma nth_app_new : forall T (l : list T) x, nth_error (l ++ [x]) (length l) = Some x.
Proof. intros. rewrite nth_error_app2, Nat.sub_diag by lia. reflexivity. Qed.
Lemma lset_app_new : forall T (l : list T) x y, lset (l ++ [x]) (length l) y = l ++ [y].
Proof. induction l; intros; cbn; auto. f_equal. auto. Qed.
Lemma nth_snoc : forall T (l : list T) x i y, nth_error (l ++ [x]) i = Some y ->
  nth_error l i = Some y \/ (i = length l /\ y = x).
Proof.
  intros T l x i y H. destruct (Nat.lt_ge_cases i (length l)).
  - rewrite nth_error_app1 in H by lia. auto.
  - rewrite nth_error_app2 in H by lia. destruct (i - length l)%nat as [|k] eqn:E.
    + right. split; [lia|]. cbn in H. congruence.
    + destruct k; discriminate.
Qed.
Lemma lset_same : forall T (l : list T) i x, nth_error l i = Some x -> lset l i x = l.
Proof. induction l; intros [|i] x H; cbn in *; try discriminate; f_equal; auto; congruence. Qed.
Lemma lset_twice : forall T (l : list T) i x y, lset (lset l i x) i y = lset l i y.
Proof. induction l; intros [|i] x y; cbn; auto. f_equal. auto. Qed.

Section P.
  Context {A : Type}.
  Variable eqb : A -> A -> bool.
  Variable sz : N.
  Variable dflt : A.
  Hypothesis Hsz : 0 < sz.
  Notation cells := (list (cell A)).
  Notation objcells := (map (@Obj A)).

  (* cells: constructing and destroying a whole sequence *)
  Lemma construct_from_spec : forall (l pre : list A) src k,
    (forall i x, nth_error l i = Some x -> src (length pre + i)%nat = Ok x) ->
    construct_from (length l) (length pre) src (objcells pre ++ repeat Raw (length l + k)) = Ok (objcells (pre ++ l) ++ repeat Raw k).
  Proof.
    induction l as [|x l IH]; intros pre src k H; cbn [length construct_from].
    - rewrite app_nil_r. reflexivity.
    - rewrite <- (Nat.add_0_r (length pre)) at 1. rewrite (H 0%nat x eq_refl). cbn [bind].
      rewrite construct_Ok.
      2: { rewrite nth_error_app2 by (rewrite map_length; lia). rewrite map_length, Nat.sub_diag. reflexivity. }
      cbn [bind]. specialize (IH (pre ++ [x]) src k). rewrite app_length in IH. cbn [length] in IH.
      replace (length pre + 1)%nat with (S (length pre)) in IH by lia.
      replace (pre ++ x :: l) with ((pre ++ [x]) ++ l) by (rewrite <- app_assoc; reflexivity).
      rewrite <- IH.
      + f_equal. rewrite map_app. cbn [map]. rewrite <- app_assoc. cbn [app repeat Nat.add].
        rewrite <- (map_length (@Obj A) pre). generalize (objcells pre). clear.
        induction l0; cbn; [reflexivity|]. f_equal. assumption.
      + intros i y E. replace (S (length pre) + i)%nat with (length pre + S i)%nat by lia. apply H. exact E.
  Qed.

  Lemma destroy_reverse_spec : forall (l : list A) k,
    destroy_reverse (length l) (objcells l ++ repeat Raw k) = Ok (repeat Raw (length l + k)).
  Proof.
    induction l as [|x l IH] using rev_ind; intro k; [reflexivity|].
    rewrite app_length. cbn [length]. rewrite Nat.add_1_r. cbn [destroy_reverse].
    rewrite map_app. cbn [map]. rewrite <- app_assoc. cbn [app].
    rewrite (destroy_Obj _ _ x).
    2: { rewrite nth_error_app2 by (rewrite map_length; lia). rewrite map_length, Nat.sub_diag. reflexivity. }
    cbn [bind].
    assert (lset (objcells l ++ Obj x :: repeat Raw k) (length l) Raw = objcells l ++ repeat Raw (S k)) as ->.
    { cbn [repeat]. rewrite <- (map_length (@Obj A) l). generalize (objcells l). clear.
      induction l; cbn; [reflexivity|]. f_equal. assumption. }
    rewrite IH. do 2 f_equal. lia.
  Qed.

  Lemma release_raw : forall n, @release A (repeat Raw n) = Ok tt.
  Proof.
    intro n. unfold release. replace (forallb is_raw (repeat (@Raw A) n)) with true; [reflexivity|].
    symmetry. apply forallb_forall. intros x H. apply repeat_spec in H. subst. reflexivity.
  Qed.

  (* representation *)
  Definition good (h : heap A) (o : option arr) (l : option (list A)) : Prop :=
    match o, l with
    | None, None => True
    | Some a, Some l =>
        (aptr a = None /\ asize a = 0 /\ l = []) \/
        (exists b, aptr a = Some b /\ nth_error h b = Some (Some (objcells l)) /\ asize a = N.of_nat (length l)
                   /\ N.of_nat (length l) * sz < 2 ^ 64)
    | _, _ => False
    end.
  (* x: an object whose contents are being replaced and that owns nothing at the moment *)
  Definition rep (x : option nat) (w : world A) (s : store A) : Prop :=
    length (objs w) = length s /\
    (forall i o l, Some i <> x -> nth_error (objs w) i = Some o -> nth_error s i = Some l -> good (hp w) o l) /\
    (forall i j a a' b, Some i <> x -> Some j <> x -> nth_error (objs w) i = Some (Some a) ->
       nth_error (objs w) j = Some (Some a') -> aptr a = Some b -> aptr a' = Some b -> i = j) /\
    (forall b c, nth_error (hp w) b = Some (Some c) ->
       exists i a, Some i <> x /\ nth_error (objs w) i = Some (Some a) /\ aptr a = Some b).

  Lemma rep_get : forall w s k l x, rep x w s -> Some k <> x -> sget s k = Some l ->
    exists a, get w k = Ok a /\ nth_error (objs w) k = Some (Some a) /\ good (hp w) (Some a) (Some l).
  Proof.
    intros w s k l x (R1 & R2 & _) Hx H. unfold sget in H. destruct (nth_error s k) as [[l'|]|] eqn:E; try discriminate.
    injection H as ->. unfold get. destruct (nth_error (objs w) k) as [o|] eqn:Eo.
    - specialize (R2 _ _ _ Hx Eo E). destruct o as [a|]; [|destruct R2]. eauto.
    - apply nth_error_None in Eo. assert (k < length s)%nat by (apply nth_error_Some; congruence). lia.
  Qed.

  Lemma rep_lt : forall w s k l x, rep x w s -> sget s k = Some l -> (k < length (objs w))%nat.
  Proof.
    intros w s k l x (R1 & _) H. unfold sget in H. destruct (nth_error s k) eqn:E; [|discriminate].
    rewrite R1. apply nth_error_Some. congruence.
  Qed.

  (* _destroy of object k opens a hole *)
  Lemma destroy_rep : forall w s k l a, rep None w s -> sget s k = Some l -> get w k = Ok a ->
    exists h, destroy_arr (hp w) a = Ok h /\ rep (Some k) (mkw h (objs w)) s /\
      (forall j a' l', j <> k -> nth_error (objs w) j = Some (Some a') -> good (hp w) (Some a') (Some l') -> good h (Some a') (Some l')) /\
      length h = length (hp w).
  Proof.
    intros w s k l a R Hk Hg. destruct (rep_get _ _ _ _ _ R ltac:(discriminate) Hk) as (a0 & G0 & G1 & G2).
    assert (a0 = a) as -> by congruence. clear G0.
    destruct R as (R1 & R2 & R3 & R4). unfold destroy_arr.
    destruct G2 as [(P & Z & ->)|(b & P & B & L & F)].
    - rewrite P, Z. cbn [cells_of bind N.to_nat destroy_reverse put_cells free]. exists (hp w). split; [reflexivity|].
      split; [|split; [auto|reflexivity]].
      split; [exact R1|]. split; [|split].
      + intros i o l Hi. apply R2. discriminate.
      + intros i j a1 a2 b Hi Hj. apply R3; discriminate.
      + intros b c H. destruct (R4 _ _ H) as (i & a1 & _ & Q1 & Q2). exists i, a1. split; [|auto].
        intro E. injection E as ->. congruence.
    - rewrite P. cbn [cells_of]. rewrite B. cbn [bind]. rewrite L, Nat2N.id.
      pose proof (destroy_reverse_spec l 0) as D. cbn [repeat] in D. rewrite app_nil_r, Nat.add_0_r in D. rewrite D. cbn [bind put_cells free].
      assert (b < length (hp w))%nat as Hb by (apply nth_error_Some; congruence).
      rewrite lset_nth_eq by exact Hb. rewrite release_raw. cbn [bind]. rewrite lset_twice.
      assert (GG : forall i a' l', i <> k -> nth_error (objs w) i = Some (Some a') ->
        good (hp w) (Some a') (Some l') -> good (lset (hp w) b None) (Some a') (Some l')).
      { intros i a' l' Hi Ho [Q|(b' & Q1 & Q2 & Q3)]; [left; exact Q|right].
        exists b'. split; [exact Q1|]. split; [|exact Q3]. rewrite lset_nth_neq; [exact Q2|].
        intro E. subst b'. apply Hi. apply (R3 i k a' a b); try discriminate; assumption. }
      eexists. split; [reflexivity|]. split; [|split; [exact GG|apply lset_length]].
      split; [exact R1|]. split; [|split]; cbn [hp objs].
      + intros i o l' Hi Ho Hl. specialize (R2 i o l' ltac:(discriminate) Ho Hl).
        destruct o as [a'|], l' as [l'|]; try exact R2. apply (GG i); [congruence|exact Ho|exact R2].
      + intros i j a1 a2 b' Hi Hj. apply R3; discriminate.
      + intros b' c H. rewrite lset_nth in H. destruct (Nat.eqb_spec b b') as [E|E].
        * destruct (b <? length (hp w))%nat; discriminate.
        * destruct (R4 _ _ H) as (i & a1 & _ & Q1 & Q2). exists i, a1. split; [|auto].
          intro E1. injection E1 as ->. congruence.
  Qed.

  (* closing the hole k *)
  Lemma close_null : forall w s k, rep (Some k) w s -> (k < length (objs w))%nat ->
    rep None (mkw (hp w) (lset (objs w) k (Some null))) (put s k (Some [])).
  Proof.
    intros w s k (R1 & R2 & R3 & R4) Hk. rewrite put_lset. split; [|split; [|split]]; cbn [hp objs].
    - rewrite ?lset_length. exact R1.
    - intros i o l _ Ho Hl. rewrite lset_nth in Ho. rewrite lset_nth in Hl. destruct (Nat.eqb_spec k i) as [E|E].
      + replace (k <? length s)%nat with true in Hl by (symmetry; apply Nat.ltb_lt; lia).
        replace (k <? length (objs w))%nat with true in Ho by (symmetry; apply Nat.ltb_lt; lia).
        injection Ho as <-. injection Hl as <-. left. auto.
      + apply (R2 i); auto. congruence.
    - intros i j a1 a2 b _ _ Hi Hj P1 P2. rewrite lset_nth in Hi. rewrite lset_nth in Hj.
      destruct (Nat.eqb_spec k i) as [E|E].
      { destruct (k <? length (objs w))%nat; [injection Hi as <-; discriminate|discriminate]. }
      destruct (Nat.eqb_spec k j) as [E'|E'].
      { destruct (k <? length (objs w))%nat; [injection Hj as <-; discriminate|discriminate]. }
      apply (R3 i j a1 a2 b); auto; congruence.
    - intros b c H. destruct (R4 _ _ H) as (i & a1 & Q0 & Q1 & Q2). exists i, a1. split; [discriminate|].
      split; [|exact Q2]. rewrite lset_nth_neq by congruence. exact Q1.
  Qed.
  Lemma close_gone : forall w s k, rep (Some k) w s -> (k < length (objs w))%nat ->
    rep None (mkw (hp w) (lset (objs w) k None)) (put s k None).
  Proof.
    intros w s k (R1 & R2 & R3 & R4) Hk. rewrite put_lset. split; [|split; [|split]]; cbn [hp objs].
    - rewrite ?lset_length. exact R1.
    - intros i o l _ Ho Hl. rewrite lset_nth in Ho. rewrite lset_nth in Hl. destruct (Nat.eqb_spec k i) as [E|E].
      + replace (k <? length s)%nat with true in Hl by (symmetry; apply Nat.ltb_lt; lia).
        replace (k <? length (objs w))%nat with true in Ho by (symmetry; apply Nat.ltb_lt; lia).
        injection Ho as <-. injection Hl as <-. exact I.
      + apply (R2 i); auto. congruence.
    - intros i j a1 a2 b _ _ Hi Hj P1 P2. rewrite lset_nth in Hi. rewrite lset_nth in Hj.
      destruct (Nat.eqb_spec k i) as [E|E]; [destruct (k <? length (objs w))%nat; discriminate|].
      destruct (Nat.eqb_spec k j) as [E'|E']; [destruct (k <? length (objs w))%nat; discriminate|].
      apply (R3 i j a1 a2 b); auto; congruence.
    - intros b c H. destruct (R4 _ _ H) as (i & a1 & Q0 & Q1 & Q2). exists i, a1. split; [discriminate|].
      split; [|exact Q2]. rewrite lset_nth_neq by congruence. exact Q1.
  Qed.
  (* object k takes over what object j owns; then j is the hole *)
  Lemma steal : forall w s k j l a, rep (Some k) w s -> (k < length (objs w))%nat -> j <> k ->
    nth_error s j = Some (Some l) -> nth_error (objs w) j = Some (Some a) ->
    rep (Some j) (mkw (hp w) (lset (objs w) k (Some a))) (put s k (Some l)).
  Proof.
    intros w s k j l a (R1 & R2 & R3 & R4) Hk Hj Hs Ha. rewrite put_lset. split; [|split; [|split]]; cbn [hp objs].
    - rewrite ?lset_length. exact R1.
    - intros i o l' Hi Ho Hl. rewrite lset_nth in Ho. rewrite lset_nth in Hl. destruct (Nat.eqb_spec k i) as [E|E].
      + replace (k <? length s)%nat with true in Hl by (symmetry; apply Nat.ltb_lt; lia).
        replace (k <? length (objs w))%nat with true in Ho by (symmetry; apply Nat.ltb_lt; lia).
        injection Ho as <-. injection Hl as <-. apply (R2 j); auto. congruence.
      + apply (R2 i); auto. congruence.
    - intros i i' a1 a2 b Hi Hi' Ho Ho' P1 P2. rewrite lset_nth in Ho. rewrite lset_nth in Ho'.
      replace (k <? length (objs w))%nat with true in Ho, Ho' by (symmetry; apply Nat.ltb_lt; lia).
      destruct (Nat.eqb_spec k i) as [E|E]; destruct (Nat.eqb_spec k i') as [E'|E']; try congruence.
      + injection Ho as <-. exfalso. apply Hi'. f_equal. apply (R3 i' j a2 a b); auto; congruence.
      + injection Ho' as <-. exfalso. apply Hi. f_equal. apply (R3 i j a1 a b); auto; congruence.
      + apply (R3 i i' a1 a2 b); auto; congruence.
    - intros b c H. destruct (R4 _ _ H) as (i & a1 & Q0 & Q1 & Q2). destruct (Nat.eq_dec i j) as [->|Q].
      + exists k, a1. split; [congruence|]. split; [|exact Q2]. rewrite lset_nth_eq by exact Hk. congruence.
      + exists i, a1. split; [congruence|]. split; [|exact Q2]. rewrite lset_nth_neq by congruence. exact Q1.
  Qed.

  Lemma good_app : forall h x o l, good h o l -> good (h ++ [x]) o l.
  Proof.
    intros h x [a|] [l|] G; try exact G. destruct G as [G|(b & G1 & G2 & G3)]; [left; exact G|right].
    exists b. split; [exact G1|]. split; [|exact G3]. rewrite nth_error_app1; [exact G2|]. apply nth_error_Some. congruence.
  Qed.

  Lemma close_fresh : forall w s k l, rep (Some k) w s -> (k < length (objs w))%nat -> N.of_nat (length l) * sz < 2 ^ 64 ->
    rep None (mkw (hp w ++ [Some (objcells l)])
                  (lset (objs w) k (Some (mkarr (Some (length (hp w))) (N.of_nat (length l)))))) (put s k (Some l)).
  Proof.
    intros w s k l (R1 & R2 & R3 & R4) Hk Hl. rewrite put_lset.
    assert (old : forall i a b, Some i <> Some k -> nth_error (objs w) i = Some (Some a) -> aptr a = Some b -> (b < length (hp w))%nat).
    { intros i a b Hi Ho P. destruct (nth_error s i) as [l0|] eqn:E.
      - specialize (R2 i _ _ Hi Ho E). destruct l0; [|destruct R2]. destruct R2 as [(Q & _)|(b' & Q1 & Q2 & _)]; [congruence|].
        apply nth_error_Some. congruence.
      - apply nth_error_None in E. assert (i < length (objs w))%nat by (apply nth_error_Some; congruence). lia. }
    split; [|split; [|split]]; cbn [hp objs].
    - rewrite ?lset_length. exact R1.
    - intros i o l' _ Ho Hs. rewrite lset_nth in Ho. rewrite lset_nth in Hs. destruct (Nat.eqb_spec k i) as [E|E].
      + replace (k <? length s)%nat with true in Hs by (symmetry; apply Nat.ltb_lt; lia).
        replace (k <? length (objs w))%nat with true in Ho by (symmetry; apply Nat.ltb_lt; lia).
        injection Ho as <-. injection Hs as <-. right. exists (length (hp w)). cbn [aptr asize].
        split; [reflexivity|]. split; [apply nth_app_new|]. auto.
      + apply good_app. apply (R2 i); auto. congruence.
    - intros i j a1 a2 b _ _ Hi Hj P1 P2. rewrite lset_nth in Hi. rewrite lset_nth in Hj.
      replace (k <? length (objs w))%nat with true in Hi, Hj by (symmetry; apply Nat.ltb_lt; lia).
      destruct (Nat.eqb_spec k i) as [E|E]; destruct (Nat.eqb_spec k j) as [E'|E']; try congruence.
      + injection Hi as <-. cbn in P1. assert (b < length (hp w))%nat by (apply (old j a2); congruence). injection P1 as <-. lia.
      + injection Hj as <-. cbn in P2. assert (b < length (hp w))%nat by (apply (old i a1); congruence). injection P2 as <-. lia.
      + apply (R3 i j a1 a2 b); auto; congruence.
    - intros b c H. apply nth_snoc in H. destruct H as [H|[-> _]].
      + destruct (R4 _ _ H) as (i & a1 & Q0 & Q1 & Q2). exists i, a1. split; [discriminate|].
        split; [|exact Q2]. rewrite lset_nth_neq by congruence. exact Q1.
      + exists k, (mkarr (Some (length (hp w))) (N.of_nat (length l))). split; [discriminate|]. split; [|reflexivity].
        apply lset_nth_eq. exact Hk.
  Qed.

  (* a new object is a hole at the end *)
  Lemma new_hole : forall w s, rep None w s ->
    rep (Some (length (objs w))) (mkw (hp w) (objs w ++ [Some null])) (s ++ [Some []]).
  Proof.
    intros w s (R1 & R2 & R3 & R4). split; [|split; [|split]]; cbn [hp objs].
    - rewrite !app_length. cbn. lia.
    - intros i o l Hi Ho Hl. apply nth_snoc in Ho. destruct Ho as [Ho|[E _]]; [|congruence].
      apply nth_snoc in Hl. destruct Hl as [Hl|[E _]].
      + apply (R2 i); auto. discriminate.
      + assert (i < length (objs w))%nat by (apply nth_error_Some; congruence). lia.
    - intros i j a1 a2 b Hi Hj Oi Oj. apply nth_snoc in Oi. destruct Oi as [Oi|[E _]]; [|congruence].
      apply nth_snoc in Oj. destruct Oj as [Oj|[E _]]; [|congruence]. apply R3; auto; discriminate.
    - intros b c H. destruct (R4 _ _ H) as (i & a1 & _ & Q1 & Q2). exists i, a1.
      assert (i < length (objs w))%nat by (apply nth_error_Some; congruence).
      split; [intro E; injection E; lia|]. split; [|exact Q2]. rewrite nth_error_app1 by lia. exact Q1.
  Qed.

  Lemma build_spec : forall (h : heap A) (l : list A) (src : heap A -> nat -> outcome A), N.of_nat (length l) * sz < 2 ^ 64 ->
    (forall i x, nth_error l i = Some x -> src (h ++ [Some (raw_storage (length l))]) i = Ok x) ->
    build sz h (N.of_nat (length l)) src = Ok (h ++ [Some (objcells l)], mkarr (Some (length h)) (N.of_nat (length l))).
  Proof.
    intros h l src Hl Hs. unfold build, alloc, wmul. rewrite wrap_small by exact Hl. rewrite N.div_mul by lia.
    rewrite Nat2N.id, nth_app_new.
    pose proof (construct_from_spec l [] (src (h ++ [Some (raw_storage (length l))])) 0 Hs) as C.
    cbn [length map app repeat] in C. rewrite Nat.add_0_r, app_nil_r in C. change (repeat Raw (length l)) with (@raw_storage A (length l)) in C. unfold Cells.cells, heap in *. rewrite C. cbn [bind].
    rewrite lset_app_new. reflexivity.
  Qed.
  Lemma build_repeat : forall (h : heap A) n (src : heap A -> nat -> outcome A) x, n * sz < 2 ^ 64 ->
    (n = 0 \/ src (h ++ [Some (raw_storage (N.to_nat n))]) = fun _ => Ok x) ->
    build sz h n src = Ok (h ++ [Some (objcells (repeat x (N.to_nat n)))], mkarr (Some (length h)) n).
  Proof.
    intros h n src x Hn Hs.
    assert (length (repeat x (N.to_nat n)) = N.to_nat n) as L by apply repeat_length.
    pose proof (build_spec h (repeat x (N.to_nat n)) src) as B. rewrite L, N2Nat.id in B. apply B; [exact Hn|].
    intros i y E. destruct Hs as [-> | Hs]; [destruct i; discriminate|]. rewrite Hs. f_equal.
    symmetry. apply nth_error_In in E. apply repeat_spec in E. exact E.
  Qed.

  Lemma elements_good : forall h a l i x, good h (Some a) (Some l) -> nth_error l i = Some x -> elements a h i = Ok x.
  Proof.
    intros h a l i x G E. unfold elements. destruct G as [(_ & _ & ->)|(b & P & B & _)]; [destruct i; discriminate|].
    rewrite P. cbn [cells_of]. rewrite B. cbn [bind]. apply cread_Ok. rewrite nth_error_map, E. reflexivity.
  Qed.
  Lemma good_size : forall h a l, good h (Some a) (Some l) -> asize a = N.of_nat (length l).
  Proof. intros h a l [(_ & Z & ->)|(b & _ & _ & L & _)]; [exact Z|exact L]. Qed.
  Lemma good_fits : forall h a l, good h (Some a) (Some l) -> N.of_nat (length l) * sz < 2 ^ 64.
  Proof. intros h a l [(_ & Z & ->)|(b & _ & _ & L & F)]; [reflexivity|exact F]. Qed.
  Lemma index_good : forall w a l i, good (hp w) (Some a) (Some l) ->
    index w a i = match nth_error l (N.to_nat i) with Some x => Ok x | None => Contract end.
  Proof.
    intros w a l i G. unfold index. rewrite (good_size _ _ _ G).
    destruct (nth_error l (N.to_nat i)) as [x|] eqn:E.
    - assert (N.to_nat i < length l)%nat by (apply nth_error_Some; congruence).
      replace (i <? N.of_nat (length l)) with true by (symmetry; apply N.ltb_lt; lia). cbn [contract bind].
      eapply elements_good; eauto.
    - apply nth_error_None in E. replace (i <? N.of_nat (length l)) with false by (symmetry; apply N.ltb_ge; lia). reflexivity.
  Qed.

  Fixpoint list_eqb (a b : list A) : bool :=
    match a, b with [], [] => true | x :: a, y :: b => eqb x y && list_eqb a b | _, _ => false end.

  Lemma eq_loop_spec : forall (l r pre pre' : list A) f g,
    length l = length r -> length pre = length pre' ->
    (forall i x, nth_error (pre ++ l) (N.to_nat i) = Some x -> f i = Ok x) ->
    (forall i x, nth_error (pre' ++ r) (N.to_nat i) = Some x -> g i = Ok x) ->
    eq_loop eqb (length l) (N.of_nat (length pre)) f g = Ok (list_eqb l r) /\
    ne_loop eqb (length l) (N.of_nat (length pre)) f g = Ok (negb (list_eqb l r)).
  Proof.
    induction l as [|x l IH]; intros [|y r] pre pre' f g L L' Hf Hg; try discriminate; [split; reflexivity|].
    cbn [length eq_loop ne_loop list_eqb].
    assert (f (N.of_nat (length pre)) = Ok x) as ->.
    { apply Hf. rewrite Nat2N.id, nth_error_app2, Nat.sub_diag by lia. reflexivity. }
    assert (g (N.of_nat (length pre)) = Ok y) as ->.
    { apply Hg. rewrite Nat2N.id, L', nth_error_app2, Nat.sub_diag by lia. reflexivity. }
    cbn [bind]. destruct (eqb x y); [|split; reflexivity]. cbn [andb negb].
    specialize (IH r (pre ++ [x]) (pre' ++ [y]) f g). rewrite !app_length in IH. cbn [length] in IH.
    replace (N.of_nat (length pre) + 1) with (N.of_nat (length pre + 1)) by lia. apply IH.
    - cbn in L. lia.
    - lia.
    - intros i z E. rewrite <- app_assoc in E. apply Hf. exact E.
    - intros i z E. rewrite <- app_assoc in E. apply Hg. exact E.
  Qed.
  Lemma list_eqb_len : forall l r, length l <> length r -> list_eqb l r = false.
  Proof.
    induction l; intros [|y r] H; cbn in *; try congruence; auto. rewrite IHl by lia. apply andb_false_r.
  Qed.
  Lemma fixed_ok : forall l r, fixed_eq eqb l r = Ok (list_eqb l r) /\ fixed_ne eqb l r = Ok (negb (list_eqb l r)).
  Proof.
    intros l r. unfold fixed_eq, fixed_ne. destruct (N.eqb_spec (N.of_nat (length l)) (N.of_nat (length r))) as [E|E].
    - apply (eq_loop_spec l r [] []); [lia|reflexivity| |]; cbn [app]; intros i x H.
      + apply aget_Ok. exact H.
      + unfold fixed_index. assert (N.to_nat i < length r)%nat by (apply nth_error_Some; congruence).
        replace (i <? N.of_nat (length r)) with true by (symmetry; apply N.ltb_lt; lia). apply aget_Ok. exact H.
    - rewrite list_eqb_len by lia. split; reflexivity.
  Qed.

  Lemma put_app_new : forall T (l : list T) x y n, n = length l -> put (l ++ [x]) n y = l ++ [y].
  Proof. intros. subst. rewrite put_lset. apply lset_app_new. Qed.

  Lemma add_build : forall w s l (src : heap A -> nat -> outcome A), rep None w s -> N.of_nat (length l) * sz < 2 ^ 64 ->
    (forall i x, nth_error l i = Some x -> src (hp w ++ [Some (raw_storage (length l))]) i = Ok x) ->
    exists w', add w (build sz (hp w) (N.of_nat (length l)) src) = Ok w' /\ rep None w' (s ++ [Some l]).
  Proof.
    intros w s l src R Hl Hs. rewrite build_spec by assumption. cbn [add bind]. eexists. split; [reflexivity|].
    pose proof (close_fresh _ _ _ l (new_hole _ _ R) ltac:(cbn [objs]; rewrite app_length; cbn; lia) Hl) as C.
    cbn [hp objs] in C. rewrite lset_app_new in C. rewrite put_app_new in C by (destruct R as [R _]; exact R). exact C.
  Qed.

  Lemma sget_nth : forall (s : store A) k l, sget s k = Some l -> nth_error s k = Some (Some l).
  Proof. intros s k l H. unfold sget in H. destruct (nth_error s k) as [[?|]|]; congruence. Qed.

  Lemma step_rep : forall w s o, rep None w s -> fits sz o -> no_self o ->
    match ideal eqb dflt s o with
    | Some (Some (s', r)) => exists w', step eqb sz dflt w o = Ok (w', r) /\ rep None w' s'
    | Some None => step eqb sz dflt w o = Contract
    | None => True
    end.
  Proof.
    intros w s o R Hf Hn. pose proof (fun k l => rep_get w s k l None R ltac:(discriminate)) as G.
    destruct o as [|n|n x|vs|j|j|k n x|k j|k j|k|k i|k i x|k j|k j|k]; cbn [ideal step fits no_self] in *.
    - (* New *) eexists. split; [reflexivity|].
      pose proof (close_null _ _ _ (new_hole _ _ R) ltac:(cbn [objs]; rewrite app_length; cbn; lia)) as C.
      cbn [hp objs] in C. rewrite lset_app_new, put_app_new in C by (destruct R as [R _]; exact R). exact C.
    - (* NewSized *)
      destruct (add_build w s (repeat dflt (N.to_nat n)) (fun _ _ => Ok dflt) R) as (w' & E & R').
      + rewrite repeat_length, N2Nat.id. exact Hf.
      + intros i y Q. apply nth_error_In in Q. apply repeat_spec in Q. congruence.
      + rewrite repeat_length, N2Nat.id in E. rewrite E. cbn [bind]. eauto.
    - (* Filled *)
      destruct (add_build w s (repeat x (N.to_nat n)) (fun _ _ => Ok x) R) as (w' & E & R').
      + rewrite repeat_length, N2Nat.id. exact Hf.
      + intros i y Q. apply nth_error_In in Q. apply repeat_spec in Q. congruence.
      + rewrite repeat_length, N2Nat.id in E. rewrite E. cbn [bind]. eauto.
    - (* NewFrom *)
      destruct (add_build w s vs (values vs) R Hf) as (w' & E & R').
      + intros i x Q. unfold values. apply aget_Ok. exact Q.
      + rewrite E. cbn [bind]. eauto.
    - (* CopyNew *)
      destruct (sget s j) as [l|] eqn:Sj; [|exact Logic.I]. destruct (G _ _ Sj) as (a & Ga & Na & Go).
      rewrite Ga. cbn [bind]. rewrite (good_size _ _ _ Go).
      destruct (add_build w s l (elements a) R (good_fits _ _ _ Go)) as (w' & E & R').
      + intros i x Q. eapply elements_good; [apply good_app; exact Go|exact Q].
      + rewrite E. cbn [bind]. eauto.
    - (* MoveNew *)
      destruct (sget s j) as [l|] eqn:Sj; [|exact Logic.I]. destruct (G _ _ Sj) as (a & Ga & Na & Go).
      rewrite Ga. cbn [bind]. eexists. split; [reflexivity|].
      assert (j < length (objs w))%nat as Hj by (apply nth_error_Some; congruence).
      assert (length (objs w) = length s) as HL by apply R.
      pose proof (steal _ _ _ j l a (new_hole _ _ R) ltac:(cbn [objs]; rewrite app_length; cbn; lia) ltac:(lia)
        ltac:(rewrite nth_error_app1 by lia; apply sget_nth; exact Sj)
        ltac:(cbn [objs]; rewrite nth_error_app1 by lia; exact Na)) as C.
      apply close_null in C; [|cbn [objs]; rewrite lset_length, app_length; cbn; lia].
      cbn [hp objs] in C. rewrite lset_app_new, put_app_new in C by exact HL.
      rewrite put_lset in C. rewrite !lset_app1 in C by lia. rewrite put_lset. exact C.
    - (* Resize *)
      assert (K : forall y, sget s k <> None -> (n = 0 \/ forall a h, get w k = Ok a -> destroy_arr (hp w) a = Ok h ->
                    forall c, eval w x (h ++ [c]) = Ok y) ->
        exists w', step eqb sz dflt w (Resize k n x) = Ok (w', RUnit) /\ rep None w' (put s k (Some (repeat y (N.to_nat n))))).
      { intros y Hk He. destruct (sget s k) as [l|] eqn:Sk; [|congruence]. destruct (G _ _ Sk) as (a & Ga & Na & Go).
        cbn [step]. rewrite Ga. cbn [bind]. destruct (destroy_rep _ _ _ _ _ R Sk Ga) as (h & D & R' & _ & _).
        rewrite D. cbn [bind]. rewrite (build_repeat h n _ y Hf).
        - cbn [bind]. eexists. split; [reflexivity|].
          pose proof (close_fresh _ _ _ (repeat y (N.to_nat n)) R' ltac:(cbn [objs]; apply nth_error_Some; congruence)
                        ltac:(rewrite repeat_length, N2Nat.id; exact Hf)) as C.
          cbn [hp objs] in C. rewrite repeat_length, N2Nat.id in C. exact C.
        - destruct He as [He|He]; [left; exact He|right]. rewrite (He _ _ Ga D). reflexivity. }
      destruct x as [x|j i].
      + destruct (sget s k) as [l|] eqn:Sk; [|exact Logic.I]. apply (K x); [congruence|]. right. reflexivity.
      + destruct (sget s k) as [l|] eqn:Sk; [|exact Logic.I].
        destruct (sget s j) as [l'|] eqn:Sj; [|exact Logic.I].
        destruct (nth_error l' (N.to_nat i)) as [y|] eqn:Ey; [|exact Logic.I].
        apply (K y); [congruence|]. right. intros a h Ga D c.
        destruct (G _ _ Sj) as (a' & Ga' & Na' & Go'). cbn [eval]. rewrite Ga'. cbn [bind].
        destruct (destroy_rep _ _ _ _ _ R Sk Ga) as (h' & D' & _ & GG & _). assert (h' = h) as -> by congruence.
        eapply elements_good; [apply good_app; apply (GG j a' l'); [congruence|exact Na'|exact Go']|exact Ey].
    - (* CopyAssign *)
      destruct (sget s k) as [l|] eqn:Sk; [|exact Logic.I]. destruct (sget s j) as [l'|] eqn:Sj; [|exact Logic.I].
      destruct (G _ _ Sk) as (a & Ga & Na & Go). destruct (G _ _ Sj) as (a' & Ga' & Na' & Go').
      rewrite Ga, Ga'. cbn [bind]. destruct (Nat.eqb_spec k j) as [E|E].
      + subst j. eexists. split; [reflexivity|]. rewrite put_lset, lset_same; [exact R|]. apply sget_nth. congruence.
      + destruct (destroy_rep _ _ _ _ _ R Sk Ga) as (h & D & R' & GG & _). rewrite D. cbn [bind].
        specialize (GG j a' l' ltac:(congruence) Na' Go').
        rewrite (good_size _ _ _ Go').
        rewrite build_spec; [|apply (good_fits _ _ _ Go')|intros i x Q; eapply elements_good; [apply good_app; exact GG|exact Q]].
        cbn [bind]. eexists. split; [reflexivity|].
        apply (close_fresh _ _ _ l' R'); [cbn [objs]; apply nth_error_Some; congruence|apply (good_fits _ _ _ Go')].
    - (* MoveAssign *)
      destruct (sget s k) as [l|] eqn:Sk; [|exact Logic.I]. destruct (sget s j) as [l'|] eqn:Sj; [|exact Logic.I].
      destruct (G _ _ Sk) as (a & Ga & Na & Go). destruct (G _ _ Sj) as (a' & Ga' & Na' & Go').
      rewrite Ga. cbn [bind]. destruct (destroy_rep _ _ _ _ _ R Sk Ga) as (h & D & R' & GG & _). rewrite D. cbn [bind].
      rewrite Ga'. cbn [bind]. eexists. split; [reflexivity|].
      assert (k < length (objs w))%nat as Hk by (apply nth_error_Some; congruence).
      assert (j < length (objs w))%nat as Hj by (apply nth_error_Some; congruence).
      destruct (Nat.eq_dec j k) as [E|E].
      + subst j. rewrite lset_twice. rewrite !put_lset, lset_twice. pose proof (close_null _ _ _ R' Hk) as C. rewrite put_lset in C. exact C.
      + pose proof (steal _ _ _ j l' a' R' Hk E (sget_nth _ _ _ Sj) Na') as C.
        apply close_null in C; [exact C|]. cbn [objs]. rewrite lset_length. exact Hj.
    - (* Destroy *)
      destruct (sget s k) as [l|] eqn:Sk; [|exact Logic.I]. destruct (G _ _ Sk) as (a & Ga & Na & Go).
      rewrite Ga. cbn [bind]. destruct (destroy_rep _ _ _ _ _ R Sk Ga) as (h & D & R' & _). rewrite D. cbn [bind].
      eexists. split; [reflexivity|]. apply (close_gone _ _ _ R'). cbn [objs]. apply nth_error_Some. congruence.
    - (* Get *)
      destruct (sget s k) as [l|] eqn:Sk; [|exact Logic.I]. destruct (G _ _ Sk) as (a & Ga & Na & Go).
      rewrite Ga. cbn [bind]. rewrite (index_good _ _ _ i Go). destruct (nth_error l (N.to_nat i)); cbn [bind]; [|reflexivity].
      eauto.
    - (* Set_ *)
      destruct (sget s k) as [l|] eqn:Sk; [|exact Logic.I]. destruct (G _ _ Sk) as (a & Ga & Na & Go).
      rewrite Ga. cbn [bind]. rewrite (good_size _ _ _ Go). destruct (N.ltb_spec i (N.of_nat (length l))) as [Hi|Hi]; [|reflexivity].
      cbn [contract bind]. destruct Go as [(_ & _ & ->)|(b & P & B & L & F)]; [cbn in Hi; lia|].
      rewrite P. cbn [cells_of]. rewrite B. cbn [bind].
      destruct (nth_error l (N.to_nat i)) as [y|] eqn:Ey; [|apply nth_error_None in Ey; lia].
      rewrite (assign_Obj _ _ y) by (rewrite nth_error_map, Ey; reflexivity). cbn [bind put_cells].
      eexists. split; [reflexivity|].
      assert (lset (objcells l) (N.to_nat i) (Obj x) = objcells (put l (N.to_nat i) x)) as ->.
      { rewrite put_lset. generalize (N.to_nat i) as m. clear. induction l; intros [|m]; cbn; auto. f_equal. auto. }
      assert (length (put l (N.to_nat i) x) = length l) as Lp by (rewrite put_lset; apply lset_length).
      assert (b < length (hp w))%nat as Hb by (apply nth_error_Some; congruence).
      destruct R as (R1 & R2 & R3 & R4). rewrite (put_lset _ s). split; [|split; [|split]]; cbn [hp objs].
      + rewrite lset_length. exact R1.
      + intros m o l' _ Ho Hl. rewrite lset_nth in Hl. destruct (Nat.eqb_spec k m) as [E|E].
        * destruct (k <? length s)%nat; [|discriminate]. injection Hl as <-. subst m. assert (o = Some a) as -> by congruence.
          right. exists b. rewrite Lp. split; [exact P|]. split; [apply lset_nth_eq; exact Hb|auto].
        * specialize (R2 m o l' ltac:(discriminate) Ho Hl). destruct o as [a'|], l' as [l'|]; try exact R2.
          destruct R2 as [Q|(b' & Q1 & Q2 & Q3)]; [left; exact Q|right]. exists b'. split; [exact Q1|]. split; [|exact Q3].
          rewrite lset_nth_neq; [exact Q2|]. intro; subst b'. apply E. apply (R3 k m a a' b); try discriminate; assumption.
      + exact R3.
      + intros b' c H. rewrite lset_nth in H. destruct (Nat.eqb_spec b b') as [E|E]; [subst b'|apply R4 in H; exact H].
        exists k, a. split; [discriminate|]. auto.
    - (* Eq *)
      destruct (sget s k) as [l|] eqn:Sk; [|exact Logic.I]. destruct (sget s j) as [l'|] eqn:Sj; [|exact Logic.I].
      destruct (G _ _ Sk) as (a & Ga & Na & Go). destruct (G _ _ Sj) as (a' & Ga' & Na' & Go').
      rewrite Ga, Ga'. cbn [bind]. rewrite (good_size _ _ _ Go), (good_size _ _ _ Go').
      fold list_eqb. destruct (N.eqb_spec (N.of_nat (length l)) (N.of_nat (length l'))) as [E|E].
      + rewrite Nat2N.id. change 0 with (N.of_nat (@length A [])).
        rewrite (proj1 (eq_loop_spec l l' [] [] (fun i => elements a (hp w) (N.to_nat i)) (index w a') ltac:(lia) eq_refl
          (fun i x Q => elements_good _ _ _ _ _ Go Q)
          ltac:(intros i x Q; cbn [app] in Q; rewrite (index_good _ _ _ i Go'), Q; reflexivity))).
        cbn [bind]. eauto.
      + cbn [bind]. rewrite list_eqb_len by lia. eauto.
    - (* Ne *)
      destruct (sget s k) as [l|] eqn:Sk; [|exact Logic.I]. destruct (sget s j) as [l'|] eqn:Sj; [|exact Logic.I].
      destruct (G _ _ Sk) as (a & Ga & Na & Go). destruct (G _ _ Sj) as (a' & Ga' & Na' & Go').
      rewrite Ga, Ga'. cbn [bind]. rewrite (good_size _ _ _ Go), (good_size _ _ _ Go').
      fold list_eqb. destruct (N.eqb_spec (N.of_nat (length l)) (N.of_nat (length l'))) as [E|E].
      + rewrite Nat2N.id. change 0 with (N.of_nat (@length A [])).
        rewrite (proj2 (eq_loop_spec l l' [] [] (fun i => elements a (hp w) (N.to_nat i)) (index w a') ltac:(lia) eq_refl
          (fun i x Q => elements_good _ _ _ _ _ Go Q)
          ltac:(intros i x Q; cbn [app] in Q; rewrite (index_good _ _ _ i Go'), Q; reflexivity))).
        cbn [bind]. eauto.
      + cbn [bind]. rewrite list_eqb_len by lia. eauto.
    - (* Size *)
      destruct (sget s k) as [l|] eqn:Sk; [|exact Logic.I]. destruct (G _ _ Sk) as (a & Ga & Na & Go).
      rewrite Ga. cbn [bind]. rewrite (good_size _ _ _ Go). eauto.
  Qed.

  Lemma run_rep : forall os w s, rep None w s -> Forall (fits sz) os -> Forall no_self os ->
    match irun eqb dflt s os with
    | Some (Some (s', rs)) => exists w', run eqb sz dflt w os = Ok (w', rs) /\ rep None w' s'
    | Some None => run eqb sz dflt w os = Contract
    | None => True
    end.
  Proof.
    induction os as [|o os IH]; intros w s R F1 F2; cbn [irun run].
    - eauto.
    - inversion F1 as [|? ? Fa Fb]; subst. inversion F2 as [|? ? Na Nb]; subst.
      pose proof (step_rep w s o R Fa Na) as S1. destruct (ideal eqb dflt s o) as [[[s1 r]|]|]; [| |exact Logic.I].
      + destruct S1 as (w1 & E1 & R1). rewrite E1. cbn [bind]. specialize (IH w1 s1 R1 Fb Nb).
        destruct (irun eqb dflt s1 os) as [[[s2 rs]|]|]; [| |exact Logic.I].
        * destruct IH as (w2 & E2 & R2). rewrite E2. cbn [bind]. eauto.
        * rewrite IH. reflexivity.
      + rewrite S1. reflexivity.
  Qed.
End P.

(* Properties C40, C84, C85, C86. *)
From Coq Require Import NArith ZArith List Lia Bool Arith.
Import ListNotations.
From Verif Require Import Base SpanModel SpanSpec SpanProofs.
Open Scope N_scope.

(* ---- C40: sliced and strided spans ---- *)

(* A strided span that covers the elements l: for every chain of slicing calls whose two-argument
   subspans do not overflow size_t, the call chain is refused exactly when the ideal selection does
   not fit, and otherwise yields a span that covers exactly the selected elements in order.
   Missing for the full claim: two-argument subspans whose offset + count exceeds 2^64; there it is
   false, see C40_subspan_refuted. *)
Theorem C40_strided_slices_partial : forall A (mem : N -> option A) s l os,
  covers mem s l -> N.of_nat (length l) < 2 ^ 64 -> (Z.abs (stride s) < 2 ^ 63)%Z -> Forall no_wrap os ->
  match selects l os with
  | Some l' => exists s', sslices s os = Ok s' /\ covers mem s' l'
  | None => sslices s os = Contract
  end.
Proof.
  intros A mem s l os C Hl Hst Hw. pose proof (sslices_ok mem os s l C Hl Hst Hw) as H.
  destruct (selects l os); [|exact H]. destruct H as (s' & E & C' & _). eauto.
Qed.

(* Every access to a strided span: index, front, back and iteration read exactly the covered
   elements; out of range indices are refused. In particular nothing but the addresses of the
   covered elements is read, since the memory may hold nothing else. *)
Theorem C40_strided_access : forall A (mem : N -> option A) s l,
  covers mem s l -> N.of_nat (length l) < 2 ^ 64 -> mem 0 = None -> sdata s < 2 ^ 64 ->
  (forall i, sindex mem s i = match nth_error l (N.to_nat i) with Some x => Ok x | None => Contract end) /\
  sfront mem s = match l with x :: _ => Ok x | [] => Contract end /\
  sback mem s = match rev l with x :: _ => Ok x | [] => Contract end /\
  swalk_all mem s = Ok l.
Proof.
  intros A mem s l C Hl H0 Hd. pose proof (covers_len _ _ _ C) as Hs.
  assert (forall i, sindex mem s i = match nth_error l (N.to_nat i) with Some x => Ok x | None => Contract end) as HI.
  { intro i. unfold sindex. rewrite Hs. destruct (nth_error l (N.to_nat i)) as [x|] eqn:E.
    - assert (N.to_nat i < length l)%nat by (apply nth_error_Some; congruence).
      replace (i <? N.of_nat (length l)) with true by (symmetry; apply N.ltb_lt; lia).
      cbn [contract bind]. rewrite at_place. eapply covers_at; eauto.
    - apply nth_error_None in E.
      replace (i <? N.of_nat (length l)) with false by (symmetry; apply N.ltb_ge; lia). reflexivity. }
  split; [exact HI|]. split; [|split].
  - unfold sfront. rewrite Hs. destruct l as [|x l]; [reflexivity|].
    replace (0 <? N.of_nat (length (x :: l))) with true by (symmetry; apply N.ltb_lt; cbn [length]; lia).
    cbn [contract bind].
    replace (sdata s) with (place (sdata s) (stride s) 0).
    + apply (covers_at mem s _ 0%nat x C). reflexivity.
    + apply N2Z.inj. rewrite place_Z, Z.mod_small; lia.
  - unfold sback. rewrite Hs. destruct (rev l) as [|x r] eqn:E.
    + apply (f_equal (@rev A)) in E. rewrite rev_involutive in E. subst l. reflexivity.
    + assert (nth_error (rev l) 0 = Some x) as E0 by (rewrite E; reflexivity).
      apply nth_rev_some in E0. destruct E0 as [L E0].
      replace (0 <? N.of_nat (length l)) with true by (symmetry; apply N.ltb_lt; lia).
      cbn [contract bind]. rewrite at_place. apply (covers_at mem s l _ x C).
      rewrite <- E0. f_equal. lia.
  - unfold swalk_all. rewrite Hs. apply walk_covers; auto; [lia|]. apply C.
Qed.

(* A projected span covers the members of the covered elements. *)
Theorem C40_strided_project : forall A B (mem : N -> option A) (mem' : N -> option B) (f : A -> B) d s l,
  covers mem s l ->
  (* the member lies d bytes into every element *)
  (forall a x, mem a = Some x -> mem' (wadd 64 a d) = Some (f x)) ->
  covers mem' (sproject s d) (map f l).
Proof.
  intros A B mem mem' f d s l [Hs H] Hm. split; cbn [sproject ssize sdata stride].
  - rewrite map_length. exact Hs.
  - intros j y E. rewrite nth_error_map in E. destruct (nth_error l j) as [x|] eqn:Ex; [|discriminate].
    cbn in E. injection E as <-. rewrite place_member. apply Hm. apply H. exact Ex.
Qed.

(* The same for contiguous spans. Missing for the full claim: the same overflow. *)
Theorem C40_span_slices_partial : forall A (m : list A) s l os,
  views m s l -> Forall no_wrap os -> ~ In SRev os ->
  match selects l os with
  | Some l' => exists s', cslices s os = Ok s' /\ views m s' l'
  | None => cslices s os = Contract
  end.
Proof. intros. apply cslices_ok; assumption. Qed.

Theorem C40_span_access : forall A (m : list A) s l, views m s l ->
  (forall i, index m s i = match nth_error l (N.to_nat i) with Some x => Ok x | None => Contract end) /\
  front m s = match l with x :: _ => Ok x | [] => Contract end /\
  back m s = match rev l with x :: _ => Ok x | [] => Contract end /\
  contents m s = Ok l.
Proof.
  intros A m s l V. pose proof (views_len _ _ _ V) as Hl.
  split; [|split; [|split]].
  - intro i. unfold index. rewrite <- Hl. destruct (nth_error l (N.to_nat i)) as [x|] eqn:E.
    + assert (N.to_nat i < length l)%nat by (apply nth_error_Some; congruence).
      replace (i <? N.of_nat (length l)) with true by (symmetry; apply N.ltb_lt; lia).
      cbn [contract bind]. rewrite <- (N2Nat.id i) at 1. eapply views_nth; eauto.
    + apply nth_error_None in E.
      replace (i <? N.of_nat (length l)) with false by (symmetry; apply N.ltb_ge; lia). reflexivity.
  - unfold front. rewrite <- Hl. destruct l as [|x l]; [reflexivity|].
    replace (0 <? N.of_nat (length (x :: l))) with true by (symmetry; apply N.ltb_lt; cbn [length]; lia).
    cbn [contract bind]. rewrite <- (N.add_0_r (off s)). apply (views_nth _ _ _ 0%nat x V). reflexivity.
  - unfold back. rewrite <- Hl. destruct (rev l) as [|x r] eqn:E.
    + apply (f_equal (@rev A)) in E. rewrite rev_involutive in E. subst l. reflexivity.
    + assert (nth_error (rev l) 0 = Some x) as E0 by (rewrite E; reflexivity).
      apply nth_rev_some in E0. destruct E0 as [L E0].
      replace (0 <? N.of_nat (length l)) with true by (symmetry; apply N.ltb_lt; lia).
      cbn [contract bind]. 
      replace (N.of_nat (length l) - 1) with (N.of_nat (length l - 1 - 0)) by lia.
      eapply views_nth; eauto.
  - apply contents_spec. exact V.
Qed.

(* subspan(1, SIZE_MAX) passes the contract check of a three-element span, and indexing the result
   reads outside the base range; for both kinds of span. *)
Theorem C40_subspan_refuted :
  (exists (m : list N) s l s', views m s l /\ subspan2 s 1 SIZE_MAX = Ok s' /\ index m s' 5 = UB) /\
  (exists (mem : N -> option N) s l s', covers mem s l /\ ssub2 s 1 SIZE_MAX = Ok s' /\ sindex mem s' 5 = UB).
Proof.
  split.
  - exists [7; 8; 9], (mkspan 0 3), [7; 8; 9]. eexists.
    split; [split; [vm_compute; discriminate|reflexivity]|].
    split; [reflexivity|]. reflexivity.
  - exists (fun a => if a =? 1000 then Some 7 else if a =? 1004 then Some 8 else None), (mkss 1000 2 4), [7; 8].
    eexists. split; [split; [reflexivity|]|].
    + intros [|[|[|j]]] x H; cbn in H; try discriminate; injection H as <-; reflexivity.
    + split; reflexivity.
Qed.

(* A chain on a span of every second int, backwards, with memory holding those elements only. *)
Definition ex_mem (a : N) : option N :=
  if a =? 1000 then Some 10 else if a =? 1008 then Some 11 else if a =? 1016 then Some 12
  else if a =? 1024 then Some 13 else None.
Example C40_ex_covers : covers ex_mem (mkss 1000 4 8) [10; 11; 12; 13].
Proof.
  split; [reflexivity|].
  intros [|[|[|[|[|j]]]]] x H; cbn in H; try discriminate; injection H as <-; reflexivity.
Qed.
Example C40_ex : exists s', sslices (mkss 1000 4 8) [SRev; SSub 1 3; SLast 2] = Ok s'
  /\ selects [10; 11; 12; 13] [SRev; SSub 1 3; SLast 2] = Some [11; 10]
  /\ swalk_all ex_mem s' = Ok [11; 10] /\ sindex ex_mem s' 2 = Contract.
Proof. eexists. split; [vm_compute; reflexivity|]. split; [reflexivity|]. split; vm_compute; reflexivity. Qed.
Example C40_ex_refused : sslices (mkss 1000 4 8) [SFirst 2; SLast 3] = Contract.
Proof. reflexivity. Qed.
Example C40_ex_span : views [1; 2; 3; 4; 5] (mkspan 1 3) [2; 3; 4]
  /\ selects [2; 3; 4] [SFrom 1; SFirst 1] = Some [3]
  /\ cslices (mkspan 1 3) [SFrom 1; SFirst 1] = Ok (mkspan 2 1).
Proof. split; [split; [vm_compute; discriminate|reflexivity]|]. split; reflexivity. Qed.
Example C40_ex_project :
  covers (fun a => if a =? 1004 then Some true else if a =? 1012 then Some false else if a =? 1020 then Some true
                   else if a =? 1028 then Some false else None)
         (sproject (mkss 1000 4 8) 4) (map N.even [10; 11; 12; 13]).
Proof.
  split; [reflexivity|].
  intros [|[|[|[|[|j]]]]] x H; cbn in H; try discriminate; injection H as <-; reflexivity.
Qed.

(* ---- C84: copying and comparing spans ---- *)

(* copy_from between spans of one allocation that share no element: exactly the source contents
   arrive in the target and nothing else changes; unequal sizes are refused. *)
Theorem C84_copy_from : forall A triv (m : list A) s a t b,
  views m s a -> views m t b -> (off s + size s <= off t \/ off t + size t <= off s) ->
  copy_from triv m s t =
  if size t =? size s
  then Ok (firstn (N.to_nat (off s)) m ++ b ++ skipn (N.to_nat (off s + size s)) m)
  else Contract.
Proof.
  intros A triv m s a t b [Hs _] [Ht ->] Hd. unfold copy_from.
  destruct (N.eqb_spec (size t) (size s)) as [E|E]; [|reflexivity]. cbn [contract bind]. rewrite E in *.
  assert (copy_loop (N.to_nat (size s)) m (off s) (off t) =
    Ok (firstn (N.to_nat (off s)) m ++ firstn (N.to_nat (size s)) (skipn (N.to_nat (off t)) m) ++
        skipn (N.to_nat (off s + size s)) m)) as K.
  { rewrite copy_loop_spec by lia. rewrite N2Nat.inj_add. reflexivity. }
  destruct triv; [|exact K]. unfold memcpy. destruct (N.eqb_spec (size s) 0) as [Z|Z].
  - rewrite <- K, Z. reflexivity.
  - replace (apart (size s) (off s) (off t)) with true; [exact K|].
    symmetry. unfold apart. apply orb_true_iff. rewrite !N.leb_le. lia.
Qed.

(* fill_from writes as many elements as fit and returns the source size. *)
Theorem C84_fill_from : forall A triv (m : list A) s a t b,
  views m s a -> views m t b -> (off s + size s <= off t \/ off t + size t <= off s) ->
  let n := N.min (size t) (size s) in
  fill_from triv m s t =
  Ok (firstn (N.to_nat (off s)) m ++ firstn (N.to_nat n) b ++ skipn (N.to_nat (off s + n)) m, size t).
Proof.
  intros A triv m s a t b [Hs _] [Ht ->] Hd n. unfold fill_from. fold n.
  assert (n <= size t /\ n <= size s) as [Hn1 Hn2] by (unfold n; lia). clearbody n.
  assert (copy_loop (N.to_nat n) m (off s) (off t) =
    Ok (firstn (N.to_nat (off s)) m ++
        firstn (N.to_nat n) (firstn (N.to_nat (size t)) (skipn (N.to_nat (off t)) m)) ++
        skipn (N.to_nat (off s + n)) m)) as K.
  { rewrite copy_loop_spec by lia. rewrite N2Nat.inj_add, firstn_firstn.
    replace (Init.Nat.min (N.to_nat n) (N.to_nat (size t))) with (N.to_nat n) by lia. reflexivity. }
  destruct triv; [|rewrite K; reflexivity]. unfold memcpy. destruct (N.eqb_spec n 0) as [Z|Z].
  - subst n. change (copy_loop (N.to_nat 0) m (off s) (off t)) with (Ok m) in K. rewrite K. reflexivity.
  - replace (apart n (off s) (off t)) with true; [cbn [defined bind]; rewrite K; reflexivity|].
    symmetry. unfold apart. apply orb_true_iff. rewrite !N.leb_le. lia.
Qed.

(* equals_content is equality of the two contents, wherever they lie (they may overlap). *)
Theorem C84_equals_content : forall A (eqb : A -> A -> bool) (m : list A) s a t b,
  (forall x y, eqb x y = true <-> x = y) -> views m s a -> views m t b ->
  exists r, equals_content eqb m s t = Ok r /\ (r = true <-> a = b).
Proof.
  intros A eqb m s a t b He Va Vb. pose proof (views_len _ _ _ Va) as La.
  pose proof (views_len _ _ _ Vb) as Lb. unfold equals_content.
  destruct (N.eqb_spec (size s) (size t)) as [E|E].
  - destruct Va as [Hs ->]. destruct Vb as [Ht ->]. rewrite <- E in *.
    assert (forall n i j, (N.to_nat i + n <= length m)%nat -> (N.to_nat j + n <= length m)%nat ->
      exists r, eq_loop eqb n m i j = Ok r /\
        (r = true <-> firstn n (skipn (N.to_nat i) m) = firstn n (skipn (N.to_nat j) m))) as K.
    { induction n; intros i j Hi Hj; cbn [eq_loop].
      - exists true. split; [reflexivity|]. cbn. tauto.
      - destruct (nth_error m (N.to_nat i)) as [x|] eqn:Ex; [|apply nth_error_None in Ex; lia].
        destruct (nth_error m (N.to_nat j)) as [y|] eqn:Ey; [|apply nth_error_None in Ey; lia].
        unfold rd, aget. rewrite Ex, Ey. cbn [bind].
        rewrite (skipn_cons _ _ _ Ex), (skipn_cons _ _ _ Ey). cbn [firstn].
        destruct (eqb x y) eqn:Exy.
        + apply He in Exy. subst y. specialize (IHn (i + 1) (j + 1) ltac:(lia) ltac:(lia)).
          replace (N.to_nat (i + 1)) with (S (N.to_nat i)) in IHn by lia.
          replace (N.to_nat (j + 1)) with (S (N.to_nat j)) in IHn by lia.
          destruct IHn as (r & R1 & R2). exists r. split; [exact R1|]. rewrite R2.
          split; [intros ->; reflexivity|]. intro Q. congruence.
        + exists false. split; [reflexivity|]. split; [discriminate|]. intro Q.
          assert (x = y) as Q' by congruence. apply He in Q'. congruence. }
    apply K; lia.
  - exists false. split; [reflexivity|]. split; [discriminate|]. intros ->. lia.
Qed.

Example C84_ex : copy_from true [1; 2; 3; 4; 5; 6] (mkspan 0 2) (mkspan 3 2) = Ok [4; 5; 3; 4; 5; 6]
  /\ fill_from false [1; 2; 3; 4; 5; 6] (mkspan 0 2) (mkspan 3 3) = Ok ([4; 5; 3; 4; 5; 6], 3)
  /\ copy_from true [1; 2; 3] (mkspan 0 2) (mkspan 2 1) = Contract
  /\ equals_content N.eqb [1; 2; 1; 2] (mkspan 0 2) (mkspan 2 2) = Ok true.
Proof. split; [|split; [|split]]; reflexivity. Qed.
(* overlapping ranges are outside the documented use *)
Example C84_overlap_ex : copy_from true [1; 2; 3] (mkspan 1 2) (mkspan 0 2) = UB
  /\ copy_from false [1; 2; 3] (mkspan 1 2) (mkspan 0 2) = Ok [1; 1; 1].
Proof. split; reflexivity. Qed.

(* ---- C85: clamped and wrapped indices ---- *)

Lemma sint_small : forall v, v < 2 ^ 63 -> sint v = Z.of_N v.
Proof. intros v H. unfold sint. apply N.ltb_lt in H. rewrite H. reflexivity. Qed.

Lemma rdz_views : forall A (m : list A) s l z x, views m s l -> (0 <= z)%Z ->
  nth_error l (Z.to_nat z) = Some x -> rdz m s z = Ok x.
Proof.
  intros A m s l z x V Hz E. unfold rdz.
  replace (0 <=? Z.of_N (off s) + z)%Z with true by (symmetry; apply Z.leb_le; lia). cbn [defined bind].
  replace (Z.to_N (Z.of_N (off s) + z)) with (off s + N.of_nat (Z.to_nat z)) by lia.
  eapply views_nth; eauto.
Qed.

(* No object is larger than 2^63 - 1, so the length of the allocation fits int64_t. *)
Theorem C85_clamped : forall A (m : list A) s l i,
  views m s l -> N.of_nat (length m) < 2 ^ 63 ->
  match l with
  | [] => clamped_index m s i = Contract
  | _ => exists x, clamped_index m s i = Ok x /\
         nth_error l (Z.to_nat (Z.max 0 (Z.min i (Z.of_nat (length l) - 1)))) = Some x
  end.
Proof.
  intros A m s l i V Hm. pose proof (views_len _ _ _ V) as Hl. destruct l as [|y l].
  - unfold clamped_index. rewrite <- Hl. reflexivity.
  - set (k := Z.max 0 (Z.min i (Z.of_nat (length (y :: l)) - 1))).
    assert (exists x, nth_error (y :: l) (Z.to_nat k) = Some x) as [x E].
    { destruct (nth_error (y :: l) (Z.to_nat k)) eqn:E; [eauto|].
      apply nth_error_None in E. cbn [length] in *. lia. }
    exists x. split; [|exact E]. unfold clamped_index. rewrite <- Hl.
    replace (0 <? N.of_nat (length (y :: l))) with true by (symmetry; apply N.ltb_lt; cbn [length]; lia).
    cbn [contract bind].
    assert (N.of_nat (length (y :: l)) <= N.of_nat (length m)) by (destruct V; lia).
    rewrite sint_small by lia.
    replace (clamp i 0 (Z.of_N (N.of_nat (length (y :: l)) - 1))) with k.
    + eapply rdz_views; eauto. unfold k. lia.
    + unfold clamp, k. cbn [length]. destruct (Z.ltb_spec i 0); [lia|].
      destruct (Z.ltb_spec (Z.of_N (N.of_nat (S (length l)) - 1)) i); lia.
Qed.

Theorem C85_wrapped : forall A (m : list A) s l i,
  views m s l -> N.of_nat (length m) < 2 ^ 63 ->
  match l with
  | [] => wrapped_index m s i = Contract
  | _ => exists x, wrapped_index m s i = Ok x /\
         nth_error l (Z.to_nat (i mod Z.of_nat (length l))) = Some x
  end.
Proof.
  intros A m s l i V Hm. pose proof (views_len _ _ _ V) as Hl. destruct l as [|y l].
  - unfold wrapped_index. rewrite <- Hl. reflexivity.
  - set (n := Z.of_nat (length (y :: l))).
    assert (0 < n)%Z as Hn by (unfold n; cbn [length]; lia).
    pose proof (Z.mod_pos_bound i n Hn) as Hk.
    assert (exists x, nth_error (y :: l) (Z.to_nat (i mod n)) = Some x) as [x E].
    { destruct (nth_error (y :: l) (Z.to_nat (i mod n))) eqn:E; [eauto|].
      apply nth_error_None in E. unfold n in *. lia. }
    exists x. split; [|exact E]. unfold wrapped_index. rewrite <- Hl.
    replace (0 <? N.of_nat (length (y :: l))) with true by (symmetry; apply N.ltb_lt; cbn [length]; lia).
    cbn [contract bind].
    assert (N.of_nat (length (y :: l)) <= N.of_nat (length m)) by (destruct V; lia).
    rewrite sint_small by lia. rewrite nat_N_Z. fold n.
    assert ((if (Z.rem i n <? 0)%Z then (Z.rem i n + n)%Z else Z.rem i n) = (i mod n)%Z) as ->.
    { pose proof (Z.quot_rem' i n) as Q. pose proof (Z.rem_bound_abs i n ltac:(lia)) as B.
      destruct (Z.ltb_spec (Z.rem i n) 0).
      - apply (Z.mod_unique i n (Z.quot i n - 1)); [left; lia|lia].
      - apply (Z.mod_unique i n (Z.quot i n)); [left; lia|lia]. }
    eapply rdz_views; eauto. lia.
Qed.

Example C85_ex : clamped_index [1; 2; 3; 4] (mkspan 1 3) (-5) = Ok 2 /\ clamped_index [1; 2; 3; 4] (mkspan 1 3) 9 = Ok 4
  /\ wrapped_index [1; 2; 3; 4] (mkspan 1 3) (-1) = Ok 4 /\ wrapped_index [1; 2; 3; 4] (mkspan 1 3) 4 = Ok 3
  /\ views [1; 2; 3; 4] (mkspan 1 3) [2; 3; 4].
Proof. repeat (split; [reflexivity|]). reflexivity. Qed.

(* ---- C86: reinterpretation keeps the byte range ---- *)

(* A span of size elements of t bytes inside an allocation of total bytes: reinterpret_as<U> is
   refused exactly when u does not divide the byte count, and otherwise covers exactly the same
   bytes; reinterpreting back gives the original span. as_bytes covers the same bytes. *)
Theorem C86_reinterpret : forall t u s total,
  0 < t -> 0 < u -> off s + size s * t <= total -> total < 2 ^ 64 ->
  size (as_bytes t s) = size s * t /\ off (as_bytes t s) = off s /\
  (~ (u | size s * t) -> reinterpret_as t u s = Contract) /\
  ((u | size s * t) -> exists s', reinterpret_as t u s = Ok s' /\ off s' = off s /\ size s' * u = size s * t /\
                       reinterpret_as u t s' = Ok s).
Proof.
  intros t u s total Ht Hu Hs Hb.
  assert (wmul 64 (size s) t = size s * t) as W by (apply wrap_small; lia).
  unfold as_bytes, reinterpret_as. rewrite W. cbn [size off].
  split; [reflexivity|]. split; [reflexivity|]. split.
  - intro D. destruct (N.eqb_spec ((size s * t) mod u) 0) as [E|E]; [|reflexivity].
    exfalso. apply D. apply N.mod_divide; lia.
  - intros [k E]. rewrite E. rewrite N.mod_mul by lia. cbn [N.eqb contract bind].
    rewrite N.div_mul by lia.
    eexists. split; [reflexivity|]. cbn [size off]. split; [reflexivity|]. split; [reflexivity|].
    unfold wmul. rewrite wrap_small by lia. rewrite <- E, N.mod_mul by lia. cbn [N.eqb contract bind].
    rewrite N.div_mul by lia. destruct s; reflexivity.
Qed.
Example C86_ex : reinterpret_as 4 2 (mkspan 8 3) = Ok (mkspan 8 6) /\ reinterpret_as 4 8 (mkspan 8 3) = Contract.
Proof. split; reflexivity. Qed.

Print Assumptions C40_strided_slices_partial.
Print Assumptions C40_strided_access.
Print Assumptions C40_strided_project.
Print Assumptions C40_span_slices_partial.
Print Assumptions C40_span_access.
Print Assumptions C40_subspan_refuted.
Print Assumptions C84_copy_from.
Print Assumptions C84_fill_from.
Print Assumptions C84_equals_content.
Print Assumptions C85_clamped.
Print Assumptions C85_wrapped.
Print Assumptions C86_reinterpret.

(* C132: how often sort.hh compares. *)
From Coq Require Import ZArith List Bool Lia Permutation.
From Verif Require Import Base SortModel SortSpec SortProofs SortCostModel SortCostProofs.
Import ListNotations.
Open Scope Z_scope.

Definition len {A} (l : list A) : Z := Z.of_nat (length l).

(* counting changes no result *)
Theorem C132_same : forall A (less : A -> A -> bool) l start size select,
  (let! (r, _) := sort_ex_c less l start size select in Ok (fst r)) = sort_ex less l start size select.
Proof. intros. apply (val_impl less start (start + size) select). Qed.
Theorem C132_partition_same : forall A (r : A -> bool) l start size,
  (let! (x, _) := partition_ex_c r l start size in Ok x) = partition_ex r l start size.
Proof. intros. apply val_partition_loop. Qed.
Theorem C132_is_sorted_same : forall A (less : A -> A -> bool) l start size,
  (let! (x, _) := is_sorted_ex_c less l start size in Ok x) = is_sorted_ex less l start size.
Proof. intros. apply val_is_sorted_loop. Qed.

Lemma counted_ok : forall A (less : A -> A -> bool) l start size select l', sort_ex less l start size select = Ok l' ->
  exists c d, sort_ex_c less l start size select = Ok (l', c, d).
Proof.
  intros A less l start size select l' H. rewrite <- C132_same in H.
  destruct (sort_ex_c less l start size select) as [[[r c] d]| | |]; cbn in H; try discriminate. injection H as ->. eauto.
Qed.

(* sort needs at most (n^2 + 27 n) / 2 comparisons and nests at most n - 15 calls *)
Theorem C132_sort_worst_partial : forall A (less : A -> A -> bool), strict_weak less -> forall l,
  exists l' c d, sort_c less l = Ok (l', c, d) /\ sort less l = Ok l' /\
    0 <= c /\ 2 * c <= len l * len l + 27 * len l /\ 1 <= d <= Z.max 1 (len l - 15).
Proof.
  intros A less SW l. destruct (sort_sorts less SW l) as [l' [E _]].
  destruct (counted_ok _ _ _ _ _ _ _ E) as [c [d C]]. exists l', c, d. split; [exact C|]. split; [exact E|].
  unfold sort_ex_c in C. apply impl_upper in C; auto; unfold len; lia.
Qed.

Theorem C132_quickselect_worst_partial : forall A (less : A -> A -> bool), strict_weak less -> forall l k,
  (k < length l)%nat -> len l < 2 ^ 63 ->
  exists l' c d, quickselect_c less l (Z.of_nat k) = Ok (l', c, d) /\ quickselect less l (Z.of_nat k) = Ok l' /\
    0 <= c /\ 2 * c <= len l * len l + 27 * len l /\ 1 <= d <= Z.max 1 (len l - 15).
Proof.
  intros A less SW l k HK HL. destruct (quickselect_spec less SW l k HK HL) as [l' [E _]].
  destruct (counted_ok _ _ _ _ _ _ _ E) as [c [d C]]. exists l', c, d. split; [exact C|]. split; [exact E|].
  unfold sort_ex_c in C. apply impl_upper in C; auto; unfold len; lia.
Qed.

(* n copies of one element: n (n - 1) / 2 comparisons, and the calls nest n - 15 deep *)
Theorem C132_equal_refuted : forall A (less : A -> A -> bool), strict_weak less -> forall x n,
  exists c d, sort_c less (repeat x n) = Ok (repeat x n, c, d) /\
    Z.of_nat n * (Z.of_nat n - 1) <= 2 * c /\ d = Z.max 1 (Z.of_nat n - 15).
Proof.
  intros A less SW x n. destruct (sort_sorts less SW (repeat x n)) as [l' [E [P _]]].
  assert (l' = repeat x n). { apply Permutation_sym in P. apply Permutation_repeat in P. exact P. } subst l'.
  destruct (counted_ok _ _ _ _ _ _ _ E) as [c [d C]]. exists c, d. split; [exact C|].
  unfold sort_ex_c in C. rewrite repeat_length in C. apply impl_equal in C; auto; lia.
Qed.

Theorem C132_quickselect_equal_refuted : forall A (less : A -> A -> bool), strict_weak less -> forall x n,
  0 < Z.of_nat n < 2 ^ 63 ->
  exists c d, quickselect_c less (repeat x n) (Z.of_nat n - 1) = Ok (repeat x n, c, d) /\
    Z.of_nat n * (Z.of_nat n - 1) <= 2 * c /\ d = Z.max 1 (Z.of_nat n - 15).
Proof.
  intros A less SW x n HN.
  assert (HK : (n - 1 < length (repeat x n))%nat) by (rewrite repeat_length; lia).
  destruct (quickselect_spec less SW (repeat x n) (n - 1)%nat HK ltac:(rewrite repeat_length; lia)) as [l' [E [P _]]].
  assert (l' = repeat x n). { apply Permutation_sym in P. apply Permutation_repeat in P. exact P. } subst l'.
  replace (Z.of_nat (n - 1)) with (Z.of_nat n - 1) in E by lia.
  destruct (counted_ok _ _ _ _ _ _ _ E) as [c [d C]]. exists c, d. split; [exact C|].
  unfold sort_ex_c in C. rewrite repeat_length in C. apply impl_equal in C; auto; try lia.
  intros s m H1 H2 H3. unfold index_in_range, to_i64. destruct (Z.ltb_spec (Z.of_nat n - 1) (2 ^ 63)); [|lia].
  destruct (Z.leb_spec s (Z.of_nat n - 1)); [|lia]. destruct (Z.ltb_spec (Z.of_nat n - 1) (s + m)); [|lia]. reflexivity.
Qed.

Lemma square_pow : forall k, 4 <= k -> k * k <= 2 ^ k.
Proof.
  intros k H. replace k with (4 + Z.of_nat (Z.to_nat (k - 4))) by lia. generalize (Z.to_nat (k - 4)). clear. intro n.
  induction n; [cbn; lia|]. rewrite Nat2Z.inj_succ. replace (4 + Z.succ (Z.of_nat n)) with (Z.succ (4 + Z.of_nat n)) by lia.
  rewrite Z.pow_succ_r by lia. nia.
Qed.

(* documented: O(n log n) in the worst case *)
Theorem C132_nlogn_refuted : forall A (less : A -> A -> bool), strict_weak less -> forall x : A,
  forall k, exists l c d, sort_c less l = Ok (l, c, d) /\ l = repeat x (length l) /\ k * (len l * Z.log2 (len l)) < c.
Proof.
  intros A less SW x k. set (e := 2 * Z.max 0 k + 4). set (n := Z.to_nat (2 ^ e)).
  destruct (C132_equal_refuted A less SW x n) as [c [d [E [C _]]]].
  exists (repeat x n), c, d. unfold len. rewrite repeat_length. split; [exact E|]. split; [reflexivity|].
  assert (N : Z.of_nat n = 2 ^ e) by (unfold n; rewrite Z2Nat.id; auto; apply Z.pow_nonneg; lia).
  rewrite N in *. rewrite Z.log2_pow2 by lia. pose proof (square_pow e ltac:(lia)) as S.
  assert (H : 2 * Z.max 0 k * e + 4 * e <= 2 ^ e) by (unfold e at 1 2 in S; nia).
  assert (P : 0 < 2 ^ e) by (apply Z.pow_pos_nonneg; lia).
  set (m := 2 ^ e) in *. assert (0 < e) by lia. clearbody e m. clear - H P C H0.
  assert (2 * (k * e) <= m - 4 * e). { assert (k <= Z.max 0 k) by lia. assert (k * e <= Z.max 0 k * e) by nia. lia. }
  assert (m * (2 * (k * e)) <= m * (m - 4 * e)) by nia. nia.
Qed.

(* documented: O(n) in the best case; no input gets by with that *)
Theorem C132_best_refuted : forall A (less : A -> A -> bool), strict_weak less ->
  forall k, exists n, forall l l' c d, n <= len l -> sort_c less l = Ok (l', c, d) -> k * len l < c.
Proof.
  intros A less SW k. exists (slack (S (Z.to_nat k)) + 1). intros l l' c d HN C. unfold sort_c, sort_ex_c in C.
  apply (impl_lower less 0 (0 + Z.of_nat (length l)) ltac:(lia) SW (fun _ _ => Ok true) ltac:(auto) (S (Z.to_nat k))) in C; try lia.
  unfold len in *. nia.
Qed.

(* documented: O(n) for quickselect *)
Theorem C132_quickselect_linear_refuted : forall A (less : A -> A -> bool), strict_weak less -> forall x : A,
  forall k, 0 <= k < 2 ^ 60 -> exists l c d, quickselect_c less l (len l - 1) = Ok (l, c, d) /\ l = repeat x (length l) /\ k * len l < c.
Proof.
  intros A less SW x k HK. set (n := Z.to_nat (2 * k + 2)).
  assert (N : Z.of_nat n = 2 * k + 2) by (unfold n; lia).
  destruct (C132_quickselect_equal_refuted A less SW x n) as [c [d [E [C _]]]].
  { rewrite N. change (2 ^ 63) with (8 * 2 ^ 60). lia. }
  exists (repeat x n), c, d. unfold len. rewrite repeat_length. split; [exact E|]. split; [reflexivity|]. nia.
Qed.

(* documented: partition runs in O(n): is_right is called at most n + 2 times *)
Theorem C132_partition_linear : forall A (r : A -> bool) p m q, exists m' f c,
  partition_ex_c r (p ++ m ++ q) (len p) (len m) = Ok ((p ++ m' ++ q, f), c) /\ 0 <= c <= len m + 2.
Proof.
  intros A r p m q. destruct (partition_ex_spec r p m q) as [m' [f [E _]]].
  rewrite <- C132_partition_same in E. apply val_Ok in E. destruct E as [c E].
  exists m', (Z.of_nat (length p + f)), c. split; [exact E|].
  unfold partition_ex_c in E. apply partition_loop_count in E; unfold len; try lia.
  rewrite !app_length. lia.
Qed.

(* documented: is_sorted takes O(n): at most n - 1 comparisons *)
Theorem C132_is_sorted_linear : forall A (less : A -> A -> bool), strict_weak less -> forall l, exists b c,
  is_sorted_ex_c less l 0 (len l) = Ok (b, c) /\ 0 <= c <= Z.max 0 (len l - 1).
Proof.
  intros A less SW l. destruct (is_sorted_spec less SW l) as [b [E _]].
  rewrite <- C132_is_sorted_same in E. apply val_Ok in E. destruct E as [c E].
  exists b, c. split; [exact E|]. unfold is_sorted_ex_c in E. apply is_sorted_loop_count in E. unfold len. lia.
Qed.

(* ---- examples ---- *)
Definition counts (m : outcome (list Z * Z * Z)) : outcome (Z * Z) := let! (r, d) := m in Ok (snd r, d).
Definition seq_Z (n : nat) : list Z := map Z.of_nat (seq 0 n).
Example C132_example :
  counts (sort_c Z.ltb (repeat 0 16)) = Ok (120, 1)
  /\ counts (sort_c Z.ltb (repeat 0 17)) = Ok (140, 2)
  /\ counts (sort_c Z.ltb (repeat 0 200)) = Ok (21284, 185)
  /\ counts (sort_c Z.ltb (seq_Z 200)) = Ok (1027, 5)
  /\ counts (sort_c Z.ltb (rev (seq_Z 200))) = Ok (1027, 5)
  /\ counts (quickselect_c Z.ltb (repeat 0 200) 199) = Ok (21284, 185)
  /\ counts (quickselect_c Z.ltb (repeat 0 200) 0) = Ok (212, 1)
  /\ counts (quickselect_c Z.ltb (seq_Z 200) 199) = Ok (407, 5)
  /\ sort_c Z.ltb [3; 1; 2] = Ok ([1; 2; 3], 3, 1)
  /\ sort_c Z.ltb [] = Ok ([], 0, 1)
  /\ partition_ex_c (fun x => 1 <? x) [0; 0; 2] 0 3 = Ok ([0; 0; 2], 2, 5)
  /\ partition_ex_c (fun x => 1 <? x) [2; 0; 2; 1] 0 4 = Ok ([1; 0; 2; 2], 2, 6)
  /\ is_sorted_ex_c Z.ltb [1; 2; 2; 1] 0 4 = Ok (false, 3)
  /\ is_sorted_ex_c Z.ltb [1] 0 1 = Ok (true, 0).
Proof. vm_compute. repeat split. Qed.

Print Assumptions C132_same.
Print Assumptions C132_partition_same.
Print Assumptions C132_is_sorted_same.
Print Assumptions C132_sort_worst_partial.
Print Assumptions C132_quickselect_worst_partial.
Print Assumptions C132_equal_refuted.
Print Assumptions C132_quickselect_equal_refuted.
Print Assumptions C132_nlogn_refuted.
Print Assumptions C132_best_refuted.
Print Assumptions C132_quickselect_linear_refuted.
Print Assumptions C132_partition_linear.
Print Assumptions C132_is_sorted_linear.

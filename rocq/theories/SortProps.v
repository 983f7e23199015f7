(* Property theorems C10-C14: src/clean-core/sort.hh. *)
From Coq Require Import ZArith List Permutation Bool Lia.
From Verif Require Import Base SortModel SortSpec SortProofs.
Import ListNotations.
Open Scope Z_scope.

Lemma Zlt_strict_weak : strict_weak Z.ltb.
Proof.
  constructor; intros.
  - apply Z.ltb_irrefl.
  - rewrite Z.ltb_lt in *. lia.
  - rewrite !Z.ltb_lt in *. lia.
Qed.

(* 40 keys with repetitions *)
Definition sample : list Z := map (fun i => (Z.of_nat i * 37 + 11) mod 23) (seq 0 40).
(* more than 128 keys: exercises the ninther *)
Definition big_sample : list Z := map (fun i => (Z.of_nat i * 7919 + 13) mod 1009) (seq 0 200).

(* C10: m is the range to be sorted, p and s the surrounding sequence; every access outside the range
   would be reported as UB *)
Theorem C10_sort_range : forall A (less : A -> A -> bool), strict_weak less -> forall p m s,
  exists m', sort_ex less (p ++ m ++ s) (Z.of_nat (length p)) (Z.of_nat (length m)) (fun _ _ => Ok true)
             = Ok (p ++ m' ++ s) /\ Permutation m m' /\ sorted less m'.
Proof. exact (fun A less H => sort_ex_sorts less H). Qed.

Theorem C10_sort : forall A (less : A -> A -> bool), strict_weak less -> forall l,
  exists l', sort less l = Ok l' /\ Permutation l l' /\ sorted less l'.
Proof. exact (fun A less H => sort_sorts less H). Qed.

(* sort is a comparison by key when the comparison looks only at the key *)
Theorem C10_sort_by : forall A K (key : A -> K) (less : K -> K -> bool), strict_weak less -> forall l,
  exists l', sort (fun x y => less (key x) (key y)) l = Ok l' /\ Permutation l l' /\ sorted less (map key l').
Proof. exact @sort_by_sorts. Qed.

Example C10_ex : strict_weak Z.ltb /\
  sort Z.ltb sample = Ok [0;0;1;2;2;3;3;4;4;5;5;6;7;7;8;8;9;9;10;11;11;12;12;13;13;14;14;15;16;16;17;17;18;18;19;20;21;21;22;22]
  /\ match sort Z.ltb big_sample with Ok l => is_sorted_ex Z.ltb l 0 200 | _ => UB end = Ok true.
Proof. split; [exact Zlt_strict_weak|]. split; vm_compute; reflexivity. Qed.

(* C11 *)
Theorem C11_quickselect : forall A (less : A -> A -> bool), strict_weak less ->
  forall l k, (k < length l)%nat -> Z.of_nat (length l) < 2 ^ 63 ->
  exists l', quickselect less l (Z.of_nat k) = Ok l' /\ Permutation l l' /\ in_place less l' k.
Proof. exact (fun A less H => quickselect_spec less H). Qed.

(* an element in place is the one every sorted arrangement has there (up to equivalence) *)
Theorem C11_rank : forall A (less : A -> A -> bool), strict_weak less ->
  forall l l' s k x y, Permutation l l' -> in_place less l' k ->
  Permutation l s -> sorted less s -> nth_error l' k = Some x -> nth_error s k = Some y -> equiv less x y.
Proof. exact (fun A less H => in_place_rank less H). Qed.

Example C11_ex : match quickselect Z.ltb sample 20 with Ok l => nth_error l 20 | _ => None end = Some 11
  /\ match quickselect Z.ltb sample 20 with Ok l => is_sorted_ex Z.ltb l 0 40 | _ => UB end = Ok false.
Proof. split; vm_compute; reflexivity. Qed.

(* C12: idx + count need not be in bounds but must not exceed the int64_t range *)
Theorem C12_quickselect_range_partial : forall A (less : A -> A -> bool), strict_weak less ->
  forall l idx count, 0 <= idx -> 0 <= count -> idx + count < 2 ^ 63 ->
  exists l', quickselect_range less l idx count = Ok l' /\ Permutation l l' /\
    forall k, idx <= Z.of_nat k < idx + count -> in_place less l' k.
Proof. exact (fun A less H => quickselect_range_spec less H). Qed.

(* "everything from 0 on" written as count = SIZE_MAX sorts nothing: the count becomes -1 *)
Theorem C12_size_max_refuted :
  exists l l', quickselect_range Z.ltb l 0 (2 ^ 64 - 1) = Ok l' /\ ~ in_place Z.ltb l' 0.
Proof.
  exists sample. eexists. split; [vm_compute; reflexivity|].
  intro H. destruct (H 1 eq_refl) as [_ F]. specialize (F 2%nat 0 ltac:(lia) eq_refl). discriminate.
Qed.
(* idx > 0 with count = SIZE_MAX/2: signed overflow *)
Theorem C12_overflow_refuted : exists l, quickselect_range Z.ltb l 1 (2 ^ 63 - 1) = UB.
Proof. exists sample. vm_compute. reflexivity. Qed.

Example C12_ex : match quickselect_range Z.ltb sample 10 3 with Ok l => firstn 3 (skipn 10 l) | _ => [] end = [5; 6; 7].
Proof. vm_compute. reflexivity. Qed.

(* C13 *)
Theorem C13_partition_range : forall A (r : A -> bool) p m q,
  exists m' f, partition_ex r (p ++ m ++ q) (Z.of_nat (length p)) (Z.of_nat (length m))
               = Ok (p ++ m' ++ q, Z.of_nat (length p + f)) /\
    Permutation m m' /\ (f <= length m')%nat /\
    (forall x, In x (firstn f m') -> r x = false) /\ (forall x, In x (skipn f m') -> r x = true).
Proof. exact @partition_ex_spec. Qed.

Theorem C13_partition_by : forall A (r : A -> bool) l,
  exists l' f, partition_by r l = Ok (l', Z.of_nat f) /\ Permutation l l' /\
    f = length (filter (fun x => negb (r x)) l) /\
    (forall x, In x (firstn f l') -> r x = false) /\ (forall x, In x (skipn f l') -> r x = true).
Proof. exact @partition_by_spec. Qed.

Example C13_ex : partition_by Z.even [4; 1; 3; 2; 7; 6; 8; 5] = Ok ([5; 1; 3; 7; 2; 6; 8; 4], 4).
Proof. vm_compute. reflexivity. Qed.

(* C14 *)
Theorem C14_is_sorted : forall A (less : A -> A -> bool), strict_weak less -> forall l, exists b,
  is_sorted_ex less l 0 (Z.of_nat (length l)) = Ok b /\ (b = true <-> sorted less l).
Proof. exact (fun A less H => is_sorted_spec less H). Qed.

Theorem C14_is_strictly_sorted : forall A (less : A -> A -> bool), strict_weak less -> forall l, exists b,
  is_strictly_sorted_ex less l 0 (Z.of_nat (length l)) = Ok b /\ (b = true <-> strictly_sorted less l).
Proof. exact (fun A less H => is_strictly_sorted_spec less H). Qed.

Example C14_ex : is_sorted_ex Z.ltb [1; 2; 2; 3] 0 4 = Ok true /\ is_strictly_sorted_ex Z.ltb [1; 2; 2; 3] 0 4 = Ok false.
Proof. split; vm_compute; reflexivity. Qed.

Print Assumptions C10_sort_range.
Print Assumptions C10_sort.
Print Assumptions C10_sort_by.
Print Assumptions C11_quickselect.
Print Assumptions C11_rank.
Print Assumptions C12_quickselect_range_partial.
Print Assumptions C12_size_max_refuted.
Print Assumptions C12_overflow_refuted.
Print Assumptions C13_partition_range.
Print Assumptions C13_partition_by.
Print Assumptions C14_is_sorted.
Print Assumptions C14_is_strictly_sorted.

(* Theorems about bitset (C60). *)
From Coq Require Import NArith ZArith Arith List Bool Lia.
From Verif Require Import Base BSetModel BSetSpec BSetProofs.
Import ListNotations.
Local Open Scope nat_scope.

(* For every size up to 64, every program over bitsets with indices below 31, without ~, without all() and << for
   sizes from 31 on, and constructing only from numbers without excess bits, agrees with arrays of booleans; the
   unused bits stay zero.
   Full statement: all programs; refuted below. *)
Theorem C60_history_partial : forall n os w rs, n <= 64 ->
  ideal_run n [] os = Some (w, rs) -> forallb (supported n) os = true -> run (N.of_nat n) [] os = Ok (map val w, rs).
Proof. intros n os w rs N I U. apply (run_ok n os [] w rs); auto. constructor. Qed.
(* ~ negates every bit that can be asked for *)
Theorem C60_not_bits : forall n a i, (n <= 64)%N -> (i < n)%N -> (i < 31)%N ->
  exists b, is_set n a i = Ok b /\ is_set n (wnot 64 a) i = Ok (negb b).
Proof.
  intros n a i N I J. exists (N.testbit a i). rewrite !(proj1 (is_set_ok _ _ _ I J)), testbit_wnot.
  split; auto. f_equal. assert (X : (i <? 64)%N = true) by (apply N.ltb_lt; lia). rewrite X. apply xorb_true_r.
Qed.

(* but it also sets the unused bits: the complement of the empty set is not all(), the complement of the full
   set has any() and differs from the empty set *)
Theorem C60_not_refuted : forall n, n < 31 ->
  exists st, run (N.of_nat n) [] [New; NewNot 0; All 1; NewData (2 ^ N.of_nat n - 1); NewNot 2; Any 3; Eq 0 3]
    = Ok (st, [RUnit; RUnit; RB false; RUnit; RUnit; RB true; RB false]) /\
  exists w, ideal_run n [] [New; NewNot 0; All 1; NewData (2 ^ N.of_nat n - 1); NewNot 2; Any 3; Eq 0 3]
    = Some (w, [RUnit; RUnit; RB true; RUnit; RUnit; RB false; RB true]).
Proof.
  intros n L. do 31 (destruct n as [|n]; [eexists; split; [vm_compute; reflexivity|]; eexists; vm_compute; reflexivity|]). lia.
Qed.
(* indices from 32 on are undefined *)
Theorem C60_index_refuted : forall n a i, (32 <= i < n)%N ->
  is_set n a i = UB /\ is_unset n a i = UB /\ set_ n a i = UB /\ unset n a i = UB /\ toggle n a i = UB.
Proof.
  intros n a i (H & L). unfold is_set, is_unset, set_, unset, toggle, int_bit. apply N.ltb_lt in L. rewrite L. cbn [contract bind].
  destruct (N.ltb_spec i 31); [lia|]. destruct (N.eqb_spec i 31); [lia|]. auto.
Qed.
(* index 31 reads and changes all bits from 31 on *)
Theorem C60_index31_refuted :
  run 40 [] [NewData (2 ^ 35); IsSet 0 31; Unset 0 31; Representation 0; Set_ 0 31; Representation 0]
    = Ok ([(2 ^ 64 - 2 ^ 31)%N], [RUnit; RB true; RUnit; RN 0; RUnit; RN (2 ^ 64 - 2 ^ 31)]) /\
  exists w, ideal_run 40 [] [NewData (2 ^ 35); IsSet 0 31; Unset 0 31; Representation 0; Set_ 0 31; Representation 0]
    = Some (w, [RUnit; RB false; RUnit; RN (2 ^ 35); RUnit; RN (2 ^ 35 + 2 ^ 31)]).
Proof. split; [vm_compute; reflexivity|]. eexists. vm_compute. reflexivity. Qed.
(* all() and << do not compile for sizes from 31 on *)
Theorem C60_mask_refuted : forall n a b, (31 <= n)%N -> all n a = UB /\ shl n a b = UB.
Proof. intros n a b H. unfold all, shl, data_mask. destruct (N.ltb_spec n 31); [lia|]. auto. Qed.

Definition sample : list op :=
  [New; Set_ 0 3; Toggle 0 0; NewShift true 0 2; NewBin BOr 0 1; Representation 2; AssShift false 2 1; IsSet 2 1; AssBin BXor 2 0; NewData 31; All 3; Any 1; Unset 3 4; Eq 3 2; Index 3 4].
Example C60_ex : forallb (supported 5) sample = true /\
  run 5 [] sample = Ok ([9; 4; 15; 15]%N, [RUnit; RUnit; RUnit; RUnit; RUnit; RN 13; RUnit; RB true; RUnit; RUnit; RB true; RB true; RUnit; RB true; RB false]) /\
  exists w, ideal_run 5 [] sample = Some (w, [RUnit; RUnit; RUnit; RUnit; RUnit; RN 13; RUnit; RB true; RUnit; RUnit; RB true; RB true; RUnit; RB true; RB false]).
Proof. split; [reflexivity|]. split; [vm_compute; reflexivity|]. eexists. vm_compute. reflexivity. Qed.

Print Assumptions C60_history_partial.
Print Assumptions C60_not_bits.
Print Assumptions C60_not_refuted.
Print Assumptions C60_index_refuted.
Print Assumptions C60_index31_refuted.
Print Assumptions C60_mask_refuted.

(* Properties C72, C88. *)
From Coq Require Import NArith Arith List Bool Lia.
From Verif Require Import Base Cells ArrModel ArrSpec ArrProofs.
Import ListNotations.
Open Scope N_scope.

(* ---- C72: array<T, N>::empty ---- *)
(* The claim is false for every N: empty() answers the opposite. *)
Theorem C72_empty_refuted : forall n, ~ (fixed_empty n = true <-> fixed_size n = 0).
Proof. intros n H. unfold fixed_empty, fixed_size in H. rewrite N.ltb_lt in H. destruct (N.eq_dec n 0); lia. Qed.
(* What it computes. Missing for the full claim: everything; it is false. *)
Theorem C72_empty_partial : forall n, fixed_empty n = true <-> fixed_size n <> 0.
Proof. intro n. unfold fixed_empty, fixed_size. rewrite N.ltb_lt. lia. Qed.
Example C72_ex : fixed_empty 3 = true /\ fixed_size 3 = 3.
Proof. split; reflexivity. Qed.

(* ---- C88: value semantics of array<T> ---- *)

Lemma empty_rep : forall A sz, @rep A sz None (mkw [] []) [].
Proof.
  intros. split; [reflexivity|]. split; [|split].
  - intros [|i] o l _ H; discriminate.
  - intros [|i] j a a' b _ _ H; discriminate.
  - intros [|b] c H; discriminate.
Qed.

(* Every history of constructions, copies, moves, resizes, accesses, comparisons and destructions gives
   exactly the results of a store of ideal sequences (refused calls included), as long as requested byte
   counts fit 64 bits and resize is not given an element of the same array. If all arrays are destroyed at
   the end, every heap block has been released (each once: releasing a freed block is UB in the model).
   Missing for the full claim: resize with an element of the same array (C88_resize_refuted), byte counts
   that wrap (C88_bytes_refuted). *)
Theorem C88_history_partial : forall A (eqb : A -> A -> bool) sz dflt os,
  0 < sz -> Forall (fits sz) os -> Forall no_self os ->
  match irun eqb dflt [] os with
  | Some (Some (s, rs)) =>
      exists w, run eqb sz dflt (mkw [] []) os = Ok (w, rs) /\
        ((forall k l, nth_error s k = Some l -> l = None) -> forall b c, nth_error (hp w) b = Some c -> c = None)
  | Some None => run eqb sz dflt (mkw [] []) os = Contract
  | None => True
  end.
Proof.
  intros A eqb sz dflt os Hs F1 F2.
  pose proof (run_rep eqb sz dflt Hs os (mkw [] []) [] (empty_rep A sz) F1 F2) as H.
  destruct (irun eqb dflt [] os) as [[[s rs]|]|]; [| exact H | exact Logic.I].
  destruct H as (w & E & R). exists w. split; [exact E|]. intros Hn b c Hc.
  destruct c as [c|]; [|reflexivity]. destruct R as (R1 & R2 & R3 & R4). exfalso.
  destruct (R4 _ _ Hc) as (i & a & _ & Ho & Ha).
  destruct (nth_error s i) as [l|] eqn:El.
  - pose proof (R2 i _ _ ltac:(discriminate) Ho El) as G. rewrite (Hn _ _ El) in G. exact G.
  - apply nth_error_None in El. assert (i < length (objs w))%nat by (apply nth_error_Some; congruence). lia.
Qed.

(* Comparison of fixed-size arrays (and of any array with a span): equality of the values. *)
Theorem C88_fixed_compare : forall A (eqb : A -> A -> bool), (forall x y, eqb x y = true <-> x = y) ->
  forall a b, exists r, fixed_eq eqb a b = Ok r /\ fixed_ne eqb a b = Ok (negb r) /\ (r = true <-> a = b).
Proof.
  intros A eqb He a b. destruct (fixed_ok eqb 1 eq_refl a b) as [H1 H2].
  exists (list_eqb eqb a b). split; [exact H1|]. split; [exact H2|]. clear H1 H2.
  revert b. induction a as [|x a IH]; intros [|y b]; cbn; try (split; [discriminate|discriminate]); [tauto|].
  rewrite andb_true_iff, He, IH. split; [intros [-> ->]; reflexivity|]. intro H. injection H as -> ->. auto.
Qed.
Theorem C88_fixed_index : forall A (a : list A) i,
  fixed_index a i = match nth_error a (N.to_nat i) with Some x => Ok x | None => Contract end.
Proof.
  intros A a i. unfold fixed_index, aget. destruct (nth_error a (N.to_nat i)) as [x|] eqn:E.
  - assert (N.to_nat i < length a)%nat by (apply nth_error_Some; congruence).
    replace (i <? N.of_nat (length a)) with true by (symmetry; apply N.ltb_lt; lia). reflexivity.
  - apply nth_error_None in E. replace (i <? N.of_nat (length a)) with false by (symmetry; apply N.ltb_ge; lia). reflexivity.
Qed.

(* a.resize(3, a[0]) reads the element after its destruction. *)
Theorem C88_resize_refuted : exists s,
  irun N.eqb 0 [] [NewFrom [7; 8]; Resize 0 3 (Elem 0 0)] = Some (Some (s, [RUnit; RUnit])) /\
  run N.eqb 4 0 (mkw [] []) [NewFrom [7; 8]; Resize 0 3 (Elem 0 0)] = UB.
Proof. eexists. split; reflexivity. Qed.
(* 2^62 elements of 4 bytes: nothing is allocated and the first construction writes outside. *)
Theorem C88_bytes_refuted : forall n, n = 2 ^ 62 -> build 4 ([] : heap N) n (fun _ _ => Ok 0) = UB.
Proof.
  intros n Hn. unfold build, alloc. replace (wmul 64 n 4) with 0 by (subst n; reflexivity).
  change (0 / 4) with 0. cbn [N.to_nat raw_storage repeat app nth_error length].
  destruct (N.to_nat n) as [|m] eqn:E; [|reflexivity].
  assert (n = 0) as -> by lia. discriminate.
Qed.

Example C88_ex :
  let os := [NewFrom [1; 2; 3]; CopyNew 0; Set_ 1 0 9; Eq 0 1; CopyAssign 0 0; MoveAssign 1 0; Get 1 2; Size 0;
             Resize 0 2 (Elem 1 1); Get 0 1; Destroy 0; Destroy 1] in
  irun N.eqb 0 [] os = Some (Some ([None; None],
    [RUnit; RUnit; RUnit; RB false; RUnit; RUnit; RVal 3; RN 0; RUnit; RVal 2; RUnit; RUnit])) /\
  Forall (fits 4) os /\ Forall no_self os.
Proof.
  split; [reflexivity|]. split.
  - repeat (constructor; [try exact Logic.I; try (vm_compute; reflexivity)|]). constructor.
  - repeat (constructor; [try exact Logic.I; try (cbn; congruence)|]). constructor.
Qed.
Example C88_ex_refused : run N.eqb 4 0 (mkw [] []) [NewFrom [1; 2; 3]; Get 0 3] = Contract.
Proof. reflexivity. Qed.

Print Assumptions C72_empty_refuted.
Print Assumptions C72_empty_partial.
Print Assumptions C88_history_partial.
Print Assumptions C88_fixed_compare.
Print Assumptions C88_fixed_index.
Print Assumptions C88_resize_refuted.
Print Assumptions C88_bytes_refuted.

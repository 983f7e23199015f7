(* Property C108. *)
From Coq Require Import NArith Arith List Bool Lia.
From Verif Require Import Base Cells AllocArrModel AllocArrSpec OwnHeap AllocArrProofs.
Import ListNotations.
Open Scope N_scope.

(* ---- C108: alloc_array is a sequence bound to its allocator ---- *)
(* Every history of constructions, moves, resets, resizes, accesses, comparisons and destructions gives exactly the
   results of a store of ideal sequences (refused calls included), for every element type. Blocks go back to the
   allocator that made them (anything else is UB in the model), also after moves between arrays of different
   allocators; if all arrays are destroyed at the end, every block has been given back.
   Missing for the full claim: reset and resize with an element of the same array (C108_resize_refuted,
   C108_reset_refuted), byte counts that wrap (C108_bytes_refuted), uninitialized for types with a destructor
   (C108_uninitialized_refuted), the state after a refused reset (C108_refused_reset_refuted). *)
Theorem C108_history_partial : forall A (eqb : A -> A -> bool) sz dflt tc td os,
  0 < sz -> (tc = true -> td = true) ->
  Forall (fits sz) os -> Forall no_self os -> Forall (uninit_ok td) os ->
  match irun eqb sz dflt tc [] os with
  | Some (Some (s, rs)) =>
      exists w, run eqb sz dflt tc td (mkw [] []) os = Ok (w, rs) /\
        ((forall k l, nth_error s k = Some l -> l = None) -> forall b c, nth_error (hp w) b = Some c -> c = None)
  | Some None => run eqb sz dflt tc td (mkw [] []) os = Contract
  | None => True
  end.
Proof.
  intros A eqb sz dflt tc td os Hs Ht F1 F2 F3.
  pose proof (run_ok eqb sz dflt tc td Hs Ht os (mkw [] []) [] (rep_empty _ _) F1 F2 F3) as H.
  destruct (irun eqb sz dflt tc [] os) as [[[s rs]|]|]; [| exact H | exact Logic.I].
  destruct H as (w & E & HR). exists w. split; [exact E|]. apply (rep_none_left _ _ _ _ _ HR).
Qed.

(* the comparison of the specification is equality of the sequences *)
Theorem C108_same : forall A (eqb : A -> A -> bool), (forall x y, eqb x y = true <-> x = y) ->
  forall a b r, same eqb a b = Some r -> (r = true <-> a = b).
Proof.
  intros A eqb He. induction a as [|x a IH]; intros [|y b] r H; cbn [same] in H.
  - injection H as <-. tauto.
  - injection H as <-. split; discriminate.
  - destruct x; injection H as <-; split; discriminate.
  - destruct x as [x|]; [|discriminate]. destruct y as [y|]; [|discriminate]. destruct (eqb x y) eqn:E.
    + apply He in E. subst y. rewrite (IH _ _ H). split; [congruence|]. intro Q. injection Q as ->. reflexivity.
    + injection H as <-. split; [discriminate|]. intro Q. injection Q as -> ->.
      assert (eqb y y = true) by (apply He; reflexivity). congruence.
Qed.

(* a.resize(3, a[0]) and a.reset(alloc, 3, a[0]) read the element after its storage was given back *)
Theorem C108_resize_refuted : exists s,
  let os := [NewFrom [7; 8] (Some 1%nat); Resize 0 3 (Elem 0 0)] in
  irun N.eqb 4 0 false [] os = Some (Some (s, [RUnit; RUnit])) /\ run N.eqb 4 0 false false (mkw [] []) os = UB.
Proof. eexists. split; reflexivity. Qed.
Theorem C108_reset_refuted : exists s,
  let os := [NewFrom [7; 8] (Some 1%nat); ResetVal 0 (Some 2%nat) 3 (Elem 0 0)] in
  irun N.eqb 4 0 true [] os = Some (Some (s, [RUnit; RUnit])) /\ run N.eqb 4 0 true true (mkw [] []) os = UB.
Proof. eexists. split; reflexivity. Qed.
(* 2^62 elements of 4 bytes: the byte count wraps to 0 and the first construction writes outside *)
Theorem C108_bytes_refuted : forall n m, n = 2 ^ 62 -> build 4 ([] : heap N) m n (Some (fun _ _ => Ok 0)) = UB.
Proof.
  intros n m Hn. unfold build, alloc. replace (wmul 64 n 4) with 0 by (subst n; reflexivity).
  change (0 / 4) with 0. cbn [N.to_nat raw_storage repeat app nth_error length].
  destruct (N.to_nat n) as [|k] eqn:E; [|reflexivity].
  assert (n = 0) as -> by lia. discriminate.
Qed.
(* uninitialized storage of a type with a destructor: the array destroys elements nobody constructed *)
Theorem C108_uninitialized_refuted : exists s,
  let os := [Uninit 2 (Some 0%nat); Destroy 0] in
  irun N.eqb 4 0 false [] os = Some (Some (s, [RUnit; RUnit])) /\ run N.eqb 4 0 false false (mkw [] []) os = UB.
Proof. eexists. split; reflexivity. Qed.
(* elements of defaulted arrays of trivial types have no value: reading them is undefined, unlike in cc::array *)
Theorem C108_defaulted_refuted : run N.eqb 4 0 true true (mkw [] []) [NewSized 2 (Some 0%nat); Get 0 0] = UB.
Proof. reflexivity. Qed.
(* reset(nullptr) is refused only after the storage was given back: when the refusal is survived (the memory at that
   point is the model's heap after _destroy, the array unchanged), the destructor gives it back again *)
Theorem C108_refused_reset_refuted : forall w h a,
  run N.eqb 4 0 false false (mkw [] []) [NewFrom [7] (Some 1%nat)] = Ok (w, [RUnit]) ->
  get w 0 = Ok a -> destroy_arr false (hp w) a = Ok h ->
  step N.eqb 4 0 false false w (Reset 0 None 1) = Contract /\
  step N.eqb 4 0 false false (mkw h (objs w)) (Destroy 0) = UB.
Proof.
  intros w h a E Ea Eh. vm_compute in E. injection E as <-. vm_compute in Ea. injection Ea as <-.
  vm_compute in Eh. injection Eh as <-. split; reflexivity.
Qed.

Example C108_ex :
  let os := [NewFrom [1; 2; 3] (Some 1%nat); Filled 2 (Elem 0 1) (Some 2%nat); Eq 0 1; MoveAssign 1 0; Allocator 1; Allocator 0;
             Get 1 2; Size 0; Bytes 1; Resize 1 2 (Val 9); Allocator 1; Get 1 1; Reset 0 (Some 3%nat) 1; Get 0 0; Ne 0 1;
             MoveAssign 1 1; Size 1; MoveNew 0; Destroy 0; Destroy 1; Destroy 2] in
  irun N.eqb 4 5 false [] os = Some (Some ([None; None; None],
    [RUnit; RUnit; RB false; RUnit; RN 1; RN 0; RVal 3; RN 0; RN 12; RUnit; RN 1; RVal 9; RUnit; RVal 5; RB true;
     RUnit; RN 0; RUnit; RUnit; RUnit; RUnit])) /\
  Forall (fits 4) os /\ Forall no_self os /\ Forall (uninit_ok false) os.
Proof.
  split; [reflexivity|]. split; [|split].
  - repeat (constructor; [try exact Logic.I; try (vm_compute; reflexivity)|]). constructor.
  - repeat (constructor; [try exact Logic.I; try (cbn; congruence)|]). constructor.
  - repeat (constructor; [try exact Logic.I|]). constructor.
Qed.
Example C108_ex_trivial :
  let os := [Uninit 2 (Some 1%nat); Set_ 0 1 7; Get 0 1; Resize 0 1 (Val 3); Destroy 0] in
  irun N.eqb 4 0 true [] os = Some (Some ([None], [RUnit; RUnit; RVal 7; RUnit; RUnit])) /\
  Forall (uninit_ok true) os.
Proof. split; [reflexivity|]. repeat (constructor; [try exact Logic.I; try (left; reflexivity)|]). constructor. Qed.
Example C108_ex_refused : run N.eqb 4 0 false false (mkw [] []) [New None] = Contract /\
  run N.eqb 4 0 false false (mkw [] []) [NewFrom [1] (Some 0%nat); Get 0 1] = Contract.
Proof. split; reflexivity. Qed.

Print Assumptions C108_history_partial.
Print Assumptions C108_same.
Print Assumptions C108_resize_refuted.
Print Assumptions C108_reset_refuted.
Print Assumptions C108_bytes_refuted.
Print Assumptions C108_uninitialized_refuted.
Print Assumptions C108_defaulted_refuted.
Print Assumptions C108_refused_reset_refuted.

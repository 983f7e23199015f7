(* Property C110. *)
From Coq Require Import NArith Arith List Bool Lia.
From Verif Require Import Base Cells CapArrModel CapArrSpec OwnHeap CapArrProofs.
Import ListNotations.
Open Scope N_scope.

(* ---- C110: capped_array is a sequence of at most N elements whose elements are constructed and destroyed once ---- *)
(* Every history in which emplace is not given an element of the array itself gives exactly the results of a store of
   ideal sequences (refused calls included); a size above the capacity is refused and no access leaves the storage.
   Constructor calls are exactly the destructor calls, plus the elements of the existing arrays, plus the elements that
   move constructions and move assignments moved from.
   Missing for the full claim: moved-from elements are never destroyed (C110_moved_refuted, C110_self_move_refuted),
   emplace with an element of the array reads it after its destruction (C110_emplace_refuted) and
   capped_array::uninitialized destroys elements that were never constructed (C110_uninitialized_refuted). *)
Theorem C110_history_partial : forall A (dflt : A) cap os, Forall no_self os ->
  match irun dflt cap [] os with
  | Some (Some (s, rs, n)) =>
      exists w, run dflt cap (mkw [] 0 0) os = Ok (w, rs) /\ made w = gone w + population s + n
  | Some None => run dflt cap (mkw [] 0 0) os = Contract
  | None => True
  end.
Proof.
  intros A dflt cap os F.
  assert (R cap 0 (mkw [] 0 0) (@nil (option (list A)))) as R0 by (split; [split; [reflexivity|intros [|i] o x H; discriminate]|reflexivity]).
  pose proof (run_ok dflt cap os 0 (mkw [] 0 0) [] R0 F) as H.
  destruct (irun dflt cap [] os) as [[[[s rs] n]|]|]; [|exact H|exact Logic.I].
  destruct H as (w & E & HR & HC). exists w. split; [exact E|exact HC].
Qed.
(* If no elements were moved from and all arrays are destroyed, each constructed element was destroyed. *)
Theorem C110_balance : forall A (dflt : A) cap os s rs w, Forall no_self os ->
  irun dflt cap [] os = Some (Some (s, rs, 0)) -> (forall k l, nth_error s k = Some l -> l = None) ->
  run dflt cap (mkw [] 0 0) os = Ok (w, rs) -> made w = gone w.
Proof.
  intros A dflt cap os s rs w F E Hn Hw. pose proof (C110_history_partial A dflt cap os F) as H. rewrite E in H.
  destruct H as (w' & E' & HC). rewrite Hw in E'. injection E' as <-. rewrite (population_none _ _ Hn) in HC. lia.
Qed.
(* No sequence of the store ever has more than cap elements. *)
Lemma ideal_cap : forall A (dflt : A) cap s o s' r,
  (forall k l, sget s k = Some l -> N.of_nat (length l) <= cap) -> ideal dflt cap s o = Some (Some (s', r)) ->
  forall k l, sget s' k = Some l -> N.of_nat (length l) <= cap.
Proof.
  intros A dflt cap s o s' r H E.
  assert (P : forall (s : store A) j x, (forall k l, sget s k = Some l -> N.of_nat (length l) <= cap) ->
            (forall l, x = Some l -> N.of_nat (length l) <= cap) -> forall k l, sget (put s j x) k = Some l -> N.of_nat (length l) <= cap).
  { intros s0 j x H0 Hx k l Hk. apply sget_nth in Hk. rewrite put_lset in Hk. apply lset_cases in Hk.
    destruct Hk as [(_ & <- & _)|(_ & Hk)]; [auto|]. apply (H0 k). unfold sget. rewrite Hk. reflexivity. }
  assert (Q : forall (s : store A) x, (forall k l, sget s k = Some l -> N.of_nat (length l) <= cap) ->
            N.of_nat (length x) <= cap -> forall k l, sget (s ++ [Some x]) k = Some l -> N.of_nat (length l) <= cap).
  { intros s0 x H0 Hx k l Hk. apply sget_nth in Hk. apply nth_snoc in Hk.
    destruct Hk as [Hk|(_ & Hk)]; [apply (H0 k); unfold sget; rewrite Hk; reflexivity|]. congruence. }
  assert (E0 : forall l, Some (@nil A) = Some l -> N.of_nat (length l) <= cap) by (intros l X; injection X as <-; cbn; lia).
  destruct o; cbn [ideal] in E;
    repeat (match type of E with
            | context[if ?b then _ else _] => destruct b eqn:?; try discriminate E
            | context[match ?x with Some _ => _ | None => _ end] => destruct x eqn:?; try discriminate E
            end); try (injection E as <- <-);
    repeat match goal with X : (_ <=? _) = true |- _ => apply N.leb_le in X end.
  - apply Q; [exact H|cbn; lia].
  - apply Q; [exact H|rewrite repeat_length; lia].
  - apply Q; assumption.
  - apply Q; [exact H|cbn; lia].
  - apply Q; [exact H|rewrite repeat_length; lia].
  - apply P; [exact H|]. intros z X. injection X as <-. rewrite repeat_length. lia.
  - apply Q; [exact H|eauto].
  - apply Q; [apply P; assumption|eauto].
  - apply P; [exact H|]. intros z X. injection X as <-. eauto.
  - apply P; [|exact E0]. apply P; [exact H|]. intros z X. injection X as <-. eauto.
  - apply P; [exact H|discriminate].
  - exact H.
  - apply P; [exact H|]. intros z X. injection X as <-. rewrite put_lset, lset_length. eauto.
  - exact H.
Qed.

Theorem C110_capacity : forall A (dflt : A) cap os s rs n, irun dflt cap [] os = Some (Some (s, rs, n)) ->
  forall k l, nth_error s k = Some (Some l) -> N.of_nat (length l) <= cap.
Proof.
  intros A dflt cap os.
  assert (H : forall os s0 s rs n, (forall k l, sget s0 k = Some l -> N.of_nat (length l) <= cap) ->
            irun dflt cap s0 os = Some (Some (s, rs, n)) -> forall k l, sget s k = Some l -> N.of_nat (length l) <= cap).
  { clear os. induction os as [|o os IH]; intros s0 s rs n H0 E; cbn [irun] in E; [injection E as <- _ _; exact H0|].
    destruct (ideal dflt cap s0 o) as [[[s1 r]|]|] eqn:E1; try discriminate.
    destruct (irun dflt cap s1 os) as [[[[s2 rs2] n2]|]|] eqn:E2; try discriminate. injection E as <- _ _.
    apply (IH s1 s2 rs2 n2); [|exact E2]. apply (ideal_cap _ _ _ _ _ _ _ H0 E1). }
  intros s rs n E k l Ek. apply (H os [] s rs n) with (k := k); [|exact E|unfold sget; rewrite Ek; reflexivity].
  intros [|q] z X; discriminate.
Qed.

(* capped_array<T, 4> a{7}; auto b = move(a): two constructions, one destruction *)
Theorem C110_moved_refuted : exists w,
  run 0 4 (mkw [] 0 0) [NewFrom [7]; MoveNew 0; Destroy 0; Destroy 1] = Ok (w, [RUnit; RUnit; RUnit; RUnit]) /\
  objs w = [None; None] /\ made w = 2 /\ gone w = 1.
Proof. eexists. split; [vm_compute; reflexivity|]. repeat split. Qed.
(* a = move(a) empties a without destroying its elements *)
Theorem C110_self_move_refuted : exists w,
  run 0 4 (mkw [] 0 0) [NewFrom [7; 8]; MoveAssign 0 0; Size 0; Destroy 0] = Ok (w, [RUnit; RUnit; RN 0; RUnit]) /\
  objs w = [None] /\ made w = 2 /\ gone w = 0.
Proof. eexists. split; [vm_compute; reflexivity|]. repeat split. Qed.
(* a.emplace(2, a[0]) *)
Theorem C110_emplace_refuted : run 0 4 (mkw [] 0 0) [NewFrom [7]; Emplace 0 2 (Elem 0 0)] = UB.
Proof. reflexivity. Qed.
(* capped_array<T, 4>::uninitialized(1) of a class type: destruction of an element that does not exist *)
Theorem C110_uninitialized_refuted : run 0 4 (mkw [] 0 0) [Uninit 1; Destroy 0] = UB.
Proof. reflexivity. Qed.

Example C110_ex :
  let os := [NewFrom [1; 2; 3]; Filled 2 (Elem 0 1); NewSized 1; New; CopyAssign 1 0; Get 1 2; CopyAssign 1 2; Size 1; Set_ 1 0 9; Get 1 0;
             MoveAssign 3 0; Size 0; Get 3 1; Emplace 1 3 (Elem 3 2); Get 1 1; CopyAssign 1 1; Size 1; CopyNew 1; Get 4 2;
             Destroy 0; Destroy 1; Destroy 2; Destroy 3; Destroy 4] in
  irun 5 3 [] os = Some (Some ([None; None; None; None; None],
    [RUnit; RUnit; RUnit; RUnit; RUnit; RVal 3; RUnit; RN 1; RUnit; RVal 9; RUnit; RN 0; RVal 2; RUnit; RVal 3; RUnit; RN 3; RUnit; RVal 3;
     RUnit; RUnit; RUnit; RUnit; RUnit], 3)) /\ Forall no_self os.
Proof. split; [reflexivity|]. repeat (constructor; try exact I; try discriminate). Qed.
Example C110_ex_balance :
  let os := [Filled 3 (Val 1); NewSized 1; CopyAssign 1 0; CopyAssign 0 0; Emplace 0 1 (Elem 1 2); Destroy 0; Destroy 1] in
  irun 5 3 [] os = Some (Some ([None; None], [RUnit; RUnit; RUnit; RUnit; RUnit; RUnit; RUnit], 0)) /\
  exists w, run 5 3 (mkw [] 0 0) os = Ok (w, [RUnit; RUnit; RUnit; RUnit; RUnit; RUnit; RUnit]) /\ made w = 7 /\ gone w = 7.
Proof. split; [reflexivity|]. eexists. split; [vm_compute; reflexivity|]. repeat split. Qed.
Example C110_ex_refused : run 5 3 (mkw [] 0 0) [NewSized 4] = Contract /\ run 5 3 (mkw [] 0 0) [NewSized 3; Emplace 0 4 (Val 1)] = Contract /\
  run 5 3 (mkw [] 0 0) [NewFrom [1]; Get 0 1] = Contract.
Proof. repeat split. Qed.

Print Assumptions C110_history_partial.
Print Assumptions C110_balance.
Print Assumptions C110_capacity.
Print Assumptions C110_moved_refuted.
Print Assumptions C110_self_move_refuted.
Print Assumptions C110_emplace_refuted.
Print Assumptions C110_uninitialized_refuted.

(* Theorems about result (C56). *)
From Coq Require Import Arith List Bool Lia.
From Verif Require Import Base Tagged ResModel ResSpec ResProofs.
Import ListNotations.

(* Every history that is allowed for ideal results and moves no result to itself runs without undefined
   behaviour with the same answers, and afterwards every live result has exactly one object in storage,
   of the kind is_value() says, and every dead one has been cleaned up.
   Full statement: also for moving a result to itself; refuted below. *)
Theorem C56_history_partial : forall (A : Type) (eqA : A -> A -> bool) (e0 : A) os w rs,
  ideal_run eqA e0 [] os = Some (w, rs) -> forallb unaliased os = true ->
  run eqA e0 [] os = Ok (rep shape w, rs).
Proof. intros A eqA e0 os w rs H U. exact (run_ok eqA e0 os [] w rs H U). Qed.

(* copy assignment to itself changes nothing *)
Theorem C56_self_copy : forall (A : Type) (eqA : A -> A -> bool) (e0 : A) (w : store A) k c, look w k = Some c ->
  step eqA e0 (rep shape w) (CopyAssign k k) = Ok (rep shape w, RUnit).
Proof.
  intros A eqA e0 w k c H. apply step_ok; auto. cbn [ideal]. rewrite H, Nat.eqb_refl. auto.
Qed.

(* moving a result to itself destroys the content and then moves from the destroyed object *)
Theorem C56_self_move_refuted : forall (A : Type) (eqA : A -> A -> bool) (e0 : A) (w : store A) k c, look w k = Some c ->
  step eqA e0 (rep shape w) (MoveAssign k k) = UB.
Proof.
  intros A eqA e0 w k c H. cbn [step]. unfold move_assign. rewrite (dtor_ok _ _ _ H). cbn [bind].
  pose proof (rshape _ _ _ H) as N. pose proof (nth_upd_eq _ _ (mkr (has_value c) TRaw) _ N) as N1.
  unfold move_from. rewrite (var_Ok _ _ _ N1). cbn [bind isv]. unfold set_isv. rewrite (var_Ok _ _ _ N1). cbn [bind dat].
  rewrite upd_upd, (var_Ok _ _ _ N1). cbn [bind]. unfold take. rewrite (var_Ok _ _ _ N1). cbn [bind dat ttake]. auto.
Qed.

(* asking for the wrong kind is reported *)
Theorem C56_wrong_kind_reported : forall (A : Type) (eqA : A -> A -> bool) (e0 : A) (w : store A) k c, look w k = Some c ->
  step eqA e0 (rep shape w) (if has_value c then Error k else Value k) = Contract.
Proof.
  intros A eqA e0 w k c H. pose proof (var_Ok _ _ _ (rshape _ _ _ H)) as N.
  destruct c as [v|e|[]]; cbn [has_value step]; unfold value, error; rewrite N; auto.
Qed.

Definition sample : list (op nat) :=
  [New; NewValue 5; NewError 6; NewCopy 1; MoveAssign 2 1; IsValue 2; Value 2; IsValue 1; CopyAssign 1 0; Error 1;
   CopyAssign 3 3; Value 3; NewMove 3; ValueOr 4 1; IsErrorE 0 0; IsValueV 2 5;
   Destroy 0; Destroy 1; Destroy 2; Destroy 3; Destroy 4].
Example C56_ex : run Nat.eqb 0 [] sample = Ok ([None; None; None; None; None],
  [RUnit; RUnit; RUnit; RUnit; RUnit; RB true; RV 5; RB true; RUnit; RV 0; RUnit; RV 5; RUnit; RV 5; RB true; RB true;
   RUnit; RUnit; RUnit; RUnit; RUnit]) /\ ideal_run Nat.eqb 0 [] sample <> None /\ forallb unaliased sample = true.
Proof. split; [|split]; [reflexivity|discriminate|reflexivity]. Qed.
Example C56_self_ex : run Nat.eqb 0 [] [NewValue 5; MoveAssign 0 0] = UB.
Proof. reflexivity. Qed.

Print Assumptions C56_history_partial.
Print Assumptions C56_self_copy.
Print Assumptions C56_self_move_refuted.
Print Assumptions C56_wrong_kind_reported.

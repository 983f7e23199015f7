(* Property C118. *)
From Coq Require Import Arith List Bool Lia.
From Verif Require Import Base OwnHeap BoxModel BoxSpec BoxProofs.
Import ListNotations.

(* Every history of boxes of any kind gives the results of variables that hold values or were moved from; access to moved-from
   boxes through operator* and operator-> is refused; when all boxes are destroyed every object on the heap was destroyed, and
   none twice (which would be undefined).
   Missing for the full claim: derived objects in a poly_box of a class without virtual destructor (C118_destructor_refuted),
   assignment to a poly_box from its own contents (C118_own_refuted), conversion of moved-from boxes (C118_convert_refuted). *)
Theorem C118_history_partial : forall A kd (eqb ltb : A -> A -> bool) os,
  match irun kd eqb ltb [] os with
  | Some (Some (s, rs)) => exists w, run kd eqb ltb (mkw [] []) os = Ok (w, rs) /\
      ((forall k c, nth_error s k = Some c -> c = None) -> forall b c, nth_error (hp w) b = Some c -> c = None)
  | Some None => run kd eqb ltb (mkw [] []) os = Contract
  | None => True
  end.
Proof.
  intros A kd eqb ltb os. pose proof (run_ok kd eqb ltb os (mkw [] []) [] (rep_empty _ _)) as R.
  destruct (irun kd eqb ltb [] os) as [[[s rs]|]|]; [|exact R|exact Logic.I].
  destruct R as (w & E & R). exists w. split; [exact E|]. intros N. exact (rep_none_left _ _ _ _ _ R N).
Qed.
(* poly_box does not ask for a virtual destructor; the box may just be destroyed *)
Theorem C118_destructor_refuted : forall d x, d <> 0 ->
  run (A := nat) (KPoly false) Nat.eqb Nat.ltb (mkw [] []) [Make d x; Destroy 0] = UB /\
  exists w, run (A := nat) (KPoly true) Nat.eqb Nat.ltb (mkw [] []) [Make d x; Destroy 0] = Ok (w, [RUnit; RUnit]).
Proof. intros [|d] x N; [contradiction|]. split; [reflexivity|]. eexists. cbn. reflexivity. Qed.
(* assignment and emplace from the contents of the box read the deleted object; box keeps its value *)
Theorem C118_own_refuted : forall v x,
  run (A := nat) (KPoly v) Nat.eqb Nat.ltb (mkw [] []) [Make 0 x; Assign 0 0 Own; Read 0] = UB /\
  exists w, run (A := nat) KBox Nat.eqb Nat.ltb (mkw [] []) [Make 0 x; Assign 0 0 Own; Read 0] = Ok (w, [RUnit; RUnit; RA x]).
Proof. intros v x. split; [destruct v; reflexivity|]. eexists. cbn. reflexivity. Qed.
(* the conversion to a reference is not checked, operator* is *)
Theorem C118_convert_refuted : forall kd x,
  run (A := nat) kd Nat.eqb Nat.ltb (mkw [] []) [Make 0 x; MoveNew 0; Convert 0] = UB /\
  run (A := nat) kd Nat.eqb Nat.ltb (mkw [] []) [Make 0 x; MoveNew 0; Read 0] = Contract.
Proof. intros [|[]|] x; split; reflexivity. Qed.
Example C118_ex :
  irun (A := nat) (KPoly true) Nat.eqb Nat.ltb []
    [Make 0 5; Make 3 6; Equal 0 1; Assign 0 2 (Val 7); TypeOf 0; MoveAssign 0 1; Read 0; IsNull 1; Assign 1 0 (Val 9); Write 1 10; Less 0 1;
     MoveAssign 1 1; IsNull 1; MoveNew 0; Destroy 0; Destroy 1; Destroy 2]
  = Some (Some ([None; None; None],
    [RUnit; RUnit; RB false; RUnit; RN 2; RUnit; RA 6; RB true; RUnit; RUnit; RB true; RUnit; RB true; RUnit; RUnit; RUnit; RUnit])) /\
  irun (A := nat) KFwd Nat.eqb Nat.ltb [] [Make 0 5; MoveNew 0; Read 1; Read 0] = Some None /\
  (exists w, run (A := nat) KBox Nat.eqb Nat.ltb (mkw [] []) [Make 0 5; MoveNew 0; Assign 0 0 (Val 4); Read 0; Destroy 0; Destroy 1] =
    Ok (w, [RUnit; RUnit; RUnit; RA 4; RUnit; RUnit]) /\ hp w = [None; None]).
Proof. split; [reflexivity|]. split; [reflexivity|]. eexists. split; [cbn; reflexivity|reflexivity]. Qed.

Print Assumptions C118_history_partial.
Print Assumptions C118_destructor_refuted.
Print Assumptions C118_own_refuted.
Print Assumptions C118_convert_refuted.

(* Property C109. *)
From Coq Require Import NArith Arith List Bool Lia.
From Verif Require Import Base Cells FwdArrModel FwdArrSpec OwnHeap FwdArrProofs.
Import ListNotations.
Open Scope N_scope.

(* ---- C109: fwd_array is a sequence whose elements are constructed and destroyed once ---- *)
(* Every history gives exactly the results of a store of ideal sequences (refused calls included), for every element
   type, moves from an array to itself included (they empty it). Constructor calls are exactly the destructor calls,
   plus the elements of the existing arrays, plus the number of elements passed to the constructors from a list or a
   span. If all arrays are destroyed at the end, every block has been given back.
   Missing for the full claim: the elements made by new T[n] are not destroyed by the constructors from a list or a
   span (C109_leak_refuted). *)
Theorem C109_history_partial : forall A (dflt : A) tc os,
  match irun dflt tc [] os with
  | Some (Some (s, rs)) =>
      exists w, run dflt tc (mkw [] [] 0 0) os = Ok (w, rs) /\
        made w = gone w + population s + listed os /\
        ((forall k l, nth_error s k = Some l -> l = None) -> forall b c, nth_error (hp w) b = Some c -> c = None)
  | Some None => run dflt tc (mkw [] [] 0 0) os = Contract
  | None => True
  end.
Proof.
  intros A dflt tc os.
  pose proof (run_ok dflt tc os 0 (mkw [] [] 0 0) [] (conj (rep_empty _ _) eq_refl)) as H.
  destruct (irun dflt tc [] os) as [[[s rs]|]|]; [| exact H | exact Logic.I].
  destruct H as (w & E & HR & HC). exists w. split; [exact E|]. split; [exact HC|]. apply (rep_none_left _ _ _ _ _ HR).
Qed.
(* Without constructions from a list or a span and with all arrays destroyed, each constructed element was destroyed. *)
Theorem C109_balance : forall A (dflt : A) tc os s rs w,
  irun dflt tc [] os = Some (Some (s, rs)) -> listed os = 0 -> (forall k l, nth_error s k = Some l -> l = None) ->
  run dflt tc (mkw [] [] 0 0) os = Ok (w, rs) -> made w = gone w.
Proof.
  intros A dflt tc os s rs w E L Hn Hw. pose proof (C109_history_partial A dflt tc os) as H. rewrite E in H.
  destruct H as (w' & E' & HC & _). rewrite Hw in E'. injection E' as <-. rewrite (population_none _ _ Hn) in HC. lia.
Qed.

(* fwd_array<T>{7, 8}: four constructions, two destructions *)
Theorem C109_leak_refuted : exists w,
  run 0 false (mkw [] [] 0 0) [NewFrom [7; 8]; Destroy 0] = Ok (w, [RUnit; RUnit]) /\ objs w = [None] /\ made w = 4 /\ gone w = 2.
Proof. eexists. split; [reflexivity|]. repeat split. Qed.

Example C109_ex :
  let os := [NewFrom [1; 2; 3]; Filled 2 (Elem 0 1); NewSized 1; Uninit 1; Get 3 0; MoveAssign 1 0; Get 1 2; Size 0; Set_ 1 0 9; Get 1 0;
             MoveAssign 1 1; Size 1; MoveNew 2; Destroy 0; Destroy 1; Destroy 2; Destroy 3; Destroy 4] in
  irun 5 false [] os = Some (Some ([None; None; None; None; None],
    [RUnit; RUnit; RUnit; RUnit; RVal 5; RUnit; RVal 3; RN 0; RUnit; RVal 9; RUnit; RN 0; RUnit; RUnit; RUnit; RUnit; RUnit; RUnit])).
Proof. reflexivity. Qed.
Example C109_ex_balance :
  let os := [Filled 3 (Val 1); New; MoveAssign 1 0; Destroy 0; Destroy 1] in
  irun 5 false [] os = Some (Some ([None; None], [RUnit; RUnit; RUnit; RUnit; RUnit])) /\ listed os = 0 /\
  exists w, run 5 false (mkw [] [] 0 0) os = Ok (w, [RUnit; RUnit; RUnit; RUnit; RUnit]) /\ made w = 3 /\ gone w = 3.
Proof. split; [reflexivity|]. split; [reflexivity|]. eexists. split; [reflexivity|]. repeat split. Qed.
Example C109_ex_refused : run 5 false (mkw [] [] 0 0) [NewFrom [1]; Get 0 1] = Contract.
Proof. reflexivity. Qed.

Print Assumptions C109_history_partial.
Print Assumptions C109_balance.
Print Assumptions C109_leak_refuted.

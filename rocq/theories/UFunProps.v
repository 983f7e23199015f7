(* Property C112. *)
From Coq Require Import NArith Arith List Bool Lia.
From Verif Require Import Base UFunModel UFunSpec UFunProofs.
Import ListNotations.

(* ---- C112: unique_function owns its callable ---- *)
(* For all callables (values with a call function that may change them) and all histories of constructions, moves, calls,
   queries and destructions with any allocators: each call runs the one callable the function owns, with the state
   its earlier calls left, through all moves; empty functions refuse calls; self move assignment empties the function;
   nothing is used after its end, every block goes back once to the allocator that made it, and when no function owns
   a callable no block is left.
   Missing for the full claim: constructing from a named callable should copy it (C112_lvalue_refuted); unique_functions
   should not be constructible from a named unique_function (C112_copy_refuted); valid functions should be callable
   (C112_hollow_refuted). Callables that change the function they are called through are outside of the model. *)
Theorem C112_history_partial : forall C X Y (call : C -> X -> outcome (C * Y)) os,
  match irun call (mks [] []) os with
  | Some (Some (s, rs)) =>
      exists w, run call (mkw [] [] []) os = Ok (w, rs) /\ vars w = callables s /\
        ((forall k f, nth_error (funs s) k <> Some (Some (Some f))) -> forall b x, nth_error (hp w) b <> Some (Some x))
  | Some None => run call (mkw [] [] []) os = Contract
  | None => True
  end.
Proof.
  intros C X Y call os. pose proof (run_ok call os _ _ _ R_init) as H.
  destruct (irun call (mks [] []) os) as [[[s rs]|]|]; [|exact H|exact Logic.I].
  destruct H as (w & ch & E & HR). exists w. split; [exact E|]. split; [apply HR|apply (R_leaks _ _ _ HR)].
Qed.

(* a counter: adds its argument and returns the sum *)
Definition count (c x : N) : outcome (N * N) := Ok ((c + x)%N, (c + x)%N).

(* unique_function f(counter); with a variable named counter moves from the variable; std::function copies it *)
Theorem C112_lvalue_refuted : exists w,
  run count (mkw [] [] []) [NewVar 3%N; FromVar 0 (Some 0)] = Ok (w, [RUnit; RUnit]) /\ vars w = [None] /\
  run count (mkw [] [] []) [NewVar 3%N; FromVar 0 (Some 0); CallVar 0 1%N] = UB.
Proof. eexists. split; [vm_compute; reflexivity|]. split; vm_compute; reflexivity. Qed.
(* unique_function g(f); compiles for a named f although copies are deleted: f becomes empty, g allocates a second block *)
Theorem C112_copy_refuted : exists w,
  run count (mkw [] [] []) [FromTemp 3%N (Some 0); FromFun 0 (Some 0); IsValid 0; Call 1 1%N] = Ok (w, [RUnit; RUnit; RB false; RY 4%N]) /\
  hp w = [Some (0, Fun 4%N); Some (0, Nested (mku (Some 0) false 0))] /\
  run count (mkw [] [] []) [FromTemp 3%N (Some 0); FromFun 0 (Some 0); Call 0 1%N] = Contract.
Proof. eexists. split; [vm_compute; reflexivity|]. split; vm_compute; reflexivity. Qed.
(* a function constructed from a named empty function reports that it is valid, and refuses the call *)
Theorem C112_hollow_refuted :
  run count (mkw [] [] []) [New; FromFun 0 (Some 0); IsValid 1; Call 1 1%N] = Contract /\
  exists w, run count (mkw [] [] []) [New; FromFun 0 (Some 0); IsValid 1] = Ok (w, [RUnit; RUnit; RB true]).
Proof. split; [|eexists]; vm_compute; reflexivity. Qed.

Example C112_ex :
  let os := [NewVar 10%N; FromMove 0 (Some 1); FromTemp 5%N (Some 2); Call 0 1%N; Call 1 2%N; MoveAssign 0 1; IsValid 1; Call 0 3%N;
             FromFun 0 (Some 3); Call 2 4%N; IsValid 0; MoveNew 2; MoveAssign 1 3; Call 1 5%N; Destroy 0; Destroy 1; Destroy 2; MoveAssign 3 3; IsValid 3] in
  let rs := [RUnit; RUnit; RUnit; RY 11%N; RY 7%N; RUnit; RB false; RY 10%N; RUnit; RY 14%N; RB false; RUnit; RUnit; RY 19%N; RUnit; RUnit; RUnit;
             RUnit; RB false] in
  irun count (mks [] []) os = Some (Some (mks [None; None; None; Some None] [None], rs)) /\
  exists w, run count (mkw [] [] []) os = Ok (w, rs) /\ hp w = [None; None; None].
Proof. split; [vm_compute; reflexivity|]. eexists. split; vm_compute; reflexivity. Qed.

Print Assumptions C112_history_partial.
Print Assumptions C112_lvalue_refuted.
Print Assumptions C112_copy_refuted.
Print Assumptions C112_hollow_refuted.

(* Property C111. *)
From Coq Require Import NArith Arith List Bool Lia.
From Verif Require Import Base SysAllocModel SysAllocSpec SysAllocProofs.
Import ListNotations.
Open Scope N_scope.

(* ---- C111: system_allocator serves its interface on any C runtime ---- *)
(* For all answers of the C runtime (OutOfFuel: it gave an answer that the C standard forbids, or the list of answers
   ended) every history of requests with power-of-two alignments and sizes that leave room for the header gives
   the results of a store of byte blocks, in both builds: blocks are aligned, below 2^64 and do not overlap; they keep
   their bytes through all other calls and through realloc; the reported size is the requested one (on Linux at least
   the requested one); alloc and realloc abort when there is no memory, try_alloc returns null; everything given back
   reaches the C runtime with the pointer it handed out, exactly once.
   Missing for the full claim: try_realloc of a live block without memory (C111_realloc_refuted), sizes close to 2^64
   in the fallback build (C111_size_refuted). *)
Theorem C111_history_partial : forall linux answers os, Forall well_formed os ->
  let result := run linux (init answers) os in
  result = OutOfFuel \/
  match irun [] (map bit answers) os with
  | Some (Some (s, rs)) =>
      exists w rs', result = Ok (w, rs') /\ Forall2 (same linux) rs' rs /\ placed (ptrs w) s /\
        ((forall k c, nth_error s k <> Some (Some (Some c))) -> live w = [])
  | Some None => result = Contract
  | None => True
  end.
Proof.
  intros linux answers os F result. pose proof (run_ok linux os (init answers) (map bit answers) [] (R_init linux answers) F) as H.
  fold result in H. destruct (irun [] (map bit answers) os) as [[[s rs]|]|]; [|exact H|right; exact Logic.I].
  destruct H as [H|(w & rs' & E & F2 & HR)]; [left; exact H|right]. exists w, rs'. split; [exact E|]. split; [exact F2|].
  split; [apply (RR_placed linux _ _ _ _ HR)|apply (RR_leaks linux _ _ _ _ HR)].
Qed.

(* try_realloc of a live block while the C runtime has no memory: memcpy to a null pointer, in both builds; the old block
   would be freed afterwards *)
Theorem C111_realloc_refuted : forall linux,
  let os := [TryAlloc 8 8; TryRealloc 0 16 8] in
  Forall well_formed os /\ run linux (init [Some (4096, 64); None]) os = UB.
Proof.
  intros linux os. split.
  - repeat constructor; try (exists 3; reflexivity); vm_compute; reflexivity.
  - destruct linux; vm_compute; reflexivity.
Qed.
(* the fallback adds the header to the size without a check: a request of 2^64-16 bytes succeeds with 16 bytes *)
Theorem C111_size_refuted : exists w,
  run false (init [Some (4096, 16)]) [TryAlloc (2 ^ 64 - 16) 8] = Ok (w, [RPtr true]) /\ live w = [mkb 4096 16] /\
  run false (init [Some (4096, 16)]) [TryAlloc (2 ^ 64 - 16) 8; Write 0 0 1] = UB.
Proof. eexists. split; [vm_compute; reflexivity|]. split; vm_compute; reflexivity. Qed.

Example C111_ex :
  let os := [TryAlloc 3 1; Write 0 0 7; Write 0 2 9; Alloc 20 64; Write 1 19 5; Realloc 0 40 16; Read 2 2; AllocationSize 2; Read 1 19;
             TryAlloc 5 8; Free 3; TryRealloc 2 2 8; Read 4 0; TryRealloc 1 0 8; Free 5; Free 4] in
  let answers := [Some (4096, 128); Some (8192, 256); Some (16384, 256); None; Some (4096, 128)] in
  Forall well_formed os /\
  irun [] (map bit answers) os = Some (Some ([None; None; None; None; None; None],
    [RPtr true; RUnit; RUnit; RPtr true; RUnit; RPtr true; RByte (Some 9); RN 40; RByte (Some 5); RPtr false; RUnit; RPtr true; RByte (Some 7);
     RPtr false; RUnit; RUnit])) /\
  (exists w, run false (init answers) os = Ok (w, [RPtr true; RUnit; RUnit; RPtr true; RUnit; RPtr true; RByte (Some 9); RN 40; RByte (Some 5);
     RPtr false; RUnit; RPtr true; RByte (Some 7); RPtr false; RUnit; RUnit]) /\ live w = []) /\
  (exists w, run true (init answers) os = Ok (w, [RPtr true; RUnit; RUnit; RPtr true; RUnit; RPtr true; RByte (Some 9); RN 256; RByte (Some 5);
     RPtr false; RUnit; RPtr true; RByte (Some 7); RPtr false; RUnit; RUnit]) /\ live w = []).
Proof.
  split; [|split; [vm_compute; reflexivity|split; eexists; (split; [vm_compute; reflexivity|]); vm_compute; reflexivity]].
  repeat match goal with
         | |- Forall _ (_ :: _) => constructor
         | |- Forall _ [] => constructor
         | |- well_formed (Write _ _ _) => vm_compute; reflexivity
         | |- well_formed (Free _) => exact Logic.I
         | |- well_formed (Read _ _) => exact Logic.I
         | |- well_formed (AllocationSize _) => exact Logic.I
         | |- well_formed _ => split; [match goal with |- pow2 ?a => exists (N.log2 a); vm_compute; reflexivity end|vm_compute; reflexivity]
         end.
Qed.
Example C111_ex_refused : run true (init [None]) [Alloc 5 8] = Contract /\ run false (init [None]) [Alloc 5 8] = Contract.
Proof. split; vm_compute; reflexivity. Qed.

Print Assumptions C111_history_partial.
Print Assumptions C111_realloc_refuted.
Print Assumptions C111_size_refuted.

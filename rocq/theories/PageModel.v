(* Model of cc::prefault_memory (src/clean-core/native/memory.cc:68-86), over the address space of VAllocModel.v, which also models
   commit_physical_memory and decommit_physical_memory (memory.cc:88-130).
   The function is modelled by the list of the addresses it reads and the byte it stores in s_byte_sink. *)
From Coq Require Import NArith List Bool.
From Verif Require Import Base BitsModel AllocModel VAllocModel.
Import ListNotations.
Open Scope N_scope.

Definition read (v : vm) (a : N) : outcome N := let! _ := defined (acc v (page a)) in Ok (byt v a).

(* lines 80-84 *)
Fixpoint prefault_loop (fuel : nat) (v : vm) (ptr e s : N) : outcome (list N * N) :=
  match fuel with
  | O => OutOfFuel
  | S fuel =>
      if ptr <? e then
        let! x := read v ptr in
        let! (rs, s) := prefault_loop fuel v (wadd 64 ptr 4096) e (N.lxor s x) in
        Ok (ptr :: rs, s)
      else Ok ([], s)
  end.
Definition prefault (fuel : nat) (v : vm) (ptr size : N) : outcome (list N * option N) :=
  if size =? 0 then Ok ([], None) else
  let! s := read v ptr in
  let e := wadd 64 ptr size in
  let! (rs, s) := prefault_loop fuel v (align_up 64 ptr 4096) e s in
  Ok (ptr :: rs, Some s).

(* src/clean-core/allocators/tlsf_allocator.hh and tlsf_allocator.cc: the allocator interface on top of
   the two level segregated fit heap. None stands for _tlsf == nullptr; pointers are option N.
   synced_tlsf_allocator.hh forwards every call under a lock; SyncModel.v models it. *)
From Coq Require Import NArith List Bool.
From Verif Require Import Base TlsfModel.
Open Scope N_scope.

(* tlsf_allocator.cc:7-14 initialize; tlsf_create returns null for a misaligned buffer (tlsf.cc:1029-1033),
   tlsf_add_pool of the equally misaligned remainder returns early (tlsf.cc:937-943) *)
Definition a_initialize (s : option tlsf) (m : memory) (addr bytes : N) : outcome (option tlsf) :=
  let! _ := contract (match s with None => true | Some _ => false end) in
  let! _ := contract (control_size <? bytes) in
  let! _ := contract (addr mod ALIGN_SIZE =? 0) in
  let! t := tlsf_create_with_pool m addr bytes in
  Ok (Some t).
(* tlsf_allocator.cc:16-23 destroy *)
Definition a_destroy (s : option tlsf) : option tlsf := None.
(* tlsf_allocator.cc:25-30 add_pool *)
Definition a_add_pool (s : option tlsf) (addr bytes : N) : outcome (option tlsf) :=
  match s with
  | None => Contract
  | Some t =>
    let! (t, p) := tlsf_add_pool t addr bytes in
    let! _ := contract (match p with None => false | Some _ => true end) in
    Ok (Some t)
  end.
(* tlsf_allocator.cc:32-38 alloc; without initialize the null control structure is dereferenced *)
Definition a_alloc (s : option tlsf) (size align : N) : outcome (option tlsf * N) :=
  let! _ := contract (0 <? size) in
  match s with
  | None => UB
  | Some t =>
    let! (t, p) := tlsf_memalign t align size in
    match p with None => Contract | Some p => Ok (Some t, p) end
  end.
(* tlsf_allocator.cc:40 free; tlsf.cc:1120 ignores null *)
Definition a_free (s : option tlsf) (ptr : option N) : outcome (option tlsf) :=
  match ptr, s with
  | None, _ => Ok s
  | Some _, None => UB
  | Some p, Some t => let! t := tlsf_free t p in Ok (Some t)
  end.
(* tlsf_allocator.cc:42-46 realloc, align is ignored *)
Definition a_realloc (s : option tlsf) (ptr : option N) (new_size align : N) : outcome (option tlsf * option N) :=
  match s with
  | None => UB
  | Some t => let! (t, p) := tlsf_realloc t ptr new_size in Ok (Some t, p)
  end.
(* tlsf_allocator.cc:48-55 get_allocation_size; None for false *)
Definition a_get_allocation_size (s : option tlsf) (ptr : option N) : outcome (option N) :=
  match ptr, s with
  | None, _ => Ok None
  | Some _, None => UB
  | Some p, Some t => let! n := tlsf_block_size t p in Ok (Some n)
  end.
(* tlsf_allocator.cc:57-64 validate_heap; the checks of tlsf_check assert themselves *)
Definition a_validate_heap (fuel : nat) (s : option tlsf) : outcome bool :=
  match s with
  | None => Contract
  | Some t => let! _ := tlsf_check fuel t in Ok true
  end.

(* Model of cc::virtual_linear_allocator (src/clean-core/allocators/virtual_linear_allocator.cc, .hh),
   cc::virtual_stack_allocator (src/clean-core/allocators/virtual_stack_allocator.cc, .hh) and the
   memory primitives they use (src/clean-core/native/memory.cc, Linux branch).

   The operating system is modelled by: one reservation of whole 4096-byte pages, a set of
   accessible pages, and byte contents.  mprotect on pages outside the reservation fails, which the
   code turns into an assertion failure.  An access to an inaccessible page is UB (a fault). *)
From Coq Require Import NArith ZArith List Lia Bool Arith.
Import ListNotations.
From Verif Require Import Base BitsModel AllocModel.
Open Scope N_scope.

Definition page (x : N) : N := x / 4096.

(* address space: reserved pages [rlo, rhi), accessible pages, contents *)
Record vm := mkvm { rlo : N; rhi : N; acc : N -> bool; byt : bytes }.

(* memory.cc:24-49 reserve_virtual_memory: mmap of size bytes, PROT_NONE, at page-aligned address b; the
   kernel rounds the length up to whole pages *)
Definition reserve (b size : N) (m : bytes) : vm :=
  mkvm (page b) (page (b + size + 4095)) (fun _ => false) m.

(* mprotect(ptr, size, ..) with page-aligned ptr and size *)
Definition protect (v : vm) (ptr size : N) (on : bool) : outcome vm :=
  let! _ := contract ((rlo v <=? page ptr) && (page (ptr + size) <=? rhi v)) in
  Ok (mkvm (rlo v) (rhi v)
        (fun p => if (page ptr <=? p) && (p <? page (ptr + size)) then on else acc v p) (byt v)).

(* memory.cc:89-108 commit_physical_memory; :110-130 decommit_physical_memory *)
Definition commit (v : vm) (ptr size : N) : outcome vm :=
  let new_ptr := align_down 64 ptr 4096 in
  let new_size := align_up 64 (wadd 64 size (wsub 64 ptr new_ptr)) 4096 in
  protect v new_ptr new_size true.
Definition decommit (v : vm) (ptr size : N) : outcome vm :=
  let new_ptr := align_down 64 ptr 4096 in
  let new_size := align_up 64 (wadd 64 size (wsub 64 ptr new_ptr)) 4096 in
  protect v new_ptr new_size false.

(* memory.cc:132-146 grow_physical_memory; returns the new physical end *)
Definition grow (v : vm) (cur pe ve chunk num : N) : outcome (vm * N) :=
  if wadd 64 cur num <=? pe then Ok (v, pe)
  else
    let new_commit := align_up 64 num chunk in
    let! _ := contract (wadd 64 pe new_commit <=? ve) in
    let! v := commit v pe new_commit in
    Ok (v, wadd 64 pe new_commit).

(* every byte of [a, a+n) is on an accessible page *)
Definition pages_of (a n : N) : list N :=
  if n =? 0 then [] else
  map (fun i => page a + N.of_nat i) (seq 0 (S (N.to_nat (page (a + n - 1) - page a)))).
Definition usable (v : vm) (a n : N) : bool := forallb (acc v) (pages_of a n).

Definition vstore (v : vm) (a : N) (n : nat) (x : N) : outcome vm :=
  let! _ := defined (usable v a (N.of_nat n)) in
  Ok (mkvm (rlo v) (rhi v) (acc v) (store (byt v) a n x)).
Definition vload (v : vm) (a : N) (n : nat) : outcome N :=
  let! _ := defined (usable v a (N.of_nat n)) in
  Ok (load (byt v) a n).
(* memcpy(dst, src, n): the ranges must not overlap *)
Definition vcopy (v : vm) (dst src n : N) : outcome vm :=
  let! _ := defined (usable v dst n && usable v src n) in
  let! _ := defined ((n =? 0) || (src + n <=? dst) || (dst + n <=? src)) in
  Ok (mkvm (rlo v) (rhi v) (acc v)
        (fun x => if (dst <=? x) && (x <? dst + n) then byt v (src + (x - dst)) else byt v x)).

(* ---------- virtual_linear_allocator ---------- *)
Module VLin.
  (* virtual_linear_allocator.hh:57-62 *)
  Record state := mkst { vb : N; ve : N; cur : N; pe : N; last : N; chunk : N; mem : vm }.

  (* virtual_linear_allocator.cc:9-21, b is the address mmap returns *)
  Definition initialize (b max chunk : N) (m : bytes) : outcome state :=
    let! _ := contract ((0 <? max) && (0 <? chunk)) in
    let! _ := contract (is_pow2 64 chunk) in
    let! _ := contract (negb (b =? 0)) in
    Ok (mkst b (wadd 64 b max) b b 0 chunk (reserve b max m)).

  (* virtual_linear_allocator.cc:32-49 *)
  Definition alloc (st : state) (size align : N) : outcome (state * N) :=
    let! _ := contract (negb (vb st =? 0)) in
    let padded := align_up 64 (wadd 64 (cur st) 8) align in
    let pad := wsub 64 padded (cur st) in
    let required := wadd 64 pad size in
    let! (v, pe') := grow (mem st) (cur st) (pe st) (ve st) (chunk st) required in
    let! v := vstore v (wsub 64 padded 8) 8 size in
    Ok (mkst (vb st) (ve st) (wadd 64 padded size) pe' padded (chunk st) v, padded).

  (* virtual_linear_allocator.hh:23 *)
  Definition free (st : state) (ptr : N) : state := st.

  (* virtual_linear_allocator.cc:51-58; None stands for the return value false *)
  Definition get_allocation_size (st : state) (ptr : N) : outcome (option N) :=
    if ptr =? 0 then Ok None
    else let! n := vload (mem st) (wsub 64 ptr 8) 8 in Ok (Some n).

  (* allocator.cc:26-46, the default realloc, with this allocator's alloc, free, get_allocation_size *)
  Definition default_realloc (st : state) (ptr new_size align : N) : outcome (state * N) :=
    if 0 <? new_size then
      let! (st, res) := alloc st new_size align in
      if negb (ptr =? 0) then
        let! old := get_allocation_size st ptr in
        match old with
        | None => Contract
        | Some old_size =>
            let! v := vcopy (mem st) res ptr (N.min old_size new_size) in
            Ok (mkst (vb st) (ve st) (cur st) (pe st) (last st) (chunk st) v, res)
        end
      else Ok (st, res)
    else Ok (free st ptr, 0).

  (* virtual_linear_allocator.cc:60-87 *)
  Definition realloc (st : state) (ptr new_size align : N) : outcome (state * N) :=
    if (ptr =? 0) || negb (ptr =? last st) then default_realloc st ptr new_size align
    else
      let! old := get_allocation_size st ptr in
      match old with
      | None => Contract
      | Some old_size =>
          let! _ := contract (old_size =? wsub 64 (cur st) ptr) in
          let! (v, pe') := (if old_size <? new_size
                            then grow (mem st) (cur st) (pe st) (ve st) (chunk st) (new_size - old_size)
                            else Ok (mem st, pe st)) in
          let! v := vstore v (wsub 64 ptr 8) 8 new_size in
          Ok (mkst (vb st) (ve st) (wadd 64 ptr new_size) pe' (last st) (chunk st) v, ptr)
      end.

  (* virtual_linear_allocator.hh:35-41 *)
  Definition reset (st : state) : state * N :=
    (mkst (vb st) (ve st) (vb st) (pe st) 0 (chunk st) (mem st), wsub 64 (cur st) (vb st)).

  (* virtual_linear_allocator.cc:89-103; the difference is a ptrdiff_t, returned as size_t *)
  Definition decommit_idle_memory (st : state) : outcome (state * N) :=
    let ptr := align_up 64 (cur st) (chunk st) in
    let diff := wsub 64 (pe st) ptr in
    if (0 <? diff) && (diff <? 2 ^ 63) then
      let! v := decommit (mem st) ptr diff in
      Ok (mkst (vb st) (ve st) (cur st) ptr (last st) (chunk st) v, diff)
    else Ok (st, diff).

  (* virtual_linear_allocator.hh:48-54 *)
  Definition virtual_size (st : state) : N := wsub 64 (ve st) (vb st).
  Definition physical_size (st : state) : N := wsub 64 (pe st) (vb st).
  Definition allocated_size (st : state) : N := wsub 64 (cur st) (vb st).
End VLin.

(* ---------- virtual_stack_allocator ---------- *)
Module VStk.
  (* virtual_stack_allocator.hh:58-63; begin_, head, end_, last_id are _virtual_begin,
     _physical_current, _virtual_end, _last_alloc_id *)
  Record state := mkst { fields : Stk.ctl; pe : N; chunk : N; mem : vm }.

  (* virtual_stack_allocator.cc:10-23 *)
  Definition initialize (b max chunk : N) (m : bytes) : outcome state :=
    let! _ := contract ((0 <? max) && (0 <? chunk)) in
    let! _ := contract (is_pow2 64 chunk) in
    let! _ := contract (negb (b =? 0)) in
    Ok (mkst (Stk.mkctl b b (wadd 64 b max) 0) b chunk (reserve b max m)).

  (* virtual_stack_allocator.cc:33-52 *)
  Definition alloc (st : state) (size align : N) : outcome (state * N) :=
    let c := fields st in
    let! _ := contract (negb (Stk.begin_ c =? 0)) in
    let padded := align_up_with_header (Stk.head c) align 8 in
    let pad := wsub 64 padded (Stk.head c) in
    let required := wadd 64 pad size in
    let! (v, pe') := grow (mem st) (Stk.head c) (pe st) (Stk.end_ c) (chunk st) required in
    let! _ := defined (Stk.last_id c <? 2 ^ 31 - 1)%Z in
    let id := (Stk.last_id c + 1)%Z in
    let! v := vstore v (wsub 64 padded 8) 4 (wrap 32 pad) in
    let! v := vstore v (wsub 64 padded 4) 4 (u32 id) in
    Ok (mkst (Stk.mkctl (Stk.begin_ c) (wadd 64 padded size) (Stk.end_ c) id) pe' (chunk st) v, padded).

  Definition header (st : state) (ptr : N) : outcome (N * Z) :=
    let! p := vload (mem st) (wsub 64 ptr 8) 4 in
    let! i := vload (mem st) (wsub 64 ptr 4) 4 in
    Ok (p, s32 i).

  (* virtual_stack_allocator.cc:54-65 *)
  Definition free (st : state) (ptr : N) : outcome state :=
    if ptr =? 0 then Ok st else
    let c := fields st in
    let! (padding, id) := header st ptr in
    let! _ := contract (id =? Stk.last_id c)%Z in
    let! _ := defined (- 2 ^ 31 <? Stk.last_id c)%Z in
    Ok (mkst (Stk.mkctl (Stk.begin_ c) (wsub 64 ptr padding) (Stk.end_ c) (Stk.last_id c - 1))
          (pe st) (chunk st) (mem st)).

  (* virtual_stack_allocator.cc:67-98 *)
  Definition realloc (st : state) (ptr new_size align : N) : outcome (state * N) :=
    if new_size =? 0 then let! st := free st ptr in Ok (st, 0)
    else if ptr =? 0 then alloc st new_size align
    else
      let c := fields st in
      let! (_, id) := header st ptr in
      let! _ := contract (id =? Stk.last_id c)%Z in
      let old_size := wsub 64 (Stk.head c) ptr in
      let! (v, pe') := (if old_size <? new_size
                        then grow (mem st) (Stk.head c) (pe st) (Stk.end_ c) (chunk st) (new_size - old_size)
                        else Ok (mem st, pe st)) in
      Ok (mkst (Stk.mkctl (Stk.begin_ c) (wadd 64 ptr new_size) (Stk.end_ c) (Stk.last_id c)) pe' (chunk st) v, ptr).

  (* virtual_stack_allocator.cc:100-106 *)
  Definition reset (st : state) : state * N :=
    let c := fields st in
    (mkst (Stk.mkctl (Stk.begin_ c) (Stk.begin_ c) (Stk.end_ c) 0) (pe st) (chunk st) (mem st),
     wsub 64 (Stk.head c) (Stk.begin_ c)).

  (* virtual_stack_allocator.cc:108-122 *)
  Definition decommit_idle_memory (st : state) : outcome (state * N) :=
    let c := fields st in
    let ptr := align_up 64 (Stk.head c) (chunk st) in
    let diff := wsub 64 (pe st) ptr in
    if (0 <? diff) && (diff <? 2 ^ 63) then
      let! v := decommit (mem st) ptr diff in
      Ok (mkst c ptr (chunk st) v, diff)
    else Ok (st, diff).

  (* virtual_stack_allocator.cc:124-133 *)
  Definition is_latest_allocation (st : state) (ptr : N) : outcome bool :=
    let! _ := contract (negb (ptr =? 0)) in
    let! _ := contract ((Stk.begin_ (fields st) <? ptr) && negb (pe st =? 0)) in
    let! (_, id) := header st ptr in
    Ok (id =? Stk.last_id (fields st))%Z.
End VStk.

(* Model of cc::atomic_pool_allocator (src/clean-core/allocators/atomic_pool_allocator.hh, .cc).

   The free list is threaded through the free blocks: the first 8 bytes of a free block hold the
   address of the next one.  Addresses are 64-bit, the buffer is [begin, begin + bytes), an access
   outside of it is UB.  Unaligned 8-byte accesses are treated as byte-wise accesses.

   Seq: the calls of one thread; the compare-exchange then succeeds at the first attempt (a spurious
   failure repeats the same reads and writes).
   Con: any number of calls in flight; every access to _first_free_node or to a block is one step,
   the memory is sequentially consistent, the compare-exchange may fail spuriously. *)
From Coq Require Import NArith ZArith List Lia Bool Arith.
Import ListNotations.
From Verif Require Import Base BitsModel AllocModel.
Open Scope N_scope.

(* atomic_pool_allocator.hh:104-108 *)
Record pool := mkp { begin_ : N; bytes_ : N; blk : N; first : N; mem : bytes }.

Definition inside (p : pool) (a : N) : bool := (begin_ p <=? a) && (a + 8 <=? begin_ p + bytes_ p).
(* reading and writing the next pointer of the block at a *)
Definition rd (p : pool) (a : N) : outcome N :=
  let! _ := defined (inside p a) in Ok (load (mem p) a 8).
Definition wr (p : pool) (a v : N) : outcome pool :=
  let! _ := defined (inside p a) in Ok (mkp (begin_ p) (bytes_ p) (blk p) (first p) (store (mem p) a 8 v)).
Definition set_first (p : pool) (f : N) : pool := mkp (begin_ p) (bytes_ p) (blk p) f (mem p).

(* atomic_pool_allocator.cc:18-22; i has type unsigned, so i and i + 1 are 32-bit *)
Fixpoint link_loop (fuel : nat) (p : pool) (n i : N) : outcome pool :=
  if i <? wsub 64 n 1 then
    match fuel with
    | O => OutOfFuel
    | S fuel =>
        let! p := wr p (wadd 64 (begin_ p) (wmul 64 i (blk p)))
                     (wadd 64 (begin_ p) (wmul 64 (wadd 32 i 1) (blk p))) in
        link_loop fuel p n (wadd 32 i 1)
    end
  else Ok p.

(* atomic_pool_allocator.cc:5-31 initialize, for a fresh allocator, buffer of len bytes at b *)
Definition initialize (fuel : nat) (b len block_size : N) (m : bytes) : outcome pool :=
  let! _ := contract (8 <=? block_size) in
  let! _ := contract (block_size <=? len) in
  let n := len / block_size in
  let! p := link_loop fuel (mkp b len block_size 0 m) n 0 in
  let! p := wr p (wadd 64 b (wmul 64 (wsub 64 n 1) block_size)) 0 in
  Ok (set_first p b).

(* atomic_pool_allocator.hh:85 *)
Definition is_full (p : pool) : bool := first p =? 0.
(* atomic_pool_allocator.hh:47-48 and :74-76: the two checks on a pointer.  The difference of two
   pointers is signed, but the first check makes it non-negative (buffers are below 2^63 bytes). *)
Definition check_ptr (p : pool) (ptr : N) : outcome unit :=
  let! _ := contract ((begin_ p <=? ptr) && (ptr - begin_ p <=? bytes_ p)) in
  contract ((ptr - begin_ p) mod (blk p) =? 0).
(* atomic_pool_allocator.hh:71-79 get_node_offset_bytes *)
Definition get_node_offset_bytes (p : pool) (ptr : N) : outcome N :=
  let! _ := check_ptr p ptr in Ok (ptr - begin_ p).
(* atomic_pool_allocator.hh:81-85 get_node_index *)
Definition get_node_index (p : pool) (ptr : N) : outcome N :=
  let! o := get_node_offset_bytes p ptr in Ok (o / blk p).
(* atomic_pool_allocator.hh:58-65; None stands for the return value false *)
Definition get_allocation_size (p : pool) (ptr : N) : option N := if ptr =? 0 then None else Some (blk p).
(* atomic_pool_allocator.hh:90 *)
Definition max_num_blocks (p : pool) : N := bytes_ p / blk p.

Module Seq.
  (* atomic_pool_allocator.hh:15-37 *)
  Definition alloc (p : pool) (size align : N) : outcome (pool * N) :=
    let! _ := contract (negb (is_full p)) in
    let! _ := contract (size <=? blk p) in
    let acquired := first p in
    let! next := rd p acquired in
    let p := set_first p next in
    let! _ := contract (is_aligned acquired align) in
    Ok (p, acquired).

  (* atomic_pool_allocator.hh:39-63 *)
  Definition free (p : pool) (ptr : N) : outcome pool :=
    if ptr =? 0 then Ok p else
    let! _ := check_ptr p ptr in
    let! p := wr p ptr (first p) in
    Ok (set_first p ptr).
End Seq.

Module Con.
  (* where a call in flight is; Idle: the call has returned *)
  Inductive pc :=
  | Idle
  | ALoad (align : N)                          (* about to load _first_free_node, :27 *)
  | ANext (align acquired : N)                 (* about to read the next pointer, :29 *)
  | ACas (align acquired next : N)             (* about to compare-exchange, :32-33 *)
  | FLoad (node : N)                           (* about to load _first_free_node, :54 *)
  | FNext (node expected : N)                  (* about to write the next pointer, :57 *)
  | FCas (node expected : N).                  (* about to compare-exchange, :60-61 *)

  Record state := mks { sh : pool; thr : list pc }.

  (* a new call of alloc: the two checks, :17-18 *)
  Definition start_alloc (st : state) (size align : N) : outcome state :=
    let! _ := contract (negb (is_full (sh st))) in
    let! _ := contract (size <=? blk (sh st)) in
    Ok (mks (sh st) (ALoad align :: thr st)).

  (* a new call of free with a non-null pointer: the two checks, :47-48 *)
  Definition start_free (st : state) (ptr : N) : outcome state :=
    let! _ := check_ptr (sh st) ptr in
    Ok (mks (sh st) (FLoad ptr :: thr st)).

  (* One step of call k; spurious: the compare-exchange fails although the values are equal.
     The result is Some p when an alloc returns p. *)
  Definition step (st : state) (k : nat) (spurious : bool) : outcome (state * option N) :=
    let! c := aget (thr st) k in
    let go p c := Ok (mks p (lset (thr st) k c), None) in
    match c with
    | Idle => UB                                 (* not a step *)
    | ALoad al => go (sh st) (ANext al (first (sh st)))
    | ANext al a => let! nx := rd (sh st) a in go (sh st) (ACas al a nx)
    | ACas al a nx =>
        if (first (sh st) =? a) && negb spurious then
          let! _ := contract (is_aligned a al) in
          Ok (mks (set_first (sh st) nx) (lset (thr st) k Idle), Some a)
        else go (sh st) (ALoad al)
    | FLoad n => go (sh st) (FNext n (first (sh st)))
    | FNext n e => let! p := wr (sh st) n e in go p (FCas n e)
    | FCas n e =>
        if (first (sh st) =? e) && negb spurious then go (set_first (sh st) n) Idle
        else go (sh st) (FLoad n)
    end.
End Con.

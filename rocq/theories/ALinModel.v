(* Model of cc::atomic_linear_allocator (src/clean-core/allocators/atomic_linear_allocator.hh).

   An alloc call consists of one atomic step (the fetch_add on _offset, line 21) and a private rest
   (lines 23-32) that only touches the caller's part of the buffer.  Any number of threads: the state
   lists all alloc calls made so far, in flight or returned; a schedule picks which call starts or
   completes next.  Addresses are 64-bit, arithmetic wraps.  A store outside the buffer is UB. *)
From Coq Require Import NArith ZArith List Lia Bool Arith.
Import ListNotations.
From Verif Require Import Base BitsModel AllocModel.
Open Scope N_scope.

(* one alloc call: arguments (align already max'ed with 1, line 18), fetched offset, result *)
Record call := mkcall { csize : N; calign : N; cstart : N; cres : option N }.

Record state := mkst { begin_ : N; end_ : N; off : N; mem : bytes; calls : list call }.

(* atomic_linear_allocator.hh:58, :60-66 *)
Definition init (b len : N) (m : bytes) : state := mkst b (wadd 64 b len) 0 m [].

(* atomic_linear_allocator.hh:14-21: up to and including the fetch_add *)
Definition start (st : state) (size align : N) : outcome state :=
  let! _ := contract (negb (begin_ st =? 0)) in
  let align := N.max align 1 in
  let buffer_size := wadd 64 (wadd 64 size (wsub 64 align 1)) 8 in
  Ok (mkst (begin_ st) (end_ st) (wadd 64 (off st) buffer_size) (mem st)
        (mkcall size align (off st) None :: calls st)).

(* atomic_linear_allocator.hh:23-32: the rest of call number k *)
Definition finish (st : state) (k : nat) : outcome state :=
  let! c := aget (calls st) k in
  match cres c with
  | Some _ => UB                                 (* not a step of any thread: the call has returned *)
  | None =>
      let alloc_start := wadd 64 (begin_ st) (cstart c) in
      let padded := align_up 64 (wadd 64 alloc_start 8) (calign c) in
      let hdr := wsub 64 padded 8 in
      let! _ := defined ((begin_ st <=? hdr) && (hdr + 8 <=? end_ st)) in
      let m := store (mem st) hdr 8 (csize c) in
      let! _ := contract (wsub 64 padded (wadd 64 alloc_start 8) <? calign c) in
      let! _ := contract (wadd 64 padded (csize c) <=? end_ st) in
      Ok (mkst (begin_ st) (end_ st) (off st) m
            (lset (calls st) k (mkcall (csize c) (calign c) (cstart c) (Some padded))))
  end.

(* atomic_linear_allocator.hh:40-47; None stands for the return value false *)
Definition get_allocation_size (st : state) (ptr : N) : outcome (option N) :=
  if ptr =? 0 then Ok None else
  let hdr := wsub 64 ptr 8 in
  let! _ := defined ((begin_ st <=? hdr) && (hdr + 8 <=? end_ st)) in
  Ok (Some (load (mem st) hdr 8)).

(* atomic_linear_allocator.hh:51: only meaningful when no call is in flight *)
Definition reset (st : state) : state := mkst (begin_ st) (end_ st) 0 (mem st) [].

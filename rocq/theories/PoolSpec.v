(* What users of the pool allocator rely on. *)
From Coq Require Import NArith ZArith List Lia Bool Arith.
Import ListNotations.
From Verif Require Import Base AllocModel AllocSpec PoolModel.
Open Scope N_scope.

(* the blocks of a buffer: address b + i * blk for i below len / blk *)
Definition is_block (b len blk p : N) : Prop := exists i, i < len / blk /\ p = b + i * blk.

(* a sensible buffer: does not wrap, less than 2^63 bytes, at most 2^32 blocks that can hold a pointer *)
Definition sane (b len blk : N) : Prop :=
  0 < b /\ b + len < 2 ^ 64 /\ len < 2 ^ 63 /\ 8 <= blk /\ blk <= len /\ len / blk <= 2 ^ 32.

(* Histories of one thread: alloc, free of a block it owns (or null), writes into owned blocks.
   The list holds the blocks currently owned. *)
Section Seq.
  Variables b len blk : N.
  Inductive hist : pool -> list N -> Prop :=
  | h_init fuel m p : initialize fuel b len blk m = Ok p -> hist p []
  | h_alloc p own s a p' q : hist p own -> Seq.alloc p s a = Ok (p', q) -> hist p' (q :: own)
  | h_free p o1 q o2 p' : hist p (o1 ++ q :: o2) -> Seq.free p q = Ok p' -> hist p' (o1 ++ o2)
  | h_free_null p own p' : hist p own -> Seq.free p 0 = Ok p' -> hist p' own
  | h_write p own q x v : hist p own -> In q own -> q <= x < q + blk -> v < 256 ->
      hist (mkp (begin_ p) (bytes_ p) (PoolModel.blk p) (first p) (upd (mem p) x v)) own.
End Seq.

(* Executions by any number of threads.  The list holds the blocks owned by clients: returned by
   alloc and not yet passed to free.
   one: alloc calls do not overlap each other (frees overlap everything);
   not one: frees and allocs do not overlap (allocs overlap each other, and so do frees).
   roomy: clients never have more blocks than the capacity, counting calls in flight. *)
Definition allocating (c : Con.pc) : bool :=
  match c with Con.ALoad _ | Con.ANext _ _ | Con.ACas _ _ _ => true | _ => false end.
Definition freeing (c : Con.pc) : bool :=
  match c with Con.FLoad _ | Con.FNext _ _ | Con.FCas _ _ => true | _ => false end.
Definition none (f : Con.pc -> bool) (l : list Con.pc) : Prop := Forall (fun c => f c = false) l.
Definition count (f : Con.pc -> bool) (l : list Con.pc) : nat := length (filter f l).

Section Con.
  Variables (b len blk : N) (one roomy : bool).
  Inductive exec : Con.state -> list N -> Prop :=
  | x_init fuel m p : initialize fuel b len blk m = Ok p -> exec (Con.mks p []) []
  | x_alloc st own s a st' : exec st own ->
      none (if one then allocating else freeing) (Con.thr st) ->
      (roomy = true -> N.of_nat (length own + count allocating (Con.thr st) + count freeing (Con.thr st)) < len / blk) ->
      Con.start_alloc st s a = Ok st' -> exec st' own
  | x_free st o1 q o2 st' : exec st (o1 ++ q :: o2) ->
      (one = false -> none allocating (Con.thr st)) ->
      Con.start_free st q = Ok st' -> exec st' (o1 ++ o2)
  | x_step st own k sp st' : exec st own -> Con.step st k sp = Ok (st', None) -> exec st' own
  | x_return st own k sp st' q : exec st own -> Con.step st k sp = Ok (st', Some q) -> exec st' (q :: own)
  | x_write st own q x v : exec st own -> In q own -> q <= x < q + blk -> v < 256 ->
      exec (Con.mks (let p := Con.sh st in mkp (begin_ p) (bytes_ p) (PoolModel.blk p) (first p) (upd (mem p) x v))
              (Con.thr st)) own.
End Con.

(* All executions, without the restrictions *)
Section Any.
  Variables (b len blk : N).
  Inductive anyexec : Con.state -> list N -> Prop :=
  | y_init fuel m p : initialize fuel b len blk m = Ok p -> anyexec (Con.mks p []) []
  | y_alloc st own s a st' : anyexec st own -> Con.start_alloc st s a = Ok st' -> anyexec st' own
  | y_free st o1 q o2 st' : anyexec st (o1 ++ q :: o2) -> Con.start_free st q = Ok st' -> anyexec st' (o1 ++ o2)
  | y_step st own k sp st' : anyexec st own -> Con.step st k sp = Ok (st', None) -> anyexec st' own
  | y_return st own k sp st' q : anyexec st own -> Con.step st k sp = Ok (st', Some q) -> anyexec st' (q :: own)
  | y_write st own q x v : anyexec st own -> In q own -> q <= x < q + blk -> v < 256 ->
      anyexec (Con.mks (let p := Con.sh st in mkp (begin_ p) (bytes_ p) (PoolModel.blk p) (first p) (upd (mem p) x v))
              (Con.thr st)) own.
End Any.

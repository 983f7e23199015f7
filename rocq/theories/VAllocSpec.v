(* What a user of the virtual-memory allocators relies on. *)
From Coq Require Import NArith ZArith List Lia Bool Arith.
Import ListNotations.
From Verif Require Import Base BitsSpec AllocModel AllocSpec VAllocModel.
Open Scope N_scope.

(* every byte of the block is on an accessible page *)
Definition committed (v : vm) (q : block) : Prop := forall x, holds q x -> acc v (x / 4096) = true.

(* the lower part of the address space, where user mappings live; sizes far from wrapping *)
Definition sane_reservation (b max chunk : N) : Prop :=
  0 < b /\ (4096 | b) /\ 0 < max /\ b + max <= 2 ^ 62 /\ pow2 chunk /\ chunk <= 2 ^ 61.
Definition sane_request (s a : N) : Prop := pow2 a /\ a <= 2 ^ 61 /\ s <= 2 ^ 60.

(* Histories of a virtual_linear_allocator: blocks handed out since the last reset, latest first;
   a block moved by realloc stays in the list (its memory is not reused before the next reset). *)
Section VLinear.
  Variables b max ch : N.
  Inductive vlin_hist : VLin.state -> list block -> Prop :=
  | vl_init m st : (forall x, m x < 256) -> VLin.initialize b max ch m = Ok st -> vlin_hist st []
  | vl_alloc st l s a st' p :
      vlin_hist st l -> sane_request s a -> VLin.alloc st s a = Ok (st', p) ->
      vlin_hist st' (mkb p s a :: l)
  | vl_free st l p : vlin_hist st l -> vlin_hist (VLin.free st p) l
  | vl_realloc_null st l n a st' p :
      vlin_hist st l -> 0 < n -> sane_request n a -> VLin.realloc st 0 n a = Ok (st', p) ->
      vlin_hist st' (mkb p n a :: l)
  | vl_realloc_latest st q s a l n a' st' p :
      vlin_hist st (mkb q s a :: l) -> n <= 2 ^ 60 -> VLin.realloc st q n a' = Ok (st', p) ->
      vlin_hist st' (mkb p n a :: l)
  | vl_realloc_other st r q l n a st' p :
      vlin_hist st (r :: l) -> In q l -> 0 < n -> sane_request n a ->
      VLin.realloc st (addr q) n a = Ok (st', p) ->
      vlin_hist st' (mkb p n a :: r :: l)
  | vl_write st l q x v :
      vlin_hist st l -> In q l -> holds q x -> v < 256 ->
      vlin_hist (VLin.mkst (VLin.vb st) (VLin.ve st) (VLin.cur st) (VLin.pe st) (VLin.last st) (VLin.chunk st)
                   (mkvm (rlo (VLin.mem st)) (rhi (VLin.mem st)) (acc (VLin.mem st)) (upd (byt (VLin.mem st)) x v))) l
  | vl_reset st l : vlin_hist st l -> vlin_hist (fst (VLin.reset st)) []
  | vl_decommit st l st' n :
      vlin_hist st l -> 4096 <= ch -> VLin.decommit_idle_memory st = Ok (st', n) -> vlin_hist st' l.
End VLinear.

(* Histories of a virtual_stack_allocator: live blocks, latest first, with the allocator fields
   before each allocation. *)
Section VStack.
  Variables b max ch : N.
  Inductive vstk_hist : VStk.state -> list (block * Stk.ctl) -> Prop :=
  | vs_init m st : (forall x, m x < 256) -> VStk.initialize b max ch m = Ok st -> vstk_hist st []
  | vs_alloc st l s a st' p :
      vstk_hist st l -> sane_request s a -> a <= 2 ^ 31 -> VStk.alloc st s a = Ok (st', p) ->
      vstk_hist st' ((mkb p s a, VStk.fields st) :: l)
  | vs_free_null st l st' : vstk_hist st l -> VStk.free st 0 = Ok st' -> vstk_hist st' l
  | vs_free st q c l st' :
      vstk_hist st ((q, c) :: l) -> VStk.free st (addr q) = Ok st' -> vstk_hist st' l
  | vs_realloc st q s a c l n a' st' p :
      vstk_hist st ((mkb q s a, c) :: l) -> 0 < n -> n <= 2 ^ 60 ->
      VStk.realloc st q n a' = Ok (st', p) -> vstk_hist st' ((mkb p n a, c) :: l)
  | vs_write st l q c x v :
      vstk_hist st l -> In (q, c) l -> holds q x -> v < 256 ->
      vstk_hist (VStk.mkst (VStk.fields st) (VStk.pe st) (VStk.chunk st)
                   (mkvm (rlo (VStk.mem st)) (rhi (VStk.mem st)) (acc (VStk.mem st)) (upd (byt (VStk.mem st)) x v))) l
  | vs_reset st l : vstk_hist st l -> vstk_hist (fst (VStk.reset st)) []
  | vs_decommit st l st' n :
      vstk_hist st l -> 4096 <= ch -> VStk.decommit_idle_memory st = Ok (st', n) -> vstk_hist st' l.
End VStack.

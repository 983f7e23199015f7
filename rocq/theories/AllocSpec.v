(* What a user of an allocator that works in one buffer relies on.  A block is what the client
   was given: address, size and the alignment it asked for. *)
From Coq Require Import NArith ZArith List Lia Bool Arith.
Import ListNotations.
From Verif Require Import Base BitsSpec AllocModel.
Open Scope N_scope.

Record block := mkb { addr : N; size : N; align : N }.

Definition holds (b : block) (x : N) : Prop := addr b <= x /\ x < addr b + size b.
Definition within (lo hi : N) (b : block) : Prop := lo <= addr b /\ addr b + size b <= hi.
Definition well_aligned (b : block) : Prop := (align b | addr b).
(* no byte belongs to two blocks *)
Definition apart (b c : block) : Prop := forall x, ~ (holds b x /\ holds c x).
Fixpoint all_apart (l : list block) : Prop :=
  match l with
  | [] => True
  | b :: t => Forall (apart b) t /\ all_apart t
  end.
Definition good_blocks (lo hi : N) (l : list block) : Prop :=
  Forall (within lo hi) l /\ Forall well_aligned l /\ all_apart l.

Definition pow2 (a : N) : Prop := exists k, k < 64 /\ a = 2 ^ k.

(* "fits": the smallest multiple p of a that is at least x satisfies p + size <= hi *)
Definition fits (hi x a size : N) : Prop := exists p, least_multiple_above a x p /\ p + size <= hi.
(* the request does not leave the 64-bit address space *)
Definition no_wrap (x a size : N) : Prop := fits (2 ^ 64 - 1) x a size.

(* Histories of a linear allocator over the buffer of len bytes at b, with the blocks handed out
   since the last reset (latest first), as the client sees them. *)
Section Linear.
  Variables b len : N.
  Inductive lin_hist : Lin.state -> list block -> Prop :=
  | lh_init : lin_hist (Lin.init b len) []
  | lh_alloc st l s a st' p :
      lin_hist st l -> a = 0 \/ pow2 a -> no_wrap (Lin.head st) (N.max a 1) s ->
      Lin.alloc st s a = Ok (st', p) -> lin_hist st' (mkb p s (N.max a 1) :: l)
  | lh_free st l p : lin_hist st l -> lin_hist (Lin.free st p) l
  | lh_realloc st q s a l n a' st' p :
      lin_hist st (mkb q s a :: l) -> q + n < 2 ^ 64 ->
      Lin.realloc st q n a' = Ok (st', p) -> lin_hist st' (mkb p n a :: l)
  | lh_reset st l : lin_hist st l -> lin_hist (Lin.reset st) [].
End Linear.

(* Histories of a stack allocator.  Besides the live blocks (latest first) the history remembers
   the allocator fields before each allocation. Clients write only into their live blocks. *)
Section Stack.
  Variables b len : N.
  Inductive stk_hist : Stk.state -> list (block * Stk.ctl) -> Prop :=
  | sh_init m : (forall x, m x < 256) -> stk_hist (Stk.init b len m) []
  | sh_alloc st l s a st' p :
      stk_hist st l -> pow2 a -> a <= 2 ^ 31 -> no_wrap (Stk.head (Stk.fields st) + 8) a s ->
      Stk.alloc st s a = Ok (st', p) -> stk_hist st' ((mkb p s a, Stk.fields st) :: l)
  | sh_free_null st l st' : stk_hist st l -> Stk.free st 0 = Ok st' -> stk_hist st' l
  | sh_free st q c l st' :
      stk_hist st ((q, c) :: l) -> Stk.free st (addr q) = Ok st' -> stk_hist st' l
  | sh_realloc st q s a c l n a' st' p :
      stk_hist st ((mkb q s a, c) :: l) -> 0 < n -> q + n < 2 ^ 64 ->
      Stk.realloc st q n a' = Ok (st', p) -> stk_hist st' ((mkb p n a, c) :: l)
  | sh_write st l q c x v :
      stk_hist st l -> In (q, c) l -> holds q x -> v < 256 ->
      stk_hist (Stk.mkst (Stk.fields st) (upd (Stk.mem st) x v)) l
  | sh_reset st l : stk_hist st l -> stk_hist (Stk.reset st) [].
End Stack.

(* Model of src/clean-core/allocate.hh: cc::alloc / cc::free over thread_local pool allocators.

   A pool is one thread's pool_allocator<Size, Align>; cls gives the kind (Size, Align) of a pool and block_size the number of
   objects per block of a kind.  An object slot is (number of the array made by new storage[block_size], index in it).  The
   pools of different threads share nothing, so that every call is one step; arrays are never released. *)
From Coq Require Import NArith List Bool Arith.
From Verif Require Import Base.
Import ListNotations.

Definition slot := (nat * nat)%type.
(* allocate.hh:37-56 pool_block: curr and ptrs[Size] *)
Record pblock := mkPB { curr : nat; ptrs : list (option slot) }.
(* allocate.hh:58-78: free_list and the list behind free_list_next *)
Record pool := mkP { free_list : pblock; free_list_next : list pblock }.
Definition empty_block (bs : nat) : pblock := mkPB bs (repeat None bs).
Definition new_pool (bs : nat) : pool := mkP (empty_block bs) [].

(* 43-44 *)
Definition can_pop (bs : nat) (b : pblock) : bool := curr b <? bs.
Definition can_push (b : pblock) : bool := 0 <? curr b.
(* 46-50 *)
Definition push (b : pblock) (p : slot) : outcome pblock :=
  let! _ := contract (can_push b) in
  let! ps := aset (ptrs b) (curr b - 1) (Some p) in
  Ok (mkPB (curr b - 1) ps).
(* 51-55 *)
Definition pop (bs : nat) (b : pblock) : outcome (option slot * pblock) :=
  let! _ := contract (can_pop bs b) in
  let! p := aget (ptrs b) (curr b) in
  Ok (p, mkPB (S (curr b)) (ptrs b)).

(* 80-99 alloc_block; n is the number of arrays so far *)
Definition alloc_block (bs : nat) (a : pool) (n : nat) : outcome (pool * nat) :=
  let! _ := contract (negb (can_pop bs (free_list a))) in
  match free_list_next a with
  | fb :: rest => Ok (mkP fb rest, n)
  | [] => Ok (mkP (mkPB 0 (map (fun i => Some (n, i)) (seq 0 bs))) [], S n)
  end.
(* 101-109 move_free_block *)
Definition move_free_block (bs : nat) (a : pool) : outcome pool :=
  let! _ := contract (negb (can_push (free_list a))) in
  Ok (mkP (mkPB bs (ptrs (free_list a))) (free_list a :: free_list_next a)).
(* 111-117 alloc *)
Definition palloc (bs : nat) (a : pool) (n : nat) : outcome (option slot * pool * nat) :=
  let! (a, n) := (if negb (can_pop bs (free_list a)) then alloc_block bs a n else Ok (a, n)) in
  let! (p, b) := pop bs (free_list a) in
  Ok (p, mkP b (free_list_next a), n).
(* 119-125 free *)
Definition pfree (bs : nat) (a : pool) (p : slot) : outcome pool :=
  let! a := (if negb (can_push (free_list a)) then move_free_block bs a else Ok a) in
  let! b := push (free_list a) p in
  Ok (mkP b (free_list_next a)).

(* all pools, the kinds of the arrays made so far, and the objects alive *)
Record world := mkW { pools : list pool; arrays : list nat; live : list slot }.
Inductive op := Alloc (i : nat) | Free (i : nat) (p : slot).
Definition kind_of (w : world) (p : slot) : nat := nth (fst p) (arrays w) 0.
Definition slot_eqb (p q : slot) : bool := (fst p =? fst q) && (snd p =? snd q).

Section World.
  Variables (bs cls : nat -> nat).
  (* Alloc i: cc::alloc<T> on the thread and kind of pool i, 136-142; Free i p: cc::free of an object that is alive, of the kind
     of pool i, on the thread of pool i, 143-150 (anything else is a misuse) *)
  Definition step (w : world) (o : op) : outcome world :=
    match o with
    | Alloc i =>
        let! a := aget (pools w) i in
        let! (p, a, n) := palloc (bs (cls i)) a (length (arrays w)) in
        match p with
        | None => UB
        | Some p => Ok (mkW (lset (pools w) i a) (if length (arrays w) <? n then arrays w ++ [cls i] else arrays w) (p :: live w))
        end
    | Free i p =>
        let! a := aget (pools w) i in
        if existsb (slot_eqb p) (live w) && (kind_of w p =? cls i) then
          let! a := pfree (bs (cls i)) a p in
          Ok (mkW (lset (pools w) i a) (arrays w) (filter (fun q => negb (slot_eqb p q)) (live w)))
        else UB
    end.
  Fixpoint run (w : world) (os : list op) : outcome world :=
    match os with [] => Ok w | o :: os => let! w := step w o in run w os end.
  (* n pools *)
  Definition start (n : nat) : world := mkW (map (fun i => new_pool (bs (cls i))) (seq 0 n)) [] [].
End World.

(* 61-62: number of objects of size bytes per block *)
Definition block_size (size : nat) : nat := N.to_nat (65536 / N.of_nat size).

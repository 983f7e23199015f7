(* Model of the life of cc::atomic_linked_pool and its nodes (src/clean-core/atomic_linked_pool.hh) in one thread: initialize,
   destroy, acquire, release, iterate_allocated_nodes and release_all with constructors and destructors. Nodes are named by their
   index (handles: LPoolModel.v); a chain of operations of one thread never retries its compare-exchanges. The allocator always
   has memory. Not modelled: moves, which do not compile (std::atomic cannot be moved). *)
From Coq Require Import NArith List Bool Arith.
From Verif Require Import Base LPoolModel RadixModel.
Import ListNotations.
Open Scope nat_scope.

(* chk: sc_enable_gen_check; tc, td: T is trivially constructible, destructible *)
Record kind := mkk { chk : bool; tc : bool; td : bool }.
(* 491-507. cells: which nodes hold an object, None if _pool is null; flist: None if the free list is null or was freed;
   ctors, dtors: constructor and destructor calls; blocks: how many allocations were not freed *)
Record st := mks { cells : option (list bool); flist : option (list (option nat)); size : nat; head : option nat;
                   ctors : list nat; dtors : list nat; blocks : nat }.
Definition none : st := mks None None 0 (Some 0) [] [] 0.

Definition opt {A} (x : option A) : outcome A := match x with Some a => Ok a | None => UB end.
Definition nblocks (k : kind) : nat := if chk k then 3 else 2.
(* 37-43, 314-315 *)
Definition max_nodes (k : kind) : N := if chk k then 2 ^ 16 - 1 else 2 ^ 29 - 1.
(* 31-93; extra: as in LPoolModel.v, how many elements behind the free list may be accessed *)
Definition initialize (k : kind) (extra : nat) (s : st) (n : nat) : outcome st :=
  if Nat.eqb n 0 then Ok s
  else
    let! _ := contract (N.of_nat n <=? max_nodes k)%N in
    let! _ := contract (1 <? n) in
    let! _ := contract (match cells s with None => true | Some _ => false end) in
    let! a := link_loop (n - 1) 0 (repeat None (n - 1 + extra)) in
    let! a := aset a (n - 1) None in
    Ok (mks (Some (repeat false n)) (Some a) n (Some 0) (ctors s) (dtors s) (blocks s + nblocks k)).

(* 98-139 *)
Definition acquire (k : kind) (s : st) : outcome (st * nat) :=
  match head s with
  | None => Contract
  | Some i =>
      let! a := opt (flist s) in
      let! next := aget a i in
      let! c := opt (cells s) in
      let! live := aget c i in
      let! _ := defined (negb live) in
      let! _ := contract (i <? size s) in
      Ok (mks (Some (lset c i true)) (flist s) (size s) next (if tc k then ctors s else i :: ctors s) (dtors s) (blocks s), i)
  end.
(* 254-269, 407-440: the node must hold an object *)
Definition release (k : kind) (s : st) (i : nat) : outcome st :=
  let! _ := contract (i <? size s) in
  let! c := opt (cells s) in
  let! live := aget c i in
  let! _ := defined live in
  let! a := opt (flist s) in
  let! a := aset a i (head s) in
  Ok (mks (Some (lset c i false)) (Some a) (size s) (Some i) (ctors s) (if td k then dtors s else i :: dtors s) (blocks s)).

(* 335-345: the vector has room for all nodes *)
Fixpoint collect (fuel cap : nat) (a : list (option nat)) (cursor : option nat) (found : list N) : outcome (list N) :=
  match cursor with
  | None => Ok found
  | Some i =>
      match fuel with
      | O => OutOfFuel
      | S fuel =>
          let! _ := contract (length found <? cap) in
          let! next := aget a i in
          collect fuel cap a next (found ++ [N.of_nat i])
      end
  end.
(* 330-352 *)
Definition free_indices (s : st) : outcome (list N) :=
  let! a := opt (flist s) in
  let! found := collect (S (size s)) (size s) a (head s) [] in
  let! r := radix_sort found (repeat 0%N (length found)) (length found) in
  Ok (fst r).

(* what happens during an iteration *)
Inductive tev := Visit (i : nat) | Acquired (i : nat) | Released (i : nat).
(* 201-240; func gets the node and the trace so far, and says whether to go on *)
Fixpoint loop (func : st -> nat -> list tev -> outcome (st * list tev * bool)) (free : list N) (todo i f : nat) (s : st) (tr : list tev) (n : nat)
    : outcome (st * list tev * nat) :=
  match todo with
  | O => Ok (s, tr, n)
  | S todo =>
      if (length free <=? f) || (N.of_nat i <? nth f free 0)%N then
        let! c := opt (cells s) in
        let! live := aget c i in
        let! _ := defined live in
        let! r := func s i (tr ++ [Visit i]) in
        if snd r then loop func free todo (i + 1) f (fst (fst r)) (snd (fst r)) (n + 1)
        else Ok (fst (fst r), snd (fst r), n + 1)
      else
        let! _ := contract (N.of_nat i =? nth f free 0)%N in
        loop func free todo (i + 1) (f + 1) s tr n
  end.
(* 191-243 *)
Definition iterate (func : st -> nat -> list tev -> outcome (st * list tev * bool)) (s : st) : outcome (st * list tev * nat) :=
  match cells s with
  | None => Ok (s, [], 0)
  | Some _ => let! free := free_indices s in loop func free (size s) 0 0 s [] 0
  end.
(* 246-249 *)
Definition release_all (k : kind) (s : st) : outcome (st * list tev * nat) :=
  iterate (fun s i tr => let! s := release k s i in Ok (s, tr ++ [Released i], true)) s.
(* 85: ~T *)
Definition destruct_node (s : st) (i : nat) : outcome st :=
  let! c := opt (cells s) in
  let! live := aget c i in
  let! _ := defined live in
  Ok (mks (Some (lset c i false)) (flist s) (size s) (head s) (ctors s) (i :: dtors s) (blocks s)).
(* 442-459; _first_free_node stays *)
Definition destroy (k : kind) (s : st) : outcome st :=
  match cells s with
  | None => Ok s
  | Some _ =>
      let! r := if td k then Ok (s, [], 0) else iterate (fun s i tr => let! s := destruct_node s i in Ok (s, tr, true)) s in
      let s := fst (fst r) in
      Ok (mks None None 0 (head s) (ctors s) (dtors s) (blocks s - nblocks k))
  end.
(* 184-185 *)
Definition is_full (s : st) : bool := match head s with None => true | Some _ => false end.
Definition max_size (s : st) : nat := size s.

(* a visitor: with the trace up to the visit of a node it decides what to do and whether to go on *)
Inductive vact := VAcquire | VRelease (i : nat).
Fixpoint acts (k : kind) (s : st) (l : list vact) (tr : list tev) : outcome (st * list tev) :=
  match l with
  | [] => Ok (s, tr)
  | VAcquire :: l => let! r := acquire k s in acts k (fst r) l (tr ++ [Acquired (snd r)])
  | VRelease i :: l => let! s := release k s i in acts k s l (tr ++ [Released i])
  end.
Definition visitor := list tev -> list vact * bool.
Definition visit (k : kind) (vis : visitor) (s : st) (i : nat) (tr : list tev) : outcome (st * list tev * bool) :=
  let! r := acts k s (fst (vis tr)) tr in Ok (fst r, snd r, snd (vis tr)).

Inductive op := Init (n : nat) | Destroy | Acquire | Release (i : nat) | Iterate (vis : visitor) | ReleaseAll | IsFull | MaxSize.
Inductive res := RUnit | RNode (i : nat) | RTrace (tr : list tev) (n : nat) | RNum (n : nat) | RBool (b : bool).
Definition step (k : kind) (extra : nat) (s : st) (o : op) : outcome (st * res) :=
  match o with
  | Init n => let! s := initialize k extra s n in Ok (s, RUnit)
  | Destroy => let! s := destroy k s in Ok (s, RUnit)
  | Acquire => let! r := acquire k s in Ok (fst r, RNode (snd r))
  | Release i => let! s := release k s i in Ok (s, RUnit)
  | Iterate vis => let! r := iterate (visit k vis) s in Ok (fst (fst r), RTrace (snd (fst r)) (snd r))
  | ReleaseAll => let! r := release_all k s in Ok (fst (fst r), RNum (snd r))
  | IsFull => Ok (s, RBool (is_full s))
  | MaxSize => Ok (s, RNum (max_size s))
  end.

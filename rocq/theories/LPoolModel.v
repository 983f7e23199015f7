(* Model of cc::atomic_linked_pool (src/clean-core/atomic_linked_pool.hh) with generation checks
   (sc_enable_gen_check, i.e. GenCheckEnabled or a build with assertions).

   Any number of threads, each Idle or inside one acquire or release; every access to _first_free_node
   or _free_list is one step, memory is sequentially consistent, compare_exchange_weak may fail
   spuriously.  Indices are nat, the index -1 is None.  The elements themselves (constructor and
   destructor of T) are left out: the pool never looks at them. *)
From Coq Require Import NArith ZArith List Lia Bool Arith.
Import ListNotations.
From Verif Require Import Base.
Open Scope N_scope.

(* where a thread is *)
Inductive pc :=
| Idle
| QNext (i : nat) (ver : N)                          (* about to read _free_list[i], :115 *)
| QCas (i : nat) (ver : N) (next : option nat)       (* about to compare-exchange, :125 *)
| RLoad (i : nat)                                    (* about to load _first_free_node, :415 *)
| RStore (i : nat) (head : option nat) (ver : N)     (* about to write _free_list[i], :425 *)
| RCas (i : nat) (head : option nat) (ver : N).      (* about to compare-exchange, :433 *)

(* :482-498, VersionedIndex :467-479 (hidx, hver) *)
Record state := mks { psize : nat; hidx : option nat; hver : N; fl : list (option nat); gen : list N; thr : list pc }.

(* :302-325 the handle: 16 bits index plus one, 13 bits generation, 3 bits padding *)
Definition pack (i : nat) (g : N) : N := N.of_nat (i + 1) mod 2 ^ 16 + g mod 2 ^ 13 * 2 ^ 16.
Definition h_ipo (h : N) : N := h mod 2 ^ 16.
Definition h_gen (h : N) : N := h / 2 ^ 16 mod 2 ^ 13.

(* :64-67 *)
Fixpoint link_loop (todo i : nat) (a : list (option nat)) : outcome (list (option nat)) :=
  match todo with
  | O => Ok a
  | S todo => let! a := aset a i (Some (i + 1)%nat) in link_loop todo (i + 1) a
  end.

(* :31-93 initialize.  The free list is requested with size - 1 elements (:59-61); extra says how many
   elements behind the requested ones may be accessed anyway: in the program as written it is 0. *)
Definition initialize (extra size threads : nat) : outcome state :=
  let! _ := contract (N.of_nat size <=? 2 ^ 16 - 1) in
  let! _ := contract (1 <? size)%nat in
  let a := repeat None (size - 1 + extra) in
  let! a := link_loop (size - 1) 0 a in
  let! a := aset a (size - 1) None in
  Ok (mks size (Some 0%nat) 1 a (repeat 0 size) (repeat Idle threads)).

Definition with_thr (st : state) (k : nat) (c : pc) : state :=
  mks (psize st) (hidx st) (hver st) (fl st) (gen st) (lset (thr st) k c).
Definition with_fl (st : state) (a : list (option nat)) : state :=
  mks (psize st) (hidx st) (hver st) a (gen st) (thr st).
(* a successful compare-exchange to an index set by set_index (:470-474) from version ver *)
Definition with_head (st : state) (i : option nat) (ver : N) : state :=
  mks (psize st) i (wadd 32 ver 1) (fl st) (gen st) (thr st).

Definition idx_eqb (a b : option nat) : bool :=
  match a, b with Some i, Some j => Nat.eqb i j | None, None => true | _, _ => false end.

(* :104-110: load _first_free_node (or take the value that a failed compare-exchange delivers), check *)
Definition candidate (st : state) (k : nat) : outcome state :=
  match hidx st with
  | None => Contract
  | Some i => Ok (with_thr st k (QNext i (hver st)))
  end.

Definition start_acquire (st : state) (k : nat) : outcome state :=
  let! c := aget (thr st) k in
  match c with Idle => candidate st k | _ => UB end.        (* a thread is in one call at a time *)

(* :373-391 _read_handle_index; unsigned, so index_plus_one 0 becomes a huge index *)
Definition read_handle_index (st : state) (h : N) : outcome nat :=
  let! _ := contract (negb (h =? 0)) in
  let i := wsub 32 (h_ipo h) 1 in
  let! _ := contract (i <? N.of_nat (psize st)) in
  let! g := aget (gen st) (N.to_nat i) in
  let! _ := contract (h_gen h =? g) in
  Ok (N.to_nat i).

(* :142-146, :393-405: check the handle, bump the generation, then enter _release_node *)
Definition start_release (st : state) (k : nat) (h : N) : outcome state :=
  let! c := aget (thr st) k in
  match c with
  | Idle =>
      let! i := read_handle_index st h in
      let! g := aget (gen st) i in
      let! gs := aset (gen st) i (wadd 13 g 1) in
      Ok (mks (psize st) (hidx st) (hver st) (fl st) gs (lset (thr st) k (RLoad i)))
  | _ => UB
  end.

(* One step of thread k.  The result is Some h when an acquire returns the handle h (:138, :355-371). *)
Definition step (st : state) (k : nat) (spurious : bool) : outcome (state * option N) :=
  let! c := aget (thr st) k in
  match c with
  | Idle => UB                                               (* not a step *)
  | QNext i ver => let! nx := aget (fl st) i in Ok (with_thr st k (QCas i ver nx), None)
  | QCas i ver nx =>
      if idx_eqb (hidx st) (Some i) && (hver st =? ver) && negb spurious then
        let st := with_thr (with_head st nx ver) k Idle in
        let! _ := contract (i <? psize st)%nat in
        let! g := aget (gen st) i in
        Ok (st, Some (pack i g))
      else let! st := candidate st k in Ok (st, None)
  | RLoad i => Ok (with_thr st k (RStore i (hidx st) (hver st)), None)
  | RStore i h ver => let! a := aset (fl st) i h in Ok (with_thr (with_fl st a) k (RCas i h ver), None)
  | RCas i h ver =>
      if idx_eqb (hidx st) h && (hver st =? ver) && negb spurious then
        Ok (with_thr (with_head st (Some i) ver) k Idle, None)
      else Ok (with_thr st k (RStore i (hidx st) (hver st)), None)
  end.

(* :156-171 is_alive: the index is not checked *)
Definition is_alive (st : state) (h : N) : outcome bool :=
  let! _ := contract (negb (h =? 0)) in
  let! _ := defined (negb (h_ipo h =? 0)) in
  let! g := aget (gen st) (N.to_nat (h_ipo h - 1)) in
  Ok (h_gen h =? g).

(* :149-152 get: which element the handle denotes *)
Definition get_index (st : state) (h : N) : outcome nat := read_handle_index st h.

(* :184 *)
Definition is_full (st : state) : bool := match hidx st with None => true | _ => false end.

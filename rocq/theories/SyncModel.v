(* Allocators behind a lock: synced_tlsf_allocator.hh:13-62, synced_virtual_linear_allocator.hh:11-62 (numbering of the files),
   lock_guard.hh:7-20, over cc::spin_lock as modelled in SpinModel.v, for any number of threads.
   A locked call takes the lock, reads the fields of the backing allocator, writes them back and gives the lock back; other
   threads may run between any two of these. Reading and writing are accesses of the protected data in the sense of SpinModel.v: an
   access that is not ordered after all earlier ones is a data race. Calls that do not take the lock access the data right away.
   A scheduler chooses the thread that runs next; events that are not possible in a state do nothing. *)
From Coq Require Import NArith Arith List Bool.
From Verif Require Import Base SpinModel TlsfModel TlsfAllocModel AllocModel VAllocModel.
Import ListNotations.

Section M.
  Context {S C R : Type} (body : C -> S -> outcome (S * R)).

  (* where a thread is in a call; id numbers the calls *)
  Inductive tst :=
  | Idle
  | Waiting (id : nat) (c : C)           (* in lock_guard's constructor *)
  | Running (id : nat) (c : C)           (* holds the lock *)
  | Inside (id : nat) (c : C) (s : S)    (* has read the fields *)
  | Leaving (id : nat) (r : R).          (* has written the fields, before lock_guard's destructor *)
  (* what the caller observes *)
  Inductive event := Inv (id k : nat) (c : C) | Ret (id : nat) (r : R).
  Record sys := mky { lk : SpinModel.state; ob : S; ts : list tst; next : nat; hist : list event }.
  Definition init (threads : nat) (s : S) : sys := mky (SpinModel.initial threads) s (repeat Idle threads) 0 [].

  Inductive ev := ECall (k : nat) (c : C) | ETick (k : nat) (seen : bool) | EBegin (k : nat) | EFinish (k : nat) | EReturn (k : nat)
                | EBare (k : nat) (c : C).            (* a call without the lock *)

  Definition put (y : sys) (l : SpinModel.state) (k : nat) (t : tst) : sys := mky l (ob y) (lset (ts y) k t) (next y) (hist y).
  Definition bare_access (l : SpinModel.state) (k : nat) : outcome SpinModel.state :=
    let! w := aget (SpinModel.views l) k in
    let! _ := defined (w =? SpinModel.accs l)%N in
    Ok (SpinModel.mks (flag l) (fview l) (thr l) (lset (SpinModel.views l) k (SpinModel.accs l + 1)%N) (SpinModel.accs l + 1)).

  Definition sstep (y : sys) (e : ev) : outcome sys :=
    match e with
    | ECall k c =>
        match nth_error (ts y) k with
        | Some Idle => let! l := start_lock (lk y) k in
                       Ok (mky l (ob y) (lset (ts y) k (Waiting (next y) c)) (next y + 1) (hist y ++ [Inv (next y) k c]))
        | _ => Ok y
        end
    | ETick k seen =>
        match nth_error (ts y) k with
        | Some (Waiting id c) => let! (l, _) := step (lk y) k seen in
                                 let! p := aget (thr l) k in
                                 Ok (put y l k (match p with Held => Running id c | _ => Waiting id c end))
        | _ => Ok y
        end
    | EBegin k =>
        match nth_error (ts y) k with
        | Some (Running id c) => let! l := access (lk y) k in Ok (put y l k (Inside id c (ob y)))
        | _ => Ok y
        end
    | EFinish k =>
        match nth_error (ts y) k with
        | Some (Inside id c s) => let! l := access (lk y) k in
                                  let! (s, r) := body c s in
                                  Ok (mky l s (lset (ts y) k (Leaving id r)) (next y) (hist y))
        | _ => Ok y
        end
    | EReturn k =>
        match nth_error (ts y) k with
        | Some (Leaving id r) => let! l := unlock (lk y) k in
                                 Ok (mky l (ob y) (lset (ts y) k Idle) (next y) (hist y ++ [Ret id r]))
        | _ => Ok y
        end
    | EBare k c =>
        match nth_error (ts y) k with
        | Some Idle => let! l := bare_access (lk y) k in
                       let! (s, r) := body c (ob y) in
                       Ok (mky l s (ts y) (next y + 1) (hist y ++ [Inv (next y) k c; Ret (next y) r]))
        | _ => Ok y
        end
    end.
  Fixpoint run (y : sys) (es : list ev) : outcome sys :=
    match es with [] => Ok y | e :: es => let! y := sstep y e in run y es end.
End M.
Arguments tst : clear implicits. Arguments event : clear implicits. Arguments ev : clear implicits. Arguments sys : clear implicits.

(* synced_tlsf_allocator.hh:20-57; get_name returns a constant *)
Inductive tcall := TAlloc (n align : N) | TFree (p : option N) | TRealloc (p : option N) (n align : N) | TSize (p : option N)
                 | TValidate (fuel : nat) | TDestroy | TInitialize (m : memory) (addr bytes : N).
Inductive tres := TP (p : option N) | TN (n : option N) | TB (b : bool) | TU.
Definition tbody (c : tcall) (s : option tlsf) : outcome (option tlsf * tres) :=
  match c with
  | TAlloc n a => let! (s, p) := a_alloc s n a in Ok (s, TP (Some p))
  | TFree p => let! s := a_free s p in Ok (s, TU)
  | TRealloc p n a => let! (s, p) := a_realloc s p n a in Ok (s, TP p)
  | TSize p => let! n := a_get_allocation_size s p in Ok (s, TN n)
  | TValidate f => let! b := a_validate_heap f s in Ok (s, TB b)
  | TDestroy => Ok (a_destroy s, TU)
  | TInitialize m a n => let! s := a_initialize s m a n in Ok (s, TU)
  end.
Definition tevent (k : nat) (c : tcall) : ev tcall := match c with TInitialize _ _ _ => EBare k c | _ => ECall k c end.

(* synced_virtual_linear_allocator.hh:19-57; None: not initialized or destroyed, where alloc asserts (virtual_linear_allocator.cc:34)
   and the other calls are not modelled further; VPeek: get_backing().get_allocated_size_bytes() *)
Inductive vcall := VAlloc (n align : N) | VRealloc (p n align : N) | VReset | VDecommit | VDestroy | VPeek
                 | VInitialize (b max chunk : N) (m : bytes).
Inductive vres := VN (n : N) | VU.
Definition vbody (c : vcall) (s : option VLin.state) : outcome (option VLin.state * vres) :=
  match c, s with
  | VAlloc n a, Some s => let! (s, p) := VLin.alloc s n a in Ok (Some s, VN p)
  | VAlloc _ _, None => Contract
  | VRealloc p n a, Some s => let! (s, p) := VLin.realloc s p n a in Ok (Some s, VN p)
  | VReset, Some s => let (s, n) := VLin.reset s in Ok (Some s, VN n)
  | VDecommit, Some s => let! (s, n) := VLin.decommit_idle_memory s in Ok (Some s, VN n)
  | VDestroy, _ => Ok (None, VU)
  | VPeek, Some s => Ok (Some s, VN (VLin.allocated_size s))
  | VInitialize b n ch m, _ => let! s := VLin.initialize b n ch m in Ok (Some s, VU)
  | _, None => UB
  end.
Definition vevent (k : nat) (c : vcall) : ev vcall :=
  match c with VInitialize _ _ _ _ | VPeek => EBare k c | _ => ECall k c end.
(* synced_virtual_linear_allocator.hh:33: free touches nothing; get_allocation_size is inherited from allocator.hh:42 *)
Definition v_free {T} (y : T) (p : N) : T := y.
Definition v_get_allocation_size {T} (y : T) (p : N) : option N := None.

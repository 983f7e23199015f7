(* cc::spin_lock for any number of threads.
   Every access to the flag is one step; exchanges read the newest value of the flag (they are
   read-modify-write operations), relaxed loads may return any value.
   Memory orders are modelled by views: a view is the number of accesses to the protected data a thread
   (or the value of the flag) is ordered after.  A release store stores the view of the thread with the
   flag, an acquire operation that reads it joins it into the view of the thread, relaxed operations
   transfer nothing.  An exchange continues the release sequence: the flag keeps the stored view.
   Simplified: pause instructions (spin_lock.hh 31-36) do nothing. *)
From Coq Require Import NArith List Bool.
Import ListNotations.
From Verif Require Import Base.
Open Scope N_scope.

(* spin_lock.hh 16-47: where a thread is *)
Inductive pc :=
| Out                 (* not in a call, not holding the lock *)
| LXchg               (* lock: before the exchange, line 23 *)
| LLoad               (* lock: before the load of the waiting loop, line 30 *)
| TLoad               (* try_lock: before the load, line 45 *)
| TXchg               (* try_lock: before the exchange, line 46 *)
| Held.               (* between a successful lock / try_lock and unlock *)

(* spin_lock.hh 63: the flag and the view stored with it; `accs` counts the accesses to the protected data *)
Record state := mks { flag : bool; fview : N; thr : list pc; views : list N; accs : N }.

Definition initial (threads : nat) : state := mks false 0 (repeat Out threads) (repeat 0 threads) 0.

Definition go (st : state) (k : nat) (c : pc) : state := mks (flag st) (fview st) (lset (thr st) k c) (views st) (accs st).

(* _is_locked.exchange(true, std::memory_order_acquire), lines 23 and 46: the old value *)
Definition exchange (st : state) (k : nat) : outcome (bool * state) :=
  let! w := aget (views st) k in
  Ok (flag st, mks true (fview st) (thr st) (lset (views st) k (N.max w (fview st))) (accs st)).

(* one step of a pending lock or try_lock; `seen` is what a relaxed load returns.
   The result of a finished try_lock is returned. *)
Definition step (st : state) (k : nat) (seen : bool) : outcome (state * option bool) :=
  let! c := aget (thr st) k in
  match c with
  | LXchg => let! r := exchange st k in
             let (old, st) := r in
             if negb old then Ok (go st k Held, None) else Ok (go st k LLoad, None)   (* lines 23-30 *)
  | LLoad => if seen then Ok (st, None) else Ok (go st k LXchg, None)                 (* lines 30-38 *)
  | TLoad => if seen then Ok (go st k Out, Some false) else Ok (go st k TXchg, None)  (* line 45 *)
  | TXchg => let! r := exchange st k in
             let (old, st) := r in
             if negb old then Ok (go st k Held, Some true) else Ok (go st k Out, Some false) (* line 46 *)
  | Out | Held => Contract
  end.

(* lock and try_lock are called, lines 16 and 41 *)
Definition start_lock (st : state) (k : nat) : outcome state :=
  let! c := aget (thr st) k in match c with Out => Ok (go st k LXchg) | _ => Contract end.
Definition start_try (st : state) (k : nat) : outcome state :=
  let! c := aget (thr st) k in match c with Out => Ok (go st k TLoad) | _ => Contract end.

(* spin_lock.hh 49-53: the store with release order; called by a thread that holds the lock *)
Definition unlock (st : state) (k : nat) : outcome state :=
  let! c := aget (thr st) k in
  match c with
  | Held => let! w := aget (views st) k in Ok (go (mks false w (thr st) (views st) (accs st)) k Out)
  | _ => Contract
  end.

(* A thread holding the lock accesses the protected data: a data race, undefined behaviour, unless the
   access is ordered after all earlier ones. *)
Definition access (st : state) (k : nat) : outcome state :=
  let! c := aget (thr st) k in
  match c with
  | Held => let! w := aget (views st) k in
            let! _ := defined (w =? accs st) in
            Ok (mks (flag st) (fview st) (thr st) (lset (views st) k (accs st + 1)) (accs st + 1))
  | _ => Contract
  end.

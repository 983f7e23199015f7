(* cc::spin_lock with the memory orders as parameters.
   The machine is that of SpinModel.v: views count the accesses to the protected data, exchanges read the newest value and
   keep the view stored with it, relaxed loads return anything.  Here the acquire order of the two exchanges and the release
   order of the store can be switched off: a relaxed exchange reads no view, a relaxed store stores none (it begins no release
   sequence, and ends the one it overwrites). *)
From Coq Require Import NArith List Bool.
Import ListNotations.
From Verif Require Import Base SpinModel.
Open Scope N_scope.

(* acquire in lock (spin_lock.hh:23), acquire in try_lock (:46), release in unlock (:52) *)
Record orders := mko { o_lock : bool; o_try : bool; o_unlock : bool }.
Definition code : orders := mko true true true.

(* :23, :46 *)
Definition w_exchange (acquire : bool) (st : state) (k : nat) : outcome (bool * state) :=
  let! w := aget (views st) k in
  Ok (flag st, mks true (fview st) (thr st) (if acquire then lset (views st) k (N.max w (fview st)) else views st) (accs st)).

(* :16-47 *)
Definition w_step (o : orders) (st : state) (k : nat) (seen : bool) : outcome (state * option bool) :=
  let! c := aget (thr st) k in
  match c with
  | LXchg => let! r := w_exchange (o_lock o) st k in
             let (old, st) := r in
             if negb old then Ok (go st k Held, None) else Ok (go st k LLoad, None)
  | LLoad => if seen then Ok (st, None) else Ok (go st k LXchg, None)
  | TLoad => if seen then Ok (go st k Out, Some false) else Ok (go st k TXchg, None)
  | TXchg => let! r := w_exchange (o_try o) st k in
             let (old, st) := r in
             if negb old then Ok (go st k Held, Some true) else Ok (go st k Out, Some false)
  | Out | Held => Contract
  end.

(* :49-53 *)
Definition w_unlock (o : orders) (st : state) (k : nat) : outcome state :=
  let! c := aget (thr st) k in
  match c with
  | Held => let! w := aget (views st) k in
            Ok (go (mks false (if o_unlock o then w else 0) (thr st) (views st) (accs st)) k Out)
  | _ => Contract
  end.

(* Executions.  An execution ends with the first data race.
   x_sync: outside of the lock, what thread j has done is ordered before what thread k does from now on. *)
Inductive wexec (o : orders) (threads : nat) : state -> Prop :=
| wx_init : wexec o threads (initial threads)
| wx_lock : forall st k st', wexec o threads st -> start_lock st k = Ok st' -> wexec o threads st'
| wx_try : forall st k st', wexec o threads st -> start_try st k = Ok st' -> wexec o threads st'
| wx_step : forall st k seen st' r, wexec o threads st -> w_step o st k seen = Ok (st', r) -> wexec o threads st'
| wx_unlock : forall st k st', wexec o threads st -> w_unlock o st k = Ok st' -> wexec o threads st'
| wx_access : forall st k st', wexec o threads st -> access st k = Ok st' -> wexec o threads st'
| wx_sync : forall st j k u w, wexec o threads st -> nth_error (views st) j = Some u -> nth_error (views st) k = Some w ->
    wexec o threads (mks (flag st) (fview st) (thr st) (lset (views st) k (N.max w u)) (accs st)).

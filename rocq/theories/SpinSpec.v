(* What a lock promises. *)
From Coq Require Import NArith List Bool.
Import ListNotations.
From Verif Require Import Base SpinModel.
Open Scope N_scope.

(* all executions of any number of threads; only holders unlock and access the data *)
Inductive exec (threads : nat) : state -> Prop :=
| x_init : exec threads (initial threads)
| x_lock : forall st k st', exec threads st -> start_lock st k = Ok st' -> exec threads st'
| x_try : forall st k st', exec threads st -> start_try st k = Ok st' -> exec threads st'
| x_step : forall st k seen st' r, exec threads st -> step st k seen = Ok (st', r) -> exec threads st'
| x_unlock : forall st k st', exec threads st -> unlock st k = Ok st' -> exec threads st'
| x_access : forall st k st', exec threads st -> access st k = Ok st' -> exec threads st'.

Definition holds (st : state) (k : nat) : Prop := nth_error (thr st) k = Some Held.
Definition free (st : state) : Prop := forall k, ~ holds st k.

(* `n` steps of thread k alone, relaxed loads returning the current value *)
Fixpoint alone (st : state) (k n : nat) : outcome state :=
  match n with
  | O => Ok st
  | S n => match nth_error (thr st) k with
           | Some LXchg | Some LLoad | Some TLoad | Some TXchg => let! r := step st k (flag st) in alone (fst r) k n
           | _ => Ok st
           end
  end.

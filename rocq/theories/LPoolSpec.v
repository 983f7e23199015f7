(* What users of atomic_linked_pool rely on: executions with an observer. *)
From Coq Require Import NArith ZArith List Lia Bool Arith.
Import ListNotations.
From Verif Require Import Base LPoolModel.
Open Scope N_scope.

(* the slot a handle belongs to *)
Definition slot (h : N) : nat := (N.to_nat (h_ipo h) - 1)%nat.

(* What an observer notes: the handles currently owned (returned by acquire, not yet passed to
   release), the handles released with the number of releases of their slot at that time, how often the
   head changed, for every thread the number of head changes when it last loaded the head for an
   acquire, and how often each slot was released. *)
Record view := mkv { own : list N; dead : list (N * N); chg : N; mark : list N; rel : list N }.

Definition observe (v : view) (st st' : state) (k : nat) (r : option N) : view :=
  let c := if hver st' =? hver st then chg v else chg v + 1 in
  mkv (match r with Some h => h :: own v | None => own v end) (dead v) c
      (match nth_error (thr st') k with Some (QNext _ _) => lset (mark v) k c | _ => mark v end) (rel v).

(* thread k, if about to compare-exchange in an acquire, loaded the head less than 2^32 changes ago *)
Definition in_time (v : view) (st : state) (k : nat) : Prop :=
  match nth_error (thr st) k with
  | Some (QCas _ _ _) => exists m, nth_error (mark v) k = Some m /\ chg v < m + 2 ^ 32
  | _ => True
  end.

(* fresh: no acquire sleeps through 2^32 changes of the head (4 billion acquires and releases) *)
Section Exec.
  Variables (extra size threads : nat) (fresh : bool).
  Inductive exec : state -> view -> Prop :=
  | x_init st : initialize extra size threads = Ok st ->
      exec st (mkv [] [] 1 (repeat 0 threads) (repeat 0 size))
  | x_acquire st v k st' : exec st v -> start_acquire st k = Ok st' -> exec st' (observe v st st' k None)
  | x_release st v k h o1 o2 st' c : exec st v -> own v = o1 ++ h :: o2 -> start_release st k h = Ok st' ->
      nth_error (rel v) (slot h) = Some c ->
      exec st' (mkv (o1 ++ o2) ((h, c + 1) :: dead v) (chg v) (mark v) (lset (rel v) (slot h) (c + 1)))
  | x_step st v k sp st' r : exec st v -> (fresh = true -> in_time v st k) ->
      step st k sp = Ok (st', r) -> exec st' (observe v st st' k r).
End Exec.

(* threads inside a release *)
Definition releasing (c : pc) : bool := match c with RLoad _ | RStore _ _ _ | RCas _ _ _ => true | _ => false end.
Definition count (f : pc -> bool) (l : list pc) : nat := length (filter f l).

(* Property theorems C15: src/clean-core/experimental/ringbuffer.hh. *)
From Coq Require Import NArith List Lia.
From Verif Require Import Base Cells RingModel RingSpec RingProofs.
Import ListNotations.
Open Scope N_scope.

(* every observation a user can make of a buffer that should hold l *)
Definition agrees {A} (r : ring A) (l : list A) : Prop :=
  size r = N.of_nat (length l) /\ empty r = (match l with [] => true | _ => false end) /\
  front r = (match l with v :: _ => Ok v | [] => Contract end) /\
  back r = (match rev l with v :: _ => Ok v | [] => Contract end) /\
  (forall i, index r i = match nth_error l (N.to_nat i) with Some v => Ok v | None => Contract end) /\
  destructor r = Ok tt.

(* C15: a history either meets every precondition of the ideal deque, and then pops return the same values, all observers
   agree and the destructor destroys exactly the live elements; or it is a contract violation.
   PushBackOf / PushFrontOf push a reference to an element of the buffer itself. *)
Theorem C15_history : forall A (os : list (op A)), N.of_nat (length os) < 2 ^ 58 ->
  match ideal_run [] os with
  | Some (l, popped) => exists r, run init os = Ok (r, popped) /\ agrees r l
  | None => run init os = Contract
  end.
Proof.
  intros A os H. pose proof (run_init os H) as P. destruct (ideal_run [] os) as [[l vs]|]; auto.
  destruct P as [r [E R]]. exists r. split; auto. exact (observe_spec r l R).
Qed.

(* copy and move from any reachable state *)
Theorem C15_copy_move : forall A (os os' : list (op A)) l l' vs vs',
  N.of_nat (length os) < 2 ^ 58 -> N.of_nat (length os') < 2 ^ 58 ->
  ideal_run [] os = Some (l, vs) -> ideal_run [] os' = Some (l', vs') ->
  exists r r', run init os = Ok (r, vs) /\ run init os' = Ok (r', vs') /\
    (exists c, copy_ctor r = Ok c /\ agrees c l) /\
    agrees (fst (move_ctor r)) l /\ agrees (snd (move_ctor r)) [] /\
    (exists t s, move_assign r' r = Ok (t, s) /\ agrees t l /\ agrees s []).
Proof.
  intros A os os' l l' vs vs' H H' I I'. pose proof (run_init os H) as P. pose proof (run_init os' H') as P'.
  rewrite I in P. rewrite I' in P'. destruct P as [r [E R]]. destruct P' as [r' [E' R']].
  exists r, r'. split; auto. split; auto. destruct (copy_move_spec r l R) as [[c [Ec Rc]] [[M1 M2] MA]].
  split; [exists c; split; auto; exact (observe_spec c l Rc)|].
  split; [exact (observe_spec _ _ M1)|]. split; [exact (observe_spec _ _ M2)|].
  destruct (MA r' l' R') as [t [s [Em [Rt Rs]]]]. exists t, s. split; auto.
  split; [exact (observe_spec _ _ Rt)|exact (observe_spec _ _ Rs)].
Qed.

(* push_back_stable / push_front_stable never reallocate: they fail exactly when the buffer is full *)
Theorem C15_stable : forall A (os : list (op A)) l vs v, N.of_nat (length os) < 2 ^ 58 ->
  ideal_run [] os = Some (l, vs) ->
  exists r, run init os = Ok (r, vs) /\
  (if N.of_nat (length l) =? capacity r then emplace_back_stable r (Val v) = Contract
   else exists r', emplace_back_stable r (Val v) = Ok r' /\ agrees r' (l ++ [v]) /\ capacity r' = capacity r) /\
  (if N.of_nat (length l) =? capacity r then emplace_front_stable r (Val v) = Contract
   else exists r', emplace_front_stable r (Val v) = Ok r' /\ agrees r' (v :: l) /\ capacity r' = capacity r).
Proof.
  intros A os l vs v H I. pose proof (run_init os H) as P. rewrite I in P. destruct P as [r [E R]].
  exists r. split; auto. pose proof (stable_spec r l v R) as [SB SF].
  destruct (N.of_nat (length l) =? capacity r); auto.
  destruct SB as [b [EB [RB CB]]]. destruct SF as [f [EF [RF CF]]].
  split; [exists b|exists f]; (split; [auto|split; [|auto]]); apply observe_spec; auto.
Qed.

(* wraps around on both sides, grows twice, pushes references to its own elements at a growth point *)
Definition sample_ops : list (op nat) :=
  [PushFront 1; PushBack 2; PushFrontOf 1; PushBackOf 0; PopFront; PushBack 3; PushBack 4; PushFront 5; PushFront 6;
   PushBackOf 2; PopBack; PushFrontOf 3; PopFront; PopFront; PushBack 7; PushFront 8; PushFront 9]%nat.
Example C15_ex : ideal_run [] sample_ops = Some ([9;8;5;1;2;2;3;4;7], [2;1;2;6])%nat /\
  match run init sample_ops with
  | Ok (r, vs) => vs = [2;1;2;6]%nat /\ capacity r = 15 /\ rbegin r = 15 /\ rend r = 8 /\ back r = Ok 7%nat
  | _ => False end /\
  ideal_run [] [PushBack 1; PopFront; PopBack]%nat = None.
Proof. vm_compute. repeat split. Qed.

Print Assumptions C15_history.
Print Assumptions C15_copy_move.
Print Assumptions C15_stable.

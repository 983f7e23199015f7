(* Linearizability: an abstract machine that performs each successful operation atomically, at one instant between its call
   and its return, on a bounded FIFO.  A failing operation has no effect (when it may fail is C26). *)
From Coq Require Import NArith Arith List Bool.
From Verif Require Import MpmcModel.
Import ListNotations.
Open Scope N_scope.

Section S.
  Context {T : Type} (cap : N).
  Inductive apc := AIdle | AEnq (v : T) | AEnqDone | ADeq | ADeqDone (v : T).
  Record astate := mkA { fifo : list T; athr : nat -> apc }.
  Definition ainit : astate := mkA [] (fun _ => AIdle).
  Definition aset (a : astate) (t : nat) (p : apc) (p' : nat -> apc) : Prop := forall t', p' t' = if (t' =? t)%nat then p else athr a t'.

  (* one abstract step: the event it shows (None for the invisible effect on the queue) *)
  Inductive astep : astate -> option (event T) -> astate -> Prop :=
  | A_call_enq : forall a t v p, athr a t = AIdle -> aset a t (AEnq v) p -> astep a (Some (ECall t (Enq v))) (mkA (fifo a) p)
  | A_enq : forall a t v p, athr a t = AEnq v -> N.of_nat (length (fifo a)) < cap -> aset a t AEnqDone p ->
      astep a None (mkA (fifo a ++ [v]) p)
  | A_ret_enq : forall a t p, athr a t = AEnqDone -> aset a t AIdle p -> astep a (Some (ERet t (REnq true))) (mkA (fifo a) p)
  | A_fail_enq : forall a t v p, athr a t = AEnq v -> aset a t AIdle p -> astep a (Some (ERet t (REnq false))) (mkA (fifo a) p)
  | A_call_deq : forall a t p, athr a t = AIdle -> aset a t ADeq p -> astep a (Some (ECall t Deq)) (mkA (fifo a) p)
  | A_deq : forall a t v q p, athr a t = ADeq -> fifo a = v :: q -> aset a t (ADeqDone v) p -> astep a None (mkA q p)
  | A_ret_deq : forall a t v p, athr a t = ADeqDone v -> aset a t AIdle p -> astep a (Some (ERet t (RDeq (Some v)))) (mkA (fifo a) p)
  | A_fail_deq : forall a t p, athr a t = ADeq -> aset a t AIdle p -> astep a (Some (ERet t (RDeq None))) (mkA (fifo a) p).

  Inductive aruns : astate -> list (event T) -> astate -> Prop :=
  | aruns_nil : forall a, aruns a [] a
  | aruns_vis : forall a e b es c, astep a (Some e) b -> aruns b es c -> aruns a (e :: es) c
  | aruns_tau : forall a b es c, astep a None b -> aruns b es c -> aruns a es c.

  (* sequential bounded FIFO *)
  Definition seq_step (q : list T) (c : call T) : list T * ret T :=
    match c with
    | Enq v => if N.of_nat (length q) <? cap then (q ++ [v], REnq true) else (q, REnq false)
    | Deq => match q with [] => ([], RDeq None) | v :: q => (q, RDeq (Some v)) end
    end.
  Fixpoint seq_run (q : list T) (l : list (nat * call T)) : list T * list (event T) :=
    match l with
    | [] => (q, [])
    | (t, c) :: l => let (q, r) := seq_step q c in let (q, es) := seq_run q l in (q, ECall t c :: ERet t r :: es)
    end.

  (* the values enqueue was called with and the values successful dequeues returned *)
  Definition calls (es : list (event T)) : list T := flat_map (fun e => match e with ECall _ (Enq v) => [v] | _ => [] end) es.
  Definition rets (es : list (event T)) : list T := flat_map (fun e => match e with ERet _ (RDeq (Some v)) => [v] | _ => [] end) es.
End S.

(* a thread is reading or writing the payload of a cell *)
Definition accessing {T} (s : state T) (t : nat) : option N :=
  match thr s t with EWrite _ pos => Some (cell s pos) | DRead pos => Some (cell s pos) | _ => None end.

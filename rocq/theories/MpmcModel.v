(* Model of src/clean-core/experimental/mpmc_queue.hh: a step machine whose steps are the accesses to shared memory.

   Memory model: the atomic operations are interleaved one at a time (sequential consistency).  The acquire/release/relaxed
   annotations are not modelled here; MpmcWeakModel.v does.
   Threads are numbered by nat and may be arbitrarily many; the scheduler is a list of actions.
   The payload copies (data_ = data, *out = data_) are the steps leaving EWrite / DRead; a thread in one of these program
   points is "accessing the payload".
   CC_MPMC_QUEUE_TRACK_SIZE is off (its default, :14-16). *)
From Coq Require Import NArith ZArith Arith List Bool.
From Verif Require Import Base.
Import ListNotations.
Open Scope N_scope.

(* conversion size_t -> intptr_t (mpmc_queue.hh:52, 81) *)
Definition s64 (x : N) : Z := if x <? 2 ^ 63 then Z.of_N x else (Z.of_N x - 2 ^ 64)%Z.

Section Mpmc.
  Context {T : Type}.

  Inductive pc :=
  | Idle
  | ELoad (v : T)             (* :47, :61  about to load _enqueue_pos *)
  | ESeq (v : T) (pos : N)    (* :50-52    about to load the sequence of the cell *)
  | ECas (v : T) (pos : N)    (* :55       about to compare_exchange_weak _enqueue_pos *)
  | EWrite (v : T) (pos : N)  (* :63       writing the payload *)
  | EStore (v : T) (pos : N)  (* :64       about to store the sequence *)
  | DLoad                     (* :76, :90 *)
  | DSeq (pos : N)            (* :79-81 *)
  | DCas (pos : N)            (* :84 *)
  | DRead (pos : N)           (* :92       reading the payload *)
  | DStore (v : T) (pos : N). (* :93 *)

  Record state := mkS {
    mask : N;              (* _buffer_mask *)
    seqs : N -> N;         (* _buffer[i].sequence_ *)
    datas : N -> T;        (* _buffer[i].data_ *)
    enq : N;               (* _enqueue_pos *)
    deq : N;               (* _dequeue_pos *)
    thr : nat -> pc;
    ghost : list T         (* the values of the successful enqueue CASes in order; never read by the code *)
  }.
  Definition upd {B} (f : nat -> B) (t : nat) (x : B) : nat -> B := fun t' => if (t' =? t)%nat then x else f t'.
  Definition updN {B} (f : N -> B) (i : N) (x : B) : N -> B := fun j => if j =? i then x else f j.

  (* mpmc_queue.hh:29-43 initialize; d0 are the default constructed payloads *)
  Definition init (num : N) (d0 : N -> T) : outcome state :=
    let! _ := contract ((2 <=? num) && negb (num =? 0) && (N.land num (wsub 64 num 1) =? 0)) in
    Ok (mkS (num - 1) (fun i => i) d0 0 0 (fun _ => Idle) []).

  Inductive call := Enq (v : T) | Deq.
  Inductive ret := REnq (b : bool) | RDeq (v : option T). (* RDeq None: returned false *)
  Inductive event := ECall (t : nat) (c : call) | ERet (t : nat) (r : ret).

  Definition cell (s : state) (pos : N) : N := N.land pos (mask s).
  Definition set_thr (s : state) (t : nat) (p : pc) : state :=
    mkS (mask s) (seqs s) (datas s) (enq s) (deq s) (upd (thr s) t p) (ghost s).
  Definition set_seq (s : state) (pos x : N) : state :=
    mkS (mask s) (updN (seqs s) (cell s pos) x) (datas s) (enq s) (deq s) (thr s) (ghost s).
  Definition set_data (s : state) (pos : N) (x : T) : state :=
    mkS (mask s) (seqs s) (updN (datas s) (cell s pos) x) (enq s) (deq s) (thr s) (ghost s).

  (* one shared-memory access of thread t; weak says that a compare_exchange_weak fails spuriously *)
  Definition go (s : state) (t : nat) (weak : bool) : state * list event :=
    match thr s t with
    | Idle => (s, [])
    | ELoad v => (set_thr s t (ESeq v (enq s)), [])
    | ESeq v pos =>
        let diff := (s64 (seqs s (cell s pos)) - s64 pos)%Z in
        if (diff =? 0)%Z then (set_thr s t (ECas v pos), [])
        else if (diff <? 0)%Z then (set_thr s t Idle, [ERet t (REnq false)])
        else (set_thr s t (ELoad v), [])
    | ECas v pos =>
        if (enq s =? pos) && negb weak
        then (set_thr (mkS (mask s) (seqs s) (datas s) (wadd 64 pos 1) (deq s) (thr s) (ghost s ++ [v])) t (EWrite v pos), [])
        else (set_thr s t (ESeq v (enq s)), [])
    | EWrite v pos => (set_thr (set_data s pos v) t (EStore v pos), [])
    | EStore v pos => (set_thr (set_seq s pos (wadd 64 pos 1)) t Idle, [ERet t (REnq true)])
    | DLoad => (set_thr s t (DSeq (deq s)), [])
    | DSeq pos =>
        let diff := (s64 (seqs s (cell s pos)) - s64 (wadd 64 pos 1))%Z in
        if (diff =? 0)%Z then (set_thr s t (DCas pos), [])
        else if (diff <? 0)%Z then (set_thr s t Idle, [ERet t (RDeq None)])
        else (set_thr s t DLoad, [])
    | DCas pos =>
        if (deq s =? pos) && negb weak
        then (set_thr (mkS (mask s) (seqs s) (datas s) (enq s) (wadd 64 pos 1) (thr s) (ghost s)) t (DRead pos), [])
        else (set_thr s t (DSeq (deq s)), [])
    | DRead pos => (set_thr s t (DStore (datas s (cell s pos)) pos), [])
    | DStore v pos => (set_thr (set_seq s pos (wadd 64 (wadd 64 pos (mask s)) 1)) t Idle, [ERet t (RDeq (Some v))])
    end.

  Inductive action := Call (t : nat) (c : call) | Go (t : nat) (weak : bool).
  (* a call by a thread that is still inside a call does not happen *)
  Definition act (s : state) (a : action) : state * list event :=
    match a with
    | Call t c =>
        match thr s t with
        | Idle => (set_thr s t (match c with Enq v => ELoad v | Deq => DLoad end), [ECall t c])
        | _ => (s, [])
        end
    | Go t weak => go s t weak
    end.
  Fixpoint run (s : state) (l : list action) : state * list event :=
    match l with
    | [] => (s, [])
    | a :: l => let (s, e) := act s a in let (s, es) := run s l in (s, e ++ es)
    end.
End Mpmc.
Arguments pc : clear implicits.
Arguments state : clear implicits.
Arguments call : clear implicits.
Arguments ret : clear implicits.
Arguments event : clear implicits.
Arguments action : clear implicits.

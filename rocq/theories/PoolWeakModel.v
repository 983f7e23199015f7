(* Model of cc::atomic_pool_allocator (src/clean-core/allocators/atomic_pool_allocator.hh) under the release/acquire memory
   model of C++.

   As in LPoolWeakModel.v every value ever stored in _first_free_node is kept (its modification order), a load returns any
   value not older than what the thread is ordered after, and a thread has a view of what it is ordered after.  After
   initialize, which happens before every call, _first_free_node is only changed by compare-exchanges; those see the newest
   value and continue release sequences: the view left with a value is passed on to the next one.  Stores are never delayed.
   The blocks are not atomic.  A block is one location, whose contents are the next pointer: a write that is not ordered after
   every earlier access to the same block, and a read that is not ordered after every earlier write, is a data race (UB).
   Simplified: sizes, alignments, null pointers and the checks on pointers passed to free are those of PoolModel.v; a failed
   compare-exchange orders nothing (the loops load _first_free_node again). *)
From Coq Require Import NArith List Bool Arith.
Import ListNotations.
From Verif Require Import Base.
Open Scope N_scope.

(* acquire in is_full (:17, :85), acquire on the load of alloc (:27), acquire and release on its compare-exchange (:32-33),
   acquire on the load of free (:54), release on its compare-exchange (:60-61) *)
Record orders := mkO { a_full : bool; a_load : bool; a_cas : bool; f_load : bool; f_cas : bool }.
Definition code : orders := mkO true true true true true.

(* entries of the history of _first_free_node; per block and thread the number of accesses *)
Record tview := mkT { vh : nat; va : N -> nat -> nat }.
Definition zero : tview := mkT 0 (fun _ _ => 0%nat).
Definition join (a b : tview) : tview := mkT (Nat.max (vh a) (vh b)) (fun x t => Nat.max (va a x t) (va b x t)).
Definition see (v : tview) (i : nat) : tview := mkT (Nat.max (vh v) i) (va v).
Definition join_if (b : bool) (v m : tview) : tview := if b then join v m else v.

Inductive pc :=
| Idle
| ALoad                          (* alloc: about to load _first_free_node, :27 *)
| ANext (acquired : N)           (* about to read the next pointer, :29 *)
| ACas (acquired next : N)       (* about to compare-exchange, :32-33 *)
| FLoad (node : N)               (* free: about to load _first_free_node, :54 *)
| FNext (node expected : N)      (* about to write the next pointer, :57 *)
| FCas (node expected : N).      (* about to compare-exchange, :60-61 *)

Record wstate := mkW {
  hist : list (N * tview);       (* history of _first_free_node, oldest first, with the views left with the values *)
  link : N -> N;                 (* contents of the blocks *)
  acc : N -> nat -> nat;         (* accesses to each block by each thread so far *)
  lw : N -> nat -> nat;          (* the last of them that wrote *)
  vw : nat -> tview;             (* views of the threads *)
  pcs : nat -> pc;
  av : tview                     (* the view of the last alloc that returned; never read by the code *)
}.

Definition updn {A} (f : nat -> A) (k : nat) (x : A) : nat -> A := fun j => if (j =? k)%nat then x else f j.
Definition updN {A} (f : N -> A) (k : N) (x : A) : N -> A := fun j => if j =? k then x else f j.
Definition upd2 (f : N -> nat -> nat) (x : N) (t n : nat) : N -> nat -> nat := updN f x (updn (f x) t n).

Definition set_pc (w : wstate) (t : nat) (c : pc) : wstate := mkW (hist w) (link w) (acc w) (lw w) (vw w) (updn (pcs w) t c) (av w).
Definition set_view (w : wstate) (t : nat) (v : tview) : wstate := mkW (hist w) (link w) (acc w) (lw w) (updn (vw w) t v) (pcs w) (av w).
Definition set_link (w : wstate) (x v : N) : wstate := mkW (hist w) (updN (link w) x v) (acc w) (lw w) (vw w) (pcs w) (av w).
Definition push (w : wstate) (x : N) (m : tview) : wstate := mkW (hist w ++ [(x, m)]) (link w) (acc w) (lw w) (vw w) (pcs w) (av w).
Definition set_av (w : wstate) (v : tview) : wstate := mkW (hist w) (link w) (acc w) (lw w) (vw w) (pcs w) v.

(* atomic_pool_allocator.cc:18-31: the blocks are linked in order, the first one is the head *)
Fixpoint links (blocks : list N) : N -> N :=
  match blocks with
  | x :: t => updN (links t) x (hd 0 t)
  | [] => fun _ => 0
  end.
Definition w_init (blocks : list N) : wstate :=
  mkW [(hd 0 blocks, zero)] (links blocks) (fun _ _ => 0%nat) (fun _ _ => 0%nat) (fun _ => zero) (fun _ => Idle) zero.

(* thread t reads or writes block x *)
Definition ordered (threads : nat) (write : bool) (w : wstate) (v : tview) (x : N) : bool :=
  forallb (fun u => (if write then acc w x u else lw w x u) <=? va v x u)%nat (seq 0 threads).
Definition access (threads : nat) (write : bool) (x : N) (t : nat) (w : wstate) : outcome wstate :=
  let v := vw w t in
  let! _ := defined (ordered threads write w v x) in
  let n := S (acc w x t) in
  Ok (mkW (hist w) (link w) (upd2 (acc w) x t n) (if write then upd2 (lw w) x t n else lw w)
          (updn (vw w) t (mkT (vh v) (upd2 (va v) x t (Nat.max (va v x t) n)))) (pcs w) (av w)).

(* a load of _first_free_node returns entry i of the history, or the newest one *)
Definition load (acquire : bool) (w : wstate) (t : nat) (pick : option nat) : option (N * tview) :=
  let i := match pick with Some i => i | None => (length (hist w) - 1)%nat end in
  if (vh (vw w t) <=? i)%nat then
    match nth_error (hist w) i with Some (x, m) => Some (x, see (join_if acquire (vw w t) m) i) | None => None end
  else None.
Definition newest (w : wstate) : N * tview := last (hist w) (0, zero).

(* what a step means to the caller *)
Inductive event := Nothing | Got (x : N) | Gone (x : N).

Section Weak.
  Variables (o : orders) (threads : nat).

  (* :17 *)
  Definition w_alloc (w : wstate) (t : nat) (pick : option nat) : outcome wstate :=
    match pcs w t with
    | Idle => match load (a_full o) w t pick with
              | Some (x, v) => if x =? 0 then Contract else Ok (set_pc (set_view w t v) t ALoad)
              | None => Ok w                              (* no such value: not a step *)
              end
    | _ => UB
    end.
  (* :47-48 *)
  Definition w_free (w : wstate) (t : nat) (x : N) : outcome wstate :=
    match pcs w t with Idle => Ok (set_pc w t (FLoad x)) | _ => UB end.

  (* one step of the call of thread t; pick: the value that a load returns, or that a compare-exchange fails *)
  Definition w_step (w : wstate) (t : nat) (pick : option nat) : outcome (wstate * event) :=
    let i := length (hist w) in
    let strong := match pick with None => true | _ => false end in
    match pcs w t with
    | Idle => UB
    | ALoad => match load (a_load o) w t pick with                                   (* :27 *)
               | Some (x, v) => Ok (set_pc (set_view w t v) t (ANext x), Nothing)
               | None => Ok (w, Nothing)
               end
    | ANext a => let! _ := defined (negb (a =? 0)) in                                (* :29 *)
                 let! w := access threads false a t w in
                 Ok (set_pc w t (ACas a (link w a)), Nothing)
    | ACas a nx =>                                                                   (* :32-37 *)
        if (fst (newest w) =? a) && strong then
          let v := see (join_if (a_cas o) (vw w t) (snd (newest w))) i in
          Ok (set_av (set_pc (set_view (push w nx (join_if (a_cas o) (snd (newest w)) v)) t v) t Idle) v, Got a)
        else Ok (set_pc w t ALoad, Nothing)
    | FLoad n => match load (f_load o) w t pick with                                 (* :54 *)
                 | Some (x, v) => Ok (set_pc (set_view w t v) t (FNext n x), Nothing)
                 | None => Ok (w, Nothing)
                 end
    | FNext n e => let! w := access threads true n t w in                            (* :57 *)
                   Ok (set_pc (set_link w n e) t (FCas n e), Nothing)
    | FCas n e =>                                                                    (* :60-62 *)
        if (fst (newest w) =? e) && strong then
          let v := see (vw w t) i in
          Ok (set_pc (set_view (push w n (join_if (f_cas o) (snd (newest w)) v)) t v) t Idle, Gone n)
        else Ok (set_pc w t (FLoad n), Nothing)
    end.

  (* the owner of a block reads it, or writes v *)
  Definition w_use (w : wstate) (t : nat) (x : N) (write : option N) : outcome wstate :=
    match pcs w t, write with
    | Idle, Some v => let! w := access threads true x t w in Ok (set_link w x v)
    | Idle, None => access threads false x t w
    | _, _ => UB
    end.
End Weak.

(* outside of the allocator: what thread u has done is ordered before what thread t does from now on (a lock, a join, ...) *)
Definition w_sync (w : wstate) (u t : nat) : wstate := set_view w t (join (vw w t) (vw w u)).

Definition allocating (c : pc) : bool := match c with ALoad | ANext _ | ACas _ _ => true | _ => false end.
Definition vle (a b : tview) : Prop := (vh a <= vh b)%nat /\ forall x u, (va a x u <= va b x u)%nat.

(* Executions.  The list holds the blocks that are not in the free list and the threads they belong to: those that got them,
   or were given them, until free has put them back.
   one: the calls of alloc do not overlap and are ordered one after the other (by a lock, or because one thread makes them all);
   calls of free overlap everything.  An execution ends with the first data race. *)
Section Exec.
  Variables (o : orders) (one : bool) (blocks : list N) (threads : nat).
  Inductive wexec : wstate -> list (N * nat) -> Prop :=
  | wx_init : wexec (w_init blocks) []
  | wx_alloc w own t pick w' : wexec w own -> (t < threads)%nat ->
      (one = true -> (forall u, allocating (pcs w u) = false) /\ vle (av w) (vw w t)) ->
      w_alloc o w t pick = Ok w' -> wexec w' own
  | wx_free w own t x w' : wexec w own -> In (x, t) own -> w_free w t x = Ok w' -> wexec w' own
  | wx_step w own t pick w' : wexec w own -> w_step o threads w t pick = Ok (w', Nothing) -> wexec w' own
  | wx_got w own t pick w' x : wexec w own -> w_step o threads w t pick = Ok (w', Got x) -> wexec w' ((x, t) :: own)
  | wx_gone w o1 o2 t pick w' x : wexec w (o1 ++ (x, t) :: o2) -> w_step o threads w t pick = Ok (w', Gone x) -> wexec w' (o1 ++ o2)
  | wx_use w own t x write w' : wexec w own -> In (x, t) own -> w_use threads w t x write = Ok w' -> wexec w' own
  | wx_give w o1 o2 t u x : wexec w (o1 ++ (x, t) :: o2) -> (u < threads)%nat -> pcs w t = Idle ->
      wexec (w_sync w t u) ((x, u) :: o1 ++ o2)
  | wx_sync w own u t : wexec w own -> wexec (w_sync w u t) own.
End Exec.

(* Model of cc::atomic_linked_pool (src/clean-core/atomic_linked_pool.hh) under the release/acquire memory model of C++.

   As in MpmcWeakModel.v every value ever stored in _first_free_node is kept (its modification order), a load returns any
   value not older than what the thread is ordered after, and a thread has a view of what it is ordered after.  After
   initialize, which happens before every call, _first_free_node and the free list are only changed by read-modify-write
   operations.  Those see the newest value and continue release sequences: the view left with a value is passed on to the
   next one.  Stores are never delayed: no promises, no out-of-thin-air values.
   The elements and the generations are not atomic: a write that is not ordered after every earlier access to the same
   location, and a read that is not ordered after every earlier write, is a data race (UB).  All accesses of a call to its
   element and generation are one step with the compare-exchange that precedes them or the check that begins the call.
   The program points and newest values are those of LPoolModel.v. *)
From Coq Require Import NArith ZArith List Lia Bool Arith.
Import ListNotations.
From Verif Require Import Base LPoolModel LPoolSpec.
Open Scope N_scope.

(* acquire on the first load (:104), on the successful and on the failed compare-exchange (:125) of acquire, release on the
   compare-exchange of _release_node (:433), and the full barriers on the free list in acquire (:115) and _release_node (:425) *)
Record orders := mkO { a_load : bool; a_cas : bool; a_fail : bool; r_cas : bool; f_add : bool; f_swap : bool }.
Definition code : orders := mkO true true true true true true.

(* entries of the history of _first_free_node; per location and thread the number of accesses *)
Record tview := mkT { vh : nat; va : nat -> nat -> nat }.
Definition zero : tview := mkT 0 (fun _ _ => 0%nat).
Definition join (a b : tview) : tview := mkT (Nat.max (vh a) (vh b)) (fun x t => Nat.max (va a x t) (va b x t)).
Definition see (v : tview) (i : nat) : tview := mkT (Nat.max (vh v) i) (va v).
Definition join_if (b : bool) (v m : tview) : tview := if b then join v m else v.

Definition updn {A} (f : nat -> A) (k : nat) (x : A) : nat -> A := fun j => if (j =? k)%nat then x else f j.

(* the locations that are not atomic *)
Definition el (i : nat) : nat := (2 * i)%nat.        (* _pool[i] *)
Definition ge (i : nat) : nat := (2 * i + 1)%nat.    (* _generation[i] *)

Record wstate := mkW {
  base : state;                                 (* program points and newest values *)
  hh : list ((option nat * N) * tview);         (* history of _first_free_node, oldest first, with the views left with the values *)
  fv : nat -> tview;                            (* the views left with the newest values of the free list *)
  acc : nat -> nat -> nat;                      (* accesses to each location by each thread so far *)
  lw : nat -> nat -> nat;                       (* the last of them that wrote *)
  vw : nat -> tview;                            (* views of the threads *)
  seen : nat -> nat                             (* the entry of hh that each acquire loaded last; never read by the code *)
}.
Definition set_base (w : wstate) (s : state) : wstate := mkW s (hh w) (fv w) (acc w) (lw w) (vw w) (seen w).
Definition set_view (w : wstate) (t : nat) (v : tview) : wstate := mkW (base w) (hh w) (fv w) (acc w) (lw w) (updn (vw w) t v) (seen w).
Definition set_fv (w : wstate) (i : nat) (v : tview) : wstate := mkW (base w) (hh w) (updn (fv w) i v) (acc w) (lw w) (vw w) (seen w).
Definition set_seen (w : wstate) (t : nat) (i : nat) : wstate := mkW (base w) (hh w) (fv w) (acc w) (lw w) (vw w) (updn (seen w) t i).
Definition push (w : wstate) (m : tview) : wstate :=
  mkW (base w) (hh w ++ [((hidx (base w), hver (base w)), m)]) (fv w) (acc w) (lw w) (vw w) (seen w).

Definition w_init (extra size threads : nat) : outcome wstate :=
  let! s := initialize extra size threads in
  Ok (mkW s [((hidx s, hver s), zero)] (fun _ => zero) (fun _ _ => 0%nat) (fun _ _ => 0%nat) (fun _ => zero) (fun _ => 0%nat)).

(* thread t reads or writes location x *)
Definition ordered (write : bool) (w : wstate) (v : tview) (x : nat) : bool :=
  forallb (fun u => (if write then acc w x u else lw w x u) <=? va v x u)%nat (seq 0 (length (thr (base w)))).
Definition upd2 (f : nat -> nat -> nat) (x t n : nat) : nat -> nat -> nat := updn f x (updn (f x) t n).
Definition access (write : bool) (x t : nat) (w : wstate) : outcome wstate :=
  let v := vw w t in
  let! _ := defined (ordered write w v x) in
  let n := S (acc w x t) in
  Ok (mkW (base w) (hh w) (fv w) (upd2 (acc w) x t n) (if write then upd2 (lw w) x t n else lw w)
          (updn (vw w) t (mkT (vh v) (upd2 (va v) x t (Nat.max (va v x t) n)))) (seen w)).

(* a load of _first_free_node returns entry i of the history, or the newest one *)
Definition load (acquire : bool) (w : wstate) (t : nat) (pick : option nat) : option (nat * (option nat * N) * tview) :=
  let i := match pick with Some i => i | None => (length (hh w) - 1)%nat end in
  if (vh (vw w t) <=? i)%nat then
    match nth_error (hh w) i with Some (x, m) => Some (i, x, see (join_if acquire (vw w t) m) i) | None => None end
  else None.
(* the view left with the newest value of _first_free_node *)
Definition newest (w : wstate) : tview := match nth_error (hh w) (length (hh w) - 1) with Some (_, m) => m | None => zero end.

Section Weak.
  Variable o : orders.

  (* :104-110 *)
  Definition w_candidate (acquire : bool) (w : wstate) (t : nat) (pick : option nat) : outcome wstate :=
    match load acquire w t pick with
    | Some (i, (Some x, ver), v) => Ok (set_seen (set_view (set_base w (with_thr (base w) t (QNext x ver))) t v) t i)
    | Some (i, (None, _), v) => Contract
    | None => Ok w                                 (* no such value: not a step *)
    end.
  Definition w_acquire (w : wstate) (t : nat) (pick : option nat) : outcome wstate :=
    let! c := aget (thr (base w)) t in
    match c with Idle => w_candidate (a_load o) w t pick | _ => UB end.

  (* :415, and the value that a failed compare-exchange delivers *)
  Definition w_reload (w : wstate) (t i : nat) (pick : option nat) : outcome (wstate * option N) :=
    match load false w t pick with
    | Some (_, (h, ver), v) => Ok (set_view (set_base w (with_thr (base w) t (RStore i h ver))) t v, None)
    | None => Ok (w, None)
    end.
  (* a read-modify-write of _free_list[i] *)
  Definition w_free (barrier : bool) (w : wstate) (t i : nat) : outcome (wstate * option N) :=
    let! (s, r) := step (base w) t false in
    let v := join_if barrier (vw w t) (fv w i) in
    Ok (set_fv (set_view (set_base w s) t v) i (if barrier then v else fv w i), r).

  Definition w_step (w : wstate) (t : nat) (pick : option nat) : outcome (wstate * option N) :=
    let! c := aget (thr (base w)) t in
    let s := base w in
    let n := length (hh w) in
    match c with
    | Idle => UB
    | QNext i _ => w_free (f_add o) w t i                                                      (* :113-115 *)
    | QCas i ver nx =>                                                                         (* :125-138 *)
        if idx_eqb (hidx s) (Some i) && (hver s =? ver) && match pick with None => true | _ => false end then
          let! (s, r) := step s t false in
          let v := see (join_if (a_cas o) (vw w t) (newest w)) n in
          let! w := access true (el i) t (set_view (push (set_base w s) (newest w)) t v) in    (* the constructor *)
          let! w := access false (ge i) t w in                                                 (* :364 *)
          Ok (w, r)
        else let! w := w_candidate (a_fail o) w t pick in Ok (w, None)
    | RLoad i => w_reload w t i pick                                                           (* :415 *)
    | RStore i _ _ => w_free (f_swap o) w t i                                                  (* :424-425 *)
    | RCas i h ver =>                                                                          (* :433 *)
        if idx_eqb (hidx s) h && (hver s =? ver) && match pick with None => true | _ => false end then
          let! (s, r) := step s t false in
          let v := see (vw w t) n in
          Ok (set_view (push (set_base w s) (join_if (r_cas o) (newest w) v)) t v, r)
        else w_reload w t i pick
    end.
End Weak.

(* a thread is in one call at a time *)
Definition idle (w : wstate) (t : nat) : outcome unit :=
  let! c := aget (thr (base w)) t in match c with Idle => Ok tt | _ => UB end.

(* :142-146, :393-411: check the handle, bump the generation, destroy the element *)
Definition w_release (w : wstate) (t : nat) (h : N) : outcome wstate :=
  let! _ := idle w t in
  let! i := read_handle_index (base w) h in
  let! w := access false (ge i) t w in
  let! w := access true (ge i) t w in
  let! w := access true (el i) t w in
  let! s := start_release (base w) t h in
  Ok (set_base w s).

(* :149-152 get, and the caller reads or writes the element *)
Definition w_use (w : wstate) (t : nat) (h : N) (write : bool) : outcome wstate :=
  let! _ := idle w t in
  let! i := get_index (base w) h in
  let! w := access false (ge i) t w in
  access write (el i) t w.

(* :156-171 *)
Definition w_alive (w : wstate) (t : nat) (h : N) : outcome (wstate * bool) :=
  let! _ := idle w t in
  let! b := is_alive (base w) h in
  let! w := access false (ge (slot h)) t w in
  Ok (w, b).

(* outside of the pool: what thread u has done is ordered before what thread t does from now on (a lock, a join, ...) *)
Definition w_sync (w : wstate) (u t : nat) : wstate := set_view w t (join (vw w t) (vw w u)).

(* What an observer notes (LPoolSpec.v): a pending acquire loaded entry `seen`, i.e. after seen + 1 changes of the head *)
Definition note (v : view) (w : wstate) (t : nat) (r : option N) : view :=
  mkv (match r with Some h => h :: own v | None => own v end) (dead v) (N.of_nat (length (hh w)))
      (match nth_error (thr (base w)) t with Some (QNext _ _) => lset (mark v) t (N.of_nat (seen w t) + 1) | _ => mark v end) (rel v).

(* Executions: any thread acquires, releases a handle that is owned, uses an owned handle or, if alive is true, asks whether
   any handle is alive; no acquire sleeps through 2^32 changes of the head.  An execution ends with the first data race. *)
Section Exec.
  Variables (o : orders) (alive : bool) (extra size threads : nat).
  Inductive wexec : wstate -> view -> Prop :=
  | wx_init w : w_init extra size threads = Ok w -> wexec w (mkv [] [] 1 (repeat 0 threads) (repeat 0 size))
  | wx_acquire w v t pick w' : wexec w v -> w_acquire o w t pick = Ok w' -> wexec w' (note v w' t None)
  | wx_release w v t h o1 o2 w' c : wexec w v -> own v = o1 ++ h :: o2 -> w_release w t h = Ok w' ->
      nth_error (rel v) (slot h) = Some c ->
      wexec w' (mkv (o1 ++ o2) ((h, c + 1) :: dead v) (chg v) (mark v) (lset (rel v) (slot h) (c + 1)))
  | wx_use w v t h write w' : wexec w v -> In h (own v) -> w_use w t h write = Ok w' -> wexec w' v
  | wx_alive w v t h w' b : wexec w v -> alive = true -> w_alive w t h = Ok (w', b) -> wexec w' v
  | wx_sync w v u t : wexec w v -> wexec (w_sync w u t) v
  | wx_step w v t pick w' r : wexec w v -> in_time v (base w) t -> w_step o w t pick = Ok (w', r) -> wexec w' (note v w' t r).
End Exec.

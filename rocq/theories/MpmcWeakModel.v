(* Model of src/clean-core/experimental/mpmc_queue.hh under the release/acquire memory model of C++.

   Every atomic location has a history of all values ever stored (its modification order).  A load returns any value of the
   history that is not older than what the thread has already seen; only read-modify-write operations see the newest value.
   A thread has a view: for every location the newest entry it is ordered after.  A release store leaves the view of its
   thread with the value, an acquire load that reads the value joins that view; relaxed operations transfer nothing.
   Payload accesses are not atomic: one that is not ordered after every earlier access to the same payload is a data race
   (UB).  A plain store by a thread that has not seen the newest value could enter the modification order before newer
   values; it is reported as UB as well.  Stores are never delayed: no promises, no out-of-thin-air values.
   _enqueue_pos and _dequeue_pos are only changed by relaxed compare-exchanges, so their values carry no views.
   initialize happens before every call.  The program points and newest values are those of MpmcModel.v. *)
From Coq Require Import NArith ZArith Arith List Bool.
From Verif Require Import Base MpmcModel.
Import ListNotations.
Open Scope N_scope.

(* the four annotations: mpmc_queue.hh:51 and :80 (acquire), :64 and :93 (release) *)
Record orders := mkO { enq_load : bool; enq_store : bool; deq_load : bool; deq_store : bool }.
Definition code : orders := mkO true true true true.

(* entries of the histories of _enqueue_pos, _dequeue_pos and the sequences, accesses to the payloads, and for each thread
   the number of its actions outside of the queue *)
Record view := mkV { ve : nat; vd : nat; vs : N -> nat; va : N -> nat; vx : nat -> nat }.
Definition zero : view := mkV 0 0 (fun _ => 0%nat) (fun _ => 0%nat) (fun _ => 0%nat).
Definition join (a b : view) : view :=
  mkV (Nat.max (ve a) (ve b)) (Nat.max (vd a) (vd b)) (fun c => Nat.max (vs a c) (vs b c)) (fun c => Nat.max (va a c) (va b c))
      (fun t => Nat.max (vx a t) (vx b t)).
Definition set_ve (v : view) (i : nat) := mkV i (vd v) (vs v) (va v) (vx v).
Definition set_vd (v : view) (i : nat) := mkV (ve v) i (vs v) (va v) (vx v).
Definition set_vs (v : view) (c : N) (i : nat) := mkV (ve v) (vd v) (updN (vs v) c i) (va v) (vx v).
Definition set_va (v : view) (c : N) (i : nat) := mkV (ve v) (vd v) (vs v) (updN (va v) c i) (vx v).
Definition set_vx (v : view) (t : nat) (i : nat) := mkV (ve v) (vd v) (vs v) (va v) (upd (vx v) t i).

(* what a load may return: entry i of the history, or the newest one *)
Definition choose {A} (h : list A) (seen : nat) (pick : option nat) : option (nat * A) :=
  let i := match pick with Some i => i | None => (length h - 1)%nat end in
  if (seen <=? i)%nat then match nth_error h i with Some m => Some (i, m) | None => None end else None.

Section Weak.
  Context {T : Type} (o : orders).

  Record wstate := mkW {
    base : state T;               (* program points and newest values *)
    eh : list N; dh : list N;     (* histories of _enqueue_pos and _dequeue_pos, oldest first *)
    sh : N -> list (N * view);    (* histories of the sequences, with the views left by release stores *)
    accs : N -> nat;              (* accesses to each payload so far *)
    vw : nat -> view;             (* views of the threads *)
    pubs : list view              (* the views of the enqueuing threads at their successful CAS; never read by the code *)
  }.
  (* mpmc_queue.hh:29-43 *)
  Definition winit (num : N) (d0 : N -> T) : outcome wstate :=
    let! s := init num d0 in
    Ok (mkW s [0] [0] (fun i => [(i, zero)]) (fun _ => 0%nat) (fun _ => zero) []).

  (* a step that changes only the program point and the view of the thread *)
  Definition local (w : wstate) (t : nat) (p : pc T) (v : view) : wstate :=
    mkW (set_thr (base w) t p) (eh w) (dh w) (sh w) (accs w) (upd (vw w) t v) (pubs w).
  (* the newest values change *)
  Definition next (w : wstate) (s : state T) (t : nat) (v : view) : wstate :=
    mkW s (eh w) (dh w) (sh w) (accs w) (upd (vw w) t v) (pubs w).
  Definition load_view (acquire : bool) (v : view) (c : N) (i : nat) (m : view) : view :=
    let v := if acquire then join v m else v in set_vs v c (Nat.max (vs v c) i).
  (* access to the payload of cell c *)
  Definition payload (w : wstate) (s : state T) (t : nat) (c : N) : outcome wstate :=
    let! _ := defined (va (vw w t) c =? accs w c)%nat in
    Ok (mkW s (eh w) (dh w) (sh w) (updN (accs w) c (S (accs w c))) (upd (vw w) t (set_va (vw w t) c (S (accs w c)))) (pubs w)).
  (* store to the sequence of cell c *)
  Definition store (release : bool) (w : wstate) (s : state T) (t : nat) (c : N) : outcome wstate :=
    let n := length (sh w c) in
    let! _ := defined (S (vs (vw w t) c) =? n)%nat in
    let v := set_vs (vw w t) c n in
    Ok (mkW s (eh w) (dh w) (updN (sh w) c (sh w c ++ [(seqs s c, if release then v else zero)])) (accs w) (upd (vw w) t v) (pubs w)).

  Definition wgo (w : wstate) (t : nat) (pick : option nat) : outcome (wstate * list (event T)) :=
    let s := base w in
    let v := vw w t in
    let (s', es) := go s t false in            (* the same step on the newest values *)
    match thr s t with
    | Idle => Ok (w, [])
    | ELoad x =>                               (* :47, :61 *)
        match choose (eh w) (ve v) pick with
        | Some (i, pos) => Ok (local w t (ESeq x pos) (set_ve v i), [])
        | None => Ok (w, [])
        end
    | ESeq x pos =>                            (* :50-62 *)
        match choose (sh w (cell s pos)) (vs v (cell s pos)) pick with
        | Some (i, (q, m)) =>
            let v := load_view (enq_load o) v (cell s pos) i m in
            let diff := (s64 q - s64 pos)%Z in
            if (diff =? 0)%Z then Ok (local w t (ECas x pos) v, [])
            else if (diff <? 0)%Z then Ok (local w t Idle v, [ERet t (REnq false)])
            else Ok (local w t (ELoad x) v, [])
        | None => Ok (w, [])
        end
    | ECas x pos =>                            (* :55 *)
        match pick with
        | None => if enq s =? pos
                  then Ok (mkW s' (eh w ++ [enq s']) (dh w) (sh w) (accs w) (upd (vw w) t (set_ve v (length (eh w)))) (pubs w ++ [v]), es)
                  else Ok (local w t (ESeq x (enq s)) (set_ve v (length (eh w) - 1)), [])
        | Some _ => match choose (eh w) (ve v) pick with
                    | Some (i, pos) => Ok (local w t (ESeq x pos) (set_ve v i), [])
                    | None => Ok (w, [])
                    end
        end
    | EWrite _ pos => let! w := payload w s' t (cell s pos) in Ok (w, es)             (* :63 *)
    | EStore _ pos => let! w := store (enq_store o) w s' t (cell s pos) in Ok (w, es) (* :64 *)
    | DLoad =>                                 (* :76, :90 *)
        match choose (dh w) (vd v) pick with
        | Some (i, pos) => Ok (local w t (DSeq pos) (set_vd v i), [])
        | None => Ok (w, [])
        end
    | DSeq pos =>                              (* :79-91 *)
        match choose (sh w (cell s pos)) (vs v (cell s pos)) pick with
        | Some (i, (q, m)) =>
            let v := load_view (deq_load o) v (cell s pos) i m in
            let diff := (s64 q - s64 (wadd 64 pos 1))%Z in
            if (diff =? 0)%Z then Ok (local w t (DCas pos) v, [])
            else if (diff <? 0)%Z then Ok (local w t Idle v, [ERet t (RDeq None)])
            else Ok (local w t DLoad v, [])
        | None => Ok (w, [])
        end
    | DCas pos =>                              (* :84 *)
        match pick with
        | None => if deq s =? pos
                  then Ok (mkW s' (eh w) (dh w ++ [deq s']) (sh w) (accs w) (upd (vw w) t (set_vd v (length (dh w)))) (pubs w), es)
                  else Ok (local w t (DSeq (deq s)) (set_vd v (length (dh w) - 1)), [])
        | Some _ => match choose (dh w) (vd v) pick with
                    | Some (i, pos) => Ok (local w t (DSeq pos) (set_vd v i), [])
                    | None => Ok (w, [])
                    end
        end
    | DRead pos => let! w := payload w s' t (cell s pos) in Ok (w, es)                (* :92 *)
    | DStore _ pos => let! w := store (deq_store o) w s' t (cell s pos) in Ok (w, es) (* :93 *)
    end.

  (* a call begins; a step with a chosen value; outside of the queue a thread does something, or what thread u has done is
     ordered before what thread t does from now on (a lock, a join, ...) *)
  Inductive waction := WCall (t : nat) (c : call T) | WGo (t : nat) (pick : option nat) | WOther (t : nat) | WSync (u t : nat).
  Definition actor (a : waction) : nat := match a with WCall t _ | WGo t _ | WOther t | WSync _ t => t end.
  Definition wact (w : wstate) (a : waction) : outcome (wstate * list (event T)) :=
    match a with
    | WCall t c => let (s, es) := act (base w) (Call t c) in Ok (next w s t (vw w t), es)
    | WGo t pick => wgo w t pick
    | WOther t => match thr (base w) t with
                  | Idle => Ok (next w (base w) t (set_vx (vw w t) t (S (vx (vw w t) t))), [])
                  | _ => Ok (w, [])
                  end
    | WSync u t => match thr (base w) u, thr (base w) t with
                   | Idle, Idle => Ok (next w (base w) t (join (vw w t) (vw w u)), [])
                   | _, _ => Ok (w, [])
                   end
    end.
  Fixpoint wrun (w : wstate) (l : list waction) : outcome (wstate * list (event T)) :=
    match l with
    | [] => Ok (w, [])
    | a :: l => let! (w, e) := wact w a in let! (w, es) := wrun w l in Ok (w, e ++ es)
    end.
End Weak.
Arguments wstate : clear implicits.
Arguments waction : clear implicits.

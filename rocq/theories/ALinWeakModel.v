(* Model of cc::atomic_linear_allocator (src/clean-core/allocators/atomic_linear_allocator.hh) under the release/acquire
   memory model of C++.

   _offset is only changed by fetch_add, which sees the newest value and continues the release sequence it belongs to, and by
   the store in reset.  The store is the newest value because reset is only called when every call is ordered before it.  So
   of the history of _offset only the newest value and the view left with it matter.  allocated_size() only returns a number
   and orders nothing that is freed or reused; it is left out.
   The bytes of the buffer are not atomic: a write that is not ordered after every earlier access to the same byte, and a
   read that is not ordered after every earlier write, is a data race (UB).  A view counts, per byte and thread, the accesses
   that the holder of the view is ordered after.  The values are those of ALinModel.v. *)
From Coq Require Import NArith ZArith List Lia Bool Arith.
Import ListNotations.
From Verif Require Import Base BitsModel AllocModel AllocSpec ALinModel ALinSpec.
Open Scope N_scope.

(* acquire on the fetch_add (:21), release on the store in reset (:51) *)
Record orders := mkO { acquire : bool; release : bool }.
Definition code : orders := mkO true true.

Definition view := N -> nat -> nat.
Definition zero : view := fun _ _ => 0%nat.
Definition join (a b : view) : view := fun x t => Nat.max (a x t) (b x t).

Record wstate := mkW {
  base : state;                  (* calls and newest values *)
  owner : list nat;              (* the thread that made the call or was given its block, for each of the calls *)
  mv : view;                     (* the view left with the newest value of _offset *)
  acc : view;                    (* accesses to each byte by each thread so far *)
  lw : view;                     (* the last of them that wrote *)
  vw : nat -> view               (* views of the threads *)
}.
Definition set_base (w : wstate) (s : state) : wstate := mkW s (owner w) (mv w) (acc w) (lw w) (vw w).
Definition updn {A} (f : nat -> A) (k : nat) (x : A) : nat -> A := fun j => if (j =? k)%nat then x else f j.
Definition upd2 (f : view) (x : N) (t n : nat) : view := fun y => if y =? x then updn (f y) t n else f y.
Definition set_view (w : wstate) (t : nat) (v : view) : wstate := mkW (base w) (owner w) (mv w) (acc w) (lw w) (updn (vw w) t v).

Section Weak.
  Variable o : orders.
  Variable threads : nat.

  Definition w_init (b len : N) (m : bytes) : wstate := mkW (init b len m) [] zero zero zero (fun _ => zero).

  (* thread t reads or writes byte x *)
  Definition ordered (write : bool) (w : wstate) (v : view) (x : N) : bool :=
    forallb (fun u => (if write then acc w x u else lw w x u) <=? v x u)%nat (seq 0 threads).
  Definition access (write : bool) (x : N) (t : nat) (w : wstate) : outcome wstate :=
    let! _ := defined (ordered write w (vw w t) x) in
    let n := S (acc w x t) in
    Ok (mkW (base w) (owner w) (mv w) (upd2 (acc w) x t n) (if write then upd2 (lw w) x t n else lw w)
            (updn (vw w) t (upd2 (vw w t) x t n))).
  (* n bytes from x on *)
  Fixpoint accesses (write : bool) (x : N) (n t : nat) (w : wstate) : outcome wstate :=
    match n with
    | O => Ok w
    | S n => let! w := access write x t w in accesses write (x + 1) n t w
    end.

  (* :14-21 *)
  Definition w_start (w : wstate) (t : nat) (size align : N) : outcome wstate :=
    let! s := start (base w) size align in
    let v := if acquire o then join (vw w t) (mv w) else vw w t in
    Ok (mkW s (t :: owner w) (mv w) (acc w) (lw w) (updn (vw w) t v)).

  (* :23-32: the size is stored before the assertions *)
  Definition header (s : state) (c : call) : N :=
    wsub 64 (align_up 64 (wadd 64 (wadd 64 (begin_ s) (cstart c)) 8) (calign c)) 8.
  Definition w_finish (w : wstate) (k : nat) : outcome wstate :=
    let! c := aget (calls (base w)) k in
    let! t := aget (owner w) k in
    let! w := accesses true (header (base w) c) 8 t w in
    let! s := finish (base w) k in
    Ok (set_base w s).

  (* :40-47, by the owner of block k *)
  Definition w_size (w : wstate) (k : nat) : outcome (wstate * option N) :=
    let! c := aget (calls (base w)) k in
    let! t := aget (owner w) k in
    match cres c with
    | None => UB                                  (* the call has not returned *)
    | Some p =>
        let! w := accesses false (wsub 64 p 8) 8 t w in
        let! r := get_allocation_size (base w) p in
        Ok (w, r)
    end.

  (* the owner of block k reads, or writes a value to, byte x *)
  Definition w_use (w : wstate) (k : nat) (x : N) (write : option N) : outcome wstate :=
    let! t := aget (owner w) k in
    match write with
    | None => access false x t w
    | Some v =>
        let! w := access true x t w in
        let s := base w in
        Ok (set_base w (mkst (begin_ s) (end_ s) (off s) (upd (mem s) x v) (calls s)))
    end.

  (* u is ordered after t, for example by a mutex, another atomic or by joining t *)
  Definition w_sync (w : wstate) (t u : nat) : wstate := set_view w u (join (vw w u) (vw w t)).
  (* the owner of block k hands it over to u, ordered like that *)
  Definition w_give (w : wstate) (k u : nat) : outcome wstate :=
    let! t := aget (owner w) k in
    let w := w_sync w t u in
    Ok (mkW (base w) (lset (owner w) k u) (mv w) (acc w) (lw w) (vw w)).

  (* :51 *)
  Definition w_reset (w : wstate) (t : nat) : wstate :=
    mkW (reset (base w)) [] (if release o then vw w t else zero) (acc w) (lw w) (vw w).

  (* t is ordered after all accesses so far *)
  Definition caught_up (w : wstate) (t : nat) : Prop := forall x u, (u < threads)%nat -> (acc w x u <= vw w t x u)%nat.

  (* all executions; the caller of reset is ordered after the end of all calls and all uses of the blocks *)
  Section Exec.
    Variables b len : N.
    Inductive wexec : wstate -> Prop :=
    | we_init m : wexec (w_init b len m)
    | we_start w t s a w' : wexec w -> (t < threads)%nat -> a = 0 \/ pow2 a ->
        b + off (base w) + s + N.max a 1 + 8 < 2 ^ 64 ->            (* offsets and sizes do not wrap, as in C47 *)
        w_start w t s a = Ok w' -> wexec w'
    | we_finish w k w' : wexec w -> w_finish w k = Ok w' -> wexec w'
    | we_size w k w' r : wexec w -> w_size w k = Ok (w', r) -> wexec w'
    | we_use w k q x v w' : wexec w -> returned (base w) k q -> holds q x -> match v with Some v => v < 256 | None => True end ->
        w_use w k x v = Ok w' -> wexec w'
    | we_sync w t u : wexec w -> (t < threads)%nat -> (u < threads)%nat -> wexec (w_sync w t u)
    | we_give w k u w' : wexec w -> (u < threads)%nat -> w_give w k u = Ok w' -> wexec w'
    | we_reset w t : wexec w -> (t < threads)%nat -> (forall c, In c (calls (base w)) -> cres c <> None) -> caught_up w t ->
        wexec (w_reset w t).
  End Exec.
End Weak.

(* What users of the thread-safe linear allocator rely on. *)
From Coq Require Import NArith ZArith List Lia Bool Arith.
Import ListNotations.
From Verif Require Import Base AllocModel AllocSpec ALinModel.
Open Scope N_scope.

(* call k has returned the block q *)
Definition returned (st : state) (k : nat) (q : block) : Prop :=
  exists c p, nth_error (calls st) k = Some c /\ cres c = Some p /\ q = mkb p (csize c) (calign c).

(* All executions by any number of threads: calls start and complete in any order, clients write
   into blocks they were given, the owner resets when nothing is in flight. *)
Section Hist.
  Variables b len : N.
  Inductive exec : state -> Prop :=
  | ex_init m : exec (init b len m)
  | ex_start st s a st' : exec st -> a = 0 \/ pow2 a ->
      b + off st + s + N.max a 1 + 8 < 2 ^ 64 ->        (* offsets and sizes do not wrap *)
      start st s a = Ok st' -> exec st'
  | ex_finish st k st' : exec st -> finish st k = Ok st' -> exec st'
  | ex_write st k q x v : exec st -> returned st k q -> holds q x -> v < 256 ->
      exec (mkst (begin_ st) (end_ st) (off st) (upd (mem st) x v) (calls st))
  | ex_reset st : exec st -> (forall c, In c (calls st) -> cres c <> None) -> exec (reset st).
End Hist.

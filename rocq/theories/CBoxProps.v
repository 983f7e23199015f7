(* Theorems about capped_box (C59). *)
From Coq Require Import Arith List Bool Lia.
From Verif Require Import Base Tagged CBoxModel CBoxSpec CBoxProofs.
Import ListNotations.

(* Every history that is allowed for ideal boxes and in which payloads with a move constructor are moved only
   by move assignment, those without only by move construction, runs without undefined behaviour (every
   payload is destroyed exactly once, no destructor runs on raw storage), and get() agrees.
   Full statement: all moves; refuted below. *)
Theorem C59_history_partial : forall (A : Type) hm os (w : store A) rs,
  ideal_run [] os = Some (w, rs) -> forallb (supported hm) os = true ->
  run hm [] os = Ok (rep (shape hm) w, rs).
Proof. intros A hm os w rs H U. exact (run_ok hm os [] w rs H U). Qed.

(* the move constructor forgets the destructor of the moved-from payload: it is leaked when the moved-from
   box goes away or gets a new payload *)
Theorem C59_move_ctor_leaks_refuted : forall (A : Type) t u (v x : A),
  run true [] [NewVal t v; NewMove 0; Destroy 0] = UB /\ run true [] [NewVal t v; NewMove 0; AssignVal 0 u x] = UB /\
  run true [] [NewVal t v; NewMove 0; Emplace 0 u x] = UB.
Proof. intros. cbv -[Nat.eqb]. rewrite !Nat.eqb_refl. auto. Qed.
(* move assignment from a moved-from box: the destructor runs on raw storage *)
Theorem C59_move_hollow_refuted : forall (A : Type) t u x (v1 v2 v3 : A),
  run true [] [NewVal t v1; NewVal u v2; NewVal x v3; MoveAssign 1 0; MoveAssign 2 0; Destroy 2] = UB.
Proof. intros. cbv -[Nat.eqb]. rewrite !Nat.eqb_refl. auto. Qed.
(* move assignment by memcpy keeps the destructor of the source: the payload is destroyed twice *)
Theorem C59_memcpy_assign_refuted : forall (A : Type) t u (v1 v2 : A),
  run false [] [NewVal t v1; NewVal u v2; MoveAssign 1 0; Destroy 0] = UB /\
  run false [] [NewVal t v1; NewVal u v2; MoveAssign 1 0; AssignVal 0 u v2] = UB.
Proof. intros. cbv -[Nat.eqb]. rewrite !Nat.eqb_refl. auto. Qed.
(* moving a box to itself *)
Theorem C59_self_move_refuted : forall (A : Type) t (v : A), run true [] [NewVal t v; MoveAssign 0 0] = UB.
Proof. intros. cbv -[Nat.eqb]. rewrite !Nat.eqb_refl. auto. Qed.

Definition sample : list (op nat) :=
  [NewVal 1 5; Make 2 6; AssignVal 0 3 7; Get 0; MoveAssign 1 0; Get 1; Emplace 0 4 8; Get 0; MoveAssign 0 1; Get 0; Destroy 1; Destroy 0].
Definition sample_memcpy : list (op nat) :=
  [NewVal 1 5; NewMove 0; Get 1; NewMove 1; AssignVal 0 2 6; Get 0; Get 2; Destroy 0; Destroy 1; Destroy 2].
Example C59_ex : run true [] sample = Ok ([None; None],
    [RUnit; RUnit; RUnit; RVal 3 7; RUnit; RVal 3 7; RUnit; RVal 4 8; RUnit; RVal 3 7; RUnit; RUnit]) /\
  run false [] sample_memcpy = Ok ([None; None; None],
    [RUnit; RUnit; RVal 1 5; RUnit; RUnit; RVal 2 6; RVal 1 5; RUnit; RUnit; RUnit]) /\
  ideal_run [] sample <> None /\ forallb (supported true) sample = true /\
  ideal_run [] sample_memcpy <> None /\ forallb (supported false) sample_memcpy = true.
Proof. repeat split; discriminate. Qed.

Print Assumptions C59_history_partial.
Print Assumptions C59_move_ctor_leaks_refuted.
Print Assumptions C59_move_hollow_refuted.
Print Assumptions C59_memcpy_assign_refuted.
Print Assumptions C59_self_move_refuted.

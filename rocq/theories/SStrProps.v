(* Theorems about string_stream (C69). *)
From Coq Require Import NArith List Bool Arith Lia.
From Verif Require Import Base SStrModel SStrSpec SStrProofs.
Import ListNotations.
Open Scope N_scope.

(* every history of n variables without moves of a stream to itself: every stream holds the ideal characters, nothing is
   written outside of a block, and blocks are freed with their streams; it aborts only for lack of memory, which needs 2^62
   characters.  Full statement: with self-moves; refuted below. *)
Theorem C69_history_partial : forall n ops v, Forall supported ops -> srun (repeat None n) ops = Some v ->
  (exists w, run (start n) ops = Ok w /\ (forall i cs, get v i = Some cs -> content w i = Ok cs) /\
     ((forall i, get v i = None) -> forall b, lookup (mem w) b = None)) \/
  (run (start n) ops = Contract /\ 2 ^ 62 <= total ops).
Proof.
  intros n ops v F S. destruct (run_ok ops (start n) _ 0 v (Inv_start n) F S) as [(w & E & I)|[E X]]; [left|right].
  - exists w. split; auto. split; [intros i cs G; eapply content_ok; eauto|]. intro H. eapply all_dead; eauto.
  - split; auto. rewrite N.add_0_l in X. change (2 ^ 63) with (2 * 2 ^ 62) in X. lia.
Qed.
(* reserve(k) makes room for k more characters.  Full statement: for all k; refuted below. *)
Theorem C69_reserve_partial : forall n ops v w i s k s' h', Forall supported ops -> srun (repeat None n) ops = Some v -> run (start n) ops = Ok w ->
  obj w i = Ok s -> size s + k < 2 ^ 64 -> reserve s k (mem w) = Ok (s', h') -> size s' = size s /\ size s + k <= cap s'.
Proof.
  intros n ops v w i s k s' h' F S R O K E. destruct (run_ok ops (start n) _ 0 v (Inv_start n) F S) as [(w0 & E0 & I)|[E0 X]]; [|congruence].
  rewrite R in E0. injection E0 as <-. unfold obj in O. destruct I as (_ & I & _). specialize (I i). unfold var in I.
  destruct (nth_error (vars w) i) as [[t|]|]; try discriminate. injection O as ->. destruct (get v i) as [cs|]; [|contradiction].
  destruct (reserve_ok (mem w) s cs _ k I) as [(s1 & h1 & E1 & O1 & _ & C)|[E1 _]]; [|congruence]. rewrite E in E1. injection E1 as <- <-.
  destruct I as (A & _), O1 as (A1 & _). unfold size in *. rewrite A in *. rewrite A1. auto.
Qed.
Theorem C69_reserve_refuted : exists s h, reserve s SIZE_MAX h = Ok (s, h) /\ size s + SIZE_MAX > cap s.
Proof. exists (mkS (Some 0%nat) 1 1), [Some [Some 97]]. split; vm_compute; reflexivity. Qed.
(* moving a stream to itself empties it, after every history *)
Theorem C69_self_move_refuted : forall n ops v w i cs, Forall supported ops -> srun (repeat None n) ops = Some v -> run (start n) ops = Ok w -> get v i = Some cs ->
  exists w', step w (MoveAssign i i) = Ok w' /\ content w' i = Ok [].
Proof.
  intros n ops v w i cs F S R G. destruct (run_ok ops (start n) _ 0 v (Inv_start n) F S) as [(w0 & E0 & I)|[E0 X]]; [|congruence].
  rewrite R in E0. injection E0 as <-. destruct (obj_ok w v _ i cs I G) as (s & E & V & O). cbn [step]. rewrite E. cbn [bind].
  destruct (dealloc_ok _ _ _ _ O) as (h' & -> & _). cbn [bind]. eexists. split; [reflexivity|].
  unfold content, obj. assert (L : (i < length (vars w))%nat) by (destruct I as (L & _); apply get_lt in G; lia).
  unfold store. cbn [vars]. rewrite lset_nth_eq by (rewrite lset_length; lia). reflexivity.
Qed.

Example C69_ex :
  let ops := [New 0; Put 0 97; CopyCtor 1 0; Append 0 [98; 99; 100]; CopyAssign 1 0; MoveCtor 2 0; Put 0 120; MoveAssign 1 2; Clear 2; Destroy 2] in
  srun (repeat None 3) ops = Some [Some [120]; Some [97; 98; 99; 100]; None] /\
  (exists w, run (start 3) ops = Ok w /\ content w 0 = Ok [120] /\ content w 1 = Ok [97; 98; 99; 100]) /\ Forall supported ops.
Proof.
  split; [reflexivity|]. split; [eexists; split; [vm_compute; reflexivity|split; reflexivity]|]. repeat constructor. discriminate.
Qed.

Print Assumptions C69_history_partial.
Print Assumptions C69_reserve_partial.
Print Assumptions C69_reserve_refuted.
Print Assumptions C69_self_move_refuted.

(* Theorems about shared_ptr (C57). *)
From Coq Require Import ZArith Arith List Bool Lia.
From Verif Require Import Base SPtrModel SPtrSpec SPtrProofs.
Import ListNotations.
Local Open Scope nat_scope.

(* Every history over any ownership graph, cyclic ones included, in which the right hand side of an assignment
   is not destroyed together with the object the left hand side owned: no undefined behaviour (no destroyed
   object is touched, none is destroyed twice), the results agree with ideal shared ownership, and the live
   objects, their members and reference counts are the ideal ones after every operation.
   Full statement: all assignments; refuted below for exactly the remaining ones. *)
Theorem C57_history_partial : forall os g rs,
  ideal_run survives no_graph os g rs ->
  exists st, run (mks [] []) os = Ok (st, rs) /\ represents st g.
Proof.
  intros os g rs H. destruct (run_ok _ _ _ _ _ good_empty H) as (st & E & G & _). exists st. split; auto. apply Rp_rep. auto.
Qed.
(* after every history an object is alive if there is a pointer to it, otherwise it is destroyed and its memory released *)
Theorem C57_alive_iff_owned_partial : forall os g rs,
  ideal_run survives no_graph os g rs ->
  exists st, run (mks [] []) os = Ok (st, rs) /\
    forall o, o < length (heap st) ->
      (owners g o <> 0 /\ exists fs, nth_error (heap st) o = Some (Live (Z.of_nat (owners g o)) fs)) \/
      (owners g o = 0 /\ nth_error (heap st) o = Some Freed).
Proof.
  intros os g rs H. destruct (run_ok _ _ _ _ _ good_empty H) as (st & E & (V & L & R) & C & S). exists st. split; auto. intros o Lo.
  rewrite L in Lo. destruct (nth_error (gheap g) o) as [[fs|]|] eqn:X; [| |apply nth_error_None in X; lia].
  - left. split; [apply S; exists fs; auto|]. exists fs. rewrite (R _ _ X). do 2 f_equal. lia.
  - right. split; [|exact (R _ _ X)]. destruct (Nat.eq_dec (owners g o) 0) as [|N]; auto. destruct (C _ N). congruence.
Qed.
(* what ideal ownership leaves alive is determined: collection always ends, and the order does not matter *)
Theorem C57_collection_unique : forall g, exists g', collects g g' /\ forall g2, collects g g2 -> g2 = g'.
Proof. intro g. destruct (collects_total g) as (g' & K). exists g'. split; auto. intros g2 K2. eapply collects_unique; eauto. Qed.

(* whenever the right hand side lives in an object that the left hand side is keeping alive, both assignments
   use it after it has been destroyed *)
Theorem C57_assignment_refuted : forall os g rs e f l r p q,
  ideal_run survives no_graph os g rs -> denotes g e l p -> denotes g f r q -> l <> r -> ~ survives g l r ->
  run (mks [] []) (os ++ [MoveAssign e f]) = UB /\ run (mks [] []) (os ++ [CopyAssign e f]) = UB.
Proof.
  intros os g rs e f l r p q H De Df N X. destruct (run_ok _ _ _ _ _ good_empty H) as (st & E & G).
  destruct (lost_ub _ _ _ _ _ _ _ _ G De Df N X) as (U1 & U2). rewrite !(run_app _ _ _ _ _ E). cbn [run]. rewrite U1, U2. auto.
Qed.
(* the simplest case: head = head->next *)
Theorem C57_drop_head_refuted :
  run (mks [] []) [Make 1; Make 1; MoveAssign (0, [0]) (1, []); CopyAssign (0, []) (0, [0])] = UB /\
  run (mks [] []) [Make 1; Make 1; MoveAssign (0, [0]) (1, []); MoveAssign (0, []) (0, [0])] = UB.
Proof. split; vm_compute; reflexivity. Qed.

(* a list of two nodes with a second owner of the tail; the head is moved, reset; a cycle that is never freed *)
Definition sample : list op :=
  [Make 1; Make 1; CopyAssign (0, [0]) (1, []); Refcount (1, []); CopyAssign (0, []) (1, []); Refcount (0, []); NewMove (0, []); MoveAssign (1, [0]) (2, []); Reset (1, [])].
Definition end_graph : graph := mkg [Some None; Some None; Some None] [None; Some [Some 1]].
Ltac col := match goal with |- collects ?g _ => refine (gc_collects 3 g _); vm_compute; reflexivity end.
Ltac den := split; reflexivity.
Ltac cnt := match goal with |- ideal _ ?g _ _ (RN ?n) => change (RN n) with (RN (count g (Some 1))); eapply i_refcount; den end.
Lemma sample_ideal : ideal_run survives no_graph sample end_graph [RUnit; RUnit; RUnit; RN 2; RUnit; RN 2; RUnit; RUnit; RUnit].
Proof.
  unfold sample, no_graph.
  eapply ir_cons; [apply i_make|]. eapply ir_cons; [apply i_make|]. cbn [gvars gheap app length repeat].
  eapply ir_cons; [eapply i_copy_assign with (l := LFld 0 0) (r := LVar 1); [den|den|discriminate| |vm_compute; reflexivity|]|].
  { eexists. split; [col|]. vm_compute. discriminate. }
  { col. }
  eapply ir_cons; [cnt|].
  eapply ir_cons; [eapply i_copy_assign with (l := LVar 0) (r := LVar 1); [den|den|discriminate| |vm_compute; reflexivity|]|].
  { eexists. split; [col|]. vm_compute. discriminate. }
  { col. }
  eapply ir_cons; [cnt|].
  eapply ir_cons; [eapply i_new_move; [den|reflexivity]|].
  eapply ir_cons; [eapply i_move_assign with (l := LFld 1 0) (r := LVar 2); [den|den|discriminate| |]|].
  { eexists. split; [col|]. vm_compute. discriminate. }
  { col. }
  eapply ir_cons; [eapply i_reset; [den|]|]. { col. }
  apply ir_nil.
Qed.
Example C57_ex : exists st, run (mks [] []) sample = Ok (st, [RUnit; RUnit; RUnit; RN 2; RUnit; RN 2; RUnit; RUnit; RUnit]) /\
  heap st = [Freed; Live 1 [Some 1]].
Proof. eexists. split; vm_compute; reflexivity. Qed.
(* the hypotheses of the refutation hold for the head of a list *)
Example C57_ex_lost : exists g rs, ideal_run survives no_graph [Make 1; Make 0; MoveAssign (0, [0]) (1, [])] g rs /\
  denotes g (0, []) (LVar 0) (Some 0) /\ denotes g (0, [0]) (LFld 0 0) (Some 1) /\ ~ survives g (LVar 0) (LFld 0 0).
Proof.
  exists (mkg [Some (Some 0); Some None] [Some [Some 1]; Some []]), [RUnit; RUnit; RUnit]. split.
  { eapply ir_cons; [apply i_make|]. eapply ir_cons; [apply i_make|]. cbn [gvars gheap app length repeat].
    eapply ir_cons; [eapply i_move_assign with (l := LFld 0 0) (r := LVar 1); [den|den|discriminate| |]|apply ir_nil].
    { eexists. split; [col|]. vm_compute. discriminate. }
    { col. } }
  split; [den|]. split; [den|]. intros (g1 & K & X). assert (Y : collects (gwrite (mkg [Some (Some 0); Some None] [Some [Some 1]; Some []]) (LVar 0) None) (mkg [Some None; Some None] [None; None])) by col.
  rewrite (collects_unique _ _ K _ Y) in X. apply X. reflexivity.
Qed.

Print Assumptions C57_history_partial.
Print Assumptions C57_alive_iff_owned_partial.
Print Assumptions C57_collection_unique.
Print Assumptions C57_assignment_refuted.
Print Assumptions C57_drop_head_refuted.

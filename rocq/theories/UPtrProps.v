(* Theorems about unique_ptr and poly_unique_ptr (C58). *)
From Coq Require Import ZArith Arith List Bool Lia.
From Verif Require Import Base SPtrModel SPtrSpec SPtrProofs UPtrModel UPtrSpec UPtrProofs.
Import ListNotations.
Local Open Scope nat_scope.

(* Every history over any owned structure in which the right hand side of a move assignment is not destroyed
   together with the object the left hand side owned: no undefined behaviour (nothing is freed twice or used
   after it has been freed), results as for ideal ownership, exactly the ideal objects are alive, and none has
   more than one owner.
   Full statement: also p = move(p->next); refuted below. *)
Theorem C58_history_partial : forall os g rs,
  ideal_run survives no_graph (map shared_op os) g rs ->
  exists st, urun (mku [] []) os = Ok (st, rs) /\ urepresents st g /\ forall o, owners g o <= 1.
Proof.
  intros os g rs H. destruct (run_ok _ _ _ _ _ good_empty H) as (st & E & G).
  destruct (run_erase os (mks [] []) st rs) as (U & O); auto; [intros [|o] x X; discriminate|].
  exists (erase st). split; auto. split; [apply rep_erase; apply G|]. eapply ones_owners; eauto.
Qed.

(* dropping the head of a list by p = move(p->next) is undefined, for every p that is not null, in every structure *)
Theorem C58_drop_head_refuted : forall os g rs v is i l c q,
  ideal_run survives no_graph (map shared_op os) g rs ->
  denotes g (v, is) l (Some c) -> gread g (LFld c i) = Some q ->
  urun (mku [] []) (os ++ [UMoveAssign (v, is) (v, is ++ [i])]) = UB.
Proof.
  intros os g rs v is i l c q H D R. destruct (run_ok _ _ _ _ _ good_empty H) as (st & E & G).
  destruct (run_erase os (mks [] []) st rs) as (U & O); auto; [intros [|o] x X; discriminate|].
  pose proof (ones_owners _ _ G O) as OW. destruct (head_lost _ _ _ _ _ _ OW D R) as (N & X).
  assert (Df : denotes g (v, is ++ [i]) (LFld c i) q).
  { split; auto. cbn [fst snd]. rewrite gfollow_app. destruct D as (D1 & D2). cbn [fst snd] in D1. rewrite D1, D2. auto. }
  pose proof (ulost _ _ _ _ _ _ _ _ G O D Df N X) as Z. change (mku [] []) with (erase (mks [] [])). rewrite (urun_app _ _ _ _ _ U). cbn [urun]. rewrite Z. auto.
Qed.
(* more generally, whenever the right hand side does not survive *)
Theorem C58_assignment_refuted : forall os g rs e f l r p q,
  ideal_run survives no_graph (map shared_op os) g rs ->
  denotes g e l p -> denotes g f r q -> l <> r -> ~ survives g l r ->
  urun (mku [] []) (os ++ [UMoveAssign e f]) = UB.
Proof.
  intros os g rs e f l r p q H De Df N X. destruct (run_ok _ _ _ _ _ good_empty H) as (st & E & G).
  destruct (run_erase os (mks [] []) st rs) as (U & O); auto; [intros [|o] x Y; discriminate|].
  pose proof (ulost _ _ _ _ _ _ _ _ G O De Df N X) as Z. change (mku [] []) with (erase (mks [] [])). rewrite (urun_app _ _ _ _ _ U). cbn [urun]. rewrite Z. auto.
Qed.

(* a list of two nodes: the tail can be dropped through a temporary, the head is then freed *)
Definition sample : list uop :=
  [UMake 1; UMake 1; UMoveAssign (0, [0]) (1, []); UNewMove (0, [0]); UMoveAssign (0, []) (2, []); UNonNull (0, []); UEqual (0, []) (1, []); UMoveAssign (0, []) (0, [])].
Ltac col := match goal with |- collects ?g _ => refine (gc_collects 3 g _); vm_compute; reflexivity end.
Ltac den := split; reflexivity.
Lemma sample_ideal : ideal_run survives no_graph (map shared_op sample) (mkg [Some None; Some None; Some None] [None; None])
  [RUnit; RUnit; RUnit; RUnit; RUnit; RB true; RB false; RUnit].
Proof.
  unfold sample, no_graph. cbn [map shared_op].
  eapply ir_cons; [apply i_make|]. eapply ir_cons; [apply i_make|]. cbn [gvars gheap app length repeat].
  eapply ir_cons; [eapply i_move_assign with (l := LFld 0 0) (r := LVar 1); [den|den|discriminate| |]|].
  { eexists. split; [col|]. vm_compute. discriminate. }
  { col. }
  eapply ir_cons; [eapply i_new_move; [den|reflexivity]|].
  eapply ir_cons; [eapply i_move_assign with (l := LVar 0) (r := LVar 2); [den|den|discriminate| |]|].
  { eexists. split; [col|]. vm_compute. discriminate. }
  { col. }
  eapply ir_cons; [match goal with |- ideal _ ?g _ _ (RB true) => eapply (i_is_valid survives g _ (LVar 0) (Some 1)); den end|].
  eapply ir_cons; [match goal with |- ideal _ ?g _ _ (RB false) => eapply (i_equal survives g _ _ (LVar 0) (LVar 1) (Some 1) None); den end|].
  eapply ir_cons; [eapply i_self_move; [den|den|]|apply ir_nil]. col.
Qed.
Example C58_ex : urun (mku [] []) sample = Ok (mku [Some None; Some None; Some None] [UFreed; UFreed], [RUnit; RUnit; RUnit; RUnit; RUnit; RB true; RB false; RUnit]).
Proof. vm_compute. reflexivity. Qed.
Example C58_ex_refuted : urun (mku [] []) [UMake 1; UMake 1; UMoveAssign (0, [0]) (1, []); UMoveAssign (0, []) (0, [0])] = UB.
Proof. vm_compute. reflexivity. Qed.

Print Assumptions C58_history_partial.
Print Assumptions C58_drop_head_refuted.
Print Assumptions C58_assignment_refuted.

(* Theorems about optional (C54). *)
From Coq Require Import Arith List Bool Lia.
From Verif Require Import Base Tagged OptModel OptSpec OptProofs.
Import ListNotations.

(* Every history that is allowed for ideal optionals and in which no optional with a value is copy-assigned
   to itself or emplaced from its own value runs without undefined behaviour, gives the same results, and
   afterwards storage holds an object exactly where the ideal optional holds one: nothing is destroyed
   twice or left behind.
   Full statement: without the condition on aliasing; refuted below. *)
Theorem C54_history_partial : forall (A : Type) (eqA ltA : A -> A -> bool) os w rs,
  ideal_run eqA ltA [] os = Some (w, rs) -> forallb unaliased os = true ->
  run eqA ltA [] os = Ok (rep shape w, rs).
Proof. intros A eqA ltA os w rs H U. exact (run_ok eqA ltA os [] w rs H U). Qed.

(* assigning an optional with a value to itself loses the value, in every state *)
Theorem C54_self_assign_refuted : forall (A : Type) (eqA ltA : A -> A -> bool) (w : store A) k v, look w k = Some (Full v) ->
  ideal eqA ltA w (CopyAssign k k) = Some (w, RUnit) /\
  step eqA ltA (rep shape w) (CopyAssign k k) = Ok (rep shape (put w k Empty), RUnit) /\
  step eqA ltA (rep shape (put w k Empty)) (HasValue k) = Ok (rep shape (put w k Empty), RB false).
Proof.
  intros A eqA ltA w k v H. split; [cbn [ideal]; rewrite H, Nat.eqb_refl; auto|].
  pose proof (look_put_eq w k Empty _ H) as H'. split.
  - cbn [step]. unfold copy_assign. rewrite (null_ok _ _ _ H). cbn [bind].
    rewrite (var_Ok _ _ _ (rshape _ _ _ H')). cbn [bind]. rewrite Nat.eqb_refl. auto.
  - cbn [step]. rewrite (var_Ok _ _ _ (rshape _ _ _ H')). auto.
Qed.
(* an empty or moved-from one stays empty *)
Theorem C54_self_assign_empty : forall (A : Type) (eqA ltA : A -> A -> bool) (w : store A) k, look w k = Some Empty ->
  step eqA ltA (rep shape w) (CopyAssign k k) = Ok (rep shape w, RUnit).
Proof.
  intros A eqA ltA w k H. cbn [step]. unfold copy_assign. rewrite (null_ok _ _ _ H). cbn [bind].
  rewrite put_upd, upd_same by (apply look_nth; auto). rewrite (var_Ok _ _ _ (rshape _ _ _ H)). cbn [bind].
  rewrite Nat.eqb_refl. auto.
Qed.

(* o.emplace(o.value()), and assigning something inside the value (operator=(U&&)), reads a destroyed object *)
Theorem C54_emplace_own_refuted : forall (A : Type) (eqA ltA : A -> A -> bool) (w : store A) k v, look w k = Some (Full v) ->
  ideal eqA ltA w (Emplace k (Own k)) = Some (put w k (Full v), RUnit) /\
  step eqA ltA (rep shape w) (Emplace k (Own k)) = UB.
Proof.
  intros A eqA ltA w k v H. split; [cbn [ideal arg]; rewrite H; auto|].
  cbn [step]. unfold emplace. destruct (src_ok w (Own k) v) as (E & _); [cbn; rewrite H; auto|]. rewrite E. cbn [bind].
  pose proof (rshape _ _ _ H) as N. cbn [shape] in N. erewrite kill_full by exact N. cbn [bind].
  cbn [src_read]. unfold deref. erewrite var_Ok by (eapply nth_upd_eq; exact N). reflexivity.
Qed.

(* using the value of an empty optional is reported *)
Theorem C54_empty_value_reported : forall (A : Type) (eqA ltA : A -> A -> bool) (w : store A) k, look w k = Some Empty ->
  step eqA ltA (rep shape w) (Value k) = Contract /\ step eqA ltA (rep shape w) (MoveValue k) = Contract.
Proof.
  intros A eqA ltA w k H. pose proof (rshape _ _ _ H) as N. cbn [step]. unfold move_value, value_check.
  rewrite (var_Ok _ _ _ N). auto.
Qed.

(* the comparison operators are consistent: != is the negation of ==, and less is irreflexive and transitive
   if the comparison of the values is *)
Theorem C54_less_order : forall (A : Type) (eqA ltA : A -> A -> bool) (w : store A) i j k b,
  (forall x, ltA x x = false) -> (forall x y z, ltA x y = true -> ltA y z = true -> ltA x z = true) ->
  forallb (fun n => match look w n with Some Hollow | None => false | _ => true end) [i; j; k] = true ->
  less ltA (rep shape w) i i = Ok false /\
  (less ltA (rep shape w) i j = Ok true -> less ltA (rep shape w) j k = Ok true -> less ltA (rep shape w) i k = Ok true) /\
  (equal eqA (rep shape w) i j = Ok b -> not_equal eqA (rep shape w) i j = Ok (negb b)).
Proof.
  intros A eqA ltA w i j k b Irr Tr H. cbn [forallb] in H. rewrite andb_true_r in H.
  apply andb_true_iff in H. destruct H as (Hi & H). apply andb_true_iff in H. destruct H as (Hj & Hk).
  assert (L : forall a c, match look w a with Some Hollow | None => false | _ => true end = true ->
    match look w c with Some Hollow | None => false | _ => true end = true ->
    less ltA (rep shape w) a c = Ok (match look w a, look w c with
      | Some Empty, Some (Full _) => true | Some (Full x), Some (Full y) => ltA x y | _, _ => false end)).
  { intros a c Ha Hc. destruct (look w a) as [ca|] eqn:La; [|discriminate]. destruct (look w c) as [cc|] eqn:Lc; [|discriminate].
    destruct ca, cc; try discriminate;
      (assert (X : exists r, ideal eqA ltA w (Less a c) = Some (w, r)) by (cbn [ideal]; rewrite La, Lc; eexists; reflexivity);
       destruct X as (r & X); pose proof (step_ok eqA ltA w (Less a c) w r X eq_refl) as Y;
       cbn [ideal] in X; rewrite La, Lc in X; injection X as <-; cbn [step bool_] in Y;
       destruct (less ltA (rep shape w) a c); try discriminate; cbn [bind] in Y; injection Y as ->; reflexivity). }
  split; [|split].
  - rewrite L by auto. destruct (look w i) as [[| |]|]; auto. rewrite Irr. auto.
  - rewrite !L by auto. destruct (look w i) as [[| |]|], (look w j) as [[| |]|], (look w k) as [[| |]|]; try discriminate; auto.
    intros X Y. injection X as X. injection Y as Y. rewrite (Tr _ _ _ X Y). auto.
  - unfold equal, not_equal. destruct (var (rep shape w) i); cbn [bind]; try discriminate.
    destruct (var (rep shape w) j); cbn [bind]; try discriminate. destruct (has a && has a0).
    + destruct (deref (rep shape w) i); cbn [bind]; try discriminate. destruct (deref (rep shape w) j); cbn [bind]; try discriminate.
      intro E. injection E as <-. auto.
    + intro E. injection E as <-. auto.
Qed.

(* non-vacuity: values, copies, moves, self-move, own value through a temporary, destruction of everything *)
Definition sample : list (op nat) :=
  [NewValue (Ext 3); New; NewCopy 0; MoveAssign 1 0; HasValue 0; Value 1; Emplace 0 (Ext 7); AssignT 0 (Own 0); Value 0;
   Equal 1 2; Transform 2 S; NotEqual 1 2; Less 1 2; NewMove 2; HasValue 2; MoveValue 3; Emplace 3 (Own 1); MoveAssign 1 1;
   ValueOr 1 9; Destroy 0; Destroy 1; Destroy 2; Destroy 3].
Example C54_ex : run Nat.eqb Nat.ltb [] sample = Ok ([None; None; None; None],
  [RUnit; RUnit; RUnit; RUnit; RB false; RV 3; RUnit; RUnit; RV 7; RB true; RUnit; RB true; RB true; RUnit; RB false; RV 4; RUnit; RUnit;
   RV 9; RUnit; RUnit; RUnit; RUnit]) /\
  ideal_run Nat.eqb Nat.ltb [] sample <> None /\ forallb unaliased sample = true.
Proof. split; [|split]; [reflexivity|discriminate|reflexivity]. Qed.
Example C54_self_ex : run Nat.eqb Nat.ltb [] [NewValue (Ext 3); CopyAssign 0 0; HasValue 0] =
  Ok ([Some (mko false TRaw)], [RUnit; RUnit; RB false]).
Proof. reflexivity. Qed.

Print Assumptions C54_history_partial.
Print Assumptions C54_self_assign_refuted.
Print Assumptions C54_self_assign_empty.
Print Assumptions C54_emplace_own_refuted.
Print Assumptions C54_empty_value_reported.
Print Assumptions C54_less_order.

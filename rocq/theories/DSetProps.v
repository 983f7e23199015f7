(* Property theorem C24: src/clean-core/experimental/disjoint_set.hh. *)
From Coq Require Import NArith Arith List Bool Lia.
From Verif Require Import Base DSetModel DSetSpec DSetProofs.
Import ListNotations.

(* Every history on a freshly initialised set: each answer is the one given by the equivalence closure of the merges made
   before it; no undefined behaviour, and at most 31 nested calls of get_representative; a contract violation happens only
   for an element outside the range or an argument that had to be a representative. *)
Theorem C24_history : forall d0 size os, (size < 2 ^ 31)%N ->
  match run (init d0 size) os with
  | Ok (d, rs) => Forall (in_range (N.to_nat size)) os /\ answers (N.to_nat size) [] os rs
  | Contract => ~ (Forall (in_range (N.to_nat size)) os /\ Forall by_element os)
  | _ => False
  end.
Proof.
  intros d0 size os H. pose proof (run_spec os _ _ _ _ (init_inv d0 size H)) as R.
  destruct (run (init d0 size) os) as [[d rs]| | |]; auto. tauto.
Qed.

(* after any history, representatives coincide exactly for connected elements, is_representative and
   size_of_set_by_representative agree with them, and asking again gives the same representative *)
Theorem C24_representatives : forall d0 size os d rs, (size < 2 ^ 31)%N -> run (init d0 size) os = Ok (d, rs) ->
  exists rep : nat -> nat,
    (forall a b, rep a = rep b <-> conn (merges os) a b) /\
    forall a, a < N.to_nat size -> rep (rep a) = rep a /\
      exists d', get_representative d a = Ok (d', rep a) /\
        (forall b, b < N.to_nat size -> exists d2, get_representative d' b = Ok (d2, rep b)) /\
        (exists d2, is_representative d a = Ok (d2, rep a =? a)) /\
        (exists d2 s, size_of_set_by_representative d (rep a) = Ok (d2, s) /\ class_size (N.to_nat size) (merges os) a s).
Proof.
  intros d0 size os d rs H E. pose proof (run_spec os _ _ _ _ (init_inv d0 size H)) as R. rewrite E in R.
  destruct R as [_ [_ [lab I]]]. exists lab. split; [apply (i_conn _ _ _ _ I)|]. intros a La.
  split; [eapply lab_lab; eauto|]. destruct (rep_spec _ _ _ _ _ I La) as [d' [E1 I1]]. exists d'. split; auto. split; [|split].
  - intros b Lb. destruct (rep_spec _ _ _ _ _ I1 Lb) as [d2 [E2 _]]. eauto.
  - unfold is_representative. rewrite E1. cbn [bind]. eauto.
  - pose proof (lab_lt _ _ _ _ _ I La) as L2. destruct (rep_spec _ _ _ _ _ I L2) as [d2 [E2 I2]].
    unfold size_of_set_by_representative, is_representative. rewrite E2. cbn [bind]. rewrite (lab_lab _ _ _ _ a I), Nat.eqb_refl. cbn [contract bind].
    rewrite at_Ok by (rewrite (i_num _ _ _ _ I2); auto). cbn [bind esize]. eexists d2, _. split; eauto.
    eapply class_of_lab; eauto.
Qed.

(* a history of element operations inside the range never stops *)
Theorem C24_total : forall d0 size os, (size < 2 ^ 31)%N -> Forall (in_range (N.to_nat size)) os -> Forall by_element os ->
  exists d rs, run (init d0 size) os = Ok (d, rs).
Proof.
  intros d0 size os H F1 F2. pose proof (run_spec os _ _ _ _ (init_inv d0 size H)) as R.
  destruct (run (init d0 size) os) as [[d rs]| | |]; [eauto|tauto..].
Qed.

(* from 2^31 on, init sets nothing and all elements share representative 0 although nothing was merged *)
Theorem C24_oversized_init : forall size, (2 ^ 31 <= size < 2 ^ 32)%N ->
  exists d, are_in_same_set (init empty_ds size) 0 1 = Ok (d, true) /\ number_of_partitions (init empty_ds size) = size.
Proof.
  intros size H. exists (set_entry (init empty_ds size) 1 (mkEn 0 0)). split; [|reflexivity].
  assert (E : entries (init empty_ds size) = repeat (mkEn 0 0) (N.to_nat size)).
  { unfold init. assert (K : init_count size = 0). { unfold init_count. rewrite wrap_small by lia. destruct (N.ltb_spec size (2 ^ 31)); [lia|auto]. }
    rewrite K. cbn [Nat.min seq map app skipn]. unfold empty_ds. cbn [entries length]. rewrite firstn_nil, Nat.sub_0_r. reflexivity. }
  assert (A : forall i, i < 2 -> at_ (init empty_ds size) i = Ok (mkEn 0 0)).
  { intros i Hi. unfold at_. rewrite E. rewrite (nth_error_nth' _ (mkEn 0 0)) by (rewrite repeat_length; lia).
    rewrite nth_repeat. auto. }
  assert (G0 : forall f, get_rep (S f) (init empty_ds size) 0 = Ok (init empty_ds size, 0)).
  { intro f. cbn [get_rep]. rewrite A by lia. reflexivity. }
  unfold are_in_same_set, get_representative. rewrite (G0 30). cbn [bind].
  change (get_rep 31 (init empty_ds size) 1) with (let! ee := at_ (init empty_ds size) 1 in
    if parent ee =? 1 then Ok (init empty_ds size, parent ee) else
    let! (d, r) := get_rep (S 29) (init empty_ds size) (parent ee) in
    let! ee := at_ d 1 in Ok (set_entry d 1 (mkEn r (esize ee)), r)).
  rewrite A by lia. cbn [bind parent Nat.eqb]. rewrite G0. cbn [bind]. rewrite A by lia. reflexivity.
Qed.

Definition sample_ops : list op :=
  [MergeByElement 0 1; MergeByElement 2 3; Partitions; MergeByElement 1 3; Same 0 2; Same 0 4; SizeByElement 3;
   MergeByElement 4 5; MergeByElement 5 2; MergeByElement 4 3; Rep 5; SizeByElement 0; SizeByRep 0; Partitions; IsRep 0; IsRep 3].
Example C24_ex : Forall (in_range 7) sample_ops /\
  match run (init empty_ds 7) sample_ops with
  | Ok (_, rs) => rs = [RBool true; RBool true; RNum 5; RBool true; RBool true; RBool false; RElem 4; RBool true; RBool true;
      RBool false; RElem 0; RElem 6; RElem 6; RNum 2; RBool true; RBool false]
  | _ => False
  end /\ run (init empty_ds 7) [Same 0 7] = Contract /\ run (init empty_ds 7) [MergeByElement 0 1; SizeByRep 1] = Contract.
Proof. vm_compute. repeat split; repeat constructor. Qed.

Print Assumptions C24_history.
Print Assumptions C24_representatives.
Print Assumptions C24_total.
Print Assumptions C24_oversized_init.

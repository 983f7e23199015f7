(* C30: capped_vector *)
From Coq Require Import NArith Arith List Bool Lia.
From Verif Require Import Base Cells VecModel VecSpec VecProofs CappedModel CappedSpec CappedProofs.
Import ListNotations.
Open Scope nat_scope.

(* what an observer can see of a capped_vector that stands for the sequence l *)
Record cagrees {A} (cap al : N) (v : cvec A) (l : list A) : Prop := {
  ca_size : csize v = N.of_nat (length l);
  ca_empty : cempty v = match l with [] => true | _ => false end;
  ca_full : full cap v = true <-> length l = N.to_nat cap;
  ca_index : forall i, cindex v i = match nth_error l (N.to_nat i) with Some x => Ok x | None => Contract end;
  ca_values : cvalues v = Ok l;
  ca_equal : forall eqb rhs, cequal eqb v rhs = Ok (if length l =? length rhs then forallb (fun p => eqb (fst p) (snd p)) (combine l rhs) else false);
  ca_destructor : cdestructor v = Ok tt }.

Lemma crep_agrees : forall A cap al (v : cvec A) l, (cap < 2 ^ 64)%N -> crep cap v l -> cagrees cap al v l.
Proof.
  intros A cap al v l C R. pose proof (c_size _ _ _ R) as S. constructor; auto.
  - unfold cempty. rewrite S. destruct l; auto.
  - unfold full. rewrite S, N.eqb_eq. lia.
  - intros i. apply (cindex_spec cap); auto.
  - eapply cvalues_spec; eauto.
  - intros eqb rhs. unfold cequal. rewrite S. destruct (Nat.eqb_spec (length l) (length rhs)) as [e|e].
    + rewrite (proj2 (N.eqb_eq _ _)) by lia. rewrite (c_cells _ _ _ R).
      pose proof (equal_loop_spec eqb rhs l [] (raw_storage (N.to_nat cap - length l)) 0 eq_refl e) as E. exact E.
    + rewrite (proj2 (N.eqb_neq _ _)) by lia. auto.
  - eapply cdestructor_spec; eauto.
Qed.

(* C30, for every capacity below 2^64 and every alignment (which select the width of the size field), and every history
   over any number of capped vectors without moves: either the ideal bounded sequences refuse an operation (bad index,
   empty, overflow) and the run stops with a contract violation at exactly that operation; or all results are the ideal
   ones, the survivors agree with their ideal sequences, and their destructors destroy exactly their live elements. *)
Theorem C30_history : forall A cap al (os : list (cwop A)), (cap < 2 ^ 64)%N -> bounded_wf (N.to_nat cap) [] os ->
  match bounded_run (N.to_nat cap) [] os with
  | Some (iw, rs) => exists w, cwrun cap al [] os = Ok (w, rs) /\
      Forall2 (fun ov ol => match ov, ol with Some v, Some l => cagrees cap al v l | None, None => True | _, _ => False end) w iw
  | None => cwrun cap al [] os = Contract
  end.
Proof.
  intros A cap al os C W. pose proof (cwrun_spec cap al C os [] [] ltac:(constructor) W) as H.
  destruct (bounded_run _ [] os) as [[iw rs]|]; auto. destruct H as [w [E R]]. exists w. split; auto.
  clear - R C. induction R; constructor; auto. destruct x, y; cbn in *; auto. apply crep_agrees; auto.
Qed.

Definition cdemo : list (cwop nat) :=
  [CNewFrom [1; 2; 3]; COn 0 (CPushBackOf 1); CCopyNew 0; COn 0 (CRemoveAt 0); COn 1 (CRemoveAtUnordered 0); CNew; CCopyAssign 2 1;
   COn 2 (CResize 2 9); CCopyAssign 0 0; COn 0 CBack; COn 2 (CGet 1); CDestroy 1].
Example C30_history_ex : bounded_wf (N.to_nat 4) [] cdemo /\
  exists iw rs, bounded_run (N.to_nat 4) [] cdemo = Some (iw, rs) /\ iw = [Some [2; 3; 2]; None; Some [2; 2]] /\ In (RVal 2) rs /\
    exists w, cwrun 4 1 [] cdemo = Ok (w, rs).
Proof.
  split.
  - vm_compute. repeat (split; [first [exact I | eexists; reflexivity | split; eexists; reflexivity]|]). exact I.
  - eexists _, _. split; [vm_compute; reflexivity|]. split; [reflexivity|]. split; [cbn; auto 20|]. eexists. vm_compute. reflexivity.
Qed.
Example C30_overflow_ex : cwrun 2 1 [] [CNewFrom [1; 2]; COn 0 (CPushBack 3)] = Contract /\
  bounded_run 2 [] [CNewFrom [1; 2]; COn 0 (CPushBack 3)] = None.
Proof. split; vm_compute; reflexivity. Qed.

(* The last clause of C30 is false for moves: the move constructor (and move assignment) set the source's size to 0 but
   leave its moved-from elements alive.  They are never destroyed: when the source is destroyed, live elements remain in
   the storage, and the next push_back constructs over a live element. *)
Theorem C30_moved_from_refuted : exists (v v' src : cvec nat),
  cmake_from 4 1 [1; 2] = Ok v /\ cmove_ctor 4 1 v = Ok (v', src) /\
  csize src = 0%N /\ cdestructor src = UB /\ cpush 4 1 src (Val 7) = UB.
Proof. eexists _, _, _. split; [vm_compute; reflexivity|]. split; [vm_compute; reflexivity|]. repeat split; vm_compute; reflexivity. Qed.
(* for an arbitrary non-empty source *)
Theorem C30_moved_from_leaks : forall A cap al (v : cvec A) l, (cap < 2 ^ 64)%N -> crep cap v l -> l <> [] ->
  exists v' src, cmove_ctor cap al v = Ok (v', src) /\ cdestructor src = UB.
Proof.
  intros A cap al v l C R N. destruct (cmove_ctor_spec cap al C v l R) as [v' [src [E [_ [S D]]]]]. exists v', src. split; auto.
  unfold cdestructor, cdestroy_to. rewrite S, D. cbn. destruct l; [contradiction|]. reflexivity.
Qed.
(* missing: destruction of the moved-from elements; the target is a correct bounded sequence and the source reports empty *)
Theorem C30_move_partial : forall A cap al (v : cvec A) l, (cap < 2 ^ 64)%N -> crep cap v l ->
  exists v' src, cmove_ctor cap al v = Ok (v', src) /\ cagrees cap al v' l /\ cempty src = true.
Proof.
  intros A cap al v l C R. destruct (cmove_ctor_spec cap al C v l R) as [v' [src [E [R' [S D]]]]]. exists v', src. split; auto.
  split; [apply crep_agrees; auto|]. unfold cempty. rewrite S. auto.
Qed.
Example C30_move_ex : exists v, cmake_from 4 1 [1; 2] = Ok v /\ crep 4 v [1; 2].
Proof. eexists. split; [vm_compute; reflexivity|]. constructor; [vm_compute; reflexivity|vm_compute; lia|vm_compute; reflexivity]. Qed.

Print Assumptions C30_history.
Print Assumptions C30_moved_from_refuted.
Print Assumptions C30_moved_from_leaks.
Print Assumptions C30_move_partial.

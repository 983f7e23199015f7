(* Property theorems C16, C17: src/clean-core/forward_list.hh. *)
From Coq Require Import List Arith.
From Verif Require Import Base FListModel FListSpec FListProofs.
Import ListNotations.

(* C16: any history over a pool of lists without self-assignment.  When no precondition is violated the popped
   values, sizes, fronts and contents are those of the ideal sequences, and after all destructors no node is left;
   a double free or an access to a freed node would be UB. *)
Theorem C16_history : forall A (os : list (op A)), Forall not_self os ->
  match ideal_run [] os with
  | Ok (ls, popped) => exists p, run pinit os = Ok (p, popped) /\ length (pfirst p) = length ls /\
      (forall j l, nth_error ls j = Some l -> exists f, nth_error (pfirst p) j = Some f /\
         size (pheap p) f = Ok (length l) /\ contents (pheap p) f = Ok l /\
         empty f = (match l with [] => true | _ => false end) /\
         front (pheap p) f = (match l with v :: _ => Ok v | [] => Contract end)) /\
      exists h, clear_all (pheap p) (pfirst p) = Ok h /\ leak_free h = true
  | Contract => run pinit os = Contract
  | UB => run pinit os = UB
  | OutOfFuel => False
  end.
Proof. exact @history. Qed.

Definition sample_ops : list (op nat) :=
  [New; EmplaceFront 0 1; EmplaceFront 0 2; EmplaceFront 0 3; NewCopy 0; EraseAfter 0 0; PopFront 1; New;
   CopyAssign 2 1; PushOf 2 0 1; MoveAssign 0 2; NewMove 1; Clear 1; EmplaceFront 2 9].
Example C16_ex : Forall not_self sample_ops /\
  ideal_run [] sample_ops = Ok ([[1; 2; 1]; []; [9]; [2; 1]], [3]) /\
  match run pinit sample_ops with Ok (p, _) => length (pheap p) = 10 | _ => False end.
Proof.
  split; [|vm_compute; auto]. unfold sample_ops. repeat constructor; cbn; auto.
Qed.

(* C17 is false: self-assignment (copy or move) empties the list *)
Theorem C17_self_copy_assign_refuted : exists (os : list (op nat)) p vs p',
  run pinit os = Ok (p, vs) /\ contents (pheap p) (nth 0 (pfirst p) None) = Ok [1; 2] /\
  step p (CopyAssign 0 0) = Ok (p', None) /\ contents (pheap p') (nth 0 (pfirst p') None) = Ok [].
Proof.
  exists [New; EmplaceFront 0 2; EmplaceFront 0 1]. eexists _, _, _.
  split; [vm_compute; reflexivity|]. split; [vm_compute; reflexivity|]. split; vm_compute; reflexivity.
Qed.

Theorem C17_self_move_assign_refuted : exists (os : list (op nat)) p vs p',
  run pinit os = Ok (p, vs) /\ contents (pheap p) (nth 0 (pfirst p) None) = Ok [1; 2] /\
  step p (MoveAssign 0 0) = Ok (p', None) /\ contents (pheap p') (nth 0 (pfirst p') None) = Ok [].
Proof.
  exists [New; EmplaceFront 0 2; EmplaceFront 0 1]. eexists _, _, _.
  split; [vm_compute; reflexivity|]. split; [vm_compute; reflexivity|]. split; vm_compute; reflexivity.
Qed.

(* what holds: self-assignment keeps the contents exactly of the empty list; it always yields a
   valid empty list and touches no freed node *)
Theorem C17_self_assign_partial : forall A (os : list (op A)) ls vs j l, Forall not_self os ->
  ideal_run [] os = Ok (ls, vs) -> nth_error ls j = Some l ->
  exists p p1 p2, run pinit os = Ok (p, vs) /\
    step p (CopyAssign j j) = Ok (p1, None) /\ step p (MoveAssign j j) = Ok (p2, None) /\
    (exists f, nth_error (pfirst p1) j = Some f /\ contents (pheap p1) f = Ok []) /\
    (exists f, nth_error (pfirst p2) j = Some f /\ contents (pheap p2) f = Ok []).
Proof.
  intros A os ls vs j l NS E Ej. pose proof (run_spec os _ _ _ inv_init NS) as P. rewrite E in P.
  destruct P as [p [ad [Er I]]]. destruct (self_assign _ _ _ _ _ I Ej) as [p1 [p2 [ad1 [ad2 [E1 [I1 [E2 I2]]]]]]].
  exists p, p1, p2. split; auto. split; auto. split; auto.
  assert (H : nth_error (upd ls j []) j = Some []).
  { rewrite upd_nth by (apply nth_error_Some; congruence). rewrite Nat.eqb_refl. reflexivity. }
  destruct (observe _ _ _ _ _ I1 H) as [f1 [F1 [_ [C1 _]]]]. destruct (observe _ _ _ _ _ I2 H) as [f2 [F2 [_ [C2 _]]]].
  eauto 10.
Qed.

Print Assumptions C16_history.
Print Assumptions C17_self_copy_assign_refuted.
Print Assumptions C17_self_move_assign_refuted.
Print Assumptions C17_self_assign_partial.

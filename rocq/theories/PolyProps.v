(* C146: poly_unique_ptr with class hierarchies, conversions and raw pointers: objects live as long as they are owned or loose and
   are destroyed once, with the destructor of their own class. *)
From Coq Require Import Arith List Bool Lia.
From Verif Require Import Base PolyModel PolySpec PolyProofs.
Import ListNotations.

(* partial: for hierarchies in which every class with derived classes has a virtual destructor *)
Theorem C146_history_partial : forall base virt os i rs,
  hierarchy base -> (forall T U, base T U = true -> T <> U -> virt T = true) -> irun base empty_ideal os = Some (i, rs) ->
  exists st, run virt empty_state os = Ok (st, rs) /\
    (forall o D, nth_error (heap st) o = Some (Some D) <-> nth_error (cls i) o = Some D /\ pl i o <> Gone) /\
    (forall v o, (exists T, nth_error (vars st) v = Some (Some (mkvar T (Some o)))) <-> pl i o = Var v) /\
    NoDup (map fst (dtors st)) /\ forall o D, In (o, D) (dtors st) <-> nth_error (cls i) o = Some D /\ pl i o = Gone.
Proof.
  intros base virt os i rs HI HV.
  assert (G : forall os st i0 i rs, rep base st i0 -> irun base i0 os = Some (i, rs) -> exists st', run virt st os = Ok (st', rs) /\ rep base st' i).
  { clear os i rs. intros os. induction os as [|o os IH]; intros st i0 i rs R; cbn.
    - intros E. injection E as <- <-. eauto.
    - destruct (istep base i0 o) as [[i1 r]|] eqn:E1; [|discriminate]. destruct (irun base i1 os) as [[i2 rs2]|] eqn:E2; [|discriminate]. intros E. injection E as <- <-.
      destruct (step_rep base virt HI HV st i0 o i1 r R E1) as [st1 [-> R1]]. cbn. destruct (IH st1 i1 i2 rs2 R1 E2) as [st2 [-> R2]]. cbn. eauto. }
  intros E. destruct (G os empty_state empty_ideal i rs (rep_empty base) E) as [st [E' R]]. exists st. split; [exact E'|]. split; [|split; [|split]].
  - intros o D. pose proof (r_heap _ _ _ R o) as H. pose proof (r_hlen _ _ _ R) as L. unfold gh in H. split.
    + intros Q. rewrite Q in H. destruct (pl i o) eqn:P; try discriminate; split; congruence.
    + intros [Q N]. assert (o < length (heap st)) as Lo by (rewrite L; apply nth_error_Some; congruence). destruct (nth_error (heap st) o) as [x|] eqn:X; [|apply nth_error_None in X; lia].
      destruct (pl i o); congruence.
  - intros v o. pose proof (r_vars _ _ _ R v) as V. unfold var_ok, gv in V. split.
    + intros [T Q]. rewrite Q in V. destruct (static i v); [|contradiction]. now apply V.
    + intros P. destruct (nth_error (vars st) v) as [[[T p]|]|]; destruct (static i v) as [T'|]; try contradiction; try (destruct (V o P)).
      destruct V as [_ [V _]]. apply V in P. cbn in P. subst p. eauto.
  - apply (r_once _ _ _ R).
  - apply (r_log _ _ _ R).
Qed.

(* no static_assert or run-time check asks for the virtual destructor; any conversion without one that still owns at its end is
   undefined, whether the pointer is destroyed, reset or assigned *)
Theorem C146_virtual_refuted : forall base virt T U, hierarchy base -> base T U = true -> T <> U -> virt T = false ->
  (exists i, irun base empty_ideal [Make U; Convert T 0; Destroy 1] = Some (i, [true; true; true])) /\
  run virt empty_state [Make U; Convert T 0; Destroy 1] = UB /\
  run virt empty_state [Make U; Convert T 0; Reset 1] = UB /\
  run virt empty_state [Make U; Convert T 0; New T; Assign 1 2] = UB /\
  run virt empty_state [Make U; New T; Assign 1 0; Destroy 1] = UB.
Proof.
  intros base virt T U HI B N V. cbn. rewrite B. cbn. split; [eauto|]. destruct (Nat.eqb_spec U T) as [->|]; [contradiction|]. rewrite V. cbn. auto.
Qed.

(* giving a pointer its own object is a contract violation; a second owner of the object, made through get, is not noticed: the
   second destructor finds the object gone *)
Theorem C146_self_reset : forall virt T, run virt empty_state [Make T; Get 0; ResetTo 0 0] = Contract.
Proof. intros virt T. reflexivity. Qed.
Theorem C146_two_owners : forall virt T,
  run virt empty_state [Make T; Get 0; New T; ResetTo 1 0; Destroy 0; Destroy 1] = UB /\ forall base, irun base empty_ideal [Make T; Get 0; New T; ResetTo 1 0] = None.
Proof.
  intros virt T. split; [cbn; rewrite Nat.eqb_refl; reflexivity|]. intros base. cbn. now destruct (base T T).
Qed.

(* class 0 is the base of 1 and 2, class 1 the base of 2 *)
Example ex_hierarchy : hierarchy Nat.leb.
Proof. split; [intros; apply Nat.leb_refl|]. intros T U D H1 H2. apply Nat.leb_le in H1, H2. apply Nat.leb_le. lia. Qed.
Example ex_history : exists i st,
  irun Nat.leb empty_ideal [Make 2; Convert 1 0; NotNull 0; NotNull 1; Release 1; New 0; NewRaw 1; ResetTo 2 0; ResetTo 2 1; Get 2; Assign 2 2; NotNull 2; Make 1; Destroy 3; Destroy 2] =
    Some (i, [true; true; false; true; true; true; true; true; true; true; true; false; true; true; true]) /\
  run (fun _ => true) empty_state [Make 2; Convert 1 0; NotNull 0; NotNull 1; Release 1; New 0; NewRaw 1; ResetTo 2 0; ResetTo 2 1; Get 2; Assign 2 2; NotNull 2; Make 1; Destroy 3; Destroy 2] =
    Ok (st, [true; true; false; true; true; true; true; true; true; true; true; false; true; true; true]) /\
  dtors st = [(0, 2); (1, 1); (2, 1)] /\ heap st = [None; None; None].
Proof. do 2 eexists. split; [vm_compute; reflexivity|]. split; [vm_compute; reflexivity|]. split; reflexivity. Qed.
Example ex_live : exists st, run (fun _ => true) empty_state [Make 2; Convert 0 0; Make 1; Release 2] = Ok (st, [true; true; true; true]) /\
  dtors st = [] /\ heap st = [Some 2; Some 1] /\ nth_error (vars st) 1 = Some (Some (mkvar 0 (Some 0))) /\ raws st = [(1, Some 1)].
Proof. eexists. split; [vm_compute; reflexivity|]. repeat split. Qed.

Print Assumptions C146_history_partial.
Print Assumptions C146_virtual_refuted.
Print Assumptions C146_self_reset.
Print Assumptions C146_two_owners.

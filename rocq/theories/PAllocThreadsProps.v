(* C94: what cc::alloc keeps when threads end.
   allocate.hh:75-133 (the pools are thread_local and have no destructor: their free lists and arrays are lost with the thread). *)
From Coq Require Import NArith List Arith Lia Permutation.
From Verif Require Import Base PAllocModel PAllocSpec PAllocProofs PAllocProps.
Import ListNotations.

(* thread i allocates one object, frees it itself and ends; then thread i + 1 starts *)
Definition short_thread (i : nat) : list op := [Alloc i; Free i (i, 0)].
Definition one_kind (_ : nat) := 0.

(* n threads, one after the other, each of them balanced: one object alive at most, none at the end, but n arrays *)
Theorem C94_threads_refuted : forall B n, 0 < B -> exists w,
  always (fun _ => B) one_kind (fun w => length (live w) <= 1) (start (fun _ => B) one_kind n) (flat_map short_thread (seq 0 n)) w /\
  live w = [] /\ length (arrays w) = n.
Proof.
  intros B n HB.
  assert (G : forall m, m <= n -> exists w fss,
    always (fun _ => B) one_kind (fun w => length (live w) <= 1) (start (fun _ => B) one_kind n) (flat_map short_thread (seq 0 m)) w /\
    inv (fun _ => B) one_kind w fss /\ live w = [] /\ length (arrays w) = m /\ forall i, m <= i < n -> nth_error fss i = Some []).
  { induction m as [|m IH]; intros Hm.
    - exists (start (fun _ => B) one_kind n), (repeat [] n). split; [|split; [apply start_inv|repeat split; auto]].
      + cbn. split; auto.
      + intros i Hi. rewrite nth_error_repeat; auto. lia.
    - destruct IH as [w [fss [A [I [L [E F]]]]]]; [lia|].
      destruct (step_alloc (fun _ => B) one_kind (fun _ => HB) w fss m [] I (F m ltac:(lia))) as [w1 [f1 [p [S1 [S2 [S3 [S4 [S5 [S6 [S7 [-> [S8 S9]]]]]]]]]]]].
      rewrite E in *.
      destruct (step_free (fun _ => B) one_kind (fun _ => HB) w1 f1 m _ (m, 0) S2 S9) as [w2 [f2 [T1 [T2 [T3 [T4 [T5 T6]]]]]]]; [rewrite S3; cbn; auto|exact S5|].
      assert (L2 : live w2 = []). { rewrite S3, L in T3. apply Permutation_cons_inv in T3. symmetry in T3. now apply Permutation_nil in T3. }
      exists w2, f2. split; [|split; [exact T2|split; [exact L2|split]]].
      + rewrite seq_S, flat_map_app. eapply always_app; [exact A|]. cbn [flat_map short_thread app Nat.add].
        split; [rewrite L; cbn; lia|]. exists w1. split; auto. split; [rewrite S3, L; cbn; lia|]. exists w2. split; auto. split; [rewrite L2; cbn; lia|reflexivity].
      + rewrite T4, S8, app_length. cbn. lia.
      + intros i Hi. rewrite T6, S7 by lia. apply F. lia. }
  destruct (G n (le_n _)) as [w [fss [A [I [L [E F]]]]]]. eauto.
Qed.

(* the same objects in one thread: one array *)
Example C94_threads : exists w, always (fun _ => 4) one_kind (fun w => length (live w) <= 1) (start (fun _ => 4) one_kind 1) [Alloc 0; Free 0 (0, 0); Alloc 0; Free 0 (0, 0); Alloc 0; Free 0 (0, 0)] w /\ live w = [] /\ length (arrays w) = 1.
Proof.
  eexists. split; [|split].
  - repeat (split; [vm_compute; lia|eexists; split; [vm_compute; reflexivity|]]). split; [vm_compute; lia|reflexivity].
  - reflexivity.
  - reflexivity.
Qed.

Print Assumptions C94_threads_refuted.

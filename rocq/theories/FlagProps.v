(* Theorems about flags (C61). *)
From Coq Require Import NArith Arith List Bool String Sorting.Sorted Lia.
From Verif Require Import Base BitsModel BitsSpec FlagModel FlagSpec FlagProofs.
Import ListNotations.
Local Open Scope list_scope.
Local Open Scope N_scope.

(* fits w e: enumerators representable in the storage type, below 31 if that has 64 bits.
   Full statement for the theorems below: all enumerators up to 63 for 64 bit storage; refuted below. *)

(* every combination of constructors and operators is the combination of sets *)
Theorem C61_sets_partial : forall w x, any_width w -> Forall (fits w) (enumerators x) -> exists v, eval w x = Ok v /\ represents w v (member x).
Proof. exact eval_ok. Qed.
Theorem C61_has_partial : forall w v s e, any_width w -> represents w v s -> fits w e -> exists b, has w v e = Ok b /\ (b = true <-> s e).
Proof. exact (fun w v s e W => has_ok w W v s e). Qed.
Theorem C61_queries : forall w v f s t, any_width w -> represents w v s -> represents w f t ->
  (has_any v = true <-> exists e, s e) /\
  (has_any_of v f = true <-> exists e, s e /\ t e) /\
  (has_all_of v f = true <-> forall e, t e -> s e) /\
  (eq v f = true <-> forall e, s e <-> t e).
Proof.
  intros w v f s t W R T. split; [eapply has_any_ok; eauto|]. split; [eapply has_any_of_ok; eauto|]. split; [eapply has_all_of_ok; eauto|eapply eq_ok; eauto].
Qed.
Theorem C61_eq_enum_partial : forall w v s e, any_width w -> represents w v s -> fits w e ->
  exists b, eq_enum w v e = Ok b /\ (b = true <-> forall f, s f <-> f = e).
Proof. exact (fun w v s e W => eq_enum_ok w W v s e). Qed.
Theorem C61_single : forall w v s, any_width w -> represents w v s ->
  (is_single v = true <-> exists e, forall f, s f <-> f = e) /\
  (forall e, (forall f, s f <-> f = e) -> single w v = Ok e) /\
  (is_single v = false -> single w v = Contract).
Proof. exact (fun w v s W => single_ok w v s). Qed.
(* iteration yields each enumerator once in ascending order *)
Theorem C61_iterate_partial : forall w v s, any_width w -> represents w v s -> (w <= 32 \/ v < 2 ^ 31) -> exists l, iterate w v = Ok l /\ lists l s.
Proof. exact (fun w v s W => iterate_ok w W v s). Qed.
Theorem C61_to_string_partial : forall name w bits v s l, any_width w -> bits <= w -> w <= 32 -> represents w v s -> (forall e, s e -> e < bits) ->
  lists l s -> to_string name w bits v = Ok (braced (map name l)).
Proof. exact to_string_ok. Qed.

(* 64 bit storage: enumerators from 32 on are undefined *)
Theorem C61_shift_refuted : forall v e, 32 <= e < 64 -> eval 64 (FMake e []) = UB /\ has 64 v e = UB.
Proof.
  intros v e H. assert (E : stored 64 e = UB).
  { unfold stored. rewrite wrap_small by (apply (N.lt_trans _ 64); [lia|reflexivity]). destruct (N.ltb_spec e 31); [lia|]. destruct (N.eqb_spec e 31); [lia|auto]. }
  unfold has. cbn [eval]. rewrite E. auto.
Qed.
(* enumerator 31 is the set of all enumerators from 31 on; iterating over it is undefined *)
Theorem C61_31_refuted :
  exists v, eval 64 (FMake 31 []) = Ok v /\ (forall e, N.testbit v e = true <-> 31 <= e < 64) /\ iterate 64 v = UB.
Proof.
  exists (2 ^ 64 - 2 ^ 31). split; [reflexivity|]. split; [|vm_compute; reflexivity].
  intro e. destruct (N.lt_ge_cases e 64) as [L|L].
  - assert (X : forallb (fun i => Bool.eqb (N.testbit (2 ^ 64 - 2 ^ 31) (N.of_nat i)) (31 <=? N.of_nat i)) (seq 0 64) = true) by (vm_compute; reflexivity).
    rewrite forallb_forall in X. specialize (X (N.to_nat e)). rewrite N2Nat.id in X. assert (I : In (N.to_nat e) (seq 0 64)) by (apply in_seq; lia).
    specialize (X I). apply eqb_prop in X. rewrite X, N.leb_le. lia.
  - rewrite (BitsProofs.word_testbit 64) by (auto; reflexivity). split; [discriminate|lia].
Qed.
(* to_string is undefined for every value *)
Lemma print_ub : forall name v is first s, (exists i, In i is /\ (32 <= i < 64)%nat) -> (forall i, In i is -> (i < 64)%nat) -> print name 64 v first s is = UB.
Proof.
  intros name v. induction is as [|i is IH]; intros first s (j & J & L) B; [contradiction|]. cbn [print].
  destruct (Nat.lt_ge_cases i 32) as [C|C].
  - assert (H : exists b, has 64 v (N.of_nat i) = Ok b).
    { unfold has, stored. rewrite wrap_small by (apply (N.lt_trans _ 64); [lia|reflexivity]).
      destruct (N.ltb_spec (N.of_nat i) 31); [cbn; eauto|]. destruct (N.eqb_spec (N.of_nat i) 31); [cbn; eauto|lia]. }
    destruct H as (b & ->). cbn [bind]. assert (X : exists j, In j is /\ (32 <= j < 64)%nat) by (exists j; destruct J as [<-|J]; [lia|auto]).
    destruct b; apply IH; auto; intros k K; apply B; cbn; auto.
  - assert (i < 64)%nat by (apply B; cbn; auto). rewrite (proj2 (C61_shift_refuted v (N.of_nat i) ltac:(lia))). auto.
Qed.
Theorem C61_to_string_refuted : forall name v, to_string name 64 64 v = UB.
Proof.
  intros name v. apply print_ub; [exists 40%nat|intros i]; rewrite in_seq; change (N.to_nat 64) with 64%nat; lia.
Qed.

Example C61_ex : any_width 32 /\ Forall (fits 32) (enumerators (FAnd (FOrE (FMake 31 [5; 0]) 7) (FMake 7 [31; 4]))) /\
  eval 32 (FAnd (FOrE (FMake 31 [5; 0]) 7) (FMake 7 [31; 4])) = Ok (2 ^ 31 + 2 ^ 7) /\ iterate 32 (2 ^ 31 + 2 ^ 7) = Ok [7; 31] /\
  single 16 (2 ^ 15) = Ok 15 /\ iterate 64 (2 ^ 30 + 1) = Ok [0; 30] /\
  to_string (fun e => if (e =? 7)%N then "seven"%string else "other"%string) 32 32 (2 ^ 31 + 2 ^ 7) = Ok "{seven, other}"%string.
Proof.
  split; [unfold any_width; auto|]. split; [repeat constructor; lia|]. repeat split; vm_compute; reflexivity.
Qed.

Print Assumptions C61_sets_partial.
Print Assumptions C61_has_partial.
Print Assumptions C61_queries.
Print Assumptions C61_eq_enum_partial.
Print Assumptions C61_single.
Print Assumptions C61_iterate_partial.
Print Assumptions C61_to_string_partial.
Print Assumptions C61_shift_refuted.
Print Assumptions C61_31_refuted.
Print Assumptions C61_to_string_refuted.

(* C128: deferred code. *)
From Coq Require Import ZArith List Bool Arith Lia.
From Verif Require Import DeferModel DeferSpec DeferProofs.
Import ListNotations.

(* CC_DEFER { d } means "everything behind it in the scope, finally d", however the scope is left; d sees the variables as they
   are then.  The code of CC_RETURN_DEFER is run at the end of the scope of the caller with the locals as they were when it was
   made.  Code that throws terminates the program.  For all programs that do not copy deferred objects. *)
Theorem C128_finally : forall a, no_copy a = true -> forall s, ideal a s fine = (exec_block a s, None).
Proof. exact exec_block_ideal. Qed.

(* Every deferral that is passed is run exactly once, the last one first, and nothing else is run; if the program is terminated,
   still nothing is run more often than it was deferred. *)
Theorem C128_exactly_once : forall a s f s', no_copy a = true -> exec_block a s = (f, s') ->
  exists t, trace s' = trace s ++ t
    /\ (f <> Terminated -> balanced t /\ forall i, count (is_run i) t = count (is_def i) t)
    /\ (forall i, count (is_run i) t <= count (is_def i) t).
Proof.
  intros a s f s' NC E. pose proof (ideal_good a s fine good_fine) as G. rewrite (exec_block_ideal a NC), E in G.
  destruct G as (t & Et & Gt). cbn [fst snd] in Et, Gt. exists t. split; [exact Et|]. split.
  - intros NT. assert (balanced t) as B by (destruct f; try exact Gt; congruence). split; [exact B|]. intros i. symmetry. apply balanced_count, B.
  - intros i. destruct f; try (rewrite (balanced_count t Gt i); lia). apply Gt.
Qed.

(* ---- refutations ---- *)

(* Objects of CC_RETURN_DEFER can be copied: auto b = a; runs the code twice. *)
Theorem C128_copy_refuted : forall i z s,
  exists s', exec_block (Seq (Scoped i (Num z) Skip (Emit (Loc 0))) (Copy 0)) s = (Normal, s')
    /\ trace s' = trace s ++ [Def i; Run i; Out z; Run i; Out z].
Proof. intros i z s. eexists. split; [reflexivity|]. cbn. rewrite <- !app_assoc. reflexivity. Qed.

(* A call whose result has no name runs the code at once, in front of the rest of the scope. *)
Theorem C128_discard_refuted : forall i z w s,
  exists s', exec_block (Seq (Discard i (Num z) Skip (Emit (Loc 0))) (Emit (Num w))) s = (Normal, s')
    /\ trace s' = trace s ++ [Def i; Run i; Out z; Out w].
Proof. intros i z w s. eexists. split; [reflexivity|]. cbn. rewrite <- !app_assoc. reflexivity. Qed.

(* Deferred code that throws ends the program, even inside of try, and code deferred before it is never run. *)
Theorem C128_throw_refuted : forall i j d a b s, no_copy a = true ->
  (exists s', exec_block (Try (Seq (Defer i d) (Seq (Defer j Throw_) a)) b) s = (Terminated, s'))
  /\ (forall z, exists s', exec_block (Try (Seq (Defer i d) (Seq (Defer j Throw_) (Emit (Num z)))) b) s = (Terminated, s')
        /\ trace s' = trace s ++ [Def i; Def j; Out z; Run j]).
Proof.
  intros i j d a b s NC. split.
  - unfold exec_block. cbn [exec app]. rewrite (exec_prefix a NC). set (o := by_reference i _).
    set (o2 := by_reference j _).
    assert (forall s2, exists s', o2 s2 = (Thrown, s')) as O2 by (intros s2; eexists; reflexivity).
    assert (forall f l s1, exists s', leave (f, s1, [o; o2] ++ l) = (Terminated, s')) as T.
    { intros f l s1.
      assert (forall s1, exists s', destroy (rev ([o; o2] ++ l)) s1 = (false, s')) as X.
      { intros s2. rewrite rev_app_distr, destroy_app. destruct (destroy (rev l) s2) as [[|] s3]; [|eauto].
        destruct (O2 s3) as (s4 & E4). cbn [rev app destroy]. rewrite E4. eauto. }
      destruct f; cbn [leave]; try (destruct (X s1) as (s' & ->)); eauto. }
    match goal with |- context [exec a ?x []] => destruct (exec a x []) as [[f s1] l] end.
    destruct (T f l s1) as (s' & E). cbn [app] in E |- *. rewrite E. eexists. reflexivity.
  - intros z. eexists. split; [reflexivity|]. cbn. rewrite <- !app_assoc. reflexivity.
Qed.

(* ---- examples ---- *)
Definition s0 : state := mkS (fun _ => 0%Z) (fun _ => 0%Z) [].
Definition shown (r : flow * state) : flow * list event := (fst r, trace (snd r)).
(* by reference, last in first out, nested scopes, returning and throwing *)
Definition demo : stmt :=
  Seq (Defer 1 (Emit (Loc 0)))
  (Seq (Try (Seq (Defer 2 (SetL 0 (Num 7))) (Seq (Emit (Num 5)) Throw_)) (Seq (Defer 3 Return_) (Emit (Loc 0))))
  (Seq (If (Num 1) (Defer 4 Skip) Skip)
  (Seq (SetL 0 (Plus (Loc 0) (Num 1))) (Seq Return_ (Emit (Num 99)))))).
Example C128_demo :
  no_copy demo = true
  /\ shown (exec_block demo s0)
     = (Returned, [Def 1; Def 2; Out 5; Run 2; Def 3; Out 7; Run 3; Def 4; Run 4; Run 1; Out 8])%Z.
Proof. vm_compute. split; reflexivity. Qed.
(* auto y = f(3): captured by value, though f's own deferred code changes the captured variable afterwards *)
Definition demo2 : stmt :=
  Seq (SetL 0 (Num 3))
  (Seq (Scoped 1 (Loc 0) (Seq (Defer 2 (Seq (SetL 0 (Num 50)) (SetG 1 (Num 6)))) (SetL 0 (Plus (Loc 0) (Num 1)))) (Seq (Emit (Loc 0)) (Emit (Glob 1))))
  (Seq (Defer 3 (Emit (Loc 0))) (Seq (SetL 0 (Num 9)) (SetG 1 (Num 2))))).
Example C128_demo2 :
  no_copy demo2 = true
  /\ shown (exec_block demo2 s0) = (Normal, [Def 2; Run 2; Def 1; Def 3; Run 3; Out 9; Run 1; Out 4; Out 2])%Z
  /\ shown (exec_block (Seq (Discard 1 (Num 2) Skip Return_) (Seq (Scoped 2 (Num 1) Throw_ Skip) (Emit (Num 1)))) s0) = (Thrown, [Def 1; Run 1])
  /\ shown (exec_block (Seq (Defer 0 (Emit (Num 3))) (Seq (Scoped 2 (Num 1) (Defer 5 Throw_) Skip) (Emit (Num 1)))) s0) = (Terminated, [Def 0; Def 5; Run 5])
  /\ shown (exec_block (Seq (Defer 0 (Emit (Num 3))) (Seq (Discard 2 (Num 1) (Seq (Defer 5 Skip) Return_) Skip) (Emit (Num 1)))) s0) = (Normal, [Def 0; Def 5; Run 5; Out 1; Run 0; Out 3])%Z.
Proof. vm_compute. repeat split; reflexivity. Qed.

Print Assumptions C128_finally.
Print Assumptions C128_exactly_once.
Print Assumptions C128_copy_refuted.
Print Assumptions C128_discard_refuted.
Print Assumptions C128_throw_refuted.

From Coq Require Import ZArith List Bool Arith Lia.
From Verif Require Import DeferModel DeferSpec.
Import ListNotations.

(* ---- objects of a scope ---- *)
Definition close (l : list obj) (r : answer) : answer :=
  match r with
  | (Terminated, s, c) => (Terminated, s, c)
  | (f, s, c) => match destroy (rev l) s with (true, s) => (f, s, c) | (false, s) => (Terminated, s, c) end
  end.
Lemma destroy_app a : forall b s, destroy (a ++ b) s = match destroy a s with (true, s) => destroy b s | r => r end.
Proof.
  induction a as [|o a IH]; intros b s; cbn; [destruct (destroy b s) as [[|] ?]; reflexivity|].
  destruct (o s) as [[| | |] s']; auto.
Qed.
Lemma close_nil r : close [] r = r.
Proof. destruct r as [[[| | |] s] c]; reflexivity. Qed.
Lemma close_app a b r : close (a ++ b) r = close a (close b r).
Proof.
  destruct r as [[[| | |] s] c]; cbn; try reflexivity; rewrite rev_app_distr, destroy_app;
    destruct (destroy (rev b) s) as [[|] s']; reflexivity.
Qed.
Lemma close_one o r : close [o] r = finally r (fun s => (o s, None)).
Proof. destruct r as [[[| | |] s] c]; cbn; try reflexivity; destruct (o s) as [[| | |] s']; reflexivity. Qed.
Lemma leave_close f s l : (leave (f, s, l), @None (nat -> Z)) = close l (f, s, None).
Proof. destruct f; cbn; try reflexivity; destruct (destroy (rev l) s) as [[|] s']; reflexivity. Qed.
Lemma finally_ext r d d' : (forall s, d s = d' s) -> finally r d = finally r d'.
Proof. intros H. destruct r as [[[| | |] s] c]; cbn; rewrite ?H; reflexivity. Qed.

(* ---- earlier objects of the scope do not matter ---- *)
Lemma exec_prefix a : no_copy a = true -> forall s os, exec a s os = (let '(f, s', l) := exec a s [] in (f, s', os ++ l)).
Proof.
  induction a; cbn [no_copy]; intros NC st os; repeat match goal with H : _ && _ = true |- _ => apply andb_prop in H; destruct H end; try discriminate NC.
  all: try (cbn; rewrite ?app_nil_r; reflexivity).
  - cbn [exec]. rewrite (IHa1 H st os). destruct (exec a1 st []) as [[[| | |] s1] l1]; cbn; try reflexivity.
    rewrite (IHa2 H0 s1 (os ++ l1)), (IHa2 H0 s1 l1). destruct (exec a2 s1 []) as [[f s2] l2]. rewrite app_assoc. reflexivity.
  - cbn [exec]. destruct (leave _) as [f s1]. rewrite app_nil_r. reflexivity.
  - cbn [exec]. destruct (leave _) as [f s1]. rewrite app_nil_r. reflexivity.
  - cbn [exec]. destruct (leave (exec a1 st [])) as [[| | |] s1]; rewrite ?app_nil_r; try reflexivity. destruct (leave _) as [f s2]. rewrite ?app_nil_r. reflexivity.
  - cbn [exec]. destruct (exec a1 _ []) as [[[| | |] s2] l].
    + destruct (leave (Normal, s2, l)) as [[| | |] s3]; rewrite ?app_nil_r; reflexivity.
    + destruct (leave _) as [f s3]. rewrite ?app_nil_r; reflexivity.
    + destruct (leave _) as [f s3]. rewrite ?app_nil_r; reflexivity.
    + destruct (leave _) as [f s3]. rewrite ?app_nil_r; reflexivity.
  - cbn [exec]. destruct (exec a1 _ []) as [[[| | |] s2] l].
    + destruct (leave (Normal, s2, l)) as [[| | |] s3]; rewrite ?app_nil_r; try reflexivity. destruct (leave _) as [f s4]. rewrite ?app_nil_r. reflexivity.
    + destruct (leave _) as [f s3]. rewrite ?app_nil_r; reflexivity.
    + destruct (leave _) as [f s3]. rewrite ?app_nil_r; reflexivity.
    + destruct (leave _) as [f s3]. rewrite ?app_nil_r; reflexivity.
Qed.

Definition goes_on (r : flow * state * list obj) (k : state -> answer) : answer :=
  match r with (Normal, s, l) => close l (k s) | (f, s, l) => close l (f, s, None) end.

Lemma goes_on_fine r : goes_on r fine = (leave r, None).
Proof. destruct r as [[f s] l]. rewrite leave_close. destruct f; reflexivity. Qed.
Lemma andthen_leave r k os : os = [] -> andthen (leave r, None) k = goes_on (leave r, os) k.
Proof. intros ->. destruct (leave r) as [[| | |] s]; cbn [goes_on andthen]; rewrite ?close_nil; reflexivity. Qed.

(* the captured locals: the answer of a body whose last action is to capture *)
Lemma goes_on_capture r :
  goes_on r (fun s => (Normal, s, Some (loc s)))
  = (leave r, match r with (Normal, s, _) => Some (loc s) | _ => None end).
Proof.
  destruct r as [[[| | |] s] l]; cbn; try reflexivity; destruct (destroy (rev l) s) as [[|] s']; reflexivity.
Qed.

Theorem exec_ideal a : no_copy a = true -> forall s k, ideal a s k = goes_on (exec a s []) k.
Proof.
  induction a; cbn [no_copy]; intros NC st kk; repeat match goal with H : _ && _ = true |- _ => apply andb_prop in H; destruct H end; try discriminate NC.
  all: try (cbn [ideal exec goes_on]; rewrite ?close_nil; reflexivity).
  - (* Seq *) cbn [ideal exec]. rewrite (IHa1 H). destruct (exec a1 st []) as [[[| | |] s1] l1]; try reflexivity. cbn [goes_on].
    rewrite (IHa2 H0). rewrite (exec_prefix a2 H0 s1 l1). destruct (exec a2 s1 []) as [[[| | |] s2] l2]; cbn [goes_on]; rewrite close_app; reflexivity.
  - (* If *) cbn [ideal exec]. destruct (value e st =? 0)%Z; [rewrite (IHa2 H0)|rewrite (IHa1 H)]; rewrite goes_on_fine; apply andthen_leave; reflexivity.
  - (* Block *) cbn [ideal exec]. rewrite (IHa NC), goes_on_fine. apply andthen_leave; reflexivity.
  - (* Try *) cbn [ideal exec]. rewrite (IHa1 H), goes_on_fine. destruct (leave (exec a1 st [])) as [[| | |] s1] eqn:E.
    + cbn [andthen goes_on]. rewrite close_nil. reflexivity.
    + reflexivity.
    + rewrite (IHa2 H0), goes_on_fine. apply andthen_leave; reflexivity.
    + reflexivity.
  - (* Defer *) cbn [ideal exec goes_on app]. rewrite close_one. apply finally_ext. intros s. unfold by_reference. rewrite (IHa NC), goes_on_fine. reflexivity.
  - (* Scoped *) cbn [ideal exec]. rewrite (IHa1 H), goes_on_capture. unfold frame.
    change (fun x : nat => if x =? 0 then value arg st else 0%Z) with (upd (fun _ => 0%Z) 0 (value arg st)).
    destruct (exec a1 _ []) as [[[| | |] s2] l] eqn:E.
    + destruct (leave (Normal, s2, l)) as [[| | |] s3] eqn:L; cbn [goes_on app]; rewrite ?close_nil; try reflexivity.
      * rewrite close_one. apply finally_ext. intros s. unfold with_locals, by_value, noted. cbn [glob trace loc]. rewrite (IHa2 H0), goes_on_fine.
        destruct (leave (exec a2 _ [])) as [f s4]. reflexivity.
      * exfalso. cbn in L. destruct (destroy (rev l) s2) as [[|] ?]; discriminate.
    + destruct (leave (Returned, s2, l)) as [[| | |] s3] eqn:L; cbn [goes_on]; rewrite ?close_nil; try reflexivity; exfalso; cbn in L; destruct (destroy (rev l) s2) as [[|] ?]; discriminate.
    + destruct (leave (Thrown, s2, l)) as [[| | |] s3] eqn:L; cbn [goes_on]; rewrite ?close_nil; try reflexivity; exfalso; cbn in L; destruct (destroy (rev l) s2) as [[|] ?]; discriminate.
    + reflexivity.
  - (* Discard *) cbn [ideal exec]. rewrite (IHa1 H), goes_on_capture. unfold frame.
    change (fun x : nat => if x =? 0 then value arg st else 0%Z) with (upd (fun _ => 0%Z) 0 (value arg st)).
    destruct (exec a1 _ []) as [[[| | |] s2] l] eqn:E.
    + destruct (leave (Normal, s2, l)) as [[| | |] s3] eqn:L; try (cbn [goes_on]; rewrite ?close_nil; reflexivity).
      * match goal with |- _ = goes_on (leave (Normal, ?x, [?o]), []) kk =>
          assert (finally (fine x) (fun s => (o s, None)) = (leave (Normal, x, [o]), None)) as E2 by (rewrite <- close_one, leave_close; reflexivity);
          rewrite <- (andthen_leave (Normal, x, [o]) kk [] eq_refl), <- E2 end.
        f_equal. apply finally_ext. intros s. unfold with_locals, by_value, noted. cbn [glob trace loc]. rewrite (IHa2 H0), goes_on_fine.
        destruct (leave (exec a2 _ [])) as [f s4]. reflexivity.
      * exfalso. cbn in L. destruct (destroy (rev l) s2) as [[|] ?]; discriminate.
    + destruct (leave (Returned, s2, l)) as [[| | |] s3] eqn:L; cbn [goes_on]; rewrite ?close_nil; try reflexivity; exfalso; cbn in L; destruct (destroy (rev l) s2) as [[|] ?]; discriminate.
    + destruct (leave (Thrown, s2, l)) as [[| | |] s3] eqn:L; cbn [goes_on]; rewrite ?close_nil; try reflexivity; exfalso; cbn in L; destruct (destroy (rev l) s2) as [[|] ?]; discriminate.
    + reflexivity.
Qed.

Theorem exec_block_ideal a : no_copy a = true -> forall s, ideal a s fine = (exec_block a s, None).
Proof. intros NC s. rewrite (exec_ideal a NC), goes_on_fine. reflexivity. Qed.

(* ---- traces ---- *)
Lemma count_app p t u : count p (t ++ u) = count p t + count p u.
Proof. unfold count. rewrite filter_app, app_length. reflexivity. Qed.
Lemma balanced_count t : balanced t -> forall i, count (is_def i) t = count (is_run i) t.
Proof.
  induction 1 as [|z|t u _ IHt _ IHu|j t u _ IHt _ IHu]; intros i; try reflexivity.
  - rewrite !count_app, IHt, IHu. reflexivity.
  - change (Def j :: t ++ Run j :: u) with ([Def j] ++ t ++ [Run j] ++ u). rewrite !count_app, IHt, IHu.
    unfold count at 1 3 5 7; cbn. destruct (i =? j); cbn; lia.
Qed.
Definition good (s : state) (r : answer) : Prop :=
  exists t, trace (snd (fst r)) = trace s ++ t
    /\ match fst (fst r) with Terminated => forall i, count (is_run i) t <= count (is_def i) t | _ => balanced t end.
Lemma good_le s r : good s r -> exists t, trace (snd (fst r)) = trace s ++ t /\ forall i, count (is_run i) t <= count (is_def i) t.
Proof. intros (t & E & H). exists t. split; [exact E|]. destruct (fst (fst r)); auto; intros i; rewrite (balanced_count t H i); lia. Qed.
Lemma good_cons s s1 e r : balanced [e] -> trace s1 = trace s ++ [e] -> good s1 r -> good s r.
Proof.
  intros B E (t & H & K). exists ([e] ++ t). split; [rewrite H, E, app_assoc; reflexivity|].
  destruct (fst (fst r)); try (apply b_app; assumption). intros i. rewrite !count_app, (balanced_count [e] B i). specialize (K i). lia.
Qed.
Lemma good_same s s1 r : trace s1 = trace s -> good s1 r -> good s r.
Proof. intros E (t & H & K). exists t. rewrite <- E. auto. Qed.
Lemma good_fine s : good s (fine s).
Proof. exists []. split; [cbn; rewrite app_nil_r; reflexivity|apply b_nil]. Qed.
Lemma good_app s f s1 c r : f <> Terminated -> good s (f, s1, c) -> good s1 r -> good s r.
Proof.
  intros NT (t & H & K) (u & H2 & K2). cbn in *. exists (t ++ u). rewrite H2, H, app_assoc. split; [reflexivity|].
  assert (balanced t) as B by (destruct f; try exact K; congruence).
  destruct (fst (fst r)); try (apply b_app; assumption). intros i. rewrite !count_app, (balanced_count t B i). specialize (K2 i). lia.
Qed.
Lemma good_andthen s r k : good s r -> (forall s, good s (k s)) -> good s (andthen r k).
Proof.
  intros G K. destruct r as [[f s1] c]. destruct f; cbn [andthen].
  - eapply good_app; [|exact G|apply K]. discriminate.
  - exact G.
  - exact G.
  - exact G.
Qed.
Lemma good_finally s i r d : (forall s, good (noted s (Run i)) (d s)) -> good (noted s (Def i)) r -> good s (finally r d).
Proof.
  intros D G. destruct r as [[f s1] c]. assert (H := D s1). destruct G as (t & E & B). cbn [fst snd] in E, B.
  assert (forall g s2 c2, f <> Terminated -> (forall (x : answer), x = (g, s2, c2) -> good (noted s1 (Run i)) x) ->
     exists u, trace s2 = trace s ++ (Def i :: t ++ Run i :: u) /\ match g with Terminated => forall j, count (is_run j) (Def i :: t ++ Run i :: u) <= count (is_def j) (Def i :: t ++ Run i :: u)
       | _ => balanced (Def i :: t ++ Run i :: u) /\ (forall j, count (is_run j) (Def i :: t ++ Run i :: u) <= count (is_def j) (Def i :: t ++ Run i :: u)) end) as X.
  { intros g s2 c2 NT Gx. destruct (Gx _ eq_refl) as (u & Eu & Bu). cbn [fst snd] in Eu, Bu. cbn [noted trace] in E, Eu.
    assert (balanced t) as Bt by (destruct f; try exact B; congruence).
    exists u. split; [rewrite Eu, E, <- !app_assoc; reflexivity|].
    assert (forall (LE : forall j, count (is_run j) u <= count (is_def j) u) j, count (is_run j) (Def i :: t ++ Run i :: u) <= count (is_def j) (Def i :: t ++ Run i :: u)) as LE.
    { intros LE j. change (Def i :: t ++ Run i :: u) with ([Def i] ++ t ++ [Run i] ++ u). rewrite !count_app, (balanced_count t Bt j). specialize (LE j).
      unfold count at 1 3 5 7; cbn. destruct (j =? i); cbn; lia. }
    destruct g; try (split; [apply b_pair; assumption|apply LE; intros j; rewrite (balanced_count u Bu j); lia]). apply LE. exact Bu. }
  destruct f.
  4:{ cbn [finally]. exists (Def i :: t). cbn [fst snd]. split; [rewrite E; cbn; rewrite <- app_assoc; reflexivity|].
      intros j. specialize (B j). change (Def i :: t) with ([Def i] ++ t). rewrite !count_app. unfold count at 1 3; cbn. destruct (j =? i); cbn; lia. }
  all: cbn [finally]; destruct (d s1) as [[g s2] c2];
    destruct (X g s2 c2 ltac:(discriminate) ltac:(intros x ->; exact H)) as (u & Eu & Bu); exists (Def i :: t ++ Run i :: u);
    destruct g; cbn [fst snd]; (split; [exact Eu|]); first [exact Bu | exact (proj1 Bu) | exact (proj2 Bu)].
Qed.

Lemma good_back s s0 f s1 c c' : trace s0 = trace s -> good s0 (f, s1, c) -> good s (f, back s s1, c').
Proof. intros E (t & H & K). exists t. cbn in *. rewrite H, E. auto. Qed.
Lemma good_with_locals l d : (forall s, good s (d s)) -> forall s, good s (with_locals l d s).
Proof.
  intros D s. unfold with_locals. destruct (D (mkS l (glob s) (trace s))) as (t & H & K).
  destruct (d (mkS l (glob s) (trace s))) as [[f s'] c]. exists t. split; [exact H|exact K].
Qed.

Theorem ideal_good a : forall s k, (forall s, good s (k s)) -> good s (ideal a s k).
Proof.
  induction a; intros s0 kk K; cbn [ideal].
  - apply K.
  - apply IHa1. intros s. apply IHa2. exact K.
  - apply (good_cons s0 (noted s0 (Out (value e s0))) (Out (value e s0))); [apply b_out|reflexivity|apply K].
  - refine (good_same s0 _ _ _ (K _)). reflexivity.
  - refine (good_same s0 _ _ _ (K _)). reflexivity.
  - apply good_andthen; [|exact K]. destruct (value e s0 =? 0)%Z; [apply IHa2|apply IHa1]; apply good_fine.
  - apply good_andthen; [|exact K]. apply IHa; apply good_fine.
  - pose proof (IHa1 s0 fine good_fine) as G. destruct (ideal a1 s0 fine) as [[[| | |] s1] c].
    + apply good_andthen; assumption.
    + apply good_andthen; assumption.
    + eapply good_app; [|exact G|apply good_andthen; [apply IHa2, good_fine|exact K]]. discriminate.
    + apply good_andthen; assumption.
  - exists []. split; [cbn; rewrite app_nil_r; reflexivity|apply b_nil].
  - exists []. split; [cbn; rewrite app_nil_r; reflexivity|apply b_nil].
  - apply good_finally with (i := i); [|apply K]. intros s. apply IHa, good_fine.
  - pose proof (IHa1 (frame s0 arg) (fun s => (Normal, s, Some (loc s)))) as G.
    specialize (G ltac:(intros s; exists []; split; [cbn; rewrite app_nil_r; reflexivity|apply b_nil])).
    destruct (ideal a1 (frame s0 arg) _) as [[f s1] c].
    pose proof (fun c0 => good_back s0 (frame s0 arg) f s1 c c0 eq_refl G) as GB.
    destruct f.
    + destruct c as [l|]; [|apply (GB None)].
      eapply good_app with (f := Normal) (c := None); [discriminate|apply (GB None)|].
      apply good_finally with (i := i); [|apply K]. intros s. apply good_with_locals. intros s'. apply IHa2, good_fine.
    + eapply good_app with (f := Returned) (c := None); [discriminate|apply (GB None)|apply K].
    + destruct c; apply (GB None).
    + destruct c; apply (GB None).
  - pose proof (IHa1 (frame s0 arg) (fun s => (Normal, s, Some (loc s)))) as G.
    specialize (G ltac:(intros s; exists []; split; [cbn; rewrite app_nil_r; reflexivity|apply b_nil])).
    destruct (ideal a1 (frame s0 arg) _) as [[f s1] c].
    pose proof (fun c0 => good_back s0 (frame s0 arg) f s1 c c0 eq_refl G) as GB.
    destruct f.
    + destruct c as [l|]; [|apply (GB None)].
      apply good_andthen; [|exact K].
      eapply good_app with (f := Normal) (c := None); [discriminate|apply (GB None)|].
      apply good_finally with (i := i); [|apply good_fine]. intros s. apply good_with_locals. intros s'. apply IHa2, good_fine.
    + eapply good_app with (f := Returned) (c := None); [discriminate|apply (GB None)|apply K].
    + destruct c; apply (GB None).
    + destruct c; apply (GB None).
  - apply K.
Qed.

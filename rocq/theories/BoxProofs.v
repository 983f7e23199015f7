(* Proofs about boxes. *)
From Coq Require Import Arith List Bool Lia.
From Verif Require Import Base OwnHeap BoxModel BoxSpec.
Import ListNotations.

Lemma put_lset : forall T (l : list T) i x, put l i x = lset l i x.
Proof. induction l; intros [|i] x; cbn; auto. f_equal. auto. Qed.
Lemma sget_nth : forall T (l : list (option T)) k x, sget l k = Some x -> nth_error l k = Some (Some x).
Proof. intros T l k x H. unfold sget in H. destruct (nth_error l k) as [[y|]|]; congruence. Qed.

Section P.
  Context {A : Type} (kd : kind) (eqb ltb : A -> A -> bool).
  Definition ok (o : box) (c x : option (nat * A)) : Prop :=
    c = x /\ match x with Some (d, _) => bdel o = true /\ typed kd d = true | None => bdel o = false end.
  Notation rep := (rep bdata ok).
  Notation good := (good bdata ok).

  Lemma good_cases : forall h o x, good h (Some o) (Some x) ->
    (bdata o = None /\ x = None /\ bdel o = false) \/
    (exists b d v, bdata o = Some b /\ nth_error h b = Some (Some (d, v)) /\ x = Some (d, v) /\ bdel o = true /\ typed kd d = true).
  Proof.
    intros h o x G. destruct (bdata o) as [b|] eqn:P.
    - right. destruct (good_blk _ _ _ _ _ _ G P) as ((d & v) & E & <- & D & T). exists b, d, v. auto.
    - left. destruct (good_null _ _ _ _ _ G P) as (<- & D). auto.
  Qed.
  Lemma release_ok : forall h o x, good h (Some o) (Some x) -> deletable kd x = true -> release kd h o = Ok (drop h (bdata o)).
  Proof.
    intros h o x G D. unfold release. destruct (good_cases _ _ _ G) as [(P & -> & Q)|(b & d & v & P & E & -> & Q & _)]; rewrite P, Q; cbn [drop].
    - destruct kd; reflexivity.
    - unfold free. rewrite E. unfold deletable in D. destruct kd as [|[]|]; cbn [defined bind]; try reflexivity. rewrite D. reflexivity.
  Qed.

  Lemma ideal_assign : forall s k d v, ideal kd eqb ltb s (Assign k d (Val v)) = None \/
    exists c, kd <> KFwd /\ sget s k = Some c /\ typed kd d = true /\ deletable kd c = true /\
      ideal kd eqb ltb s (Assign k d (Val v)) = Some (Some (put s k (Some (Some (d, v))), RUnit)).
  Proof.
    intros s k d v. cbn [ideal]. change (allowed kd d) with (typed kd d). destruct (sget s k) as [c|]; [|left; destruct kd; reflexivity].
    destruct (typed kd d) eqn:T; [|left; destruct kd; reflexivity].
    destruct (deletable kd c) eqn:D; [|left; destruct kd; reflexivity]. cbn [andb].
    destruct kd eqn:K; [right; exists c|right; exists c|left; reflexivity]; repeat split; auto; discriminate.
  Qed.
  Lemma step_ok : forall w s o, rep None (hp w) (objs w) s ->
    match ideal kd eqb ltb s o with
    | Some (Some (s', r)) => exists w', step kd eqb ltb w o = Ok (w', r) /\ rep None (hp w') (objs w') s'
    | Some None => step kd eqb ltb w o = Contract
    | None => True
    end.
  Proof.
    intros w s o HR.
    assert (G : forall k x, sget s k = Some x -> exists a, get w k = Ok a /\ nth_error (objs w) k = Some (Some a) /\
       good (hp w) (Some a) (Some x) /\ (k < length (objs w))%nat).
    { intros k x Sk. destruct (rep_get _ _ _ _ _ _ _ _ HR ltac:(discriminate) (sget_nth _ _ _ _ Sk)) as (a & Na & Ga & Hk).
      exists a. split; [unfold get; rewrite Na; reflexivity|]. auto. }
    assert (LD : forall b d v, nth_error (hp w) b = Some (Some (d, v)) -> load (hp w) b = Ok v) by (intros b d v E; unfold load; rewrite E; reflexivity).
    assert (ST : forall k a b d v x, nth_error (objs w) k = Some (Some a) -> bdata a = Some b -> nth_error (hp w) b = Some (Some (d, v)) ->
      bdel a = true -> typed kd d = true ->
      store (hp w) b x = Ok (lset (hp w) b (Some (d, x))) /\ rep None (lset (hp w) b (Some (d, x))) (objs w) (lset s k (Some (Some (d, x))))).
    { intros k a b d v x Na P E Q Td. split; [unfold store; rewrite E; reflexivity|].
      pose proof (rep_upd _ _ _ _ _ k a a (Some (d, x)) b (d, x) HR Na P P) as U. rewrite (lset_same _ (objs w)) in U by exact Na.
      apply U. split; auto. }
    destruct o as [d x|k d v|j|k j|k|k|k x|k|k|k|k j|k j]; cbn [ideal step].
    - (* Make *) change (allowed kd d) with (typed kd d). destruct (typed kd d) eqn:Td; [|exact Logic.I]. cbn [defined bind].
      eexists. split; [reflexivity|]. cbn [hp objs]. apply new_fresh; [exact HR|reflexivity|]. split; auto.
    - (* Assign *) change (allowed kd d) with (typed kd d). destruct v as [v|].
      + destruct (ideal_assign s k d v) as [E|(c & Nf & Sk & Td & Dl & E)]; cbn [ideal] in E; change (allowed kd d) with (typed kd d) in E; rewrite E; clear E; [exact Logic.I|].
        rewrite Td. cbn [defined bind]. destruct (G _ _ Sk) as (a & Ga & Na & Go & Hk). rewrite Ga. cbn [bind].
        rewrite put_lset. destruct (rep_drop _ _ _ _ _ _ _ HR Na) as (D & _).
        pose proof (release_ok _ _ _ Go Dl) as Rl.
        destruct kd eqn:K; [| |contradiction].
        * destruct (good_cases _ _ _ Go) as [(P & -> & Q)|(b & e & v' & P & E & -> & Q & Te)]; rewrite P.
          -- eexists. split; [reflexivity|]. cbn [hp objs]. rewrite P in D. cbn [drop] in D.
             apply close_fresh; [exact D|exact Hk|reflexivity|]. split; [reflexivity|]. split; [reflexivity|rewrite K; exact Td].
          -- cbn [bind]. rewrite K in Te. destruct (ST _ _ _ _ _ v Na P E Q Te) as (S1 & S2). rewrite S1. cbn [bind]. eexists. split; [reflexivity|]. cbn [hp objs].
             cbn [typed] in Td, Te. apply Nat.eqb_eq in Td as ->. apply Nat.eqb_eq in Te as ->. exact S2.
        * rewrite Rl. cbn [bind]. eexists. split; [reflexivity|]. cbn [hp objs].
          apply close_fresh; [exact D|exact Hk|reflexivity|]. split; [reflexivity|]. split; [reflexivity|rewrite K; exact Td].
      + destruct kd eqn:K; try exact Logic.I. rewrite <- K. destruct (typed kd d) eqn:Td; [|exact Logic.I].
        destruct (sget s k) as [c|] eqn:Sk; [|exact Logic.I]. destruct (G _ _ Sk) as (a & Ga & Na & Go & Hk). rewrite Ga. cbn [defined bind].
        destruct (good_cases _ _ _ Go) as [(P & -> & Q)|(b & e & v' & P & E & -> & Q & Te)]; unfold deref; rewrite P; cbn [bind]; [reflexivity|].
        rewrite (LD _ _ _ E). cbn [bind]. rewrite K in Te. destruct (ST _ _ _ _ _ v' Na P E Q Te) as (S1 & S2). rewrite S1. cbn [bind].
        eexists. split; [reflexivity|]. cbn [hp objs]. rewrite lset_same by exact E. exact HR.
    - (* MoveNew *) destruct (sget s j) as [c|] eqn:Sj; [|exact Logic.I]. destruct (G _ _ Sj) as (a & Ga & Na & Go & Hj).
      rewrite Ga. cbn [bind]. eexists. split; [reflexivity|]. rewrite put_lset. cbn [hp objs].
      apply (new_steal _ _ _ _ _ _ a c); auto; [apply sget_nth; exact Sj|]. split; reflexivity.
    - (* MoveAssign *)
      destruct (sget s k) as [ck|] eqn:Sk; [|exact Logic.I]. destruct (sget s j) as [c|] eqn:Sj; [|exact Logic.I].
      destruct (deletable kd ck) eqn:Dl; [|exact Logic.I].
      destruct (G _ _ Sk) as (a & Ga & Na & Go & Hk). destruct (G _ _ Sj) as (r & Gr & Nr & Gor & Hj).
      rewrite Ga. cbn [bind]. rewrite (release_ok _ _ _ Go Dl). cbn [bind]. rewrite Gr. cbn [bind].
      eexists. split; [reflexivity|]. destruct (rep_drop _ _ _ _ _ _ _ HR Na) as (D & _). rewrite !put_lset. cbn [hp objs].
      destruct (Nat.eq_dec j k) as [->|N].
      + rewrite !lset_twice. apply close_null; [exact D|exact Hk|reflexivity|split; reflexivity].
      + apply close_null; [|rewrite lset_length; exact Hj|reflexivity|split; reflexivity].
        apply (steal _ _ _ _ _ _ j r r c c); auto. apply sget_nth; exact Sj.
    - (* Destroy *)
      destruct (sget s k) as [c|] eqn:Sk; [|exact Logic.I]. destruct (deletable kd c) eqn:Dl; [|exact Logic.I].
      destruct (G _ _ Sk) as (a & Ga & Na & Go & Hk).
      rewrite Ga. cbn [bind]. rewrite (release_ok _ _ _ Go Dl). cbn [bind]. eexists. split; [reflexivity|]. rewrite put_lset. cbn [hp objs].
      apply close_gone; [|exact Hk]. apply (rep_drop _ _ _ _ _ _ _ HR Na).
    - (* Read *)
      destruct (sget s k) as [c|] eqn:Sk; [|exact Logic.I]. destruct (G _ _ Sk) as (a & Ga & Na & Go & Hk). rewrite Ga. cbn [bind].
      destruct (good_cases _ _ _ Go) as [(P & -> & Q)|(b & d & v & P & E & -> & Q & Td)]; unfold deref; rewrite P; cbn [bind]; [reflexivity|].
      rewrite (LD _ _ _ E). cbn [bind]. eauto.
    - (* Write *)
      destruct (sget s k) as [c|] eqn:Sk; [|exact Logic.I]. destruct (G _ _ Sk) as (a & Ga & Na & Go & Hk). rewrite Ga. cbn [bind].
      destruct (good_cases _ _ _ Go) as [(P & -> & Q)|(b & d & v & P & E & -> & Q & Td)]; unfold deref; rewrite P; cbn [bind]; [reflexivity|].
      destruct (ST _ _ _ _ _ x Na P E Q Td) as (S1 & S2). rewrite S1. cbn [bind]. eexists. split; [reflexivity|]. rewrite put_lset. exact S2.
    - (* TypeOf *)
      destruct (sget s k) as [c|] eqn:Sk; [|exact Logic.I]. destruct (G _ _ Sk) as (a & Ga & Na & Go & Hk). rewrite Ga. cbn [bind].
      destruct (good_cases _ _ _ Go) as [(P & -> & Q)|(b & d & v & P & E & -> & Q & Td)]; unfold deref; rewrite P; cbn [bind]; [reflexivity|].
      rewrite E. eauto.
    - (* Convert *)
      destruct (sget s k) as [c|] eqn:Sk; [|exact Logic.I]. destruct (G _ _ Sk) as (a & Ga & Na & Go & Hk). rewrite Ga. cbn [bind].
      destruct (good_cases _ _ _ Go) as [(P & -> & Q)|(b & d & v & P & E & -> & Q & Td)]; [exact Logic.I|]. rewrite P.
      rewrite (LD _ _ _ E). cbn [bind]. eauto.
    - (* IsNull *)
      destruct (sget s k) as [c|] eqn:Sk; [|exact Logic.I]. destruct (G _ _ Sk) as (a & Ga & Na & Go & Hk). rewrite Ga. cbn [bind].
      destruct (good_cases _ _ _ Go) as [(P & -> & Q)|(b & d & v & P & E & -> & Q & Td)]; rewrite P; eauto.
    - (* Equal *)
      destruct (sget s k) as [c|] eqn:Sk; [|exact Logic.I]. destruct (sget s j) as [c'|] eqn:Sj; [|exact Logic.I].
      destruct (G _ _ Sk) as (a & Ga & Na & Go & Hk). destruct (G _ _ Sj) as (r & Gr & Nr & Gor & Hj). rewrite Ga, Gr. cbn [bind]. unfold deref.
      destruct (good_cases _ _ _ Go) as [(P & -> & Q)|(b & d & v & P & E & -> & Q & Td)]; rewrite P; cbn [bind]; [reflexivity|].
      destruct (good_cases _ _ _ Gor) as [(P' & -> & Q')|(b' & d' & v' & P' & E' & -> & Q' & Td')]; rewrite P'; cbn [bind]; [reflexivity|].
      rewrite (LD _ _ _ E), (LD _ _ _ E'). cbn [bind]. eauto.
    - (* Less *)
      destruct (sget s k) as [c|] eqn:Sk; [|exact Logic.I]. destruct (sget s j) as [c'|] eqn:Sj; [|exact Logic.I].
      destruct (G _ _ Sk) as (a & Ga & Na & Go & Hk). destruct (G _ _ Sj) as (r & Gr & Nr & Gor & Hj). rewrite Ga, Gr. cbn [bind]. unfold deref.
      destruct (good_cases _ _ _ Go) as [(P & -> & Q)|(b & d & v & P & E & -> & Q & Td)]; rewrite P; cbn [bind]; [reflexivity|].
      destruct (good_cases _ _ _ Gor) as [(P' & -> & Q')|(b' & d' & v' & P' & E' & -> & Q' & Td')]; rewrite P'; cbn [bind]; [reflexivity|].
      rewrite (LD _ _ _ E), (LD _ _ _ E'). cbn [bind]. eauto.
  Qed.
  Lemma run_ok : forall os w s, rep None (hp w) (objs w) s ->
    match irun kd eqb ltb s os with
    | Some (Some (s', rs)) => exists w', run kd eqb ltb w os = Ok (w', rs) /\ rep None (hp w') (objs w') s'
    | Some None => run kd eqb ltb w os = Contract
    | None => True
    end.
  Proof.
    induction os as [|o os IH]; intros w s HR; cbn [irun run]; [eauto|].
    pose proof (step_ok w s o HR) as S1. destruct (ideal kd eqb ltb s o) as [[[s1 r]|]|]; [| |exact Logic.I].
    - destruct S1 as (w1 & E1 & R1). rewrite E1. cbn [bind]. specialize (IH w1 s1 R1).
      destruct (irun kd eqb ltb s1 os) as [[[s2 rs]|]|]; [| |exact Logic.I].
      + destruct IH as (w2 & E2 & R2). rewrite E2. cbn [bind]. eauto.
      + rewrite IH. reflexivity.
    - rewrite S1. reflexivity.
  Qed.
End P.

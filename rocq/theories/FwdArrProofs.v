(* Proofs about cc::fwd_array. *)
From Coq Require Import NArith Arith List Bool Lia.
From Verif Require Import Base Cells FwdArrModel FwdArrSpec OwnHeap.
Import ListNotations.
Open Scope N_scope.

Lemma put_lset : forall T (l : list T) i x, put l i x = lset l i x.
Proof. induction l; intros [|i] x; cbn; auto. f_equal. auto. Qed.
Definition size_of {A} (x : option (list (option A))) : N := match x with Some l => N.of_nat (length l) | None => 0 end.
Lemma population_lset : forall A (s : store A) k x y, nth_error s k = Some x ->
  population (lset s k y) + size_of x = population s + size_of y.
Proof.
  induction s as [|z s IH]; intros [|k] x y H; cbn [nth_error lset population] in *; try discriminate.
  - injection H as ->. destruct x, y; cbn [size_of]; lia.
  - specialize (IH _ _ y H). destruct z; lia.
Qed.
Lemma population_app : forall A (s : store A) x, population (s ++ [x]) = population s + size_of x.
Proof. induction s as [|z s IH]; intro x; cbn [app population]; [destruct x; cbn [size_of]; lia|]. rewrite IH. destruct z; lia. Qed.
Lemma population_none : forall A (s : store A), (forall k l, nth_error s k = Some l -> l = None) -> population s = 0.
Proof.
  induction s as [|z s IH]; intro H; [reflexivity|]. pose proof (H 0%nat z eq_refl) as ->. cbn [population].
  apply IH. intros k l E. apply (H (S k)). exact E.
Qed.

Section P.
  Context {A : Type} (dflt : A) (tc : bool).
  Notation cells := (list (cell A)).
  Definition ocell (v : option A) : cell A := match v with Some x => Obj x | None => Raw end.
  Notation ocells := (map ocell).
  Lemma ocells_repeat : forall v n, ocells (repeat v n) = repeat (ocell v) n.
  Proof. induction n; cbn; congruence. Qed.
  Definition full (l : list (option A)) : Prop := exists l', l = map Some l'.
  Lemma full_fill : forall n (x : A), full (repeat (Some x) n).
  Proof. intros. exists (repeat x n). induction n; cbn; congruence. Qed.

  Definition ok (a : farr) (c : option cells) (x : list (option A)) : Prop :=
    match c with
    | None => fsize a = 0 /\ x = []
    | Some c => c = ocells x /\ fsize a = N.of_nat (length x) /\ (tc = false -> full x)
    end.
  Notation rep := (rep fdata ok).
  Notation good := (good fdata ok).
  (* lost: elements whose destructor will never be called *)
  Definition R (lost : N) (w : world A) (s : store A) : Prop :=
    rep None (hp w) (objs w) s /\ made w = gone w + population s + lost.

  Lemma sget_nth : forall (s : store A) k l, sget s k = Some l -> nth_error s k = Some (Some l).
  Proof. intros s k l H. unfold sget in H. destruct (nth_error s k) as [[?|]|]; congruence. Qed.
  Lemma good_data : forall h a x, good h (Some a) (Some x) -> fsize a = N.of_nat (length x) /\ cells_of h (fdata a) = Ok (ocells x) /\ (tc = false -> full x).
  Proof.
    intros h a x G. destruct (fdata a) as [b|] eqn:P.
    - destruct (good_blk _ _ _ _ _ _ G P) as (c & E & -> & Q2 & Q3). cbn [cells_of]. rewrite E. auto.
    - destruct (good_null _ _ _ _ _ G P) as (Q1 & ->). rewrite Q1. repeat split; auto. intros _. exists []. reflexivity.
  Qed.
  Lemma full_nth : forall l i, full l -> nth_error l i <> Some None.
  Proof. intros l i (l' & ->). rewrite nth_error_map. destruct (nth_error l' i); discriminate. Qed.

  Lemma assign_ok : forall l i v x, nth_error l i = Some v -> (tc = false -> v <> None) ->
    assign_elem tc (ocells l) i x = Ok (ocells (lset l i (Some x))).
  Proof.
    intros l i v x E Hv. unfold assign_elem. rewrite nth_error_map, E. cbn [option_map].
    assert (lset (ocells l) i (Obj x) = ocells (lset l i (Some x))) as L.
    { clear. revert i. induction l; intros [|q]; cbn; auto. f_equal. auto. }
    destruct v as [v|]; cbn [ocell].
    - rewrite (assign_Obj _ _ v); [rewrite L; reflexivity|]. rewrite nth_error_map, E. reflexivity.
    - destruct tc; [rewrite L; reflexivity|]. exfalso. apply Hv; reflexivity.
  Qed.
  Lemma fill_ok : forall n i x v0 v, (forall q y, nth_error (repeat v0 n) q = Some y -> tc = false -> y <> None) -> x = Ok v ->
    fill tc n i x (ocells (repeat (Some v) i ++ repeat v0 n)) = Ok (ocells (repeat (Some v) (i + n))).
  Proof.
    induction n as [|n IH]; intros i x v0 v H ->; cbn [fill repeat].
    - rewrite app_nil_r, Nat.add_0_r. reflexivity.
    - cbn [bind]. rewrite (assign_ok _ _ v0).
      + cbn [bind]. specialize (IH (S i) (Ok v) v0 v). replace (i + S n)%nat with (S i + n)%nat by lia. rewrite <- IH.
        * f_equal. f_equal. rewrite <- (repeat_length (Some v) i) at 2. rewrite <- (Nat.add_0_r (length _)).
          assert (forall (a b : list (option A)) z y, lset (a ++ y :: b) (length a + 0) z = (a ++ [z]) ++ b) as ->.
          { clear. induction a; intros; cbn; auto. f_equal. apply IHa. }
          rewrite <- repeat_cons. reflexivity.
        * intros q y E. apply (H (S q)). exact E.
        * reflexivity.
      + rewrite nth_error_app2 by (rewrite repeat_length; lia). rewrite repeat_length, Nat.sub_diag. reflexivity.
      + apply (H 0%nat). reflexivity.
  Qed.
  Lemma copy_ok : forall (vs pre : list A) (rest : cells), length rest = length vs ->
    copy_construct (length vs) (length pre) (pre ++ vs) (map (@Obj A) pre ++ rest) = Ok (map (@Obj A) (pre ++ vs)).
  Proof.
    induction vs as [|v vs IH]; intros pre rest L; cbn [length copy_construct].
    - destruct rest; [|discriminate]. rewrite !app_nil_r. reflexivity.
    - destruct rest as [|r rest]; [discriminate|].
      assert (aget (pre ++ v :: vs) (length pre) = Ok v) as -> by (apply aget_Ok; rewrite nth_error_app2, Nat.sub_diag by lia; reflexivity). cbn [bind].
      unfold reconstruct. rewrite nth_error_app2 by (rewrite map_length; lia). rewrite map_length, Nat.sub_diag. cbn [nth_error bind].
      specialize (IH (pre ++ [v]) rest). rewrite app_length in IH. cbn [length] in IH. rewrite Nat.add_1_r in IH.
      rewrite <- app_assoc in IH. cbn [app] in IH. rewrite <- IH by (cbn in L; lia). f_equal. rewrite map_app. cbn [map].
      rewrite <- app_assoc. cbn [app]. rewrite <- (map_length (@Obj A) pre). generalize (map (@Obj A) pre). clear.
      induction l; cbn; auto. f_equal. auto.
  Qed.

  Lemma add_ok : forall lost w s n l c calls extra, R lost w s -> c = ocells l -> n = N.of_nat (length l) -> (tc = false -> full l) ->
    calls = n + extra -> R (lost + extra) (add w n c calls) (s ++ [Some l]).
  Proof.
    intros lost w s n l c calls extra (HR & HC) -> Hn Hf ->. split.
    - unfold add. cbn [hp objs]. apply new_fresh; [exact HR|reflexivity|]. unfold ok. auto.
    - unfold add. cbn [made gone]. rewrite population_app. cbn [size_of]. lia.
  Qed.
  Lemma delete_ok : forall w s k a x, rep None (hp w) (objs w) s -> nth_error (objs w) k = Some (Some a) -> good (hp w) (Some a) (Some x) ->
    delete_data w (fdata a) = Ok (mkw (drop (hp w) (fdata a)) (objs w) (made w) (gone w + N.of_nat (length x))).
  Proof.
    intros w s k a x HR Na G. destruct (fdata a) as [b|] eqn:P.
    - destruct (good_blk _ _ _ _ _ _ G P) as (c & E & -> & Q2 & Q3). cbn [delete_data drop]. rewrite E, map_length. reflexivity.
    - destruct (good_null _ _ _ _ _ G P) as (_ & ->). cbn [delete_data drop length N.of_nat]. rewrite N.add_0_r. destruct w; reflexivity.
  Qed.

  Definition extra (o : op A) : N := match o with NewFrom vs => N.of_nat (length vs) | _ => 0 end.

  Lemma step_ok : forall lost w s o, R lost w s ->
    match ideal dflt tc s o with
    | Some (Some (s', r)) => exists w', step dflt tc w o = Ok (w', r) /\ R (lost + extra o) w' s'
    | Some None => step dflt tc w o = Contract
    | None => True
    end.
  Proof.
    intros lost w s o HRC. pose proof HRC as (HR & HC).
    assert (G : forall k x, sget s k = Some x -> exists a, get w k = Ok a /\ nth_error (objs w) k = Some (Some a) /\
       good (hp w) (Some a) (Some x) /\ (k < length (objs w))%nat).
    { intros k x Sk. destruct (rep_get _ _ _ _ _ _ _ _ HR ltac:(discriminate) (sget_nth _ _ _ Sk)) as (a & Na & Ga & Hk).
      exists a. split; [unfold get; rewrite Na; reflexivity|]. auto. }
    destruct o as [|n|n|n x|vs|j|k j|k|k i|k i x|k]; cbn [ideal step extra].
    - (* New *) eexists. split; [reflexivity|]. split; cbn [hp objs made gone].
      + apply new_null; [exact HR|reflexivity|]. split; reflexivity.
      + rewrite population_app. cbn [size_of length N.of_nat]. lia.
    - (* NewSized *) eexists. split; [reflexivity|]. apply (add_ok _ _ _ _ _ _ _ _ HRC).
      + unfold new_value. rewrite ocells_repeat. reflexivity.
      + rewrite repeat_length, N2Nat.id. reflexivity.
      + intros _. apply full_fill.
      + lia.
    - (* Uninit *) eexists. split; [reflexivity|]. apply (add_ok _ _ _ _ _ _ _ _ HRC).
      + unfold new_default. rewrite ocells_repeat. destruct tc; reflexivity.
      + rewrite repeat_length, N2Nat.id. reflexivity.
      + intros ->. apply full_fill.
      + lia.
    - (* Filled *) destruct (argval s x) as [v|] eqn:Hx; [|exact Logic.I].
      assert (eval w x = Ok v) as Ev.
      { destruct x as [x|j i]; cbn [argval eval] in *; [congruence|]. destruct (sget s j) as [l|] eqn:Sj; [|discriminate].
        destruct (G _ _ Sj) as (a & Ga & Na & Go & _). rewrite Ga. cbn [bind]. unfold elements.
        destruct (good_data _ _ _ Go) as (_ & C & _). rewrite C. cbn [bind]. apply cread_Ok. rewrite nth_error_map.
        destruct (nth_error l (N.to_nat i)) as [[?|]|]; try discriminate. injection Hx as ->. reflexivity. }
      pose proof (fill_ok (N.to_nat n) 0 (eval w x) (if tc then None else Some dflt) v) as F. cbn [repeat app Nat.add] in F.
      rewrite ocells_repeat in F.
      assert (new_default dflt tc n = repeat (ocell (if tc then None else Some dflt)) (N.to_nat n)) as -> by (unfold new_default; destruct tc; reflexivity).
      rewrite F; [|intros q y E Et; apply nth_error_In, repeat_spec in E; rewrite Et in E; subst y; discriminate|exact Ev].
      cbn [bind]. eexists. split; [reflexivity|]. apply (add_ok _ _ _ _ _ _ _ _ HRC).
      + reflexivity.
      + rewrite repeat_length, N2Nat.id. reflexivity.
      + intros _. apply full_fill.
      + lia.
    - (* NewFrom *)
      pose proof (copy_ok vs [] (new_default dflt tc (N.of_nat (length vs)))) as F. cbn [length app map] in F. rewrite F.
      + cbn [bind]. eexists. split; [reflexivity|]. apply (add_ok _ _ _ _ _ _ _ _ HRC).
        * rewrite map_map. reflexivity.
        * rewrite map_length. reflexivity.
        * intros _. exists vs. reflexivity.
        * lia.
      + unfold new_default. destruct tc; rewrite repeat_length, Nat2N.id; reflexivity.
    - (* MoveNew *) destruct (sget s j) as [l|] eqn:Sj; [|exact Logic.I]. destruct (G _ _ Sj) as (a & Ga & Na & Go & Hj).
      rewrite Ga. cbn [bind]. eexists. split; [reflexivity|]. rewrite put_lset. split; cbn [hp objs made gone].
      + apply (new_steal _ _ _ _ _ _ a l); auto; [apply sget_nth; exact Sj|]. split; reflexivity.
      + rewrite population_app. pose proof (population_lset _ s j _ (Some []) (sget_nth _ _ _ Sj)) as P. cbn [size_of length N.of_nat] in *. lia.
    - (* MoveAssign *)
      destruct (sget s k) as [lk|] eqn:Sk; [|exact Logic.I]. destruct (sget s j) as [l|] eqn:Sj; [|exact Logic.I].
      destruct (G _ _ Sk) as (a & Ga & Na & Go & Hk). destruct (G _ _ Sj) as (r & Gr & Nr & Gor & Hj).
      rewrite Ga. cbn [bind]. rewrite (delete_ok _ _ _ _ _ HR Na Go). cbn [bind].
      match goal with |- context [get ?w' j] => assert (get w' j = Ok r) as -> by (unfold get; cbn [objs]; rewrite Nr; reflexivity) end.
      cbn [bind hp objs made gone]. eexists. split; [reflexivity|].
      destruct (rep_drop _ _ _ _ _ _ _ HR Na) as (D & _). rewrite !put_lset. split; cbn [hp objs made gone].
      + destruct (Nat.eq_dec j k) as [->|N].
        * rewrite !lset_twice. apply close_null; [exact D|exact Hk|reflexivity|split; reflexivity].
        * apply close_null; [|rewrite lset_length; exact Hj|reflexivity|split; reflexivity].
          apply (steal _ _ _ _ _ _ j r r l l); auto. apply sget_nth; exact Sj.
      + pose proof (population_lset _ s k _ (Some l) (sget_nth _ _ _ Sk)) as P1.
        assert (nth_error (lset s k (Some l)) j = Some (Some l)) as E.
        { rewrite lset_nth. pose proof (sget_nth _ _ _ Sj). destruct (Nat.eqb_spec k j) as [<-|N]; [|assumption].
          replace (k <? length s)%nat with true; [reflexivity|]. symmetry. apply Nat.ltb_lt. apply nth_error_Some. congruence. }
        pose proof (population_lset _ _ j _ (Some []) E) as P2. cbn [size_of length N.of_nat] in *. lia.
    - (* Destroy *)
      destruct (sget s k) as [l|] eqn:Sk; [|exact Logic.I]. destruct (G _ _ Sk) as (a & Ga & Na & Go & Hk).
      rewrite Ga. cbn [bind]. rewrite (delete_ok _ _ _ _ _ HR Na Go). cbn [bind hp objs made gone]. eexists. split; [reflexivity|].
      rewrite put_lset. split; cbn [hp objs made gone].
      + apply close_gone; [|exact Hk]. apply (rep_drop _ _ _ _ _ _ _ HR Na).
      + pose proof (population_lset _ s k _ None (sget_nth _ _ _ Sk)) as P1. cbn [size_of] in *. lia.
    - (* Get *)
      destruct (sget s k) as [l|] eqn:Sk; [|exact Logic.I]. destruct (G _ _ Sk) as (a & Ga & Na & Go & Hk).
      rewrite Ga. cbn [bind]. destruct (good_data _ _ _ Go) as (L & C & _). rewrite L.
      destruct (nth_error l (N.to_nat i)) as [[v|]|] eqn:E; [|exact Logic.I|].
      + assert (N.to_nat i < length l)%nat by (apply nth_error_Some; congruence).
        replace (i <? N.of_nat (length l)) with true by (symmetry; apply N.ltb_lt; lia). cbn [contract bind]. unfold elements. rewrite C. cbn [bind].
        rewrite (cread_Ok _ _ v) by (rewrite nth_error_map, E; reflexivity). cbn [bind]. rewrite N.add_0_r. eauto.
      + apply nth_error_None in E. replace (i <? N.of_nat (length l)) with false by (symmetry; apply N.ltb_ge; lia). reflexivity.
    - (* Set_ *)
      destruct (sget s k) as [l|] eqn:Sk; [|exact Logic.I]. destruct (G _ _ Sk) as (a & Ga & Na & Go & Hk).
      rewrite Ga. cbn [bind]. destruct (good_data _ _ _ Go) as (L & C & F). rewrite L.
      destruct (nth_error l (N.to_nat i)) as [v|] eqn:Ev.
      + assert (N.to_nat i < length l)%nat as Hi by (apply nth_error_Some; congruence).
        replace (i <? N.of_nat (length l)) with true by (symmetry; apply N.ltb_lt; lia). cbn [contract bind]. rewrite C. cbn [bind].
        rewrite (assign_ok _ _ v) by (auto; intros T ->; exact (full_nth _ _ (F T) Ev)).
        cbn [bind]. eexists. split; [reflexivity|]. rewrite !put_lset. split; cbn [hp objs made gone].
        * destruct (fdata a) as [b|] eqn:P.
          -- pose proof (rep_upd _ _ _ _ _ k a a (lset l (N.to_nat i) (Some x)) b (ocells (lset l (N.to_nat i) (Some x))) HR Na P P) as U.
             rewrite (lset_same _ (objs w)) in U by exact Na. apply U.
             unfold ok. rewrite lset_length. repeat split; auto. intro T. destruct (F T) as (l' & ->).
             exists (lset l' (N.to_nat i) x). clear. generalize (N.to_nat i) as q. induction l'; intros [|q]; cbn; auto. f_equal. auto.
          -- destruct (good_null _ _ _ _ _ Go P) as (_ & ->). cbn in Hi. lia.
        * pose proof (population_lset _ s k _ (Some (lset l (N.to_nat i) (Some x))) (sget_nth _ _ _ Sk)) as P1.
          cbn [size_of] in P1. rewrite lset_length in P1. lia.
      + apply nth_error_None in Ev. replace (i <? N.of_nat (length l)) with false by (symmetry; apply N.ltb_ge; lia). reflexivity.
    - (* Size *)
      destruct (sget s k) as [l|] eqn:Sk; [|exact Logic.I]. destruct (G _ _ Sk) as (a & Ga & Na & Go & Hk).
      rewrite Ga. cbn [bind]. destruct (good_data _ _ _ Go) as (L & _). rewrite L, N.add_0_r. eauto.
  Qed.

  Lemma run_ok : forall os lost w s, R lost w s ->
    match irun dflt tc s os with
    | Some (Some (s', rs)) => exists w', run dflt tc w os = Ok (w', rs) /\ R (lost + listed os) w' s'
    | Some None => run dflt tc w os = Contract
    | None => True
    end.
  Proof.
    induction os as [|o os IH]; intros lost w s HR; cbn [irun run].
    { cbn [listed]. rewrite N.add_0_r. eauto. }
    pose proof (step_ok lost w s o HR) as S1. destruct (ideal dflt tc s o) as [[[s1 r]|]|]; [| |exact Logic.I].
    + destruct S1 as (w1 & E1 & R1). rewrite E1. cbn [bind]. specialize (IH _ w1 s1 R1).
      assert (lost + extra o + listed os = lost + listed (o :: os)) as E by (destruct o; cbn [extra listed]; lia). rewrite E in IH.
      destruct (irun dflt tc s1 os) as [[[s2 rs]|]|]; [| |exact Logic.I].
      * destruct IH as (w2 & E2 & R2). rewrite E2. cbn [bind]. eauto.
      * rewrite IH. reflexivity.
    + rewrite S1. reflexivity.
  Qed.
End P.

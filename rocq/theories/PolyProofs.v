From Coq Require Import Arith List Bool Lia.
From Verif Require Import Base OwnHeap PolyModel PolySpec.
Import ListNotations.

Definition gv (st : state) (v : nat) : option var := match nth_error (vars st) v with Some x => x | None => None end.
Definition gh (st : state) (o : nat) : option nat := match nth_error (heap st) o with Some x => x | None => None end.

Lemma gv_lt : forall st v x, gv st v = Some x -> v < length (vars st).
Proof. intros st v x H. unfold gv in H. apply nth_error_Some. destruct (nth_error (vars st) v); congruence. Qed.
Lemma getv_gv : forall st v x, gv st v = Some x -> getv st v = Ok x.
Proof. intros st v x H. unfold gv, getv in *. destruct (nth_error (vars st) v) as [[y|]|]; congruence. Qed.
Lemma gv_set : forall st v x u, v < length (vars st) -> gv (setv st v x) u = if u =? v then x else gv st u.
Proof.
  intros st v x u L. unfold gv, setv. cbn [vars]. destruct (Nat.eqb_spec u v) as [->|N].
  - now rewrite lset_nth_eq.
  - rewrite lset_nth_neq by auto. reflexivity.
Qed.
Lemma nth_snoc : forall A (l : list A) x u, nth_error (l ++ [x]) u = if u =? length l then Some x else nth_error l u.
Proof.
  intros A l x u. destruct (Nat.eqb_spec u (length l)) as [->|N].
  - rewrite nth_error_app2, Nat.sub_diag by lia. reflexivity.
  - destruct (Nat.lt_ge_cases u (length l)); [now rewrite nth_error_app1|]. rewrite (proj2 (nth_error_None _ _)) by (rewrite app_length; cbn; lia). symmetry. now apply nth_error_None.
Qed.

Section P.
  Variables (base : nat -> nat -> bool) (virt : nat -> bool).
  Hypotheses (HI : hierarchy base) (HV : forall T U, base T U = true -> T <> U -> virt T = true).

  Definition var_ok (i : ideal) (x : option var) (t : option nat) (v : nat) : Prop :=
    match x, t with
    | Some x, Some T => sty x = T /\ (forall o, ptr x = Some o <-> pl i o = Var v) /\ forall o, pl i o = Var v -> exists D, nth_error (cls i) o = Some D /\ base T D = true
    | None, None => forall o, pl i o <> Var v
    | _, _ => False
    end.
  Record rep (st : state) (i : ideal) : Prop := {
    r_len : length (vars st) = length (iv i);
    r_vars : forall v, var_ok i (gv st v) (static i v) v;
    r_hlen : length (heap st) = length (cls i);
    r_heap : forall o, gh st o = match pl i o with Gone => None | _ => nth_error (cls i) o end;
    r_far : forall o, length (cls i) <= o -> pl i o = Gone;
    r_raws : raws st = iraws i;
    r_typed : forall U o, In (U, Some o) (raws st) -> exists D, nth_error (cls i) o = Some D /\ base U D = true;
    r_once : NoDup (map fst (dtors st));
    r_log : forall o D, In (o, D) (dtors st) <-> nth_error (cls i) o = Some D /\ pl i o = Gone }.

  Lemma rep_empty : rep empty_state empty_ideal.
  Proof.
    constructor; cbn; auto; try tauto.
    - intros v. unfold gv, static. cbn. destruct v; cbn; discriminate.
    - intros o. unfold gh. cbn. now destruct o.
    - constructor.
    - intros o D. split; [tauto|]. destruct o; cbn; intros [? _]; discriminate.
  Qed.
  Lemma rep_static : forall st i v T, rep st i -> static i v = Some T -> exists p, gv st v = Some (mkvar T p).
  Proof.
    intros st i v T R E. pose proof (r_vars _ _ R v) as V. rewrite E in V. unfold var_ok in V. destruct (gv st v) as [[t p]|]; [|contradiction].
    cbn in V. destruct V as [-> _]. eauto.
  Qed.
  Lemma static_lt : forall i v T, static i v = Some T -> v < length (iv i).
  Proof. intros i v T H. unfold static in H. apply nth_error_Some. destruct (nth_error (iv i) v); congruence. Qed.
  Lemma at_var_spec : forall v q, at_var v q = true <-> q = Var v.
  Proof. intros v [u| |]; cbn; [rewrite Nat.eqb_eq|..]; split; congruence. Qed.
  Lemma at_var_no : forall v q, q <> Var v -> at_var v q = false.
  Proof. intros v q H. destruct (at_var v q) eqn:E; auto. apply at_var_spec in E. contradiction. Qed.

  (* delete _ptr; _ptr = nullptr *)
  Lemma kill : forall st i v T p, rep st i -> gv st v = Some (mkvar T p) ->
    exists st1, delete virt st T p = Ok st1 /\ vars st1 = vars st /\ raws st1 = raws st /\ rep (setv st1 v (Some (mkvar T None))) (move_all v Gone i).
  Proof.
    intros st i v T p R G. pose proof (gv_lt _ _ _ G) as L. pose proof (r_vars _ _ R v) as V. rewrite G in V. unfold var_ok in V.
    destruct (static i v) as [T'|] eqn:Es; [|contradiction]. cbn in V. destruct V as [<- [V1 V2]].
    destruct p as [o|].
    - assert (Po : pl i o = Var v) by now apply V1. destruct (V2 o Po) as [D [C Bd]].
      pose proof (r_heap _ _ R o) as H. rewrite Po, C in H. unfold gh in H. cbn [delete]. destruct (nth_error (heap st) o) as [x|] eqn:Eh; [|discriminate]. subst x.
      assert ((D =? T) || virt T = true) as ->. { destruct (Nat.eqb_spec D T); auto. cbn. apply (HV T D); auto. }
      eexists. split; [reflexivity|]. split; [reflexivity|]. split; [reflexivity|].
      assert (Lo : o < length (heap st)) by (apply nth_error_Some; congruence).
      assert (One : forall o', pl i o' = Var v -> o' = o) by (intros o' Q; apply V1 in Q; congruence).
      constructor; cbn [setv move_all vars heap raws dtors iv cls pl iraws].
      + rewrite lset_length. apply (r_len _ _ R).
      + intros u. rewrite gv_set by exact L. match goal with |- context [static ?j u] => change (static j u) with (static i u) end. destruct (Nat.eqb_spec u v) as [->|N].
        * rewrite Es. cbn. split; [reflexivity|]. split; [intros o'|intros o' Q].
          -- split; [discriminate|]. destruct (at_var v (pl i o')) eqn:Ea; [discriminate|]. intros Q. apply at_var_spec in Q. congruence.
          -- destruct (at_var v (pl i o')) eqn:Ea; [discriminate|]. apply at_var_spec in Q. congruence.
        * pose proof (r_vars _ _ R u) as W. assert (K : forall o', (if at_var v (pl i o') then Gone else pl i o') = Var u <-> pl i o' = Var u).
          { intros o'. destruct (at_var v (pl i o')) eqn:Ea; [|tauto]. apply at_var_spec in Ea. rewrite Ea. split; [discriminate|]. intros Q. injection Q as Q. congruence. }
          unfold var_ok in *. change (gv {| vars := vars st; heap := lset (heap st) o None; raws := raws st; dtors := dtors st ++ [(o, D)] |} u) with (gv st u).
          destruct (gv st u), (static i u); cbn [pl cls move_all move_one new_obj new_var new_raw end_var]; try contradiction.
          -- destruct W as [W1 [W2 W3]]. split; auto. split; [intros o'; rewrite W2, K; tauto|intros o' Q; apply W3; now apply K].
          -- intros o' Q. apply K in Q. now apply (W o').
      + rewrite lset_length. apply (r_hlen _ _ R).
      + intros o'. unfold gh. cbn [heap setv move_all pl cls]. destruct (Nat.eq_dec o' o) as [->|N].
        * rewrite lset_nth_eq by auto. rewrite Po. cbn. rewrite Nat.eqb_refl. reflexivity.
        * rewrite lset_nth_neq by auto. fold (gh st o'). rewrite (r_heap _ _ R o'). rewrite at_var_no; auto.
      + intros o' Q. rewrite (r_far _ _ R o' Q). reflexivity.
      + apply (r_raws _ _ R).
      + apply (r_typed _ _ R).
      + rewrite map_app. cbn. assert (H0 : ~ In o (map fst (dtors st))).
        { intros Q. apply in_map_iff in Q. destruct Q as [[a b] [Q1 Q2]]. cbn in Q1. subst a. apply (r_log _ _ R) in Q2. destruct Q2. congruence. }
        clear - H0 R. pose proof (r_once _ _ R) as Nd. revert H0 Nd. generalize (map fst (dtors st)). induction l as [|a l IH]; cbn; intros Hn Nd; [constructor; auto; constructor|].
        inversion Nd; subst. constructor; [rewrite in_app_iff; cbn; intuition|]. apply IH; tauto.
      + intros o' D'. rewrite in_app_iff, (r_log _ _ R). cbn [In]. split.
        * intros [[Q1 Q2]|[Q|[]]]; [rewrite Q2; auto|]. injection Q as <- <-. rewrite Po. cbn. rewrite Nat.eqb_refl. auto.
        * intros [Q1 Q2]. destruct (at_var v (pl i o')) eqn:Ea; [|left; auto]. apply at_var_spec in Ea. apply One in Ea. subst o'. right. left. congruence.
    - exists st. split; [reflexivity|]. split; [reflexivity|]. split; [reflexivity|].
      assert (No : forall o, pl i o <> Var v) by (intros o Q; apply V1 in Q; discriminate).
      assert (Eq : forall o, (if at_var v (pl i o) then Gone else pl i o) = pl i o) by (intros o; rewrite at_var_no; auto).
      constructor; cbn [setv move_all vars heap raws dtors iv cls pl iraws].
      + rewrite lset_length. apply (r_len _ _ R).
      + intros u. rewrite gv_set by exact L. match goal with |- context [static ?j u] => change (static j u) with (static i u) end. pose proof (r_vars _ _ R u) as W.
        destruct (Nat.eqb_spec u v) as [->|N].
        * rewrite Es. cbn. split; auto. split; [intros o'; rewrite Eq; apply V1|intros o'; rewrite Eq; apply V2].
        * unfold var_ok in *. destruct (gv st u), (static i u); cbn [pl cls move_all move_one new_obj new_var new_raw end_var]; try contradiction.
          -- destruct W as [W1 [W2 W3]]. split; auto. split; intros o'; rewrite Eq; auto.
          -- intros o'. rewrite Eq. auto.
      + apply (r_hlen _ _ R).
      + intros o. rewrite Eq. apply (r_heap _ _ R o).
      + intros o. rewrite Eq. apply (r_far _ _ R).
      + apply (r_raws _ _ R).
      + apply (r_typed _ _ R).
      + apply (r_once _ _ R).
      + intros o D. rewrite Eq. apply (r_log _ _ R).
  Qed.

  (* the places of objects change, the pointers with them; nothing is destroyed *)
  Lemma replace : forall st i st' pl', rep st i -> length (vars st') = length (vars st) -> heap st' = heap st -> raws st' = raws st -> dtors st' = dtors st ->
    (forall o, pl' o = Gone <-> pl i o = Gone) ->
    (forall v, var_ok (mki (iv i) (cls i) pl' (iraws i)) (gv st' v) (static i v) v) -> rep st' (mki (iv i) (cls i) pl' (iraws i)).
  Proof.
    intros st i st' pl' R E1 E2 E3 E4 K V. constructor; cbn [iv cls pl iraws]; rewrite ?E1, ?E2, ?E3, ?E4; try apply R.
    - exact V.
    - intros o. unfold gh. rewrite E2. fold (gh st o). rewrite (r_heap _ _ R o). specialize (K o). destruct (pl' o), (pl i o); auto; try (destruct K as [K1 K2]; (discriminate K1; reflexivity) || (discriminate K2; reflexivity)).
    - intros o Q. apply K. apply (r_far _ _ R o Q).
    - intros o D. rewrite (r_log _ _ R), K. tauto.
  Qed.
  (* v is null and takes what u has *)
  Lemma take : forall st i v u T U p, rep st i -> u <> v -> gv st v = Some (mkvar T None) -> gv st u = Some (mkvar U p) -> base T U = true ->
    rep (setv (setv st v (Some (mkvar T p))) u (Some (mkvar U None))) (move_all u (Var v) i).
  Proof.
    intros st i v u T U p R N Gv Gu B. pose proof (gv_lt _ _ _ Gv) as Lv. pose proof (gv_lt _ _ _ Gu) as Lu.
    pose proof (r_vars _ _ R v) as Vv. pose proof (r_vars _ _ R u) as Vu. rewrite Gv in Vv. rewrite Gu in Vu. unfold var_ok in Vv, Vu.
    destruct (static i v) as [T'|] eqn:Sv; [|contradiction]. destruct (static i u) as [U'|] eqn:Su; [|contradiction]. cbn in Vv, Vu.
    destruct Vv as [<- [V1 V2]], Vu as [<- [U1 U2]].
    assert (Nv : forall o, pl i o <> Var v) by (intros o Q; apply V1 in Q; discriminate).
    unfold move_all. apply (replace st i); auto.
    - cbn. now rewrite !lset_length.
    - intros o. destruct (at_var u (pl i o)) eqn:Ea; [|tauto]. apply at_var_spec in Ea. rewrite Ea. split; discriminate.
    - intros w. rewrite gv_set by (cbn; rewrite lset_length; exact Lu). rewrite gv_set by exact Lv.
      destruct (Nat.eqb_spec w u) as [->|Nu]; [|destruct (Nat.eqb_spec w v) as [->|Nw]].
      + rewrite Su. cbn. split; auto. split; [intros o; split; [discriminate|]|intros o]; (destruct (at_var u (pl i o)) eqn:Ea; [congruence|]; intros Q; apply at_var_spec in Q; congruence).
      + rewrite Sv. cbn. split; auto. assert (K : forall o, (if at_var u (pl i o) then Var v else pl i o) = Var v <-> pl i o = Var u).
        { intros o. destruct (at_var u (pl i o)) eqn:Ea; [apply at_var_spec in Ea; tauto|]. split; intros Q; [destruct (Nv o Q)|apply at_var_spec in Q; congruence]. }
        split; intros o; [rewrite K; apply U1|rewrite K]. intros Q. destruct (U2 o Q) as [D [C Bd]]. exists D. split; auto. eapply (proj2 HI); eauto.
      + assert (K : forall o, (if at_var u (pl i o) then Var v else pl i o) = Var w <-> pl i o = Var w).
        { intros o. destruct (at_var u (pl i o)) eqn:Ea; [|tauto]. apply at_var_spec in Ea. rewrite Ea. split; intros Q; injection Q as Q; congruence. }
        pose proof (r_vars _ _ R w) as W. unfold var_ok in *. destruct (gv st w), (static i w); cbn [pl cls move_all move_one new_obj new_var new_raw end_var]; try contradiction.
        * destruct W as [W1 [W2 W3]]. split; auto. split; intros o; rewrite K; auto.
        * intros o. rewrite K. auto.
  Qed.
  (* v is null and takes a loose object *)
  Lemma adopt : forall st i v T o D, rep st i -> gv st v = Some (mkvar T None) -> pl i o = Loose -> nth_error (cls i) o = Some D -> base T D = true ->
    rep (setv st v (Some (mkvar T (Some o)))) (move_one o (Var v) i).
  Proof.
    intros st i v T o D R Gv Po C B. pose proof (gv_lt _ _ _ Gv) as Lv. pose proof (r_vars _ _ R v) as Vv. rewrite Gv in Vv. unfold var_ok in Vv.
    destruct (static i v) as [T'|] eqn:Sv; [|contradiction]. cbn in Vv. destruct Vv as [<- [V1 V2]].
    assert (Nv : forall o, pl i o <> Var v) by (intros o' Q; apply V1 in Q; discriminate).
    unfold move_one. apply (replace st i); auto.
    - cbn. now rewrite lset_length.
    - intros o'. destruct (Nat.eqb_spec o' o) as [->|]; [|tauto]. rewrite Po. split; discriminate.
    - intros w. rewrite gv_set by exact Lv. destruct (Nat.eqb_spec w v) as [->|Nw].
      + rewrite Sv. cbn. split; auto. split; intros o'; destruct (Nat.eqb_spec o' o) as [->|No].
        * tauto.
        * split; intros Q; [congruence|destruct (Nv o' Q)].
        * eauto.
        * intros Q. destruct (Nv o' Q).
      + assert (K : forall o', (if o' =? o then Var v else pl i o') = Var w <-> pl i o' = Var w).
        { intros o'. destruct (Nat.eqb_spec o' o) as [->|]; [|tauto]. rewrite Po. split; intros Q; [injection Q as Q; congruence|discriminate]. }
        pose proof (r_vars _ _ R w) as W. unfold var_ok in *. destruct (gv st w), (static i w); cbn [pl cls move_all move_one new_obj new_var new_raw end_var]; try contradiction.
        * destruct W as [W1 [W2 W3]]. split; auto. split; intros o'; rewrite K; auto.
        * intros o'. rewrite K. auto.
  Qed.
  Lemma loosen : forall st i v T p, rep st i -> gv st v = Some (mkvar T p) -> rep (setv st v (Some (mkvar T None))) (move_all v Loose i).
  Proof.
    intros st i v T p R Gv. pose proof (gv_lt _ _ _ Gv) as Lv. pose proof (r_vars _ _ R v) as Vv. rewrite Gv in Vv. unfold var_ok in Vv.
    destruct (static i v) as [T'|] eqn:Sv; [|contradiction]. cbn in Vv. destruct Vv as [<- [V1 V2]].
    unfold move_all. apply (replace st i); auto.
    - cbn. now rewrite lset_length.
    - intros o. destruct (at_var v (pl i o)) eqn:Ea; [|tauto]. apply at_var_spec in Ea. rewrite Ea. split; discriminate.
    - intros w. rewrite gv_set by exact Lv. destruct (Nat.eqb_spec w v) as [->|Nw].
      + rewrite Sv. cbn. split; auto. split; [intros o; split; [discriminate|]|intros o]; (destruct (at_var v (pl i o)) eqn:Ea; [congruence|]; intros Q; apply at_var_spec in Q; congruence).
      + assert (K : forall o, (if at_var v (pl i o) then Loose else pl i o) = Var w <-> pl i o = Var w).
        { intros o. destruct (at_var v (pl i o)) eqn:Ea; [|tauto]. apply at_var_spec in Ea. rewrite Ea. split; intros Q; [discriminate|injection Q as Q; congruence]. }
        pose proof (r_vars _ _ R w) as W. unfold var_ok in *. destruct (gv st w), (static i w); cbn [pl cls move_all move_one new_obj new_var new_raw end_var]; try contradiction.
        * destruct W as [W1 [W2 W3]]. split; auto. split; intros o; rewrite K; auto.
        * intros o. rewrite K. auto.
  Qed.
  Lemma add_var_rep : forall st i T, rep st i -> rep (addv st T) (new_var T i).
  Proof.
    intros st i T R. pose proof (r_len _ _ R) as Ln. constructor; cbn [addv new_var vars heap raws dtors iv cls pl iraws]; try apply R.
    - rewrite !app_length, Ln. reflexivity.
    - intros v. unfold gv, static. cbn [addv new_var vars iv]. rewrite !nth_snoc, Ln. pose proof (r_vars _ _ R v) as W.
      destruct (Nat.eqb_spec v (length (iv i))) as [->|N]; [|exact W].
      assert (gv st (length (iv i)) = None) as G0 by (unfold gv; rewrite (proj2 (nth_error_None _ _)) by lia; reflexivity).
      assert (static i (length (iv i)) = None) as S0 by (unfold static; rewrite (proj2 (nth_error_None _ _)) by lia; reflexivity).
      rewrite G0, S0 in W. cbn in W |- *. split; auto. split; intros o; [split; [discriminate|]|]; intros Q; destruct (W o Q).
  Qed.
  Lemma add_obj_rep : forall st i D, rep st i -> rep (addo st D) (new_obj D i).
  Proof.
    intros st i D R. pose proof (r_hlen _ _ R) as Lh. pose proof (r_far _ _ R (length (cls i)) (le_n _)) as Fn.
    constructor; cbn [addo new_obj move_one vars heap raws dtors iv cls pl iraws]; try apply R.
    - intros v. pose proof (r_vars _ _ R v) as W. change (gv (addo st D) v) with (gv st v). match goal with |- context [static ?j v] => change (static j v) with (static i v) end.
      assert (K : forall o w, (if o =? length (cls i) then Loose else pl i o) = Var w <-> pl i o = Var w).
      { intros o w. destruct (Nat.eqb_spec o (length (cls i))) as [->|]; [|tauto]. rewrite Fn. split; discriminate. }
      unfold var_ok in *. destruct (gv st v), (static i v); cbn [pl cls move_all move_one new_obj new_var new_raw end_var]; try contradiction.
      + destruct W as [W1 [W2 W3]]. split; auto. split; intros o; rewrite K; auto. intros Q. destruct (W3 o Q) as [D' [C B]]. exists D'. split; auto. rewrite nth_error_app1; auto. apply nth_error_Some. congruence.
      + intros o. rewrite K. auto.
    - rewrite !app_length, Lh. reflexivity.
    - intros o. unfold gh. cbn [addo heap]. rewrite !nth_snoc, Lh. destruct (Nat.eqb_spec o (length (cls i))); [reflexivity|]. apply (r_heap _ _ R o).
    - intros o. rewrite app_length. cbn. intros Q. destruct (Nat.eqb_spec o (length (cls i))); [lia|]. apply (r_far _ _ R). lia.
    - intros U o Q. destruct (r_typed _ _ R U o Q) as [D' [C B]]. exists D'. split; auto. rewrite nth_error_app1; auto. apply nth_error_Some. congruence.
    - intros o D'. rewrite (r_log _ _ R), nth_snoc. destruct (Nat.eqb_spec o (length (cls i))) as [->|]; [|tauto].
      split; [|intros [_ Q]; discriminate]. intros [Q _]. assert (length (cls i) < length (cls i)); [apply nth_error_Some; congruence|lia].
  Qed.
  Lemma add_raw_rep : forall st i U p, rep st i -> (forall o, p = Some o -> exists D, nth_error (cls i) o = Some D /\ base U D = true) ->
    rep (addr st (U, p)) (new_raw (U, p) i).
  Proof.
    intros st i U p R H. constructor; cbn [addr new_raw vars heap raws dtors iv cls pl iraws]; try apply R.
    - now rewrite (r_raws _ _ R).
    - intros U' o Q. apply in_app_or in Q. destruct Q as [Q|[Q|[]]]; [now apply (r_typed _ _ R)|]. injection Q as <- Q. auto.
  Qed.
  Lemma end_var_rep : forall st i v T, rep st i -> gv st v = Some (mkvar T None) -> rep (setv st v None) (end_var v i).
  Proof.
    intros st i v T R Gv. pose proof (gv_lt _ _ _ Gv) as Lv. pose proof (r_len _ _ R) as Ln. pose proof (r_vars _ _ R v) as Vv. rewrite Gv in Vv. unfold var_ok in Vv.
    destruct (static i v) as [T'|] eqn:Sv; [|contradiction]. cbn in Vv. destruct Vv as [<- [V1 V2]].
    assert (Li : firstn v (iv i) ++ None :: skipn (S v) (iv i) = lset (iv i) v None) by (symmetry; apply lset_split; lia).
    constructor; cbn [setv end_var vars heap raws dtors iv cls pl iraws]; try apply R.
    - now rewrite Li, !lset_length.
    - intros w. rewrite gv_set by exact Lv. unfold static. cbn [end_var iv]. rewrite Li. destruct (Nat.eqb_spec w v) as [->|N].
      + rewrite lset_nth_eq by lia. cbn. intros o Q. apply V1 in Q. discriminate.
      + rewrite lset_nth_neq by auto. apply (r_vars _ _ R w).
  Qed.
  Lemma held_ptr : forall st i v T p, rep st i -> gv st v = Some (mkvar T p) -> held i v = p.
  Proof.
    intros st i v T p R Gv. pose proof (r_vars _ _ R v) as Vv. rewrite Gv in Vv. unfold var_ok in Vv. destruct (static i v); [|contradiction]. cbn in Vv. destruct Vv as [_ [V1 V2]].
    unfold held. destruct (find _ _) as [o|] eqn:F.
    - apply find_some in F. destruct F as [_ F]. apply at_var_spec in F. apply V1 in F. auto.
    - destruct p as [o|]; auto. assert (Q : pl i o = Var v) by now apply V1. destruct (V2 o Q) as [D [C _]].
      pose proof (find_none _ _ F o) as N. cbn in N. rewrite Q in N. cbn in N. rewrite Nat.eqb_refl in N. exfalso. assert (true = false); [apply N|discriminate].
      apply in_seq. split; [lia|]. cbn. apply nth_error_Some. congruence.
  Qed.
  Lemma ptr_typed : forall st i v T p, rep st i -> gv st v = Some (mkvar T p) -> forall o, p = Some o -> exists D, nth_error (cls i) o = Some D /\ base T D = true.
  Proof.
    intros st i v T p R Gv o ->. pose proof (r_vars _ _ R v) as Vv. rewrite Gv in Vv. unfold var_ok in Vv. destruct (static i v); [|contradiction]. cbn in Vv. destruct Vv as [<- [V1 V2]].
    apply V2. now apply V1.
  Qed.
  Lemma setv_twice : forall st v x y, setv (setv st v x) v y = setv st v y.
  Proof. intros. unfold setv. cbn. now rewrite lset_twice. Qed.

  Lemma reset_rep : forall st i v T p q, rep st i -> gv st v = Some (mkvar T p) ->
    match q with None => True | Some o => pl i o = Loose /\ exists D, nth_error (cls i) o = Some D /\ base T D = true end ->
    exists st', reset virt st v q = Ok st' /\ raws st' = raws st /\ rep st' (match q with None => move_all v Gone i | Some o => move_one o (Var v) (move_all v Gone i) end).
  Proof.
    intros st i v T p q R G Q. unfold reset. rewrite (getv_gv _ _ _ G). cbn [bind ptr sty].
    assert ((match q, p with Some a, Some b => negb (a =? b) | _, _ => true end) = true) as ->.
    { destruct q as [a|], p as [b|]; auto. destruct Q as [Q _]. pose proof (r_vars _ _ R v) as V. rewrite G in V. unfold var_ok in V. destruct (static i v); [|contradiction]. cbn in V. destruct V as [_ [V _]].
      destruct (Nat.eqb_spec a b) as [->|]; auto. pose proof (proj1 (V b) eq_refl). congruence. }
    cbn [contract bind]. destruct (kill st i v T p R G) as [st1 [-> [E1 [E2 K]]]]. cbn [bind].
    eexists. split; [reflexivity|]. split; [exact E2|].
    destruct q as [o|]; [|exact K]. destruct Q as [Q1 [D [Q2 Q3]]]. rewrite <- (setv_twice st1 v (Some (mkvar T None))).
    apply (adopt _ _ v T o D K); auto.
    - rewrite gv_set; [now rewrite Nat.eqb_refl|]. rewrite E1. eapply gv_lt; eauto.
    - cbn. rewrite Q1. reflexivity.
  Qed.

  Lemma step_rep : forall st i o i' r, rep st i -> istep base i o = Some (i', r) -> exists st', step virt st o = Ok (st', r) /\ rep st' i'.
  Proof.
    intros st i o i' r R E. pose proof (r_len _ _ R) as Ln.
    destruct o as [T|T|T v|v u|v|v k|v|v|D|v|v]; cbn [istep step] in *.
    - injection E as <- <-. eexists. split; [reflexivity|]. now apply add_var_rep.
    - injection E as <- <-. unfold make. rewrite (r_hlen _ _ R), Ln. pose proof (add_obj_rep _ _ T (add_var_rep st i T R)) as R2.
      assert (G : gv (addo (addv st T) T) (length (iv i)) = Some (mkvar T None)) by (unfold gv; cbn; rewrite <- Ln, nth_snoc, Nat.eqb_refl; reflexivity).
      unfold reset. rewrite (getv_gv _ _ _ G). cbn [contract bind ptr sty delete unit_]. eexists. split; [reflexivity|].
      apply (adopt _ _ _ T _ T R2 G); [cbn; now rewrite Nat.eqb_refl|cbn; now rewrite nth_snoc, Nat.eqb_refl|apply HI].
    - destruct (static i v) as [U|] eqn:Sv; [|discriminate]. destruct (base T U) eqn:B; [|discriminate]. injection E as <- <-.
      destruct (rep_static _ _ _ _ R Sv) as [p Gv]. pose proof (gv_lt _ _ _ Gv) as Lv. pose proof (add_var_rep st i T R) as R2.
      assert (G2 : gv (addv st T) v = Some (mkvar U p)) by (unfold gv in *; cbn; rewrite nth_snoc; destruct (Nat.eqb_spec v (length (vars st))); [lia|exact Gv]).
      assert (G3 : gv (addv st T) (length (vars st)) = Some (mkvar T None)) by (unfold gv; cbn; rewrite nth_snoc, Nat.eqb_refl; reflexivity).
      unfold convert. rewrite (getv_gv _ _ _ G2). cbn [bind unit_ sty ptr]. eexists. split; [reflexivity|]. rewrite <- Ln.
      apply (take _ _ (length (vars st)) v T U p R2); auto. lia.
    - destruct (static i v) as [T|] eqn:Sv; [|discriminate]. destruct (static i u) as [U|] eqn:Su; [|discriminate]. destruct (base T U) eqn:B; [|discriminate]. injection E as <- <-.
      destruct (rep_static _ _ _ _ R Sv) as [p Gv]. destruct (rep_static _ _ _ _ R Su) as [q Gu]. pose proof (gv_lt _ _ _ Gv) as Lv.
      unfold assign. rewrite (getv_gv _ _ _ Gv). cbn [bind sty ptr]. destruct (kill st i v T p R Gv) as [st1 [-> [E1 [E2 K]]]]. cbn [bind].
      assert (Gu1 : gv st1 u = Some (mkvar U q)) by (unfold gv in *; rewrite E1; exact Gu). rewrite (getv_gv _ _ _ Gu1). cbn [bind sty ptr unit_]. eexists. split; [reflexivity|].
      destruct (Nat.eqb_spec v u) as [->|N].
      + rewrite setv_twice. assert (U = T) by congruence. subst U. exact K.
      + rewrite <- (setv_twice st1 v (Some (mkvar T None))). apply (take _ _ v u T U q K); auto.
        * rewrite gv_set by (rewrite E1; exact Lv). now rewrite Nat.eqb_refl.
        * rewrite gv_set by (rewrite E1; exact Lv). destruct (Nat.eqb_spec u v); [congruence|exact Gu1].
    - destruct (static i v) as [T|] eqn:Sv; [|discriminate]. injection E as <- <-. destruct (rep_static _ _ _ _ R Sv) as [p Gv].
      destruct (reset_rep st i v T p None R Gv I) as [st' [-> [_ K]]]. exists st'. split; auto.
    - destruct (static i v) as [T|] eqn:Sv; [|discriminate]. destruct (rep_static _ _ _ _ R Sv) as [p Gv].
      destruct (nth_error (iraws i) k) as [[U q]|] eqn:Ek; [|discriminate]. unfold aget. rewrite (r_raws _ _ R), Ek. cbn [bind snd].
      destruct q as [o|].
      + destruct (base T U) eqn:B; [|discriminate]. destruct (pl i o) eqn:Po; try discriminate. injection E as <- <-.
        destruct (r_typed _ _ R U o) as [D [C Bd]]; [rewrite (r_raws _ _ R); eapply nth_error_In; eauto|].
        destruct (reset_rep st i v T p (Some o) R Gv) as [st' [-> [_ K]]]; [split; auto; exists D; split; auto; eapply (proj2 HI); eauto|]. exists st'. split; auto.
      + injection E as <- <-. destruct (reset_rep st i v T p None R Gv I) as [st' [-> [_ K]]]. exists st'. split; auto.
    - destruct (static i v) as [T|] eqn:Sv; [|discriminate]. injection E as <- <-. destruct (rep_static _ _ _ _ R Sv) as [p Gv].
      unfold release. rewrite (getv_gv _ _ _ Gv). cbn [bind unit_ sty ptr]. eexists. split; [reflexivity|]. rewrite (held_ptr _ _ _ _ _ R Gv).
      apply add_raw_rep; [eapply loosen; eauto|]. exact (ptr_typed _ _ _ _ _ R Gv).
    - destruct (static i v) as [T|] eqn:Sv; [|discriminate]. injection E as <- <-. destruct (rep_static _ _ _ _ R Sv) as [p Gv].
      rewrite (getv_gv _ _ _ Gv). cbn [bind unit_ sty ptr]. eexists. split; [reflexivity|]. rewrite (held_ptr _ _ _ _ _ R Gv).
      apply add_raw_rep; [exact R|]. exact (ptr_typed _ _ _ _ _ R Gv).
    - injection E as <- <-. eexists. split; [reflexivity|]. rewrite (r_hlen _ _ R). apply add_raw_rep; [now apply add_obj_rep|].
      intros o Q. injection Q as <-. exists D. cbn. rewrite nth_snoc, Nat.eqb_refl. split; auto. apply HI.
    - destruct (static i v) as [T|] eqn:Sv; [|discriminate]. injection E as <- <-. destruct (rep_static _ _ _ _ R Sv) as [p Gv].
      unfold destroy. rewrite (getv_gv _ _ _ Gv). cbn [bind sty ptr]. destruct (kill st i v T p R Gv) as [st1 [-> [E1 [E2 K]]]]. cbn [bind unit_]. eexists. split; [reflexivity|].
      rewrite <- (setv_twice st1 v (Some (mkvar T None))). apply (end_var_rep _ _ v T K). rewrite gv_set; [now rewrite Nat.eqb_refl|]. rewrite E1. eapply gv_lt; eauto.
    - destruct (static i v) as [T|] eqn:Sv; [|discriminate]. injection E as <- <-. destruct (rep_static _ _ _ _ R Sv) as [p Gv].
      rewrite (getv_gv _ _ _ Gv). cbn [bind ptr]. exists st. split; auto. rewrite (held_ptr _ _ _ _ _ R Gv). now destruct p.
  Qed.
End P.

From Coq Require Import NArith ZArith Arith List Bool Lia Permutation.
From Verif Require Import Base MpmcModel MpmcSpec RingProofs.
Import ListNotations.
Open Scope N_scope.

Lemma s64_small : forall x, x < 2 ^ 63 -> s64 x = Z.of_N x.
Proof. intros x H. unfold s64. destruct (N.ltb_spec x (2 ^ 63)); auto. lia. Qed.

Lemma skipn_nth : forall A (l : list A) j x, nth_error l j = Some x -> skipn j l = x :: skipn (S j) l.
Proof. induction l as [|y l IH]; intros [|j] x H; cbn in H; try discriminate; [inversion H; reflexivity|]. apply (IH j x H). Qed.

Section P.
  Context {T : Type} (k : N).
  Let cap := 2 ^ k.
  Hypothesis K1 : 1 <= k.
  Hypothesis K2 : k <= 62.
  Implicit Types (s : state T).

  Lemma cap_ge : 2 <= cap.
  Proof. unfold cap. change 2 with (2 ^ 1) at 1. apply N.pow_le_mono_r; lia. Qed.
  Lemma cap_le : cap <= 2 ^ 62.
  Proof. unfold cap. apply N.pow_le_mono_r; lia. Qed.
  Lemma mod_cap : forall q, (q + cap) mod cap = q mod cap.
  Proof. intro q. pose proof cap_ge. rewrite <- (N.mul_1_l cap) at 1. apply N.mod_add. lia. Qed.
  Lemma mod_inj : forall a b, a mod cap = b mod cap -> a < b + cap -> b < a + cap -> a = b.
  Proof.
    intros a b E H1 H2. pose proof cap_ge. pose proof (N.div_mod a cap ltac:(lia)). pose proof (N.div_mod b cap ltac:(lia)).
    rewrite E in H0. destruct (N.lt_trichotomy (a / cap) (b / cap)) as [L|[L|L]]; [nia|congruence|nia].
  Qed.

  Definition own (p : pc T) : option N :=
    match p with EWrite _ q | EStore _ q | DRead q | DStore _ q => Some q | _ => None end.
  Definition sq s (p : N) : N := seqs s (p mod cap).
  Definition dt s (p : N) : T := datas s (p mod cap).
  Definition val s (q : N) : option T := nth_error (ghost s) (N.to_nat q).

  Inductive status s (p : N) : Prop :=
  | S_free : sq s p = p -> p < deq s + cap -> status s p
  | S_enq : forall q t, p = q + cap -> deq s <= q -> sq s p = q -> own (thr s t) = Some q -> status s p
  | S_full : forall q, p = q + cap -> deq s <= q -> sq s p = q + 1 -> val s q = Some (dt s p) -> status s p
  | S_deq : forall q t, p = q + cap -> q < deq s -> sq s p = q + 1 -> own (thr s t) = Some q -> status s p.

  Definition pc_ok s (x : pc T) : Prop :=
    match x with
    | Idle | ELoad _ | DLoad => True
    | ESeq _ p => p <= enq s
    | ECas _ p => p <= enq s /\ (p = enq s -> sq s p = p)
    | EWrite v q => deq s <= q /\ q < enq s /\ enq s <= q + cap /\ sq s q = q /\ val s q = Some v
    | EStore v q => deq s <= q /\ q < enq s /\ enq s <= q + cap /\ sq s q = q /\ val s q = Some v /\ dt s q = v
    | DSeq p => p <= deq s
    | DCas p => p <= deq s /\ (p = deq s -> sq s p = p + 1)
    | DRead q => q < deq s /\ enq s <= q + cap /\ sq s q = q + 1 /\ val s q = Some (dt s q)
    | DStore v q => q < deq s /\ enq s <= q + cap /\ sq s q = q + 1 /\ val s q = Some v
    end.

  Record inv (n : N) s : Prop := {
    v_mask : mask s = cap - 1;
    v_n : enq s <= n;
    v_de : deq s <= enq s;
    v_ed : enq s <= deq s + cap;
    v_len : N.of_nat (length (ghost s)) = enq s;
    v_cells : forall p, enq s <= p -> p < enq s + cap -> status s p;
    v_pc : forall t, pc_ok s (thr s t);
    v_own : forall t t' q, own (thr s t) = Some q -> own (thr s t') = Some q -> t = t' }.

  Lemma cell_mod : forall n s p, inv n s -> cell s p = p mod cap.
  Proof. intros n s p I. unfold cell. rewrite (v_mask _ _ I). unfold cap. apply land_mask. Qed.
  Lemma own_window : forall n s t q, inv n s -> own (thr s t) = Some q -> q < enq s /\ enq s <= q + cap.
  Proof.
    intros n s t q I O. pose proof (v_pc _ _ I t) as P. pose proof (v_de _ _ I). destruct (thr s t); cbn in O; inversion O; subst; cbn in P; lia.
  Qed.
  Lemma own_seq : forall n s t q, inv n s -> own (thr s t) = Some q -> (deq s <= q /\ sq s q = q) \/ (q < deq s /\ sq s q = q + 1).
  Proof.
    intros n s t q I O. pose proof (v_pc _ _ I t) as P. destruct (thr s t); cbn in O; inversion O; subst; cbn in P; tauto.
  Qed.
  Lemma sq_cap : forall s q, sq s (q + cap) = sq s q.
  Proof. intros. unfold sq. rewrite mod_cap. auto. Qed.
  Lemma dt_cap : forall s q, dt s (q + cap) = dt s q.
  Proof. intros. unfold dt. rewrite mod_cap. auto. Qed.

  (* the cell of the next enqueue position is free if it carries that sequence number *)
  Lemma free_at_enq : forall n s, inv n s -> sq s (enq s) = enq s -> enq s < deq s + cap.
  Proof.
    intros n s I H. pose proof cap_ge. destruct (v_cells _ _ I (enq s)); try lia.
  Qed.
  Lemma full_at_deq : forall n s, inv n s -> sq s (deq s) = deq s + 1 -> deq s < enq s /\ val s (deq s) = Some (dt s (deq s)).
  Proof.
    intros n s I H. pose proof cap_ge. pose proof (v_de _ _ I). pose proof (v_ed _ _ I).
    destruct (N.eq_dec (deq s) (enq s)) as [E|E].
    - exfalso. rewrite E in H. destruct (v_cells _ _ I (enq s)); lia.
    - split; [lia|]. destruct (v_cells _ _ I (deq s + cap)); try lia; rewrite sq_cap in *; try lia.
      assert (q = deq s) by lia. subst q. rewrite dt_cap in H6. auto.
  Qed.

  (* a step of thread t that changes nothing but its own non-owning program point *)
  Lemma inv_set_thr : forall n s t p, inv n s -> own (thr s t) = None -> own p = None -> pc_ok s p -> inv n (set_thr s t p).
  Proof.
    intros n s t p I O1 O2 PC. pose proof I as [I1 I2 I3 I4 I5 I6 I7 I8].
    assert (OW : forall t' q, own (upd (thr s) t p t') = Some q -> own (thr s t') = Some q).
    { intros t' q H. unfold upd in H. destruct (Nat.eqb_spec t' t); auto. subst. congruence. }
    assert (OW' : forall t' q, own (thr s t') = Some q -> own (upd (thr s) t p t') = Some q).
    { intros t' q H. unfold upd. destruct (Nat.eqb_spec t' t); auto. subst. congruence. }
    constructor; cbn; auto.
    - intros x A B. destruct (I6 x A B) as [A1 A2|q t' A1 A2 A3 A4|q A1 A2 A3 A4|q t' A1 A2 A3 A4].
      + apply S_free; auto.
      + apply (S_enq _ _ q t'); auto. cbn. apply OW'. auto.
      + apply (S_full _ _ q); auto.
      + apply (S_deq _ _ q t'); auto. cbn. apply OW'. auto.
    - intro t'. unfold upd. destruct (Nat.eqb t' t); auto. specialize (I7 t'). destruct (thr s t'); exact I7.
    - intros t1 t2 q H1 H2. eapply I8; eauto.
  Qed.

  Lemma inv_mono : forall n n' s, inv n s -> n <= n' -> inv n' s.
  Proof. intros n n' s [] H. constructor; auto. lia. Qed.

  (* enqueue CAS *)
  Lemma inv_ecas : forall n s t v, inv n s -> thr s t = ECas v (enq s) ->
    inv (n + 1) (set_thr (mkS (mask s) (seqs s) (datas s) (enq s + 1) (deq s) (thr s) (ghost s ++ [v])) t (EWrite v (enq s))).
  Proof.
    intros n s t v I TH. pose proof cap_ge. pose proof (v_pc _ _ I t) as P. rewrite TH in P. cbn in P. destruct P as [_ P]. specialize (P eq_refl).
    pose proof (free_at_enq _ _ I P) as F. pose proof I as [I1 I2 I3 I4 I5 I6 I7 I8].
    assert (VA : forall q x, nth_error (ghost s) (N.to_nat q) = Some x -> nth_error (ghost s ++ [v]) (N.to_nat q) = Some x).
    { intros q x E. rewrite nth_error_app1; auto. apply nth_error_Some. congruence. }
    assert (VE : nth_error (ghost s ++ [v]) (N.to_nat (enq s)) = Some v).
    { rewrite nth_error_app2 by lia. replace (N.to_nat (enq s) - length (ghost s))%nat with 0%nat by lia. auto. }
    assert (OWN : forall t' q, t' <> t -> own (upd (thr s) t (EWrite v (enq s)) t') = Some q <-> own (thr s t') = Some q).
    { intros t' q NE. unfold upd. destruct (Nat.eqb_spec t' t); [congruence|tauto]. }
    assert (NT : forall t' q, own (thr s t') = Some q -> t' <> t) by (intros t' q O ->; rewrite TH in O; discriminate).
    constructor; cbn; auto; try lia.
    - rewrite app_length. cbn. lia.
    - intros p A B. destruct (N.eq_dec p (enq s + cap)).
      + subst p. eapply (S_enq _ _ (enq s) t); cbn; auto.
        * change (sq s (enq s + cap) = enq s). rewrite sq_cap. auto.
        * unfold upd. rewrite Nat.eqb_refl. auto.
      + destruct (I6 p) as [A1 A2|q t' A1 A2 A3 A4|q A1 A2 A3 A4|q t' A1 A2 A3 A4]; try lia.
        * apply S_free; auto.
        * apply (S_enq _ _ q t'); auto. cbn. apply OWN; eauto.
        * apply (S_full _ _ q); auto. unfold val in *. cbn. apply VA. auto.
        * apply (S_deq _ _ q t'); auto. cbn. apply OWN; eauto.
    - intro t'. unfold upd. destruct (Nat.eqb_spec t' t).
      + cbn. repeat split; auto; lia.
      + specialize (I7 t'). destruct (thr s t'); cbn in *; auto; unfold val in *; cbn in *.
        * lia.
        * split; [lia|]. intro; lia.
        * destruct I7 as [B1 [B2 [B3 [B4 B5]]]]. repeat split; auto; lia.
        * destruct I7 as [B1 [B2 [B3 [B4 [B5 B6]]]]]. repeat split; auto; lia.
        * destruct I7 as [B1 [B2 [B3 B4]]]. repeat split; auto.
          destruct (N.eq_dec (enq s) (pos + cap)); [|lia]. exfalso.
          rewrite e in P. rewrite sq_cap in P. lia.
        * destruct I7 as [B1 [B2 [B3 B4]]]. repeat split; auto.
          destruct (N.eq_dec (enq s) (pos + cap)); [|lia]. exfalso.
          rewrite e in P. rewrite sq_cap in P. lia.
    - assert (OT : forall t' q, t' <> t -> own (thr s t') = Some q -> q <> enq s).
      { intros t' q NE O ->. destruct (own_window _ _ _ _ I O). lia. }
      intros t1 t2 q O1 O2. destruct (Nat.eq_dec t1 t), (Nat.eq_dec t2 t); try congruence.
      + subst t1. unfold upd in O1. rewrite Nat.eqb_refl in O1. cbn in O1. inversion O1; subst. apply OWN in O2; auto. exfalso. eapply OT; eauto.
      + subst t2. unfold upd in O2. rewrite Nat.eqb_refl in O2. cbn in O2. inversion O2; subst. apply OWN in O1; auto. exfalso. eapply OT; eauto.
      + apply OWN in O1; auto. apply OWN in O2; auto. eauto.
  Qed.

  (* dequeue CAS *)
  Lemma inv_dcas : forall n s t, inv n s -> thr s t = DCas (deq s) ->
    inv n (set_thr (mkS (mask s) (seqs s) (datas s) (enq s) (deq s + 1) (thr s) (ghost s)) t (DRead (deq s))) /\
    val s (deq s) = Some (dt s (deq s)) /\ deq s < enq s.
  Proof.
    intros n s t I TH. pose proof cap_ge. pose proof (v_pc _ _ I t) as P. rewrite TH in P. cbn in P. destruct P as [_ P]. specialize (P eq_refl).
    destruct (full_at_deq _ _ I P) as [F1 F2]. split; auto. pose proof I as [I1 I2 I3 I4 I5 I6 I7 I8].
    assert (OWN : forall t' q, t' <> t -> own (upd (thr s) t (DRead (deq s)) t') = Some q <-> own (thr s t') = Some q).
    { intros t' q NE. unfold upd. destruct (Nat.eqb_spec t' t); [congruence|tauto]. }
    assert (NT : forall t' q, own (thr s t') = Some q -> t' <> t) by (intros t' q O ->; rewrite TH in O; discriminate).
    assert (NO : forall t' q, own (thr s t') = Some q -> q <> deq s).
    { intros t' q O ->. destruct (own_seq _ _ _ _ I O); lia. }
    constructor; cbn; auto; try lia.
    - intros p A B. destruct (N.eq_dec p (deq s + cap)).
      + subst p. eapply (S_deq _ _ (deq s) t); cbn; auto; try lia.
        * change (sq s (deq s + cap) = deq s + 1). rewrite sq_cap. auto.
        * unfold upd. rewrite Nat.eqb_refl. auto.
      + destruct (I6 p) as [A1 A2|q t' A1 A2 A3 A4|q A1 A2 A3 A4|q t' A1 A2 A3 A4]; try lia.
        * apply S_free; auto. cbn. lia.
        * apply (S_enq _ _ q t'); auto; cbn; [lia|]. apply OWN; eauto.
        * apply (S_full _ _ q); auto. cbn. lia.
        * apply (S_deq _ _ q t'); auto; cbn; [lia|]. apply OWN; eauto.
    - intro t'. unfold upd. destruct (Nat.eqb_spec t' t).
      + cbn. repeat split; auto; lia.
      + pose proof (NO t') as NOt. specialize (I7 t'). destruct (thr s t'); cbn in *; auto; unfold val in *; cbn in *.
        * specialize (NOt pos eq_refl). destruct I7 as [B1 B2]. split; [lia|auto].
        * specialize (NOt pos eq_refl). destruct I7 as [B1 B2]. split; [lia|auto].
        * lia.
        * split; [lia|]. intro; lia.
        * destruct I7 as [B1 B2]. split; [lia|auto].
        * destruct I7 as [B1 B2]. split; [lia|auto].
    - intros t1 t2 q O1 O2. destruct (Nat.eq_dec t1 t), (Nat.eq_dec t2 t); try congruence.
      + subst t1. unfold upd in O1. rewrite Nat.eqb_refl in O1. cbn in O1. inversion O1; subst. apply OWN in O2; auto. exfalso. eapply NO; eauto.
      + subst t2. unfold upd in O2. rewrite Nat.eqb_refl in O2. cbn in O2. inversion O2; subst. apply OWN in O1; auto. exfalso. eapply NO; eauto.
      + apply OWN in O1; auto. apply OWN in O2; auto. eauto.
  Qed.

  Lemma same_cell : forall n s t q p, inv n s -> own (thr s t) = Some q -> enq s <= p -> p < enq s + cap ->
    p mod cap = q mod cap -> p = q + cap.
  Proof.
    intros n s t q p I O A B E. destruct (own_window _ _ _ _ I O). apply mod_inj; [rewrite mod_cap; auto|lia|lia].
  Qed.
  Lemma other_cell : forall n s t t' q q', inv n s -> own (thr s t) = Some q -> own (thr s t') = Some q' -> t <> t' -> q mod cap <> q' mod cap.
  Proof.
    intros n s t t' q q' I O O' NE E. destruct (own_window _ _ _ _ I O), (own_window _ _ _ _ I O').
    assert (q = q') by (apply mod_inj; auto; lia). subst. apply NE. eapply (v_own _ _ I); eauto.
  Qed.

  (* payload write *)
  Lemma inv_ewrite : forall n s t v q, inv n s -> thr s t = EWrite v q -> inv n (set_thr (set_data s q v) t (EStore v q)).
  Proof.
    intros n s t v q I TH. pose proof cap_ge. pose proof (v_pc _ _ I t) as P. rewrite TH in P. cbn in P. destruct P as [P1 [P2 [P3 [P4 P5]]]].
    assert (OT : own (thr s t) = Some q) by (rewrite TH; auto). pose proof I as [I1 I2 I3 I4 I5 I6 I7 I8].
    assert (OWN : forall t' x, own (upd (thr s) t (EStore v q) t') = Some x <-> own (thr s t') = Some x).
    { intros t' x. unfold upd. destruct (Nat.eqb_spec t' t); [|tauto]. subst. rewrite TH. cbn. tauto. }
    assert (DT : forall p, p mod cap <> q mod cap -> dt (set_thr (set_data s q v) t (EStore v q)) p = dt s p).
    { intros p NE. unfold dt. cbn. unfold updN. rewrite (cell_mod _ _ q I), (proj2 (N.eqb_neq _ _)); auto. }
    constructor; cbn; auto.
    - intros p A B. destruct (I6 p A B) as [A1 A2|q' t' A1 A2 A3 A4|q' A1 A2 A3 A4|q' t' A1 A2 A3 A4].
      + apply S_free; auto.
      + apply (S_enq _ _ q' t'); auto. cbn. apply OWN. auto.
      + apply (S_full _ _ q'); auto. rewrite DT; auto. intro E. pose proof (same_cell _ _ _ _ _ I OT A B E). subst p. rewrite sq_cap in A3. assert (q' = q) by lia. subst q'. lia.
      + apply (S_deq _ _ q' t'); auto. cbn. apply OWN. auto.
    - intro t'. unfold upd. destruct (Nat.eqb_spec t' t).
      + cbn. repeat split; auto; try lia. unfold dt. cbn. unfold updN. rewrite (cell_mod _ _ q I), N.eqb_refl. auto.
      + assert (OC : forall q', own (thr s t') = Some q' -> q' mod cap <> q mod cap) by (intros q' O'; eapply (other_cell _ _ t' t); eauto). specialize (I7 t'). destruct (thr s t') eqn:TH'; cbn in *; auto.
        * rewrite DT; auto.
        * rewrite DT; auto.
    - intros t1 t2 x O1 O2. apply OWN in O1, O2. eauto.
  Qed.

  (* sequence store of an enqueue *)
  Lemma inv_estore : forall n s t v q, inv n s -> thr s t = EStore v q -> inv n (set_thr (set_seq s q (q + 1)) t Idle).
  Proof.
    intros n s t v q I TH. pose proof cap_ge. pose proof (v_pc _ _ I t) as P. rewrite TH in P. cbn in P. destruct P as [P1 [P2 [P3 [P4 [P5 P6]]]]].
    assert (OT : own (thr s t) = Some q) by (rewrite TH; auto). pose proof I as [I1 I2 I3 I4 I5 I6 I7 I8].
    set (s' := set_thr (set_seq s q (q + 1)) t Idle).
    assert (OWN : forall t' x, own (upd (thr s) t Idle t') = Some x -> own (thr s t') = Some x).
    { intros t' x. unfold upd. destruct (Nat.eqb_spec t' t); [discriminate|tauto]. }
    assert (OWN' : forall t' x, t' <> t -> own (thr s t') = Some x -> own (upd (thr s) t Idle t') = Some x).
    { intros t' x. unfold upd. destruct (Nat.eqb_spec t' t); [congruence|tauto]. }
    assert (SQ : forall p, p mod cap <> q mod cap -> sq s' p = sq s p).
    { intros p NE. unfold sq, s'. cbn. unfold updN. rewrite (cell_mod _ _ q I), (proj2 (N.eqb_neq _ _)); auto. }
    assert (SQ' : forall p, p mod cap = q mod cap -> sq s' p = q + 1).
    { intros p E. unfold sq, s'. cbn. unfold updN. rewrite (cell_mod _ _ q I), E, N.eqb_refl; auto. }
    constructor; cbn; auto.
    - intros p A B. destruct (N.eq_dec (p mod cap) (q mod cap)) as [E|E].
      + pose proof (same_cell _ _ _ _ _ I OT A B E). subst p. apply (S_full _ _ q); auto. change (val s q = Some (dt s (q + cap))). rewrite dt_cap, P6. exact P5.
      + destruct (I6 p A B) as [A1 A2|q' t' A1 A2 A3 A4|q' A1 A2 A3 A4|q' t' A1 A2 A3 A4].
        * apply S_free; auto. fold s'. rewrite SQ; auto.
        * apply (S_enq _ _ q' t'); auto; [fold s'; rewrite SQ; auto|]. cbn. apply OWN'; auto. intros ->. rewrite OT in A4. inversion A4; subst. rewrite mod_cap in E. auto.
        * apply (S_full _ _ q'); auto. fold s'. rewrite SQ; auto.
        * apply (S_deq _ _ q' t'); auto; [fold s'; rewrite SQ; auto|]. cbn. apply OWN'; auto. intros ->. rewrite OT in A4. inversion A4; subst. rewrite mod_cap in E. auto.
    - intro t'. unfold upd. destruct (Nat.eqb_spec t' t); [exact Logic.I|].
      assert (OC : forall q', own (thr s t') = Some q' -> q' mod cap <> q mod cap) by (intros q' O'; eapply (other_cell _ _ t' t); eauto). specialize (I7 t'). destruct (thr s t') eqn:TH'; cbn in *; auto.
      + destruct I7 as [B1 B2]. split; auto. intro E. specialize (B2 E). rewrite SQ; auto. intro E2. subst pos.
        assert (enq s = q + cap). { eapply same_cell; eauto; lia. } rewrite H0 in B2. rewrite sq_cap in B2. lia.
      + rewrite SQ; auto.
      + rewrite SQ; auto.
      + destruct I7 as [B1 B2]. split; auto. intro E. specialize (B2 E). rewrite SQ; auto. intro E2. subst pos.
        assert (deq s = q). { apply mod_inj; auto; lia. } subst q. lia.
      + rewrite SQ; auto.
      + rewrite SQ; auto.
    - intros t1 t2 x O1 O2. apply OWN in O1, O2. eauto.
  Qed.

  (* payload read *)
  Lemma inv_dread : forall n s t q, inv n s -> thr s t = DRead q -> inv n (set_thr s t (DStore (dt s q) q)).
  Proof.
    intros n s t q I TH. pose proof (v_pc _ _ I t) as P. rewrite TH in P. cbn in P. destruct P as [P1 [P2 [P3 P4]]].
    pose proof I as [I1 I2 I3 I4 I5 I6 I7 I8].
    assert (OWN : forall t' x, own (upd (thr s) t (DStore (dt s q) q) t') = Some x <-> own (thr s t') = Some x).
    { intros t' x. unfold upd. destruct (Nat.eqb_spec t' t); [|tauto]. subst. rewrite TH. cbn. tauto. }
    constructor; cbn; auto.
    - intros p A B. destruct (I6 p A B) as [A1 A2|q' t' A1 A2 A3 A4|q' A1 A2 A3 A4|q' t' A1 A2 A3 A4].
      + apply S_free; auto.
      + apply (S_enq _ _ q' t'); auto. cbn. apply OWN. auto.
      + apply (S_full _ _ q'); auto.
      + apply (S_deq _ _ q' t'); auto. cbn. apply OWN. auto.
    - intro t'. unfold upd. destruct (Nat.eqb_spec t' t); [cbn; auto|]. specialize (I7 t'). destruct (thr s t'); exact I7.
    - intros t1 t2 x O1 O2. apply OWN in O1, O2. eauto.
  Qed.

  (* sequence store of a dequeue *)
  Lemma inv_dstore : forall n s t v q, inv n s -> thr s t = DStore v q -> inv n (set_thr (set_seq s q (q + cap)) t Idle).
  Proof.
    intros n s t v q I TH. pose proof cap_ge. pose proof (v_pc _ _ I t) as P. rewrite TH in P. cbn in P. destruct P as [P1 [P2 [P3 P4]]].
    assert (OT : own (thr s t) = Some q) by (rewrite TH; auto). pose proof I as [I1 I2 I3 I4 I5 I6 I7 I8].
    set (s' := set_thr (set_seq s q (q + cap)) t Idle).
    assert (OWN : forall t' x, own (upd (thr s) t Idle t') = Some x -> own (thr s t') = Some x).
    { intros t' x. unfold upd. destruct (Nat.eqb_spec t' t); [discriminate|tauto]. }
    assert (OWN' : forall t' x, t' <> t -> own (thr s t') = Some x -> own (upd (thr s) t Idle t') = Some x).
    { intros t' x. unfold upd. destruct (Nat.eqb_spec t' t); [congruence|tauto]. }
    assert (SQ : forall p, p mod cap <> q mod cap -> sq s' p = sq s p).
    { intros p NE. unfold sq, s'. cbn. unfold updN. rewrite (cell_mod _ _ q I), (proj2 (N.eqb_neq _ _)); auto. }
    assert (SQ' : forall p, p mod cap = q mod cap -> sq s' p = q + cap).
    { intros p E. unfold sq, s'. cbn. unfold updN. rewrite (cell_mod _ _ q I), E, N.eqb_refl; auto. }
    constructor; cbn; auto.
    - intros p A B. destruct (N.eq_dec (p mod cap) (q mod cap)) as [E|E].
      + pose proof (same_cell _ _ _ _ _ I OT A B E). subst p. apply S_free; [apply SQ'; auto|]. cbn. lia.
      + destruct (I6 p A B) as [A1 A2|q' t' A1 A2 A3 A4|q' A1 A2 A3 A4|q' t' A1 A2 A3 A4].
        * apply S_free; auto. fold s'. rewrite SQ; auto.
        * apply (S_enq _ _ q' t'); auto; [fold s'; rewrite SQ; auto|]. cbn. apply OWN'; auto. intros ->. rewrite OT in A4. inversion A4; subst. rewrite mod_cap in E. auto.
        * apply (S_full _ _ q'); auto. fold s'. rewrite SQ; auto.
        * apply (S_deq _ _ q' t'); auto; [fold s'; rewrite SQ; auto|]. cbn. apply OWN'; auto. intros ->. rewrite OT in A4. inversion A4; subst. rewrite mod_cap in E. auto.
    - intro t'. unfold upd. destruct (Nat.eqb_spec t' t); [exact Logic.I|].
      assert (OC : forall q', own (thr s t') = Some q' -> q' mod cap <> q mod cap) by (intros q' O'; eapply (other_cell _ _ t' t); eauto). specialize (I7 t'). destruct (thr s t') eqn:TH'; cbn in *; auto.
      + destruct I7 as [B1 B2]. split; auto. intro E. specialize (B2 E). rewrite SQ; auto. intro E2. subst pos.
        assert (enq s = q + cap). { eapply same_cell; eauto; lia. } rewrite H0 in B2. rewrite sq_cap in B2. lia.
      + rewrite SQ; auto.
      + rewrite SQ; auto.
      + destruct I7 as [B1 B2]. split; auto. intro E. specialize (B2 E). rewrite SQ; auto. intro E2. subst pos.
        destruct (full_at_deq _ _ I B2) as [F1 _]. assert (deq s = q). { apply mod_inj; auto; lia. } lia.
      + rewrite SQ; auto.
      + rewrite SQ; auto.
    - intros t1 t2 x O1 O2. apply OWN in O1, O2. eauto.
  Qed.

  (* abstraction *)
  Definition absq s : list T := skipn (N.to_nat (deq s)) (ghost s).
  Definition abspc s (x : pc T) : apc :=
    match x with
    | Idle => AIdle
    | ELoad v | ESeq v _ | ECas v _ => AEnq v
    | EWrite _ _ | EStore _ _ => AEnqDone
    | DLoad | DSeq _ | DCas _ => ADeq
    | DRead q => match val s q with Some v => ADeqDone v | None => AIdle end
    | DStore v _ => ADeqDone v
    end.
  Definition R s (a : astate (T := T)) : Prop := fifo a = absq s /\ forall t, athr a t = abspc s (thr s t).

  Lemma absq_len : forall n s, inv n s -> N.of_nat (length (absq s)) = enq s - deq s.
  Proof. intros n s I. unfold absq. rewrite skipn_length. pose proof (v_len _ _ I). pose proof (v_de _ _ I). lia. Qed.

  Lemma R_internal : forall n s t p a, inv n s -> R s a -> abspc s p = abspc s (thr s t) -> R (set_thr s t p) a.
  Proof.
    intros n s t p a I [R1 R2] E. split; auto. intro t'. cbn. unfold upd. destruct (Nat.eqb_spec t' t).
    - subst. rewrite R2. change (abspc (set_thr s t p) p) with (abspc s p). congruence.
    - apply R2.
  Qed.

  Lemma small : forall n s, inv n s -> n < 2 ^ 62 -> enq s < 2 ^ 62 /\ deq s <= enq s.
  Proof. intros n s I H. pose proof (v_n _ _ I). pose proof (v_de _ _ I). lia. Qed.

  (* the possible sequence numbers are small *)
  Lemma sq_cases : forall n s p, inv n s -> exists x, enq s <= x /\ x < enq s + cap /\ x mod cap = p mod cap /\
    (sq s p = x \/ exists q, x = q + cap /\ (sq s p = q \/ sq s p = q + 1)).
  Proof.
    intros n s p I. pose proof cap_ge.
    set (x := enq s + (p mod cap + cap - enq s mod cap) mod cap).
    assert (X : x mod cap = p mod cap).
    { unfold x. pose proof (N.mod_lt p cap ltac:(lia)). pose proof (N.mod_lt (enq s) cap ltac:(lia)).
      rewrite N.add_mod_idemp_r by lia. rewrite <- (N.add_mod_idemp_l (enq s)) by lia.
      assert (G : forall a b c, a < c -> b < c -> b + (a + c - b) = a + 1 * c) by (intros; lia). rewrite G by auto.
      rewrite N.mod_add by lia. apply N.mod_mod. lia. }
    pose proof (N.mod_lt (p mod cap + cap - enq s mod cap) cap ltac:(lia)).
    assert (SX : sq s p = sq s x) by (unfold sq; rewrite X; auto).
    assert (X1 : enq s <= x) by apply N.le_add_r. assert (X2 : x < enq s + cap) by (apply N.add_lt_mono_l; exact H0). clearbody x.
    exists x. split; [exact X1|]. split; [exact X2|]. split; [exact X|]. rewrite SX.
    destruct (v_cells _ _ I x X1 X2) as [A1 A2|q t A1 A2 A3 A4|q A1 A2 A3 A4|q t A1 A2 A3 A4]; [left; exact A1|right; exists q; auto..].
  Qed.
  Lemma sq_small : forall n s p, inv n s -> n < 2 ^ 62 -> sq s p < 2 ^ 63.
  Proof.
    intros n s p I H. pose proof cap_ge. pose proof cap_le. destruct (small _ _ I H). destruct (sq_cases _ _ p I) as [x [A [B [C D]]]].
    change (2 ^ 63) with (2 * 2 ^ 62). destruct D as [D|[q [D [E|E]]]]; lia.
  Qed.

  Lemma sq_past : forall n s p, inv n s -> p <= enq s -> p + cap > enq s -> sq s p < p -> p = enq s.
  Proof.
    intros n s p I A B C. pose proof cap_ge. destruct (N.eq_dec p (enq s)); auto. exfalso.
    destruct (v_cells _ _ I (p + cap)); try lia; rewrite sq_cap in *; lia.
  Qed.

  (* C26: why an enqueue may fail *)
  Lemma enq_fail_why : forall n s t v p, inv n s -> thr s t = ESeq v p -> sq s p < p ->
    N.of_nat (length (absq s)) = cap \/ exists t' w, abspc s (thr s t') = ADeqDone w.
  Proof.
    intros n s t v p I TH L. pose proof cap_ge. pose proof (v_pc _ _ I t) as P. rewrite TH in P. cbn in P.
    rewrite (absq_len _ _ I). pose proof (v_ed _ _ I).
    destruct (N.eq_dec p (enq s)) as [E|E].
    - subst p. destruct (v_cells _ _ I (enq s)) as [A1 A2|q t' A1 A2 A3 A4|q A1 A2 A3 A4|q t' A1 A2 A3 A4]; try lia.
      right. exists t'. pose proof (v_pc _ _ I t') as P'. destruct (thr s t'); cbn in A4; inversion A4; subst; cbn in P'; try lia.
      + cbn. destruct P' as [_ [_ [_ ->]]]. eauto.
      + cbn. eauto.
    - exfalso. destruct (sq_cases _ _ p I) as [x [A [B [C D]]]].
      assert (G : p + cap <= x).
      { destruct (N.le_gt_cases (p + cap) x); auto. exfalso. apply E. assert (p = x) by (apply mod_inj; auto; lia). lia. }
      destruct D as [D|[q [D [F|F]]]]; lia.
  Qed.
  Lemma deq_fail_why : forall n s t p, inv n s -> thr s t = DSeq p -> sq s p < p + 1 ->
    absq s = [] \/ exists t', abspc s (thr s t') = AEnqDone.
  Proof.
    intros n s t p I TH L. pose proof cap_ge. pose proof (v_pc _ _ I t) as P. rewrite TH in P. cbn in P.
    pose proof (v_ed _ _ I). pose proof (v_de _ _ I).
    destruct (N.eq_dec (deq s) (enq s)) as [E0|E0].
    { left. apply length_zero_iff_nil. pose proof (absq_len _ _ I). lia. }
    right. destruct (sq_cases _ _ p I) as [x [A [B [C D]]]].
    assert (X : p + cap <= x).
    { destruct (N.le_gt_cases (p + cap) x); auto. exfalso. assert (p = x) by (apply mod_inj; auto; lia). lia. }
    assert (SX : sq s p = sq s x) by (unfold sq; rewrite C; auto).
    destruct (v_cells _ _ I x) as [A1 A2|q t' A1 A2 A3 A4|q A1 A2 A3 A4|q t' A1 A2 A3 A4]; auto; try lia.
    exists t'. pose proof (v_pc _ _ I t') as P'. destruct (thr s t'); cbn in A4; inversion A4; subst; cbn in P'; auto; lia.
  Qed.

  Lemma z_cmp : forall a b, a < 2 ^ 63 -> b < 2 ^ 63 ->
    ((s64 a - s64 b =? 0)%Z = (a =? b)) /\ ((s64 a - s64 b <? 0)%Z = (a <? b)).
  Proof.
    intros a b A B. rewrite !s64_small by auto. split.
    - destruct (N.eqb_spec a b); [apply Z.eqb_eq|apply Z.eqb_neq]; lia.
    - destruct (N.ltb_spec a b); [apply Z.ltb_lt|apply Z.ltb_ge]; lia.
  Qed.

  (* one action keeps the invariant and is matched by the abstract machine *)
  Lemma act_spec : forall n s a x, inv n s -> n < 2 ^ 62 -> R s a ->
    let (s', es) := act s x in inv (n + 1) s' /\ exists a', aruns cap a es a' /\ R s' a'.
  Proof.
    intros n s a x I B RR. pose proof (inv_mono n (n + 1) s I ltac:(lia)) as IM. pose proof cap_ge. pose proof cap_le.
    destruct (small _ _ I B) as [SE SD].
    assert (RT : forall t p, abspc s p = abspc s (thr s t) -> exists a', aruns cap a [] a' /\ R (set_thr s t p) a').
    { intros t p E. exists a. split; [constructor|]. eapply R_internal; eauto. }
    assert (VIS : forall s2 t p e, (forall f, aset a t (abspc s2 p) f -> astep cap a (Some e) (mkA (fifo a) f)) ->
      absq s2 = absq s -> (forall t', t' <> t -> abspc s2 (thr s2 t') = abspc s (thr s t')) ->
      exists a', aruns cap a [e] a' /\ R (set_thr s2 t p) a').
    { intros s2 t p e ST AQ AT. destruct RR as [R1 R2].
      exists (mkA (fifo a) (fun t' => if (t' =? t)%nat then abspc s2 p else athr a t')). split.
      - eapply aruns_vis; [|constructor]. apply ST. intro t'. auto.
      - split; cbn; [rewrite R1; symmetry; exact AQ|]. intro t'. unfold upd.
        change (abspc (set_thr s2 t p)) with (abspc s2). destruct (Nat.eqb_spec t' t); auto. rewrite AT; auto. }
    pose proof RR as [R1 R2].
    destruct x as [t c|t weak]; cbn [act].
    - destruct (thr s t) eqn:TH; try (split; [exact IM|exists a; split; [constructor|exact RR]]).
      split; [apply inv_set_thr; auto; [rewrite TH; auto|destruct c; auto|destruct c; exact Logic.I]|].
      apply VIS; auto. intros f F. pose proof (R2 t) as RT'. rewrite TH in RT'. cbn in RT'. destruct c; cbn in F; constructor; auto.
    - unfold go. destruct (thr s t) eqn:TH.
      + split; auto. exists a. split; [constructor|auto].
      + split; [apply inv_set_thr; auto; [rewrite TH; auto|cbn; lia]|]. apply RT. rewrite TH. auto.
      + pose proof (v_pc _ _ I t) as P. rewrite TH in P. cbn in P. rewrite (cell_mod _ _ pos I). fold (sq s pos).
        pose proof (sq_small _ _ pos I B) as SQS. change (2 ^ 63) with (2 * 2 ^ 62) in SQS.
        destruct (z_cmp (sq s pos) pos ltac:(auto) ltac:(change (2 ^ 63) with (2 * 2 ^ 62); lia)) as [Z1 Z2]. rewrite Z1, Z2.
        destruct (N.eqb_spec (sq s pos) pos); [|destruct (N.ltb_spec (sq s pos) pos)].
        * split; [apply inv_set_thr; auto; [rewrite TH; auto|cbn; auto]|]. apply RT. rewrite TH. auto.
        * split; [apply inv_set_thr; auto; [rewrite TH; auto|exact Logic.I]|]. apply VIS; auto. intros f F.
          pose proof (R2 t) as RT'. rewrite TH in RT'. cbn in RT'. eapply A_fail_enq; eauto.
        * split; [apply inv_set_thr; auto; [rewrite TH; auto|exact Logic.I]|]. apply RT. rewrite TH. auto.
      + destruct (N.eqb_spec (enq s) pos); cbn [andb]; [destruct weak; cbn [negb]|].
        * split; [apply inv_set_thr; auto; [rewrite TH; auto|cbn; lia]|]. apply RT. rewrite TH. auto.
        * subst pos. rewrite wadd_small by (change (2 ^ 64) with (4 * 2 ^ 62); lia). pose proof (inv_ecas _ _ _ _ I TH) as IC. split; auto.
          pose proof (v_pc _ _ I t) as P. rewrite TH in P. cbn in P. destruct P as [_ P]. pose proof (free_at_enq _ _ I (P eq_refl)) as F.
          set (s' := set_thr _ t _) in *.
          exists (mkA (fifo a ++ [v]) (fun t' => if (t' =? t)%nat then AEnqDone else athr a t')). split.
          -- eapply aruns_tau; [|constructor]. eapply (A_enq cap a t v); auto.
             ++ rewrite R2, TH. auto.
             ++ rewrite R1, (absq_len _ _ I). lia.
             ++ intro t'. auto.
          -- split; cbn.
             ++ rewrite R1. unfold absq, s'. cbn. rewrite skipn_app. pose proof (v_len _ _ I).
                replace (N.to_nat (deq s) - length (ghost s))%nat with 0%nat by lia. auto.
             ++ intro t'. unfold upd. destruct (Nat.eqb_spec t' t); auto. rewrite R2.
                pose proof (v_pc _ _ I t') as P'. destruct (thr s t'); cbn in *; auto. destruct P' as [_ [_ [_ V]]].
                unfold val in *. cbn. rewrite V. rewrite nth_error_app1; [rewrite V; auto|]. apply nth_error_Some. congruence.
        * split; [apply inv_set_thr; auto; [rewrite TH; auto|cbn; lia]|]. apply RT. rewrite TH. auto.
      + split; [apply (inv_mono n); [eapply inv_ewrite; eauto|lia]|]. exists a. split; [constructor|]. split; auto.
        intro t'. cbn. unfold upd. destruct (Nat.eqb_spec t' t); [subst; rewrite R2, TH; auto|apply R2].
      + pose proof (v_pc _ _ I t) as P. rewrite TH in P. cbn in P. rewrite wadd_small by (change (2 ^ 64) with (4 * 2 ^ 62); lia).
        split; [apply (inv_mono n); [eapply inv_estore; eauto|lia]|]. apply VIS; auto. intros f F.
        eapply A_ret_enq; eauto. rewrite R2, TH. auto.
      + split; [apply inv_set_thr; auto; [rewrite TH; auto|cbn; lia]|]. apply RT. rewrite TH. auto.
      + pose proof (v_pc _ _ I t) as P. rewrite TH in P. cbn in P. rewrite (cell_mod _ _ pos I). fold (sq s pos).
        rewrite wadd_small by (change (2 ^ 64) with (4 * 2 ^ 62); lia).
        pose proof (sq_small _ _ pos I B) as SQS. change (2 ^ 63) with (2 * 2 ^ 62) in SQS.
        destruct (z_cmp (sq s pos) (pos + 1) ltac:(auto) ltac:(change (2 ^ 63) with (2 * 2 ^ 62); lia)) as [Z1 Z2]. rewrite Z1, Z2.
        destruct (N.eqb_spec (sq s pos) (pos + 1)); [|destruct (N.ltb_spec (sq s pos) (pos + 1))].
        * split; [apply inv_set_thr; auto; [rewrite TH; auto|cbn; auto]|]. apply RT. rewrite TH. auto.
        * split; [apply inv_set_thr; auto; [rewrite TH; auto|exact Logic.I]|]. apply VIS; auto. intros f F.
          pose proof (R2 t) as RT'. rewrite TH in RT'. cbn in RT'. eapply A_fail_deq; eauto.
        * split; [apply inv_set_thr; auto; [rewrite TH; auto|exact Logic.I]|]. apply RT. rewrite TH. auto.
      + destruct (N.eqb_spec (deq s) pos); cbn [andb]; [destruct weak; cbn [negb]|].
        * split; [apply inv_set_thr; auto; [rewrite TH; auto|cbn; lia]|]. apply RT. rewrite TH. auto.
        * subst pos. rewrite wadd_small by (change (2 ^ 64) with (4 * 2 ^ 62); lia).
          destruct (inv_dcas _ _ _ I TH) as [IC [V L]]. split; [apply (inv_mono n); auto; lia|].
          set (s' := set_thr _ t _) in *.
          assert (SK : absq s = dt s (deq s) :: absq s').
          { unfold absq, s'. cbn. unfold val in V. replace (N.to_nat (deq s + 1)) with (S (N.to_nat (deq s))) by lia.
            apply skipn_nth. exact V. }
          exists (mkA (absq s') (fun t' => if (t' =? t)%nat then ADeqDone (dt s (deq s)) else athr a t')). split.
          -- eapply aruns_tau; [|constructor]. eapply (A_deq cap a t (dt s (deq s))); auto.
             ++ rewrite R2, TH. auto.
             ++ rewrite R1. auto.
             ++ intro t'. auto.
          -- split; auto. intro t'. cbn. unfold upd. destruct (Nat.eqb_spec t' t); [|apply R2]. cbn. unfold val in *. cbn. rewrite V. auto.
        * split; [apply inv_set_thr; auto; [rewrite TH; auto|cbn; lia]|]. apply RT. rewrite TH. auto.
      + pose proof (v_pc _ _ I t) as P. rewrite TH in P. cbn in P. destruct P as [_ [_ [_ V]]].
        rewrite (cell_mod _ _ pos I). fold (dt s pos).
        split; [apply (inv_mono n); [eapply inv_dread; eauto|lia]|]. apply RT. rewrite TH. cbn. rewrite V. auto.
      + pose proof (v_pc _ _ I t) as P. rewrite TH in P. cbn in P. destruct P as [P1 _].
        rewrite (v_mask _ _ I). rewrite (wadd_small 64 pos (cap - 1)) by (change (2 ^ 64) with (4 * 2 ^ 62); lia).
        rewrite wadd_small by (change (2 ^ 64) with (4 * 2 ^ 62); lia).
        replace (pos + (cap - 1) + 1) with (pos + cap) by lia.
        split; [apply (inv_mono n); [eapply inv_dstore; eauto|lia]|]. apply VIS; auto. intros f F.
        eapply A_ret_deq; eauto. rewrite R2, TH. auto.
  Qed.

  Lemma aruns_app : forall (a : astate (T := T)) es b es' c, aruns cap a es b -> aruns cap b es' c -> aruns cap a (es ++ es') c.
  Proof.
    intros a es b es' c H H'. induction H; cbn; auto.
    - eapply aruns_vis; eauto.
    - eapply aruns_tau; eauto.
  Qed.

  Lemma run_spec : forall l n s a, inv n s -> n + N.of_nat (length l) < 2 ^ 62 -> R s a ->
    let (s', es) := run s l in inv (n + N.of_nat (length l)) s' /\ exists a', aruns cap a es a' /\ R s' a'.
  Proof.
    induction l as [|x l IH]; intros n s a I B RR; cbn [run].
    - cbn. rewrite N.add_0_r. split; auto. exists a. split; [constructor|auto].
    - cbn [length] in B. pose proof (act_spec n s a x I ltac:(lia) RR) as A. destruct (act s x) as [s1 es].
      destruct A as [I1 [a1 [A1 RR1]]]. specialize (IH (n + 1) s1 a1 I1 ltac:(lia) RR1). destruct (run s1 l) as [s2 es2].
      destruct IH as [I2 [a2 [A2 RR2]]]. split.
      + eapply inv_mono; [exact I2|]. cbn [length]. lia.
      + exists a2. split; auto. eapply aruns_app; eauto.
  Qed.

  Definition init_state (d0 : N -> T) : state T := mkS (cap - 1) (fun i => i) d0 0 0 (fun _ => Idle) [].
  Lemma init_Ok : forall d0, init cap d0 = Ok (init_state d0).
  Proof.
    intro d0. unfold init. pose proof cap_ge. pose proof cap_le. destruct (N.leb_spec 2 cap); [|lia]. destruct (N.eqb_spec cap 0); [lia|]. cbn [negb andb].
    assert (X : N.land cap (wsub 64 cap 1) = 0).
    { rewrite wsub_ge by (try lia; assert (2 ^ 62 < 2 ^ 64) by reflexivity; lia). unfold cap. rewrite land_mask. apply N.mod_same. lia. }
    rewrite X. reflexivity.
  Qed.
  Lemma init_inv : forall d0, inv 0 (init_state d0).
  Proof.
    intro d0. pose proof cap_ge. constructor; cbn; auto; try lia.
    - intros p A B. apply S_free; cbn; auto. unfold sq. cbn. apply N.mod_small. lia.
    - discriminate.
  Qed.
  Lemma init_R : forall d0, R (init_state d0) ainit.
  Proof. intro d0. split; auto. Qed.

  (* solo execution *)
  Definition quiet s : Prop := forall t, thr s t = Idle.
  Lemma quiet_cells : forall n s p, inv n s -> quiet s -> enq s <= p -> p < enq s + cap ->
    (sq s p = p /\ p < deq s + cap) \/ exists q, p = q + cap /\ deq s <= q /\ sq s p = q + 1.
  Proof.
    intros n s p I Q A B. destruct (v_cells _ _ I p A B) as [A1 A2|q t A1 A2 A3 A4|q A1 A2 A3 A4|q t A1 A2 A3 A4]; eauto 6; rewrite Q in A4; discriminate.
  Qed.
  Lemma run_one : forall s x l, run s (x :: l) = let (s1, e) := act s x in let (s2, es) := run s1 l in (s2, e ++ es).
  Proof. reflexivity. Qed.

  Lemma solo : forall n s t c, inv n s -> n + 6 < 2 ^ 62 -> quiet s ->
    exists j s', (j <= 5)%nat /\ run s (Call t c :: repeat (Go t false) j) = (s', [ECall t c; ERet t (snd (seq_step cap (absq s) c))]) /\
      quiet s' /\ absq s' = fst (seq_step cap (absq s) c) /\ inv (n + 6) s'.
  Proof.
    intros n s t c I B Q. pose proof cap_ge. pose proof cap_le. destruct (small _ _ I ltac:(lia)) as [SE SD].
    pose proof (v_de _ _ I) as DE. pose proof (v_ed _ _ I) as ED. pose proof (absq_len _ _ I) as AL.
    assert (G : forall j, (j <= 5)%nat -> forall s' es, run s (Call t c :: repeat (Go t false) j) = (s', es) -> inv (n + 6) s').
    { intros j J s' es E. pose proof (run_spec (Call t c :: repeat (Go t false) j) n s (mkA (absq s) (fun t => abspc s (thr s t))) I) as RS.
      rewrite E in RS. cbn [length] in RS. rewrite repeat_length in RS. destruct RS as [RS _]; [lia|split; auto|]. eapply inv_mono; eauto. lia. }
    assert (TU : forall (f : nat -> pc T) p, upd f t p t = p) by (intros; unfold upd; rewrite Nat.eqb_refl; auto).
    assert (QQ : forall s2, (forall t', t' <> t -> thr s2 t' = Idle) -> thr s2 t = Idle -> quiet s2).
    { intros s2 H1 H2 t'. destruct (Nat.eq_dec t' t); subst; auto. }
    assert (UN : forall (f : nat -> pc T) p t', t' <> t -> upd f t p t' = f t').
    { intros f p t' NE. unfold upd. destruct (Nat.eqb_spec t' t); congruence. }
    assert (CE : forall p, N.land p (mask s) = p mod cap) by (intro p; apply (cell_mod _ _ p I)).
    destruct c as [v|]; cbn [seq_step].
    - destruct (N.ltb_spec (N.of_nat (length (absq s))) cap); cbn [fst snd].
      + (* room *)
        assert (F : sq s (enq s) = enq s).
        { destruct (quiet_cells _ _ (enq s) I Q ltac:(lia) ltac:(lia)) as [[F _]|[q [E1 [E2 E3]]]]; auto. lia. }
        destruct (run s (Call t (Enq v) :: repeat (Go t false) 5)) as [s' es] eqn:E0. pose proof E0 as E. pose proof (G 5%nat ltac:(lia) _ _ E) as I'.
        cbn [repeat] in E. rewrite run_one in E. unfold act in E. rewrite (Q t) in E.
        rewrite run_one in E. unfold act, go in E. cbn [thr set_thr] in E. rewrite TU in E. cbn [set_thr mask seqs datas enq deq thr ghost] in E.
        rewrite run_one in E. unfold act, go in E. cbn [thr set_thr] in E. rewrite TU in E. unfold cell in E. cbn [set_thr mask seqs datas enq deq thr ghost] in E.
        rewrite CE in E. fold (sq s (enq s)) in E. rewrite F in E. replace ((s64 (enq s) - s64 (enq s) =? 0)%Z) with true in E by (symmetry; apply Z.eqb_eq; lia).
        rewrite run_one in E. unfold act, go in E. cbn [thr set_thr] in E. rewrite TU in E. cbn [set_thr mask seqs datas enq deq thr ghost] in E.
        rewrite N.eqb_refl in E. cbn [andb negb] in E. rewrite wadd_small in E by (change (2 ^ 64) with (4 * 2 ^ 62); lia).
        rewrite run_one in E. unfold act, go in E. cbn [thr set_thr] in E. rewrite TU in E. unfold set_data, cell in E. cbn [set_thr mask seqs datas enq deq thr ghost] in E.
        rewrite run_one in E. unfold act, go in E. cbn [thr set_thr] in E. rewrite TU in E. unfold set_seq, cell in E. cbn [set_thr mask seqs datas enq deq thr ghost] in E.
        cbn [run app] in E. injection E as ES EE. exists 5%nat, s'. split; [lia|].
        split; [rewrite E0, <- EE; reflexivity|]. split; [|split].
        * apply QQ; rewrite <- ES; cbn [thr set_thr]; [|apply TU]. intros t' NE. rewrite !UN by auto. apply Q.
        * rewrite <- ES. unfold absq. cbn [deq ghost set_thr]. rewrite skipn_app. pose proof (v_len _ _ I).
          replace (N.to_nat (deq s) - length (ghost s))%nat with 0%nat by lia. auto.
        * auto.
      + (* full *)
        assert (F : sq s (enq s) < enq s).
        { destruct (quiet_cells _ _ (enq s) I Q ltac:(lia) ltac:(lia)) as [[F F2]|[q [E1 [E2 E3]]]]; lia. }
        destruct (run s (Call t (Enq v) :: repeat (Go t false) 2)) as [s' es] eqn:E0. pose proof E0 as E. pose proof (G 2%nat ltac:(lia) _ _ E) as I'.
        cbn [repeat] in E. rewrite run_one in E. unfold act in E. rewrite (Q t) in E.
        rewrite run_one in E. unfold act, go in E. cbn [thr set_thr] in E. rewrite TU in E. cbn [set_thr mask seqs datas enq deq thr ghost] in E.
        rewrite run_one in E. unfold act, go in E. cbn [thr set_thr] in E. rewrite TU in E. unfold cell in E. cbn [set_thr mask seqs datas enq deq thr ghost] in E.
        rewrite CE in E. fold (sq s (enq s)) in E.
        pose proof (sq_small _ _ (enq s) I ltac:(lia)) as SQS.
        destruct (z_cmp (sq s (enq s)) (enq s) SQS ltac:(change (2 ^ 63) with (2 * 2 ^ 62); lia)) as [Z1 Z2]. rewrite Z1, Z2 in E.
        destruct (N.eqb_spec (sq s (enq s)) (enq s)); [lia|]. destruct (N.ltb_spec (sq s (enq s)) (enq s)); [|lia].
        cbn [run app] in E. injection E as ES EE. exists 2%nat, s'. split; [lia|].
        split; [rewrite E0, <- EE; reflexivity|]. split; [|split].
        * apply QQ; rewrite <- ES; cbn [thr set_thr]; [|apply TU]. intros t' NE. rewrite !UN by auto. apply Q.
        * rewrite <- ES. reflexivity.
        * auto.
    - destruct (absq s) as [|w q0] eqn:AQ; cbn [fst snd].
      + assert (F : sq s (deq s) < deq s + 1).
        { cbn in AL. assert (EQ : deq s = enq s) by lia. rewrite EQ.
          destruct (quiet_cells _ _ (enq s) I Q ltac:(lia) ltac:(lia)) as [[F F2]|[q [E1 [E2 E3]]]]; lia. }
        destruct (run s (Call t Deq :: repeat (Go t false) 2)) as [s' es] eqn:E0. pose proof E0 as E. pose proof (G 2%nat ltac:(lia) _ _ E) as I'.
        cbn [repeat] in E. rewrite run_one in E. unfold act in E. rewrite (Q t) in E.
        rewrite run_one in E. unfold act, go in E. cbn [thr set_thr] in E. rewrite TU in E. cbn [set_thr mask seqs datas enq deq thr ghost] in E.
        rewrite run_one in E. unfold act, go in E. cbn [thr set_thr] in E. rewrite TU in E. unfold cell in E. cbn [set_thr mask seqs datas enq deq thr ghost] in E.
        rewrite CE in E. fold (sq s (deq s)) in E. rewrite wadd_small in E by (change (2 ^ 64) with (4 * 2 ^ 62); lia).
        pose proof (sq_small _ _ (deq s) I ltac:(lia)) as SQS.
        destruct (z_cmp (sq s (deq s)) (deq s + 1) SQS ltac:(change (2 ^ 63) with (2 * 2 ^ 62); lia)) as [Z1 Z2]. rewrite Z1, Z2 in E.
        destruct (N.eqb_spec (sq s (deq s)) (deq s + 1)); [lia|]. destruct (N.ltb_spec (sq s (deq s)) (deq s + 1)); [|lia].
        cbn [run app] in E. injection E as ES EE. exists 2%nat, s'. split; [lia|].
        split; [rewrite E0, <- EE; reflexivity|]. split; [|split].
        * apply QQ; rewrite <- ES; cbn [thr set_thr]; [|apply TU]. intros t' NE. rewrite !UN by auto. apply Q.
        * rewrite <- ES. exact AQ.
        * auto.
      + assert (LT : deq s < enq s) by (cbn [length] in AL; lia).
        assert (F : sq s (deq s) = deq s + 1).
        { destruct (quiet_cells _ _ (deq s + cap) I Q ltac:(lia) ltac:(lia)) as [[F F2]|[q [E1 [E2 E3]]]]; rewrite sq_cap in *; lia. }
        destruct (full_at_deq _ _ I F) as [_ V].
        assert (W : dt s (deq s) = w /\ skipn (S (N.to_nat (deq s))) (ghost s) = q0).
        { unfold absq in AQ. unfold val in V. rewrite (skipn_nth _ _ _ _ V) in AQ. inversion AQ. auto. }
        destruct W as [W1 W2].
        destruct (run s (Call t Deq :: repeat (Go t false) 5)) as [s' es] eqn:E0. pose proof E0 as E. pose proof (G 5%nat ltac:(lia) _ _ E) as I'.
        cbn [repeat] in E. rewrite run_one in E. unfold act in E. rewrite (Q t) in E.
        rewrite run_one in E. unfold act, go in E. cbn [thr set_thr] in E. rewrite TU in E. cbn [set_thr mask seqs datas enq deq thr ghost] in E.
        rewrite run_one in E. unfold act, go in E. cbn [thr set_thr] in E. rewrite TU in E. unfold cell in E. cbn [set_thr mask seqs datas enq deq thr ghost] in E.
        rewrite CE in E. fold (sq s (deq s)) in E. rewrite F in E. rewrite wadd_small in E by (change (2 ^ 64) with (4 * 2 ^ 62); lia).
        replace ((s64 (deq s + 1) - s64 (deq s + 1) =? 0)%Z) with true in E by (symmetry; apply Z.eqb_eq; lia).
        rewrite run_one in E. unfold act, go in E. cbn [thr set_thr] in E. rewrite TU in E. cbn [set_thr mask seqs datas enq deq thr ghost] in E.
        rewrite N.eqb_refl in E. cbn [andb negb] in E. rewrite wadd_small in E by (change (2 ^ 64) with (4 * 2 ^ 62); lia).
        rewrite run_one in E. unfold act, go in E. cbn [thr set_thr] in E. rewrite TU in E. unfold cell in E. cbn [set_thr mask seqs datas enq deq thr ghost] in E.
        rewrite CE in E. fold (dt s (deq s)) in E. rewrite W1 in E.
        rewrite run_one in E. unfold act, go in E. cbn [thr set_thr] in E. rewrite TU in E. unfold set_seq, cell in E. cbn [set_thr mask seqs datas enq deq thr ghost] in E.
        cbn [run app] in E. injection E as ES EE. exists 5%nat, s'. split; [lia|].
        split; [rewrite E0, <- EE; reflexivity|]. split; [|split].
        * apply QQ; rewrite <- ES; cbn [thr set_thr]; [|apply TU]. intros t' NE. rewrite !UN by auto. apply Q.
        * rewrite <- ES. unfold absq. cbn [deq ghost set_thr]. replace (N.to_nat (deq s + 1)) with (S (N.to_nat (deq s))) by lia. exact W2.
        * auto.
  Qed.

  Lemma run_app : forall l1 l2 s, run s (l1 ++ l2) = let (s1, e1) := run s l1 in let (s2, e2) := run s1 l2 in (s2, e1 ++ e2).
  Proof.
    induction l1 as [|x l1 IH]; intros l2 s; cbn [app run].
    - destruct (run s l2); auto.
    - destruct (act s x) as [s1 e1]. rewrite IH. destruct (run s1 l1) as [s2 e2]. destruct (run s2 l2) as [s3 e3]. rewrite app_assoc. auto.
  Qed.
  Lemma idle_noop : forall j s t, thr s t = Idle -> run s (repeat (Go t false) j) = (s, []).
  Proof. induction j; intros s t H; cbn [repeat run act]; auto. unfold go. rewrite H. rewrite IHj; auto. Qed.

  Lemma solo5 : forall n s t c, inv n s -> n + 6 < 2 ^ 62 -> quiet s ->
    exists s', run s (Call t c :: repeat (Go t false) 5) = (s', [ECall t c; ERet t (snd (seq_step cap (absq s) c))]) /\
      quiet s' /\ absq s' = fst (seq_step cap (absq s) c) /\ inv (n + 6) s'.
  Proof.
    intros n s t c I B Q. destruct (solo n s t c I B Q) as [j [s' [J [E [Q' [A I']]]]]]. exists s'. split; auto.
    replace 5%nat with (j + (5 - j))%nat by lia. rewrite repeat_app, app_comm_cons, run_app, E, idle_noop, app_nil_r; auto.
  Qed.
  Lemma seq_spec : forall l n s, inv n s -> n + 6 * N.of_nat (length l) < 2 ^ 62 -> quiet s ->
    exists s', run s (flat_map (fun tc => Call (fst tc) (snd tc) :: repeat (Go (fst tc) false) 5) l) = (s', snd (seq_run cap (absq s) l)) /\
      quiet s' /\ absq s' = fst (seq_run cap (absq s) l).
  Proof.
    induction l as [|[t c] l IH]; intros n s I B Q; cbn [flat_map seq_run].
    - exists s. auto.
    - cbn [length] in B. destruct (solo5 n s t c I ltac:(lia) Q) as [s1 [E [Q1 [A1 I1]]]].
      destruct (IH (n + 6) s1 I1 ltac:(lia) Q1) as [s2 [E2 [Q2 A2]]]. exists s2.
      cbn [fst snd]. rewrite run_app, E, E2. rewrite A1 in *. destruct (seq_step cap (absq s) c) as [q r]. cbn [fst snd] in *.
      destruct (seq_run cap q l). cbn [fst snd] in *. auto.
  Qed.
End P.

(* conservation of values, on the abstract machine *)
Section C.
  Context {T : Type} (cap : N).
  Definition holds (P : apc -> option T) (a : astate (T := T)) (l : list (nat * T)) : Prop :=
    NoDup (map fst l) /\ forall t v, P (athr a t) = Some v <-> In (t, v) l.
  Definition penq (p : apc (T := T)) : option T := match p with AEnq v => Some v | _ => None end.
  Definition pdeq (p : apc (T := T)) : option T := match p with ADeqDone v => Some v | _ => None end.
  Definition cons_inv (a : astate (T := T)) (es : list (event T)) : Prop :=
    exists pe pd failed, holds penq a pe /\ holds pdeq a pd /\
      Permutation (calls es) (failed ++ map snd pe ++ fifo a ++ map snd pd ++ rets es).

  Lemma holds_same : forall P a a' l t p, holds P a l -> (forall t', athr a' t' = if (t' =? t)%nat then p else athr a t') ->
    P (athr a t) = None -> P p = None -> holds P a' l.
  Proof.
    intros P a a' l t p [N H] A E1 E2. split; auto. intros t' v. rewrite A, <- H. destruct (Nat.eqb_spec t' t); [|tauto].
    subst. rewrite E1, E2. tauto.
  Qed.
  Lemma holds_add : forall P a a' l t p v, holds P a l -> (forall t', athr a' t' = if (t' =? t)%nat then p else athr a t') ->
    P (athr a t) = None -> P p = Some v -> holds P a' ((t, v) :: l).
  Proof.
    intros P a a' l t p v [N H] A E1 E2. split.
    - cbn. constructor; auto. intro I. apply in_map_iff in I. destruct I as [[t' w] [<- I]]. apply H in I. cbn in *. congruence.
    - intros t' w. rewrite A. cbn. destruct (Nat.eqb_spec t' t).
      + subst. rewrite E2. split; [intro X; inversion X; auto|]. intros [X|X]; [inversion X; auto|]. apply H in X. congruence.
      + rewrite H. split; auto. intros [X|X]; auto. inversion X; congruence.
  Qed.
  Lemma holds_del : forall P a a' l t p v, holds P a l -> (forall t', athr a' t' = if (t' =? t)%nat then p else athr a t') ->
    P (athr a t) = Some v -> P p = None -> exists l', holds P a' l' /\ Permutation l ((t, v) :: l').
  Proof.
    intros P a a' l t p v [N H] A E1 E2. pose proof (proj1 (H t v) E1) as I. apply in_split in I. destruct I as [l1 [l2 ->]].
    exists (l1 ++ l2). split; [|symmetry; apply Permutation_middle]. rewrite map_app in N. cbn in N. pose proof (NoDup_remove_2 _ _ _ N) as N2.
    split; [rewrite map_app; eapply NoDup_remove_1; eauto|]. intros t' w. rewrite A. destruct (Nat.eqb_spec t' t).
    - subst. rewrite E2. split; [discriminate|]. intro I. exfalso. apply N2. rewrite <- map_app. apply in_map_iff. exists (t, w). auto.
    - rewrite H. rewrite !in_app_iff. cbn. split; [|tauto]. intros [X|[X|X]]; auto. inversion X; congruence.
  Qed.

  Lemma calls_app : forall a b : list (event T), calls (a ++ b) = calls a ++ calls b.
  Proof. intros. unfold calls. apply flat_map_app. Qed.
  Lemma rets_app : forall a b : list (event T), rets (a ++ b) = rets a ++ rets b.
  Proof. intros. unfold rets. apply flat_map_app. Qed.

  Lemma cons_step : forall a e b es, astep cap a e b -> cons_inv a es -> cons_inv b (es ++ match e with Some e => [e] | None => [] end).
  Proof.
    intros a e b es S [pe [pd [fl [H1 [H2 H3]]]]]. unfold cons_inv. rewrite calls_app, rets_app. inversion S; subst; cbn [calls rets flat_map app fifo]; rewrite ?app_nil_r.
    - exists ((t, v) :: pe), pd, fl. split; [eapply holds_add; eauto; rewrite H; auto|]. split; [eapply holds_same; eauto; rewrite H; auto|].
      cbn [map snd]. rewrite H3. rewrite Permutation_app_comm. cbn. apply Permutation_middle.
    - destruct (holds_del penq a (mkA (fifo a ++ [v]) p) pe t _ v H1 H4) as [pe' [A1 A2]]; [rewrite H; auto|auto|].
      exists pe', pd, fl. split; auto. split; [eapply holds_same; eauto; rewrite H; auto|]. rewrite H3. apply Permutation_app_head.
      rewrite A2. cbn [map snd app]. rewrite <- !app_assoc. cbn. rewrite !app_assoc. rewrite <- app_assoc. apply Permutation_middle.
    - exists pe, pd, fl. split; [eapply holds_same; eauto; rewrite H; auto|]. split; [eapply holds_same; eauto; rewrite H; auto|]. auto.
    - destruct (holds_del penq a (mkA (fifo a) p) pe t _ v H1 H0) as [pe' [A1 A2]]; [rewrite H; auto|auto|].
      exists pe', pd, (v :: fl). split; auto. split; [eapply holds_same; eauto; rewrite H; auto|]. rewrite H3, A2. cbn. symmetry. apply Permutation_middle.
    - exists pe, pd, fl. split; [eapply holds_same; eauto; rewrite H; auto|]. split; [eapply holds_same; eauto; rewrite H; auto|]. auto.
    - exists pe, ((t, v) :: pd), fl. split; [eapply holds_same; eauto; rewrite H; auto|]. split; [eapply holds_add; eauto; rewrite H; auto|].
      rewrite H3. do 2 apply Permutation_app_head. rewrite H0. cbn. apply Permutation_middle.
    - destruct (holds_del pdeq a (mkA (fifo a) p) pd t _ v H2 H0) as [pd' [A1 A2]]; [rewrite H; auto|auto|].
      exists pe, pd', fl. split; [eapply holds_same; eauto; rewrite H; auto|]. split; auto.
      rewrite H3. do 3 apply Permutation_app_head. rewrite A2. cbn. rewrite app_assoc. apply Permutation_cons_append.
    - exists pe, pd, fl. split; [eapply holds_same; eauto; rewrite H; auto|]. split; [eapply holds_same; eauto; rewrite H; auto|]. auto.
  Qed.
  Lemma cons_runs : forall a es b, aruns cap a es b -> forall es0, cons_inv a es0 -> cons_inv b (es0 ++ es).
  Proof.
    intros a es b H. induction H; intros es0 C.
    - rewrite app_nil_r. auto.
    - pose proof (cons_step _ _ _ _ H C) as C'. specialize (IHaruns _ C'). rewrite <- app_assoc in IHaruns. auto.
    - pose proof (cons_step _ _ _ _ H C) as C'. cbn in C'. rewrite app_nil_r in C'. auto.
  Qed.
  Lemma cons_init : cons_inv ainit [].
  Proof. exists [], [], []. repeat split; cbn; auto; try constructor; try discriminate; tauto. Qed.
End C.

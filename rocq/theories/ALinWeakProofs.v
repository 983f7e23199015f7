(* Proofs about atomic_linear_allocator under release/acquire memory. *)
From Coq Require Import NArith ZArith List Lia Bool Arith.
Import ListNotations.
From Verif Require Import Base BitsModel BitsSpec BitsProofs AllocModel AllocSpec AllocProofs ALinModel ALinSpec ALinProofs ALinWeakModel.
Open Scope N_scope.

Definition vle (a b : view) : Prop := forall x u, (a x u <= b x u)%nat.
Lemma vle_refl : forall a, vle a a. Proof. intros a x u. auto. Qed.
Lemma vle_trans : forall a b c, vle a b -> vle b c -> vle a c. Proof. intros a b c A B x u. specialize (A x u). specialize (B x u). lia. Qed.
Lemma vle_join_l : forall a b, vle a (join a b). Proof. intros a b x u. unfold join. lia. Qed.
Lemma vle_join_r : forall a b, vle b (join a b). Proof. intros a b x u. unfold join. lia. Qed.
Lemma join_le : forall a b c, vle a c -> vle b c -> vle (join a b) c.
Proof. intros a b c A B x u. unfold join. specialize (A x u). specialize (B x u). lia. Qed.
Lemma updn_eq : forall A (f : nat -> A) k x, updn f k x k = x. Proof. intros. unfold updn. rewrite Nat.eqb_refl. auto. Qed.
Lemma updn_neq : forall A (f : nat -> A) k x j, j <> k -> updn f k x j = f j.
Proof. intros. unfold updn. destruct (Nat.eqb_spec j k); congruence. Qed.

Section W.
  Variable o : orders.
  Variable threads : nat.

  (* V is ordered after all accesses to byte x *)
  Definition cover (w : wstate) (V : view) (x : N) : Prop := forall u, (u < threads)%nat -> (acc w x u <= V x u)%nat.
  Lemma cover_le : forall w V V' x, vle V V' -> cover w V x -> cover w V' x.
  Proof. intros w V V' x L C u Hu. specialize (L x u). specialize (C u Hu). lia. Qed.

  (* clocks are consistent *)
  Definition clocks (w : wstate) : Prop := vle (lw w) (acc w) /\ vle (mv w) (acc w) /\ forall t, vle (vw w t) (acc w).

  (* thread t has accessed some of the bytes from x to y *)
  Definition did (t : nat) (x y : N) (w w' : wstate) : Prop :=
    base w' = base w /\ owner w' = owner w /\ mv w' = mv w /\ (forall u, u <> t -> vw w' u = vw w u) /\ (clocks w -> vle (vw w t) (vw w' t)) /\
    (forall z, cover w (vw w t) z -> cover w' (vw w' t) z) /\ (forall z, z < x \/ y <= z -> acc w' z = acc w z) /\ (clocks w -> clocks w').

  Lemma did_refl : forall t x w, did t x x w w.
  Proof. intros. unfold did. do 4 (split; [auto|]). split; [intros; apply vle_refl|auto]. Qed.
  Lemma did_trans : forall t x y z w1 w2 w3, x <= y -> y <= z -> did t x y w1 w2 -> did t y z w2 w3 -> did t x z w1 w3.
  Proof.
    intros t x y z w1 w2 w3 L1 L2 (A1 & A2 & A3 & A4 & A5 & A6 & A7 & A8) (B1 & B2 & B3 & B4 & B5 & B6 & B7 & B8). unfold did.
    split; [congruence|]. split; [congruence|]. split; [congruence|]. split; [intros u N; rewrite B4, A4; auto|].
    split; [intro K; eapply vle_trans; [apply A5|apply B5]; auto|]. split; [auto|]. split; [|auto].
    intros q Hq. rewrite B7, A7 by lia. auto.
  Qed.

  Lemma access_did : forall wr x t w, (t < threads)%nat -> access threads wr x t w <> UB -> exists w', access threads wr x t w = Ok w' /\ did t x (x + 1) w w'.
  Proof.
    intros wr x t w Ht. unfold access. destruct (ordered threads wr w (vw w t) x) eqn:E; cbn [defined bind]; [|congruence]. intros _.
    eexists. split; [reflexivity|]. unfold did. cbn [base owner mv vw acc].
    do 3 (split; [reflexivity|]). split; [intros u N; apply updn_neq; auto|]. split; [|split; [|split]].
    - intros (_ & _ & K) y u. rewrite updn_eq. unfold upd2. destruct (N.eqb_spec y x) as [->|]; [|auto].
      unfold updn. destruct (Nat.eqb_spec u t) as [->|]; [|auto]. specialize (K t x t). lia.
    - intros z C u Hu. rewrite updn_eq. specialize (C u Hu). cbn [acc]. unfold upd2. destruct (N.eqb_spec z x) as [->|]; [|auto].
      unfold updn. destruct (Nat.eqb_spec u t); auto.
    - intros z Hz. unfold upd2. destruct (N.eqb_spec z x); [lia|reflexivity].
    - assert (L : vle (acc w) (upd2 (acc w) x t (S (acc w x t)))).
      { intros y u. unfold upd2. destruct (N.eqb_spec y x) as [->|]; [|auto]. unfold updn. destruct (Nat.eqb_spec u t) as [->|]; auto. }
      intros (K1 & K2 & K3). unfold clocks. cbn [lw mv vw acc]. split; [|split].
      + destruct wr; [|eapply vle_trans; [apply K1|exact L]]. intros y u. specialize (K1 y u). unfold upd2.
        destruct (N.eqb_spec y x) as [->|]; [|auto]. unfold updn. destruct (Nat.eqb_spec u t); auto.
      + eapply vle_trans; [apply K2|exact L].
      + intro v. destruct (Nat.eq_dec v t) as [->|N]; [rewrite updn_eq|rewrite updn_neq by auto; eapply vle_trans; [apply K3|exact L]].
        intros y u. specialize (K3 t y u). unfold upd2. destruct (N.eqb_spec y x) as [->|]; [|auto].
        unfold updn. destruct (Nat.eqb_spec u t); auto.
  Qed.
  Lemma access_ok : forall wr x t w, (t < threads)%nat -> clocks w -> cover w (vw w t) x -> access threads wr x t w <> UB.
  Proof.
    intros wr x t w Ht (K & _) C. unfold access. assert (E : ordered threads wr w (vw w t) x = true).
    { unfold ordered. rewrite forallb_forall. intros u Hu. apply in_seq in Hu. apply Nat.leb_le. specialize (C u ltac:(lia)). specialize (K x u).
      destruct wr; lia. }
    rewrite E. cbn [defined bind]. congruence.
  Qed.
  Lemma accesses_did : forall wr n x t w, (t < threads)%nat -> accesses threads wr x n t w <> UB ->
    exists w', accesses threads wr x n t w = Ok w' /\ did t x (x + N.of_nat n) w w'.
  Proof.
    induction n as [|n IH]; intros x t w Ht H.
    - exists w. split; [reflexivity|]. replace (x + N.of_nat 0) with x by lia. apply did_refl.
    - cbn [accesses] in *. destruct (access_did wr x t w Ht) as (w1 & E1 & D1).
      { intro U. rewrite U in H. cbn [bind] in H. congruence. }
      rewrite E1 in H |- *. cbn [bind] in H |- *. destruct (IH (x + 1) t w1 Ht H) as (w2 & E2 & D2). exists w2. split; [auto|].
      eapply did_trans; [| |exact D1|]; [lia| |replace (x + N.of_nat (S n)) with (x + 1 + N.of_nat n) by lia; exact D2]. lia.
  Qed.
  Lemma accesses_ok : forall wr n x t w, (t < threads)%nat -> clocks w -> (forall y, x <= y -> y < x + N.of_nat n -> cover w (vw w t) y) ->
    accesses threads wr x n t w <> UB.
  Proof.
    induction n as [|n IH]; intros x t w Ht K C; cbn [accesses]; [congruence|].
    pose proof (access_ok wr x t w Ht K (C x ltac:(lia) ltac:(lia))) as A. destruct (access_did wr x t w Ht A) as (w1 & E1 & D1).
    rewrite E1. cbn [bind]. destruct D1 as (_ & _ & _ & _ & _ & D6 & _ & D8). apply IH; auto. intros y Hy1 Hy2. apply D6. apply C; lia.
  Qed.

  Section P.
    Variables b len : N.
    Hypothesis Hb : 0 < b.
    Hypothesis Hlen : b + len < 2 ^ 64.

    (* the part that does not depend on the orders *)
    Definition shape (w : wstate) : Prop :=
      exec b len (base w) /\ length (owner w) = length (calls (base w)) /\ (forall k t, nth_error (owner w) k = Some t -> (t < threads)%nat) /\ clocks w.
    Definition held (w : wstate) : Prop :=
      forall k c t x, nth_error (calls (base w)) k = Some c -> nth_error (owner w) k = Some t -> holds (region b c) x -> cover w (vw w t) x.
    Definition spare (w : wstate) : Prop := forall x, b + off (base w) <= x -> cover w (mv w) x.
    Definition newer (w : wstate) : Prop := forall k t, nth_error (owner w) k = Some t -> vle (mv w) (vw w t).
    Definition winv (w : wstate) : Prop := held w /\ spare w /\ newer w.

    (* accesses by the owner of call k to bytes of its region *)
    Lemma did_winv : forall k c t x y w w', shape w -> winv w -> nth_error (calls (base w)) k = Some c -> nth_error (owner w) k = Some t ->
      did t x y w w' -> addr (region b c) <= x -> y <= addr (region b c) + size (region b c) -> winv w'.
    Proof.
      intros k c t x y w w' (S1 & S2 & S3 & S4) (I1 & I2 & I3) Hk Ho (D1 & D2 & D3 & D4 & D5 & D6 & D7 & D8) L1 L2.
      pose proof (inv_exec b len Hb Hlen _ S1) as V. destruct V as (_ & _ & _ & F & A). rewrite Forall_forall in F.
      split; [|split].
      - intros j c' t' z Hj Hoj Hz. rewrite D1 in Hj. rewrite D2 in Hoj. destruct (Nat.eq_dec t' t) as [->|N].
        + apply D6. eapply I1; eauto.
        + rewrite D4 by auto. pose proof (I1 j c' t' z Hj Hoj Hz) as C. assert (Nj : k <> j) by (intro; subst; congruence).
          pose proof (all_apart_nth _ k j _ _ A (map_nth_error (region b) _ _ Hk) (map_nth_error (region b) _ _ Hj) Nj z) as Ap.
          unfold cover. rewrite D7; [exact C|]. unfold holds in *. lia.
      - intros z Hz. rewrite D1 in Hz. pose proof (I2 z Hz) as C. unfold cover. rewrite D3, D7; [exact C|].
        destruct (F c (nth_error_In _ _ Hk)) as (_ & R & _). lia.
      - intros j t' Hj. rewrite D2 in Hj. rewrite D3. destruct (Nat.eq_dec t' t) as [->|N].
        + eapply vle_trans; [eapply I3; eauto|auto].
        + rewrite D4 by auto. eapply I3; eauto.
    Qed.

    Lemma did_shape : forall t x y w w', shape w -> did t x y w w' -> shape w'.
    Proof.
      intros t x y w w' (S1 & S2 & S3 & S4) (D1 & D2 & D3 & D4 & D5 & D6 & D7 & D8). unfold shape. rewrite D1, D2. auto.
    Qed.

    (* where the header of a pending call is *)
    Lemma header_in : forall w k c, shape w -> nth_error (calls (base w)) k = Some c ->
      addr (region b c) <= header (base w) c /\ header (base w) c + 8 <= addr (region b c) + size (region b c).
    Proof.
      intros w k c (S1 & _) Hk. pose proof (inv_exec b len Hb Hlen _ S1) as V. destruct V as (B & E & O & F & A). rewrite Forall_forall in F.
      destruct (F c (nth_error_In _ _ Hk)) as (Hp & Hr & _). unfold region in *. cbn [addr size] in *.
      destruct (pow2_pos' _ Hp) as (Ha0 & _).
      destruct (lma_exists (calign c) (b + cstart c + 8) Ha0) as (p & Hm).
      pose proof (lma_lt _ _ _ Ha0 Hm) as L. assert (Hge : b + cstart c + 8 <= p) by apply Hm.
      unfold header. rewrite B. rewrite (wadd_small 64 b) by lia. rewrite (wadd_small 64 (b + cstart c) 8) by lia.
      rewrite (align_up_exact _ _ p) by (auto; lia). rewrite (wsub_ge 64 p 8) by lia. lia.
    Qed.

    Lemma finish_calls : forall st k st', exec b len st -> finish st k = Ok st' ->
      off st' = off st /\ length (calls st') = length (calls st) /\
      forall j c', nth_error (calls st') j = Some c' -> exists c, nth_error (calls st) j = Some c /\ region b c' = region b c.
    Proof.
      intros st k st' X H. unfold finish in H. apply bind_Ok in H. destruct H as (c & Hk & H). unfold aget in Hk.
      destruct (nth_error (calls st) k) as [c0|] eqn:E; [|discriminate]. injection Hk as ->.
      destruct (cres c); [discriminate|].
      apply bind_Ok in H. destruct H as (? & _ & H). apply bind_Ok in H. destruct H as (? & _ & H).
      apply bind_Ok in H. destruct H as (? & _ & H).
      match type of H with Ok ?z = _ => assert (st' = z) by congruence end. subst st'. cbn [off calls]. split; [auto|]. split; [apply lset_length|].
      intros j c' Hj. destruct (Nat.eq_dec j k) as [->|N].
      - rewrite lset_nth_eq in Hj by (apply nth_error_Some; congruence). injection Hj as <-. exists c. split; auto.
      - rewrite lset_nth_neq in Hj by auto. eauto.
    Qed.

    Lemma step_shape : forall w, wexec o threads b len w -> shape w.
    Proof.
      induction 1 as [m|w t s a w' X IH Ht Ha Hw H|w k w' X IH H|w k w' r X IH H|w k q x v w' X IH Hr Hh Hv H|w t u X IH Ht Hu|w k u w' X IH Hu H|w t X IH Ht Hq Hc].
      - unfold shape, w_init, clocks. cbn. split; [constructor|]. split; [auto|]. split; [intros [|]; discriminate|]. repeat split; intros; apply vle_refl.
      - destruct IH as (S1 & S2 & S3 & K1 & K2 & K3). unfold w_start in H. apply bind_Ok in H. destruct H as (s' & H1 & H).
        match type of H with Ok ?z = _ => assert (w' = z) by congruence end. subst w'. clear H.
        unfold shape, clocks. cbn [base owner mv acc lw vw]. split; [eapply ex_start; eauto|].
        assert (C : exists c, calls s' = c :: calls (base w)).
        { unfold start in H1. apply bind_Ok in H1. destruct H1 as (? & _ & H1). injection H1 as <-. cbn [calls]. eauto. }
        destruct C as (c & ->). cbn [length]. split; [congruence|]. split.
        { intros [|k] t' E; cbn in E; [congruence|eauto]. }
        split; [auto|]. split; [auto|]. intro u. destruct (Nat.eq_dec u t) as [->|N]; [rewrite updn_eq|rewrite updn_neq by auto; auto].
        destruct (acquire o); [apply join_le|]; auto.
      - unfold w_finish in H. apply bind_Ok in H. destruct H as (c & H1 & H). apply bind_Ok in H. destruct H as (t & H2 & H).
        apply bind_Ok in H. destruct H as (w1 & H3 & H). apply bind_Ok in H. destruct H as (s & H4 & H). injection H as <-.
        unfold aget in H1, H2. destruct (nth_error (calls (base w)) k) as [c0|] eqn:E1; [|discriminate]. injection H1 as ->.
        destruct (nth_error (owner w) k) as [t0|] eqn:E2; [|discriminate]. injection H2 as ->.
        assert (Ht : (t < threads)%nat). { destruct IH as (_ & _ & S3 & _). eauto. }
        destruct (accesses_did true 8 (header (base w) c) t w Ht) as (w2 & E & D); [congruence|]. assert (w2 = w1) by congruence. subst w2.
        apply (did_shape _ _ _ _ _ IH) in D. destruct D as (S1 & S2 & S3 & S4). destruct (finish_calls _ _ _ S1 H4) as (F1 & F2 & F3).
        unfold shape, set_base. cbn [base owner]. split; [eapply ex_finish; eauto|]. split; [congruence|]. split; [auto|]. exact S4.
      - unfold w_size in H. apply bind_Ok in H. destruct H as (c & H1 & H). apply bind_Ok in H. destruct H as (t & H2 & H).
        destruct (cres c) as [p|]; [|discriminate].
        apply bind_Ok in H. destruct H as (w1 & H3 & H). apply bind_Ok in H. destruct H as (s & H4 & H). assert (w1 = w') by congruence. subst w1.
        unfold aget in H2. destruct (nth_error (owner w) k) as [t0|] eqn:E2; [|discriminate]. injection H2 as ->.
        assert (Ht : (t < threads)%nat). { destruct IH as (_ & _ & S3 & _). eauto. }
        destruct (accesses_did false 8 (wsub 64 p 8) t w Ht) as (w2 & E & D); [congruence|]. assert (w2 = w') by congruence. subst w2.
        eapply did_shape; eauto.
      - unfold w_use in H. apply bind_Ok in H. destruct H as (t & H2 & H).
        unfold aget in H2. destruct (nth_error (owner w) k) as [t0|] eqn:E2; [|discriminate]. injection H2 as ->.
        assert (Ht : (t < threads)%nat). { destruct IH as (_ & _ & S3 & _). eauto. }
        destruct v as [v|].
        + apply bind_Ok in H. destruct H as (w1 & H3 & H). injection H as <-.
          destruct (access_did true x t w Ht) as (w2 & E & D); [congruence|]. assert (w2 = w1) by congruence. subst w2.
          pose proof D as (D1 & _). apply (did_shape _ _ _ _ _ IH) in D. destruct D as (S1 & S2 & S3 & S4).
          unfold shape, set_base. cbn [base owner calls]. split; [eapply ex_write; eauto; rewrite D1; eauto|]. split; [auto|]. split; [auto|]. exact S4.
        + destruct (access_did false x t w Ht) as (w2 & E & D); [congruence|]. assert (w2 = w') by congruence. subst w2. eapply did_shape; eauto.
      - destruct IH as (S1 & S2 & S3 & K1 & K2 & K3). unfold shape, w_sync, set_view, clocks. cbn [base owner mv acc lw vw].
        split; [auto|]. split; [auto|]. split; [auto|]. split; [auto|]. split; [auto|]. intro v.
        destruct (Nat.eq_dec v u) as [->|N]; [rewrite updn_eq; apply join_le; auto|rewrite updn_neq by auto; auto].
      - destruct IH as (S1 & S2 & S3 & K1 & K2 & K3). unfold w_give in H. apply bind_Ok in H. destruct H as (t & H1 & H). injection H as <-.
        unfold shape, clocks. cbn [w_sync set_view base owner mv acc lw vw].
        split; [auto|]. split; [rewrite lset_length; auto|]. split.
        { intros j t' Hj. destruct (Nat.eq_dec j k) as [->|N].
          - rewrite lset_nth_eq in Hj; [congruence|]. unfold aget in H1. destruct (nth_error (owner w) k) eqn:E; [|discriminate]. apply nth_error_Some. congruence.
          - rewrite lset_nth_neq in Hj by auto. eauto. }
        split; [auto|]. split; [auto|]. intro v.
        destruct (Nat.eq_dec v u) as [->|N]; [rewrite updn_eq; apply join_le; auto|rewrite updn_neq by auto; auto].
      - destruct IH as (S1 & S2 & S3 & K1 & K2 & K3). unfold shape, w_reset, clocks. cbn [base owner mv acc lw vw].
        split; [eapply ex_reset; eauto|]. split; [auto|]. split; [intros [|]; discriminate|]. split; [auto|]. split; [|auto].
        destruct (release o); [auto|]. intros x u. unfold zero. lia.
    Qed.

    Hypothesis Hacq : acquire o = true.
    Hypothesis Hrel : release o = true.

    Lemma wexec_inv : forall w, wexec o threads b len w -> winv w.
    Proof.
      induction 1 as [m|w t s a w' X IH Ht Ha Hw H|w k w' X IH H|w k w' r X IH H|w k q x v w' X IH Hr Hh Hv H|w t u X IH Ht Hu|w k u w' X IH Hu H|w t X IH Ht Hq Hc].
      - split; [|split].
        + intros [|] c t x E; discriminate.
        + intros x Hx u Hu. cbn. lia.
        + intros [|] t E; discriminate.
      - pose proof (step_shape _ X) as (S1 & S2 & S3 & K1 & K2 & K3). destruct IH as (I1 & I2 & I3).
        pose proof (inv_exec b len Hb Hlen _ S1) as (B & _ & _ & _ & _).
        unfold w_start in H. apply bind_Ok in H. destruct H as (s' & H1 & H).
        match type of H with Ok ?z = _ => assert (w' = z) by congruence end. subst w'. clear H. rewrite Hacq.
        unfold start in H1. apply bind_Ok in H1. destruct H1 as (? & _ & H1).
        match type of H1 with Ok ?z = _ => assert (s' = z) by congruence end. subst s'. clear H1.
        assert (Ho : wadd 64 (off (base w)) (wadd 64 (wadd 64 s (wsub 64 (N.max a 1) 1)) 8) = off (base w) + (s + (N.max a 1 - 1) + 8)).
        { rewrite wsub_ge by lia. rewrite (wadd_small 64 s) by lia. rewrite (wadd_small 64 (s + _)) by lia. apply wadd_small. lia. }
        split; [|split].
        + intros [|k] c t' z Hk Hj Hz; cbn [base owner calls nth_error vw] in *.
          * injection Hk as <-. injection Hj as <-. rewrite updn_eq. unfold cover. cbn [acc]. apply (cover_le w (mv w)); [apply vle_join_r|].
            apply I2. unfold holds, region in Hz. cbn [addr cstart] in Hz. lia.
          * pose proof (I1 k c t' z Hk Hj Hz) as C. unfold cover. cbn [acc].
            destruct (Nat.eq_dec t' t) as [->|N]; [rewrite updn_eq; apply (cover_le w (vw w t)); [apply vle_join_l|exact C]|rewrite updn_neq by auto; exact C].
        + intros z Hz. cbn [base off mv] in *. rewrite Ho in Hz. apply I2. lia.
        + intros [|k] t' Hj; cbn [owner nth_error mv vw] in *.
          * injection Hj as <-. rewrite updn_eq. apply vle_join_r.
          * pose proof (I3 k t' Hj) as L. destruct (Nat.eq_dec t' t) as [->|N]; [rewrite updn_eq; apply vle_join_r|rewrite updn_neq by auto; exact L].
      - pose proof (step_shape _ X) as S. unfold w_finish in H. apply bind_Ok in H. destruct H as (c & H1 & H). apply bind_Ok in H. destruct H as (t & H2 & H).
        apply bind_Ok in H. destruct H as (w1 & H3 & H). apply bind_Ok in H. destruct H as (s & H4 & H). injection H as <-.
        unfold aget in H1, H2. destruct (nth_error (calls (base w)) k) as [c0|] eqn:E1; [|discriminate]. injection H1 as ->.
        destruct (nth_error (owner w) k) as [t0|] eqn:E2; [|discriminate]. injection H2 as ->.
        assert (Ht : (t < threads)%nat). { destruct S as (_ & _ & S3 & _). eauto. }
        destruct (accesses_did true 8 (header (base w) c) t w Ht) as (w2 & E & D); [congruence|]. assert (w2 = w1) by congruence. subst w2.
        destruct (header_in w k c S E1) as (L1 & L2).
        pose proof (did_winv k c t _ _ w w1 S IH E1 E2 D L1 ltac:(change (N.of_nat 8) with 8; lia)) as (J1 & J2 & J3).
        pose proof (did_shape _ _ _ _ _ S D) as (S1 & _). destruct (finish_calls _ _ _ S1 H4) as (F1 & F2 & F3).
        split; [|split].
        + intros j c' t' z Hj Hoj Hz. cbn [set_base base owner] in *. destruct (F3 _ _ Hj) as (d & Hd & R). rewrite R in Hz.
          exact (J1 j d t' z Hd Hoj Hz).
        + intros z Hz. cbn [set_base base mv] in *. rewrite F1 in Hz. exact (J2 z Hz).
        + exact J3.
      - pose proof (step_shape _ X) as S. unfold w_size in H. apply bind_Ok in H. destruct H as (c & H1 & H). apply bind_Ok in H. destruct H as (t & H2 & H).
        destruct (cres c) as [p|] eqn:Ec; [|discriminate].
        apply bind_Ok in H. destruct H as (w1 & H3 & H). apply bind_Ok in H. destruct H as (s & H4 & H). assert (w1 = w') by congruence. subst w1.
        unfold aget in H1, H2. destruct (nth_error (calls (base w)) k) as [c0|] eqn:E1; [|discriminate]. injection H1 as ->.
        destruct (nth_error (owner w) k) as [t0|] eqn:E2; [|discriminate]. injection H2 as ->.
        assert (Ht : (t < threads)%nat). { destruct S as (_ & _ & S3 & _). eauto. }
        destruct (accesses_did false 8 (wsub 64 p 8) t w Ht) as (w2 & E & D); [congruence|]. assert (w2 = w') by congruence. subst w2.
        pose proof S as (S1 & _). pose proof (inv_exec b len Hb Hlen _ S1) as (_ & _ & _ & F & _). rewrite Forall_forall in F.
        destruct (F c (nth_error_In _ _ E1)) as (_ & _ & P). rewrite Ec in P. destruct P as (_ & P1 & P2 & P3 & _). unfold region in P1. cbn [addr] in P1.
        rewrite wsub_ge in D by lia. eapply (did_winv k c t _ _ w w'); eauto; unfold region in *; cbn [addr size] in *; lia.
      - pose proof (step_shape _ X) as S. destruct Hr as (c & p & Hk & Hc & ->). unfold w_use in H. apply bind_Ok in H. destruct H as (t & H2 & H).
        unfold aget in H2. destruct (nth_error (owner w) k) as [t0|] eqn:E2; [|discriminate]. injection H2 as ->.
        assert (Ht : (t < threads)%nat). { destruct S as (_ & _ & S3 & _). eauto. }
        pose proof S as (S1 & _). pose proof (inv_exec b len Hb Hlen _ S1) as (_ & _ & _ & F & _). rewrite Forall_forall in F.
        destruct (F c (nth_error_In _ _ Hk)) as (_ & _ & P). rewrite Hc in P. destruct P as (_ & P1 & P2 & _).
        unfold holds in Hh. cbn [addr size] in Hh. destruct v as [v|].
        + apply bind_Ok in H. destruct H as (w1 & H3 & H). injection H as <-.
          destruct (access_did true x t w Ht) as (w2 & E & D); [congruence|]. assert (w2 = w1) by congruence. subst w2.
          assert (J : winv w1) by (eapply (did_winv k c t _ _ w w1); eauto; lia). exact J.
        + destruct (access_did false x t w Ht) as (w2 & E & D); [congruence|]. assert (w2 = w') by congruence. subst w2.
          eapply (did_winv k c t _ _ w w'); eauto; lia.
      - destruct IH as (I1 & I2 & I3). assert (L : forall v, vle (vw w v) (vw (w_sync w t u) v)).
        { intro v. cbn [w_sync set_view vw]. destruct (Nat.eq_dec v u) as [->|N]; [rewrite updn_eq; apply vle_join_l|rewrite updn_neq by auto; apply vle_refl]. }
        split; [|split].
        + intros k c t' z Hk Hj Hz. apply (cover_le w (vw w t')); [apply L|]. eapply I1; eauto.
        + exact I2.
        + intros k t' Hj. eapply vle_trans; [eapply I3; eauto|apply L].
      - destruct IH as (I1 & I2 & I3). unfold w_give in H. apply bind_Ok in H. destruct H as (t & H1 & H). injection H as <-.
        assert (L : forall v, vle (vw w v) (vw (w_sync w t u) v)).
        { intro v. cbn [w_sync set_view vw]. destruct (Nat.eq_dec v u) as [->|N]; [rewrite updn_eq; apply vle_join_l|rewrite updn_neq by auto; apply vle_refl]. }
        assert (G : vle (vw w t) (vw (w_sync w t u) u)). { cbn [w_sync set_view vw]. rewrite updn_eq. apply vle_join_r. }
        unfold aget in H1. destruct (nth_error (owner w) k) as [t0|] eqn:E; [|discriminate]. injection H1 as ->.
        assert (Hl : (k < length (owner w))%nat) by (apply nth_error_Some; congruence).
        split; [|split].
        + intros j c t' z Hk Hj Hz. cbn [base owner vw w_sync set_view calls] in Hk, Hj. destruct (Nat.eq_dec j k) as [->|N].
          * rewrite lset_nth_eq in Hj by auto. injection Hj as <-. apply (cover_le w (vw w t)); [exact G|]. eapply I1; eauto.
          * rewrite lset_nth_neq in Hj by auto. apply (cover_le w (vw w t')); [apply L|]. eapply I1; eauto.
        + exact I2.
        + intros j t' Hj. cbn [owner w_sync set_view] in Hj. destruct (Nat.eq_dec j k) as [->|N].
          * rewrite lset_nth_eq in Hj by auto. injection Hj as <-. eapply vle_trans; [eapply I3; eauto|exact G].
          * rewrite lset_nth_neq in Hj by auto. eapply vle_trans; [eapply I3; eauto|apply L].
      - split; [|split].
        + intros [|] c t' z E; discriminate.
        + intros z Hz. cbn [w_reset mv]. rewrite Hrel. intros u Hu. apply (Hc z u Hu).
        + intros [|] t' E; discriminate.
    Qed.
  End P.
End W.

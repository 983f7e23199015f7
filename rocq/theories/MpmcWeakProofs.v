From Coq Require Import NArith ZArith Arith List Bool Lia Permutation.
From Verif Require Import Base RingProofs MpmcModel MpmcSpec MpmcProofs MpmcWeakModel.
Import ListNotations.
Open Scope N_scope.

Lemma upd_eq : forall B (f : nat -> B) t x, upd f t x t = x.
Proof. intros. unfold upd. rewrite Nat.eqb_refl. auto. Qed.
Lemma upd_neq : forall B (f : nat -> B) t x t', t' <> t -> upd f t x t' = f t'.
Proof. intros. unfold upd. destruct (Nat.eqb_spec t' t); congruence. Qed.
Lemma updN_eq : forall B (f : N -> B) c x, updN f c x c = x.
Proof. intros. unfold updN. rewrite N.eqb_refl. auto. Qed.
Lemma updN_neq : forall B (f : N -> B) c x c', c' <> c -> updN f c x c' = f c'.
Proof. intros. unfold updN. destruct (N.eqb_spec c' c); congruence. Qed.

Lemma choose_some : forall A (h : list A) lo pick i m, choose h lo pick = Some (i, m) -> (lo <= i)%nat /\ nth_error h i = Some m /\ (i < length h)%nat.
Proof.
  intros A h lo pick i m. unfold choose. set (j := match pick with Some i => i | None => _ end).
  destruct (Nat.leb_spec lo j); [|discriminate]. destruct (nth_error h j) eqn:E; [|discriminate]. intro X. inversion X; subst.
  repeat split; auto. apply nth_error_Some. congruence.
Qed.
Lemma nth_snoc : forall A (h : list A) x i y, nth_error (h ++ [x]) i = Some y -> (nth_error h i = Some y /\ (i < length h)%nat) \/ (i = length h /\ y = x).
Proof.
  intros A h x i y H. destruct (Nat.lt_ge_cases i (length h)).
  - rewrite nth_error_app1 in H by auto. auto.
  - rewrite nth_error_app2 in H by auto. destruct (i - length h)%nat eqn:E; cbn in H; [inversion H; right; split; auto; lia|destruct n; discriminate].
Qed.

Section P.
  Context {T : Type} (k : N).
  Notation cap := (2 ^ k).
  Hypothesis K1 : 1 <= k.
  Hypothesis K2 : k <= 62.
  Notation inv := (@inv T k).
  Notation R := (@R T).
  Implicit Types (w : wstate T) (s : state T).

  Definition late (p : pc T) : option N := match p with EStore _ q | DStore _ q => Some q | _ => None end.
  Definition rdy w (v : view) (c : N) : Prop := S (vs v c) = length (sh w c) /\ va v c = accs w c.
  Definition pubok w (v : view) (q : N) : Prop := exists m, nth_error (pubs w) (N.to_nat q) = Some m /\ forall u, (vx m u <= vx v u)%nat.
  Definition tok w (p : pc T) (v : view) : Prop :=
    match p with
    | ECas _ q => q = enq (base w) -> rdy w v (q mod cap)
    | DCas q => q = deq (base w) -> rdy w v (q mod cap) /\ pubok w v q
    | EWrite _ q | EStore _ q | DRead q | DStore _ q => rdy w v (q mod cap) /\ pubok w v q
    | _ => True
    end.
  Definition vok w (v : view) : Prop :=
    (ve v < length (eh w))%nat /\ (vd v < length (dh w))%nat /\ forall c, (vs v c < length (sh w c))%nat /\ (va v c <= accs w c)%nat.
  Definition unused w (c : N) : Prop := forall t q, late (thr (base w) t) = Some q -> q mod cap <> c.

  Record winv (n : N) w : Prop := {
    b_inv : inv n (base w);
    b_eh : length (eh w) = S (N.to_nat (enq (base w))) /\ forall i p, nth_error (eh w) i = Some p -> p = N.of_nat i;
    b_dh : length (dh w) = S (N.to_nat (deq (base w))) /\ forall i p, nth_error (dh w) i = Some p -> p = N.of_nat i;
    b_up : forall c i j x m y m', nth_error (sh w c) i = Some (x, m) -> nth_error (sh w c) j = Some (y, m') -> (i < j)%nat -> x < y;
    b_last : forall c, exists h m, sh w c = h ++ [(seqs (base w) c, m)] /\ (unused w c -> va m c = accs w c) /\
      (forall q, deq (base w) <= q -> q < enq (base w) -> q mod cap = c -> seqs (base w) c = q + 1 -> pubok w m q);
    b_view : forall t, vok w (vw w t);
    b_msg : forall c i x m, nth_error (sh w c) i = Some (x, m) -> vok w m;
    b_tok : forall t, tok w (thr (base w) t) (vw w t);
    b_pubs : length (pubs w) = N.to_nat (enq (base w)) }.

  Lemma cg : 2 <= cap. Proof. apply cap_ge; auto. Qed.
  Lemma cl : cap <= 2 ^ 62. Proof. apply cap_le; auto. Qed.

  Lemma no_owner_enq : forall n s t q, inv n s -> sq k s (enq s) = enq s -> own (thr s t) = Some q -> q mod cap <> enq s mod cap.
  Proof.
    intros n s t q I S O E. pose proof cg as C. assert (X : enq s = q + cap) by (eapply (same_cell k K1 K2); eauto; lia).
    rewrite X in S. rewrite (sq_cap k K1 K2) in S. destruct (own_seq _ _ _ _ _ I O) as [[_ Y]|[_ Y]]; rewrite S in Y; lia.
  Qed.
  Lemma no_owner_deq : forall n s t q, inv n s -> sq k s (deq s) = deq s + 1 -> own (thr s t) = Some q -> q mod cap <> deq s mod cap.
  Proof.
    intros n s t q I S O E. pose proof cg as C. destruct (full_at_deq k K1 K2 _ _ I S) as [F _]. destruct (own_window k K1 K2 _ _ _ _ I O).
    pose proof (v_ed _ _ _ I). assert (X : q = deq s) by (apply (mod_inj k K1 K2); auto; lia).
    subst q. destruct (own_seq _ _ _ _ _ I O) as [[_ Y]|[Y _]]; lia.
  Qed.
  Lemma sq_enq_le : forall n s, inv n s -> sq k s (enq s) <= enq s.
  Proof. intros n s I. pose proof cg as C. destruct (v_cells _ _ _ I (enq s)); lia. Qed.
  Lemma sq_deq_le : forall n s, inv n s -> sq k s (deq s) <= deq s + 1.
  Proof.
    intros n s I. pose proof cg as C. pose proof (v_de _ _ _ I). pose proof (v_ed _ _ _ I).
    destruct (N.eq_dec (deq s) (enq s)) as [E|E].
    - rewrite E. pose proof (sq_enq_le _ _ I). lia.
    - rewrite <- (sq_cap k K1 K2). destruct (v_cells _ _ _ I (deq s + cap)); lia.
  Qed.
  Lemma late_own : forall p q, late p = Some q -> own p = Some q.
  Proof. destruct p; cbn; intros; try discriminate; auto. Qed.

  (* the newest entry of a history is the only one with the newest value, the others are smaller *)
  Lemma last_is : forall n w c i x m, winv n w -> nth_error (sh w c) i = Some (x, m) ->
    x <= seqs (base w) c /\ (x = seqs (base w) c -> S i = length (sh w c) /\ (unused w c -> va m c = accs w c) /\
      (forall q, deq (base w) <= q -> q < enq (base w) -> q mod cap = c -> seqs (base w) c = q + 1 -> pubok w m q)).
  Proof.
    intros n w c i x m W H. destruct (b_last _ _ W c) as [h [m' [E [U P]]]]. pose proof H as H0. rewrite E in H. apply nth_snoc in H.
    assert (L : length (sh w c) = S (length h)) by (rewrite E, app_length; cbn; lia).
    destruct H as [[H L']|[H Y]].
    - assert (X : x < seqs (base w) c). { eapply (b_up _ _ W c i (length h)); eauto. rewrite E, nth_error_app2, Nat.sub_diag by lia. reflexivity. }
      split; [lia|]. intros ->. lia.
    - inversion Y; subst. split; [lia|]. intros _. split; [lia|auto].
  Qed.
  Lemma vok_join : forall w a b, vok w a -> vok w b -> vok w (join a b).
  Proof.
    intros w a b (A1 & A2 & A3) (B1 & B2 & B3). repeat split; cbn; try lia; destruct (A3 c), (B3 c); lia.
  Qed.
  Lemma load_ok : forall w v c i x m, vok w v -> vok w m -> nth_error (sh w c) i = Some (x, m) -> vok w (load_view true v c i m).
  Proof.
    intros w v c i x m V M H. pose proof (vok_join _ _ _ V M) as (J1 & J2 & J3). unfold load_view. split; [exact J1|]. split; [exact J2|].
    intro c'. destruct (J3 c') as [X Y]. split; [|exact Y]. cbn [set_vs vs]. unfold updN. destruct (N.eqb_spec c' c); auto. subst.
    assert (i < length (sh w c))%nat by (apply nth_error_Some; congruence). lia.
  Qed.

  (* steps that change only the program point and the view *)
  Lemma w_local : forall n w t p v, winv n w -> own (thr (base w) t) = None -> own p = None -> pc_ok k (base w) p ->
    vok w v -> tok w p v -> winv (n + 1) (local w t p v).
  Proof.
    intros n w t p v W O1 O2 P V TK. destruct W as [W1 W2 W3 W4 W5 W6 W7 W8 W9].
    assert (LT : forall t' q, late (upd (thr (base w)) t p t') = Some q <-> late (thr (base w) t') = Some q).
    { intros t' q. destruct (Nat.eq_dec t' t); [subst; rewrite upd_eq|rewrite upd_neq by auto; tauto].
      split; intro X; apply late_own in X; congruence. }
    constructor; auto.
    - apply (inv_mono k K1 K2) with n; [apply inv_set_thr; auto|lia].
    - intro c. destruct (W5 c) as (h & m & E & U & Q). exists h, m. split; [exact E|]. split; [|exact Q].
      intro X. apply U. intros t' q L. apply (X t' q). cbn. apply LT. auto.
    - intro t'. cbn. destruct (Nat.eq_dec t' t); [subst; rewrite upd_eq; exact V|rewrite upd_neq by auto; exact (W6 t')].
    - intro t'. cbn. destruct (Nat.eq_dec t' t); [subst; rewrite !upd_eq; exact TK|rewrite !upd_neq by auto; exact (W8 t')].
  Qed.

  Lemma pub_mono : forall w w' v q, (exists l, pubs w' = pubs w ++ l) -> pubok w v q -> pubok w' v q.
  Proof. intros w w' v q [l E] [m [H1 H2]]. exists m. split; auto. rewrite E, nth_error_app1; auto. apply nth_error_Some. congruence. Qed.

  Lemma act_go : forall s t, act s (Go t false) = go s t false. Proof. reflexivity. Qed.
  Lemma w_inv : forall n s t, inv n s -> n < 2 ^ 62 -> inv (n + 1) (fst (go s t false)).
  Proof.
    intros n s t I B. pose proof (act_spec k K1 K2 n s (mkA (absq s) (fun t => abspc s (thr s t))) (Go t false) I B) as A.
    rewrite act_go in A. destruct (go s t false). apply A. split; auto.
  Qed.

  (* compare-exchange of enqueue *)
  Lemma w_ecas : forall n w t x, winv n w -> n < 2 ^ 62 -> thr (base w) t = ECas x (enq (base w)) ->
    winv (n + 1) (mkW (fst (go (base w) t false)) (eh w ++ [enq (fst (go (base w) t false))]) (dh w) (sh w) (accs w)
      (upd (vw w) t (set_ve (vw w t) (length (eh w)))) (pubs w ++ [vw w t])).
  Proof.
    intros n w t x W B TH. pose proof (w_inv _ _ t (b_inv _ _ W) B) as I'. pose proof cg as C. destruct W as [W1 W2 W3 W4 W5 W6 W7 W8 W9].
    destruct (small k K1 K2 _ _ W1 B) as [SE SD].
    pose proof (v_pc _ _ _ W1 t) as PC. rewrite TH in PC. cbn in PC. destruct PC as [_ PC]. specialize (PC eq_refl).
    assert (G : fst (go (base w) t false) = set_thr (mkS (mask (base w)) (seqs (base w)) (datas (base w)) (enq (base w) + 1) (deq (base w)) (thr (base w)) (ghost (base w) ++ [x])) t (EWrite x (enq (base w)))).
    { unfold go. rewrite TH. rewrite N.eqb_refl. cbn [andb negb fst]. rewrite wadd_small by (change (2 ^ 64) with (4 * 2 ^ 62); lia). reflexivity. }
    rewrite G in *. clear G. set (w' := mkW _ _ _ _ _ _ _).
    assert (PM : forall v q, pubok w v q -> pubok w' v q) by (intros v q; apply pub_mono; exists [vw w t]; reflexivity).
    constructor; auto.
    - cbn. rewrite app_length. cbn. destruct W2 as [L Q]. split; [lia|]. intros i p H. apply nth_snoc in H. destruct H as [[H _]|[H ->]]; [auto|subst; lia].
    - intro c. destruct (W5 c) as (h & m & E & U & Q). exists h, m. split; [exact E|]. split.
      + intro X. apply U. intros t' q L. apply (X t' q). cbn. rewrite upd_neq; auto. intros ->. rewrite TH in L. discriminate.
      + cbn. intros q A1 A2 A3 A4. apply PM. destruct (N.eq_dec q (enq (base w))) as [->|NE]; [|apply Q; auto; lia].
        exfalso. unfold sq in PC. rewrite A3, A4 in PC. lia.
    - intro t'. assert (V : forall v, vok w v -> vok w' v). { intros v (V1 & V2 & V3). split; [cbn; rewrite app_length; lia|]. split; auto. }
      cbn [vw w']. destruct (Nat.eq_dec t' t); [subst; rewrite upd_eq|rewrite upd_neq by auto; apply V; auto].
      destruct (W6 t) as (V1 & V2 & V3). split; [cbn; rewrite app_length; cbn; lia|]. split; auto.
    - intros c i y m H. destruct (W7 c i y m H) as (V1 & V2 & V3). split; [cbn; rewrite app_length; lia|]. split; auto.
    - intro t'. cbn [vw thr base w' set_thr]. destruct (Nat.eq_dec t' t).
      + subst. rewrite !upd_eq. cbn [tok]. specialize (W8 t). rewrite TH in W8. cbn [tok] in W8. destruct (W8 eq_refl) as [Y1 Y2]. split; [split; auto|].
        exists (vw w t). split; [|intro; cbn; lia]. cbn [pubs w']. rewrite nth_error_app2 by lia. rewrite W9, Nat.sub_diag. reflexivity.
      + rewrite !upd_neq by auto. specialize (W8 t'). pose proof (v_pc _ _ _ W1 t') as PC'.
        destruct (thr (base w) t'); cbn [tok base w' set_thr enq deq] in *; auto.
        * intros ->. cbn in PC'. lia.
        * destruct W8; split; auto.
        * destruct W8; split; auto.
        * intro D. destruct (W8 D); split; auto.
        * destruct W8; split; auto.
        * destruct W8; split; auto.
    - cbn. rewrite app_length. cbn. lia.
  Qed.
  (* compare-exchange of dequeue *)
  Lemma w_dcas : forall n w t, winv n w -> n < 2 ^ 62 -> thr (base w) t = DCas (deq (base w)) ->
    winv (n + 1) (mkW (fst (go (base w) t false)) (eh w) (dh w ++ [deq (fst (go (base w) t false))]) (sh w) (accs w)
      (upd (vw w) t (set_vd (vw w t) (length (dh w)))) (pubs w)).
  Proof.
    intros n w t W B TH. pose proof (w_inv _ _ t (b_inv _ _ W) B) as I'. pose proof cg as C. destruct W as [W1 W2 W3 W4 W5 W6 W7 W8 W9].
    destruct (small k K1 K2 _ _ W1 B) as [SE SD].
    assert (G : fst (go (base w) t false) = set_thr (mkS (mask (base w)) (seqs (base w)) (datas (base w)) (enq (base w)) (deq (base w) + 1) (thr (base w)) (ghost (base w))) t (DRead (deq (base w)))).
    { unfold go. rewrite TH. rewrite N.eqb_refl. cbn [andb negb fst]. rewrite wadd_small by (change (2 ^ 64) with (4 * 2 ^ 62); lia). reflexivity. }
    rewrite G in *. clear G. set (w' := mkW _ _ _ _ _ _ _).
    constructor; auto.
    - cbn. rewrite app_length. cbn. destruct W3 as [L Q]. split; [lia|]. intros i p H. apply nth_snoc in H. destruct H as [[H _]|[H ->]]; [auto|subst; lia].
    - intro c. destruct (W5 c) as (h & m & E & U & Q). exists h, m. split; [exact E|]. split.
      + intro X. apply U. intros t' q L. apply (X t' q). cbn. rewrite upd_neq; auto. intros ->. rewrite TH in L. discriminate.
      + cbn. intros q A1 A2 A3 A4. apply Q; auto. lia.
    - intro t'. assert (V : forall v, vok w v -> vok w' v). { intros v (V1 & V2 & V3). split; [exact V1|]. split; auto. cbn; rewrite app_length; lia. }
      cbn [vw w']. destruct (Nat.eq_dec t' t); [subst; rewrite upd_eq|rewrite upd_neq by auto; apply V; auto].
      destruct (W6 t) as (V1 & V2 & V3). split; [exact V1|]. split; auto. cbn; rewrite app_length; cbn; lia.
    - intros c i y m H. destruct (W7 c i y m H) as (V1 & V2 & V3). split; [exact V1|]. split; auto. cbn; rewrite app_length; lia.
    - intro t'. cbn [vw thr base w' set_thr]. destruct (Nat.eq_dec t' t).
      + subst. rewrite !upd_eq. cbn [tok]. specialize (W8 t). rewrite TH in W8. cbn [tok] in W8. destruct (W8 eq_refl) as [Y1 Y2]. split; auto.
      + rewrite !upd_neq by auto. specialize (W8 t'). pose proof (v_pc _ _ _ W1 t') as PC'.
        destruct (thr (base w) t'); cbn [tok base w' set_thr enq deq] in *; auto.
        intros ->. cbn in PC'. lia.
  Qed.

  (* other threads do not depend on the cell of a thread that is between its CAS and its store *)
  Lemma others : forall n w t q t' p, inv n (base w) -> own (thr (base w) t) = Some q -> t' <> t ->
    match thr (base w) t' with
    | ECas _ p' => p' = enq (base w) /\ p = p' | DCas p' => p' = deq (base w) /\ p = p'
    | EWrite _ p' | EStore _ p' | DRead p' | DStore _ p' => p = p' | _ => False end -> p mod cap <> q mod cap.
  Proof.
    intros n w t q t' p I O NE H. pose proof (v_pc _ _ _ I t') as PC.
    assert (OO : forall p', own (thr (base w) t') = Some p' -> p' mod cap <> q mod cap).
    { intros p' O'. exact (other_cell k K1 K2 _ _ _ _ _ _ I O' O NE). }
    destruct (thr (base w) t') eqn:TH; cbn in H, PC; try contradiction; try (subst; apply OO; reflexivity).
    - destruct H as [H1 H2]. destruct PC as [_ PC]. specialize (PC H1). subst. intro E. symmetry in E. revert E. eapply no_owner_enq; eauto.
    - destruct H as [H1 H2]. destruct PC as [_ PC]. specialize (PC H1). subst. intro E. symmetry in E. revert E. eapply no_owner_deq; eauto.
  Qed.

  (* payload accesses *)
  Lemma w_payload : forall n w t q s', winv n w -> inv (n + 1) s' ->
    (exists x, thr (base w) t = EWrite x q) \/ thr (base w) t = DRead q ->
    (forall t', t' <> t -> thr s' t' = thr (base w) t') -> late (thr s' t) = Some q ->
    seqs s' = seqs (base w) -> enq s' = enq (base w) -> deq s' = deq (base w) ->
    exists w', payload w s' t (q mod cap) = Ok w' /\ base w' = s' /\ winv (n + 1) w'.
  Proof.
    intros n w t q s' W I' TH OT LT SE EE DE. assert (O : own (thr (base w) t) = Some q) by (destruct TH as [[x ->]| ->]; auto).
    pose proof (b_tok _ _ W t) as TK.
    assert (TK' : rdy w (vw w t) (q mod cap) /\ pubok w (vw w t) q) by (destruct TH as [[x TH]|TH]; rewrite TH in TK; exact TK). clear TK. destruct TK' as [[Y1 Y2] Y3].
    unfold payload. rewrite Y2, Nat.eqb_refl. cbn [defined bind]. eexists. split; [reflexivity|]. split; [reflexivity|]. set (w' := mkW _ _ _ _ _ _ _).
    pose proof (b_inv _ _ W) as I0. destruct W as [W1 W2 W3 W4 W5 W6 W7 W8 W9].
    assert (AC : forall c, (accs w c <= accs w' c)%nat). { intro c. cbn. unfold updN. destruct (N.eqb_spec c (q mod cap)); [subst; lia|lia]. }
    assert (V : forall v, vok w v -> vok w' v).
    { intros v (V1 & V2 & V3). split; [exact V1|]. split; [exact V2|]. intro c. destruct (V3 c). split; auto. specialize (AC c). lia. }
    constructor; auto; cbn [base w']; rewrite ?EE, ?DE; auto.
    - intro c. destruct (W5 c) as (h & m & E & U & Q). exists h, m. rewrite SE. split; [exact E|]. split; [|exact Q].
      intro X. cbn. destruct (N.eq_dec c (q mod cap)) as [->|NE].
      + exfalso. apply (X t q); auto.
      + rewrite updN_neq by auto. apply U. intros t' q' L. apply (X t' q'). cbn. rewrite OT; auto. intros ->.
        destruct TH as [[x TH]|TH]; rewrite TH in L; discriminate.
    - intro t'. cbn [vw w']. destruct (Nat.eq_dec t' t); [subst; rewrite upd_eq|rewrite upd_neq by auto; auto].
      destruct (W6 t) as (V1 & V2 & V3). split; [exact V1|]. split; [exact V2|]. intro c. destruct (V3 c). split; auto. cbn. unfold updN.
      destruct (N.eqb_spec c (q mod cap)); auto.
    - intros c i y m H. apply V. eapply W7; eauto.
    - intro t'. cbn [vw w']. destruct (Nat.eq_dec t' t).
      + subst. rewrite upd_eq. assert (RR : rdy w' (set_va (vw w t) (q mod cap) (S (accs w (q mod cap)))) (q mod cap)).
        { split; [exact Y1|]. cbn. rewrite !updN_eq. auto. }
        destruct (thr s' t); cbn in LT; inversion LT; subst; cbn [tok]; split; auto.
      + rewrite upd_neq by auto. rewrite OT by auto. specialize (W8 t').
        assert (RR : forall v p, p mod cap <> q mod cap -> rdy w v (p mod cap) -> rdy w' v (p mod cap)).
        { intros v p NE [Z1 Z2]. split; [exact Z1|]. cbn. rewrite updN_neq by auto. exact Z2. }
        pose proof (fun p => others n w t q t' p I0 O n0) as OC.
        destruct (thr (base w) t'); cbn [tok] in *; auto; cbn [base w']; rewrite ?EE, ?DE.
        * intro Z. apply RR; auto.
        * destruct W8; split; auto.
        * destruct W8; split; auto.
        * intro Z. destruct (W8 Z). split; auto.
        * destruct W8; split; auto.
        * destruct W8; split; auto.
  Qed.

  (* stores to a sequence *)
  Lemma w_store : forall n w t q y s', winv n w -> inv (n + 1) s' -> late (thr (base w) t) = Some q ->
    (forall t', t' <> t -> thr s' t' = thr (base w) t') -> thr s' t = Idle ->
    (forall c, seqs s' c = if c =? q mod cap then y else seqs (base w) c) -> seqs (base w) (q mod cap) < y ->
    enq s' = enq (base w) -> deq s' = deq (base w) ->
    (forall p, deq (base w) <= p -> p < enq (base w) -> p mod cap = q mod cap -> y = p + 1 -> p = q) ->
    exists w', store true w s' t (q mod cap) = Ok w' /\ base w' = s' /\ winv (n + 1) w'.
  Proof.
    intros n w t q y s' W I' LT OT TI SE SY EE DE PB. pose proof (late_own _ _ LT) as O.
    pose proof (b_tok _ _ W t) as TK.
    assert (TK' : rdy w (vw w t) (q mod cap) /\ pubok w (vw w t) q) by (destruct (thr (base w) t); cbn in LT; inversion LT; subst; exact TK). clear TK. destruct TK' as [[Y1 Y2] Y3].
    unfold store. rewrite Y1, Nat.eqb_refl. cbn [defined bind]. eexists. split; [reflexivity|]. split; [reflexivity|]. set (w' := mkW _ _ _ _ _ _ _).
    pose proof (b_inv _ _ W) as I0. pose proof W as W0. destruct W as [W1 W2 W3 W4 W5 W6 W7 W8 W9].
    assert (SH : forall c, c <> q mod cap -> sh w' c = sh w c) by (intros c NE; cbn; apply updN_neq; auto).
    assert (SL : forall c, (length (sh w c) <= length (sh w' c))%nat).
    { intro c. cbn. unfold updN. destruct (N.eqb_spec c (q mod cap)); [subst; rewrite app_length; cbn; lia|lia]. }
    assert (V : forall v, vok w v -> vok w' v).
    { intros v (V1 & V2 & V3). split; [exact V1|]. split; [exact V2|]. intro c. destruct (V3 c). split; auto. specialize (SL c). lia. }
    set (v' := set_vs (vw w t) (q mod cap) (length (sh w (q mod cap)))) in *.
    assert (V' : vok w' v').
    { destruct (V _ (W6 t)) as (V1 & V2 & V3). split; [exact V1|]. split; [exact V2|]. intro c. destruct (V3 c). split; auto. unfold v'. cbn [set_vs vs]. unfold updN at 1.
      destruct (N.eqb_spec c (q mod cap)); auto. subst. cbn. rewrite updN_eq, app_length. cbn. lia. }
    constructor; auto; cbn [base w']; rewrite ?EE, ?DE; auto.
    - intros c i j x m z m' H1 H2 H3. destruct (N.eq_dec c (q mod cap)) as [->|NE]; [|rewrite SH in H1, H2 by auto; eapply W4; eauto].
      cbn in H1, H2. rewrite updN_eq in H1, H2. apply nth_snoc in H1, H2. destruct H2 as [[H2 L2]|[H2 E2]].
      + destruct H1 as [[H1 L1]|[H1 E1]]; [eapply W4; eauto|lia].
      + inversion E2; subst. rewrite SE, N.eqb_refl. destruct H1 as [[H1 L1]|[H1 E1]]; [|lia].
        pose proof (last_is _ _ _ _ _ _ W0 H1) as [LE _]. lia.
    - intro c. destruct (N.eq_dec c (q mod cap)) as [->|NE].
      + exists (sh w (q mod cap)), v'. split; [cbn; rewrite updN_eq; reflexivity|]. split.
        * intros _. unfold v'. cbn. auto.
        * intros p P1 P2 P3 P4. rewrite SE, N.eqb_refl in P4. assert (p = q) by (apply PB; auto). subst p.
          destruct Y3 as [m [M1 M2]]. exists m. split; auto.
      + destruct (W5 c) as (h & m & E & U & Q). exists h, m. rewrite SH by auto. rewrite SE, (proj2 (N.eqb_neq _ _)) by auto.
        split; [exact E|]. split; [|exact Q]. intro X. apply U. intros t' q' L.
        destruct (Nat.eq_dec t' t); [subst; rewrite LT in L; inversion L; subst; auto|]. apply (X t' q'). cbn. rewrite OT; auto.
    - intro t'. cbn [vw w']. destruct (Nat.eq_dec t' t); [subst; rewrite upd_eq; auto|rewrite upd_neq by auto; auto].
    - intros c i z m H. destruct (N.eq_dec c (q mod cap)) as [->|NE]; [|rewrite SH in H by auto; apply V; eapply W7; eauto].
      cbn in H. rewrite updN_eq in H. apply nth_snoc in H. destruct H as [[H L]|[H E]]; [apply V; eapply W7; eauto|inversion E; subst; auto].
    - intro t'. cbn [vw w']. destruct (Nat.eq_dec t' t).
      + subst. rewrite TI. exact Logic.I.
      + rewrite upd_neq by auto. rewrite OT by auto. specialize (W8 t').
        assert (RR : forall v p, p mod cap <> q mod cap -> rdy w v (p mod cap) -> rdy w' v (p mod cap)).
        { intros v p NE [Z1 Z2]. split; [rewrite SH by auto; exact Z1|exact Z2]. }
        pose proof (fun p => others n w t q t' p I0 O n0) as OC.
        destruct (thr (base w) t'); cbn [tok] in *; auto; cbn [base w']; rewrite ?EE, ?DE.
        * intro Z. apply RR; auto.
        * destruct W8; split; auto.
        * destruct W8; split; auto.
        * intro Z. destruct (W8 Z). split; auto.
        * destruct W8; split; auto.
        * destruct W8; split; auto.
  Qed.

  Definition good (n : N) a (r : outcome (wstate T * list (event T))) : Prop :=
    exists w' es, r = Ok (w', es) /\ winv (n + 1) w' /\ exists a', aruns cap a es a' /\ R (base w') a'.

  Lemma w_mono : forall n w, winv n w -> winv (n + 1) w.
  Proof. intros n w []. constructor; auto. apply (inv_mono k K1 K2) with n; auto. lia. Qed.
  Lemma g_same : forall n w a, winv n w -> R (base w) a -> good n a (Ok (w, [])).
  Proof. intros n w a W RR. exists w, []. split; auto. split; [apply w_mono; auto|]. exists a. split; [constructor|auto]. Qed.
  Lemma g_local : forall n w a t p v, winv n w -> R (base w) a -> own (thr (base w) t) = None -> own p = None -> pc_ok k (base w) p ->
    abspc (base w) p = abspc (base w) (thr (base w) t) -> vok w v -> tok w p v -> good n a (Ok (local w t p v, [])).
  Proof.
    intros n w a t p v W RR O1 O2 PC AB V TK. exists (local w t p v), []. split; auto. split; [apply w_local; auto|].
    exists a. split; [constructor|]. cbn. apply (R_internal k n); auto. apply W.
  Qed.
  Lemma g_fail : forall n w a t v e, winv n w -> R (base w) a -> own (thr (base w) t) = None -> vok w v ->
    (forall f, MpmcSpec.aset a t AIdle f -> astep cap a (Some e) (mkA (fifo a) f)) -> good n a (Ok (local w t Idle v, [e])).
  Proof.
    intros n w a t v e W RR O1 V ST. exists (local w t Idle v), [e]. split; auto. split; [apply w_local; cbn; auto|].
    destruct RR as [R1 R2]. exists (mkA (fifo a) (fun t' => if (t' =? t)%nat then AIdle else athr a t')). split.
    - eapply aruns_vis; [|constructor]. apply ST. intro t'. reflexivity.
    - split; [exact R1|]. intro t'. cbn. unfold upd. destruct (Nat.eqb_spec t' t); auto. apply R2.
  Qed.
  (* the steps that do what MpmcModel.v does *)
  Lemma g_base : forall n w a t s' es w', winv n w -> n < 2 ^ 62 -> R (base w) a -> go (base w) t false = (s', es) -> base w' = s' -> winv (n + 1) w' ->
    good n a (Ok (w', es)).
  Proof.
    intros n w a t s' es w' W B RR G E W'. exists w', es. split; auto. split; auto.
    pose proof (act_spec k K1 K2 n (base w) a (Go t false) (b_inv _ _ W) B RR) as A. rewrite act_go, G in A. rewrite E. apply A.
  Qed.

  Lemma wgo_spec : forall n w a t pick, winv n w -> n < 2 ^ 62 -> R (base w) a -> good n a (wgo code w t pick).
  Proof.
    intros n w a t pick W B RR. pose proof cg as C. pose proof cl as CL. pose proof (b_inv _ _ W) as I. pose proof (b_view _ _ W t) as V.
    pose proof (v_pc _ _ _ I t) as PC. pose proof (w_inv _ _ t I B) as I'. destruct (small k K1 K2 _ _ I B) as [SE SD].
    pose proof RR as [R1 R2]. specialize (R2 t).
    unfold wgo. destruct (go (base w) t false) as [s' es] eqn:G. cbn [fst] in I'.
    assert (SVE : forall i p, nth_error (eh w) i = Some p -> p <= enq (base w) /\ vok w (set_ve (vw w t) i)).
    { intros i p H. destruct (b_eh _ _ W) as [L Q]. pose proof (Q _ _ H). assert (i < length (eh w))%nat by (apply nth_error_Some; congruence).
      split; [lia|]. destruct V as (V1 & V2 & V3). split; [cbn; lia|]. split; auto. }
    assert (SVD : forall i p, nth_error (dh w) i = Some p -> p <= deq (base w) /\ vok w (set_vd (vw w t) i)).
    { intros i p H. destruct (b_dh _ _ W) as [L Q]. pose proof (Q _ _ H). assert (i < length (dh w))%nat by (apply nth_error_Some; congruence).
      split; [lia|]. destruct V as (V1 & V2 & V3). split; [exact V1|]. split; [cbn; lia|auto]. }
    destruct (thr (base w) t) as [|x|x pos|x pos|x pos|x pos| |pos|pos|pos|x pos] eqn:TH.
    - apply g_same; auto.
    - destruct (choose (eh w) (ve (vw w t)) pick) as [[i p]|] eqn:CH; [|apply g_same; auto].
      apply choose_some in CH. destruct CH as (_ & CH & _). destruct (SVE _ _ CH). apply g_local; auto; rewrite ?TH; cbn; auto.
    - destruct (choose _ _ pick) as [[i [q m]]|] eqn:CH; [|apply g_same; auto].
      apply choose_some in CH. destruct CH as (_ & CH & LI). rewrite (cell_mod k _ _ pos I) in *.
      pose proof (last_is _ _ _ _ _ _ W CH) as [LE LA]. pose proof (load_ok _ _ _ _ _ _ V (b_msg _ _ W _ _ _ _ CH) CH) as V'.
      change (enq_load code) with true. cbn in PC.
      pose proof (sq_small k K1 K2 _ _ pos I B) as SQS. unfold sq in SQS.
      destruct (z_cmp k K1 K2 q pos ltac:(lia) ltac:(change (2 ^ 63) with (2 * 2 ^ 62); lia)) as [Z1 Z2]. rewrite Z1, Z2.
      destruct (N.eqb_spec q pos); [|destruct (N.ltb_spec q pos)].
      + subst q. assert (Q : pos = enq (base w) -> sq k (base w) pos = pos).
        { intro E. pose proof (sq_enq_le _ _ I) as X. rewrite <- E in X. unfold sq in *. lia. }
        apply g_local; rewrite ?TH; auto; [split; auto; lia|]. cbn [tok]. intro E. destruct (LA (eq_sym (Q E))) as (L1 & L2 & _).
        assert (U : unused w (pos mod cap)).
        { intros t' q' L. apply late_own in L. rewrite E. eapply no_owner_enq; eauto. rewrite <- E. auto. }
        specialize (L2 U). destruct V as (_ & _ & V3). destruct (b_msg _ _ W _ _ _ _ CH) as (_ & _ & M3).
        destruct (V3 (pos mod cap)), (M3 (pos mod cap)). unfold load_view. split; cbn; rewrite ?updN_eq; lia.
      + apply g_fail; auto; rewrite ?TH; auto. intros f F. eapply A_fail_enq; eauto.
      + apply g_local; rewrite ?TH; auto; exact Logic.I.
    - cbn in PC. destruct pick as [j|].
      + destruct (choose (eh w) (ve (vw w t)) (Some j)) as [[i p]|] eqn:CH; [|apply g_same; auto].
        apply choose_some in CH. destruct CH as (_ & CH & _). destruct (SVE _ _ CH). apply g_local; auto; rewrite ?TH; cbn; auto.
      + destruct (N.eqb_spec (enq (base w)) pos) as [E|E].
        * eapply g_base; eauto; try reflexivity. subst pos. pose proof (w_ecas _ _ _ _ W B TH) as X. rewrite G in X. exact X.
        * destruct (b_eh _ _ W) as [L Q]. apply g_local; auto; rewrite ?TH; auto; try exact Logic.I; [cbn; lia|].
          destruct V as (V1 & V2 & V3). split; [cbn; lia|]. split; auto.
    - rewrite (cell_mod k _ _ pos I). unfold go in G. rewrite TH in G. inversion G; subst s' es.
      destruct (w_payload n w t pos (set_thr (set_data (base w) pos x) t (EStore x pos))) as (w' & E1 & E2 & E3); auto; eauto.
      { intros t' NE. cbn. apply upd_neq; auto. } { cbn. rewrite upd_eq. auto. }
      rewrite E1. cbn [bind]. eapply g_base; eauto. unfold go. rewrite TH. reflexivity.
    - rewrite (cell_mod k _ _ pos I). cbn in PC. unfold go in G. rewrite TH in G. rewrite wadd_small in G by (change (2 ^ 64) with (4 * 2 ^ 62); lia). inversion G; subst s' es.
      change (enq_store code) with true.
      destruct (w_store n w t pos (pos + 1) (set_thr (set_seq (base w) pos (pos + 1)) t Idle)) as (w' & E1 & E2 & E3); auto; eauto.
      { rewrite TH. auto. } { intros t' NE. cbn. apply upd_neq; auto. } { cbn. apply upd_eq. }
      { intro c. cbn. rewrite (cell_mod k _ _ pos I). reflexivity. } { unfold sq in PC. lia. } { intros; lia. }
      rewrite E1. cbn [bind]. eapply g_base; eauto. unfold go. rewrite TH. rewrite wadd_small by (change (2 ^ 64) with (4 * 2 ^ 62); lia). reflexivity.
    - destruct (choose (dh w) (vd (vw w t)) pick) as [[i p]|] eqn:CH; [|apply g_same; auto].
      apply choose_some in CH. destruct CH as (_ & CH & _). destruct (SVD _ _ CH). apply g_local; auto; rewrite ?TH; cbn; auto.
    - destruct (choose _ _ pick) as [[i [q m]]|] eqn:CH; [|apply g_same; auto].
      apply choose_some in CH. destruct CH as (_ & CH & LI). rewrite (cell_mod k _ _ pos I) in *.
      pose proof (last_is _ _ _ _ _ _ W CH) as [LE LA]. pose proof (load_ok _ _ _ _ _ _ V (b_msg _ _ W _ _ _ _ CH) CH) as V'.
      change (deq_load code) with true. cbn in PC. rewrite wadd_small by (change (2 ^ 64) with (4 * 2 ^ 62); lia).
      pose proof (sq_small k K1 K2 _ _ pos I B) as SQS. unfold sq in SQS.
      destruct (z_cmp k K1 K2 q (pos + 1) ltac:(lia) ltac:(change (2 ^ 63) with (2 * 2 ^ 62); lia)) as [Z1 Z2]. rewrite Z1, Z2.
      destruct (N.eqb_spec q (pos + 1)); [|destruct (N.ltb_spec q (pos + 1))].
      + subst q. assert (Q : pos = deq (base w) -> sq k (base w) pos = pos + 1).
        { intro E. pose proof (sq_deq_le _ _ I) as X. rewrite <- E in X. unfold sq in *. lia. }
        apply g_local; rewrite ?TH; auto; [split; auto; lia|]. cbn [tok]. intro E. destruct (LA (eq_sym (Q E))) as (L1 & L2 & L3).
        assert (U : unused w (pos mod cap)).
        { intros t' q' L. apply late_own in L. rewrite E. eapply no_owner_deq; eauto. rewrite <- E. auto. }
        specialize (L2 U). destruct V as (_ & _ & V3). destruct (b_msg _ _ W _ _ _ _ CH) as (_ & _ & M3).
        destruct (V3 (pos mod cap)), (M3 (pos mod cap)). split; [unfold load_view; split; cbn; rewrite ?updN_eq; lia|].
        destruct (L3 pos ltac:(lia) ltac:(rewrite E; apply (full_at_deq k K1 K2 _ _ I); rewrite <- E; auto) eq_refl (Q E)) as (m' & M1 & M2).
        exists m'. split; auto. intro u. specialize (M2 u). unfold load_view. cbn. lia.
      + apply g_fail; auto; rewrite ?TH; auto. intros f F. eapply A_fail_deq; eauto.
      + apply g_local; rewrite ?TH; auto; exact Logic.I.
    - cbn in PC. destruct pick as [j|].
      + destruct (choose (dh w) (vd (vw w t)) (Some j)) as [[i p]|] eqn:CH; [|apply g_same; auto].
        apply choose_some in CH. destruct CH as (_ & CH & _). destruct (SVD _ _ CH). apply g_local; auto; rewrite ?TH; cbn; auto.
      + destruct (N.eqb_spec (deq (base w)) pos) as [E|E].
        * eapply g_base; eauto; try reflexivity. subst pos. pose proof (w_dcas _ _ _ W B TH) as X. rewrite G in X. exact X.
        * destruct (b_dh _ _ W) as [L Q]. apply g_local; auto; rewrite ?TH; auto; try exact Logic.I; [cbn; lia|].
          destruct V as (V1 & V2 & V3). split; [exact V1|]. split; [cbn; lia|auto].
    - rewrite (cell_mod k _ _ pos I). unfold go in G. rewrite TH in G. inversion G; subst s' es.
      destruct (w_payload n w t pos (set_thr (base w) t (DStore (datas (base w) (cell (base w) pos)) pos))) as (w' & E1 & E2 & E3); auto; eauto.
      { intros t' NE. cbn. apply upd_neq; auto. } { cbn. rewrite upd_eq. auto. }
      rewrite E1. cbn [bind]. eapply g_base; eauto. unfold go. rewrite TH. reflexivity.
    - rewrite (cell_mod k _ _ pos I). cbn in PC. pose proof (v_mask _ _ _ I) as M. unfold go in G. rewrite TH in G.
      assert (Y : wadd 64 (wadd 64 pos (mask (base w))) 1 = pos + cap).
      { rewrite M. rewrite !wadd_small; change (2 ^ 64) with (4 * 2 ^ 62); rewrite ?wadd_small; change (2 ^ 64) with (4 * 2 ^ 62); lia. }
      rewrite Y in G. inversion G; subst s' es.
      change (deq_store code) with true.
      destruct (w_store n w t pos (pos + cap) (set_thr (set_seq (base w) pos (pos + cap)) t Idle)) as (w' & E1 & E2 & E3); auto; eauto.
      { rewrite TH. auto. } { intros t' NE. cbn. apply upd_neq; auto. } { cbn. apply upd_eq. }
      { intro c. cbn. rewrite (cell_mod k _ _ pos I). reflexivity. } { unfold sq in PC. lia. }
      { intros p P1 P2 P3 P4. apply (mod_inj k K1 K2); auto; lia. }
      rewrite E1. cbn [bind]. eapply g_base; eauto. unfold go. rewrite TH, Y. reflexivity.
  Qed.

  Lemma w_view : forall n w t v, winv n w -> vok w v -> tok w (thr (base w) t) v -> winv n (next w (base w) t v).
  Proof.
    intros n w t v [W1 W2 W3 W4 W5 W6 W7 W8 W9] V TK. constructor; auto; intro t'; cbn; unfold upd; destruct (Nat.eqb_spec t' t) as [->|NE].
    - exact V.
    - exact (W6 t').
    - exact TK.
    - exact (W8 t').
  Qed.
  Lemma wact_spec : forall n w a x, winv n w -> n < 2 ^ 62 -> R (base w) a -> good n a (wact code w x).
  Proof.
    intros n w a x W B RR. destruct x as [t c|t pick|t|u t].
    - pose proof (act_spec k K1 K2 n (base w) a (Call t c) (b_inv _ _ W) B RR) as A. cbn [wact].
      destruct (act (base w) (Call t c)) as [s es] eqn:E. exists (next w s t (vw w t)), es. split; [reflexivity|]. split; [|apply A].
      assert (D : s = base w \/ (thr (base w) t = Idle /\ s = set_thr (base w) t (match c with Enq v => ELoad v | Deq => DLoad end))).
      { cbn in E. destruct (thr (base w) t); inversion E; auto. }
      destruct D as [->|[TH ->]].
      + apply w_view; [apply w_mono; auto|apply W|apply W].
      + change (next w (set_thr (base w) t ?p) t (vw w t)) with (local w t p (vw w t)). apply w_local; auto.
        * rewrite TH. auto.
        * destruct c; auto.
        * destruct c; exact Logic.I.
        * apply W.
        * destruct c; exact Logic.I.
    - apply wgo_spec; auto.
    - cbn [wact]. destruct (thr (base w) t) eqn:TH; try (apply g_same; auto; fail).
      eexists _, _. split; [reflexivity|]. split; [|exists a; split; [constructor|exact RR]].
      apply w_view; [apply w_mono; auto| |rewrite TH; exact Logic.I]. destruct (b_view _ _ W t) as (V1 & V2 & V3). split; auto.
    - cbn [wact]. destruct (thr (base w) u) eqn:TU; try (apply g_same; auto; fail). destruct (thr (base w) t) eqn:TH; try (apply g_same; auto; fail).
      eexists _, _. split; [reflexivity|]. split; [|exists a; split; [constructor|exact RR]].
      apply w_view; [apply w_mono; auto| |rewrite TH; exact Logic.I]. apply vok_join; apply W.
  Qed.

  Lemma wrun_spec : forall l n w a, winv n w -> n + N.of_nat (length l) < 2 ^ 62 -> R (base w) a ->
    exists w' es a', wrun code w l = Ok (w', es) /\ winv (n + N.of_nat (length l)) w' /\ aruns cap a es a' /\ R (base w') a'.
  Proof.
    induction l as [|x l IH]; intros n w a W B RR.
    - exists w, [], a. split; auto. split; [cbn; rewrite N.add_0_r; auto|]. split; [constructor|auto].
    - cbn [length] in *. destruct (wact_spec n w a x W ltac:(lia) RR) as (w1 & e & E & W1 & a1 & A1 & R1).
      destruct (IH (n + 1) w1 a1 W1 ltac:(lia) R1) as (w2 & es & a2 & E2 & W2 & A2 & R2).
      exists w2, (e ++ es), a2. cbn [wrun]. rewrite E. cbn [bind]. rewrite E2. split; auto.
      split; [replace (n + N.of_nat (S (length l))) with (n + 1 + N.of_nat (length l)) by lia; auto|]. split; auto. eapply aruns_app; eauto.
  Qed.

  Lemma w_init : forall num d0 w, num = cap -> winit num d0 = Ok w -> winv 0 w /\ R (base w) ainit.
  Proof.
    intros num d0 w -> H. unfold winit in H. apply bind_Ok in H. destruct H as (s & H & E). inversion E; subst w. clear E.
    pose proof (init_inv k K1 K2 d0) as I. pose proof (init_R k d0) as RR. rewrite (init_Ok k K1 K2) in H. inversion H; subst s. clear H.
    split; [|exact RR]. constructor; auto; cbn.
    - split; auto. intros [|[|i]] p H; cbn in H; inversion H; auto.
    - split; auto. intros [|[|i]] p H; cbn in H; inversion H; auto.
    - intros c [|[|i]] [|[|j]] x m y m' H1 H2 H3; cbn in H1, H2; try discriminate; lia.
    - intro c. exists [], zero. split; [reflexivity|]. split; [auto|]. intros q Q1 Q2. lia.
    - intro t. repeat split; cbn; lia.
    - intros c [|[|i]] x m H; cbn in H; inversion H; subst; repeat split; cbn; lia.
    - intro t. exact Logic.I.
  Qed.

  (* views only grow, and who writes knows what it wrote *)
  Definition vle (a b : view) : Prop :=
    (ve a <= ve b)%nat /\ (vd a <= vd b)%nat /\ (forall c, (vs a c <= vs b c)%nat) /\ (forall u, (vx a u <= vx b u)%nat).
  Lemma vle_refl : forall a, vle a a. Proof. intro a. repeat split; auto. Qed.
  Lemma vle_trans : forall a b c, vle a b -> vle b c -> vle a c.
  Proof. intros a b c (A1 & A2 & A3 & A4) (B1 & B2 & B3 & B4). repeat split; try (intro x; specialize (A3 x) || specialize (A4 x); specialize (B3 x) || specialize (B4 x)); try lia. Qed.

  Definition pcv (p : pc T) : option T := match p with ELoad v | ESeq v _ | ECas v _ => Some v | _ => None end.
  Record sfacts w w' (x : waction T) (es : list (event T)) : Prop := {
    f_vle : forall u, vle (vw w u) (vw w' u);
    f_oth : forall u, u <> actor x -> thr (base w') u = thr (base w) u /\ vw w' u = vw w u;
    f_sh : forall c, sh w' c = sh w c \/ S (vs (vw w' (actor x)) c) = length (sh w' c);
    f_eh : eh w' = eh w \/ S (ve (vw w' (actor x))) = length (eh w');
    f_dh : dh w' = dh w \/ S (vd (vw w' (actor x))) = length (dh w');
    f_gh : (ghost (base w') = ghost (base w) /\ pubs w' = pubs w) \/
           exists v q, thr (base w) (actor x) = ECas v q /\ ghost (base w') = ghost (base w) ++ [v] /\ pubs w' = pubs w ++ [vw w (actor x)];
    f_pcv : forall v, pcv (thr (base w') (actor x)) = Some v -> pcv (thr (base w) (actor x)) = Some v \/ x = WCall (actor x) (Enq v);
    f_ret : forall u v, In (ERet u (RDeq (Some v))) es -> u = actor x /\ exists q, thr (base w) (actor x) = DStore v q }.

  Lemma sf_same : forall w x, sfacts w w x [].
  Proof. intros w x. constructor; auto; [intro; apply vle_refl|intros u v []]. Qed.
  Lemma sf_local : forall w x p v es, vle (vw w (actor x)) v -> (forall y, pcv p = Some y -> pcv (thr (base w) (actor x)) = Some y \/ x = WCall (actor x) (Enq y)) ->
    (forall u y, ~ In (ERet u (RDeq (Some y))) es) -> sfacts w (local w (actor x) p v) x es.
  Proof.
    intros w x p v es L P E. constructor; auto; cbn.
    - intro u. destruct (Nat.eq_dec u (actor x)) as [->|NE]; [rewrite upd_eq; auto|rewrite upd_neq by auto; apply vle_refl].
    - intros u NE. rewrite !upd_neq by auto. auto.
    - rewrite upd_eq. auto.
    - intros u y H. exfalso. eapply E; eauto.
  Qed.
  Lemma sf_view : forall w x v, vle (vw w (actor x)) v -> sfacts w (next w (base w) (actor x) v) x [].
  Proof.
    intros w x v L. constructor; auto; cbn.
    - intro u. destruct (Nat.eq_dec u (actor x)) as [->|NE]; [rewrite upd_eq; auto|rewrite upd_neq by auto; apply vle_refl].
    - intros u NE. rewrite upd_neq by auto. auto.
    - tauto.
  Qed.
  Lemma vle_ve : forall v i, (ve v <= i)%nat -> vle v (set_ve v i). Proof. intros v i H. repeat split; cbn; auto. Qed.
  Lemma vle_vd : forall v i, (vd v <= i)%nat -> vle v (set_vd v i). Proof. intros v i H. repeat split; cbn; auto. Qed.
  Lemma vle_load : forall v c i m, vle v (load_view true v c i m).
  Proof.
    intros v c i m. unfold load_view. repeat split; cbn; try lia.
    - intro c'. unfold updN. destruct (N.eqb_spec c' c); [subst; lia|lia].
  Qed.
  Lemma vle_join : forall a b, vle a (join a b).
  Proof. intros a b. repeat split; cbn; intros; lia. Qed.
  Lemma sf_payload : forall w s' x c w' es, payload w s' (actor x) c = Ok w' -> (forall u, u <> actor x -> thr s' u = thr (base w) u) ->
    ghost s' = ghost (base w) -> pcv (thr s' (actor x)) = None -> (forall u y, ~ In (ERet u (RDeq (Some y))) es) -> sfacts w w' x es.
  Proof.
    intros w s' x c w' es H O G P E. unfold payload in H. apply bind_Ok in H. destruct H as (? & _ & H). inversion H; subst w'. clear H. constructor; auto; cbn; auto.
    - intro u. destruct (Nat.eq_dec u (actor x)) as [->|NE]; [rewrite upd_eq; repeat split; cbn; auto|rewrite upd_neq by auto; apply vle_refl].
    - intros u NE. rewrite upd_neq by auto. auto.
    - intros v X. congruence.
    - intros u y H. exfalso. eapply E; eauto.
  Qed.
  Lemma sf_store : forall w s' x c w' es, vok w (vw w (actor x)) -> store true w s' (actor x) c = Ok w' -> (forall u, u <> actor x -> thr s' u = thr (base w) u) ->
    ghost s' = ghost (base w) -> pcv (thr s' (actor x)) = None ->
    (forall u y, In (ERet u (RDeq (Some y))) es -> u = actor x /\ exists q, thr (base w) (actor x) = DStore y q) -> sfacts w w' x es.
  Proof.
    intros w s' x c w' es V H O G P E. unfold store in H. apply bind_Ok in H. destruct H as (? & _ & H). inversion H; subst w'. clear H. constructor; auto; cbn; auto.
    - intro u. destruct (Nat.eq_dec u (actor x)) as [->|NE]; [rewrite upd_eq|rewrite upd_neq by auto; apply vle_refl].
      repeat split; cbn; auto. intro c'. unfold updN. destruct (N.eqb_spec c' c); auto. subst. destruct V as (_ & _ & V). destruct (V c). lia.
    - intros u NE. rewrite upd_neq by auto. auto.
    - intro c'. rewrite upd_eq. destruct (N.eq_dec c' c) as [->|NE].
      + right. cbn. rewrite !updN_eq, app_length. cbn. lia.
      + left. apply updN_neq; auto.
    - intros v X. congruence.
  Qed.

  Lemma wact_facts : forall n w x w' es, winv n w -> wact code w x = Ok (w', es) -> sfacts w w' x es.
  Proof.
    intros n w x w' es W H. pose proof (b_view _ _ W (actor x)) as V. destruct x as [t c|t pick|t|u t].
    - cbn [wact] in H. destruct (act (base w) (Call t c)) as [s e] eqn:E. inversion H; subst w' e. clear H.
      assert (D : (s = base w /\ es = []) \/ (s = set_thr (base w) t (match c with Enq v => ELoad v | Deq => DLoad end) /\ es = [ECall t c])).
      { cbn in E. destruct (thr (base w) t); inversion E; auto. }
      destruct D as [[-> ->]|[-> ->]]; [apply (sf_view w (WCall t c)); apply vle_refl|].
      apply (sf_local w (WCall t c)); [apply vle_refl| |].
      + intros y Y. right. destruct c; cbn in Y; inversion Y; auto.
      + intros u y [Q|[]]. discriminate.
    - cbn [wact] in H. unfold wgo in H. destruct (go (base w) t false) as [s' e] eqn:G. cbn in V.
      assert (V1 := proj1 V). assert (V2 := proj1 (proj2 V)).
      assert (NR : forall u y, ~ In (ERet u (RDeq (Some y))) (@nil (event T))) by (intros u y []).
      assert (PP : forall p, pcv p = None \/ pcv p = pcv (thr (base w) t) -> forall y, pcv p = Some y -> pcv (thr (base w) t) = Some y \/ WGo t pick = WCall t (Enq y)).
      { intros p [Q|Q] y Y; left; congruence. }
      destruct (thr (base w) t) as [|z|z pos|z pos|z pos|z pos| |pos|pos|pos|z pos] eqn:TH; rewrite <- ?TH in PP.
      + inversion H; subst. apply sf_same.
      + destruct (choose (eh w) (ve (vw w t)) pick) as [[i p]|] eqn:CH; inversion H; subst; [|apply sf_same].
        apply choose_some in CH. apply (sf_local w (WGo t pick)); auto; [apply vle_ve; apply CH|apply PP; rewrite TH; auto].
      + destruct (choose _ _ pick) as [[i [q m]]|] eqn:CH; [|inversion H; subst; apply sf_same].
        change (enq_load code) with true in H. destruct (_ =? 0)%Z; [|destruct (_ <? 0)%Z]; inversion H; subst; apply (sf_local w (WGo t pick)); auto using vle_load; try (apply PP; rewrite ?TH; auto; fail).
        intros u y [Q|[]]. discriminate.
      + destruct pick as [j|].
        * destruct (choose (eh w) (ve (vw w t)) (Some j)) as [[i p]|] eqn:CH; inversion H; subst; [|apply sf_same].
          apply choose_some in CH. apply (sf_local w (WGo t (Some j))); auto; [apply vle_ve; apply CH|apply PP; rewrite TH; auto].
        * destruct (N.eqb_spec (enq (base w)) pos) as [E|E].
          -- inversion H; subst w' e. clear H. unfold go in G. rewrite TH in G. rewrite E, N.eqb_refl in G. cbn in G. inversion G; subst s' es. constructor; cbn; auto.
             ++ intro u. destruct (Nat.eq_dec u t) as [->|NE]; [rewrite upd_eq; apply vle_ve; lia|rewrite upd_neq by auto; apply vle_refl].
             ++ intros u NE. rewrite !upd_neq by auto. auto.
             ++ right. rewrite upd_eq, app_length. cbn. lia.
             ++ right. exists z, pos. auto.
             ++ rewrite upd_eq. discriminate.
             ++ intros u v [].
          -- inversion H; subst. apply (sf_local w (WGo t None)); auto; [apply vle_ve; lia|apply PP; rewrite TH; auto].
      + apply bind_Ok in H. destruct H as (w1 & H1 & H2). inversion H2; subst w1 e. clear H2. unfold go in G. rewrite TH in G. inversion G; subst s' es.
        eapply (sf_payload w _ (WGo t pick)); [exact H1|..]; auto; cbn; [intros; apply upd_neq; auto|rewrite upd_eq; auto].
      + apply bind_Ok in H. destruct H as (w1 & H1 & H2). inversion H2; subst w1 e. clear H2. unfold go in G. rewrite TH in G. inversion G; subst s' es.
        eapply (sf_store w _ (WGo t pick)); [exact V|exact H1|..]; auto; cbn; [intros; apply upd_neq; auto|rewrite upd_eq; auto|].
        intros u y [Q|[]]. discriminate.
      + destruct (choose (dh w) (vd (vw w t)) pick) as [[i p]|] eqn:CH; inversion H; subst; [|apply sf_same].
        apply choose_some in CH. apply (sf_local w (WGo t pick)); auto; [apply vle_vd; apply CH|apply PP; auto].
      + destruct (choose _ _ pick) as [[i [q m]]|] eqn:CH; [|inversion H; subst; apply sf_same].
        change (deq_load code) with true in H. destruct (_ =? 0)%Z; [|destruct (_ <? 0)%Z]; inversion H; subst; apply (sf_local w (WGo t pick)); auto using vle_load; try (apply PP; auto; fail).
        intros u y [Q|[]]. discriminate.
      + destruct pick as [j|].
        * destruct (choose (dh w) (vd (vw w t)) (Some j)) as [[i p]|] eqn:CH; inversion H; subst; [|apply sf_same].
          apply choose_some in CH. apply (sf_local w (WGo t (Some j))); auto; [apply vle_vd; apply CH|apply PP; auto].
        * destruct (N.eqb_spec (deq (base w)) pos) as [E|E].
          -- inversion H; subst w' e. clear H. unfold go in G. rewrite TH in G. rewrite E, N.eqb_refl in G. cbn in G. inversion G; subst s' es. constructor; cbn; auto.
             ++ intro u. destruct (Nat.eq_dec u t) as [->|NE]; [rewrite upd_eq; apply vle_vd; lia|rewrite upd_neq by auto; apply vle_refl].
             ++ intros u NE. rewrite !upd_neq by auto. auto.
             ++ right. rewrite upd_eq, app_length. cbn. lia.
             ++ rewrite upd_eq. discriminate.
             ++ intros u v [].
          -- inversion H; subst. apply (sf_local w (WGo t None)); auto; [apply vle_vd; lia|apply PP; auto].
      + apply bind_Ok in H. destruct H as (w1 & H1 & H2). inversion H2; subst w1 e. clear H2. unfold go in G. rewrite TH in G. inversion G; subst s' es.
        eapply (sf_payload w _ (WGo t pick)); [exact H1|..]; auto; cbn; [intros; apply upd_neq; auto|rewrite upd_eq; auto].
      + apply bind_Ok in H. destruct H as (w1 & H1 & H2). inversion H2; subst w1 e. clear H2. unfold go in G. rewrite TH in G. inversion G; subst s' es.
        eapply (sf_store w _ (WGo t pick)); [exact V|exact H1|..]; auto; cbn; [intros; apply upd_neq; auto|rewrite upd_eq; auto|].
        intros u y [Q|[]]. inversion Q; subst. split; auto. exists pos. auto.
    - cbn [wact] in H. destruct (thr (base w) t); inversion H; subst; try apply sf_same. apply (sf_view w (WOther t)). cbn.
      repeat split; cbn; auto. intro u. unfold upd. destruct (Nat.eqb_spec u t); subst; auto.
    - cbn [wact] in H. destruct (thr (base w) u), (thr (base w) t); inversion H; subst; try apply sf_same. apply (sf_view w (WSync u t)). apply vle_join.
  Qed.

  (* reading only newest values is what MpmcModel.v does *)
  Definition reads_newest w (t : nat) (pick : option nat) : Prop :=
    (forall i p, choose (eh w) (ve (vw w t)) pick = Some (i, p) -> S i = length (eh w)) /\
    (forall i p, choose (dh w) (vd (vw w t)) pick = Some (i, p) -> S i = length (dh w)) /\
    (forall c i m, choose (sh w c) (vs (vw w t) c) pick = Some (i, m) -> S i = length (sh w c)).
  Definition is_weak (pick : option nat) : bool := match pick with None => false | Some _ => true end.
  Definition stuck w (t : nat) (pick : option nat) : Prop :=
    match thr (base w) t with
    | ELoad _ => choose (eh w) (ve (vw w t)) pick = None
    | DLoad => choose (dh w) (vd (vw w t)) pick = None
    | ECas _ _ => pick <> None /\ choose (eh w) (ve (vw w t)) pick = None
    | DCas _ => pick <> None /\ choose (dh w) (vd (vw w t)) pick = None
    | ESeq _ pos | DSeq pos => choose (sh w (cell (base w) pos)) (vs (vw w t) (cell (base w) pos)) pick = None
    | _ => False
    end.
  Lemma newest_eh : forall n w i p, winv n w -> nth_error (eh w) i = Some p -> S i = length (eh w) -> p = enq (base w).
  Proof. intros n w i p W H L. destruct (b_eh _ _ W) as [L' Q]. rewrite (Q _ _ H). lia. Qed.
  Lemma newest_dh : forall n w i p, winv n w -> nth_error (dh w) i = Some p -> S i = length (dh w) -> p = deq (base w).
  Proof. intros n w i p W H L. destruct (b_dh _ _ W) as [L' Q]. rewrite (Q _ _ H). lia. Qed.
  Lemma newest_sh : forall n w c i q m, winv n w -> nth_error (sh w c) i = Some (q, m) -> S i = length (sh w c) -> q = seqs (base w) c.
  Proof.
    intros n w c i q m W H L. destruct (b_last _ _ W c) as (h & m' & E & _). rewrite E in H, L. rewrite app_length in L. cbn in L.
    rewrite nth_error_app2 in H by lia. replace (i - length h)%nat with 0%nat in H by lia. cbn in H. congruence.
  Qed.
  Lemma newest_go : forall n w t pick w' es, winv n w -> reads_newest w t pick -> wgo code w t pick = Ok (w', es) ->
    go (base w) t (is_weak pick) = (base w', es) \/ (w' = w /\ es = [] /\ stuck w t pick).
  Proof.
    intros n w t pick w' es W (N1 & N2 & N3) H. unfold wgo in H. unfold stuck.
    destruct (go (base w) t false) as [s' e] eqn:G. unfold go in *.
    destruct (thr (base w) t) as [|z|z pos|z pos|z pos|z pos| |pos|pos|pos|z pos] eqn:TH.
    - inversion H; subst. auto.
    - destruct (choose (eh w) (ve (vw w t)) pick) as [[i p]|] eqn:CH; inversion H; subst; [|auto]. left.
      pose proof (N1 _ _ eq_refl). apply choose_some in CH. cbn. rewrite (newest_eh n w i p); auto; tauto.
    - destruct (choose (sh w (cell (base w) pos)) (vs (vw w t) (cell (base w) pos)) pick) as [[i [q m]]|] eqn:CH; [|inversion H; subst; auto]. left. pose proof (N3 _ _ _ CH). apply choose_some in CH.
      rewrite (newest_sh n w (cell (base w) pos) i q m) in H; auto; [|tauto]. destruct (_ =? 0)%Z; [|destruct (_ <? 0)%Z]; inversion H; subst; reflexivity.
    - destruct pick as [j|]; cbn [is_weak negb].
      + destruct (choose (eh w) (ve (vw w t)) (Some j)) as [[i p]|] eqn:CH; inversion H; subst; [|right; repeat split; auto; discriminate]. left.
        pose proof (N1 _ _ eq_refl). apply choose_some in CH. rewrite andb_false_r. cbn. rewrite (newest_eh n w i p); auto; tauto.
      + left. cbn [negb] in G. rewrite G. destruct (N.eqb_spec (enq (base w)) pos); inversion H; subst w' es; [reflexivity|]. cbn in G. inversion G; subst. reflexivity.
    - apply bind_Ok in H. destruct H as (w1 & H1 & H2). inversion H2; subst w1 e. left. rewrite G. unfold payload in H1. apply bind_Ok in H1. destruct H1 as (? & _ & H1). inversion H1; reflexivity.
    - apply bind_Ok in H. destruct H as (w1 & H1 & H2). inversion H2; subst w1 e. left. rewrite G. unfold store in H1. apply bind_Ok in H1. destruct H1 as (? & _ & H1). inversion H1; reflexivity.
    - destruct (choose (dh w) (vd (vw w t)) pick) as [[i p]|] eqn:CH; inversion H; subst; [|auto]. left.
      pose proof (N2 _ _ eq_refl). apply choose_some in CH. cbn. rewrite (newest_dh n w i p); auto; tauto.
    - destruct (choose (sh w (cell (base w) pos)) (vs (vw w t) (cell (base w) pos)) pick) as [[i [q m]]|] eqn:CH; [|inversion H; subst; auto]. left. pose proof (N3 _ _ _ CH). apply choose_some in CH.
      rewrite (newest_sh n w (cell (base w) pos) i q m) in H; auto; [|tauto]. destruct (_ =? 0)%Z; [|destruct (_ <? 0)%Z]; inversion H; subst; reflexivity.
    - destruct pick as [j|]; cbn [is_weak negb].
      + destruct (choose (dh w) (vd (vw w t)) (Some j)) as [[i p]|] eqn:CH; inversion H; subst; [|right; repeat split; auto; discriminate]. left.
        pose proof (N2 _ _ eq_refl). apply choose_some in CH. rewrite andb_false_r. cbn. rewrite (newest_dh n w i p); auto; tauto.
      + left. cbn [negb] in G. rewrite G. destruct (N.eqb_spec (deq (base w)) pos); inversion H; subst w' es; [reflexivity|]. cbn in G. inversion G; subst. reflexivity.
    - apply bind_Ok in H. destruct H as (w1 & H1 & H2). inversion H2; subst w1 e. left. rewrite G. unfold payload in H1. apply bind_Ok in H1. destruct H1 as (? & _ & H1). inversion H1; reflexivity.
    - apply bind_Ok in H. destruct H as (w1 & H1 & H2). inversion H2; subst w1 e. left. rewrite G. unfold store in H1. apply bind_Ok in H1. destruct H1 as (? & _ & H1). inversion H1; reflexivity.
  Qed.
  Lemma choose_last : forall A (h : list A) lo, (lo < length h)%nat -> exists m, choose h lo (Some (length h - 1)%nat) = Some ((length h - 1)%nat, m) /\ choose h lo None = Some ((length h - 1)%nat, m).
  Proof.
    intros A h lo L. unfold choose. rewrite (proj2 (Nat.leb_le _ _)) by lia. destruct (nth_error h (length h - 1)) eqn:E; [eauto|].
    apply nth_error_None in E. lia.
  Qed.
  Lemma choose_none : forall A (h : list A) lo i m, choose h lo None = Some (i, m) -> S i = length h.
  Proof.
    intros A h lo i m H. pose proof (choose_some _ _ _ _ _ _ H). unfold choose in H. destruct (Nat.leb _ _); [|discriminate].
    destruct (nth_error h (length h - 1)); [|discriminate]. inversion H; subst. lia.
  Qed.
  Lemma reads_none : forall w t, reads_newest w t None.
  Proof. intros w t. repeat split; intros *; apply choose_none. Qed.

  (* every step of MpmcModel.v is a step of the weak machine *)
  Lemma sc_step : forall n w a x, winv n w -> n < 2 ^ 62 -> R (base w) a ->
    exists x' w' es, wact code w x' = Ok (w', es) /\ act (base w) x = (base w', es).
  Proof.
    intros n w a x W B RR. destruct x as [t c|t weak].
    - exists (WCall t c). cbn [wact]. destruct (act (base w) (Call t c)) as [s es] eqn:E. eexists _, _. split; reflexivity.
    - pose proof (b_view _ _ W t) as (V1 & V2 & V3).
      assert (N0 : go (base w) t weak = go (base w) t false \/ weak = true /\ ((exists z q, thr (base w) t = ECas z q) \/ exists q, thr (base w) t = DCas q)).
      { unfold go. destruct (thr (base w) t); auto; destruct weak; auto; right; split; eauto. }
      destruct N0 as [N0|[-> N0]].
      + cbn [act]. rewrite N0. destruct (wgo_spec n w a t None W B RR) as (w' & es & E & _). exists (WGo t None), w', es. split; [exact E|].
        destruct (newest_go n w t None w' es W (reads_none w t) E) as [G|(-> & -> & ST)]; [exact G|]. exfalso. unfold stuck in ST.
        destruct (thr (base w) t); try contradiction; try (destruct ST; congruence).
        * destruct (choose_last _ _ _ V1) as (m & _ & C). congruence.
        * destruct (choose_last _ _ _ (proj1 (V3 (cell (base w) pos)))) as (m & _ & C). congruence.
        * destruct (choose_last _ _ _ V2) as (m & _ & C). congruence.
        * destruct (choose_last _ _ _ (proj1 (V3 (cell (base w) pos)))) as (m & _ & C). congruence.
      + destruct N0 as [(z & q & TH)|(q & TH)].
        * exists (WGo t (Some (length (eh w) - 1)%nat)). cbn [wact act]. unfold wgo. destruct (go (base w) t false). unfold go. rewrite TH. rewrite andb_false_r.
          destruct (choose_last _ _ _ V1) as (m & C & _). rewrite C. eexists _, _. split; [reflexivity|]. cbn.
          apply choose_some in C. rewrite (newest_eh n w (length (eh w) - 1) m); auto; [tauto|lia].
        * exists (WGo t (Some (length (dh w) - 1)%nat)). cbn [wact act]. unfold wgo. destruct (go (base w) t false). unfold go. rewrite TH. rewrite andb_false_r.
          destruct (choose_last _ _ _ V2) as (m & C & _). rewrite C. eexists _, _. split; [reflexivity|]. cbn.
          apply choose_some in C. rewrite (newest_dh n w (length (dh w) - 1) m); auto; [tauto|lia].
  Qed.
  Lemma sc_run : forall l n w a, winv n w -> n + N.of_nat (length l) < 2 ^ 62 -> R (base w) a ->
    exists l' w' es, length l' = length l /\ wrun code w l' = Ok (w', es) /\ run (base w) l = (base w', es).
  Proof.
    induction l as [|x l IH]; intros n w a W B RR.
    - exists [], w, []. auto.
    - cbn [length] in B. destruct (sc_step n w a x W ltac:(lia) RR) as (x' & w1 & e & E & A).
      destruct (wact_spec n w a x' W ltac:(lia) RR) as (w1' & e' & E' & W1 & a1 & A1 & R1). rewrite E in E'. inversion E'; subst w1' e'.
      destruct (IH (n + 1) w1 a1 W1 ltac:(lia) R1) as (l' & w2 & es & L & E2 & A2).
      exists (x' :: l'), w2, (e ++ es). cbn [length wrun run]. rewrite E. cbn [bind]. rewrite E2, A, A2. auto.
  Qed.

  Lemma none_go : forall n w a t, winv n w -> n < 2 ^ 62 -> R (base w) a -> exists w' es, wgo code w t None = Ok (w', es) /\ go (base w) t false = (base w', es).
  Proof.
    intros n w a t W B RR. destruct (wgo_spec n w a t None W B RR) as (w' & es & E & _). exists w', es. split; [exact E|]. pose proof (b_view _ _ W t) as (V1 & V2 & V3).
    destruct (newest_go n w t None w' es W (reads_none w t) E) as [G|(-> & -> & ST)]; [exact G|]. exfalso. unfold stuck in ST.
    destruct (thr (base w) t); try contradiction; try (destruct ST; congruence).
    * destruct (choose_last _ _ _ V1) as (m & _ & C). congruence.
    * destruct (choose_last _ _ _ (proj1 (V3 (cell (base w) pos)))) as (m & _ & C). congruence.
    * destruct (choose_last _ _ _ V2) as (m & _ & C). congruence.
    * destruct (choose_last _ _ _ (proj1 (V3 (cell (base w) pos)))) as (m & _ & C). congruence.
  Qed.
  Lemma none_gos : forall j n w a t, winv n w -> n + N.of_nat j < 2 ^ 62 -> R (base w) a ->
    exists w' es, wrun code w (repeat (WGo t None) j) = Ok (w', es) /\ run (base w) (repeat (Go t false) j) = (base w', es).
  Proof.
    induction j as [|j IH]; intros n w a t W B RR.
    - exists w, []. auto.
    - destruct (none_go n w a t W ltac:(lia) RR) as (w1 & e & E & G).
      destruct (wact_spec n w a (WGo t None) W ltac:(lia) RR) as (w1' & e' & E' & W1 & a1 & A1 & R1). cbn [wact] in E'. rewrite E in E'. inversion E'; subst w1' e'.
      destruct (IH (n + 1) w1 a1 t W1 ltac:(lia) R1) as (w2 & es & E2 & G2). exists w2, (e ++ es). cbn [repeat wrun run wact act]. rewrite E. cbn [bind]. rewrite E2, G, G2. auto.
  Qed.

  (* a thread that has seen everything *)
  Definition complete w (t : nat) : Prop :=
    S (ve (vw w t)) = length (eh w) /\ S (vd (vw w t)) = length (dh w) /\ forall c, S (vs (vw w t) c) = length (sh w c).
  Lemma complete_reads : forall w t pick, complete w t -> reads_newest w t pick.
  Proof.
    intros w t pick (C1 & C2 & C3). repeat split; intros * H; apply choose_some in H; try lia. specialize (C3 c). lia.
  Qed.
  Lemma complete_step : forall n w x w' es, winv n w -> winv (n + 1) w' -> wact code w x = Ok (w', es) -> complete w (actor x) -> complete w' (actor x).
  Proof.
    intros n w x w' es W W' H (C1 & C2 & C3). destruct (wact_facts _ _ _ _ _ W H). destruct (f_vle0 (actor x)) as (L1 & L2 & L3 & _).
    destruct (b_view _ _ W' (actor x)) as (V1 & V2 & V3). split; [|split].
    - destruct f_eh0 as [E|E]; auto. rewrite E in *. lia.
    - destruct f_dh0 as [E|E]; auto. rewrite E in *. lia.
    - intro c. destruct (f_sh0 c) as [E|E]; auto. specialize (C3 c). specialize (L3 c). destruct (V3 c) as [V _]. rewrite E in *. lia.
  Qed.
  Lemma alone_run : forall l n w a t, winv n w -> n + N.of_nat (length l) < 2 ^ 62 -> R (base w) a -> complete w t ->
    Forall (fun x => actor x = t) l ->
    exists l' w' es, (length l' <= length l)%nat /\ Forall (fun y => match y with Call u _ | Go u _ => u = t end) l' /\
      ((forall u c, ~ In (WCall u c) l) -> forall u c, ~ In (Call u c) l') /\ wrun code w l = Ok (w', es) /\ run (base w) l' = (base w', es) /\ complete w' t.
  Proof.
    induction l as [|x l IH]; intros n w a t W B RR C F.
    - exists [], w, []. repeat (split; [auto; fail|]). exact C.
    - inversion F as [|? ? F1 F2]; subst. clear F. cbn [length] in B. destruct (wact_spec n w a x W ltac:(lia) RR) as (w1 & e & E & W1 & a1 & A1 & R1).
      pose proof (complete_step _ _ _ _ _ W W1 E C) as C1.
      destruct (IH (n + 1) w1 a1 (actor x) W1 ltac:(lia) R1 C1 F2) as (l' & w2 & es & L & FF & NC & E2 & A2 & C2).
      assert (D : (base w1 = base w /\ e = []) \/ exists y, (match y with Call u _ | Go u _ => u = actor x end) /\ (forall u c, y = Call u c -> x = WCall u c) /\ act (base w) y = (base w1, e)).
      { destruct x as [t c|t pick|t|u t]; cbn [wact actor] in *.
        - right. exists (Call t c). split; auto. split; [intros; congruence|]. destruct (act (base w) (Call t c)). inversion E; subst. reflexivity.
        - destruct (newest_go n w t pick w1 e W (complete_reads _ _ _ C) E) as [G|(-> & -> & _)]; auto. right. exists (Go t (is_weak pick)). split; auto. split; [discriminate|auto].
        - left. destruct (thr (base w) t); inversion E; subst; auto.
        - left. destruct (thr (base w) u), (thr (base w) t); inversion E; subst; auto. }
      destruct D as [[D1 ->]|(y & Y & YC & D)].
      + exists l', w2, es. cbn [length wrun]. rewrite E. cbn [bind]. rewrite E2. rewrite D1 in A2. repeat (split; [auto; fail|]). split; [|auto].
        intros F u c X. apply (NC (fun u c Z => F u c (or_intror Z)) u c X).
      + exists (y :: l'), w2, (e ++ es). cbn [length wrun run]. rewrite E. cbn [bind]. rewrite E2, D, A2. split; [lia|]. split; [auto|]. split; [|auto].
        intros F u c [X|X]; [apply (F u c); left; auto|apply (NC (fun u c Z => F u c (or_intror Z)) u c X)].
  Qed.

  (* between them the threads that have acted have seen everything *)
  Definition covered w (us : list nat) : Prop :=
    (length (eh w) = 1%nat \/ exists u, In u us /\ S (ve (vw w u)) = length (eh w)) /\
    (length (dh w) = 1%nat \/ exists u, In u us /\ S (vd (vw w u)) = length (dh w)) /\
    (forall c, length (sh w c) = 1%nat \/ exists u, In u us /\ S (vs (vw w u) c) = length (sh w c)).
  Lemma covered_step : forall n w x w' es us, winv n w -> winv (n + 1) w' -> wact code w x = Ok (w', es) -> In (actor x) us -> covered w us -> covered w' us.
  Proof.
    intros n w x w' es us W W' H U (C1 & C2 & C3). destruct (wact_facts _ _ _ _ _ W H). split; [|split].
    - destruct f_eh0 as [E|E]; [|eauto]. rewrite E. destruct C1 as [C1|(u & U1 & C1)]; auto. right. exists u. split; auto.
      destruct (f_vle0 u) as (L1 & _). destruct (b_view _ _ W' u) as (V1 & _). rewrite E in V1. lia.
    - destruct f_dh0 as [E|E]; [|eauto]. rewrite E. destruct C2 as [C2|(u & U1 & C2)]; auto. right. exists u. split; auto.
      destruct (f_vle0 u) as (_ & L1 & _). destruct (b_view _ _ W' u) as (_ & V1 & _). rewrite E in V1. lia.
    - intro c. destruct (f_sh0 c) as [E|E]; [|eauto]. rewrite E. destruct (C3 c) as [C|(u & U1 & C)]; auto. right. exists u. split; auto.
      destruct (f_vle0 u) as (_ & _ & L1 & _). destruct (b_view _ _ W' u) as (_ & _ & V1). specialize (L1 c). destruct (V1 c) as [V _]. rewrite E in V. lia.
  Qed.
  Lemma covered_run : forall l n w a us w' es, winv n w -> n + N.of_nat (length l) < 2 ^ 62 -> R (base w) a -> Forall (fun x => In (actor x) us) l ->
    covered w us -> wrun code w l = Ok (w', es) -> covered w' us.
  Proof.
    induction l as [|x l IH]; intros n w a us w' es W B RR F C H.
    - inversion H; subst; auto.
    - inversion F as [|? ? F1 F2]; subst. clear F. cbn [length] in B. destruct (wact_spec n w a x W ltac:(lia) RR) as (w1 & e & E & W1 & a1 & A1 & R1).
      cbn [wrun] in H. rewrite E in H. cbn [bind] in H. apply bind_Ok in H. destruct H as ([w2 e2] & H1 & H2). inversion H2; subst. clear H2.
      apply (IH (n + 1) w1 a1 us w' e2); auto; [lia|]. apply (covered_step n w x w1 e); auto.
  Qed.
  (* synchronizing with all of them completes the view *)
  Lemma sync_run : forall us w t, (forall u, thr (base w) u = Idle) ->
    exists w', wrun code w (map (fun u => WSync u t) us) = Ok (w', []) /\ base w' = base w /\ eh w' = eh w /\ dh w' = dh w /\ sh w' = sh w /\
      (forall u, vle (vw w u) (vw w' u)) /\ forall u, In u us -> vle (vw w u) (vw w' t).
  Proof.
    induction us as [|u us IH]; intros w t Q.
    - exists w. repeat (split; [reflexivity|]). split; [intro; apply vle_refl|intros u []].
    - cbn [map wrun wact]. rewrite !Q. cbn [bind]. set (w1 := next w (base w) t (join (vw w t) (vw w u))).
      assert (L : forall u, vle (vw w u) (vw w1 u)).
      { intro u'. cbn. unfold upd. destruct (Nat.eqb_spec u' t); [subst; apply vle_join|apply vle_refl]. }
      destruct (IH w1 t Q) as (w' & E & B & H1 & H2 & H3 & M & S'). exists w'. rewrite E. repeat (split; [auto; fail|]). split.
      + intro u'. eapply vle_trans; eauto.
      + intros u' [->|U]; [|eapply vle_trans; eauto]. eapply vle_trans; [|apply M]. cbn. rewrite upd_eq. repeat split; cbn; intros; lia.
  Qed.
  Lemma sync_complete : forall n w us t w' es, winv n w -> covered w us -> (forall u, thr (base w) u = Idle) ->
    wrun code w (map (fun u => WSync u t) us) = Ok (w', es) -> winv n w' -> complete w' t.
  Proof.
    intros n w us t w' es W (C1 & C2 & C3) Q H W'. destruct (sync_run us w t Q) as (w2 & E & B & H1 & H2 & H3 & M & SS). rewrite E in H. inversion H; subst w2 es. clear H.
    destruct (b_view _ _ W' t) as (V1 & V2 & V3). unfold complete. split; [|split].
    - destruct C1 as [C|(u & U & C)]; rewrite H1 in *; [lia|]. destruct (SS u U) as (L & _). lia.
    - destruct C2 as [C|(u & U & C)]; rewrite H2 in *; [lia|]. destruct (SS u U) as (_ & L & _). lia.
    - intro c. destruct (V3 c) as [V _]. destruct (C3 c) as [C|(u & U & C)]; rewrite H3 in *; [lia|]. destruct (SS u U) as (_ & _ & L & _). specialize (L c). lia.
  Qed.

  (* one thread alone, with any spurious failures: its call returns what the bounded FIFO says *)
  Definition solo_at (c : call T) (q : list T) s (t : nat) : Prop :=
    match thr s t with
    | Idle => False
    | ELoad v | ESeq v _ | ECas v _ => c = Enq v /\ absq s = q
    | EWrite v _ | EStore v _ => c = Enq v /\ absq s = q ++ [v] /\ N.of_nat (length q) < cap
    | DLoad | DSeq _ | DCas _ => c = Deq /\ absq s = q
    | DRead p => exists v, val s p = Some v /\ c = Deq /\ q = v :: absq s
    | DStore v _ => c = Deq /\ q = v :: absq s
    end.
  Lemma solo_step : forall n s t c q weak s' es, inv n s -> n < 2 ^ 62 -> (forall u, u <> t -> thr s u = Idle) -> solo_at c q s t ->
    go s t weak = (s', es) -> (forall u, u <> t -> thr s' u = Idle) /\
      ((es = [] /\ solo_at c q s' t) \/ (es = [ERet t (snd (seq_step cap q c))] /\ thr s' t = Idle)).
  Proof.
    intros n s t c q weak s' es I B O J G. pose proof cg as C. pose proof cl as CL. destruct (small k K1 K2 _ _ I B) as [SE SD].
    pose proof (v_pc _ _ _ I t) as PC. unfold solo_at in J. unfold go in G.
    assert (ID : forall u, abspc s (thr s u) = AIdle \/ u = t). { intro u. destruct (Nat.eq_dec u t); auto. left. rewrite O; auto. }
    assert (OT : forall s2 p u, u <> t -> thr s2 u = Idle -> thr (set_thr s2 t p) u = Idle) by (intros s2 p u NE X; cbn; rewrite upd_neq; auto).
    destruct (thr s t) as [|z|z pos|z pos|z pos|z pos| |pos|pos|pos|z pos] eqn:TH; cbn in PC; try contradiction.
    - inversion G; subst. split; [intros u NE; cbn; rewrite upd_neq; auto|]. left. split; auto. unfold solo_at. cbn. rewrite upd_eq. exact J.
    - destruct J as [-> J]. rewrite (cell_mod k _ _ pos I) in G. pose proof (sq_small k K1 K2 _ _ pos I B) as SQS. change (2 ^ 63) with (2 * 2 ^ 62) in SQS.
      fold (sq k s pos) in G. destruct (z_cmp k K1 K2 (sq k s pos) pos ltac:(auto) ltac:(change (2 ^ 63) with (2 * 2 ^ 62); lia)) as [Z1 Z2]. rewrite Z1, Z2 in G.
      destruct (N.eqb_spec (sq k s pos) pos); [|destruct (N.ltb_spec (sq k s pos) pos)]; inversion G; subst; split; auto.
      + left. split; auto. unfold solo_at. cbn. rewrite upd_eq. auto.
      + right. split; [|cbn; apply upd_eq]. destruct (enq_fail_why k K1 K2 _ _ _ _ _ I TH ltac:(auto)) as [F|(u & v & F)].
        * cbn. destruct (N.ltb_spec (N.of_nat (length (absq s))) cap); [lia|reflexivity].
        * exfalso. destruct (ID u) as [X| ->]; [congruence|]. rewrite TH in F. discriminate.
      + left. split; auto. unfold solo_at. cbn. rewrite upd_eq. auto.
    - destruct J as [-> J]. destruct (N.eqb_spec (enq s) pos); cbn [andb] in G; [destruct weak; cbn [negb] in G|]; inversion G; subst; (split; [intros u NE; cbn; rewrite upd_neq; auto|]); left; split; auto; unfold solo_at; cbn; rewrite upd_eq; auto.
      split; auto. destruct PC as [_ PC]. pose proof (free_at_enq k K1 K2 _ _ I (PC eq_refl)) as F. rewrite (absq_len k K1 K2 _ _ I). split; [|lia].
      unfold absq. cbn. rewrite skipn_app. pose proof (v_len _ _ _ I). replace (N.to_nat (deq s) - length (ghost s))%nat with 0%nat by lia. auto.
    - inversion G; subst. split; [intros u NE; cbn; rewrite upd_neq; auto|]. left. split; auto. unfold solo_at. cbn. rewrite upd_eq. exact J.
    - inversion G; subst. split; [intros u NE; cbn; rewrite upd_neq; auto|]. right. destruct J as (-> & J1 & J2). split; [|cbn; apply upd_eq]. cbn. destruct (N.ltb_spec (N.of_nat (length q)) cap); [reflexivity|lia].
    - inversion G; subst. split; [intros u NE; cbn; rewrite upd_neq; auto|]. left. split; auto. unfold solo_at. cbn. rewrite upd_eq. exact J.
    - destruct J as [-> J]. rewrite (cell_mod k _ _ pos I) in G. pose proof (sq_small k K1 K2 _ _ pos I B) as SQS. change (2 ^ 63) with (2 * 2 ^ 62) in SQS.
      fold (sq k s pos) in G. rewrite wadd_small in G by (change (2 ^ 64) with (4 * 2 ^ 62); lia).
      destruct (z_cmp k K1 K2 (sq k s pos) (pos + 1) ltac:(auto) ltac:(change (2 ^ 63) with (2 * 2 ^ 62); lia)) as [Z1 Z2]. rewrite Z1, Z2 in G.
      destruct (N.eqb_spec (sq k s pos) (pos + 1)); [|destruct (N.ltb_spec (sq k s pos) (pos + 1))]; inversion G; subst; split; auto.
      + left. split; auto. unfold solo_at. cbn. rewrite upd_eq. auto.
      + right. split; [|cbn; apply upd_eq]. destruct (deq_fail_why k K1 K2 _ _ _ _ I TH ltac:(auto)) as [F|(u & F)].
        * rewrite F. reflexivity.
        * exfalso. destruct (ID u) as [X| ->]; [congruence|]. rewrite TH in F. discriminate.
      + left. split; auto. unfold solo_at. cbn. rewrite upd_eq. auto.
    - destruct J as [-> J]. destruct (N.eqb_spec (deq s) pos); cbn [andb] in G; [destruct weak; cbn [negb] in G|]; inversion G; subst; (split; [intros u NE; cbn; rewrite upd_neq; auto|]); left; split; auto; unfold solo_at; cbn; rewrite upd_eq; auto.
      destruct (inv_dcas k K1 K2 _ _ _ I TH) as (_ & V & L). exists (dt k s (deq s)). split; [exact V|]. split; auto.
      unfold absq. cbn. rewrite wadd_small by (change (2 ^ 64) with (4 * 2 ^ 62); lia). replace (N.to_nat (deq s + 1)) with (S (N.to_nat (deq s))) by lia.
      apply skipn_nth. exact V.
    - inversion G; subst. split; [intros u NE; cbn; rewrite upd_neq; auto|]. left. split; auto. destruct J as (v & J1 & -> & ->). unfold solo_at. cbn. rewrite upd_eq. split; auto.
      rewrite (cell_mod k _ _ pos I). fold (dt k s pos). destruct PC as (_ & _ & _ & PC). rewrite PC in J1. inversion J1. reflexivity.
    - inversion G; subst. split; [intros u NE; cbn; rewrite upd_neq; auto|]. right. destruct J as (-> & ->). split; [|cbn; apply upd_eq]. reflexivity.
  Qed.
  Lemma idle_go : forall l s t, thr s t = Idle -> Forall (fun y => match y with Call u _ | Go u _ => u = t end) l -> (forall u c, ~ In (Call u c) l) -> run s l = (s, []).
  Proof.
    induction l as [|y l IH]; intros s t H F NC; auto. inversion F as [|? ? F1 F2]; subst. cbn [run]. destruct y as [u c|u weak]; [exfalso; eapply NC; left; reflexivity|].
    subst u. cbn [act]. unfold go. rewrite H. rewrite (IH s t); auto. intros u c X. apply (NC u c). right. auto.
  Qed.
  Lemma solo_run : forall l n s t c q, inv n s -> n + N.of_nat (length l) < 2 ^ 62 -> (forall u, u <> t -> thr s u = Idle) -> solo_at c q s t ->
    Forall (fun y => match y with Call u _ | Go u _ => u = t end) l -> (forall u c, ~ In (Call u c) l) ->
    snd (run s l) = [] \/ snd (run s l) = [ERet t (snd (seq_step cap q c))].
  Proof.
    induction l as [|y l IH]; intros n s t c q I B O J F NC; auto. inversion F as [|? ? F1 F2]; subst. clear F. cbn [length] in B. cbn [run].
    assert (NC' : forall u c, ~ In (Call u c) l) by (intros u c' X; apply (NC u c'); right; auto).
    destruct y as [u c'|u weak]; [exfalso; eapply NC; left; reflexivity|]. subst u. cbn [act].
    pose proof (act_spec k K1 K2 n s (mkA (absq s) (fun t => abspc s (thr s t))) (Go t weak) I ltac:(lia) ltac:(split; auto)) as A. cbn [act] in A.
    destruct (go s t weak) as [s1 e] eqn:G. destruct A as [I1 _]. destruct (solo_step n s t c q weak s1 e I ltac:(lia) O J G) as [O1 [[-> J1]|[-> ID]]].
    - specialize (IH (n + 1) s1 t c q I1 ltac:(lia) O1 J1 F2 NC'). destruct (run s1 l). cbn in *. exact IH.
    - rewrite (idle_go l s1 t ID F2 NC'). right. reflexivity.
  Qed.
  Lemma vle_run : forall l n w a w' es t, winv n w -> n + N.of_nat (length l) < 2 ^ 62 -> R (base w) a -> wrun code w l = Ok (w', es) -> vle (vw w t) (vw w' t).
  Proof.
    induction l as [|x l IH]; intros n w a w' es t W B RR E; [inversion E; subst; apply vle_refl|].
    cbn [length] in B. destruct (wact_spec n w a x W ltac:(lia) RR) as (w1 & e & E1 & W1 & a1 & A1 & R1).
    cbn [wrun] in E. rewrite E1 in E. cbn [bind] in E. apply bind_Ok in E. destruct E as ([w2 e2] & E2 & E3). inversion E3; subst w2 es.
    eapply vle_trans; [apply (wact_facts n w x w1 e W E1)|]. apply (IH (n + 1) w1 a1 w' e2); auto. lia.
  Qed.
End P.

(* message passing: a value names a thread and how many of its actions outside of the queue the enqueuing thread knows *)
Definition mp (w : wstate (nat * nat)) : Prop :=
  (forall t v, pcv (thr (base w) t) = Some v -> (snd v <= vx (vw w t) (fst v))%nat) /\
  (forall q v m, nth_error (ghost (base w)) q = Some v -> nth_error (pubs w) q = Some m -> (snd v <= vx m (fst v))%nat).
Lemma mp_step : forall k n w x w' es, 1 <= k -> k <= 62 -> winv k n w -> mp w -> (forall t u m, x = WCall t (Enq (u, m)) -> (m <= vx (vw w t) u)%nat) ->
  wact code w x = Ok (w', es) -> mp w' /\ forall t u m, In (ERet t (RDeq (Some (u, m)))) es -> (m <= vx (vw w' t) u)%nat.
Proof.
  intros k n w x w' es K1 K2 W [M1 M2] H E. destruct (wact_facts k K1 K2 n w x w' es W E) as [F1 F2 F3 F4 F5 F6 F7 F8]. split; [split|].
  - intros t v P. destruct (Nat.eq_dec t (actor x)) as [->|NE].
    + destruct (F1 (actor x)) as (_ & _ & _ & L). specialize (L (fst v)). destruct (F7 v P) as [Q|Q].
      * specialize (M1 _ _ Q). lia.
      * specialize (H (actor x) (fst v) (snd v)). rewrite Q in H. rewrite <- surjective_pairing in H. cbn [actor] in H. rewrite Q in L. cbn [actor] in L.
        specialize (H eq_refl). rewrite Q. cbn [actor]. lia.
    + destruct (F2 t NE) as [E1 E2]. rewrite E1 in P. rewrite E2. auto.
  - intros q v m G P. destruct F6 as [[E1 E2]|(v' & q' & TH & E1 & E2)]; rewrite E1 in G; rewrite E2 in P; [eauto|].
    assert (LL : length (ghost (base w)) = length (pubs w)).
    { pose proof (v_len _ _ _ (b_inv _ _ _ W)). pose proof (b_pubs _ _ _ W). lia. }
    apply nth_snoc in G, P. destruct G as [[G L1]|[G ->]], P as [[P L2]|[P ->]]; try lia; eauto.
    apply M1. rewrite TH. reflexivity.
  - intros t u m I. destruct (F8 t (u, m) I) as [-> (q & TH)].
    pose proof (v_pc _ _ _ (b_inv _ _ _ W) (actor x)) as PC. rewrite TH in PC. cbn in PC. destruct PC as (_ & _ & _ & V).
    pose proof (b_tok _ _ _ W (actor x)) as TK. rewrite TH in TK. cbn in TK. destruct TK as [_ (v & P & L)].
    specialize (M2 _ _ _ V P). cbn in M2. destruct (F1 (actor x)) as (_ & _ & _ & L'). specialize (L u). specialize (L' u). lia.
Qed.
Lemma mp_run : forall k l n w a, 1 <= k -> k <= 62 -> winv k n w -> n + N.of_nat (length l) < 2 ^ 62 -> R (base w) a -> mp w ->
  (forall l1 t u m l2 w1 es, l = l1 ++ WCall t (Enq (u, m)) :: l2 -> wrun code w l1 = Ok (w1, es) -> (m <= vx (vw w1 t) u)%nat) ->
  forall w' es t u m, wrun code w l = Ok (w', es) -> In (ERet t (RDeq (Some (u, m)))) es -> (m <= vx (vw w' t) u)%nat.
Proof.
  intros k l. induction l as [|x l IH]; intros n w a K1 K2 W B RR M H w' es t u m E I.
  - inversion E; subst. contradiction.
  - cbn [length] in B. destruct (wact_spec k K1 K2 n w a x W ltac:(lia) RR) as (w1 & e & E1 & W1 & a1 & A1 & R1).
    cbn [wrun] in E. rewrite E1 in E. cbn [bind] in E. apply bind_Ok in E. destruct E as ([w2 e2] & E2 & E3). inversion E3; subst w2 es. clear E3.
    destruct (mp_step k n w x w1 e K1 K2 W M) as [M1 RT]; auto.
    { intros t' u' m' ->. apply (H [] t' u' m' l w []); auto. }
    apply in_app_or in I. destruct I as [I|I].
    + specialize (RT _ _ _ I).
      destruct (vle_run k K1 K2 l (n + 1) w1 a1 w' e2 t W1 ltac:(lia) R1 E2) as (_ & _ & _ & L). specialize (L u). lia.
    + apply (IH (n + 1) w1 a1 K1 K2 W1 ltac:(lia) R1 M1) with (es := e2); auto.
      intros l1 t' u' m' l2 w3 e3 -> E4. eapply (H (x :: l1)); [reflexivity|]. cbn [wrun]. rewrite E1. cbn [bind]. rewrite E4. reflexivity.
Qed.

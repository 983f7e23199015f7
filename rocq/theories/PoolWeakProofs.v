From Coq Require Import NArith List Lia Bool Arith Permutation.
Import ListNotations.
From Verif Require Import Base PoolWeakModel.
Open Scope N_scope.

Fixpoint chain (lk : N -> N) (L : list N) : Prop :=
  match L with x :: t => lk x = hd 0 t /\ chain lk t | [] => True end.

Lemma updn_eq : forall A (f : nat -> A) k x, updn f k x k = x.
Proof. intros. unfold updn. rewrite Nat.eqb_refl. auto. Qed.
Lemma updn_neq : forall A (f : nat -> A) k x j, j <> k -> updn f k x j = f j.
Proof. intros. unfold updn. destruct (Nat.eqb_spec j k); congruence. Qed.
Lemma updN_eq : forall A (f : N -> A) k x, updN f k x k = x.
Proof. intros. unfold updN. rewrite N.eqb_refl. auto. Qed.
Lemma updN_neq : forall A (f : N -> A) k x j, j <> k -> updN f k x j = f j.
Proof. intros. unfold updN. destruct (N.eqb_spec j k); congruence. Qed.
Lemma upd2_eq : forall f x t n, upd2 f x t n x t = n.
Proof. intros. unfold upd2. rewrite updN_eq, updn_eq. auto. Qed.
Lemma upd2_other : forall f x t n y u, y <> x \/ u <> t -> upd2 f x t n y u = f y u.
Proof. intros f x t n y u H. unfold upd2, updN, updn. destruct (N.eqb_spec y x) as [->|]; [|auto]. destruct (Nat.eqb_spec u t); [|auto]. destruct H; congruence. Qed.

Lemma chain_upd : forall lk L x v, ~ In x L -> chain lk L -> chain (updN lk x v) L.
Proof.
  induction L as [|y t IH]; intros x v N C; cbn in *; [auto|]. destruct C as (C1 & C2).
  rewrite updN_neq by (intros ->; apply N; auto). split; [auto|]. apply IH; auto.
Qed.
Lemma links_chain : forall L, NoDup L -> chain (links L) L.
Proof.
  induction L as [|x t IH]; intro N; cbn; [auto|]. inversion N; subst. rewrite updN_eq. split; [auto|]. apply chain_upd; auto.
Qed.

Lemma vle_refl : forall v, vle v v.
Proof. intro v. split; auto. Qed.
Lemma vle_join_l : forall a b, vle a (join a b).
Proof. intros a b. split; intros; cbn; lia. Qed.
Lemma vle_join_r : forall a b, vle b (join a b).
Proof. intros a b. split; intros; cbn; lia. Qed.
Lemma vle_trans : forall a b c, vle a b -> vle b c -> vle a c.
Proof. intros a b c (A & B) (C & D). split; [lia|]. intros x u. specialize (B x u). specialize (D x u). lia. Qed.
Lemma vle_see : forall v i, vle v (see v i).
Proof. intros v i. split; intros; cbn; lia. Qed.
Lemma vle_join_if : forall b v m, vle v (join_if b v m).
Proof. intros [] v m; cbn; [apply vle_join_l|apply vle_refl]. Qed.

Lemma last_nth : forall A (l : list A) d, l <> [] -> nth_error l (length l - 1) = Some (last l d).
Proof.
  induction l as [|x t IH]; intros d N; [congruence|]. destruct t as [|y t]; [reflexivity|].
  replace (length (x :: y :: t) - 1)%nat with (S (length (y :: t) - 1)) by (cbn; lia).
  cbn [nth_error]. rewrite (IH d) by discriminate. reflexivity.
Qed.

(* the alloc in progress, or the last one *)
Definition token (w : wstate) (C : tview) : Prop :=
  (exists t, allocating (pcs w t) = true /\ C = vw w t /\ forall u, allocating (pcs w u) = true -> u = t) \/
  ((forall u, allocating (pcs w u) = false) /\ C = av w).

Definition covered (w : wstate) (C m : tview) (x : N) : Prop := forall u, (acc w x u <= Nat.max (va m x u) (va C x u))%nat.
Definition known (w : wstate) (x : N) (v : tview) : Prop := forall u, (acc w x u <= va v x u)%nat.

Definition at_pc (w : wstate) (own : list (N * nat)) (L : list N) (n t : nat) : Prop :=
  match pcs w t with
  | Idle => True
  | ALoad => skipn (n - vh (vw w t)) L <> []
  | ANext a => skipn (n - vh (vw w t)) L <> [] /\ In a L /\ known w a (vw w t)
  | ACas a nx => skipn (n - vh (vw w t)) L <> [] /\ In a L /\ known w a (vw w t) /\ link w a = nx
  | FLoad x | FNext x _ => In (x, t) own
  | FCas x e => In (x, t) own /\ link w x = e
  end.

Section Inv.
  Variables (o : orders) (blocks : list N) (threads : nat).
  Hypothesis blocks_nodup : NoDup blocks.
  Hypothesis blocks_nz : ~ In 0 blocks.
  Hypothesis o_load : a_load o = true.
  Hypothesis o_free : f_cas o = true.

  Record inv (w : wstate) (own : list (N * nat)) (L : list N) (lp n : nat) (C : tview) : Prop := mki {
    i_len : length (hist w) = S n;
    i_chain : chain (link w) L;
    i_perm : Permutation (L ++ map fst own) blocks;
    i_lp : (lp <= n)%nat;
    i_hist : forall i, (lp <= i <= n)%nat -> exists m, nth_error (hist w) i = Some (hd 0 (skipn (n - i) L), m) /\
               forall x, In x (skipn (n - i) L) -> covered w C m x;
    i_msg : forall i x m, nth_error (hist w) i = Some (x, m) -> (vh m <= n)%nat;
    i_vw : forall t, (vh (vw w t) <= n)%nat;
    i_token : token w C;
    i_C : (lp <= vh C <= n)%nat;
    i_lw : forall x u, (lw w x u <= acc w x u)%nat;
    i_own : forall x t, In (x, t) own -> known w x (vw w t);
    i_pc : forall t, at_pc w own L n t }.

  Definition good (w : wstate) (own : list (N * nat)) : Prop := exists L lp n C, inv w own L lp n C.

  Lemma inv_nodup : forall w own L lp n C, inv w own L lp n C -> NoDup (L ++ map fst own).
  Proof. intros w own L lp n C I. eapply Permutation_NoDup; [apply Permutation_sym, (i_perm _ _ _ _ _ _ I)|exact blocks_nodup]. Qed.
  Lemma inv_nz : forall w own L lp n C x, inv w own L lp n C -> In x L -> x <> 0.
  Proof.
    intros w own L lp n C x I H ->. apply blocks_nz. eapply Permutation_in; [apply (i_perm _ _ _ _ _ _ I)|]. apply in_or_app. auto.
  Qed.
  Lemma nodup_disj : forall (a b : list N) x, NoDup (a ++ b) -> In x a -> In x b -> False.
  Proof.
    induction a as [|y l IH]; intros b x N A B; [contradiction|]. cbn in N. inversion N; subst.
    destruct A as [->|A]; [apply H1, in_or_app; auto|eapply IH; eauto].
  Qed.
  Lemma nodup_r : forall (a b : list N), NoDup (a ++ b) -> NoDup b.
  Proof. induction a; intros b N; [auto|]. inversion N; auto. Qed.
  Lemma nodup_l : forall (a b : list N), NoDup (a ++ b) -> NoDup a.
  Proof. induction a as [|x a IH]; intros b N; constructor; inversion N; subst; [intro X; apply H1, in_or_app; auto|eauto]. Qed.
  Lemma own_fun : forall (own : list (N * nat)) x t u, NoDup (map fst own) -> In (x, t) own -> In (x, u) own -> t = u.
  Proof.
    induction own as [|[y v] l IH]; intros x t u N A B; [contradiction|]. cbn in N. inversion N; subst.
    destruct A as [A|A], B as [B|B].
    - congruence.
    - exfalso. apply H1. injection A as -> ->. apply (in_map fst) in B. exact B.
    - exfalso. apply H1. injection B as -> ->. apply (in_map fst) in A. exact A.
    - eauto.
  Qed.
  Lemma inv_disjoint : forall w own L lp n C x t, inv w own L lp n C -> In (x, t) own -> ~ In x L.
  Proof.
    intros w own L lp n C x t I H HL. eapply nodup_disj; [eapply inv_nodup; eauto|exact HL|]. apply (in_map fst) in H. exact H.
  Qed.
  Lemma inv_own_fun : forall w own L lp n C x t u, inv w own L lp n C -> In (x, t) own -> In (x, u) own -> t = u.
  Proof. intros w own L lp n C x t u I. apply own_fun. eapply nodup_r, inv_nodup; eauto. Qed.

  Lemma skipn_more : forall (l : list N) a b, (a <= b)%nat -> skipn b l <> [] -> skipn a l <> [].
  Proof.
    intros l a b H N X. apply N. apply skipn_all2. pose proof (skipn_length a l) as E. rewrite X in E. cbn in E. lia.
  Qed.
  Lemma skipn_in : forall (l : list N) k x, In x (skipn k l) -> In x l.
  Proof. induction l as [|y l IH]; intros [|k] x H; cbn in *; auto. right. eauto. Qed.
  Lemma hd_skipn : forall (l : list N) k, skipn k l <> [] -> In (hd 0 (skipn k l)) (skipn k l).
  Proof. intros l k. destruct (skipn k l); [congruence|]. cbn. auto. Qed.

  (* a thread learns more *)
  Lemma inv_view : forall w own L lp n C t v, inv w own L lp n C -> vle (vw w t) v -> (vh v <= n)%nat ->
    inv (set_view w t v) own L lp n (if allocating (pcs w t) then v else C).
  Proof.
    intros w own L lp n C t v I (V1 & V2) Hv. destruct I as [J1 J2 J3 J4 J5 J6 J7 J8 J9 J10 J11 J12].
    assert (CC : (vh C <= vh (if allocating (pcs w t) then v else C))%nat /\ (forall x u, (va C x u <= va (if allocating (pcs w t) then v else C) x u)%nat) /\
                 token (set_view w t v) (if allocating (pcs w t) then v else C)).
    { destruct (allocating (pcs w t)) eqn:A.
      - destruct J8 as [(a & A1 & -> & A2)|(A1 & _)]; [|rewrite A1 in A; discriminate]. apply A2 in A. subst a.
        split; [auto|]. split; [auto|]. left. exists t. cbn. rewrite updn_eq. auto.
      - split; [auto|]. split; [auto|]. destruct J8 as [(a & A1 & -> & A2)|(A1 & ->)]; [left|right; auto].
        exists a. cbn. rewrite updn_neq by congruence. auto. }
    destruct CC as (C1 & C2 & C3).
    assert (K : forall x u, known w x (vw w u) -> known w x (vw (set_view w t v) u)).
    { intros x u K. cbn. destruct (Nat.eq_dec u t) as [->|D]; [rewrite updn_eq|rewrite updn_neq by auto; auto].
      intro y. specialize (K y). specialize (V2 x y). lia. }
    split; try assumption.
    - intros i Hi. destruct (J5 i Hi) as (m & M1 & M2). exists m. split; [auto|]. intros x Hx u. specialize (M2 x Hx u). specialize (C2 x u).
      cbn [acc set_view]. lia.
    - intro u. cbn. destruct (Nat.eq_dec u t) as [->|D]; [rewrite updn_eq|rewrite updn_neq by auto]; auto.
    - destruct (allocating (pcs w t)); lia.
    - intros x u H. apply K. auto.
    - intro u. specialize (J12 u). unfold at_pc in *. cbn [pcs link set_view] in *.
      assert (SK : skipn (n - vh (vw w u)) L <> [] -> skipn (n - vh (vw (set_view w t v) u)) L <> []).
      { apply skipn_more. cbn. destruct (Nat.eq_dec u t) as [->|D]; [rewrite updn_eq|rewrite updn_neq by auto]; lia. }
      destruct (pcs w u); cbn; auto.
      + destruct J12 as (A & B & D). split; [apply SK; auto|]. split; [auto|]. apply K. auto.
      + destruct J12 as (A & B & D & E). split; [apply SK; auto|]. split; [auto|]. split; [apply K; auto|auto].
  Qed.

  (* the same kind of call goes on *)
  Lemma inv_pc_change : forall w own L lp n C t c, inv w own L lp n C -> allocating c = allocating (pcs w t) ->
    at_pc (set_pc w t c) own L n t -> inv (set_pc w t c) own L lp n C.
  Proof.
    intros w own L lp n C t c I A P. destruct I as [J1 J2 J3 J4 J5 J6 J7 J8 J9 J10 J11 J12].
    assert (AA : forall u, allocating (pcs (set_pc w t c) u) = allocating (pcs w u)).
    { intro u. cbn. destruct (Nat.eq_dec u t) as [->|D]; [rewrite updn_eq|rewrite updn_neq by auto]; auto. }
    split; try assumption.
    - destruct J8 as [(a & A1 & A2 & A3)|(A1 & A2)]; [left; exists a|right].
      + rewrite AA. split; [auto|]. split; [auto|]. intro u. rewrite AA. auto.
      + split; [|auto]. intro u. rewrite AA. auto.
    - intro u. destruct (Nat.eq_dec u t) as [->|D]; [exact P|]. specialize (J12 u). unfold at_pc in *. cbn [pcs set_pc] in *.
      rewrite updn_neq by auto. exact J12.
  Qed.

  (* accesses to blocks *)
  Lemma access_ok : forall w own L lp n C x t wr, inv w own L lp n C -> known w x (vw w t) -> exists w', access threads wr x t w = Ok w'.
  Proof.
    intros w own L lp n C x t wr I K. unfold access. replace (ordered threads wr w (vw w t) x) with true; [cbn; eauto|].
    symmetry. unfold ordered. apply forallb_forall. intros u _. apply Nat.leb_le. specialize (K u). pose proof (i_lw _ _ _ _ _ _ I x u).
    destruct wr; lia.
  Qed.
  Lemma access_same : forall w x t wr w', access threads wr x t w = Ok w' ->
    hist w' = hist w /\ link w' = link w /\ pcs w' = pcs w /\ av w' = av w /\ vh (vw w' t) = vh (vw w t) /\
    (forall u, u <> t -> vw w' u = vw w u) /\ (forall y u, (va (vw w t) y u <= va (vw w' t) y u)%nat) /\
    (forall y u, y <> x \/ u <> t -> acc w' y u = acc w y u) /\ (acc w' x t <= va (vw w' t) x t)%nat /\
    (forall y u, (lw w y u <= acc w y u)%nat -> (lw w' y u <= acc w' y u)%nat).
  Proof.
    intros w x t wr w' E. unfold access in E. destruct (defined _); try discriminate. cbn [bind] in E. injection E as <-. cbn.
    rewrite updn_eq. cbn. do 4 (split; [auto|]). split; [auto|]. split; [intros u D; rewrite updn_neq by auto; auto|]. split; [|split; [|split]].
    - intros y u. destruct (N.eq_dec y x) as [->|D]; [destruct (Nat.eq_dec u t) as [->|D]|]; [rewrite upd2_eq; lia|rewrite upd2_other by auto; auto|rewrite upd2_other by auto; auto].
    - intros y u D. rewrite upd2_other by auto. auto.
    - rewrite !upd2_eq. lia.
    - intros y u H. destruct (N.eq_dec y x) as [->|D]; [destruct (Nat.eq_dec u t) as [->|D]|]; destruct wr; rewrite ?upd2_eq, ?(upd2_other _ x t) by auto; lia.
  Qed.
  Lemma inv_access : forall w own L lp n C x t wr w', inv w own L lp n C -> access threads wr x t w = Ok w' ->
    In (x, t) own \/ (allocating (pcs w t) = true /\ In x L) ->
    inv w' own L lp n (if allocating (pcs w t) then vw w' t else C) /\ (known w x (vw w t) -> known w' x (vw w' t)).
  Proof.
    intros w own L lp n C x t wr w' I E H. pose proof I as I0. destruct I as [J1 J2 J3 J4 J5 J6 J7 J8 J9 J10 J11 J12].
    destruct (access_same _ _ _ _ _ E) as (S1 & S2 & S3 & S4 & S5 & S6 & S7 & S8 & S9 & S10).
    assert (KT : forall y, known w y (vw w t) -> known w' y (vw w' t)).
    { intros y K u. destruct (N.eq_dec y x) as [->|D]; [destruct (Nat.eq_dec u t) as [->|D]|].
      - exact S9.
      - rewrite S8 by auto. specialize (K u). specialize (S7 x u). lia.
      - rewrite S8 by auto. specialize (K u). specialize (S7 y u). lia. }
    split; [|apply KT].
    assert (VH : forall u, vh (vw w' u) = vh (vw w u)).
    { intro u. destruct (Nat.eq_dec u t) as [->|D]; [auto|rewrite S6; auto]. }
    assert (KO : forall y u, u <> t -> y <> x -> known w y (vw w u) -> known w' y (vw w' u)).
    { intros y u D D2 K z. rewrite S8 by auto. rewrite S6 by auto. apply K. }
    assert (CC : vh (if allocating (pcs w t) then vw w' t else C) = vh C /\ (forall x u, (va C x u <= va (if allocating (pcs w t) then vw w' t else C) x u)%nat) /\
                 token w' (if allocating (pcs w t) then vw w' t else C) /\
                 (allocating (pcs w t) = true -> C = vw w t /\ forall u, allocating (pcs w u) = true -> u = t)).
    { unfold token. rewrite S3, S4. destruct (allocating (pcs w t)) eqn:A.
      - destruct J8 as [(a & A1 & -> & A2)|(A1 & _)]; [|rewrite A1 in A; discriminate]. pose proof (A2 _ A). subst a.
        split; [auto|]. split; [auto|]. split; [|auto]. left. exists t. auto.
      - split; [auto|]. split; [auto|]. split; [|discriminate]. destruct J8 as [(a & A1 & -> & A2)|(A1 & ->)]; [left|right; auto].
        exists a. rewrite S6 by congruence. auto. }
    destruct CC as (C1 & C2 & C3 & C4).
    split; rewrite ?S1, ?S2; auto.
    - intros i Hi. destruct (J5 i Hi) as (m & M1 & M2). exists m. split; [auto|]. intros y Hy u. specialize (M2 y Hy u). specialize (C2 y u).
      destruct (N.eq_dec y x) as [->|D]; [|rewrite S8 by auto; lia]. destruct (Nat.eq_dec u t) as [->|D]; [|rewrite S8 by auto; lia].
      destruct H as [H|(H & _)]; [exfalso; apply skipn_in in Hy; exact (inv_disjoint _ _ _ _ _ _ _ _ I0 H Hy)|].
      rewrite H. lia.
    - intro u. rewrite VH. auto.
    - lia.
    - intros y u Hy. destruct (Nat.eq_dec u t) as [->|D]; [apply KT; auto|]. apply KO; auto.
      intros ->. destruct H as [H|(_ & H)]; [apply D; eapply inv_own_fun; eauto|exact (inv_disjoint _ _ _ _ _ _ _ _ I0 Hy H)].
    - intro u. specialize (J12 u). unfold at_pc in *. rewrite S3, S2, VH.
      assert (KK : forall a, allocating (pcs w u) = true -> In a L -> known w a (vw w u) -> known w' a (vw w' u)).
      { intros a A1 A2 A3. destruct (Nat.eq_dec u t) as [->|D]; [apply KT; auto|]. apply KO; auto.
        intros ->. destruct H as [H|(H & _)]; [exact (inv_disjoint _ _ _ _ _ _ _ _ I0 H A2)|]. apply C4 in H. apply D. apply H. auto. }
      destruct (pcs w u); auto.
      + destruct J12 as (P1 & P2 & P3). split; [auto|]. split; [auto|]. apply KK; auto.
      + destruct J12 as (P1 & P2 & P3 & P4). split; [auto|]. split; [auto|]. split; [apply KK; auto|auto].
  Qed.
  (* the owner of a block, or a free of it, changes the contents *)
  Lemma inv_link : forall w own L lp n C x t v, inv w own L lp n C -> In (x, t) own -> (forall e, pcs w t <> FCas x e) ->
    inv (set_link w x v) own L lp n C.
  Proof.
    intros w own L lp n C x t v I H P. pose proof I as I0. destruct I as [J1 J2 J3 J4 J5 J6 J7 J8 J9 J10 J11 J12].
    split; try assumption.
    - cbn. apply chain_upd; [|auto]. eapply inv_disjoint; eauto.
    - intro u. specialize (J12 u). unfold at_pc in *. cbn [pcs vw link set_link] in *. destruct (pcs w u) eqn:E; auto.
      + destruct J12 as (P1 & P2 & P3 & P4). split; [auto|]. split; [auto|]. split; [auto|].
        rewrite updN_neq; [auto|]. intros ->. exact (inv_disjoint _ _ _ _ _ _ _ _ I0 H P2).
      + destruct J12 as (P1 & P2). split; [auto|]. rewrite updN_neq; [auto|]. intros ->.
        assert (u = t) by (eapply inv_own_fun; eauto). subst u. exact (P _ E).
  Qed.

  Lemma load_spec : forall w own L lp n C acq t pick x v, inv w own L lp n C -> load acq w t pick = Some (x, v) ->
    exists i m, nth_error (hist w) i = Some (x, m) /\ (vh (vw w t) <= i <= n)%nat /\ v = see (join_if acq (vw w t) m) i /\
      vle (vw w t) v /\ (i <= vh v <= n)%nat.
  Proof.
    intros w own L lp n C acq t pick x v I E. unfold load in E. set (i := match pick with Some i => i | None => _ end) in E. clearbody i.
    destruct (Nat.leb_spec (vh (vw w t)) i) as [Hi|]; [|discriminate]. destruct (nth_error (hist w) i) as [[y m]|] eqn:H; [|discriminate].
    injection E as <- <-. assert (Li : (i < S n)%nat). { rewrite <- (i_len _ _ _ _ _ _ I). apply nth_error_Some. congruence. }
    exists i, m. split; [auto|]. split; [lia|]. split; [auto|]. split.
    - eapply vle_trans; [apply vle_join_if|apply vle_see].
    - pose proof (i_msg _ _ _ _ _ _ I _ _ _ H). pose proof (i_vw _ _ _ _ _ _ I t). cbn. destruct acq; cbn; lia.
  Qed.
  Lemma newest_spec : forall w own L lp n C, inv w own L lp n C -> fst (newest w) = hd 0 L /\ (vh (snd (newest w)) <= n)%nat /\
    forall x, In x L -> covered w C (snd (newest w)) x.
  Proof.
    intros w own L lp n C I. unfold newest. pose proof (last_nth _ (hist w) (0, zero)) as E. rewrite (i_len _ _ _ _ _ _ I) in E.
    replace (S n - 1)%nat with n in E by lia. destruct (hist w) eqn:H; [pose proof (i_len _ _ _ _ _ _ I) as X; rewrite H in X; discriminate|].
    rewrite <- H in *. specialize (E ltac:(congruence)). destruct (last (hist w) (0, zero)) as [x m] eqn:D.
    destruct (i_hist _ _ _ _ _ _ I n) as (m' & M1 & M2); [pose proof (i_lp _ _ _ _ _ _ I); lia|]. rewrite E in M1. rewrite Nat.sub_diag in *. cbn [skipn] in *.
    injection M1 as -> <-. split; [auto|]. split; [eapply (i_msg _ _ _ _ _ _ I); eauto|exact M2].
  Qed.
  Lemma token_alloc : forall w own L lp n C t, inv w own L lp n C -> allocating (pcs w t) = true ->
    C = vw w t /\ forall u, allocating (pcs w u) = true -> u = t.
  Proof.
    intros w own L lp n C t I A. destruct (i_token _ _ _ _ _ _ I) as [(a & A1 & -> & A2)|(A1 & _)]; [|rewrite A1 in A; discriminate].
    pose proof (A2 _ A). subst a. auto.
  Qed.

  Lemma good_alloc : forall w own t pick w', good w own -> (forall u, allocating (pcs w u) = false) -> vle (av w) (vw w t) ->
    w_alloc o w t pick = Ok w' -> good w' own.
  Proof.
    intros w own t pick w' (L & lp & n & C & I) A V E. unfold w_alloc in E. destruct (pcs w t) eqn:P; try discriminate.
    destruct (load (a_full o) w t pick) as [[x v]|] eqn:Ld; [|injection E as <-; exists L, lp, n, C; auto].
    destruct (N.eqb_spec x 0) as [|Nx]; [discriminate|]. injection E as <-.
    destruct (load_spec _ _ _ _ _ _ _ _ _ _ _ I Ld) as (i & m & H1 & H2 & Hv & H3 & H4).
    assert (HC : C = av w). { destruct (i_token _ _ _ _ _ _ I) as [(a & A1 & _)|(_ & ->)]; [rewrite A in A1; discriminate|auto]. }
    pose proof (i_C _ _ _ _ _ _ I) as LC.
    destruct (i_hist _ _ _ _ _ _ I i) as (m' & M1 & _); [subst C; destruct V; lia|]. rewrite H1 in M1. injection M1 as -> <-.
    assert (SK : skipn (n - vh v) L <> []).
    { apply (skipn_more _ _ (n - i)%nat); [lia|]. destruct (skipn (n - i) L); [cbn in Nx; congruence|discriminate]. }
    pose proof (inv_view _ _ _ _ _ _ t v I H3 (proj2 H4)) as I1. rewrite A in I1. exists L, lp, n, v.
    assert (CV : vle C v) by (subst C; eapply vle_trans; eauto).
    destruct I1 as [J1 J2 J3 J4 J5 J6 J7 J8 J9 J10 J11 J12]. split; try assumption.
    - intros j Hj. destruct (J5 j Hj) as (q & Q1 & Q2). exists q. split; [auto|]. intros y Hy u. specialize (Q2 y Hy u). destruct CV as (_ & CV). specialize (CV y u).
      cbn [acc set_pc] in *. lia.
    - left. exists t. cbn. rewrite !updn_eq. split; [auto|]. split; [auto|]. intro u. destruct (Nat.eq_dec u t); [auto|]. rewrite updn_neq by auto. rewrite A. discriminate.
    - destruct CV. lia.
    - intro u. specialize (J12 u). unfold at_pc in *. cbn [pcs set_pc set_view vw link] in *. destruct (Nat.eq_dec u t) as [->|D].
      + rewrite !updn_eq. exact SK.
      + rewrite !(updn_neq _ _ t) in * by auto. exact J12.
  Qed.

  Lemma good_step : forall w own t pick w', good w own -> w_step o threads w t pick = Ok (w', Nothing) -> good w' own.
  Proof.
    intros w own t pick w' (L & lp & n & C & I) E. pose proof (i_pc _ _ _ _ _ _ I t) as P. unfold at_pc in P. unfold w_step in E.
    destruct (pcs w t) eqn:PC; try discriminate.
    - destruct (load (a_load o) w t pick) as [[x v]|] eqn:Ld; [|injection E as <-; exists L, lp, n, C; auto]. injection E as <-.
      destruct (load_spec _ _ _ _ _ _ _ _ _ _ _ I Ld) as (i & m & H1 & H2 & Hv & H3 & H4). rewrite o_load in Hv. cbn in Hv.
      destruct (token_alloc _ _ _ _ _ _ t I ltac:(rewrite PC; auto)) as (-> & _).
      pose proof (i_C _ _ _ _ _ _ I) as LC. destruct (i_hist _ _ _ _ _ _ I i) as (m' & M1 & M2); [lia|]. rewrite H1 in M1. injection M1 as -> <-.
      pose proof (inv_view _ _ _ _ _ _ t v I H3 (proj2 H4)) as I1. rewrite PC in I1. cbn [allocating] in I1. exists L, lp, n, v.
      apply inv_pc_change; [exact I1|cbn; rewrite PC; auto|]. unfold at_pc. cbn [pcs vw set_pc set_view]. rewrite !updn_eq.
      assert (Ni : skipn (n - i) L <> []) by (apply (skipn_more _ _ (n - vh (vw w t))%nat); [lia|auto]).
      split; [apply (skipn_more _ _ (n - i)%nat); [lia|auto]|]. split; [eapply skipn_in, hd_skipn; auto|].
      intro u. specialize (M2 _ (hd_skipn _ _ Ni) u). subst v. cbn [acc set_pc set_view va see join]. lia.
    - destruct P as (P1 & P2 & P3). destruct (defined (negb (acquired =? 0))); try discriminate. cbn [bind] in E.
      destruct (access threads false acquired t w) as [w1| | |] eqn:Ac; try discriminate. cbn [bind] in E. injection E as <-.
      destruct (inv_access _ _ _ _ _ _ _ _ _ _ I Ac) as (I1 & K); [right; rewrite PC; auto|]. rewrite PC in I1. cbn [allocating] in I1.
      destruct (access_same _ _ _ _ _ Ac) as (S1 & S2 & S3 & S4 & S5 & _).
      exists L, lp, n, (vw w1 t). apply inv_pc_change; [exact I1|rewrite S3, PC; auto|]. unfold at_pc. cbn [pcs vw set_pc link]. rewrite !updn_eq.
      rewrite S5. split; [auto|]. split; [auto|]. split; [apply K; auto|auto].
    - destruct P as (P1 & P2 & P3 & P4). destruct ((fst (newest w) =? acquired) && _); [discriminate|]. injection E as <-.
      exists L, lp, n, C. apply inv_pc_change; [exact I|rewrite PC; auto|]. unfold at_pc. cbn [pcs vw set_pc]. rewrite updn_eq. exact P1.
    - destruct (load (f_load o) w t pick) as [[x v]|] eqn:Ld; [|injection E as <-; exists L, lp, n, C; auto]. injection E as <-.
      destruct (load_spec _ _ _ _ _ _ _ _ _ _ _ I Ld) as (i & m & H1 & H2 & Hv & H3 & H4).
      pose proof (inv_view _ _ _ _ _ _ t v I H3 (proj2 H4)) as I1. rewrite PC in I1. cbn [allocating] in I1. exists L, lp, n, C.
      apply inv_pc_change; [exact I1|cbn; rewrite PC; auto|]. unfold at_pc. cbn [pcs vw set_pc set_view]. rewrite !updn_eq. exact P.
    - destruct (access threads true node t w) as [w1| | |] eqn:Ac; try discriminate. cbn [bind] in E. injection E as <-.
      destruct (inv_access _ _ _ _ _ _ _ _ _ _ I Ac) as (I1 & _); [auto|]. rewrite PC in I1. cbn [allocating] in I1.
      destruct (access_same _ _ _ _ _ Ac) as (S1 & S2 & S3 & S4 & S5 & _).
      exists L, lp, n, C. apply inv_pc_change; [|cbn; rewrite S3, PC; auto|].
      + eapply inv_link; [exact I1|exact P|]. intros e X. rewrite S3, PC in X. discriminate.
      + unfold at_pc. cbn [pcs vw set_pc set_link link]. rewrite updn_eq, updN_eq. auto.
    - destruct P as (P1 & P2). destruct ((fst (newest w) =? expected) && _); [discriminate|]. injection E as <-.
      exists L, lp, n, C. apply inv_pc_change; [exact I|rewrite PC; auto|]. unfold at_pc. cbn [pcs vw set_pc]. rewrite updn_eq. exact P1.
  Qed.

  Lemma app_nth : forall (h : list (N * tview)) e n i y, length h = S n -> nth_error (h ++ [e]) i = Some y ->
    ((i <= n)%nat /\ nth_error h i = Some y) \/ (i = S n /\ y = e).
  Proof.
    intros h e n i y Lh E. destruct (Nat.lt_ge_cases i (S n)) as [H|H].
    - left. rewrite nth_error_app1 in E by lia. split; [lia|auto].
    - right. rewrite nth_error_app2 in E by lia. destruct (i - length h)%nat as [|[|k]] eqn:D; cbn in E; try discriminate.
      injection E as <-. split; [lia|auto].
  Qed.

  Lemma good_got : forall w own t pick w' x, good w own -> w_step o threads w t pick = Ok (w', Got x) -> good w' ((x, t) :: own).
  Proof.
    intros w own t pick w' x (L & lp & n & C & I) E. pose proof (i_pc _ _ _ _ _ _ I t) as P. unfold at_pc in P. unfold w_step in E.
    destruct (pcs w t) eqn:PC; try discriminate.
    1: destruct (load (a_load o) w t pick) as [[? ?]|]; discriminate.
    1: { apply bind_Ok in E. destruct E as (? & _ & E). apply bind_Ok in E. destruct E as (? & _ & E). discriminate. }
    2: destruct (load (f_load o) w t pick) as [[? ?]|]; discriminate.
    2: { apply bind_Ok in E. destruct E as (? & _ & E). discriminate. }
    2: destruct ((fst (newest w) =? expected) && _); discriminate.
    destruct P as (P1 & P2 & P3 & P4). destruct (newest_spec _ _ _ _ _ _ I) as (N1 & N2 & N3).
    destruct (N.eqb_spec (fst (newest w)) acquired) as [Ha|]; [|discriminate]. destruct pick; [discriminate|]. cbn [andb] in E.
    destruct (token_alloc _ _ _ _ _ _ t I ltac:(rewrite PC; auto)) as (HC & TA).
    pose proof (inv_nodup _ _ _ _ _ _ I) as ND. pose proof (inv_nz _ _ _ _ _ _ _ I P2) as NZ.
    destruct I as [J1 J2 J3 J4 J5 J6 J7 J8 J9 J10 J11 J12]. rewrite J1 in E.
    set (mo := snd (newest w)) in *. set (v := see (join_if (a_cas o) (vw w t) mo) (S n)) in *.
    assert (x = acquired) by congruence. subst x. assert (w' = set_av (set_pc (set_view (push w next (join_if (a_cas o) mo v)) t v) t Idle) v) by congruence. subst w'. clear E.
    assert (Vv : vle (vw w t) v) by (eapply vle_trans; [apply vle_join_if|apply vle_see]).
    assert (Vh : vh v = S n). { unfold v. cbn. pose proof (J7 t). destruct (a_cas o); cbn; lia. }
    destruct L as [|a L]; [contradiction|]. cbn in N1. rewrite Ha in N1. subst a.
    destruct J2 as (K1 & K2). exists L, (S n), (S n), v.
    assert (MV : vle mo (join_if (a_cas o) mo v)) by apply vle_join_if.
    split; cbn [hist link acc lw vw pcs av set_av set_pc set_view push].
    - rewrite app_length, J1. cbn. lia.
    - exact K2.
    - cbn [map fst]. eapply perm_trans; [apply Permutation_sym, Permutation_middle|exact J3].
    - lia.
    - intros i Hi. assert (i = S n) by lia. subst i. rewrite Nat.sub_diag. cbn [skipn]. exists (join_if (a_cas o) mo v). split.
      + rewrite nth_error_app2 by lia. rewrite J1, Nat.sub_diag. cbn. f_equal. f_equal. congruence.
      + intros y Hy u. specialize (N3 y (or_intror Hy) u). destruct MV as (_ & MV). specialize (MV y u). destruct Vv as (_ & Vv). specialize (Vv y u).
        subst C. cbn [acc set_av set_pc set_view push]. lia.
    - intros i y m E. destruct (app_nth _ _ n _ _ J1 E) as [(Hi & E')|(_ & E')].
      + specialize (J6 _ _ _ E'). lia.
      + injection E' as _ ->. destruct (a_cas o); cbn [join_if join vh]; lia.
    - intro u. destruct (Nat.eq_dec u t) as [->|D]; [rewrite updn_eq; lia|rewrite updn_neq by auto; specialize (J7 u); lia].
    - right. cbn. split; [|auto]. intro u. destruct (Nat.eq_dec u t) as [->|D]; [rewrite updn_eq; auto|rewrite updn_neq by auto].
      destruct (allocating (pcs w u)) eqn:A; [|auto]. exfalso. apply D. auto.
    - lia.
    - exact J10.
    - assert (KM : forall y u, known w y (vw w u) -> known w y (updn (vw w) t v u)).
      { intros y u K z. destruct (Nat.eq_dec u t) as [->|D]; [rewrite updn_eq|rewrite updn_neq by auto; auto].
        specialize (K z). destruct Vv as (_ & Vv). specialize (Vv y z). lia. }
      intros y u [H|H].
      + injection H as <- <-. apply KM. auto.
      + apply KM. auto.
    - intro u. unfold at_pc. cbn [pcs vw link set_av set_pc set_view push]. destruct (Nat.eq_dec u t) as [->|D]; [rewrite updn_eq; auto|].
      specialize (J12 u). unfold at_pc in J12. rewrite !(updn_neq _ _ t) by auto.
      assert (AF : allocating (pcs w u) = false). { destruct (allocating (pcs w u)) eqn:A; [|auto]. exfalso. apply D. auto. }
      destruct (pcs w u); try discriminate; cbn; auto. destruct J12; auto.
  Qed.

  Lemma good_gone : forall w o1 o2 t pick w' x, good w (o1 ++ (x, t) :: o2) -> w_step o threads w t pick = Ok (w', Gone x) -> good w' (o1 ++ o2).
  Proof.
    intros w o1 o2 t pick w' x (L & lp & n & C & I) E. pose proof (i_pc _ _ _ _ _ _ I t) as P. unfold at_pc in P. unfold w_step in E.
    destruct (pcs w t) eqn:PC; try discriminate.
    1: destruct (load (a_load o) w t pick) as [[? ?]|]; discriminate.
    1: { apply bind_Ok in E. destruct E as (? & _ & E). apply bind_Ok in E. destruct E as (? & _ & E). discriminate. }
    1: destruct ((fst (newest w) =? acquired) && _); discriminate.
    1: destruct (load (f_load o) w t pick) as [[? ?]|]; discriminate.
    1: { apply bind_Ok in E. destruct E as (? & _ & E). discriminate. }
    destruct P as (P1 & P2). destruct (newest_spec _ _ _ _ _ _ I) as (N1 & N2 & N3).
    destruct (N.eqb_spec (fst (newest w)) expected) as [Ha|]; [|discriminate]. destruct pick; [discriminate|]. cbn [andb] in E.
    pose proof (i_own _ _ _ _ _ _ I _ _ P1) as KX.
    destruct I as [J1 J2 J3 J4 J5 J6 J7 J8 J9 J10 J11 J12]. rewrite J1, o_free in E. cbn [join_if] in E.
    set (mo := snd (newest w)) in *. set (v := see (vw w t) (S n)) in *.
    assert (x = node) by congruence. subst x. assert (w' = set_pc (set_view (push w node (join mo v)) t v) t Idle) by congruence. subst w'. clear E.
    assert (Vv : vle (vw w t) v) by apply vle_see.
    assert (Vh : vh v = S n). { unfold v. cbn. pose proof (J7 t). lia. }
    exists (node :: L), lp, (S n), C.
    assert (TK : forall u, allocating (updn (pcs w) t Idle u) = allocating (pcs w u)).
    { intro u. destruct (Nat.eq_dec u t) as [->|D]; [rewrite updn_eq, PC|rewrite updn_neq by auto]; auto. }
    split; cbn [hist link acc lw vw pcs av set_av set_pc set_view push].
    - rewrite app_length, J1. cbn. lia.
    - cbn. split; [congruence|auto].
    - cbn. eapply perm_trans; [|exact J3]. rewrite !map_app. cbn. rewrite !app_assoc. apply Permutation_middle.
    - lia.
    - intros i Hi. destruct (Nat.eq_dec i (S n)) as [->|Di].
      + rewrite Nat.sub_diag. cbn [skipn hd]. exists (join mo v). split.
        * rewrite nth_error_app2 by lia. rewrite J1, Nat.sub_diag. reflexivity.
        * intros y [<-|Hy] u.
          -- specialize (KX u). cbn. lia.
          -- specialize (N3 y Hy u). cbn. lia.
      + destruct (J5 i ltac:(lia)) as (m & M1 & M2). exists m. replace (S n - i)%nat with (S (n - i)) by lia. cbn [skipn].
        split; [rewrite nth_error_app1 by lia; auto|exact M2].
    - intros i y m E. destruct (app_nth _ _ n _ _ J1 E) as [(Hi & E')|(_ & E')].
      + specialize (J6 _ _ _ E'). lia.
      + injection E' as _ ->. cbn [vh join]. lia.
    - intro u. destruct (Nat.eq_dec u t) as [->|D]; [rewrite updn_eq; lia|rewrite updn_neq by auto; specialize (J7 u); lia].
    - unfold token. cbn [pcs vw av set_pc set_view push]. destruct J8 as [(a & A1 & -> & A2)|(A1 & ->)]; [left; exists a|right].
      + rewrite TK. split; [auto|]. split; [rewrite updn_neq; [auto|intros ->; rewrite PC in A1; discriminate]|]. intro u. rewrite TK. auto.
      + split; [|auto]. intro u. rewrite TK. auto.
    - lia.
    - exact J10.
    - intros y u H. assert (H' : In (y, u) (o1 ++ (node, t) :: o2)) by (apply in_app_or in H; apply in_or_app; cbn; tauto).
      specialize (J11 _ _ H'). intro z. specialize (J11 z). destruct (Nat.eq_dec u t) as [->|D]; [rewrite updn_eq|rewrite updn_neq by auto; auto].
      destruct Vv as (_ & Vv). specialize (Vv y z). cbn [acc set_pc set_view push]. lia.
    - intro u. unfold at_pc. cbn [pcs vw link set_av set_pc set_view push]. destruct (Nat.eq_dec u t) as [->|D]; [rewrite updn_eq; auto|].
      specialize (J12 u). unfold at_pc in J12. cbn [set_pc set_view push vw pcs link]. rewrite !(updn_neq _ _ t) by auto.
      replace (S n - vh (vw w u))%nat with (S (n - vh (vw w u))) by (specialize (J7 u); lia). cbn [skipn In].
      assert (OO : forall y, In (y, u) (o1 ++ (node, t) :: o2) -> In (y, u) (o1 ++ o2)).
      { intros y H. apply in_app_or in H. apply in_or_app. destruct H as [H|[H|H]]; auto. congruence. }
      destruct (pcs w u); auto.
      + destruct J12 as (Q1 & Q2 & Q3). auto.
      + destruct J12 as (Q1 & Q2 & Q3 & Q4). auto.
      + destruct J12 as (Q1 & Q2). auto.
  Qed.

  Lemma good_sync : forall w own u t, good w own -> good (w_sync w u t) own.
  Proof.
    intros w own u t (L & lp & n & C & I). exists L, lp, n. eexists. apply inv_view; [exact I|apply vle_join_l|].
    pose proof (i_vw _ _ _ _ _ _ I t). pose proof (i_vw _ _ _ _ _ _ I u). cbn. lia.
  Qed.

  Lemma good_init : blocks <> [] -> good (w_init blocks) [].
  Proof.
    intro NE. exists blocks, 0%nat, 0%nat, zero. split; cbn; auto.
    - apply links_chain. auto.
    - rewrite app_nil_r. auto.
    - intros i Hi. assert (i = 0%nat) by lia. subst i. exists zero. split; [reflexivity|]. intros x _ u. cbn. lia.
    - intros [|[|i]] x m E; try discriminate. injection E as _ <-. cbn. lia.
    - right. auto.
    - contradiction.
  Qed.

  Lemma good_exec : forall w own, blocks <> [] -> wexec o true blocks threads w own -> good w own.
  Proof.
    intros w own NE H. induction H.
    - apply good_init. auto.
    - destruct (H1 eq_refl). eapply good_alloc; eauto.
    - destruct IHwexec as (L & lp & n & C & I). unfold w_free in H1. destruct (pcs w t) eqn:P; try discriminate. injection H1 as <-.
      exists L, lp, n, C. apply inv_pc_change; [exact I|rewrite P; auto|]. unfold at_pc. cbn. rewrite updn_eq. auto.
    - eapply good_step; eauto.
    - eapply good_got; eauto.
    - eapply good_gone; eauto.
    - destruct IHwexec as (L & lp & n & C & I). unfold w_use in H1. destruct (pcs w t) eqn:P; try discriminate. destruct write as [v|].
      + apply bind_Ok in H1. destruct H1 as (w1 & Ac & E). injection E as <-.
        destruct (inv_access _ _ _ _ _ _ _ _ _ _ I Ac) as (I1 & _); [auto|]. rewrite P in I1. exists L, lp, n, C.
        eapply inv_link; [exact I1|exact H0|]. intro e. destruct (access_same _ _ _ _ _ Ac) as (_ & _ & -> & _). rewrite P. discriminate.
      + destruct (inv_access _ _ _ _ _ _ _ _ _ _ I H1) as (I1 & _); [auto|]. rewrite P in I1. exists L, lp, n, C. exact I1.
    - pose proof (good_sync _ _ t u IHwexec) as G. destruct G as (L & lp & n & C & I). exists L, lp, n, C.
      destruct IHwexec as (L0 & lp0 & n0 & C0 & I0). pose proof (i_own _ _ _ _ _ _ I0) as OW.
      destruct I as [J1 J2 J3 J4 J5 J6 J7 J8 J9 J10 J11 J12]. split; auto.
      + eapply perm_trans; [|exact J3]. apply Permutation_app_head. cbn. rewrite !map_app. apply Permutation_middle.
      + intros y z [E|E].
        * injection E as <- <-. intro q. cbn. rewrite updn_eq. cbn. specialize (OW x t ltac:(apply in_or_app; cbn; auto) q). lia.
        * apply J11. apply in_app_or in E. apply in_or_app. cbn. tauto.
      + intro z. specialize (J12 z). unfold at_pc in *. cbn [pcs w_sync set_view vw link] in *.
        assert (OO : forall y, pcs w z <> Idle -> In (y, z) (o1 ++ (x, t) :: o2) -> In (y, z) ((x, u) :: o1 ++ o2)).
        { intros y Pz H2. apply in_app_or in H2. cbn. rewrite in_app_iff. destruct H2 as [H2|[H2|H2]]; auto. congruence. }
        destruct (pcs w z); auto; try (apply OO; [discriminate|auto]; fail). destruct J12. split; [apply OO; [discriminate|auto]|auto].
    - apply good_sync. auto.
  Qed.
End Inv.

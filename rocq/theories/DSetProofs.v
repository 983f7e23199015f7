From Coq Require Import NArith Arith List Bool Lia.
From Verif Require Import Base DSetModel DSetSpec.
Import ListNotations.

Definition par (d : dset) (i : nat) : nat := match nth_error (entries d) i with Some e => parent e | None => i end.
Definition sz (d : dset) (i : nat) : nat := match nth_error (entries d) i with Some e => esize e | None => 0 end.
Definition num (d : dset) : nat := length (entries d).

Lemma at_Ok : forall d i, i < num d -> at_ d i = Ok (mkEn (par d i) (sz d i)).
Proof.
  intros d i H. unfold at_, par, sz. destruct (nth_error (entries d) i) as [[p s]|] eqn:E; auto. apply nth_error_None in E. unfold num in H. lia.
Qed.
Lemma at_Contract : forall d i, num d <= i -> at_ d i = Contract.
Proof. intros d i H. unfold at_. rewrite (proj2 (nth_error_None _ _) H). auto. Qed.
Lemma num_set : forall d i e, num (set_entry d i e) = num d.
Proof. intros. unfold num, set_entry. cbn. apply lset_length. Qed.
Lemma par_set : forall d i e j, i < num d -> par (set_entry d i e) j = if i =? j then parent e else par d j.
Proof.
  intros d i e j H. unfold par, set_entry. cbn [entries]. rewrite lset_nth. unfold num in H.
  destruct (Nat.eqb_spec i j); auto. subst. destruct (Nat.ltb_spec j (length (entries d))); [auto|lia].
Qed.
Lemma sz_set : forall d i e j, i < num d -> sz (set_entry d i e) j = if i =? j then esize e else sz d j.
Proof.
  intros d i e j H. unfold sz, set_entry. cbn [entries]. rewrite lset_nth. unfold num in H.
  destruct (Nat.eqb_spec i j); auto. subst. destruct (Nat.ltb_spec j (length (entries d))); [auto|lia].
Qed.

Inductive root (d : dset) : nat -> nat -> Prop :=
| root_self : forall i, par d i = i -> root d i i
| root_up : forall i r, par d i <> i -> root d (par d i) r -> root d i r.

Record wf (d : dset) : Prop := {
  wf_par : forall i, i < num d -> par d i < num d;
  wf_up : forall i, i < num d -> par d i <> i -> 2 * sz d i <= sz d (par d i);
  wf_sz : forall i, i < num d -> 1 <= sz d i <= num d }.

Lemma root_fun : forall d i r, root d i r -> forall r', root d i r' -> r = r'.
Proof.
  intros d i r H. induction H; intros r' H'; inversion H'; subst; auto; congruence.
Qed.
Lemma root_is_root : forall d i r, root d i r -> par d r = r.
Proof. intros d i r H. induction H; auto. Qed.
Lemma root_lt : forall d i r, wf d -> root d i r -> i < num d -> r < num d /\ sz d i <= sz d r /\ (par d i <> i -> 2 * sz d i <= sz d r).
Proof.
  intros d i r W H. induction H; intro L.
  - split; auto. split; [lia|congruence].
  - destruct (IHroot (wf_par d W i L)) as [A [B C]]. pose proof (wf_up d W i L H). split; auto. split; lia.
Qed.

(* d' is d with some paths shortened *)
Record keep (d d' : dset) : Prop := {
  k_num : num d' = num d;
  k_cnt : partition_count d' = partition_count d;
  k_sz : forall i, sz d' i = sz d i;
  k_root : forall i r, root d i r -> root d' i r;
  k_wf : wf d' }.
Lemma keep_refl : forall d, wf d -> keep d d.
Proof. intros. constructor; auto. Qed.
Lemma keep_trans : forall a b c, keep a b -> keep b c -> keep a c.
Proof.
  intros a b c [] []. constructor; auto; try congruence. 
Qed.

Lemma compress : forall d e r, wf d -> e < num d -> root d e r -> keep d (set_entry d e (mkEn r (sz d e))).
Proof.
  intros d e r W L R. set (d2 := set_entry d e (mkEn r (sz d e))).
  assert (P2 : forall j, par d2 j = if e =? j then r else par d j) by (intro j; unfold d2; rewrite par_set; auto).
  assert (S2 : forall j, sz d2 j = sz d j).
  { intro j. unfold d2. rewrite sz_set by auto. cbn [esize]. destruct (Nat.eqb_spec e j); subst; auto. }
  destruct (root_lt d e r W R L) as [RL [RS RD]]. pose proof (root_is_root d e r R) as RR.
  assert (NE : e <> r -> par d e <> e).
  { intros X Y. apply X. eapply root_fun; [|exact R]. constructor. auto. }
  constructor.
  - apply num_set.
  - reflexivity.
  - exact S2.
  - intros i x H. induction H.
    + constructor. rewrite P2. destruct (Nat.eqb_spec e i); auto. subst i. eapply root_fun; [exact R|]. constructor; auto.
    + destruct (Nat.eq_dec e i).
      * subst i. assert (r = r0). { eapply root_fun; [exact R|]. apply root_up; auto. }
        subst r0. destruct (Nat.eq_dec e r).
        -- subst r. exfalso. apply H. auto.
        -- apply root_up; rewrite P2, Nat.eqb_refl; auto. constructor. rewrite P2. destruct (Nat.eqb_spec e r); auto.
      * apply root_up; rewrite P2; destruct (Nat.eqb_spec e i); try congruence; auto.
  - constructor; unfold d2; rewrite num_set; fold d2.
    + intros i H. rewrite P2. destruct (e =? i); auto. apply (wf_par d W); auto.
    + intros i H. rewrite P2, !S2. destruct (Nat.eqb_spec e i).
      * subst i. intro X. apply RD. apply NE. auto.
      * intro X. apply (wf_up d W); auto.
    + intros i H. rewrite S2. apply (wf_sz d W). auto.
Qed.

Lemma get_rep_spec : forall f d e, wf d -> e < num d -> num d < 2 ^ f * sz d e ->
  exists d' r, get_rep f d e = Ok (d', r) /\ root d e r /\ keep d d'.
Proof.
  induction f as [|f IH]; intros d e W L F.
  - pose proof (wf_sz d W e L). cbn in F. lia.
  - cbn [get_rep]. rewrite at_Ok by auto. cbn [bind parent]. destruct (Nat.eqb_spec (par d e) e).
    + exists d, (par d e). split; auto. split; [rewrite e0; constructor; auto|apply keep_refl; auto].
    + pose proof (wf_up d W e L n) as U. pose proof (wf_par d W e L) as PL.
      destruct (IH d (par d e) W PL) as [d1 [r [E [R K]]]].
      { cbn [Nat.pow] in F. nia. }
      rewrite E. cbn [bind].
      assert (L1 : e < num d1) by (rewrite (k_num _ _ K); auto).
      rewrite at_Ok by auto. cbn [bind esize].
      assert (R0 : root d e r) by (apply root_up; auto).
      exists (set_entry d1 e (mkEn r (sz d1 e))), r. split; auto. split; auto.
      eapply keep_trans; [exact K|]. apply compress; auto; [apply (k_wf _ _ K)|]. apply (k_root _ _ K). auto.
Qed.

Definition cls (n : nat) (lab : nat -> nat) (r : nat) : list nat := filter (fun i => lab i =? r) (seq 0 n).
Definition tops (n : nat) (lab : nat -> nat) : list nat := filter (fun i => lab i =? i) (seq 0 n).

Record inv (n : nat) (ms : list (nat * nat)) (d : dset) (lab : nat -> nat) : Prop := {
  i_num : num d = n;
  i_max : (N.of_nat n < 2 ^ 31)%N;
  i_wf : wf d;
  i_root : forall i, i < n -> root d i (lab i);
  i_out : forall i, n <= i -> lab i = i;
  i_sz : forall r, r < n -> lab r = r -> sz d r = length (cls n lab r);
  i_cnt : partition_count d = N.of_nat (length (tops n lab));
  i_conn : forall a b, lab a = lab b <-> conn ms a b }.

Lemma inv_keep : forall n ms d d' lab, inv n ms d lab -> keep d d' -> inv n ms d' lab.
Proof.
  intros n ms d d' lab [] []. constructor; auto; try congruence. 
  - intros r H1 H2. rewrite k_sz0. auto.
Qed.

Lemma lab_lt : forall n ms d lab i, inv n ms d lab -> i < n -> lab i < n.
Proof. intros n ms d lab i I H. pose proof (i_num _ _ _ _ I) as E. rewrite <- E. eapply root_lt; [apply (i_wf _ _ _ _ I)|apply (i_root _ _ _ _ I i H)|lia]. Qed.
Lemma lab_lab : forall n ms d lab i, inv n ms d lab -> lab (lab i) = lab i.
Proof.
  intros n ms d lab i I. destruct (le_lt_dec n i) as [H|H].
  - rewrite !(i_out _ _ _ _ I i H). auto.
  - pose proof (i_root _ _ _ _ I i H) as R. pose proof (root_is_root _ _ _ R).
    eapply root_fun; [apply (i_root _ _ _ _ I _ (lab_lt _ _ _ _ _ I H))|]. constructor. auto.
Qed.

Lemma rep_spec : forall n ms d lab e, inv n ms d lab -> e < n ->
  exists d', get_representative d e = Ok (d', lab e) /\ inv n ms d' lab.
Proof.
  intros n ms d lab e I L. pose proof I as [IN IM IW IR IO IS IC IX]. 
  destruct (get_rep_spec 31 d e IW) as [d' [r [E [R K]]]]; [lia| |].
  - pose proof (wf_sz d IW e ltac:(lia)) as [S _]. rewrite IN.
    assert (X : (N.of_nat n < N.of_nat (2 ^ 31 * sz d e))%N).
    { rewrite Nat2N.inj_mul, Nat2N.inj_pow. change (N.of_nat 2 ^ N.of_nat 31)%N with (2 ^ 31)%N. nia. }
    lia.
  - unfold get_representative. rewrite E. exists d'. rewrite (root_fun _ _ _ R _ (IR e L)). split; auto. eapply inv_keep; eauto.
Qed.
Lemma rep_out : forall n ms d lab e, inv n ms d lab -> n <= e -> get_representative d e = Contract.
Proof.
  intros n ms d lab e I L. unfold get_representative. change 31 with (S 30). cbn [get_rep]. rewrite at_Contract; auto. rewrite (i_num _ _ _ _ I). auto.
Qed.

(* counting *)
Lemma NoDup_seq_filter : forall P n, NoDup (filter P (seq 0 n)).
Proof. intros. apply NoDup_filter, seq_NoDup. Qed.
Lemma filter_len_or : forall A (P Q : A -> bool) l, (forall x, In x l -> P x = true -> Q x = true -> False) ->
  length (filter (fun x => P x || Q x) l) = length (filter P l) + length (filter Q l).
Proof.
  induction l as [|x l IH]; intro H; auto. cbn [filter].
  assert (IH' : length (filter (fun x => P x || Q x) l) = length (filter P l) + length (filter Q l)).
  { apply IH. intros y I. apply H. cbn; auto. }
  destruct (P x) eqn:EP, (Q x) eqn:EQ; cbn [orb length]; try lia. exfalso. apply (H x); cbn; auto.
Qed.
Lemma filter_len_le : forall A (P : A -> bool) l, length (filter P l) <= length l.
Proof. induction l; cbn; auto. destruct (P a); cbn; lia. Qed.

Definition relabel (lab : nat -> nat) (r0 r1 i : nat) : nat := if lab i =? r1 then r0 else lab i.

Lemma cls_relabel : forall n lab r0 r1, r0 <> r1 -> length (cls n (relabel lab r0 r1) r0) = length (cls n lab r0) + length (cls n lab r1).
Proof.
  intros n lab r0 r1 NE. unfold cls. rewrite <- filter_len_or.
  - f_equal. apply filter_ext. intro i. unfold relabel. destruct (Nat.eqb_spec (lab i) r1); [rewrite Nat.eqb_refl, orb_true_r; auto|].
    rewrite orb_false_r. auto.
  - intros x _ H1 H2. apply Nat.eqb_eq in H1, H2. congruence.
Qed.
Lemma cls_relabel_other : forall n lab r0 r1 r, r <> r0 -> r <> r1 -> cls n (relabel lab r0 r1) r = cls n lab r.
Proof.
  intros n lab r0 r1 r H0 H1. unfold cls. apply filter_ext. intro i. unfold relabel. destruct (Nat.eqb_spec (lab i) r1); auto.
  subst. rewrite (proj2 (Nat.eqb_neq _ _)) by auto. symmetry. apply Nat.eqb_neq. auto.
Qed.
Lemma filter_one : forall n r, r < n -> length (filter (fun i => i =? r) (seq 0 n)) = 1.
Proof.
  intros n r H. assert (G : forall s k, s <= r < s + k -> length (filter (fun i => i =? r) (seq s k)) = 1).
  { intros s k. revert s. induction k; intros s B; [lia|]. cbn [seq filter]. destruct (Nat.eqb_spec s r).
    - subst. cbn [length]. f_equal. clear. assert (F : forall s k, r < s -> filter (fun i => i =? r) (seq s k) = []).
      { intros s k'. revert s. induction k'; intros s B; auto. cbn [seq filter]. rewrite (proj2 (Nat.eqb_neq s r)) by lia. apply IHk'. lia. }
      rewrite F by lia. auto.
    - apply IHk. lia. }
  apply G. lia.
Qed.
Lemma tops_relabel : forall n lab r0 r1, r0 <> r1 -> r1 < n -> lab r0 = r0 -> lab r1 = r1 ->
  length (tops n lab) = S (length (tops n (relabel lab r0 r1))).
Proof.
  intros n lab r0 r1 NE L H0 H1. unfold tops.
  rewrite (filter_ext _ (fun i => (relabel lab r0 r1 i =? i) || (i =? r1))).
  - rewrite filter_len_or; [rewrite filter_one by auto|].
    + lia.
    + intros x _ A B. apply Nat.eqb_eq in A, B. subst x. unfold relabel in A. rewrite H1, Nat.eqb_refl in A. auto.
  - intro i. unfold relabel. destruct (Nat.eqb_spec i r1).
    + subst. rewrite orb_true_r. rewrite H1. apply Nat.eqb_refl.
    + rewrite orb_false_r. destruct (Nat.eqb_spec (lab i) r1); auto.
      rewrite (proj2 (Nat.eqb_neq (lab i) i)) by congruence. symmetry. apply Nat.eqb_neq. intro; subst i. congruence.
Qed.

Lemma link_spec : forall n ms d lab r0 r1 a b, inv n ms d lab -> r0 < n -> r1 < n -> lab r0 = r0 -> lab r1 = r1 -> r0 <> r1 ->
  sz d r1 <= sz d r0 -> (lab a = r0 /\ lab b = r1 \/ lab a = r1 /\ lab b = r0) ->
  exists d', link d r0 r1 = Ok (d', true) /\ inv n ((a, b) :: ms) d' (relabel lab r0 r1).
Proof.
  intros n ms d lab r0 r1 a b I L0 L1 H0 H1 NE SL AB. pose proof I as [IN IM IW IR IO IS IC IX].
  unfold link. rewrite at_Ok by lia. cbn [bind esize].
  assert (P0 : par d r0 = r0) by (pose proof (IR r0 L0) as R; rewrite H0 in R; apply (root_is_root _ _ _ R)).
  assert (P1 : par d r1 = r1) by (pose proof (IR r1 L1) as R; rewrite H1 in R; apply (root_is_root _ _ _ R)).
  rewrite !at_Ok by (rewrite num_set; lia). cbn [bind parent esize].
  rewrite !sz_set, !par_set by lia. rewrite Nat.eqb_refl, (proj2 (Nat.eqb_neq r1 r0)) by auto. cbn [esize parent]. rewrite P0.
  assert (SUM : sz d r0 + sz d r1 = length (cls n (relabel lab r0 r1) r0)).
  { rewrite cls_relabel by auto. rewrite (IS r0 L0 H0), (IS r1 L1 H1). auto. }
  assert (SB : sz d r0 + sz d r1 <= n).
  { rewrite SUM. unfold cls. eapply Nat.le_trans; [apply filter_len_le|]. rewrite seq_length. auto. }
  destruct (N.ltb_spec (N.of_nat (sz d r0 + sz d r1)) (2 ^ 31)); [|lia]. cbn [defined bind].
  eexists. split; [reflexivity|].
  set (d1 := set_entry d r1 (mkEn r0 (sz d r1))).
  set (d2 := set_entry d1 r0 (mkEn r0 (sz d r0 + sz d r1))).
  set (d' := mkDS (entries d2) (wsub 64 (partition_count d2) 1)).
  assert (N1 : num d1 = n) by (unfold d1; rewrite num_set; auto).
  assert (N2 : num d' = n) by (change (num d') with (num d2); unfold d2; rewrite num_set; auto).
  assert (PP : forall j, par d' j = if j =? r1 then r0 else par d j).
  { intro j. change (par d' j) with (par d2 j). unfold d2. rewrite par_set by lia. unfold d1. rewrite par_set by lia. cbn [parent].
    rewrite (Nat.eqb_sym r0 j), (Nat.eqb_sym r1 j). destruct (Nat.eqb_spec j r0); auto. subst. rewrite (proj2 (Nat.eqb_neq r0 r1)) by auto. auto. }
  assert (SS : forall j, sz d' j = if j =? r0 then sz d r0 + sz d r1 else sz d j).
  { intro j. change (sz d' j) with (sz d2 j). unfold d2. rewrite sz_set by lia. unfold d1. rewrite sz_set by lia. cbn [esize].
    rewrite (Nat.eqb_sym r0 j), (Nat.eqb_sym r1 j). destruct (Nat.eqb_spec j r0); auto. destruct (Nat.eqb_spec j r1); subst; auto. }
  assert (W' : wf d').
  { constructor; rewrite N2.
    - intros i H2. rewrite PP. destruct (i =? r1); auto. rewrite <- IN. apply (wf_par d IW). lia.
    - intros i H2. rewrite PP. destruct (Nat.eqb_spec i r1).
      + subst. intros _. rewrite !SS, Nat.eqb_refl, (proj2 (Nat.eqb_neq r1 r0)) by auto. lia.
      + intro X. pose proof (wf_up d IW i ltac:(lia) X). rewrite !SS. destruct (Nat.eqb_spec i r0); [congruence|].
        destruct (Nat.eqb_spec (par d i) r0); [rewrite e in *; lia|auto].
    - intros i H2. rewrite SS. destruct (Nat.eqb_spec i r0).
      + pose proof (wf_sz d IW r0 ltac:(lia)). lia.
      + rewrite <- IN. apply (wf_sz d IW). lia. }
  assert (R0 : root d' r0 r0).
  { constructor. rewrite PP, (proj2 (Nat.eqb_neq r0 r1)); auto. }
  assert (ROOT : forall i r, root d i r -> root d' i (if r =? r1 then r0 else r)).
  { intros i r R. induction R.
    - destruct (Nat.eqb_spec i r1).
      + subst. apply root_up; rewrite PP, Nat.eqb_refl; auto.
      + constructor. rewrite PP, (proj2 (Nat.eqb_neq i r1)); auto.
    - apply root_up; rewrite PP; destruct (Nat.eqb_spec i r1); auto; subst; congruence. }
  constructor; auto.
  - intros i H2. unfold relabel. apply ROOT. auto.
  - intros i H2. unfold relabel. rewrite IO by auto. rewrite (proj2 (Nat.eqb_neq i r1)) by lia. auto.
  - intros r H2 H3. rewrite SS. assert (X : r <> r1).
    { intro; subst. unfold relabel in H3. rewrite H1, Nat.eqb_refl in H3. auto. }
    destruct (Nat.eqb_spec r r0); [subst; auto|]. rewrite cls_relabel_other by auto. apply IS; auto.
    unfold relabel in H3. destruct (Nat.eqb_spec (lab r) r1); congruence.
  - unfold d'. cbn [partition_count]. change (partition_count d2) with (partition_count d). rewrite IC.
    pose proof (tops_relabel n lab r0 r1 NE L1 H0 H1) as T. rewrite wsub_ge.
    + lia.
    + assert (length (tops n lab) <= n) by (unfold tops; eapply Nat.le_trans; [apply filter_len_le|rewrite seq_length; auto]).
      assert (2 ^ 31 < 2 ^ 64)%N by reflexivity. lia.
    + lia.
  - assert (CM : forall x y, conn ms x y -> conn ((a, b) :: ms) x y).
    { intros x y C. induction C; [apply conn_merged; cbn; auto|apply conn_refl|apply conn_sym; auto|eapply conn_trans; eauto]. }
    assert (AB' : conn ((a, b) :: ms) r0 r1).
    { assert (M : conn ((a, b) :: ms) a b) by (apply conn_merged; cbn; auto).
      assert (LL : forall x, conn ((a, b) :: ms) (lab x) x).
      { intro x. apply CM. apply IX. eapply lab_lab; eauto. }
      destruct AB as [[<- <-]|[<- <-]].
      - eapply conn_trans; [apply LL|]. eapply conn_trans; [exact M|]. apply conn_sym, LL.
      - eapply conn_trans; [apply LL|]. eapply conn_trans; [apply conn_sym; exact M|]. apply conn_sym, LL. }
    intros x y. split.
    + intro E. unfold relabel in E. destruct (Nat.eqb_spec (lab x) r1), (Nat.eqb_spec (lab y) r1).
      * apply CM, IX. congruence.
      * eapply conn_trans; [apply CM, IX; transitivity r1; [exact e|symmetry; exact H1]|].
        eapply conn_trans; [apply conn_sym; exact AB'|]. apply CM, IX. congruence.
      * apply conn_sym. eapply conn_trans; [apply CM, IX; transitivity r1; [exact e|symmetry; exact H1]|].
        eapply conn_trans; [apply conn_sym; exact AB'|]. apply CM, IX. congruence.
      * apply CM, IX. auto.
    + intro C. induction C.
      * destruct H2 as [H2|H2].
        -- inversion H2; subst. unfold relabel. destruct AB as [[-> ->]|[-> ->]]; rewrite Nat.eqb_refl, (proj2 (Nat.eqb_neq r0 r1)); auto.
        -- unfold relabel. rewrite (proj2 (IX a0 b0)); auto. apply conn_merged. auto.
      * auto.
      * auto.
      * congruence.
Qed.

Lemma conn_add_redundant : forall ms a b, conn ms a b -> forall x y, conn ((a, b) :: ms) x y <-> conn ms x y.
Proof.
  intros ms a b H x y. split; intro C.
  - induction C; [|apply conn_refl|apply conn_sym; auto|eapply conn_trans; eauto]. destruct H0 as [E|I]; [inversion E; subst; auto|apply conn_merged; auto].
  - induction C; [apply conn_merged; cbn; auto|apply conn_refl|apply conn_sym; auto|eapply conn_trans; eauto].
Qed.

Lemma inv_conn : forall n ms ms' d lab, inv n ms d lab -> (forall x y, conn ms' x y <-> conn ms x y) -> inv n ms' d lab.
Proof. intros n ms ms' d lab [] H. constructor; auto. intros a b. rewrite H. auto. Qed.

Lemma merge_rep_spec : forall n ms d lab r0 r1 a b, inv n ms d lab -> r0 < n -> r1 < n -> lab r0 = r0 -> lab r1 = r1 ->
  lab a = r0 -> lab b = r1 ->
  exists d' lab', merge_sets_by_representative d r0 r1 = Ok (d', negb (r0 =? r1)) /\ inv n ((a, b) :: ms) d' lab'.
Proof.
  intros n ms d lab r0 r1 a b I L0 L1 H0 H1 HA HB. unfold merge_sets_by_representative, is_representative.
  destruct (rep_spec _ _ _ _ _ I L0) as [d1 [E1 I1]]. rewrite E1. cbn [bind]. rewrite H0, Nat.eqb_refl. cbn [contract bind].
  destruct (rep_spec _ _ _ _ _ I1 L1) as [d2 [E2 I2]]. rewrite E2. cbn [bind]. rewrite H1, Nat.eqb_refl. cbn [contract bind].
  pose proof (i_num _ _ _ _ I2) as IN.
  destruct (Nat.eqb_spec r0 r1); cbn [negb].
  - exists d2, lab. split; auto. eapply inv_conn; [exact I2|]. apply conn_add_redundant. apply (i_conn _ _ _ _ I2). congruence.
  - rewrite !at_Ok by lia. cbn [bind esize]. destruct (Nat.ltb_spec (sz d2 r0) (sz d2 r1)).
    + destruct (link_spec n ms d2 lab r1 r0 a b I2) as [d' [E' I']]; auto; [lia|]. exists d', (relabel lab r1 r0). auto.
    + destruct (link_spec n ms d2 lab r0 r1 a b I2) as [d' [E' I']]; auto. exists d', (relabel lab r0 r1). auto.
Qed.

Lemma class_of_lab : forall n ms d lab e, inv n ms d lab -> e < n -> class_size n ms e (sz d (lab e)).
Proof.
  intros n ms d lab e I L. rewrite (i_sz _ _ _ _ I).
  - exists (cls n lab (lab e)). split; [apply NoDup_seq_filter|]. split; auto. intro x. unfold cls. rewrite filter_In, in_seq, Nat.eqb_eq.
    split.
    + intros [H1 H2]. split; [lia|]. apply (i_conn _ _ _ _ I). auto.
    + intros [H1 H2]. split; [lia|]. symmetry. apply (i_conn _ _ _ _ I). auto.
  - eapply lab_lt; eauto.
  - eapply lab_lab; eauto.
Qed.
Lemma count_of_tops : forall n ms d lab, inv n ms d lab -> class_count n ms (partition_count d).
Proof.
  intros n ms d lab I. exists (tops n lab). split; [apply NoDup_seq_filter|]. split; [symmetry; apply (i_cnt _ _ _ _ I)|]. split.
  - intros r H. apply filter_In in H. rewrite in_seq in H. lia.
  - intros a H. exists (lab a). split; [|split].
    + apply filter_In. rewrite in_seq. split; [pose proof (lab_lt _ _ _ _ _ I H); lia|]. apply Nat.eqb_eq. eapply lab_lab; eauto.
    + apply (i_conn _ _ _ _ I). symmetry. eapply lab_lab; eauto.
    + intros r' H1 H2. apply (i_conn _ _ _ _ I) in H2. apply filter_In in H1. destruct H1 as [_ H1]. apply Nat.eqb_eq in H1. congruence.
Qed.

Lemma step_spec : forall o n ms d lab, inv n ms d lab ->
  match step d o with
  | Ok (d', r) => in_range n o /\ answer n ms o r /\ exists lab', inv n (merged ms o) d' lab'
  | Contract => ~ (in_range n o /\ by_element o)
  | _ => False
  end.
Proof.
  intros o n ms d lab I. pose proof I as [IN IM IW IR IO IS IC IX].
  assert (OUT : forall e, n <= e -> get_representative d e = Contract) by (intros; eapply rep_out; eauto).
  assert (SAME : forall x y, (lab x =? lab y) = true <-> conn ms x y) by (intros; rewrite Nat.eqb_eq; auto).
  assert (CE : forall x, conn ms x (lab x)). { intro x. apply IX. symmetry. eapply lab_lab; eauto. }
  destruct o; cbn [step in_range by_element answer merged].
  - destruct (le_lt_dec n e); [rewrite OUT by auto; cbn [bind]; lia|].
    destruct (rep_spec _ _ _ _ _ I l) as [d1 [E1 I1]]. rewrite E1. cbn [bind]. split; auto. split; eauto. split; [eapply lab_lt; eauto|auto].
  - unfold is_representative. destruct (le_lt_dec n e); [rewrite OUT by auto; cbn [bind]; lia|].
    destruct (rep_spec _ _ _ _ _ I l) as [d1 [E1 I1]]. rewrite E1. cbn [bind]. split; auto. split; eauto.
  - unfold size_of_set_by_element. destruct (le_lt_dec n e); [rewrite OUT by auto; cbn [bind]; lia|].
    destruct (rep_spec _ _ _ _ _ I l) as [d1 [E1 I1]]. rewrite E1. cbn [bind].
    pose proof (lab_lt _ _ _ _ _ I l). rewrite at_Ok by (rewrite (i_num _ _ _ _ I1); auto). cbn [bind esize].
    split; auto. split; eauto. eapply class_of_lab; eauto.
  - unfold size_of_set_by_representative, is_representative. destruct (le_lt_dec n e); [rewrite OUT by auto; cbn [bind]; lia|].
    destruct (rep_spec _ _ _ _ _ I l) as [d1 [E1 I1]]. rewrite E1. cbn [bind]. destruct (Nat.eqb_spec (lab e) e); cbn [contract bind]; [|tauto].
    rewrite at_Ok by (rewrite (i_num _ _ _ _ I1); auto). cbn [bind esize]. split; auto. split; eauto. rewrite <- e0 at 2. eapply class_of_lab; eauto.
  - unfold are_in_same_set. destruct (le_lt_dec n a); [rewrite OUT by auto; cbn [bind]; lia|].
    destruct (rep_spec _ _ _ _ _ I l) as [d1 [E1 I1]]. rewrite E1. cbn [bind].
    destruct (le_lt_dec n b); [rewrite (rep_out _ _ _ _ _ I1) by auto; cbn [bind]; lia|].
    destruct (rep_spec _ _ _ _ _ I1 l0) as [d2 [E2 I2]]. rewrite E2. cbn [bind]. split; auto. split; eauto.
  - unfold merge_sets_by_element. destruct (le_lt_dec n a); [rewrite OUT by auto; cbn [bind]; lia|].
    destruct (rep_spec _ _ _ _ _ I l) as [d1 [E1 I1]]. rewrite E1. cbn [bind].
    destruct (le_lt_dec n b); [rewrite (rep_out _ _ _ _ _ I1) by auto; cbn [bind]; lia|].
    destruct (rep_spec _ _ _ _ _ I1 l0) as [d2 [E2 I2]]. rewrite E2. cbn [bind].
    destruct (merge_rep_spec n ms d2 lab (lab a) (lab b) a b I2) as [d3 [lab' [E3 I3]]]; auto;
      [eapply lab_lt; eauto|eapply lab_lt; eauto|eapply lab_lab; eauto|eapply lab_lab; eauto|].
    rewrite E3. cbn [bind]. split; auto. split; [|exists lab'; auto].
    rewrite <- SAME. rewrite negb_true_iff. destruct (lab a =? lab b); split; congruence.
  - destruct (le_lt_dec n a); [unfold merge_sets_by_representative, is_representative; rewrite OUT by auto; cbn [bind]; lia|].
    destruct (le_lt_dec n b).
    { unfold merge_sets_by_representative, is_representative. destruct (rep_spec _ _ _ _ _ I l) as [d1 [E1 I1]]. rewrite E1. cbn [bind].
      destruct (lab a =? a); cbn [contract bind]; [|tauto]. rewrite (rep_out _ _ _ _ _ I1) by auto. cbn [bind]. tauto. }
    destruct (Nat.eq_dec (lab a) a) as [Ea|Ea]; [destruct (Nat.eq_dec (lab b) b) as [Eb|Eb]|].
    + destruct (merge_rep_spec n ms d lab a b a b I) as [d3 [lab' [E3 I3]]]; auto.
      rewrite E3. cbn [bind]. split; auto. split; [|exists lab'; auto].
      rewrite <- SAME, Ea, Eb. rewrite negb_true_iff. destruct (a =? b); split; congruence.
    + unfold merge_sets_by_representative, is_representative. destruct (rep_spec _ _ _ _ _ I l) as [d1 [E1 I1]]. rewrite E1. cbn [bind].
      destruct (lab a =? a); cbn [contract bind]; [|tauto]. destruct (rep_spec _ _ _ _ _ I1 l0) as [d2 [E2 I2]]. rewrite E2. cbn [bind].
      rewrite (proj2 (Nat.eqb_neq _ _) Eb). cbn [contract bind]. tauto.
    + unfold merge_sets_by_representative, is_representative. destruct (rep_spec _ _ _ _ _ I l) as [d1 [E1 I1]]. rewrite E1. cbn [bind].
      rewrite (proj2 (Nat.eqb_neq _ _) Ea). cbn [contract bind]. tauto.
  - split; auto. split; eauto. eapply count_of_tops; eauto.
  - split; auto. split; eauto.
Qed.

Lemma run_spec : forall os n ms d lab, inv n ms d lab ->
  match run d os with
  | Ok (d', rs) => Forall (in_range n) os /\ answers n ms os rs /\ exists lab', inv n (fold_left merged os ms) d' lab'
  | Contract => ~ (Forall (in_range n) os /\ Forall by_element os)
  | _ => False
  end.
Proof.
  induction os as [|o os IH]; intros n ms d lab I; cbn [run].
  - split; auto. split; [exact Logic.I|]. exists lab. auto.
  - pose proof (step_spec o n ms d lab I) as S. destruct (step d o) as [[d1 r]| | |]; cbn [bind]; auto.
    + destruct S as [S1 [S2 [lab1 I1]]]. specialize (IH n (merged ms o) d1 lab1 I1). destruct (run d1 os) as [[d2 rs]| | |]; cbn [bind]; auto.
      * destruct IH as [A [B C]]. split; [constructor; auto|]. split; [split; auto|]. auto.
      * intros [F1 F2]. apply IH. inversion F1; inversion F2; auto.
    + intros [F1 F2]. apply S. inversion F1; inversion F2; auto.
Qed.

Lemma init_inv : forall d size, (size < 2 ^ 31)%N -> inv (N.to_nat size) [] (init d size) (fun i => i).
Proof.
  intros d size H. unfold init.
  assert (E : Nat.min (init_count size) (N.to_nat size) = N.to_nat size).
  { unfold init_count. rewrite wrap_small by (assert (2 ^ 31 < 2 ^ 32)%N by reflexivity; lia). destruct (N.ltb_spec size (2 ^ 31)); lia. }
  rewrite E. set (n := N.to_nat size) in *.
  assert (L0 : length (firstn n (entries d) ++ repeat (mkEn 0 0) (n - length (entries d))) = n).
  { rewrite app_length, firstn_length, repeat_length. lia. }
  rewrite skipn_all2 by lia. rewrite app_nil_r.
  set (d0 := mkDS (map (fun i => mkEn i 1) (seq 0 n)) size).
  assert (NE : forall i, i < n -> nth_error (entries d0) i = Some (mkEn i 1)).
  { intros i B. unfold d0. cbn [entries]. rewrite nth_error_map. rewrite (nth_error_nth' _ 0) by (rewrite seq_length; auto).
    rewrite seq_nth by auto. reflexivity. }
  assert (P0 : forall i, par d0 i = i).
  { intro i. unfold par. destruct (le_lt_dec n i); [|rewrite NE by auto; auto].
    rewrite (proj2 (nth_error_None _ _)); auto. unfold d0. cbn [entries]. rewrite map_length, seq_length. auto. }
  assert (S0 : forall i, i < n -> sz d0 i = 1) by (intros i B; unfold sz; rewrite NE; auto).
  assert (N0 : num d0 = n) by (unfold num, d0; cbn [entries]; rewrite map_length, seq_length; auto).
  constructor; auto.
  - unfold n. rewrite N2Nat.id. auto.
  - constructor; rewrite N0; intros i B.
    + rewrite P0. auto.
    + rewrite P0. congruence.
    + rewrite S0; auto. lia.
  - intros i B. constructor. auto.
  - intros r B _. rewrite S0 by auto. unfold cls. rewrite filter_one; auto.
  - cbn [partition_count]. unfold tops. rewrite (filter_ext _ (fun _ => true)) by (intro; apply Nat.eqb_refl).
    replace (filter (fun _ : nat => true) (seq 0 n)) with (seq 0 n)
      by (clear; generalize (seq 0 n) as q; induction q as [|x q IHq]; cbn; [auto|rewrite <- IHq; auto]).
    rewrite seq_length. unfold d0, n. cbn. lia.
  - intros a b. split; [intros ->; apply conn_refl|]. intro C. induction C; auto; try congruence. destruct H0.
Qed.

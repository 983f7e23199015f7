From Coq Require Import NArith ZArith List Bool Arith Lia Sorted.
From Verif Require Import Base StrModel StrSpec.
Import ListNotations.
Open Scope nat_scope.

Lemma contents_length : forall v, valid v -> length (contents v) = N.to_nat (vsize v).
Proof. intros v [V _]. unfold contents. rewrite firstn_length, skipn_length. lia. Qed.
Lemma contents_of_list : forall l, contents (of_list l) = l.
Proof. intros. unfold contents, of_list. cbn. rewrite Nat2N.id. apply firstn_all. Qed.
Lemma valid_of_list : forall l, (N.of_nat (length l) < 2 ^ 63)%N -> valid (of_list l).
Proof. intros. unfold valid, of_list. cbn [off vsize mem]. lia. Qed.
Lemma vsize_bound : forall v, valid v -> (vsize v < 2 ^ 63)%N.
Proof. intros v [V B]. lia. Qed.

Lemma sub_contents : forall v o s, valid v -> (o + s <= vsize v)%N ->
  valid (mkView (mem v) (off v + o) s) /\
  contents (mkView (mem v) (off v + o) s) = firstn (N.to_nat s) (skipn (N.to_nat o) (contents v)).
Proof.
  intros v o s [V B] H. split; [unfold valid; cbn [off vsize mem]; lia|]. unfold contents. cbn [mem off vsize].
  rewrite skipn_firstn_comm, firstn_firstn, skipn_skipn. f_equal; [lia|]. f_equal. lia.
Qed.

(* reading at position i when the rest of the view from i on is l *)
Definition at_ (v : view) (i : N) (l : list N) : Prop := valid v /\ skipn (N.to_nat i) (contents v) = l.
Lemma at0 : forall v, valid v -> at_ v 0 (contents v).
Proof. intros. split; auto. Qed.
Lemma at_skip : forall v i l k, at_ v i l -> at_ v (i + k) (skipn (N.to_nat k) l).
Proof. intros v i l k [V E]. split; auto. subst. rewrite skipn_skipn. f_equal. lia. Qed.
Lemma rd_at : forall v i x l, at_ v i (x :: l) -> rd v i = Ok x.
Proof.
  intros v i x l [[V B] E]. unfold rd. apply aget_Ok. unfold contents in E.
  assert (H : nth_error (skipn (N.to_nat i) (firstn (N.to_nat (vsize v)) (skipn (N.to_nat (off v)) (mem v)))) 0 = Some x) by (rewrite E; auto).
  rewrite nth_error_skipn, Nat.add_0_r in H.
  assert (N.to_nat i < N.to_nat (vsize v)).
  { apply (f_equal (@length N)) in E. rewrite skipn_length, firstn_length in E. cbn in E. lia. }
  rewrite nth_error_firstn_lt in H by auto. rewrite nth_error_skipn in H. rewrite <- H. f_equal. lia.
Qed.
Lemma at_next : forall v i x l, at_ v i (x :: l) -> at_ v (i + 1) l.
Proof. intros v i x l H. apply (at_skip _ _ _ 1) in H. exact H. Qed.
Lemma at_lt : forall v i x l, at_ v i (x :: l) -> (i < vsize v)%N.
Proof.
  intros v i x l [V E]. apply (f_equal (@length N)) in E. rewrite skipn_length, contents_length in E by auto. cbn in E. lia.
Qed.
Lemma at_len : forall v i l, at_ v i l -> length l = N.to_nat (vsize v) - N.to_nat i.
Proof. intros v i l [V E]. apply (f_equal (@length N)) in E. rewrite skipn_length, contents_length in E by auto. auto. Qed.
Lemma vindex_at : forall v i x l, at_ v i (x :: l) -> vindex v i = Ok x.
Proof.
  intros. unfold vindex. rewrite (proj2 (N.ltb_lt _ _)) by (eapply at_lt; eauto). cbn. eapply rd_at; eauto.
Qed.

(* ---- comparison ---- *)
Definition all2 (cmp : N -> N -> bool) (a b : list N) : bool := forallb (fun q => cmp (fst q) (snd q)) (combine a b).
Definition leq (cmp : N -> N -> bool) (a b : list N) : bool := (length a =? length b) && all2 cmp a b.
Lemma Forall2_length : forall A B (R : A -> B -> Prop) a b, Forall2 R a b -> length a = length b.
Proof. induction 1; cbn; auto. Qed.
Lemma leq_Forall2 : forall cmp a b, leq cmp a b = true <-> Forall2 (fun x y => cmp x y = true) a b.
Proof.
  unfold leq, all2. induction a as [|x a IH]; intros [|y b]; cbn.
  - split; auto.
  - split; intro H; [discriminate|inversion H].
  - split; intro H; [discriminate|inversion H].
  - rewrite !andb_true_iff. specialize (IH b). rewrite andb_true_iff in IH. split.
    + intros [H1 [H2 H3]]. constructor; auto. apply IH. auto.
    + intro H. inversion H; subst. apply IH in H5. tauto.
Qed.
Lemma Forall2_eqb : forall a b, Forall2 (fun x y => (x =? y)%N = true) a b <-> a = b.
Proof.
  split.
  - induction 1; auto. apply N.eqb_eq in H. congruence.
  - intros ->. induction b; constructor; auto. apply N.eqb_refl.
Qed.
Lemma leq_eq : forall a b, leq N.eqb a b = true <-> a = b.
Proof. intros. rewrite leq_Forall2. apply Forall2_eqb. Qed.

Lemma equal_from_spec : forall cmp n i a b la lb, at_ a i la -> at_ b i lb -> n = length la -> n = length lb ->
  equal_from cmp n i a b = Ok (all2 cmp la lb).
Proof.
  intros cmp. induction n; intros i a b la lb A B La Lb; cbn [equal_from].
  - destruct la; try discriminate. auto.
  - destruct la as [|x la]; try discriminate. destruct lb as [|y lb]; try discriminate.
    rewrite (rd_at _ _ _ _ A), (rd_at _ _ _ _ B). cbn [bind]. unfold all2. cbn [combine forallb fst snd]. destruct (cmp x y); auto.
    cbn [andb]. apply IHn; try (eapply at_next; eauto); cbn in *; lia.
Qed.
Lemma equals_spec : forall cmp a b, valid a -> valid b -> equals cmp a b = Ok (leq cmp (contents a) (contents b)).
Proof.
  intros cmp a b A B. unfold equals, leq. rewrite !contents_length by auto.
  destruct (N.eqb_spec (vsize a) (vsize b)) as [E|E].
  - rewrite (proj2 (Nat.eqb_eq _ _)) by lia. cbn [andb]. apply equal_from_spec; try apply at0; auto; rewrite contents_length; auto. lia.
  - rewrite (proj2 (Nat.eqb_neq _ _)) by lia. auto.
Qed.
Lemma veq_spec : forall a b, valid a -> valid b -> exists r, veq a b = Ok r /\ (r = true <-> contents a = contents b).
Proof. intros. unfold veq. rewrite equals_spec by auto. eexists. split; [reflexivity|]. apply leq_eq. Qed.

Lemma subview_spec : forall v o s, valid v -> (s < 2 ^ 63)%N ->
  if (o + s <=? vsize v)%N
  then exists w, subview v o s = Ok w /\ valid w /\ vsize w = s /\ contents w = firstn (N.to_nat s) (skipn (N.to_nat o) (contents v))
  else subview v o s = Contract.
Proof.
  intros v o s V S. pose proof (vsize_bound _ V) as B. unfold subview. assert (P : (2 ^ 64 = 2 * 2 ^ 63)%N) by reflexivity.
  destruct (N.leb_spec o (vsize v)); cbn [contract bind].
  - rewrite wadd_small by lia. destruct (N.leb_spec (o + s) (vsize v)); cbn [contract bind]; auto.
    destruct (sub_contents v o s V) as [V' E]; [lia|]. eexists. split; [reflexivity|]. auto.
  - rewrite (proj2 (N.leb_gt _ _)) by lia. auto.
Qed.

(* s stands at position k of l *)
Definition here (cmp : N -> N -> bool) (s l : list N) (k : nat) : bool := leq cmp (firstn (length s) (skipn k l)) s.
Lemma here_occurs_by : forall cmp s l k, k + length s <= length l -> (here cmp s l k = true <-> occurs_by cmp s l k).
Proof.
  intros cmp s l k L. unfold here, occurs_by. rewrite leq_Forall2. split.
  - intro H. exists (firstn k l), (firstn (length s) (skipn k l)), (skipn (length s) (skipn k l)).
    rewrite !firstn_skipn. repeat split; auto. rewrite firstn_length. lia.
  - intros [a [m [b [E [La F]]]]]. subst l k. rewrite skipn_app, skipn_all, Nat.sub_diag. cbn [skipn app].
    rewrite firstn_app. apply Forall2_length in F as Fl. rewrite <- Fl, firstn_all, Nat.sub_diag. cbn. rewrite app_nil_r. auto.
Qed.
Lemma occurs_by_eq : forall s l k, occurs_by N.eqb s l k <-> occurs s l k.
Proof.
  intros s l k. split.
  - intros [a [m [b [E [L F]]]]]. apply Forall2_eqb in F. subst m. exists a, b. auto.
  - intros [a [b [E L]]]. exists a, s, b. repeat split; auto. apply Forall2_eqb. auto.
Qed.
Lemma here_occurs : forall s l k, k + length s <= length l -> (here N.eqb s l k = true <-> occurs s l k).
Proof. intros. rewrite here_occurs_by by auto. apply occurs_by_eq. Qed.
Lemma occurs_by_bound : forall cmp s l k, occurs_by cmp s l k -> k + length s <= length l.
Proof. intros cmp s l k [a [m [b [E [L F]]]]]. subst. apply Forall2_length in F. rewrite !app_length. lia. Qed.
Lemma occurs_bound : forall s l k, occurs s l k -> k + length s <= length l.
Proof. intros s l k [a [b [E L]]]. subst. rewrite !app_length. lia. Qed.

(* ---- contains ---- *)
Lemma contains_from_spec : forall cmp v s, valid v -> valid s -> forall n i,
  (i + N.of_nat n + vsize s <= vsize v + 1)%N ->
  exists r, contains_from cmp n i v s = Ok r /\
    (r = true <-> exists k, N.to_nat i <= k < N.to_nat i + n /\ here cmp (contents s) (contents v) k = true).
Proof.
  intros cmp v s V S. pose proof (vsize_bound _ S) as BS. induction n; intros i H; cbn [contains_from].
  - eexists. split; [reflexivity|]. split; [discriminate|]. intros [k [K _]]. lia.
  - pose proof (subview_spec v i (vsize s) V BS) as Q. rewrite (proj2 (N.leb_le _ _)) in Q by lia.
    destruct Q as [w [-> [W [Sw Cw]]]]. cbn [bind]. rewrite equals_spec by auto. cbn [bind].
    assert (HE : leq cmp (contents w) (contents s) = here cmp (contents s) (contents v) (N.to_nat i)).
    { unfold here. rewrite Cw, contents_length by auto. auto. }
    rewrite HE. destruct (here _ _ _ (N.to_nat i)) eqn:E.
    + eexists. split; [reflexivity|]. split; auto. intros _. exists (N.to_nat i). split; auto. lia.
    + destruct (IHn (i + 1)%N) as [r [R1 R2]]; [lia|]. exists r. split; auto. rewrite R2. split; intros [k [K1 K2]].
      * exists k. split; auto. lia.
      * exists k. split; auto. destruct (Nat.eq_dec k (N.to_nat i)); [subst; congruence|lia].
Qed.
Lemma contains_by_spec : forall cmp v s, valid v -> valid s -> exists r, contains_by cmp v s = Ok r /\
  (r = true <-> exists k, occurs_by cmp (contents s) (contents v) k).
Proof.
  intros cmp v s V S. unfold contains_by. pose proof (contents_length _ V) as LV. pose proof (contents_length _ S) as LS.
  destruct (N.ltb_spec (vsize v) (vsize s)).
  - eexists. split; [reflexivity|]. split; [discriminate|]. intros [k K]. apply occurs_by_bound in K. lia.
  - destruct (contains_from_spec cmp v s V S (N.to_nat (vsize v - vsize s + 1)) 0) as [r [R1 R2]]; [lia|].
    exists r. split; auto. rewrite R2. split; intros [k K].
    + exists k. apply here_occurs_by; [lia|tauto].
    + exists k. pose proof (occurs_by_bound _ _ _ _ K). split; [lia|]. apply here_occurs_by; auto.
Qed.

(* ---- index_of ---- *)
Lemma match_at_spec : forall n j i v s lv ls, at_ v (i + j) lv -> at_ s j ls -> n = length ls -> ls <> [] -> length ls <= length lv ->
  match_at n j i v s = Ok (leq N.eqb (firstn (length ls) lv) ls).
Proof.
  induction n; intros j i v s lv ls A B L NE LE; cbn [match_at]; [destruct ls; [contradiction|discriminate]|].
  destruct ls as [|y ls]; [contradiction|]. destruct lv as [|x lv]; [cbn in LE; lia|]. cbn [length] in *.
  rewrite (rd_at _ _ _ _ A), (vindex_at _ _ _ _ B). cbn [bind firstn]. unfold leq, all2. cbn [length combine forallb fst snd Nat.eqb].
  destruct (N.eqb_spec x y) as [Exy|Nxy]; cbn [negb andb]; [|destruct (_ =? _); auto].
  pose proof (at_len _ _ _ B) as LB. cbn [length] in LB. destruct ls as [|z ls].
  - rewrite (proj2 (N.eqb_eq j _)) by (cbn in LB; lia). auto.
  - rewrite (proj2 (N.eqb_neq j _)) by (cbn in LB; lia). set (lz := z :: ls) in *.
    rewrite (IHn (j + 1)%N i v s lv lz); auto; try (eapply at_next; eauto); try (cbn; discriminate); try lia.
    replace (i + (j + 1))%N with (i + j + 1)%N by lia. eapply at_next; eauto.
Qed.
Definition needle_at (v s : view) (k : nat) : bool := here N.eqb (contents s) (contents v) k.
Lemma match_at_here : forall v s i, valid v -> valid s -> contents s <> [] -> (i + vsize s <= vsize v)%N ->
  match_at (N.to_nat (vsize s)) 0 i v s = Ok (needle_at v s (N.to_nat i)).
Proof.
  intros v s i V S NE H. rewrite (match_at_spec _ 0 i v s (skipn (N.to_nat i) (contents v)) (contents s)); auto.
  - rewrite N.add_0_r. split; auto.
  - apply at0; auto.
  - rewrite contents_length; auto.
  - rewrite skipn_length, !contents_length by auto. lia.
Qed.
Lemma search_spec : forall v s, valid v -> valid s -> contents s <> [] -> forall n i,
  (i + N.of_nat n + vsize s <= vsize v + 1)%N ->
  exists r, search n i v s = Ok r /\
    match r with
    | Some k => N.to_nat i <= N.to_nat k < N.to_nat i + n /\ needle_at v s (N.to_nat k) = true /\ forall j, N.to_nat i <= j < N.to_nat k -> needle_at v s j = false
    | None => forall j, N.to_nat i <= j < N.to_nat i + n -> needle_at v s j = false
    end.
Proof.
  intros v s V S NE. induction n; intros i H; cbn [search].
  - eexists. split; [reflexivity|]. cbn. intros. lia.
  - rewrite match_at_here by (auto; lia). cbn [bind]. destruct (needle_at v s (N.to_nat i)) eqn:E.
    + eexists. split; [reflexivity|]. cbn. repeat split; auto; intros; lia.
    + destruct (IHn (i + 1)%N) as [r [R1 R2]]; [lia|]. exists r. split; auto. destruct r as [k|].
      * destruct R2 as [K1 [K2 K3]]. repeat split; auto; try lia. intros j J. destruct (Nat.eq_dec j (N.to_nat i)); [subst; auto|]. apply K3. lia.
      * intros j J. destruct (Nat.eq_dec j (N.to_nat i)); [subst; auto|]. apply R2. lia.
Qed.
Lemma occurs_needle : forall v s k, valid v -> valid s -> k + N.to_nat (vsize s) <= N.to_nat (vsize v) ->
  (needle_at v s k = true <-> occurs (contents s) (contents v) k).
Proof. intros. unfold needle_at. apply here_occurs. rewrite !contents_length; auto. Qed.
Lemma index_of_spec : forall v s, valid v -> valid s -> contents s <> [] -> exists r, index_of v s = Ok r /\
  match r with
  | Some k => occurs (contents s) (contents v) (N.to_nat k) /\ forall j, occurs (contents s) (contents v) j -> N.to_nat k <= j
  | None => forall j, ~ occurs (contents s) (contents v) j
  end.
Proof.
  intros v s V S NE. unfold index_of, vempty. pose proof (contents_length _ V) as LV. pose proof (contents_length _ S) as LS.
  rewrite (proj2 (N.eqb_neq (vsize s) 0)) by (destruct (contents s); [contradiction|cbn in LS; lia]). cbn [negb contract bind].
  assert (OB : forall j, occurs (contents s) (contents v) j -> j + N.to_nat (vsize s) <= N.to_nat (vsize v)).
  { intros j J. apply occurs_bound in J. lia. }
  destruct (N.ltb_spec (vsize v) (vsize s)).
  - eexists. split; [reflexivity|]. cbn. intros j J. apply OB in J. lia.
  - destruct (search_spec v s V S NE (N.to_nat (vsize v - vsize s + 1)) 0) as [r [R1 R2]]; [lia|]. exists r. split; auto. destruct r as [k|].
    + destruct R2 as [K1 [K2 K3]]. split; [apply occurs_needle; auto; lia|]. intros j J. pose proof (OB _ J).
      destruct (le_lt_dec (N.to_nat k) j); auto. apply (occurs_needle v s j V S) in J; [|lia]. rewrite K3 in J by lia. discriminate.
    + intros j J. pose proof (OB _ J). apply (occurs_needle v s j V S) in J; [|lia]. rewrite R2 in J by lia. discriminate.
Qed.

(* ---- last_index_of ---- *)
Lemma nth_at : forall v i x, valid v -> nth_error (contents v) (N.to_nat i) = Some x -> exists l, at_ v i (x :: l).
Proof.
  intros v i x V E. exists (skipn (S (N.to_nat i)) (contents v)). split; auto.
  revert E. generalize (N.to_nat i) (contents v). induction n; intros [|y l] E; cbn in *; try discriminate; auto. congruence.
Qed.
Lemma rmatch_at_spec : forall v s i, valid v -> valid s -> contents s <> [] -> (i + vsize s <= vsize v)%N ->
  let base := N.to_nat (vsize v - (i + vsize s)) in
  forall n j, (N.of_nat n + j = vsize s)%N -> n <> 0 ->
  exists r, rmatch_at n j i v s = Ok r /\
    (r = true <-> forall m, m < n -> nth_error (contents v) (base + m) = nth_error (contents s) m).
Proof.
  intros v s i V S NE H base. pose proof (vsize_bound _ V) as BV. pose proof (vsize_bound _ S) as BS.
  pose proof (contents_length _ V) as LV. pose proof (contents_length _ S) as LS. assert (P : (2 ^ 64 = 2 * 2 ^ 63)%N) by reflexivity.
  induction n; intros j J NZ; cbn [rmatch_at]; [contradiction|].
  rewrite !wsub_ge by lia.
  destruct (nth_error (contents v) (N.to_nat (vsize v - (i + j + 1)))) as [x|] eqn:EX; [|apply nth_error_None in EX; lia].
  destruct (nth_error (contents s) (N.to_nat (vsize s - (j + 1)))) as [y|] eqn:EY; [|apply nth_error_None in EY; lia].
  destruct (nth_at v _ x V EX) as [lx AX]. destruct (nth_at s _ y S EY) as [ly AY].
  rewrite (rd_at _ _ _ _ AX), (vindex_at _ _ _ _ AY). cbn [bind].
  replace (N.to_nat (vsize v - (i + j + 1))) with (base + n) in EX by (unfold base; lia).
  replace (N.to_nat (vsize s - (j + 1))) with n in EY by lia.
  destruct (N.eqb_spec x y) as [Q|Q]; cbn [negb].
  - subst y. destruct (N.eqb_spec j (vsize s - 1)).
    + eexists. split; [reflexivity|]. split; auto. intros _ m M. assert (n = 0) by lia. subst n. replace m with 0 by lia. congruence.
    + destruct (IHn (j + 1)%N) as [r [R1 R2]]; try lia. exists r. split; auto. rewrite R2. split; intros G m M.
      * destruct (Nat.eq_dec m n); [subst; congruence|]. apply G. lia.
      * apply G. lia.
  - eexists. split; [reflexivity|]. split; [discriminate|]. intro G. specialize (G n ltac:(lia)). congruence.
Qed.
Lemma here_nth : forall s l k, k + length s <= length l ->
  (here N.eqb s l k = true <-> forall m, m < length s -> nth_error l (k + m) = nth_error s m).
Proof.
  intros s l k L. unfold here. rewrite leq_eq. split.
  - intros E m M. replace (nth_error s m) with (nth_error (firstn (length s) (skipn k l)) m) by (rewrite E; auto). rewrite nth_error_firstn_lt, nth_error_skipn; auto.
  - intro G. apply nth_ext_err. intro m. destruct (le_lt_dec (length s) m).
    + rewrite (proj2 (nth_error_None s m)) by auto. apply nth_error_None. rewrite firstn_length. lia.
    + rewrite nth_error_firstn_lt, nth_error_skipn by auto. auto.
Qed.
Lemma rmatch_here : forall v s i, valid v -> valid s -> contents s <> [] -> (i + vsize s <= vsize v)%N ->
  rmatch_at (N.to_nat (vsize s)) 0 i v s = Ok (needle_at v s (N.to_nat (vsize v - (i + vsize s)))).
Proof.
  intros v s i V S NE H. pose proof (contents_length _ V) as LV. pose proof (contents_length _ S) as LS.
  destruct (rmatch_at_spec v s i V S NE H (N.to_nat (vsize s)) 0) as [r [R1 R2]]; [lia|destruct (contents s); [contradiction|cbn in LS; lia]|].
  rewrite R1. f_equal. rewrite <- LS in R2. rewrite <- here_nth in R2 by lia. unfold needle_at.
  destruct r, (here N.eqb (contents s) (contents v) _); auto; [symmetry|]; apply R2; auto.
Qed.
Lemma rsearch_spec : forall v s, valid v -> valid s -> contents s <> [] -> forall n i,
  (i + N.of_nat n + vsize s <= vsize v + 1)%N ->
  let pos k := N.to_nat (vsize v - (k + vsize s)) in
  exists r, rsearch n i v s = Ok r /\
    match r with
    | Some p => exists k, (i <= k < i + N.of_nat n)%N /\ N.to_nat p = pos k /\ needle_at v s (pos k) = true /\
                forall j, (i <= j < k)%N -> needle_at v s (pos j) = false
    | None => forall j, (i <= j < i + N.of_nat n)%N -> needle_at v s (pos j) = false
    end.
Proof.
  intros v s V S NE. pose proof (vsize_bound _ V) as BV. assert (P : (2 ^ 64 = 2 * 2 ^ 63)%N) by reflexivity.
  induction n; intros i H pos; cbn [rsearch].
  - eexists. split; [reflexivity|]. cbn. intros. lia.
  - rewrite rmatch_here by (auto; lia). cbn [bind]. destruct (needle_at v s _) eqn:E.
    + eexists. split; [reflexivity|]. exists i. rewrite wsub_ge by lia. repeat split; auto; intros; lia.
    + destruct (IHn (i + 1)%N) as [r [R1 R2]]; [lia|]. exists r. split; auto. destruct r as [p|].
      * destruct R2 as [k [K1 [K2 [K3 K4]]]]. exists k. repeat split; auto; try lia.
        intros j J. destruct (N.eq_dec j i); [subst; auto|]. apply K4. lia.
      * intros j J. destruct (N.eq_dec j i); [subst; auto|]. apply R2. lia.
Qed.
Lemma last_index_of_spec : forall v s, valid v -> valid s -> contents s <> [] -> exists r, last_index_of v s = Ok r /\
  match r with
  | Some k => occurs (contents s) (contents v) (N.to_nat k) /\ forall j, occurs (contents s) (contents v) j -> j <= N.to_nat k
  | None => forall j, ~ occurs (contents s) (contents v) j
  end.
Proof.
  intros v s V S NE. unfold last_index_of, vempty. pose proof (contents_length _ V) as LV. pose proof (contents_length _ S) as LS.
  rewrite (proj2 (N.eqb_neq (vsize s) 0)) by (destruct (contents s); [contradiction|cbn in LS; lia]). cbn [negb contract bind].
  assert (OB : forall j, occurs (contents s) (contents v) j -> j + N.to_nat (vsize s) <= N.to_nat (vsize v)).
  { intros j J. apply occurs_bound in J. lia. }
  destruct (N.ltb_spec (vsize v) (vsize s)).
  - eexists. split; [reflexivity|]. cbn. intros j J. apply OB in J. lia.
  - destruct (rsearch_spec v s V S NE (N.to_nat (vsize v - vsize s + 1)) 0) as [r [R1 R2]]; [lia|]. exists r. split; auto. destruct r as [p|].
    + destruct R2 as [k [K1 [K2 [K3 K4]]]]. rewrite K2. split; [apply occurs_needle; auto; lia|]. intros j J. pose proof (OB _ J).
      destruct (le_lt_dec j (N.to_nat (vsize v - (k + vsize s)))); auto. apply (occurs_needle v s j V S) in J; [|lia].
      specialize (K4 (vsize v - (N.of_nat j + vsize s))%N ltac:(lia)).
      replace (N.to_nat (vsize v - (vsize v - (N.of_nat j + vsize s) + vsize s))) with j in K4 by lia. congruence.
    + intros j J. pose proof (OB _ J). apply (occurs_needle v s j V S) in J; [|lia].
      specialize (R2 (vsize v - (N.of_nat j + vsize s))%N ltac:(lia)).
      replace (N.to_nat (vsize v - (vsize v - (N.of_nat j + vsize s) + vsize s))) with j in R2 by lia. congruence.
Qed.

(* ---- single characters ---- *)
Lemma find_char_spec : forall p n i v l, at_ v i l -> n = length l -> exists r, find_char p n i v = Ok r /\
  match r with
  | Some k => exists a x b, l = a ++ x :: b /\ k = (i + N.of_nat (length a))%N /\ p x = true /\ forallb (fun y => negb (p y)) a = true
  | None => forallb (fun y => negb (p y)) l = true
  end.
Proof.
  induction n; intros i v l A L; destruct l as [|x l]; try discriminate; cbn [find_char].
  - eexists. split; [reflexivity|]. reflexivity.
  - rewrite (rd_at _ _ _ _ A). cbn [bind]. destruct (p x) eqn:E.
    + eexists. split; [reflexivity|]. exists [], x, l. cbn. repeat split; auto. lia.
    + destruct (IHn (i + 1)%N v l) as [r [R1 R2]]; [eapply at_next; eauto|cbn in L; lia|]. exists r. split; auto. destruct r as [k|].
      * destruct R2 as [a [y [b [-> [-> [Y F]]]]]]. exists (x :: a), y, b. cbn [app length forallb]. rewrite E, F. repeat split; auto. lia.
      * cbn. rewrite E, R2. auto.
Qed.
Lemma rfind_char_spec : forall p n v, valid v -> n <= length (contents v) -> exists r, rfind_char p n v = Ok r /\
  match r with
  | Some k => exists a x b, firstn n (contents v) = a ++ x :: b /\ k = N.of_nat (length a) /\ p x = true /\ forallb (fun y => negb (p y)) b = true
  | None => forallb (fun y => negb (p y)) (firstn n (contents v)) = true
  end.
Proof.
  induction n; intros v V L; cbn [rfind_char].
  - eexists. split; [reflexivity|]. reflexivity.
  - destruct (nth_error (contents v) n) as [x|] eqn:NE; [|apply nth_error_None in NE; lia].
    destruct (nth_at v (N.of_nat n) x V) as [t A]; [rewrite Nat2N.id; auto|]. rewrite (rd_at _ _ _ _ A). cbn [bind].
    assert (SP : firstn (S n) (contents v) = firstn n (contents v) ++ [x]).
    { clear - NE. revert NE. generalize (contents v). induction n; intros [|y l] E; try discriminate; cbn in *; [congruence|]. rewrite <- IHn by auto. auto. }
    rewrite SP. destruct (p x) eqn:E.
    + eexists. split; [reflexivity|]. exists (firstn n (contents v)), x, []. repeat split; auto. rewrite firstn_length. lia.
    + destruct (IHn v V) as [r [R1 R2]]; [lia|]. exists r. split; auto. destruct r as [k|].
      * destruct R2 as [a [y [b [-> [-> [Y F]]]]]]. exists a, y, (b ++ [x]). rewrite <- app_assoc. repeat split; auto.
        rewrite forallb_app, F. cbn. rewrite E. auto.
      * rewrite forallb_app, R2. cbn. rewrite E. auto.
Qed.

(* ---- all_indices_of ---- *)
Lemma match_raw_spec : forall n j i v s, valid s -> (j + N.of_nat n <= vsize s)%N -> match_raw n j i v s = match_at n j i v s.
Proof.
  induction n; intros j i v s S H; cbn [match_raw match_at]; auto. destruct (rd v (i + j)); cbn [bind]; auto.
  unfold vindex. rewrite (proj2 (N.ltb_lt _ _)) by lia. cbn [contract bind]. destruct (rd s j); cbn [bind]; auto.
  destruct (negb _); auto. destruct (_ =? _)%N; auto. apply IHn; auto. lia.
Qed.
Lemma search_raw_eq : forall n i v s, valid s -> search_raw n i v s = search n i v s.
Proof.
  induction n; intros i v s S; cbn [search_raw search]; auto. rewrite match_raw_spec by (auto; lia).
  destruct (match_at _ 0 i v s) as [[]| | |]; cbn [bind]; auto.
Qed.
Lemma next_idx_spec : forall v s start, valid v -> valid s -> contents s <> [] -> (start <= vsize v)%N ->
  exists r, next_idx v s start = Ok r /\
  match r with
  | Some k => (start <= k)%N /\ (k + vsize s <= vsize v)%N /\ occurs (contents s) (contents v) (N.to_nat k) /\
      forall j, N.to_nat start <= j < N.to_nat k -> ~ occurs (contents s) (contents v) j
  | None => forall j, N.to_nat start <= j -> ~ occurs (contents s) (contents v) j
  end.
Proof.
  intros v s start V S NE H. unfold next_idx. pose proof (contents_length _ V) as LV. pose proof (contents_length _ S) as LS.
  pose proof (vsize_bound _ V) as BV. assert (P : (2 ^ 64 = 2 * 2 ^ 63)%N) by reflexivity. rewrite wsub_ge by lia.
  assert (OB : forall j, occurs (contents s) (contents v) j -> j + N.to_nat (vsize s) <= N.to_nat (vsize v)).
  { intros j J. apply occurs_bound in J. lia. }
  destruct (N.ltb_spec (vsize v - start) (vsize s)).
  - eexists. split; [reflexivity|]. cbn. intros j J Q. apply OB in Q. lia.
  - rewrite search_raw_eq by auto.
    destruct (search_spec v s V S NE (N.to_nat (vsize v - vsize s + 1 - start)) start) as [r [R1 R2]]; [lia|]. exists r. split; auto.
    destruct r as [k|].
    + destruct R2 as [K1 [K2 K3]]. repeat split; try lia; [apply occurs_needle; auto; lia|]. intros j J Q. pose proof (OB _ Q).
      apply (occurs_needle v s j V S) in Q; [|lia]. rewrite K3 in Q by lia. discriminate.
    + intros j J Q. pose proof (OB _ Q). apply (occurs_needle v s j V S) in Q; [|lia]. rewrite R2 in Q by lia. discriminate.
Qed.
Lemma indices_loop_spec : forall v s, valid v -> valid s -> contents s <> [] -> forall fuel idx lo,
  (lo <= vsize v)%N -> N.to_nat (vsize v - lo) < fuel ->
  match idx with
  | Some k => (lo <= k)%N /\ (k + vsize s <= vsize v)%N /\ occurs (contents s) (contents v) (N.to_nat k) /\
      forall j, N.to_nat lo <= j < N.to_nat k -> ~ occurs (contents s) (contents v) j
  | None => forall j, N.to_nat lo <= j -> ~ occurs (contents s) (contents v) j
  end ->
  exists r, indices_loop fuel idx v s = Ok r /\ StronglySorted N.lt r /\
    forall j, In j r <-> (lo <= j)%N /\ occurs (contents s) (contents v) (N.to_nat j).
Proof.
  intros v s V S NE. pose proof (contents_length _ S) as LS. induction fuel; intros idx lo B F I; [lia|]. destruct idx as [k|]; cbn [indices_loop].
  - destruct I as [I1 [I2 [I3 I4]]]. assert (SP : (0 < vsize s)%N) by (destruct (contents s); [contradiction|cbn in LS; lia]).
    destruct (next_idx_spec v s (k + 1) V S NE) as [nx [E1 E2]]; [lia|]. rewrite E1. cbn [bind].
    destruct (IHfuel nx (k + 1)%N) as [r [R1 [R2 R3]]]; auto; try lia. rewrite R1. cbn [bind]. eexists. split; [reflexivity|]. split.
    + constructor; auto. apply Forall_forall. intros j J. apply R3 in J. lia.
    + intros j. cbn [In]. rewrite R3. split.
      * intros [<-|[J1 J2]]; split; auto; lia.
      * intros [J1 J2]. destruct (N.lt_total j k) as [L|[L|L]]; auto.
        -- exfalso. apply (I4 (N.to_nat j)); auto. lia.
        -- right. split; auto. lia.
  - eexists. split; [reflexivity|]. split; [constructor|]. intros j. cbn. split; [tauto|]. intros [J1 J2]. apply (I (N.to_nat j)); auto. lia.
Qed.
Lemma all_indices_spec : forall v s, valid v -> valid s -> contents s <> [] -> exists r, all_indices_of v s = Ok r /\ StronglySorted N.lt r /\
  forall j, In j r <-> occurs (contents s) (contents v) (N.to_nat j).
Proof.
  intros v s V S NE. unfold all_indices_of, vempty. pose proof (contents_length _ S) as LS.
  rewrite (proj2 (N.eqb_neq (vsize s) 0)) by (destruct (contents s); [contradiction|cbn in LS; lia]). cbn [negb contract bind].
  destruct (next_idx_spec v s 0 V S NE) as [nx [E1 E2]]; [lia|]. rewrite E1. cbn [bind].
  destruct (indices_loop_spec v s V S NE (Datatypes.S (N.to_nat (vsize v))) nx 0) as [r [R1 [R2 R3]]]; auto; try lia.
  exists r. split; auto. split; auto. intro j. rewrite R3. split; [tauto|]. split; auto. lia.
Qed.

(* ---- prefixes and suffixes ---- *)
Lemma starts_with_spec : forall v s, valid v -> valid s -> exists r, starts_with v s = Ok r /\ (r = true <-> exists t, contents v = contents s ++ t).
Proof.
  intros v s V S. unfold starts_with. pose proof (contents_length _ V) as LV. pose proof (contents_length _ S) as LS. destruct (N.leb_spec (vsize s) (vsize v)).
  - pose proof (subview_spec v 0 (vsize s) V (vsize_bound _ S)) as Q. rewrite (proj2 (N.leb_le _ _)) in Q by lia.
    destruct Q as [w [-> [W [_ E]]]]. cbn [bind]. destruct (veq_spec w s W S) as [r [R1 R2]]. exists r. split; auto. rewrite R2, E. cbn [skipn N.to_nat].
    rewrite <- LS. split.
    + intro Q. exists (skipn (length (contents s)) (contents v)). rewrite <- Q at 1. apply eq_sym, firstn_skipn.
    + intros [t ->]. rewrite firstn_app, firstn_all, Nat.sub_diag. cbn. apply app_nil_r.
  - eexists. split; [reflexivity|]. split; [discriminate|]. intros [t E]. apply (f_equal (@length N)) in E. rewrite app_length in E. lia.
Qed.
Lemma ends_with_spec : forall v s, valid v -> valid s -> exists r, ends_with v s = Ok r /\ (r = true <-> exists t, contents v = t ++ contents s).
Proof.
  intros v s V S. unfold ends_with. pose proof (contents_length _ V) as LV. pose proof (contents_length _ S) as LS. destruct (N.leb_spec (vsize s) (vsize v)).
  - pose proof (subview_spec v (vsize v - vsize s) (vsize s) V (vsize_bound _ S)) as Q. rewrite (proj2 (N.leb_le _ _)) in Q by lia.
    destruct Q as [w [-> [W [_ E]]]]. cbn [bind]. destruct (veq_spec w s W S) as [r [R1 R2]]. exists r. split; auto. rewrite R2, E.
    rewrite firstn_all2 by (rewrite skipn_length; lia). split.
    + intro Q. exists (firstn (N.to_nat (vsize v - vsize s)) (contents v)). rewrite <- Q. apply eq_sym, firstn_skipn.
    + intros [t T]. assert (Lt : N.to_nat (vsize v - vsize s) = length t) by (apply (f_equal (@length N)) in T; rewrite app_length in T; lia).
      rewrite Lt, T, skipn_app, skipn_all, Nat.sub_diag. auto.
  - eexists. split; [reflexivity|]. split; [discriminate|]. intros [t E]. apply (f_equal (@length N)) in E. rewrite app_length in E. lia.
Qed.

(* ---- trimming ---- *)
Lemma trim_start_loop_spec : forall p n v, valid v -> n = N.to_nat (vsize v) ->
  exists w, trim_start_loop p n v = Ok w /\ valid w /\ mem w = mem v /\ trimmed_start p (contents v) (contents w).
Proof.
  intros p. induction n; intros v V E; cbn [trim_start_loop].
  - exists v. split; auto. split; auto. split; auto. exists []. cbn. repeat split; auto. intros x t Q. pose proof (contents_length _ V) as L. rewrite Q in L. cbn in L. lia.
  - destruct (contents v) as [|x l] eqn:C; [pose proof (contents_length _ V) as L; rewrite C in L; cbn in L; lia|].
    rewrite (rd_at v 0 x l) by (split; auto). cbn [bind]. destruct (p x) eqn:PX.
    + destruct (sub_contents v 1 (N.of_nat n) V) as [V' Cw]; [lia|].
      destruct (IHn _ V') as [w [W1 [W2 [W3 [d [D1 [D2 D3]]]]]]]; [cbn; lia|]. exists w. split; auto. split; auto. split; auto.
      pose proof (contents_length _ V) as L. rewrite C in L. cbn [length] in L.
      exists (x :: d). rewrite Cw in D1. rewrite C in D1. cbn [skipn] in D1. change (N.to_nat 1) with 1 in D1. cbn [skipn] in D1.
      rewrite firstn_all2 in D1 by lia. cbn [app forallb]. rewrite D1, PX, D2. auto.
    + exists v. split; auto. split; auto. split; auto. exists []. cbn. repeat split; auto. intros y t Q. congruence.
Qed.
Lemma trim_end_loop_spec : forall p n v, valid v -> n = N.to_nat (vsize v) ->
  exists w, trim_end_loop p n v = Ok w /\ valid w /\ mem w = mem v /\ trimmed_end p (contents v) (contents w).
Proof.
  intros p. induction n; intros v V E; cbn [trim_end_loop]; pose proof (contents_length _ V) as L.
  - exists v. split; auto. split; auto. split; auto. exists []. rewrite app_nil_r. cbn. repeat split; auto. intros x t Q. rewrite Q, app_length in L. cbn in L. lia.
  - destruct (nth_error (contents v) n) as [x|] eqn:NE; [|apply nth_error_None in NE; lia].
    destruct (nth_at v (N.of_nat n) x V) as [t A]; [rewrite Nat2N.id; auto|]. rewrite (rd_at _ _ _ _ A). cbn [bind].
    assert (SP : contents v = firstn n (contents v) ++ [x]).
    { assert (SP : firstn (S n) (contents v) = firstn n (contents v) ++ [x]).
      { clear - NE. revert NE. generalize (contents v). induction n; intros [|y l] Q; try discriminate; cbn in *; [congruence|]. rewrite <- IHn by auto. auto. }
      rewrite <- SP. rewrite firstn_all2; auto. lia. }
    destruct (p x) eqn:PX.
    + destruct (sub_contents v 0 (N.of_nat n) V) as [V' Cw]; [lia|]. rewrite N.add_0_r in V', Cw.
      destruct (IHn _ V') as [w [W1 [W2 [W3 [d [D1 [D2 D3]]]]]]]; [cbn; lia|]. exists w. split; auto. split; auto. split; auto.
      exists (d ++ [x]). rewrite app_assoc, <- D1, Cw. cbn [skipn N.to_nat]. rewrite Nat2N.id. split; auto. rewrite forallb_app, D2. cbn. rewrite PX. auto.
    + exists v. split; auto. split; auto. split; auto. exists []. rewrite app_nil_r. cbn. repeat split; auto. intros y u Q. rewrite Q in SP.
      apply app_inj_tail in SP. destruct SP; subst; auto.
Qed.

(* ---- splitting ---- *)
Fixpoint takew (f : N -> bool) (l : list N) : list N := match l with x :: t => if f x then x :: takew f t else [] | [] => [] end.
Fixpoint dropw (f : N -> bool) (l : list N) : list N := match l with x :: t => if f x then dropw f t else l | [] => [] end.
Lemma takew_dropw : forall f l, takew f l ++ dropw f l = l.
Proof. induction l; cbn; auto. destruct (f a); cbn; congruence. Qed.
Lemma takew_forall : forall f l, forallb f (takew f l) = true.
Proof. induction l; cbn; auto. destruct (f a) eqn:E; cbn; auto. rewrite E. auto. Qed.
Lemma dropw_head : forall f l x t, dropw f l = x :: t -> f x = false.
Proof. induction l; cbn; intros; [discriminate|]. destruct (f a) eqn:E; eauto. congruence. Qed.

(* the pieces between separators *)
Fixpoint pieces (p : N -> bool) (l : list N) : list (list N) :=
  match l with
  | [] => [[]]
  | x :: t => if p x then [] :: pieces p t else match pieces p t with h :: r => (x :: h) :: r | [] => [[x]] end
  end.
Lemma pieces_ne : forall p l, pieces p l <> [].
Proof. induction l; cbn; try discriminate. destruct (p a); try discriminate. destruct (pieces p l); discriminate. Qed.
Lemma pieces_nosep : forall p h, forallb (fun x => negb (p x)) h = true -> pieces p h = [h].
Proof. induction h as [|x h IH]; cbn; auto. intro H. apply andb_true_iff in H. destruct H as [H1 H2]. destruct (p x); try discriminate. rewrite IH by auto. auto. Qed.
Lemma pieces_app : forall p h x t, forallb (fun y => negb (p y)) h = true -> p x = true -> pieces p (h ++ x :: t) = h :: pieces p t.
Proof.
  induction h as [|y h IH]; cbn; intros x t H X; [rewrite X; auto|].
  apply andb_true_iff in H. destruct H as [H1 H2]. destruct (p y); try discriminate. rewrite IH by auto. auto.
Qed.
Definition nonempty (l : list N) : bool := match l with [] => false | _ => true end.
Definition words (p : N -> bool) (l : list N) : list (list N) := filter nonempty (pieces p l).
Lemma words_skip : forall p d r, forallb p d = true -> words p (d ++ r) = words p r.
Proof. induction d as [|x d IH]; cbn; auto. intros r H. apply andb_true_iff in H. destruct H as [H1 H2]. unfold words in *. cbn. rewrite H1. cbn. auto. Qed.

Section SplitProofs.
  Variables (p : N -> bool) (v : view).
  Hypothesis V : valid v.
  Notation l := (contents v).

  Lemma advance_spec : forall b n c r, at_ v c r -> n = length r ->
    advance p v b n c = Ok (c + N.of_nat (length (takew (fun x => eqb (p x) b) r)))%N.
  Proof.
    induction n; intros c r A L; destruct r as [|x r]; try discriminate; cbn [advance takew length]; [f_equal; lia|].
    rewrite (rd_at _ _ _ _ A). cbn [bind]. destruct (eqb (p x) b); [|cbn; f_equal; lia].
    rewrite (IHn (c + 1)%N r); [|eapply at_next; eauto|cbn in L; lia]. f_equal. cbn [length]. lia.
  Qed.
  Lemma adv_spec : forall b c, (c <= vsize v)%N ->
    adv p v b c = Ok (c + N.of_nat (length (takew (fun x => eqb (p x) b) (skipn (N.to_nat c) l))))%N.
  Proof.
    intros b c H. unfold adv. apply advance_spec; [split; auto|]. rewrite skipn_length, contents_length by auto. lia.
  Qed.
  Lemma skip_take : forall f c, skipn (N.to_nat (c + N.of_nat (length (takew f (skipn (N.to_nat c) l))))) l = dropw f (skipn (N.to_nat c) l).
  Proof.
    intros f c. replace (N.to_nat _) with (N.to_nat c + length (takew f (skipn (N.to_nat c) l))) by lia. rewrite <- skipn_skipn.
    set (r := skipn (N.to_nat c) l). rewrite <- (takew_dropw f r) at 2. rewrite skipn_app, skipn_all, Nat.sub_diag. auto.
  Qed.
  Lemma take_bound : forall f c, (c <= vsize v)%N -> (c + N.of_nat (length (takew f (skipn (N.to_nat c) l))) <= vsize v)%N.
  Proof.
    intros f c H. pose proof (f_equal (@length N) (takew_dropw f (skipn (N.to_nat c) l))) as E. rewrite app_length, skipn_length, contents_length in E by auto. lia.
  Qed.
  Notation isnt := (fun x => eqb (p x) false).
  Notation is_ := (fun x => eqb (p x) true).
  Lemma isnt_neg : forall d, forallb isnt d = forallb (fun x => negb (p x)) d.
  Proof. reflexivity. Qed.
  Lemma is_pos : forall d, forallb is_ d = forallb p d.
  Proof. induction d as [|a d IH]; [reflexivity|]. cbn [forallb]. rewrite IH. destruct (p a); reflexivity. Qed.

  (* an iterator standing on the piece that starts at a *)
  Definition on_piece (a : N) : split_it := mkIt a (a + N.of_nat (length (takew isnt (skipn (N.to_nat a) l)))) false.
  Lemma deref_piece : forall a, (a <= vsize v)%N ->
    valid (split_deref v (on_piece a)) /\ contents (split_deref v (on_piece a)) = takew isnt (skipn (N.to_nat a) l).
  Proof.
    intros a H. unfold split_deref, on_piece. cbn [prev curr]. set (h := takew isnt (skipn (N.to_nat a) l)).
    pose proof (take_bound isnt a H) as B. fold h in B.
    replace (a + N.of_nat (length h) - a)%N with (N.of_nat (length h)) by lia.
    destruct (sub_contents v a (N.of_nat (length h)) V B) as [W E]. split; auto. rewrite E, Nat2N.id.
    rewrite <- (takew_dropw isnt (skipn (N.to_nat a) l)) at 1. fold h. rewrite firstn_app, firstn_all, Nat.sub_diag. cbn. apply app_nil_r.
  Qed.
  Lemma at_end : forall a, (a <= vsize v)%N -> (curr (on_piece a) =? vsize v)%N = match dropw isnt (skipn (N.to_nat a) l) with [] => true | _ => false end.
  Proof.
    intros a H. cbn [on_piece curr]. pose proof (f_equal (@length N) (takew_dropw isnt (skipn (N.to_nat a) l))) as E. rewrite app_length, skipn_length, contents_length in E by auto.
    destruct (dropw isnt (skipn (N.to_nat a) l)); cbn in E; [apply N.eqb_eq; lia|apply N.eqb_neq; lia].
  Qed.
  Lemma next_head : forall a x t, (a <= vsize v)%N -> dropw isnt (skipn (N.to_nat a) l) = x :: t ->
    p x = true /\ skipn (N.to_nat (curr (on_piece a) + 1)) l = t /\ (curr (on_piece a) + 1 <= vsize v)%N /\ (a < curr (on_piece a) + 1)%N.
  Proof.
    intros a x t H D. pose proof (dropw_head _ _ _ _ D) as X. cbn in X. split; [destruct (p x); auto; discriminate|].
    pose proof (skip_take isnt a) as E. rewrite D in E. split.
    - change (curr (on_piece a)) with (a + N.of_nat (length (takew isnt (skipn (N.to_nat a) l))))%N.
      replace (N.to_nat (_ + 1)) with (N.to_nat (a + N.of_nat (length (takew isnt (skipn (N.to_nat a) l)))) + 1) by lia.
      rewrite <- skipn_skipn, E. auto.
    - pose proof (f_equal (@length N) (takew_dropw isnt (skipn (N.to_nat a) l))) as L. rewrite app_length, skipn_length, contents_length, D in L by auto.
      cbn in L. cbn [on_piece curr]. lia.
  Qed.

  Lemma split_keep_loop : forall fuel a, (a <= vsize v)%N -> N.to_nat (vsize v - a) < fuel ->
    exists r, split_loop p false v fuel (on_piece a) = Ok r /\ Forall valid r /\ map contents r = pieces p (skipn (N.to_nat a) l).
  Proof.
    induction fuel; intros a H F; [lia|]. cbn [split_loop finished on_piece]. fold (on_piece a).
    destruct (deref_piece a H) as [DV DC]. unfold split_next. rewrite at_end by auto.
    pose proof (takew_dropw isnt (skipn (N.to_nat a) l)) as TD. pose proof (takew_forall isnt (skipn (N.to_nat a) l)) as TF. rewrite isnt_neg in TF.
    destruct (dropw isnt (skipn (N.to_nat a) l)) as [|x t] eqn:D.
    - cbn [bind]. rewrite app_nil_r in TD. assert (W : pieces p (skipn (N.to_nat a) l) = [takew isnt (skipn (N.to_nat a) l)]).
      { rewrite <- TD at 1. apply pieces_nosep. auto. }
      destruct fuel; cbn [split_loop finished bind]; eexists; (split; [reflexivity|]); (split; [constructor; auto|]); cbn [map]; rewrite DC, W; auto.
    - destruct (next_head a x t H D) as [X [SK [B LT]]]. cbn [bind andb]. rewrite adv_spec by auto. cbn [bind].
      destruct (IHfuel (curr (on_piece a) + 1)%N B) as [r [R1 [R2 R3]]]; [lia|].
      match goal with |- context [split_loop _ _ _ _ ?it] => change it with (on_piece (curr (on_piece a) + 1)) end.
      rewrite R1. cbn [bind]. eexists. split; [reflexivity|]. split; [constructor; auto|].
      cbn [map]. rewrite DC, R3, SK. symmetry. rewrite <- TD at 1. apply pieces_app; auto.
  Qed.
  Lemma split_keep_spec : exists r, split p false v = Ok r /\ Forall valid r /\ map contents r = match l with [] => [] | _ => pieces p l end.
  Proof.
    unfold split, split_begin. cbn [bind]. pose proof (contents_length _ V) as L. destruct (N.eqb_spec 0 (vsize v)) as [E|E].
    - cbn [bind split_loop finished]. exists []. assert (l = []) by (destruct l; auto; cbn in L; lia). rewrite H. auto.
    - rewrite adv_spec by lia. cbn [bind]. destruct (split_keep_loop (S (N.to_nat (vsize v))) 0) as [r [R1 [R2 R3]]]; [lia|lia|].
      unfold on_piece in R1. rewrite R1. exists r. split; auto. split; auto. rewrite R3. cbn [skipn N.to_nat]. destruct l; auto. cbn in L. lia.
  Qed.

  Lemma split_skip_loop : forall fuel a x t, (a <= vsize v)%N -> N.to_nat (vsize v - a) < fuel -> skipn (N.to_nat a) l = x :: t -> p x = false ->
    exists r, split_loop p true v fuel (on_piece a) = Ok r /\ Forall valid r /\ map contents r = words p (skipn (N.to_nat a) l).
  Proof.
    induction fuel; intros a x t H F HD PX; [lia|]. cbn [split_loop finished on_piece]. fold (on_piece a).
    destruct (deref_piece a H) as [DV DC]. unfold split_next. rewrite at_end by auto.
    pose proof (takew_dropw isnt (skipn (N.to_nat a) l)) as TD. pose proof (takew_forall isnt (skipn (N.to_nat a) l)) as TF. rewrite isnt_neg in TF.
    assert (HN : nonempty (takew isnt (skipn (N.to_nat a) l)) = true) by (rewrite HD; cbn; rewrite PX; auto).
    destruct (dropw isnt (skipn (N.to_nat a) l)) as [|y u] eqn:D.
    - cbn [bind]. rewrite app_nil_r in TD. assert (W : words p (skipn (N.to_nat a) l) = [takew isnt (skipn (N.to_nat a) l)]).
      { rewrite <- TD at 1. unfold words. rewrite pieces_nosep by auto. cbn. rewrite HN. auto. }
      destruct fuel; cbn [split_loop finished bind]; eexists; (split; [reflexivity|]); (split; [constructor; auto|]); cbn [map]; rewrite DC, W; auto.
    - destruct (next_head a y u H D) as [X [SK [B LT]]]. cbn [andb]. rewrite adv_spec by auto. cbn [bind].
      set (c := (curr (on_piece a) + 1)%N) in *.
      assert (W : words p (skipn (N.to_nat a) l) = takew isnt (skipn (N.to_nat a) l) :: words p u).
      { rewrite <- TD at 1. unfold words. rewrite pieces_app by auto. cbn [filter]. rewrite HN. auto. }
      pose proof (skip_take is_ c) as SC. pose proof (take_bound is_ c B) as BC. rewrite SK in SC, BC |- *.
      pose proof (takew_dropw is_ u) as TDu. pose proof (takew_forall is_ u) as TFu. rewrite is_pos in TFu.
      assert (Wu : words p u = words p (dropw is_ u)) by (rewrite <- TDu at 1; apply words_skip; auto).
      set (c' := (c + N.of_nat (length (takew is_ u)))%N) in *.
      destruct (N.eqb_spec c' (vsize v)) as [E|E].
      + cbn [bind]. assert (DN : dropw is_ u = []) by (rewrite <- SC, E; apply skipn_all2; rewrite contents_length by auto; lia).
        rewrite DN in Wu. destruct fuel; cbn [split_loop finished bind]; eexists; (split; [reflexivity|]); (split; [constructor; auto|]); cbn [map]; rewrite DC, W, Wu; auto.
      + destruct (dropw is_ u) as [|z q] eqn:DU; [exfalso; apply (f_equal (@length N)) in SC; rewrite skipn_length, contents_length in SC by auto; cbn in SC; lia|].
        pose proof (dropw_head _ _ _ _ DU) as PZ. cbn in PZ. assert (PZ' : p z = false) by (destruct (p z); auto; discriminate).
        rewrite adv_spec by lia. cbn [bind]. destruct (IHfuel c' z q) as [r [R1 [R2 R3]]]; auto; [lia|].
        match goal with |- context [split_loop _ _ _ _ ?it] => change it with (on_piece c') end. rewrite R1. cbn [bind]. eexists. split; [reflexivity|]. split; [constructor; auto|].
        cbn [map]. rewrite DC, R3, W, Wu, SC. auto.
  Qed.
  Lemma split_skip_spec : exists r, split p true v = Ok r /\ Forall valid r /\ map contents r = words p l.
  Proof.
    unfold split, split_begin. rewrite adv_spec by lia. cbn [bind skipn N.to_nat]. pose proof (contents_length _ V) as L.
    pose proof (skip_take is_ 0) as SC. pose proof (take_bound is_ 0 ltac:(lia)) as BC. cbn [skipn N.to_nat] in SC, BC.
    pose proof (takew_dropw is_ l) as TD. pose proof (takew_forall is_ l) as TF. rewrite is_pos in TF.
    assert (W : words p l = words p (dropw is_ l)) by (rewrite <- TD at 1; apply words_skip; auto).
    set (c := (0 + N.of_nat (length (takew is_ l)))%N) in *. destruct (N.eqb_spec c (vsize v)) as [E|E].
    - cbn [bind split_loop finished]. exists []. assert (DN : dropw is_ l = []) by (rewrite <- SC, E; apply skipn_all2; lia). rewrite W, DN. auto.
    - destruct (dropw is_ l) as [|z q] eqn:DU; [exfalso; apply (f_equal (@length N)) in SC; rewrite skipn_length in SC; cbn in SC; lia|].
      pose proof (dropw_head _ _ _ _ DU) as PZ. cbn in PZ. assert (PZ' : p z = false) by (destruct (p z); auto; discriminate).
      rewrite adv_spec by lia. cbn [bind]. destruct (split_skip_loop (S (N.to_nat (vsize v))) c z q) as [r [R1 [R2 R3]]]; auto; [lia|].
      match goal with |- context [split_loop _ _ _ _ ?it] => change it with (on_piece c) end. rewrite R1. exists r. split; auto. split; auto. rewrite R3, W, SC. auto.
  Qed.
End SplitProofs.

(* ---- order ---- *)
Fixpoint lexb (ltb : N -> N -> bool) (a b : list N) : bool :=
  match a, b with
  | _, [] => false
  | [], _ :: _ => true
  | x :: a, y :: b => if (x =? y)%N then lexb ltb a b else ltb x y
  end.
Lemma lexb_lex : forall ltb, (forall x, ltb x x = false) -> forall a b, lexb ltb a b = true <-> lex (fun x y => ltb x y = true) a b.
Proof.
  intros ltb IR. induction a as [|x a IH]; intros [|y b]; cbn; split; intro H; try discriminate; auto.
  - destruct H as [[q [x [y [s [t [E _]]]]]]|[y [t E]]]; [destruct q; discriminate|discriminate].
  - right. exists y, b. auto.
  - destruct H as [[q [x' [y [s [t [_ [E _]]]]]]]|[y [t E]]]; [destruct q|]; discriminate.
  - destruct (N.eqb_spec x y) as [->|NE].
    + apply IH in H. destruct H as [[q [x' [y' [s [t [-> [-> L]]]]]]]|[y' [t ->]]].
      * left. exists (y :: q), x', y', s, t. auto.
      * right. exists y', t. auto.
    + left. exists [], x, y, a, b. auto.
  - destruct H as [[q [x' [y' [s [t [E1 [E2 L]]]]]]]|[y' [t E]]].
    + destruct q as [|z q]; injection E1 as -> ->; injection E2 as -> ->.
      * destruct (N.eqb_spec x' y'); auto. subst. congruence.
      * rewrite N.eqb_refl. apply IH. left. exists q, x', y', s, t. auto.
    + injection E as -> ->. rewrite N.eqb_refl. apply IH. right. exists y', t. auto.
Qed.
Lemma lex_loop_spec : forall n i a b la lb, at_ a i la -> at_ b i lb -> n = Nat.min (length la) (length lb) ->
  (N.of_nat (length la) + i = vsize a)%N -> (N.of_nat (length lb) + i = vsize b)%N ->
  lex_loop n i a b = Ok (lexb (fun x y => (schar x <? schar y)%Z) la lb).
Proof.
  induction n; intros i a b la lb A B M SA SB; cbn [lex_loop].
  - destruct la as [|x la]; [|destruct lb; [|discriminate]].
    + destruct lb; cbn [lexb length] in *; f_equal; [apply N.ltb_ge|apply N.ltb_lt]; lia.
    + cbn [lexb length] in *. f_equal. apply N.ltb_ge. lia.
  - destruct la as [|x la]; [discriminate|]. destruct lb as [|y lb]; [discriminate|].
    rewrite (rd_at _ _ _ _ A), (rd_at _ _ _ _ B). cbn [bind lexb]. destruct (N.eqb_spec x y); cbn [negb]; auto.
    apply IHn; try (eapply at_next; eauto); cbn [length] in *; lia.
Qed.
Lemma lex_less_spec : forall a b, valid a -> valid b -> lex_less a b = Ok (lexb (fun x y => (schar x <? schar y)%Z) (contents a) (contents b)).
Proof.
  intros a b A B. unfold lex_less. apply lex_loop_spec; try apply at0; auto; rewrite ?contents_length by auto; lia.
Qed.
Lemma strncmp_spec : forall n i a b la lb, at_ a i la -> at_ b i lb -> n = Nat.min (length la) (length lb) ->
  Forall (fun c => c <> 0%N) la -> Forall (fun c => c <> 0%N) lb ->
  exists c, strncmp n i a b = Ok c /\
    match c with
    | Eq => firstn n la = firstn n lb
    | Lt => lexb N.ltb la lb = true /\ firstn n la <> firstn n lb
    | Gt => lexb N.ltb la lb = false /\ firstn n la <> firstn n lb
    end.
Proof.
  induction n; intros i a b la lb A B M FA FB; cbn [strncmp].
  - eexists. split; [reflexivity|]. reflexivity.
  - destruct la as [|x la]; [discriminate|]. destruct lb as [|y lb]; [discriminate|].
    rewrite (rd_at _ _ _ _ A), (rd_at _ _ _ _ B). cbn [bind lexb firstn]. destruct (N.eqb_spec x y) as [->|NE]; cbn [negb].
    + rewrite (proj2 (N.eqb_neq y 0)) by (inversion FA; auto). inversion FA; inversion FB; subst.
      destruct (IHn (i + 1)%N a b la lb) as [c [C1 C2]]; auto; try (eapply at_next; eauto); try (cbn in M; lia).
      exists c. split; auto. destruct c; [congruence| |]; destruct C2; split; auto; congruence.
    + eexists. split; [reflexivity|]. destruct (N.compare_spec x y); [congruence| |]; (split; [|congruence]);
        [apply N.ltb_lt|apply N.ltb_ge]; lia.
Qed.
Lemma lexb_prefix : forall ltb la lb, firstn (Nat.min (length la) (length lb)) la = firstn (Nat.min (length la) (length lb)) lb ->
  lexb ltb la lb = (length la <? length lb).
Proof.
  induction la as [|x la IH]; intros [|y lb] E; cbn in *; auto. injection E as -> E. rewrite N.eqb_refl. rewrite IH by auto. auto.
Qed.
Lemma ascii_less_spec : forall a b, valid a -> valid b -> Forall (fun c => c <> 0%N) (contents a) -> Forall (fun c => c <> 0%N) (contents b) ->
  ascii_less a b = Ok (lexb N.ltb (contents a) (contents b)).
Proof.
  intros a b A B FA FB. unfold ascii_less. pose proof (contents_length _ A) as LA. pose proof (contents_length _ B) as LB.
  destruct (strncmp_spec (N.to_nat (N.min (vsize a) (vsize b))) 0 a b (contents a) (contents b)) as [c [-> C]]; auto; try apply at0; auto; [lia|].
  cbn [bind]. f_equal. destruct c; [|destruct C as [-> _]; auto|destruct C as [-> _]; auto].
  rewrite lexb_prefix by (replace (Nat.min _ _) with (N.to_nat (N.min (vsize a) (vsize b))) by lia; auto).
  rewrite LA, LB. destruct (N.ltb_spec (vsize a) (vsize b)), (Nat.ltb_spec (N.to_nat (vsize a)) (N.to_nat (vsize b))); auto; lia.
Qed.

(* ---- facts about pieces ---- *)
Lemma pieces_clean : forall p l, Forall (fun q => forallb (fun x => negb (p x)) q = true) (pieces p l).
Proof.
  induction l as [|x l IH]; cbn; [repeat constructor|]. destruct (p x) eqn:E; [constructor; auto|].
  destruct (pieces p l); inversion IH; subst; constructor; cbn; rewrite ?E; auto.
Qed.
Lemma pieces_count : forall p l, length (pieces p l) = S (length (filter p l)).
Proof.
  induction l as [|x l IH]; cbn; auto. destruct (p x) eqn:E; cbn; auto.
  pose proof (pieces_ne p l). destruct (pieces p l); cbn in *; congruence.
Qed.
Lemma pieces_interleave : forall p l, interleave (pieces p l) (filter p l) = l.
Proof.
  induction l as [|x l IH]; cbn; auto. destruct (p x) eqn:E; cbn; [congruence|].
  pose proof (pieces_ne p l). destruct (pieces p l) as [|h r]; [contradiction|]. cbn in IH |- *. destruct (filter p l); cbn in *; congruence.
Qed.
Lemma join_interleave : forall c ps cs, length ps = S (length cs) -> Forall (fun x => x = c) cs -> interleave ps cs = join c ps.
Proof.
  induction ps as [|q ps IH]; intros cs L F; [discriminate|]. destruct cs as [|d cs]; cbn in *.
  - destruct ps; auto. discriminate.
  - inversion F; subst. rewrite IH by (auto; lia). destruct ps; auto. cbn in L. lia.
Qed.
Lemma pieces_join : forall c l, join c (pieces (N.eqb c) l) = l.
Proof.
  intros. rewrite <- (join_interleave c _ (filter (N.eqb c) l)).
  - apply pieces_interleave.
  - apply pieces_count.
  - apply Forall_forall. intros x X. apply filter_In in X. destruct X as [_ X]. apply N.eqb_eq in X. auto.
Qed.

(* Proofs for Flag. *)
From Coq Require Import NArith Arith List Bool String Sorting.Sorted Lia.
From Verif Require Import Base BitsModel BitsSpec BitsProofs BSetProofs FlagModel FlagSpec.
Import ListNotations.
Local Open Scope list_scope.
Local Open Scope N_scope.

Lemma width_small : forall w e, any_width w -> e < w -> e < 2 ^ w.
Proof. intros w e W H. eapply N.lt_trans; [exact H|]. apply N.pow_gt_lin_r. lia. Qed.
Lemma stored_ok : forall w e, any_width w -> fits w e -> stored w e = Ok (2 ^ e).
Proof.
  intros w e W (H & F). unfold stored. rewrite wrap_small by (apply width_small; auto). destruct (N.ltb_spec e 31).
  - rewrite wrap_small; auto. apply N.pow_lt_mono_r; lia.
  - assert (E : e = 31 /\ w = 32) by (destruct W as [->|[->|[->| ->]]]; lia). destruct E as (-> & ->). reflexivity.
Qed.
Lemma bits_lt : forall w v, (forall e, w <= e -> N.testbit v e = false) -> v < 2 ^ w.
Proof.
  intros w v H. assert (E : v = wrap w v).
  { apply N.bits_inj. intro e. rewrite testbit_wrap. destruct (N.ltb_spec e w); auto. }
  rewrite E. apply N.mod_lt. apply N.pow_nonzero. lia.
Qed.
Lemma testbit_pow2_iff : forall f e, N.testbit (2 ^ f) e = true <-> e = f.
Proof. intros. rewrite testbit_pow2, N.eqb_eq. split; auto. Qed.
Lemma or_all_ok : forall w, any_width w -> forall es acc, Forall (fits w) es ->
  exists v, or_all w acc es = Ok v /\ forall e, N.testbit v e = true <-> N.testbit acc e = true \/ In e es.
Proof.
  intros w W. induction es as [|f es IH]; intros acc F; cbn [or_all].
  - exists acc. split; auto. intro e. cbn. tauto.
  - inversion F; subst. rewrite stored_ok by auto. cbn [bind]. destruct (IH (N.lor acc (2 ^ f)) H2) as (v & E & B). exists v. split; auto.
    intro e. rewrite B, N.lor_spec, orb_true_iff, testbit_pow2_iff. cbn. intuition.
Qed.
Lemma eval_ok : forall w x, any_width w -> Forall (fits w) (enumerators x) -> exists v, eval w x = Ok v /\ represents w v (member x).
Proof.
  intros w x W F.
  assert (X : exists v, eval w x = Ok v /\ forall e, N.testbit v e = true <-> member x e).
  { induction x; cbn [eval member enumerators] in *.
    - exists 0. split; auto. intro e. rewrite N.bits_0. split; [discriminate|tauto].
    - inversion F; subst. rewrite stored_ok by auto. cbn [bind]. destruct (or_all_ok w W es (2 ^ e) H2) as (v & E & B). exists v. split; auto.
      intro f. rewrite B, testbit_pow2_iff. cbn. intuition.
    - apply Forall_app in F. destruct F as (F1 & F2). destruct (IHx1 F1) as (v1 & -> & B1), (IHx2 F2) as (v2 & -> & B2). cbn [bind].
      eexists. split; [reflexivity|]. intro e. rewrite N.lor_spec, orb_true_iff, B1, B2. tauto.
    - inversion F; subst. destruct (IHx H2) as (v1 & -> & B1). rewrite stored_ok by auto. cbn [bind].
      eexists. split; [reflexivity|]. intro f. rewrite N.lor_spec, orb_true_iff, B1, testbit_pow2_iff. tauto.
    - apply Forall_app in F. destruct F as (F1 & F2). destruct (IHx1 F1) as (v1 & -> & B1), (IHx2 F2) as (v2 & -> & B2). cbn [bind].
      eexists. split; [reflexivity|]. intro e. rewrite N.land_spec, andb_true_iff, B1, B2. tauto.
    - inversion F; subst. destruct (IHx H2) as (v1 & -> & B1). rewrite stored_ok by auto. cbn [bind].
      eexists. split; [reflexivity|]. intro f. rewrite N.land_spec, andb_true_iff, B1, testbit_pow2_iff. tauto. }
  destruct X as (v & E & B). exists v. split; auto. split; auto. apply bits_lt. intros e L.
  destruct (N.testbit v e) eqn:T; auto. apply B in T. exfalso. assert (Y : In e (enumerators x)).
  { clear -T. induction x; cbn in *; auto; rewrite ?in_app_iff; tauto || (destruct T as [T|T]; auto; tauto) || (destruct T; auto). }
  rewrite Forall_forall in F. destruct (F _ Y). lia.
Qed.

Section Queries.
  Variables (w : N) (W : any_width w).
  Lemma has_ok : forall v s e, represents w v s -> fits w e -> exists b, has w v e = Ok b /\ (b = true <-> s e).
  Proof.
    intros v s e (_ & B) F. unfold has. rewrite stored_ok by auto. cbn [bind]. rewrite land_pow2, negb_involutive. eauto.
  Qed.
  Lemma zero_iff : forall v, (v =? 0) = false <-> exists e, N.testbit v e = true.
  Proof.
    intro v. split.
    - intro H. apply N.eqb_neq in H. exists (N.log2 v). apply N.bit_log2. auto.
    - intros (e & H). apply N.eqb_neq. intros ->. rewrite N.bits_0 in H. discriminate.
  Qed.
  Lemma has_any_ok : forall v s, represents w v s -> (has_any v = true <-> exists e, s e).
  Proof.
    intros v s (_ & B). unfold has_any. rewrite negb_true_iff, zero_iff. split; intros (e & H); exists e; apply B; auto.
  Qed.
  Lemma has_any_of_ok : forall v f s t, represents w v s -> represents w f t -> (has_any_of v f = true <-> exists e, s e /\ t e).
  Proof.
    intros v f s t (_ & B) (_ & C). unfold has_any_of. rewrite negb_true_iff, zero_iff.
    split; intros (e & H); exists e; rewrite N.land_spec, andb_true_iff, B, C in *; auto.
  Qed.
  Lemma has_all_of_ok : forall v f s t, represents w v s -> represents w f t -> (has_all_of v f = true <-> forall e, t e -> s e).
  Proof.
    intros v f s t (_ & B) (_ & C). unfold has_all_of. rewrite N.eqb_eq. split.
    - intros H e T. apply C in T. rewrite <- H, N.land_spec, andb_true_iff in T. apply B. tauto.
    - intro H. apply N.bits_inj. intro e. rewrite N.land_spec. destruct (N.testbit f e) eqn:T; [|apply andb_false_r].
      apply C, H, B in T. rewrite T. auto.
  Qed.
  Lemma eq_ok : forall v f s t, represents w v s -> represents w f t -> (eq v f = true <-> forall e, s e <-> t e).
  Proof.
    intros v f s t (_ & B) (_ & C). unfold eq. rewrite N.eqb_eq. split.
    - intros -> e. rewrite <- B, <- C. tauto.
    - intro H. apply N.bits_inj. intro e. destruct (N.testbit v e) eqn:X, (N.testbit f e) eqn:Y; auto.
      + apply B, H, C in X. congruence.
      + apply C, H, B in Y. congruence.
  Qed.
  Lemma eq_enum_ok : forall v s e, represents w v s -> fits w e -> exists b, eq_enum w v e = Ok b /\ (b = true <-> forall f, s f <-> f = e).
  Proof.
    intros v s e R F. unfold eq_enum. rewrite stored_ok by auto. cbn [bind]. eexists. split; [reflexivity|].
    apply (eq_ok v (2 ^ e) s (fun f => f = e)); auto. split; [apply N.pow_lt_mono_r; destruct F; lia|]. intro f. rewrite testbit_pow2_iff. tauto.
  Qed.

  Lemma count_one : forall (f : nat -> bool) l, NoDup l -> (List.length (filter f l) = 1%nat <-> exists i, In i l /\ f i = true /\ forall j, In j l -> f j = true -> j = i).
  Proof.
    intros f l N. split.
    - intro H. destruct (filter f l) as [|i [|j m]] eqn:E; try discriminate. assert (I : In i (filter f l)) by (rewrite E; cbn; auto).
      apply filter_In in I. exists i. split; [tauto|]. split; [tauto|]. intros j J1 J2. assert (K : In j (filter f l)) by (apply filter_In; auto).
      rewrite E in K. cbn in K. intuition.
    - intros (i & I & F & U). assert (N2 : NoDup (filter f l)) by (apply NoDup_filter; auto).
      destruct (filter f l) as [|a [|b m]] eqn:E; auto.
      + assert (K : In i (filter f l)) by (apply filter_In; auto). rewrite E in K. contradiction.
      + assert (A : In a (filter f l)) by (rewrite E; cbn; auto). assert (B : In b (filter f l)) by (rewrite E; cbn; auto).
        apply filter_In in A, B. rewrite (U a), (U b) in N2 by tauto. inversion N2; subst. exfalso. apply H1. cbn. auto.
  Qed.
  Lemma single_ok : forall v s, represents w v s ->
    (is_single v = true <-> exists e, forall f, s f <-> f = e) /\ (forall e, (forall f, s f <-> f = e) -> single w v = Ok e) /\ (is_single v = false -> single w v = Contract).
  Proof.
    intros v s (L & B).
    assert (X : is_single v = true <-> exists e, forall f, s f <-> f = e).
    { unfold is_single. rewrite N.eqb_eq, (popcount_spec w v L). unfold bit_count. split.
      - intro H. assert (C : List.length (filter (fun i => N.testbit v (N.of_nat i)) (seq 0 (N.to_nat w))) = 1%nat) by lia.
        apply count_one in C; [|apply seq_NoDup]. destruct C as (i & I & T & U). exists (N.of_nat i). intro f. rewrite <- B. split; [|intros ->; auto].
        intro F. assert (f < w). { destruct (N.lt_ge_cases f w); auto. rewrite (word_testbit w v f) in F by auto. discriminate. }
        assert (Y : N.to_nat f = i) by (apply U; [apply in_seq; lia|rewrite N2Nat.id; auto]). lia.
      - intros (e & H). assert (T : N.testbit v e = true) by (apply B, H; auto).
        assert (e < w). { destruct (N.lt_ge_cases e w); auto. rewrite (word_testbit w v e) in T by auto. discriminate. }
        assert (C : List.length (filter (fun i => N.testbit v (N.of_nat i)) (seq 0 (N.to_nat w))) = 1%nat); [|lia].
        apply count_one; [apply seq_NoDup|]. exists (N.to_nat e). split; [apply in_seq; lia|]. rewrite N2Nat.id. split; auto.
        intros j _ J. apply B, H in J. lia. }
    split; auto. split; [|unfold single; intros ->; auto].
    intros e H. unfold single. assert (Y : is_single v = true) by (apply X; eauto). rewrite Y. cbn [contract bind]. f_equal.
    assert (P : 0 < v). { destruct v; [|lia]. assert (T : N.testbit 0 e = true) by (apply B, H; auto). rewrite N.bits_0 in T. discriminate. }
    destruct (ctz_spec w v P) as (T & _). apply B, H in T. auto.
  Qed.

  (* iteration *)
  Lemma iter_bit_ok : forall i, i < w -> (w <= 32 \/ i < 31) -> iter_bit w i = Ok (2 ^ i).
  Proof.
    intros i H F. unfold iter_bit. destruct (N.ltb_spec i 31); auto. assert (E : i = 31 /\ w = 32) by (destruct W as [->|[->|[->| ->]]]; lia).
    destruct E as (-> & ->). reflexivity.
  Qed.
  Lemma skip_ok : forall v last, last <= w -> (w <= 32 \/ last <= 31) -> forall fuel curr, curr <= last -> (N.to_nat (last - curr) < fuel)%nat ->
    exists r, skip fuel w v curr last = Ok r /\ curr <= r <= last /\ (forall j, curr <= j < r -> N.testbit v j = false) /\ (r = last \/ N.testbit v r = true).
  Proof.
    intros v last L F. induction fuel as [|fuel IH]; intros curr C U; [lia|]. cbn [skip]. destruct (N.ltb_spec curr last).
    - rewrite iter_bit_ok by lia. cbn [bind]. rewrite land_pow2. destruct (N.testbit v curr) eqn:T; cbn [negb].
      + exists curr. split; auto. split; [lia|]. split; [intros; lia|auto].
      + destruct (IH (curr + 1)) as (r & E & R & B & S); [lia|lia|]. exists r. split; auto. split; [lia|]. split; auto.
        intros j J. destruct (N.eq_dec j curr) as [->|]; auto. apply B. lia.
    - exists curr. split; auto. split; [lia|]. split; [intros; lia|left; lia].
  Qed.
  Lemma loop_ok : forall v last, last <= w -> (w <= 32 \/ last <= 31) -> forall fuel curr, curr <= last -> (N.to_nat (last - curr) < fuel)%nat -> (curr = last \/ N.testbit v curr = true) ->
    exists l, loop fuel w v curr last = Ok l /\ lists l (fun e => curr <= e < last /\ N.testbit v e = true).
  Proof.
    intros v last L F. induction fuel as [|fuel IH]; intros curr C U S; [lia|]. cbn [loop]. destruct (N.eqb_spec curr last) as [->|N].
    - exists []. split; auto. split; [constructor|]. intro e. cbn. split; [tauto|lia].
    - destruct S as [S|S]; [congruence|].
      destruct (skip_ok v last L F (Datatypes.S (N.to_nat w)) (curr + 1)) as (r & E & R & B & T); [lia|lia|]. rewrite E. cbn [bind].
      destruct (IH r) as (l & El & SS & M); [lia|lia|auto|]. rewrite El. cbn [bind]. exists (curr :: l). split; auto. split.
      + constructor; auto. apply Forall_forall. intros e I. apply M in I. lia.
      + intro e. cbn [In]. rewrite M. split.
        * intros [<-|I]; [split; auto; lia|]. destruct I. split; auto. lia.
        * intros (I & Te). destruct (N.eq_dec curr e) as [->|]; auto. right. split; auto. split; [|lia].
          destruct (N.lt_ge_cases e r); auto. rewrite B in Te by lia. discriminate.
  Qed.
  Lemma iterate_ok : forall v s, represents w v s -> (w <= 32 \/ v < 2 ^ 31) -> exists l, iterate w v = Ok l /\ lists l s.
  Proof.
    intros v s (L & B) F. unfold iterate. destruct (N.eqb_spec v 0) as [->|N].
    - exists []. split; [destruct W as [->|[->|[->| ->]]]; reflexivity|]. split; [constructor|]. intro e. rewrite <- B, N.bits_0. cbn. split; [tauto|discriminate].
    - assert (P : 0 < v) by lia. destruct (clz_spec w v W L P) as (C1 & C2 & C3). destruct (ctz_spec w v P) as (Z1 & Z2).
      set (c := count_leading_zeros w v) in *. set (z := count_trailing_zeros w v) in *. clearbody c z.
      assert (ZC : z <= w - 1 - c) by (destruct (N.le_gt_cases z (w - 1 - c)); auto; rewrite C3 in Z1 by lia; discriminate).
      assert (LL : w <= 32 \/ w - c <= 31).
      { destruct F as [F|F]; auto. right. destruct (N.le_gt_cases (w - c) 31); auto. rewrite (word_testbit 31 v (w - 1 - c)) in C2 by (auto; lia). discriminate. }
      destruct (loop_ok v (w - c) ltac:(lia) LL (S (N.to_nat w)) z) as (l & E & S & M); [lia|lia|auto|]. exists l. split; auto. split; auto.
      intro e. rewrite M, <- B. split; [tauto|]. intro T. split; auto. split.
      + destruct (N.le_gt_cases z e); auto. rewrite Z2 in T by auto. discriminate.
      + destruct (N.lt_ge_cases e (w - c)); auto. rewrite C3 in T by lia. discriminate.
  Qed.
End Queries.

(* to_string *)
Local Open Scope string_scope.
Lemma app_assoc_s : forall a b c, (a ++ b) ++ c = a ++ (b ++ c).
Proof. induction a; intros; cbn; auto. f_equal. auto. Qed.
Fixpoint tail (l : list string) : string := match l with [] => "" | a :: l => ", " ++ a ++ tail l end.
Lemma join_tail : forall l a, join (a :: l) = a ++ tail l.
Proof.
  induction l as [|b l IH]; intro a.
  - cbn. induction a as [|x a IH]; cbn; auto. f_equal. auto.
  - change (join (a :: b :: l)) with (a ++ ", " ++ join (b :: l)). rewrite IH. auto.
Qed.
Definition body (first : bool) (l : list string) : string := if first then join l else tail l.
Lemma print_ok : forall name w v, any_width w -> forall is first s, (forall i, In i is -> fits w (N.of_nat i)) ->
  print name w v first s is = Ok (s ++ body first (map (fun i => name (N.of_nat i)) (filter (fun i => N.testbit v (N.of_nat i)) is)) ++ "}").
Proof.
  intros name w v W. induction is as [|i is IH]; intros first s F; cbn [print filter map].
  - destruct first; auto.
  - unfold has. rewrite stored_ok by (auto; apply F; cbn; auto). cbn [bind]. rewrite land_pow2, negb_involutive.
    assert (F2 : forall j, In j is -> fits w (N.of_nat j)) by (intros; apply F; cbn; auto).
    destruct (N.testbit v (N.of_nat i)); rewrite IH by auto; auto. cbn [map]. f_equal. destruct first; cbn [body].
    + rewrite join_tail, !app_assoc_s. auto.
    + cbn [tail]. rewrite !app_assoc_s. auto.
Qed.
Lemma filter_sorted : forall (f : nat -> bool) l, StronglySorted lt l -> StronglySorted lt (filter f l).
Proof.
  intros f l H. induction H as [|a l S IH F]; cbn; [constructor|]. destruct (f a); auto. constructor; auto.
  apply Forall_forall. intros x X. apply filter_In in X. rewrite Forall_forall in F. apply F. tauto.
Qed.
Lemma seq_sorted : forall n a, StronglySorted lt (seq a n).
Proof.
  induction n as [|n IH]; intro a; cbn; constructor; auto. apply Forall_forall. intros x X. apply in_seq in X. lia.
Qed.
Lemma map_sorted : forall l, StronglySorted lt l -> StronglySorted N.lt (map N.of_nat l).
Proof.
  intros l H. induction H as [|a l S IH F]; cbn; constructor; auto. apply Forall_forall. intros x X. apply in_map_iff in X. destruct X as (y & <- & Y).
  rewrite Forall_forall in F. specialize (F _ Y). lia.
Qed.
Lemma sorted_unique : forall l m, StronglySorted N.lt l -> StronglySorted N.lt m -> (forall e, In e l <-> In e m) -> l = m.
Proof.
  induction l as [|a l IH]; intros [|b m] S T H; auto.
  - exfalso. apply (H b). cbn. auto.
  - exfalso. apply (H a). cbn. auto.
  - inversion S as [|? ? S1 F1]; subst. inversion T as [|? ? T1 F2]; subst. rewrite Forall_forall in F1, F2.
    assert (E : a = b).
    { assert (A : In a (b :: m)) by (apply H; cbn; auto). assert (B : In b (a :: l)) by (apply H; cbn; auto).
      destruct A as [A|A]; auto. destruct B as [B|B]; auto. specialize (F1 _ B). specialize (F2 _ A). lia. }
    subst b. f_equal. apply IH; auto. intro e. split; intro I.
    + assert (A : In e (a :: m)) by (apply H; cbn; auto). destruct A as [<-|A]; auto. specialize (F1 _ I). lia.
    + assert (A : In e (a :: l)) by (apply H; cbn; auto). destruct A as [<-|A]; auto. specialize (F2 _ I). lia.
Qed.
Lemma to_string_ok : forall name w bits v s l, any_width w -> (bits <= w)%N -> (w <= 32)%N -> represents w v s -> (forall e, s e -> (e < bits)%N) ->
  lists l s -> to_string name w bits v = Ok (braced (map name l)).
Proof.
  intros name w bits v s l W Lb W32 (_ & B) M (S & I). unfold to_string.
  assert (FF : forall i, In i (seq 0 (N.to_nat bits)) -> fits w (N.of_nat i)) by (intros i X; apply in_seq in X; split; [lia|auto]).
  rewrite (print_ok name w v W _ _ _ FF). cbn [body].
  unfold braced. do 2 f_equal. rewrite <- (map_map N.of_nat name). do 3 f_equal. apply sorted_unique; auto.
  - apply map_sorted, filter_sorted, seq_sorted.
  - intro e. rewrite I, in_map_iff. split.
    + intros (i & <- & X). apply filter_In in X. apply B. tauto.
    + intro X. exists (N.to_nat e). rewrite N2Nat.id. split; auto. apply filter_In. rewrite N2Nat.id. split; [|apply B; auto].
      apply in_seq. specialize (M _ X). lia.
Qed.

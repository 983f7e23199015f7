From Coq Require Import NArith List Bool Arith Lia Sorting.Permutation Sorting.Sorted.
From Verif Require Import Base RadixModel.
Import ListNotations.
Open Scope nat_scope.

Definition in_bucket (s : N) (k : nat) (x : N) : bool := (key s x =? k).
Definition bucket (s : N) (l : list N) (k : nat) : list N := filter (in_bucket s k) l.
Definition buckets (s : N) (l : list N) : list N := concat (map (bucket s l) (seq 0 256)).

Lemma key_lt : forall s x, key s x < 256.
Proof.
  intros s x. unfold key. change 0xff%N with (N.ones 8). rewrite N.land_ones. assert (L := N.mod_lt (N.shiftr x s) (2 ^ 8)). change (2 ^ 8)%N with 256%N in *. lia.
Qed.
Lemma bucket_app : forall s a b k, bucket s (a ++ b) k = bucket s a k ++ bucket s b k.
Proof. intros. apply filter_app. Qed.

(* ---- counting ---- *)
Definition counts (s : N) (l : list N) : list nat := map (fun k => length (bucket s l k)) (seq 0 256).
Lemma counts_nth : forall s l k, k < 256 -> nth_error (counts s l) k = Some (length (bucket s l k)).
Proof. intros s l k H. unfold counts. rewrite nth_error_map, nth_error_nth' with (d := 0) by (rewrite seq_length; lia). cbn [option_map]. now rewrite seq_nth. Qed.
Lemma counts_length : forall s l, length (counts s l) = 256.
Proof. intros. unfold counts. now rewrite map_length, seq_length. Qed.
Lemma bucket_snoc : forall s l x k, bucket s (l ++ [x]) k = if key s x =? k then bucket s l k ++ [x] else bucket s l k.
Proof. intros s l x k. rewrite bucket_app. unfold bucket at 2, in_bucket. cbn. destruct (key s x =? k); auto. apply app_nil_r. Qed.
Lemma counts_snoc : forall s l x, counts s (l ++ [x]) = lset (counts s l) (key s x) (S (length (bucket s l (key s x)))).
Proof.
  intros s l x. apply nth_ext_err. intro k. rewrite lset_nth, counts_length. pose proof (key_lt s x). destruct (Nat.ltb_spec (key s x) 256); [|lia].
  destruct (Nat.lt_ge_cases k 256) as [L|L].
  - rewrite !counts_nth by auto. rewrite bucket_snoc. destruct (Nat.eqb_spec (key s x) k) as [->|]; auto. rewrite app_length. cbn. f_equal. lia.
  - rewrite !(proj2 (nth_error_None _ _)) by (rewrite counts_length; lia). destruct (Nat.eqb_spec (key s x) k); auto. lia.
Qed.
Lemma firstn_S_snoc : forall {A} (l : list A) i x, nth_error l i = Some x -> firstn (S i) l = firstn i l ++ [x].
Proof.
  induction l as [|a l IH]; intros [|i] x H; cbn in *; try discriminate; [congruence|]. f_equal. now apply IH.
Qed.
Lemma count_loop_ok : forall src s r i, i + r <= length src -> count_loop src s r i (counts s (firstn i src)) = Ok (counts s (firstn (i + r) src)).
Proof.
  induction r as [|r IH]; intros i L; cbn [count_loop]; [now rewrite Nat.add_0_r|].
  destruct (nth_error src i) as [x|] eqn:E; [|apply nth_error_None in E; lia]. unfold aget at 1. rewrite E. cbn [bind].
  unfold aget. rewrite counts_nth by apply key_lt. cbn [bind]. rewrite aset_Ok by (rewrite counts_length; apply key_lt). cbn [bind].
  rewrite <- counts_snoc. rewrite <- (firstn_S_snoc src i x E). rewrite IH by lia. do 3 f_equal. lia.
Qed.
Lemma counts_nil : forall s, counts s [] = repeat 0 256.
Proof. reflexivity. Qed.

(* ---- prefix sums ---- *)
Definition start (s : N) (l : list N) (k : nat) : nat := list_sum (firstn k (counts s l)).
Lemma list_sum_app1 : forall l x, list_sum (l ++ [x]) = list_sum l + x.
Proof. intros. rewrite list_sum_app. cbn. lia. Qed.
Lemma prefix_loop_ok : forall cs r i, i + r = length cs ->
  prefix_loop r i (list_sum (firstn i cs)) (map (fun k => list_sum (firstn k cs)) (seq 0 i) ++ skipn i cs) = Ok (map (fun k => list_sum (firstn k cs)) (seq 0 (length cs))).
Proof.
  intros cs. induction r as [|r IH]; intros i L; cbn [prefix_loop].
  - rewrite Nat.add_0_r in L. rewrite <- L. rewrite skipn_all2 by lia. now rewrite app_nil_r.
  - destruct (nth_error cs i) as [c|] eqn:E; [|apply nth_error_None in E; lia].
    assert (SK : skipn i cs = c :: skipn (S i) cs).
    { clear - E. revert i E. induction cs as [|a cs IH]; intros [|i] E; cbn in *; try discriminate; [congruence|]. now apply IH. }
    set (pre := map (fun k => list_sum (firstn k cs)) (seq 0 i)). assert (Lp : length pre = i) by (unfold pre; now rewrite map_length, seq_length).
    rewrite SK. unfold aget. rewrite nth_error_app2 by lia. rewrite Lp, Nat.sub_diag. cbn [nth_error bind].
    rewrite aset_Ok by (rewrite app_length; cbn; lia). cbn [bind].
    assert (Q : lset (pre ++ c :: skipn (S i) cs) i (list_sum (firstn i cs)) = map (fun k => list_sum (firstn k cs)) (seq 0 (S i)) ++ skipn (S i) cs).
    { rewrite seq_S, map_app. cbn [map Nat.add]. fold pre. rewrite <- app_assoc. cbn [app].
      rewrite lset_split by (rewrite app_length; cbn; lia). rewrite firstn_app, Lp, Nat.sub_diag, firstn_O, app_nil_r. rewrite firstn_all2 by lia.
      f_equal. f_equal. rewrite skipn_app, Lp. replace (S i - i) with 1 by lia. rewrite skipn_all2 by lia. reflexivity. }
    rewrite Q. rewrite <- (list_sum_app1 (firstn i cs) c), <- (firstn_S_snoc cs i c E). apply IH. lia.
Qed.

(* ---- placing ---- *)
(* cut l into segments of the given lengths *)
Fixpoint cut (cs : list nat) (l : list N) : list (list N) := match cs with [] => [] | c :: cs => firstn c l :: cut cs (skipn c l) end.
Lemma cut_concat : forall cs l, list_sum cs <= length l -> l = concat (cut cs l) ++ skipn (list_sum cs) l.
Proof.
  induction cs as [|c cs IH]; intros l L; auto. cbn [cut concat]. change (list_sum (c :: cs)) with (c + list_sum cs) in *. rewrite <- app_assoc.
  rewrite <- skipn_skipn. rewrite <- IH; [now rewrite firstn_skipn|]. rewrite skipn_length. lia.
Qed.
Lemma cut_length : forall cs l k c, list_sum cs <= length l -> nth_error cs k = Some c -> exists g, nth_error (cut cs l) k = Some g /\ length g = c.
Proof.
  induction cs as [|d cs IH]; intros l [|k] c L E; cbn [nth_error cut] in *; try discriminate; change (list_sum (d :: cs)) with (d + list_sum cs) in L.
  - injection E as <-. eexists. split; [reflexivity|]. rewrite firstn_length. lia.
  - apply IH; auto. rewrite skipn_length. lia.
Qed.
Lemma cut_len : forall cs l, length (cut cs l) = length cs.
Proof. induction cs; intros l; cbn; auto. Qed.
Lemma lset_app2 : forall {A} (a b : list A) i x, length a <= i -> lset (a ++ b) i x = a ++ lset b (i - length a) x.
Proof.
  induction a as [|y a IH]; intros b i x L; cbn in *; [now rewrite Nat.sub_0_r|]. destruct i as [|i]; [lia|]. f_equal. apply IH. lia.
Qed.
Lemma lset_concat : forall (gs : list (list N)) k g o x rest, nth_error gs k = Some g -> o < length g ->
  lset (concat gs ++ rest) (list_sum (map (@length N) (firstn k gs)) + o) x = concat (lset gs k (lset g o x)) ++ rest.
Proof.
  induction gs as [|h gs IH]; intros [|k] g o x rest E L; cbn [nth_error] in E; try discriminate.
  - injection E as ->. cbn [firstn map list_sum lset concat]. rewrite <- !app_assoc. now apply lset_app1.
  - cbn [firstn map concat lset]. change (list_sum (length h :: map (@length N) (firstn k gs))) with (length h + list_sum (map (@length N) (firstn k gs))).
    rewrite <- !app_assoc. rewrite lset_app2 by lia. f_equal.
    replace (length h + list_sum (map (@length N) (firstn k gs)) + o - length h) with (list_sum (map (@length N) (firstn k gs)) + o) by lia. now apply IH.
Qed.

Section Place.
  Variables (s : N) (all : list N) (old : list (list N)).
  Hypothesis old_len : forall k, k < 256 -> exists g, nth_error old k = Some g /\ length g = length (bucket s all k).
  (* after placing p, a prefix of all *)
  Definition seg (p : list N) (k : nat) : list N := bucket s p k ++ skipn (length (bucket s p k)) (nth k old []).
  Definition segs (p : list N) : list (list N) := map (seg p) (seq 0 256).
  Definition idx (p : list N) : list nat := map (fun k => start s all k + length (bucket s p k)) (seq 0 256).
  Lemma seg_length : forall p q k, all = p ++ q -> k < 256 -> length (seg p k) = length (bucket s all k).
  Proof.
    intros p q k E H. unfold seg. destruct (old_len k H) as (g & G & Lg). rewrite (nth_error_nth _ _ _ G). rewrite app_length, skipn_length, Lg, E, bucket_app, app_length. lia.
  Qed.
  Lemma idx_nth : forall p k, k < 256 -> nth_error (idx p) k = Some (start s all k + length (bucket s p k)).
  Proof. intros p k H. unfold idx. rewrite nth_error_map, nth_error_nth' with (d := 0) by (rewrite seq_length; lia). cbn [option_map]. now rewrite seq_nth. Qed.
  Lemma idx_length : forall p, length (idx p) = 256.
  Proof. intro p. unfold idx. now rewrite map_length, seq_length. Qed.
  Lemma segs_nth : forall p k, k < 256 -> nth_error (segs p) k = Some (seg p k).
  Proof. intros p k H. unfold segs. rewrite nth_error_map, nth_error_nth' with (d := 0) by (rewrite seq_length; lia). cbn [option_map]. now rewrite seq_nth. Qed.
  Lemma segs_length : forall p, length (segs p) = 256.
  Proof. intro p. unfold segs. now rewrite map_length, seq_length. Qed.
  Lemma idx_snoc : forall p x, idx (p ++ [x]) = lset (idx p) (key s x) (S (start s all (key s x) + length (bucket s p (key s x)))).
  Proof.
    intros p x. apply nth_ext_err. intro k. rewrite lset_nth, idx_length. pose proof (key_lt s x). destruct (Nat.ltb_spec (key s x) 256); [|lia].
    destruct (Nat.lt_ge_cases k 256) as [L|L].
    - rewrite !idx_nth by auto. rewrite bucket_snoc. destruct (Nat.eqb_spec (key s x) k) as [->|]; auto. rewrite app_length. cbn. f_equal. lia.
    - rewrite !(proj2 (nth_error_None _ _)) by (rewrite idx_length; lia). destruct (Nat.eqb_spec (key s x) k); auto. lia.
  Qed.
  Lemma segs_snoc : forall p x q, all = p ++ x :: q -> segs (p ++ [x]) = lset (segs p) (key s x) (lset (seg p (key s x)) (length (bucket s p (key s x))) x).
  Proof.
    intros p x q E. apply nth_ext_err. intro k. rewrite lset_nth, segs_length. pose proof (key_lt s x) as Hk. destruct (Nat.ltb_spec (key s x) 256); [|lia].
    destruct (Nat.lt_ge_cases k 256) as [L|L].
    - rewrite !segs_nth by auto. unfold seg. rewrite !bucket_snoc. destruct (Nat.eqb_spec (key s x) k) as [KE|]; auto. rewrite KE. f_equal.
      rewrite lset_app2 by lia. rewrite Nat.sub_diag. rewrite app_length. cbn [length]. rewrite <- app_assoc. f_equal. cbn [app].
      destruct (old_len k L) as (g & G & Lg). rewrite (nth_error_nth _ _ _ G). assert (B : length (bucket s p k) < length g).
      { rewrite Lg, E, bucket_app, app_length. unfold bucket at 3. cbn [filter]. unfold in_bucket at 1. rewrite (proj2 (Nat.eqb_eq _ _) KE). cbn. lia. }
      rewrite Nat.add_1_r. clear - B. revert B. generalize (length (bucket s p k)). induction g as [|y g IH]; intros n B; cbn in B; [lia|]. destruct n; [reflexivity|]. cbn [skipn]. apply IH. lia.
    - rewrite !(proj2 (nth_error_None _ _)) by (rewrite segs_length; lia). destruct (Nat.eqb_spec (key s x) k); auto. lia.
  Qed.
  Lemma start_segs : forall p q k, all = p ++ q -> k <= 256 -> list_sum (map (@length N) (firstn k (segs p))) = start s all k.
  Proof.
    intros p q k E L. unfold start. f_equal. apply nth_ext_err. intro j. rewrite nth_error_map. destruct (Nat.lt_ge_cases j k) as [J|J].
    - rewrite !nth_error_firstn_lt by auto. rewrite segs_nth, counts_nth by lia. cbn [option_map]. f_equal. apply (seg_length p q); auto. lia.
    - rewrite !(proj2 (nth_error_None _ _)); auto; rewrite firstn_length; lia.
  Qed.
  Lemma place_loop_ok : forall r i src rest, all = firstn (i + r) src -> i + r <= length src ->
    place_loop src s r i (idx (firstn i src)) (concat (segs (firstn i src)) ++ rest) = Ok (concat (segs all) ++ rest).
  Proof.
    induction r as [|r IH]; intros i src rest E L; cbn [place_loop]; [rewrite Nat.add_0_r in E; now rewrite <- E|].
    destruct (nth_error src i) as [x|] eqn:Q; [|apply nth_error_None in Q; lia]. unfold aget at 1. rewrite Q. cbn [bind].
    pose proof (key_lt s x) as Hk. unfold aget. rewrite idx_nth by auto. cbn [bind]. rewrite aset_Ok by (rewrite idx_length; auto). cbn [bind].
    set (p := firstn i src). assert (Ep : exists q, all = p ++ x :: q).
    { exists (skipn (S i) (firstn (i + S r) src)). rewrite E. rewrite <- (firstn_skipn (S i) (firstn (i + S r) src)) at 1.
      rewrite firstn_firstn. replace (Nat.min (S i) (i + S r)) with (S i) by lia. rewrite (firstn_S_snoc src i x Q). fold p. now rewrite <- app_assoc. }
    destruct Ep as [q Ep]. set (k := key s x) in *.
    assert (SL : length (seg p k) = length (bucket s all k)) by (apply (seg_length p (x :: q)); auto).
    assert (BL : length (bucket s p k) < length (seg p k)).
    { rewrite SL, Ep, bucket_app, app_length. unfold bucket at 3. cbn [filter]. unfold in_bucket at 1. fold k. rewrite Nat.eqb_refl. cbn. lia. }
    assert (ST : list_sum (map (@length N) (firstn k (segs p))) = start s all k) by (apply (start_segs p (x :: q)); auto; lia).
    assert (W : start s all k + length (bucket s p k) < length (concat (segs p) ++ rest)).
    { rewrite app_length. rewrite <- ST. clear - BL Hk old_len. assert (E : nth_error (segs p) k = Some (seg p k)) by (apply segs_nth; auto).
      apply nth_error_split in E. destruct E as (l1 & l2 & E & Lk). rewrite E. rewrite <- Lk, firstn_app, Nat.sub_diag, firstn_O, app_nil_r, firstn_all.
      rewrite concat_app. cbn [concat]. rewrite !app_length. assert (list_sum (map (@length N) l1) = length (concat l1)).
      { clear. induction l1 as [|y l1 IH]; auto. cbn [map concat]. rewrite app_length, <- IH. reflexivity. }
      rewrite ?Lk. lia. }
    rewrite aset_Ok by auto. cbn [bind]. pose proof (idx_snoc p x) as IS. fold k in IS. rewrite <- IS.
    rewrite <- ST. rewrite (lset_concat (segs p) k (seg p k)) by (auto; apply segs_nth; auto).
    pose proof (segs_snoc p x q Ep) as SS. fold k in SS. rewrite <- SS. unfold p. rewrite <- (firstn_S_snoc src i x Q).
    apply IH; [rewrite E; f_equal; lia|lia].
  Qed.
End Place.

Lemma list_sum_counts : forall s l, list_sum (counts s l) = length (buckets s l).
Proof.
  intros s l. unfold counts, buckets. generalize (seq 0 256). induction l0 as [|k ks IH]; auto. cbn [map concat]. rewrite app_length, <- IH. reflexivity.
Qed.

(* ---- permutation ---- *)
Lemma buckets_nil_on : forall s ks, concat (map (bucket s []) ks) = [].
Proof. induction ks; auto. Qed.
Lemma bucket_cons_ne : forall s x l ks, ~ In (key s x) ks -> concat (map (bucket s (x :: l)) ks) = concat (map (bucket s l) ks).
Proof.
  intros s x l ks H. induction ks as [|k ks IH]; auto. cbn [map concat]. rewrite IH by (intro; apply H; now right). f_equal.
  unfold bucket at 1. cbn [filter]. unfold in_bucket at 1. destruct (Nat.eqb_spec (key s x) k); [subst; exfalso; apply H; now left|]. reflexivity.
Qed.
Lemma bucket_cons_in : forall s x l ks, NoDup ks -> In (key s x) ks -> Permutation (concat (map (bucket s (x :: l)) ks)) (x :: concat (map (bucket s l) ks)).
Proof.
  intros s x l ks ND H. induction ks as [|k ks IH]; [contradiction|]. inversion ND; subst. cbn [map concat]. destruct (Nat.eq_dec (key s x) k) as [E|NE].
  - rewrite bucket_cons_ne by congruence. unfold bucket at 1. cbn [filter]. unfold in_bucket at 1. rewrite (proj2 (Nat.eqb_eq _ _) E). reflexivity.
  - destruct H as [H|H]; [congruence|]. unfold bucket at 1. cbn [filter]. unfold in_bucket at 1. rewrite (proj2 (Nat.eqb_neq _ _) NE). fold (bucket s l k).
    rewrite IH by auto. symmetry. apply Permutation_middle.
Qed.
Lemma buckets_perm : forall s l, Permutation (buckets s l) l.
Proof.
  intros s l. induction l as [|x l IH]; [unfold buckets; now rewrite buckets_nil_on|].
  unfold buckets in *. rewrite bucket_cons_in; [now rewrite IH|apply seq_NoDup|]. apply in_seq. pose proof (key_lt s x). lia.
Qed.
Lemma buckets_length : forall s l, length (buckets s l) = length l.
Proof. intros s l. apply Permutation_length, buckets_perm. Qed.

Lemma pass_ok : forall src dst n s, n <= length src -> n <= length dst -> pass src dst n s = Ok (buckets s (firstn n src) ++ skipn n dst).
Proof.
  intros src dst n s Ls Ld. unfold pass. set (all := firstn n src).
  rewrite <- (counts_nil s). change (counts s []) with (counts s (firstn 0 src)). rewrite count_loop_ok by lia. cbn [bind Nat.add]. fold all.
  assert (P : prefix_loop 256 0 0 (counts s all) = Ok (map (fun k => list_sum (firstn k (counts s all))) (seq 0 256))).
  { pose proof (prefix_loop_ok (counts s all) 256 0) as P. rewrite counts_length in P. exact (P eq_refl). }
  rewrite P. clear P. cbn [bind].
  assert (La : length all = n) by (unfold all; rewrite firstn_length; lia).
  assert (S0 : list_sum (counts s all) = n) by (rewrite list_sum_counts, buckets_length; auto).
  set (old := cut (counts s all) dst).
  assert (O1 : forall k, k < 256 -> exists g, nth_error old k = Some g /\ length g = length (bucket s all k)).
  { intros k H. apply (cut_length (counts s all) dst k); [lia|]. now apply counts_nth. }
  assert (O2 : length old = 256) by (unfold old; rewrite cut_len; apply counts_length).
  assert (I : map (fun k => list_sum (firstn k (counts s all))) (seq 0 256) = idx s all []).
  { unfold idx. apply map_ext. intro k. cbn. now rewrite Nat.add_0_r. }
  rewrite I. assert (D : dst = concat (segs s old []) ++ skipn n dst).
  { rewrite (cut_concat (counts s all) dst) at 1 by lia. rewrite S0. reflexivity. }
  rewrite D at 1. change (@nil N) with (firstn 0 src) at 1 2. rewrite (place_loop_ok s all old O1 n 0 src) by auto.
  f_equal. f_equal. unfold buckets. f_equal. unfold segs. apply map_ext_in. intros k Hk. apply in_seq in Hk. unfold seg. rewrite skipn_all2; [apply app_nil_r|].
  destruct (O1 k ltac:(lia)) as (g & G & Lg). rewrite (nth_error_nth _ _ _ G). lia.
Qed.

(* ---- order ---- *)
Definition low (s : N) (x y : N) : Prop := (x mod 2 ^ s <= y mod 2 ^ s)%N.
Lemma key_mod : forall s x, (x mod 2 ^ (s + 8) = N.of_nat (key s x) * 2 ^ s + x mod 2 ^ s)%N.
Proof.
  intros s x. unfold key. rewrite Nnat.N2Nat.id. change 0xff%N with (N.ones 8). rewrite N.land_ones, N.shiftr_div_pow2, N.pow_add_r.
  rewrite N.mod_mul_r by (apply N.pow_nonzero; discriminate). lia.
Qed.
Lemma Forall_filter : forall {A} (P : A -> Prop) f l, Forall P l -> Forall P (filter f l).
Proof. intros A P f l F. induction F; cbn; auto. destruct (f x); auto. Qed.
Lemma SS_filter : forall {A} (R : A -> A -> Prop) f l, StronglySorted R l -> StronglySorted R (filter f l).
Proof.
  intros A R f l H. induction H as [|x l H IH F]; cbn; [constructor|]. destruct (f x); auto. constructor; auto. now apply Forall_filter.
Qed.
Lemma SS_impl : forall {A} (R Q : A -> A -> Prop) (P : A -> Prop) l, Forall P l -> (forall x y, P x -> P y -> R x y -> Q x y) -> StronglySorted R l -> StronglySorted Q l.
Proof.
  intros A R Q P l F H S. induction S as [|x l S IH G]; [constructor|]. inversion F; subst. constructor; auto.
  rewrite Forall_forall in *. intros y Hy. apply H; auto.
Qed.
Lemma SS_app : forall {A} (R : A -> A -> Prop) a b, StronglySorted R a -> StronglySorted R b -> (forall x y, In x a -> In y b -> R x y) -> StronglySorted R (a ++ b).
Proof.
  intros A R a b Sa Sb H. induction Sa as [|x a Sa IH F]; cbn; auto. constructor; [apply IH; intros; apply H; auto; now right|].
  apply Forall_app. split; auto. apply Forall_forall. intros y Hy. apply H; auto. now left.
Qed.
Lemma in_bucket_key : forall s l k x, In x (bucket s l k) -> key s x = k.
Proof. intros s l k x H. unfold bucket in H. apply filter_In in H. destruct H as [_ H]. now apply Nat.eqb_eq in H. Qed.
Lemma buckets_sorted : forall s l, StronglySorted (low s) l -> StronglySorted (low (s + 8)) (buckets s l).
Proof.
  intros s l S. unfold buckets. assert (G : forall n a, StronglySorted (low (s + 8)) (concat (map (bucket s l) (seq a n)))); [|apply G].
  induction n as [|n IH]; intro a; cbn [seq map concat]; [constructor|].
  apply SS_app; auto.
  - apply (SS_impl (low s) _ (fun x => key s x = a)); [| |now apply SS_filter].
    + apply Forall_forall. intros x H. now apply in_bucket_key in H.
    + intros x y Hx Hy L. unfold low in *. rewrite !key_mod, Hx, Hy. lia.
  - intros x y Hx Hy. apply in_bucket_key in Hx. apply in_concat in Hy. destruct Hy as (b & Hb & Hy). apply in_map_iff in Hb. destruct Hb as (k & <- & Hk).
    apply in_seq in Hk. apply in_bucket_key in Hy. unfold low. rewrite !key_mod, Hx, Hy. assert (L := N.mod_lt x (2 ^ s)). specialize (L ltac:(apply N.pow_nonzero; discriminate)).
    assert (Q : (N.of_nat a + 1 <= N.of_nat k)%N) by lia. apply (N.mul_le_mono_r _ _ (2 ^ s)) in Q.
    rewrite N.mul_add_distr_r, N.mul_1_l in Q. eapply N.le_trans; [|apply N.le_add_r]. eapply N.le_trans; [|exact Q]. apply N.add_le_mono_l. apply N.lt_le_incl, L.
Qed.
Lemma sorted_0 : forall l, StronglySorted (low 0) l.
Proof.
  induction l as [|x l IH]; constructor; auto. apply Forall_forall. intros y _. unfold low. change (2 ^ 0)%N with 1%N. now rewrite !N.mod_1_r.
Qed.
Lemma firstn_exact : forall {A} n (l m : list A), length l = n -> firstn n (l ++ m) = l.
Proof. intros A n l m E. rewrite firstn_app, E, Nat.sub_diag, firstn_O, app_nil_r. rewrite <- E. apply firstn_all. Qed.
Lemma skipn_exact : forall {A} n (l m : list A), length l = n -> skipn n (l ++ m) = m.
Proof. intros A n l m E. rewrite skipn_app, E, Nat.sub_diag, skipn_O. rewrite <- E. now rewrite skipn_all. Qed.
Lemma radix_ok : forall a temp n, n <= length a -> n <= length temp -> Forall (fun x => (x < 2 ^ 32)%N) (firstn n a) ->
  exists s temp', radix_sort a temp n = Ok (s ++ skipn n a, temp') /\ Permutation (firstn n a) s /\ StronglySorted N.le s /\ skipn n temp' = skipn n temp /\ length temp' = length temp.
Proof.
  intros a temp n La Lt F. set (l0 := firstn n a) in *. assert (E0 : length l0 = n) by (unfold l0; rewrite firstn_length; lia).
  set (l1 := buckets 0 l0). set (l2 := buckets 8 l1). set (l3 := buckets 16 l2). set (l4 := buckets 24 l3).
  assert (E1 : length l1 = n) by (unfold l1; now rewrite buckets_length). assert (E2 : length l2 = n) by (unfold l2; now rewrite buckets_length).
  assert (E3 : length l3 = n) by (unfold l3; now rewrite buckets_length). assert (E4 : length l4 = n) by (unfold l4; now rewrite buckets_length).
  exists l4, (l3 ++ skipn n temp). split; [|split; [|split; [|split]]].
  - unfold radix_sort. rewrite pass_ok by lia. cbn [bind]. fold l0 l1.
    rewrite pass_ok by (rewrite ?app_length, ?skipn_length; lia). cbn [bind]. rewrite (firstn_exact n l1) by auto. fold l2.
    rewrite pass_ok by (rewrite ?app_length, ?skipn_length; lia). cbn [bind]. rewrite (firstn_exact n l2), (skipn_exact n l1) by auto. fold l3.
    rewrite pass_ok by (rewrite ?app_length, ?skipn_length; lia). cbn [bind]. rewrite (firstn_exact n l3), (skipn_exact n l2) by auto. reflexivity.
  - unfold l4, l3, l2, l1. now rewrite !buckets_perm.
  - assert (S : StronglySorted (low 32) l4) by (apply (buckets_sorted 24), (buckets_sorted 16), (buckets_sorted 8), (buckets_sorted 0), sorted_0).
    apply (SS_impl (low 32) _ (fun x => (x < 2 ^ 32)%N)); auto.
    + assert (P : Permutation l0 l4) by (unfold l4, l3, l2, l1; now rewrite !buckets_perm). eapply Permutation_Forall; eauto.
    + intros x y Hx Hy L. unfold low in L. rewrite !N.mod_small in L; auto.
  - now apply skipn_exact.
  - rewrite app_length, skipn_length. lia.
Qed.

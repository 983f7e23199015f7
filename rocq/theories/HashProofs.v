From Coq Require Import NArith List Bool Arith Lia.
From Verif Require Import Base HashModel HashSpec.
From Verif Require SetModel.
Import ListNotations.
Open Scope N_scope.
Arguments N.mul : simpl never.
Arguments N.add : simpl never.
Arguments N.pow : simpl never.
Arguments N.modulo : simpl never.
Arguments N.sub : simpl never.

Definition W := 2 ^ 64.
Lemma W_eq : W = 2 ^ 64. Proof. reflexivity. Qed.
Lemma W_ne : W <> 0. Proof. discriminate. Qed.
Definition M := 6364136223846793005.
Definition Minv := 13877824140714322085.
Lemma M_inv : (M * Minv) mod W = 1. Proof. vm_compute. reflexivity. Qed.
Definition C := 0xda3e39cb94b95bdb.
Global Opaque W M Minv C.

Lemma hc2_eq : forall a b, hash_combine2 a b = (a * M + (b + C)) mod W.
Proof.
  intros a b. unfold hash_combine2, wadd, wmul, wrap. change (2 ^ 64) with W. change 6364136223846793005 with M. change 0xda3e39cb94b95bdb with C.
  rewrite N.add_mod_idemp_l by exact W_ne. rewrite <- N.add_assoc. now rewrite N.add_mod_idemp_l by exact W_ne.
Qed.
Lemma hc2_word : forall a b, word (hash_combine2 a b).
Proof. intros a b. rewrite hc2_eq. apply N.mod_lt. exact W_ne. Qed.

Definition ginv (K z : N) : N := ((z + (W - K mod W)) * Minv) mod W.
Lemma ginv_l : forall a K, word a -> ginv K ((a * M + K) mod W) = a.
Proof.
  intros a K H. unfold ginv. rewrite <- N.mul_mod_idemp_l by exact W_ne. rewrite N.add_mod_idemp_l by exact W_ne.
  assert (L : K mod W < W) by (apply N.mod_lt; exact W_ne).
  assert (E : a * M + K + (W - K mod W) = a * M + (K / W + 1) * W).
  { assert (D := N.div_mod K W W_ne). nia. }
  rewrite E. rewrite N.mod_add by exact W_ne. rewrite N.mul_mod_idemp_l by exact W_ne.
  rewrite <- N.mul_assoc. rewrite <- N.mul_mod_idemp_r by exact W_ne. rewrite M_inv. rewrite N.mul_1_r. apply N.mod_small. exact H.
Qed.
Lemma ginv_r : forall z K, word z -> (ginv K z * M + K) mod W = z.
Proof.
  intros z K H. unfold ginv. rewrite <- N.add_mod_idemp_l by exact W_ne. rewrite N.mul_mod_idemp_l by exact W_ne.
  rewrite <- N.mul_assoc. rewrite (N.mul_comm Minv). rewrite <- (N.mul_mod_idemp_r _ (M * Minv)) by exact W_ne. rewrite M_inv, N.mul_1_r.
  rewrite N.add_mod_idemp_l by exact W_ne. assert (L : K mod W < W) by (apply N.mod_lt; exact W_ne).
  assert (E : z + (W - K mod W) + K = z + (K / W + 1) * W).
  { assert (D := N.div_mod K W W_ne). nia. }
  rewrite E. rewrite N.mod_add by exact W_ne. now apply N.mod_small.
Qed.
Lemma hc2_bij_l : forall b, word_bijection (fun a => hash_combine2 a b).
Proof.
  intro b. split; [|split].
  - intros a H. apply hc2_word.
  - intros x y Hx Hy E. rewrite 2 hc2_eq in E. rewrite <- (ginv_l x (b + C) Hx), <- (ginv_l y (b + C) Hy). now rewrite E.
  - intros z H. exists (ginv (b + C) z). split; [apply N.mod_lt; exact W_ne|]. rewrite hc2_eq. now apply ginv_r.
Qed.
Lemma hc2_bij_r : forall a, word_bijection (fun b => hash_combine2 a b).
Proof.
  intro a. set (K := a * M + C). assert (L : K mod W < W) by (apply N.mod_lt; exact W_ne). assert (D := N.div_mod K W W_ne).
  assert (Q : forall x, hash_combine2 a x = (x + K) mod W) by (intro x; rewrite hc2_eq; f_equal; unfold K; lia).
  assert (I : forall x, word x -> (hash_combine2 a x + (W - K mod W)) mod W = x).
  { intros x H. rewrite Q. rewrite N.add_mod_idemp_l by exact W_ne.
    replace (x + K + (W - K mod W)) with (x + (K / W + 1) * W) by nia. rewrite N.mod_add by exact W_ne. now apply N.mod_small. }
  split; [|split].
  - intros x H. apply hc2_word.
  - intros x y Hx Hy E. rewrite <- (I x Hx), <- (I y Hy). now rewrite E.
  - intros z H. exists ((z + (W - K mod W)) mod W). split; [apply N.mod_lt; exact W_ne|]. rewrite Q.
    rewrite N.add_mod_idemp_l by exact W_ne. replace (z + (W - K mod W) + K) with (z + (K / W + 1) * W) by nia. rewrite N.mod_add by exact W_ne. now apply N.mod_small.
Qed.

Lemma bij_id : word_bijection (fun x => x).
Proof. split; [|split]; auto. intros z H. exists z. auto. Qed.
Lemma bij_comp : forall f g, word_bijection f -> word_bijection g -> word_bijection (fun x => g (f x)).
Proof.
  intros f g (F1 & F2 & F3) (G1 & G2 & G3). split; [|split]; auto.
  intros z H. destruct (G3 z H) as (y & Hy & Ey). destruct (F3 y Hy) as (x & Hx & Ex). exists x. split; auto. now rewrite Ex.
Qed.
Lemma bij_ext : forall f g, (forall x, f x = g x) -> word_bijection f -> word_bijection g.
Proof.
  intros f g E (F1 & F2 & F3). split; [|split].
  - intros x H. rewrite <- E. auto.
  - intros x y Hx Hy H. rewrite <- !E in H. auto.
  - intros z H. destruct (F3 z H) as (x & Hx & Ex). exists x. split; auto. now rewrite <- E.
Qed.
Lemma fold_bij : forall l, word_bijection (fun x => fold_left hash_combine2 l x).
Proof.
  induction l as [|b l IH]; cbn [fold_left]; [apply bij_id|]. apply (bij_comp (fun x => hash_combine2 x b)); auto. apply hc2_bij_l.
Qed.
Lemma combine_fold : forall a l, hash_combine (a :: l) = fold_left hash_combine2 l a.
Proof. intros a [|b [|c l]]; reflexivity. Qed.
Lemma combine_bij : forall l1 l2, word_bijection (fun x => hash_combine (l1 ++ x :: l2)).
Proof.
  intros [|a l1] l2.
  - apply (bij_ext (fun x => fold_left hash_combine2 l2 x)); [|apply fold_bij]. intro x. cbn [app]. now rewrite combine_fold.
  - apply (bij_ext (fun x => fold_left hash_combine2 l2 (hash_combine2 (fold_left hash_combine2 l1 a) x))).
    + intro x. cbn [app]. rewrite combine_fold, fold_left_app. reflexivity.
    + apply (bij_comp (fun x => hash_combine2 (fold_left hash_combine2 l1 a) x)); [apply hc2_bij_r|apply fold_bij].
Qed.
Lemma combine_empty_ne : word (hash_combine []). Proof. reflexivity. Qed.

(* ---- sequences ---- *)
Lemma hash_seq_map : forall T (h : T -> N) l, hash_seq h l = fold_left hash_combine2 (map h l) 0.
Proof.
  intros T h l. unfold hash_seq. generalize 0. induction l as [|x l IH]; intro a; cbn; auto.
Qed.
Lemma hash_seq_combine : forall T (h : T -> N) l, hash_seq h l = hash_combine (0 :: map h l).
Proof. intros T h l. rewrite hash_seq_map, combine_fold. reflexivity. Qed.
Lemma hash_seq_one : forall T (h : T -> N) l1 x y l2, word (h x) -> word (h y) ->
  hash_seq h (l1 ++ x :: l2) = hash_seq h (l1 ++ y :: l2) -> h x = h y.
Proof.
  intros T h l1 x y l2 Hx Hy E. rewrite !hash_seq_combine, !map_app in E. cbn [map] in E.
  change (0 :: map h l1 ++ h x :: map h l2) with ((0 :: map h l1) ++ h x :: map h l2) in E.
  change (0 :: map h l1 ++ h y :: map h l2) with ((0 :: map h l1) ++ h y :: map h l2) in E.
  apply (proj1 (proj2 (combine_bij (0 :: map h l1) (map h l2)))) in E; auto.
Qed.
Lemma char_word_word : forall c, byte c -> word (char_word c).
Proof. intros c H. unfold char_word, word, byte in *. destruct (N.ltb_spec c 128); rewrite <- W_eq in *; pose proof W_eq as E; change W with (2 ^ 64) in *; lia. Qed.
Lemma char_word_inj : forall c d, byte c -> byte d -> char_word c = char_word d -> c = d.
Proof. intros c d H G E. unfold char_word, byte in *. destruct (N.ltb_spec c 128), (N.ltb_spec d 128); lia. Qed.

(* ---- bytes ---- *)
Lemma word_of_lt : forall bs, Forall byte bs -> word_of bs < 256 ^ N.of_nat (length bs).
Proof.
  induction bs as [|b bs IH]; intro F; cbn [word_of length]; [reflexivity|]. inversion F; subst. specialize (IH H2). unfold byte in *.
  rewrite Nnat.Nat2N.inj_succ, N.pow_succ_r'. nia.
Qed.
Lemma word_of_inj : forall a b, Forall byte a -> Forall byte b -> length a = length b -> word_of a = word_of b -> a = b.
Proof.
  induction a as [|x a IH]; intros [|y b] Fa Fb L E; cbn in *; try discriminate; auto. inversion Fa; inversion Fb; subst. unfold byte in *.
  assert (x = y /\ word_of a = word_of b) as [-> Q] by nia. f_equal. apply IH; auto.
Qed.
Lemma word_of_word : forall bs, Forall byte bs -> (length bs <= 8)%nat -> word (word_of bs).
Proof.
  intros bs F L. unfold word. eapply N.lt_le_trans; [apply word_of_lt; auto|]. change (2 ^ 64) with (256 ^ 8). apply N.pow_le_mono_r; lia.
Qed.
(* all pieces of the value, the rest as a last word *)
Definition pieces (bs : list N) : list N :=
  let w := (length bs / 8)%nat in
  words w bs ++ (if (0 <? length bs - w * 8)%nat then [word_of (skipn (w * 8) bs)] else []).
Lemma hash_bytes_pieces : forall bs, (8 < length bs)%nat -> hash_bytes bs = fold_left hash_combine2 (pieces bs) 0.
Proof.
  intros bs L. unfold hash_bytes, pieces. destruct (Nat.leb_spec (length bs) 8); [lia|]. rewrite fold_left_app.
  destruct (0 <? length bs - length bs / 8 * 8)%nat; reflexivity.
Qed.
Lemma skipn_skipn8 : forall (A : Type) k (l : list A), skipn k (skipn 8 l) = skipn (8 + k) l.
Proof. intros. now rewrite skipn_skipn. Qed.
(* words of two values that differ in one byte *)
Lemma words_split : forall k l1 x l2, (length l1 < k * 8)%nat -> (k * 8 <= length (l1 ++ x :: l2))%nat ->
  exists p a b q, words k (l1 ++ x :: l2) = p ++ word_of (a ++ x :: b) :: q /\
    (forall y, words k (l1 ++ y :: l2) = p ++ word_of (a ++ y :: b) :: q) /\ (length a + length b = 7)%nat /\
    exists u v, l1 = u ++ a /\ l2 = b ++ v.
Proof.
  induction k as [|k IH]; intros l1 x l2 L1 L2; [lia|].
  destruct (Nat.lt_ge_cases (length l1) 8) as [L|L].
  - exists [], l1, (firstn (7 - length l1) l2), (words k (skipn (7 - length l1) l2)).
    assert (Q : forall y, words (S k) (l1 ++ y :: l2) = word_of (l1 ++ y :: firstn (7 - length l1) l2) :: words k (skipn (7 - length l1) l2)).
    { intro y. cbn [words]. rewrite firstn_app, skipn_app. rewrite (firstn_all2 l1) by lia. rewrite (skipn_all2 l1) by lia.
      replace (8 - length l1)%nat with (S (7 - length l1)) by lia. reflexivity. }
    split; [apply Q|]. split; [exact Q|]. split; [rewrite firstn_length; rewrite app_length in L2; cbn in L2; lia|].
    exists [], (skipn (7 - length l1) l2). split; auto. now rewrite firstn_skipn.
  - assert (S1 : forall y, skipn 8 (l1 ++ y :: l2) = skipn 8 l1 ++ y :: l2).
    { intro y. rewrite skipn_app. replace (8 - length l1)%nat with 0%nat by lia. reflexivity. }
    assert (S2 : forall y, firstn 8 (l1 ++ y :: l2) = firstn 8 l1).
    { intro y. rewrite firstn_app. replace (8 - length l1)%nat with 0%nat by lia. cbn [firstn]. apply app_nil_r. }
    destruct (IH (skipn 8 l1) x l2) as (p & a & b & q & E1 & E2 & E3 & u & v & E4 & E5).
    { rewrite skipn_length. lia. }
    { rewrite app_length in *. rewrite skipn_length. lia. }
    exists (word_of (firstn 8 l1) :: p), a, b, q. cbn [words]. rewrite S1, S2, E1. split; [reflexivity|]. split.
    + intro y. rewrite S1, S2, E2. reflexivity.
    + split; auto. exists (firstn 8 l1 ++ u), v. split; auto. rewrite <- app_assoc, <- E4. now rewrite firstn_skipn.
Qed.
Lemma words_prefix : forall k l1 l2, (k * 8 <= length l1)%nat -> words k (l1 ++ l2) = words k l1.
Proof.
  induction k as [|k IH]; intros l1 l2 L; auto. cbn [words]. rewrite firstn_app, skipn_app.
  replace (8 - length l1)%nat with 0%nat by lia. rewrite firstn_O, skipn_O, app_nil_r. f_equal. apply IH. rewrite skipn_length. lia.
Qed.
Lemma pieces_split : forall l1 x l2, exists p a b q, pieces (l1 ++ x :: l2) = p ++ word_of (a ++ x :: b) :: q /\
    (forall y, pieces (l1 ++ y :: l2) = p ++ word_of (a ++ y :: b) :: q) /\ (length a + length b <= 7)%nat /\
    exists u v, l1 = u ++ a /\ l2 = b ++ v.
Proof.
  intros l1 x l2. set (n := length (l1 ++ x :: l2)). assert (Ln : forall y, length (l1 ++ y :: l2) = n) by (intro y; unfold n; rewrite !app_length; reflexivity).
  set (w := (n / 8)%nat). assert (Dw : (n = 8 * w + n mod 8)%nat) by (apply Nat.div_mod; discriminate). assert (Rw : (n mod 8 < 8)%nat) by (apply Nat.mod_upper_bound; discriminate).
  assert (Lx : (length l1 + S (length l2) = n)%nat) by (unfold n; rewrite app_length; reflexivity).
  destruct (Nat.lt_ge_cases (length l1) (w * 8)) as [L|L].
  - destruct (words_split w l1 x l2 L) as (p & a & b & q & E1 & E2 & E3 & u & v & E4 & E5); [rewrite Ln; lia|].
    set (rest := if (0 <? n - w * 8)%nat then [word_of (skipn (w * 8 - S (length l1)) l2)] else []).
    assert (Q : forall y, pieces (l1 ++ y :: l2) = (p ++ word_of (a ++ y :: b) :: q) ++ rest).
    { intro y. unfold pieces. rewrite Ln. fold w. rewrite E2. f_equal. unfold rest. destruct (0 <? n - w * 8)%nat; auto.
      rewrite skipn_app. rewrite (skipn_all2 l1) by lia. cbn [app]. replace (w * 8 - length l1)%nat with (S (w * 8 - S (length l1))) by lia. reflexivity. }
    exists p, a, b, (q ++ rest). split; [rewrite Q, <- app_assoc; reflexivity|]. split; [intro y; rewrite Q, <- app_assoc; reflexivity|]. split; [lia|]. eauto.
  - exists (words w l1), (skipn (w * 8) l1), l2, [].
    assert (Q : forall y, pieces (l1 ++ y :: l2) = words w l1 ++ [word_of (skipn (w * 8) l1 ++ y :: l2)]).
    { intro y. unfold pieces. rewrite Ln. fold w. rewrite words_prefix by lia. f_equal. destruct (Nat.ltb_spec 0 (n - w * 8)); [|lia].
      rewrite skipn_app. replace (w * 8 - length l1)%nat with 0%nat by lia. reflexivity. }
    split; [apply Q|]. split; [exact Q|]. split; [rewrite skipn_length; lia|]. exists (firstn (w * 8) l1), []. rewrite firstn_skipn, app_nil_r. auto.
Qed.
Lemma hash_bytes_one : forall l1 x y l2, Forall byte (l1 ++ x :: l2) -> byte y -> hash_bytes (l1 ++ x :: l2) = hash_bytes (l1 ++ y :: l2) -> x = y.
Proof.
  intros l1 x y l2 F Hy E. assert (Ln : length (l1 ++ y :: l2) = length (l1 ++ x :: l2)) by (rewrite !app_length; reflexivity).
  assert (Fl : Forall byte l1 /\ byte x /\ Forall byte l2). { apply Forall_app in F. destruct F as [F1 F2]. inversion F2; subst. auto. }
  destruct Fl as (F1 & Hx & F2).
  destruct (Nat.le_gt_cases (length (l1 ++ x :: l2)) 8) as [L|L].
  - unfold hash_bytes in E. rewrite Ln in E. rewrite (proj2 (Nat.leb_le _ _) L) in E. apply word_of_inj in E; auto.
    + now apply app_inv_head in E; inversion E.
    + apply Forall_app. split; auto.
  - rewrite !hash_bytes_pieces in E by lia.
    destruct (pieces_split l1 x l2) as (p & a & b & q & E1 & E2 & E3 & u & v & -> & ->). rewrite E1, E2 in E.
    apply Forall_app in F1, F2. destruct F1 as [_ Fa], F2 as [Fb _].
    assert (B : forall z, byte z -> word (word_of (a ++ z :: b))).
    { intros z Hz. apply word_of_word; [apply Forall_app; split; auto|]. rewrite app_length. cbn. lia. }
    assert (E' : hash_combine ((0 :: p) ++ word_of (a ++ x :: b) :: q) = hash_combine ((0 :: p) ++ word_of (a ++ y :: b) :: q)).
    { cbn [app]. rewrite !combine_fold. exact E. }
    apply (proj1 (proj2 (combine_bij (0 :: p) q))) in E'; auto.
    apply word_of_inj in E'; try (apply Forall_app; split; auto); [|rewrite !app_length; reflexivity].
    apply app_inv_head in E'. now inversion E'.
Qed.
Lemma hash_bytes_word : forall bs, Forall byte bs -> word (hash_bytes bs).
Proof.
  intros bs F. unfold hash_bytes. destruct (Nat.leb_spec (length bs) 8).
  - now apply word_of_word.
  - destruct (0 <? length bs - length bs / 8 * 8)%nat; [apply hc2_word|]. apply (proj1 (fold_bij _)). reflexivity.
Qed.

Lemma mod_mod_mul : forall x b c, b <> 0 -> c <> 0 -> (x mod (b * c)) mod b = x mod b.
Proof. intros x b c B C0. rewrite N.mod_mul_r by auto. rewrite (N.mul_comm b (_ mod c)). rewrite N.mod_add by auto. now apply N.mod_mod. Qed.

(* ---- floating point numbers ---- *)
Lemma without_sign_mod : forall w b, 0 < w -> b < 2 ^ w -> without_sign w b = b mod 2 ^ (w - 1).
Proof.
  intros w b Hw Hb. unfold without_sign. apply N.bits_inj. intro i. rewrite N.clearbit_eqb.
  destruct (N.lt_ge_cases i (w - 1)) as [L|L].
  - rewrite N.mod_pow2_bits_low by auto. destruct (N.eqb_spec (w - 1) i); [lia|]. cbn. now rewrite andb_true_r.
  - rewrite N.mod_pow2_bits_high by auto. destruct (N.eqb_spec (w - 1) i); cbn; [now rewrite andb_false_r|].
    rewrite andb_true_r. destruct (N.eq_dec b 0) as [->|NZ]; [apply N.bits_0|]. apply N.bits_above_log2. apply N.log2_lt_pow2; [lia|].
    eapply N.lt_le_trans; [exact Hb|]. apply N.pow_le_mono_r; lia.
Qed.
Lemma nan_mag : forall w m b, 0 < m -> m < w - 1 -> b < 2 ^ w -> not_a_number w m b <-> 2 ^ (w - 1) - 2 ^ m < b mod 2 ^ (w - 1).
Proof.
  intros w m b Hm Hw Hb. unfold not_a_number, exponent, mantissa. rewrite without_sign_mod by lia.
  assert (E : 2 ^ (w - 1) = 2 ^ m * 2 ^ (w - 1 - m)) by (rewrite <- N.pow_add_r; f_equal; lia).
  assert (Q : b mod 2 ^ m = (b mod 2 ^ (w - 1)) mod 2 ^ m).
  { rewrite E. rewrite mod_mod_mul; auto; apply N.pow_nonzero; discriminate. }
  rewrite Q. set (g := b mod 2 ^ (w - 1)). assert (Hg : g < 2 ^ (w - 1)) by (apply N.mod_lt, N.pow_nonzero; discriminate).
  assert (D := N.div_mod g (2 ^ m)). assert (L := N.mod_lt g (2 ^ m)). assert (P : 2 ^ m <> 0) by (apply N.pow_nonzero; discriminate).
  specialize (D P). specialize (L P). assert (P2 : 2 ^ (w - 1 - m) <> 0) by (apply N.pow_nonzero; discriminate).
  set (q := g / 2 ^ m) in *. set (r := g mod 2 ^ m) in *. clearbody q r g. rewrite E in Hg. rewrite E.
  set (X := 2 ^ m) in *. set (Y := 2 ^ (w - 1 - m)) in *. clearbody X Y. clear - D L P P2 Hg. split.
  - intros [-> H]. nia.
  - intro H. assert (q < Y) by nia. assert (q = Y - 1) by nia. split; auto. subst q. nia.
Qed.
Definition ok_ieee (f : ieee) : Prop := f = ieee_float \/ f = ieee_double.
Lemma ok_ieee_bounds : forall f, ok_ieee f -> 0 < mant f /\ mant f < width f - 1.
Proof. intros f [-> | ->]; split; reflexivity. Qed.
Lemma is_nan_iff : forall f b, ok_ieee f -> b < 2 ^ width f -> is_nan f b = true <-> not_a_number (width f) (mant f) b.
Proof.
  intros f b H L. destruct (ok_ieee_bounds f H). rewrite nan_mag by auto. unfold is_nan, inf, magnitude. apply N.ltb_lt.
Qed.
Lemma is_zero_iff : forall f b, ok_ieee f -> b < 2 ^ width f -> is_zero f b = true <-> zero (width f) b.
Proof.
  intros f b H L. destruct (ok_ieee_bounds f H). unfold zero. rewrite without_sign_mod by lia. unfold is_zero, magnitude. apply N.eqb_eq.
Qed.
Lemma nan_hash_ne : forall f b, ok_ieee f -> b < 2 ^ width f -> is_nan f b = false -> b <> nan_hash f.
Proof.
  intros f b [-> | ->] L E; intros ->.
  - vm_compute in L. discriminate.
  - vm_compute in E. discriminate.
Qed.
Lemma zero_not_nan : forall f b, ok_ieee f -> is_zero f b = true -> is_nan f b = false.
Proof.
  intros f b H E. unfold is_zero, is_nan in *. apply N.eqb_eq in E. rewrite E. apply N.ltb_ge. lia.
Qed.
Lemma hash_ieee_iff : forall f a b, ok_ieee f -> a < 2 ^ width f -> b < 2 ^ width f ->
  hash_ieee f a = hash_ieee f b <->
  ieee_equal (width f) (mant f) a b \/ (not_a_number (width f) (mant f) a /\ not_a_number (width f) (mant f) b).
Proof.
  intros f a b H La Lb. unfold ieee_equal. rewrite <- !is_nan_iff, <- !is_zero_iff by auto.
  assert (NH : nan_hash f <> 0) by (destruct H; subst; discriminate).
  assert (Z0 : is_zero f 0 = true) by (destruct H; subst; reflexivity).
  pose proof (nan_hash_ne f a H La) as Na. pose proof (nan_hash_ne f b H Lb) as Nb.
  pose proof (zero_not_nan f a H) as Za. pose proof (zero_not_nan f b H) as Zb.
  unfold hash_ieee. destruct (is_zero f a) eqn:E1, (is_zero f b) eqn:E2, (is_nan f a) eqn:E3, (is_nan f b) eqn:E4;
    try (specialize (Za eq_refl); discriminate); try (specialize (Zb eq_refl); discriminate);
    intuition (subst; try congruence).
Qed.

(* ---- stringhash ---- *)
Lemma stringhash_loop_eq : forall s rest h, ~ In 0 s -> stringhash_loop (s ++ 0 :: rest) h = Ok (fold_left hash_combine2 (map char_word s) h).
Proof.
  induction s as [|c s IH]; intros rest h H; cbn; auto. destruct (N.eqb_spec c 0); [subst; exfalso; apply H; left; auto|]. apply IH. intro; apply H; now right.
Qed.
Lemma stringhash_eq : forall s rest, ~ In 0 s -> stringhash (Some (s ++ 0 :: rest)) = Ok (hash_combine (hash_combine [] :: map char_word s)).
Proof. intros s rest H. unfold stringhash. rewrite stringhash_loop_eq by auto. now rewrite combine_fold. Qed.
Lemma stringhash_n_loop_eq : forall s c rest n h, ~ In 0 s -> length s = n \/ c = 0 /\ (length s <= n)%nat ->
  stringhash_n_loop (s ++ c :: rest) n h = Ok (fold_left hash_combine2 (map char_word s) h).
Proof.
  induction s as [|d s IH]; intros c rest n h H L; cbn.
  - destruct (N.eqb_spec c 0); auto. destruct n; auto. destruct L as [L|[L _]]; [discriminate|contradiction].
  - destruct (N.eqb_spec d 0); [subst; exfalso; apply H; left; auto|].
    destruct n as [|n]; [destruct L as [L|[_ L]]; cbn in L; [discriminate|lia]|].
    apply IH; [intro; apply H; now right|]. cbn in L. destruct L as [L|[L L']]; [left; lia|right; split; auto; lia].
Qed.
Lemma stringhash_n_over : forall s h, ~ In 0 s -> stringhash_n_loop s (length s) h = UB.
Proof.
  induction s as [|d s IH]; intros h H; cbn; auto. destruct (N.eqb_spec d 0); [subst; exfalso; apply H; left; auto|]. apply IH. intro; apply H; now right.
Qed.

(* ---- buckets of a set ---- *)
Lemma set_bucket : forall T (h : T -> N) (es : list (list T)) v k, length es = (2 ^ k)%nat -> (k <= 64)%nat -> word (h v) ->
  SetModel.get_location h es v = Ok ((h v * M + C) mod 2 ^ N.of_nat k).
Proof.
  intros T h es v k L K Hw. unfold SetModel.get_location.
  assert (E : N.of_nat (length es) = 2 ^ N.of_nat k).
  { rewrite L. clear. induction k; auto. rewrite Nnat.Nat2N.inj_succ, N.pow_succ_r', <- IHk. cbn [Nat.pow]. lia. }
  rewrite E. assert (P : 0 < 2 ^ N.of_nat k) by (apply N.neq_0_lt_0, N.pow_nonzero; discriminate).
  rewrite (proj2 (N.ltb_lt _ _) P). cbn [contract bind]. f_equal. rewrite hc2_eq. unfold wrap. rewrite (N.mod_small (h v)) by exact Hw.
  rewrite N.add_0_l. set (x := h v * M + C). rewrite W_eq.
  replace (2 ^ 64) with (2 ^ N.of_nat k * 2 ^ (64 - N.of_nat k)) by (rewrite <- N.pow_add_r; f_equal; lia).
  apply mod_mod_mul; apply N.pow_nonzero; discriminate.
Qed.
Lemma mod_inj : forall k x y, (x * M + C) mod 2 ^ k = (y * M + C) mod 2 ^ k -> k <= 64 -> x mod 2 ^ k = y mod 2 ^ k.
Proof.
  intros k x y E K. set (P := 2 ^ k) in *. assert (NZ : P <> 0) by (apply N.pow_nonzero; discriminate).
  assert (D : exists z, W = P * z). { exists (2 ^ (64 - k)). rewrite W_eq. unfold P. rewrite <- N.pow_add_r. f_equal. lia. }
  assert (I1 : (M * Minv) mod P = 1 mod P).
  { destruct D as [z Dz]. assert (R := N.div_mod (M * Minv) W W_ne). rewrite M_inv in R. rewrite R, Dz. rewrite <- N.mul_assoc. rewrite N.add_comm, N.mul_comm. now rewrite N.mod_add. }
  assert (Q : forall u, ((u * M + C) * Minv + (P - (C * Minv) mod P)) mod P = u mod P).
  { intro u. assert (L : (C * Minv) mod P < P) by (apply N.mod_lt; auto). assert (DV := N.div_mod (C * Minv) P NZ).
    replace ((u * M + C) * Minv + (P - (C * Minv) mod P)) with (u * (M * Minv) + ((C * Minv) / P + 1) * P) by nia.
    rewrite N.mod_add by auto. rewrite <- N.mul_mod_idemp_r by auto. rewrite I1. rewrite N.mul_mod_idemp_r by auto. now rewrite N.mul_1_r. }
  rewrite <- (Q x), <- (Q y).
  rewrite <- (N.add_mod_idemp_l ((x * M + C) * Minv)) by auto. rewrite <- (N.mul_mod_idemp_l (x * M + C)) by auto. rewrite E.
  rewrite N.mul_mod_idemp_l by auto. now rewrite N.add_mod_idemp_l by auto.
Qed.
Lemma double_of_low : forall j n, 0 < n -> n < 2 ^ j -> j <= 53 -> exists q, double_of n = q * 2 ^ (53 - j) /\ double_of n < 2 ^ 63.
Proof.
  intros j n Hn Lj J. unfold double_of. assert (L : N.log2 n < j) by (apply N.log2_lt_pow2; auto).
  assert (S1 := N.log2_spec n Hn). destruct S1 as [S1 S2]. set (g := N.log2 n) in *. clearbody g.
  assert (E1 : 2 ^ 52 = 2 ^ (j - 1) * 2 ^ (53 - j)) by (rewrite <- N.pow_add_r; f_equal; lia).
  assert (E2 : 2 ^ (52 - g) = 2 ^ (j - 1 - g) * 2 ^ (53 - j)) by (rewrite <- N.pow_add_r; f_equal; lia).
  assert (E3 : 2 ^ 52 = 2 ^ g * 2 ^ (52 - g)) by (rewrite <- N.pow_add_r; f_equal; lia).
  assert (E4 : n * 2 ^ (52 - g) < 2 ^ 53).
  { replace (2 ^ 53) with (2 ^ N.succ g * 2 ^ (52 - g)) by (rewrite <- N.pow_add_r; f_equal; lia). apply N.mul_lt_mono_pos_r; auto. apply N.neq_0_lt_0, N.pow_nonzero. discriminate. }
  assert (E5 : 2 ^ 52 <= n * 2 ^ (52 - g)). { rewrite E3. apply N.mul_le_mono_r. auto. }
  exists ((1023 + g) * 2 ^ (j - 1) + (n * 2 ^ (j - 1 - g) - 2 ^ (j - 1))). split.
  - rewrite E2, E1. set (Z := 2 ^ (53 - j)). rewrite N.mul_assoc. rewrite (N.mul_assoc n). rewrite <- N.mul_sub_distr_r. now rewrite <- N.mul_add_distr_r.
  - assert (g <= 52) by lia. change (2 ^ 53) with (2 * 2 ^ 52) in E4. change (2 ^ 63) with (2048 * 2 ^ 52). assert (0 < 2 ^ 52) by reflexivity.
    set (B := 2 ^ 52) in *. set (nn := n * 2 ^ (52 - g)) in *. clearbody B nn. nia.
Qed.
Lemma double_hash : forall n, 0 < n -> n < 2 ^ 53 -> hash_ieee ieee_double (double_of n) = double_of n.
Proof.
  intros n H L. unfold hash_ieee.
  assert (B : 2 ^ 52 <= double_of n /\ double_of n <= 2 ^ 63 - 2 ^ 52).
  { unfold double_of. assert (g : N.log2 n <= 52) by (apply N.lt_succ_r; apply N.log2_lt_pow2; auto).
    destruct (N.log2_spec n H) as [S1 S2]. set (g0 := N.log2 n) in *. clearbody g0.
    assert (E4 : n * 2 ^ (52 - g0) < 2 ^ 53).
    { replace (2 ^ 53) with (2 ^ N.succ g0 * 2 ^ (52 - g0)) by (rewrite <- N.pow_add_r; f_equal; lia). apply N.mul_lt_mono_pos_r; auto. apply N.neq_0_lt_0, N.pow_nonzero. discriminate. }
    assert (E5 : 2 ^ 52 <= n * 2 ^ (52 - g0)). { replace (2 ^ 52) with (2 ^ g0 * 2 ^ (52 - g0)) by (rewrite <- N.pow_add_r; f_equal; lia). apply N.mul_le_mono_r. auto. }
    change (2 ^ 53) with (2 * 2 ^ 52) in E4. change (2 ^ 63) with (2048 * 2 ^ 52). assert (0 < 2 ^ 52) by reflexivity.
    set (B := 2 ^ 52) in *. set (nn := n * 2 ^ (52 - g0)) in *. clearbody B nn. nia. }
  assert (MG : magnitude ieee_double (double_of n) = double_of n).
  { unfold magnitude. cbn [width ieee_double]. change (64 - 1) with 63. apply N.mod_small. assert (0 < 2 ^ 52) by reflexivity. lia. }
  unfold is_zero, is_nan. rewrite MG. destruct (N.eqb_spec (double_of n) 0); [assert (0 < 2 ^ 52) by reflexivity; lia|].
  unfold inf. cbn [width mant ieee_double]. change (64 - 1) with 63. destruct (N.ltb_spec (2 ^ 63 - 2 ^ 52) (double_of n)); [lia|]. reflexivity.
Qed.

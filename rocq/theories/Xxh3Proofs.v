(* XXH3 one-shot: every build of the code computes the reference semantics. *)
From Coq Require Import NArith Arith List Lia Bool.
From Verif Require Import Base XxhModel XxhSpec XxhProofs XxhProps Xxh3Model Xxh3Spec.
Import ListNotations.
Open Scope N_scope.

Definition bytes (bs : list N) : Prop := Forall is_byte bs.
Definition word (x : N) : Prop := x < 2 ^ 64.

(* ---- arithmetic ---- *)
Lemma plus_word : forall a b, word (plus a b).
Proof. intros. apply N.mod_lt. discriminate. Qed.
Lemma minus_word : forall a b, word (minus a b).
Proof. intros. apply N.mod_lt. discriminate. Qed.
Lemma times_word : forall a b, word (times a b).
Proof. intros. apply N.mod_lt. discriminate. Qed.
Lemma mod_word : forall a, word (a mod 2 ^ 64).
Proof. intros. apply N.mod_lt. discriminate. Qed.
Lemma lxor_word : forall a b, word a -> word b -> word (N.lxor a b).
Proof. intros. now apply lxor_lt. Qed.
Lemma mix_word : forall x s, word x -> word (mix x s).
Proof. intros. now apply mix_lt. Qed.
Lemma avalanche_word : forall x, word (avalanche x).
Proof. intros. apply mix_word, times_word. Qed.
Lemma avalanche_ok : forall x, XXH3_avalanche x = avalanche x.
Proof. intros. unfold XXH3_avalanche, avalanche. now rewrite !xorshift_mix. Qed.

Lemma bytes_firstn : forall n bs, bytes bs -> bytes (firstn n bs).
Proof. intros n bs H. revert n. induction H; intros [|n]; cbn; constructor; auto; apply IHForall. Qed.
Lemma bytes_skipn : forall n bs, bytes bs -> bytes (skipn n bs).
Proof. unfold bytes. intros n bs H. revert n. induction H; intros [|n]; cbn; auto. Qed.
Lemma bytes_app : forall a b, bytes a -> bytes b -> bytes (a ++ b).
Proof. intros. now apply Forall_app. Qed.
Lemma at_bound : forall n bs p, bytes bs -> le (firstn n (skipn p bs)) < 256 ^ N.of_nat n.
Proof.
  intros n bs p B. eapply N.lt_le_trans; [apply le_lt, bytes_firstn, bytes_skipn; auto|].
  apply N.pow_le_mono_r; [discriminate|]. rewrite firstn_length. lia.
Qed.
Lemma at64_word : forall bs p, bytes bs -> word (at64 bs p).
Proof. intros bs p B. exact (at_bound 8 bs p B). Qed.
Lemma at32_lt : forall bs p, bytes bs -> at32 bs p < 2 ^ 32.
Proof. intros bs p B. exact (at_bound 4 bs p B). Qed.
Lemma at32_word : forall bs p, bytes bs -> word (at32 bs p).
Proof. intros bs p B. unfold word. eapply N.lt_trans; [apply at32_lt; auto|]. reflexivity. Qed.
Lemma at8_lt : forall bs p, bytes bs -> at8 bs p < 256.
Proof.
  intros bs p B. unfold at8. destruct (nth_in_or_default p bs 0) as [I|E]; [|rewrite E; reflexivity].
  apply (proj1 (Forall_forall _ _) B _ I).
Qed.
Lemma rd64 : forall b p, (p + 8 <= length b)%nat -> readLE64 b p = Ok (at64 b p).
Proof. exact readLE64_ok. Qed.
Lemma rd32 : forall b p, (p + 4 <= length b)%nat -> readLE32 b p = Ok (at32 b p).
Proof. exact readLE32_ok. Qed.
Lemma rd8 : forall b p, (p < length b)%nat -> read8 b p = Ok (at8 b p).
Proof. exact aget_nth. Qed.
Lemma at64_skipn : forall b p q, at64 (skipn p b) q = at64 b (p + q).
Proof. intros. unfold at64. now rewrite skipn_skipn. Qed.
Lemma at64_firstn : forall b n p q, (q + 8 <= n)%nat -> at64 (firstn n (skipn p b)) q = at64 b (p + q).
Proof. intros. unfold at64. rewrite skipn_firstn_comm, skipn_skipn, firstn_firstn. do 2 f_equal. lia. Qed.
Lemma flip4 : forall x, swap32 x = flip 4 x.
Proof. exact swap32_rev. Qed.
Lemma flip8 : forall x, swap64 x = flip 8 x.
Proof. exact swap64_rev. Qed.
Lemma flip_lt : forall n x, flip n x < 256 ^ N.of_nat n.
Proof.
  intros. unfold flip, be. change (digits n x) with (bytesLE n x). rewrite <- (bytes_length n x) at 2. rewrite <- rev_length.
  apply le_lt, Forall_rev, bytes_are_bytes.
Qed.
Lemma assert_ok : forall c b, b = true -> XXH_ASSERT c b = Ok tt.
Proof. intros c b ->. unfold XXH_ASSERT. now destruct (debug c). Qed.

(* the portable long multiplication is exact *)
Lemma mult_split : forall B a1 a0 b1 b0, a1 < B -> a0 < B -> b1 < B -> b0 < B -> 0 < B ->
  let cross := a0 * b0 / B + (a1 * b0) mod B + a0 * b1 in
  let upper := a1 * b0 / B + cross / B + a1 * b1 in
  let lower := (cross mod B) * B + (a0 * b0) mod B in
  (a1 * B + a0) * (b1 * B + b0) = upper * (B * B) + lower /\ lower < B * B /\ cross < B * B /\ upper < B * B.
Proof.
  intros B a1 a0 b1 b0 A1 A0 B1 B0 P cross upper lower.
  assert (D0 := N.div_mod (a0 * b0) B ltac:(lia)). assert (M0 := N.mod_lt (a0 * b0) B ltac:(lia)).
  assert (D1 := N.div_mod (a1 * b0) B ltac:(lia)). assert (M1 := N.mod_lt (a1 * b0) B ltac:(lia)).
  assert (D2 := N.div_mod cross B ltac:(lia)). assert (M2 := N.mod_lt cross B ltac:(lia)).
  subst upper lower. unfold cross in D2 at 1.
  set (q0 := a0 * b0 / B) in *. set (r0 := (a0 * b0) mod B) in *. set (q1 := a1 * b0 / B) in *. set (r1 := (a1 * b0) mod B) in *.
  assert (Q0 : q0 < B) by (apply N.div_lt_upper_bound; nia).
  assert (Cb : cross < B * B) by (unfold cross; fold q0 r1; nia).
  set (q2 := cross / B) in *. set (r2 := cross mod B) in *.
  assert (E : (a1 * B + a0) * (b1 * B + b0) = (q1 + q2 + a1 * b1) * (B * B) + (r2 * B + r0)).
  { replace ((a1 * B + a0) * (b1 * B + b0)) with (a1 * b1 * (B * B) + (a1 * b0) * B + (a0 * b1) * B + a0 * b0) by ring.
    rewrite D1, D0. transitivity (a1 * b1 * (B * B) + q1 * (B * B) + (q0 + r1 + a0 * b1) * B + r0); [ring|]. rewrite D2. ring. }
  repeat split; auto; [nia|].
  assert (H : (a1 * B + a0) * (b1 * B + b0) < (B * B) * (B * B)) by (apply N.mul_lt_mono; nia). nia.
Qed.
Lemma land32 : forall x, N.land x 0xFFFFFFFF = x mod 2 ^ 32.
Proof. intros. change 0xFFFFFFFF with (N.ones 32). apply N.land_ones. Qed.
Lemma m32 : forall x y, x < 2 ^ 32 -> y < 2 ^ 32 -> mult32to64 x y = x * y.
Proof.
  intros x y Hx Hy. unfold mult32to64, wmul. rewrite !(wrap_small 32) by auto. apply wrap_small.
  change (2 ^ 64) with (2 ^ 32 * 2 ^ 32). now apply N.mul_lt_mono.
Qed.
Lemma hi32 : forall x, word x -> N.shiftr x 32 < 2 ^ 32.
Proof. intros x W. rewrite N.shiftr_div_pow2. apply N.div_lt_upper_bound; [discriminate|]. exact W. Qed.
Lemma mult_ok : forall c a b, word a -> word b -> mult64to128 c a b = ((a * b) mod 2 ^ 64, a * b / 2 ^ 64).
Proof.
  intros c a b Wa Wb. unfold mult64to128.
  assert (Q : a * b / 2 ^ 64 < 2 ^ 64) by (apply N.div_lt_upper_bound; [discriminate|now apply N.mul_lt_mono]).
  destruct (int128 c).
  - unfold mult64to128_wide, wmul. rewrite (wrap_small 128) by (change (2 ^ 128) with (2 ^ 64 * 2 ^ 64); now apply N.mul_lt_mono).
    rewrite N.shiftr_div_pow2, (wrap_small 64 (a * b / 2 ^ 64)) by auto. reflexivity.
  - unfold mult64to128_portable. rewrite !land32.
    assert (Ha := hi32 a Wa). assert (Hb := hi32 b Wb). rewrite !N.shiftr_div_pow2 in *.
    assert (La : a mod 2 ^ 32 < 2 ^ 32) by (apply N.mod_lt; discriminate).
    assert (Lb : b mod 2 ^ 32 < 2 ^ 32) by (apply N.mod_lt; discriminate).
    rewrite !m32 by auto.
    destruct (mult_split (2 ^ 32) (a / 2 ^ 32) (a mod 2 ^ 32) (b / 2 ^ 32) (b mod 2 ^ 32) Ha La Hb Lb ltac:(reflexivity)) as (E & L & C & U).
    assert (Ea : a / 2 ^ 32 * 2 ^ 32 + a mod 2 ^ 32 = a) by (rewrite N.mul_comm; symmetry; apply N.div_mod; discriminate).
    assert (Eb : b / 2 ^ 32 * 2 ^ 32 + b mod 2 ^ 32 = b) by (rewrite N.mul_comm; symmetry; apply N.div_mod; discriminate).
    rewrite Ea, Eb in E. change (2 ^ 32 * 2 ^ 32) with (2 ^ 64) in *.
    set (ll := a mod 2 ^ 32 * (b mod 2 ^ 32)) in *. set (hl := a / 2 ^ 32 * (b mod 2 ^ 32)) in *.
    set (lh := a mod 2 ^ 32 * (b / 2 ^ 32)) in *. set (hh := a / 2 ^ 32 * (b / 2 ^ 32)) in *.
    rewrite (wadd_small 64 (ll / 2 ^ 32)) by (eapply N.le_lt_trans; [|exact C]; lia).
    rewrite (wadd_small 64 _ lh) by exact C.
    set (cross := ll / 2 ^ 32 + hl mod 2 ^ 32 + lh) in *.
    rewrite (wadd_small 64 (hl / 2 ^ 32)) by (eapply N.le_lt_trans; [|exact U]; lia).
    rewrite wadd_small by exact U.
    assert (S : wrap 64 (N.shiftl cross 32) = cross mod 2 ^ 32 * 2 ^ 32).
    { unfold wrap. rewrite N.shiftl_mul_pow2. change (2 ^ 64) with (2 ^ 32 * 2 ^ 32). now rewrite N.mul_mod_distr_r by discriminate. }
    rewrite S, lor_add by (apply N.mod_lt; discriminate). rewrite N.mul_comm in E. f_equal.
    + apply (N.mod_unique _ _ (hl / 2 ^ 32 + cross / 2 ^ 32 + hh) _ L). rewrite (N.mul_comm a b), E. f_equal. apply N.mul_comm.
    + apply (N.div_unique _ _ _ _ L). rewrite (N.mul_comm a b), E. f_equal. apply N.mul_comm.
Qed.
Lemma fold_ok : forall c a b, word a -> word b -> mul128_fold64 c a b = fold64 a b.
Proof. intros. unfold mul128_fold64. rewrite mult_ok by auto. reflexivity. Qed.

(* ---- loops ---- *)
Lemma for_up_ok : forall {A} n i (f : nat -> A -> outcome A) (g : A -> nat -> A) (P : A -> Prop) a, P a ->
  (forall j a, (i <= j < i + n)%nat -> P a -> f j a = Ok (g a j) /\ P (g a j)) ->
  for_up n i f a = Ok (fold_left g (seq i n) a) /\ P (fold_left g (seq i n) a).
Proof.
  intros A n. induction n; intros i f g P a Pa H; cbn [for_up seq fold_left]; auto.
  destruct (H i a ltac:(lia) Pa) as [-> P']. cbn [bind]. apply IHn; auto. intros. apply H; auto. lia.
Qed.

(* ---- accumulators ---- *)
Definition swaps (w : width) : bool := match w with acc_64bits => false | acc_128bits => true end.
Definition good (a : list N) : Prop := length a = 8%nat /\ Forall word a.
Lemma soak_good : forall sw key a st, good (soak sw key a st).
Proof. intros. split; [reflexivity|]. unfold soak. apply Forall_forall. intros x I. apply in_map_iff in I. destruct I as (i & <- & _). apply mod_word. Qed.
Lemma scramble_good : forall key a, good (scramble key a).
Proof. intros. split; [reflexivity|]. unfold scramble. apply Forall_forall. intros x I. apply in_map_iff in I. destruct I as (i & <- & _). apply times_word. Qed.
Lemma good_cases : forall a, good a -> exists a0 a1 a2 a3 a4 a5 a6 a7, a = [a0; a1; a2; a3; a4; a5; a6; a7]
  /\ word a0 /\ word a1 /\ word a2 /\ word a3 /\ word a4 /\ word a5 /\ word a6 /\ word a7.
Proof.
  intros a [L F]. do 8 (destruct a as [|? a]; [discriminate|]). destruct a; [|discriminate].
  repeat match goal with H : Forall _ (_ :: _) |- _ => inversion H; clear H; subst end. repeat eexists; auto.
Qed.

Definition prod32 (x : N) : N := (x mod 2 ^ 32) * (x / 2 ^ 32).
Lemma scalar_prod : forall x, word x -> mult32to64 (N.land x 0xFFFFFFFF) (N.shiftr x 32) = prod32 x.
Proof. intros x W. rewrite land32, m32; [|apply N.mod_lt; discriminate|now apply hi32]. now rewrite N.shiftr_div_pow2. Qed.
Lemma add2 : forall a b d, wadd 64 (wadd 64 a b) d = (a + b + d) mod 2 ^ 64.
Proof. intros. unfold wadd, wrap. now rewrite add_mod_l by discriminate. Qed.
Lemma add2_swap : forall a b d, wadd 64 (wadd 64 a d) b = (a + b + d) mod 2 ^ 64.
Proof. intros. rewrite add2. f_equal. lia. Qed.
Lemma vec_prod : forall x y, word (fst x) -> word (snd x) -> y = shuffle x 0 3 0 1 ->
  vmul32 x y = (prod32 (fst x), prod32 (snd x)).
Proof.
  intros [x0 x1] y W0 W1 ->. cbn in W0, W1. unfold vmul32, shuffle, lane32, prod32. cbn [fst snd].
  assert (M : forall u v, v < 2 ^ 32 -> wrap 32 (v + 2 ^ 32 * u) = v).
  { intros u v H. unfold wrap. rewrite (N.mul_comm (2 ^ 32)), N.mod_add by discriminate. now apply N.mod_small. }
  rewrite !M by now apply hi32. now rewrite !N.shiftr_div_pow2.
Qed.
Lemma vec_swap : forall x, word (fst x) -> word (snd x) -> shuffle x 1 0 3 2 = (snd x, fst x).
Proof.
  intros [x0 x1] W0 W1. unfold shuffle, lane32. cbn [fst snd]. rewrite !N.shiftr_div_pow2. unfold wrap.
  f_equal; rewrite N.add_comm; symmetry; apply N.div_mod; discriminate.
Qed.
Lemma add_vec : forall a b d, wadd 64 d (wadd 64 a b) = (a + b + d) mod 2 ^ 64.
Proof. intros. unfold wadd, wrap. rewrite add_mod_r by discriminate. f_equal. lia. Qed.

Lemma accumulate_512_ok : forall c w a b p sec s, good a -> bytes b -> bytes sec ->
  (p + 64 <= length b)%nat -> (s + 64 <= length sec)%nat ->
  accumulate_512 c w a b p sec s = Ok (soak (swaps w) (skipn s sec) a (firstn 64 (skipn p b))).
Proof.
  intros c w a b p sec s G Bb Bs Lb Ls.
  destruct (good_cases a G) as (a0 & a1 & a2 & a3 & a4 & a5 & a6 & a7 & -> & _).
  assert (W : forall i j, word (N.lxor (at64 b i) (at64 sec j))) by (intros; apply lxor_word; now apply at64_word).
  assert (Wb : forall i, word (at64 b i)) by (intros; now apply at64_word).
  unfold soak. cbn [seq map nth]. rewrite !at64_skipn, !at64_firstn by (destruct w; cbn; lia).
  unfold accumulate_512. destruct (vector c).
  - unfold accumulate_part, vload, vget, vset. cbn [for_up].
    repeat (rewrite !rd64 by lia; cbn [bind Nat.mul Nat.add aget aset nth_error lset length Nat.ltb Nat.leb fst snd]).
    repeat (rewrite vec_prod by (reflexivity || apply W); cbn [fst snd]).
    destruct w; cbn [vadd fst snd swaps partner Nat.even];
      repeat (rewrite vec_swap by apply Wb; cbn [fst snd]); unfold vadd; cbn [fst snd]; rewrite !add_vec; unfold prod32, vxor; cbn [fst snd Nat.sub Nat.mul Nat.add];
      rewrite ?Nat.add_0_r, <- ?Nat.add_assoc; reflexivity.
  - unfold accumulate_lane. cbn [for_up].
    change (Nat.lxor 0 1) with 1%nat. change (Nat.lxor 1 1) with 0%nat. change (Nat.lxor 2 1) with 3%nat. change (Nat.lxor 3 1) with 2%nat.
    change (Nat.lxor 4 1) with 5%nat. change (Nat.lxor 5 1) with 4%nat. change (Nat.lxor 6 1) with 7%nat. change (Nat.lxor 7 1) with 6%nat.
    destruct w; cbn [swaps partner Nat.even Nat.sub Nat.mul Nat.add];
      repeat (rewrite !rd64 by lia; cbn [bind Nat.mul Nat.add aget aset nth_error lset length Nat.ltb Nat.leb]);
      rewrite !scalar_prod by apply W; rewrite ?add2; unfold prod32; [reflexivity|].
    apply f_equal. repeat (apply f_equal2; [first [reflexivity | apply (f_equal (fun x => x mod 2 ^ 64)); ring]|]). reflexivity.
Qed.

Lemma xorshift_word : forall x s, word x -> word (N.lxor x (N.shiftr x s)).
Proof. intros. rewrite N.shiftr_div_pow2. now apply (mix_word x s). Qed.
Lemma scramble_ok : forall c a sec s, good a -> bytes sec -> (s + 64 <= length sec)%nat ->
  scrambleAcc c a sec s = Ok (scramble (skipn s sec) a).
Proof.
  intros c a sec s G Bs Ls.
  destruct (good_cases a G) as (a0 & a1 & a2 & a3 & a4 & a5 & a6 & a7 & -> & W0 & W1 & W2 & W3 & W4 & W5 & W6 & W7).
  unfold scramble. cbn [seq map nth]. rewrite !at64_skipn. unfold scrambleAcc. destruct (vector c).
  - assert (V : forall x, word (fst x) -> word (snd x) ->
      vadd (vmul32 x (set1 PRIME32_1)) (vshl (vmul32 (shuffle x 0 3 0 1) (set1 PRIME32_1)) 32) = (times (fst x) p1, times (snd x) p1)).
    { intros [x0 x1] V0 V1. cbn [fst snd] in *. unfold vadd, vmul32, vshl, shuffle, lane32, set1. cbn [fst snd].
      assert (M : forall u v, v < 2 ^ 32 -> wrap 32 (v + 2 ^ 32 * u) = v).
      { intros u v H. unfold wrap. rewrite (N.mul_comm (2 ^ 32)), N.mod_add by discriminate. now apply N.mod_small. }
      rewrite !(M PRIME32_1 PRIME32_1) by reflexivity. rewrite !M by now apply hi32.
      assert (T : forall x, wadd 64 (wrap 32 x * PRIME32_1) (wrap 64 (N.shiftl (N.shiftr x 32 * PRIME32_1) 32)) = times x p1).
      { intro x. unfold wadd, times. unfold wrap at 1 3. rewrite add_mod_r by discriminate. f_equal.
        rewrite N.shiftl_mul_pow2, N.shiftr_div_pow2. change PRIME32_1 with p1. unfold wrap.
        rewrite (N.div_mod x (2 ^ 32)) at 3 by discriminate. ring. }
      now rewrite !T. }
    unfold scramble_part, vload, vget, vset. cbn [for_up].
    repeat (rewrite !rd64 by lia; cbn [bind Nat.mul Nat.add aget aset nth_error lset length Nat.ltb Nat.leb fst snd]).
    unfold vshr, vxor. cbn [fst snd].
    repeat (rewrite V by (cbn [fst snd]; apply lxor_word; [apply (xorshift_word _ 47)|apply at64_word]; auto); cbn [fst snd]).
    unfold mix. rewrite !N.shiftr_div_pow2. now rewrite <- !Nat.add_assoc.
  - unfold scramble_lane. cbn [for_up].
    repeat (rewrite !rd64 by lia; cbn [bind Nat.mul Nat.add aget aset nth_error lset length Nat.ltb Nat.leb]).
    rewrite !xorshift_mix. reflexivity.
Qed.

(* ---- a pass over stripes ---- *)
Lemma over_piece : forall {S} n f (s : S) k l r, (0 < n)%nat -> (n * k <= length l)%nat ->
  over_stripes n f s (firstn (n * k) l ++ r) = over_stripes n f (over_stripes n f s (firstn (n * k) l)) r.
Proof.
  intros S n f s k l r Hn L. rewrite over_app by auto. f_equal.
  assert (E : length (rest n (firstn (n * k) l)) = 0%nat).
  { rewrite rest_length, firstn_length_le, Nat.mul_comm, Nat.mod_mul by lia. reflexivity. }
  apply length_zero_iff_nil in E. now rewrite E.
Qed.
Lemma over_full : forall {S} n f (s : S) l, (0 < n)%nat ->
  over_stripes n f s l = over_stripes n f s (firstn (n * (length l / n)) l).
Proof.
  intros S n f s l Hn. assert (D := Nat.div_mod (length l) n ltac:(lia)). assert (M := Nat.mod_upper_bound (length l) n ltac:(lia)).
  rewrite <- (firstn_skipn (n * (length l / n)) l) at 1. rewrite over_piece by lia.
  apply over_small. rewrite skipn_length. lia.
Qed.
Lemma piece_cons : forall {A} n k p (b : list A), (p + n * S k <= length b)%nat ->
  firstn n (firstn (n * S k) (skipn p b)) = firstn n (skipn p b)
  /\ skipn n (firstn (n * S k) (skipn p b)) = firstn (n * k) (skipn (p + n) b).
Proof.
  intros A n k p b L. split.
  - rewrite firstn_firstn. f_equal. lia.
  - rewrite skipn_firstn_comm, skipn_skipn. f_equal. lia.
Qed.

Section Long.
  Context (c : build) (w : width) (sec : list N) (Bs : bytes sec) (Ls : (136 <= length sec)%nat).
  Let per := per_block sec.
  Let over := over_stripes 64 (step (swaps w) sec).

  Lemma per_bound : (9 <= per)%nat /\ (8 * per + 64 <= length sec)%nat.
  Proof.
    unfold per, per_block. assert (D := Nat.div_mod (length sec - 64) 8 ltac:(lia)).
    assert (M := Nat.mod_upper_bound (length sec - 64) 8 ltac:(lia)). lia.
  Qed.

  Lemma accumulate_from : forall b n k p j a, good a -> bytes b -> (j + k + n <= per)%nat -> (p + 64 * (k + n) <= length b)%nat ->
    exists a', for_up n k (fun n a => accumulate_512 c w a b (p + n * STRIPE_LEN) sec (j * XXH_SECRET_CONSUME_RATE + n * XXH_SECRET_CONSUME_RATE)) a = Ok a'
      /\ good a' /\ over (a, (j + k)%nat) (firstn (64 * n) (skipn (p + 64 * k) b))
         = if ((0 <? n) && (j + k + n =? per))%nat then (scramble (skipn (length sec - 64) sec) a', 0%nat) else (a', (j + k + n)%nat).
  Proof.
    destruct per_bound as [P1 P2]. unfold STRIPE_LEN, XXH_SECRET_CONSUME_RATE.
    intros b n. induction n; intros k p j a G Bb J L.
    - exists a. cbn [for_up]. rewrite Nat.mul_0_r, !Nat.add_0_r. unfold over. rewrite over_small by (cbn; lia). auto.
    - cbn [for_up]. rewrite accumulate_512_ok by (auto; lia). cbn [bind].
      destruct (IHn (S k) p j _ (soak_good (swaps w) (skipn (j * 8 + k * 8) sec) a (firstn 64 (skipn (p + k * 64) b))) Bb ltac:(lia) ltac:(lia))
        as (a' & E & G' & O).
      exists a'. split; [exact E|]. split; [exact G'|].
      destruct (piece_cons 64 n (p + 64 * k) b ltac:(lia)) as [F1 F2].
      unfold over in *. rewrite over_cons by (try lia; rewrite firstn_length, skipn_length; lia). rewrite F1, F2. clear F1 F2.
      cbn [step]. fold per.
      replace (8 * (j + k))%nat with (j * 8 + k * 8)%nat by lia. replace (p + 64 * k)%nat with (p + k * 64)%nat by lia.
      replace (p + k * 64 + 64)%nat with (p + 64 * S k)%nat by lia. replace (j + S k)%nat with (S (j + k)) in * by lia.
      destruct (Nat.eqb_spec (S (j + k)) per) as [Ep|Np].
      + assert (n = 0)%nat by lia. subst n. cbn [for_up] in E. injection E as <-. rewrite Nat.mul_0_r. rewrite over_small by (cbn; lia).
        cbn [Nat.ltb Nat.leb andb]. replace (j + k + 1)%nat with per by lia. now rewrite Nat.eqb_refl.
      + rewrite O. replace (S (j + k) + n)%nat with (j + k + S n)%nat by lia. change (0 <? S n)%nat with true. cbn [andb].
        destruct n; [cbn [Nat.ltb Nat.leb andb]; destruct (Nat.eqb_spec (j + k + 1) per); [lia|reflexivity]|reflexivity].
  Qed.

  Lemma accumulate_ok : forall b n p j a, good a -> bytes b -> (j + n <= per)%nat -> (p + 64 * n <= length b)%nat ->
    exists a', accumulate c w a b p sec (j * XXH_SECRET_CONSUME_RATE) n = Ok a'
      /\ good a' /\ over (a, j) (firstn (64 * n) (skipn p b))
         = if ((0 <? n) && (j + n =? per))%nat then (scramble (skipn (length sec - 64) sec) a', 0%nat) else (a', (j + n)%nat).
  Proof.
    intros b n p j a G Bb J L. destruct (accumulate_from b n 0 p j a G Bb ltac:(lia) ltac:(lia)) as (a' & E & G' & O).
    rewrite Nat.mul_0_r, !Nat.add_0_r in O. exists a'. auto.
  Qed.

  Lemma consume_ok : forall b t p j a, good a -> bytes b -> (j < per)%nat -> (t <= per)%nat -> (p + 64 * t <= length b)%nat ->
    exists a' j', consumeStripes c w a j per b p t sec (length sec - 64) = Ok (a', j')
      /\ good a' /\ (j' < per)%nat /\ over (a, j) (firstn (64 * t) (skipn p b)) = (a', j').
  Proof.
    destruct per_bound as [P1 P2].
    intros b t p j a G Bb J T L. unfold consumeStripes.
    rewrite assert_ok by (now apply Nat.ltb_lt). cbn [bind].
    destruct (Nat.leb_spec (per - j) t) as [Ge|Lt].
    - destruct (accumulate_ok b (per - j) p j a G Bb ltac:(lia) ltac:(lia)) as (a1 & E1 & G1 & O1). rewrite E1. cbn [bind].
      rewrite scramble_ok by (auto; lia). cbn [bind].
      destruct (accumulate_ok b (t - (per - j)) (p + (per - j) * STRIPE_LEN) 0 _ (scramble_good (skipn (length sec - 64) sec) a1) Bb ltac:(lia)
                  ltac:(unfold STRIPE_LEN; lia)) as (a2 & E2 & G2 & O2).
      cbn [Nat.mul] in E2. rewrite E2. cbn [bind]. exists a2, (t - (per - j))%nat. repeat split; auto; try apply G2; [lia|].
      assert (F : firstn (64 * t) (skipn p b) = firstn (64 * (per - j)) (skipn p b) ++ firstn (64 * (t - (per - j))) (skipn (p + (per - j) * STRIPE_LEN) b)).
      { replace (64 * t)%nat with (64 * (per - j) + 64 * (t - (per - j)))%nat by lia. rewrite firstn_add, skipn_skipn.
        unfold STRIPE_LEN. do 3 f_equal. lia. }
      rewrite F. unfold over in *. rewrite over_piece by (rewrite ?skipn_length; lia). rewrite O1.
      replace (j + (per - j))%nat with per by lia. rewrite Nat.eqb_refl. destruct (Nat.ltb_spec 0 (per - j)); [|lia]. cbn [andb].
      rewrite O2. cbn [Nat.add]. destruct (Nat.eqb_spec (t - (per - j)) per); [lia|]. now rewrite andb_false_r.
    - destruct (accumulate_ok b t p j a G Bb ltac:(lia) ltac:(lia)) as (a1 & E1 & G1 & O1). rewrite E1. cbn [bind].
      exists a1, (j + t)%nat. repeat split; auto; try apply G1; [lia|]. rewrite O1.
      destruct (Nat.eqb_spec (j + t) per); [lia|]. now rewrite andb_false_r.
  Qed.

  Lemma blocks_ok : forall b n k a, good a -> bytes b -> (64 * per * (k + n) <= length b)%nat ->
    exists a', for_up n k (fun n acc => let! acc := accumulate c w acc b (n * (STRIPE_LEN * per)) sec 0 per in
                             scrambleAcc c acc sec (length sec - STRIPE_LEN)) a = Ok a'
      /\ good a' /\ over (a, 0%nat) (firstn (64 * (per * n)) (skipn (64 * per * k) b)) = (a', 0%nat).
  Proof.
    destruct per_bound as [P1 P2].
    intros b n. induction n; intros k a G Bb L.
    - exists a. cbn [for_up]. rewrite !Nat.mul_0_r. unfold over. rewrite over_small by (cbn; lia). auto.
    - cbn [for_up].
      assert (L1 : (64 * per * k + 64 * per <= length b)%nat) by nia.
      destruct (accumulate_ok b per (k * (STRIPE_LEN * per)) 0 a G Bb ltac:(lia) ltac:(unfold STRIPE_LEN; nia)) as (a1 & E1 & G1 & O1).
      cbn [Nat.mul] in E1. rewrite E1. cbn [bind]. unfold STRIPE_LEN at 1. rewrite scramble_ok by (auto; lia). cbn [bind].
      destruct (IHn (S k) _ (scramble_good (skipn (length sec - 64) sec) a1) Bb ltac:(nia)) as (a2 & E2 & G2 & O2).
      exists a2. split; [exact E2|]. split; [exact G2|].
      replace (64 * (per * S n))%nat with (64 * per + 64 * (per * n))%nat by lia. rewrite firstn_add, skipn_skipn. unfold over in *.
      rewrite over_piece by (rewrite ?skipn_length; lia).
      replace (k * (STRIPE_LEN * per))%nat with (64 * per * k)%nat in O1 by (unfold STRIPE_LEN; lia). rewrite O1.
      cbn [Nat.add]. rewrite Nat.eqb_refl. destruct (Nat.ltb_spec 0 per); [|lia]. cbn [andb].
      replace (64 * per * k + 64 * per)%nat with (64 * per * S k)%nat by lia. exact O2.
  Qed.

  Lemma start_good : good start_acc.
  Proof. split; [reflexivity|]. repeat constructor. Qed.
  Lemma passes_good : forall bs, good (fst (passes (swaps w) sec bs)) /\ (snd (passes (swaps w) sec bs) < per)%nat.
  Proof.
    destruct per_bound as [P1 P2]. intro bs. unfold passes.
    apply over_inv with (P := fun s => good (fst s) /\ (snd s < per)%nat); [|].
    - split; [apply start_good|cbn [snd]; lia].
    - intros [a j] st [G J]. cbn [fst snd] in *. cbn [step]. fold per. destruct (Nat.eqb_spec (S j) per); cbn [fst snd].
      + split; [apply scramble_good|lia].
      + split; [apply soak_good|lia].
  Qed.

  Lemma loop_ok : forall b, bytes b -> (64 < length b)%nat ->
    hashLong_internal_loop c w XXH3_INIT_ACC b (length b) sec = Ok (long_acc (swaps w) sec b).
  Proof.
    destruct per_bound as [P1 P2]. intros b Bb L. unfold hashLong_internal_loop, STRIPE_LEN, XXH3_SECRET_SIZE_MIN, XXH_SECRET_CONSUME_RATE.
    change ((length sec - 64) / 8)%nat with per. cbv zeta.
    destruct (Nat.ltb_spec 0 (64 * per)); [|lia]. cbn [defined bind].
    rewrite assert_ok by (now apply Nat.leb_le). cbn [bind].
    set (nb := (length b / (64 * per))%nat).
    assert (D := Nat.div_mod (length b) (64 * per) ltac:(lia)). assert (M := Nat.mod_upper_bound (length b) (64 * per) ltac:(lia)). fold nb in D.
    set (r := ((length b - 64 * per * nb) / 64)%nat).
    assert (R1 := Nat.div_mod (length b - 64 * per * nb) 64 ltac:(lia)). assert (R2 := Nat.mod_upper_bound (length b - 64 * per * nb) 64 ltac:(lia)). fold r in R1.
    assert (Rper : (r < per)%nat) by lia.
    destruct (blocks_ok b nb 0 XXH3_INIT_ACC start_good Bb ltac:(lia)) as (a1 & E1 & G1 & O1).
    unfold STRIPE_LEN in E1. rewrite E1. clear E1. cbn [bind].
    rewrite assert_ok by (now apply Nat.ltb_lt). cbn [bind].
    rewrite assert_ok.
    2:{ apply Nat.leb_le. assert (V := Nat.div_mod (length sec) 8 ltac:(lia)). assert (V' := Nat.mod_upper_bound (length sec) 8 ltac:(lia)). lia. }
    cbn [bind].
    destruct (accumulate_ok b r (nb * (64 * per)) 0 a1 G1 Bb ltac:(lia) ltac:(lia)) as (a2 & E2 & G2 & O2).
    change (0 * XXH_SECRET_CONSUME_RATE)%nat with 0%nat in E2. rewrite E2. clear E2. cbn [bind].
    assert (PS : passes (swaps w) sec b = (a2, r)).
    { unfold passes. rewrite over_full by lia.
      assert (Q : (length b / 64 = per * nb + r)%nat).
      { symmetry. apply Nat.div_unique with (r := ((length b - 64 * per * nb) mod 64)%nat); lia. }
      rewrite Q, Nat.mul_add_distr_l, firstn_add, over_piece by lia.
      rewrite Nat.mul_0_r in O1. cbn [skipn] in O1. unfold over in O1, O2. rewrite Nat.mul_assoc in *.
      change start_acc with XXH3_INIT_ACC. rewrite O1.
      replace (nb * 64 * per)%nat with (64 * per * nb)%nat in O2 by lia. rewrite O2. cbn [Nat.add].
      destruct (Nat.eqb_spec r per); [lia|]. now rewrite andb_false_r. }
    unfold long_acc. rewrite PS. cbn [fst].
    destruct (Nat.eqb_spec (length b mod 64) 0) as [Z|Z].
    - destruct (Nat.ltb_spec 0 (length b mod 64)); [lia|reflexivity].
    - destruct (Nat.ltb_spec 0 (length b mod 64)); [|lia]. rewrite accumulate_512_ok by (auto; unfold XXH_SECRET_LASTACC_START; lia).
      unfold XXH_SECRET_LASTACC_START. rewrite (firstn_all2 (n := 64)) by (rewrite skipn_length; lia).
      do 3 f_equal. lia.
  Qed.
End Long.

Lemma long_acc_good : forall w sec b, (136 <= length sec)%nat -> good (long_acc (swaps w) sec b).
Proof.
  intros w sec b L. unfold long_acc. destruct (length b mod 64 =? 0)%nat; [|apply soak_good]. now apply passes_good.
Qed.

Lemma wadd_mod : forall x y, wadd 64 (x mod 2 ^ 64) y = (x + y) mod 2 ^ 64.
Proof. intros. unfold wadd, wrap. now apply add_mod_l. Qed.
Lemma sum4 : forall a b d e s, wadd 64 (wadd 64 (wadd 64 (wadd 64 s a) b) d) e = (s + (a + (b + (d + (e + 0))))) mod 2 ^ 64.
Proof.
  intros. change (wadd 64 s a) with ((s + a) mod 2 ^ 64). rewrite !wadd_mod. f_equal. ring.
Qed.
Lemma merge_ok : forall c a sec s start, good a -> bytes sec -> (s + 64 <= length sec)%nat ->
  mergeAccs c a sec s start = Ok (join3 (skipn s sec) a start).
Proof.
  intros c a sec s start G Bs Ls.
  destruct (good_cases a G) as (a0 & a1 & a2 & a3 & a4 & a5 & a6 & a7 & -> & W0 & W1 & W2 & W3 & W4 & W5 & W6 & W7).
  unfold join3, sum, mergeAccs, mix2Accs. cbn [seq map fold_right for_up]. rewrite !at64_skipn.
  repeat (rewrite !rd64 by lia; cbn [bind Nat.mul Nat.add aget nth_error nth]).
  rewrite !fold_ok by (apply lxor_word; auto; now apply at64_word).
  rewrite avalanche_ok, sum4. now rewrite <- !Nat.add_assoc.
Qed.

Lemma hashLong64_ok : forall c b sec, bytes b -> bytes sec -> (136 <= length sec)%nat -> (64 < length b)%nat ->
  hashLong_64b_internal c b (length b) sec = Ok (long64 sec b).
Proof.
  intros c b sec Bb Bs Ls L. unfold hashLong_64b_internal. rewrite (loop_ok c acc_64bits sec Bs Ls b Bb L). cbn [bind].
  rewrite assert_ok by (apply Nat.leb_le; unfold XXH_SECRET_MERGEACCS_START; lia). cbn [bind].
  rewrite merge_ok; auto; [now apply long_acc_good|unfold XXH_SECRET_MERGEACCS_START; lia].
Qed.
Lemma wnot_word : forall x, word x -> wnot 64 x = 2 ^ 64 - 1 - x.
Proof.
  intros x W. change (wnot 64 x) with (N.lnot x 64). rewrite N.lnot_sub_low, N.ones_equiv; [reflexivity|].
  destruct (N.eq_dec x 0) as [->|Z]; [reflexivity|]. apply N.log2_lt_pow2; [lia|exact W].
Qed.
Lemma hashLong128_ok : forall c b sec, bytes b -> bytes sec -> (136 <= length sec)%nat -> (64 < length b)%nat ->
  hashLong_128b_internal c b (length b) sec = Ok (long128 sec b).
Proof.
  intros c b sec Bb Bs Ls L. unfold hashLong_128b_internal. rewrite (loop_ok c acc_128bits sec Bs Ls b Bb L). cbn [bind].
  unfold XXH_SECRET_MERGEACCS_START. rewrite assert_ok by (apply Nat.leb_le; lia). cbn [bind].
  assert (G := long_acc_good acc_128bits sec b Ls).
  rewrite merge_ok by (auto; lia). cbn [bind]. rewrite merge_ok by (auto; lia). cbn [bind].
  unfold long128. rewrite wnot_word by apply times_word. replace (length sec - 64 - 11)%nat with (length sec - 75)%nat by lia. reflexivity.
Qed.

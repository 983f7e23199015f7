(* Short inputs never collide: the hashes are injective on inputs that fit into one word. *)
From Coq Require Import NArith ZArith Arith List Lia Bool.
From Verif Require Import Base XxhModel XxhSpec XxhProofs XxhProps Xxh3Model Xxh3Spec Xxh3Proofs Xxh3ShortProofs Xxh3Props.
Import ListNotations.
Open Scope N_scope.

(* ---- the steps are injective ---- *)
Lemma high_bits : forall w x i, x < 2 ^ w -> w <= i -> N.testbit x i = false.
Proof.
  intros w x i X I. destruct (N.eq_dec x 0) as [->|Nz]; [apply N.bits_0|]. apply N.bits_above_log2.
  apply N.log2_lt_pow2 in X; lia.
Qed.
Lemma mix_inj : forall w s x y, 0 < s -> x < 2 ^ w -> y < 2 ^ w -> mix x s = mix y s -> x = y.
Proof.
  intros w s x y S X Y E. apply N.bits_inj. intro i.
  assert (K : forall n i, w <= i + N.of_nat n -> N.testbit x i = N.testbit y i).
  { induction n; intros j L.
    - rewrite !(high_bits w) by (auto; lia). reflexivity.
    - assert (B : N.testbit (mix x s) j = N.testbit (mix y s) j) by now rewrite E.
      unfold mix in B. rewrite !N.lxor_spec, <- !N.shiftr_div_pow2, !N.shiftr_spec', (IHn (j + s)) in B by lia.
      destruct (N.testbit x j), (N.testbit y j), (N.testbit y (j + s)); auto; discriminate. }
  apply (K (N.to_nat w)). lia.
Qed.
Lemma mul_inj : forall m c c' x y, (c * c') mod m = 1 -> x < m -> y < m -> (x * c) mod m = (y * c) mod m -> x = y.
Proof.
  intros m c c' x y I X Y E.
  assert (K : forall z, z < m -> ((z * c) mod m * c') mod m = z).
  { intros z Z. rewrite N.mul_mod_idemp_l by lia. rewrite <- N.mul_assoc, <- N.mul_mod_idemp_r, I, N.mul_1_r by lia. now apply N.mod_small. }
  rewrite <- (K x X), <- (K y Y), E. reflexivity.
Qed.
Lemma add_inj : forall m a x y, x < m -> y < m -> (x + a) mod m = (y + a) mod m -> x = y.
Proof.
  intros m a x y X Y E. assert (M : m <> 0) by lia.
  assert (K : forall z, z < m -> ((z + a) mod m + (m - a mod m)) mod m = z).
  { intros z Z. rewrite N.add_mod_idemp_l by auto. assert (D := N.div_mod a m M). assert (L := N.mod_lt a m M).
    replace (z + a + (m - a mod m)) with (z + (a / m + 1) * m) by lia. rewrite N.mod_add by auto. now apply N.mod_small. }
  rewrite <- (K x X), <- (K y Y), E. reflexivity.
Qed.
Lemma lxor_inj : forall a x y, N.lxor x a = N.lxor y a -> x = y.
Proof.
  intros a x y E. rewrite <- (N.lxor_0_r x), <- (N.lxor_0_r y), <- (N.lxor_nilpotent a), <- !N.lxor_assoc, E. reflexivity.
Qed.

(* rotation as a permutation of the bits *)
Lemma rot_bits : forall x r i, x < 2 ^ 64 -> r < 64 ->
  N.testbit (rot 64 x r) i = (i <? 64) && N.testbit x ((i + (64 - r)) mod 64).
Proof.
  intros x r i X R. unfold rot.
  assert (P : x / 2 ^ (64 - r) < 2 ^ r).
  { apply N.div_lt_upper_bound; [apply N.pow_nonzero; discriminate|]. rewrite <- N.pow_add_r. now replace (64 - r + r) with 64 by lia. }
  assert (A : (x * 2 ^ r) mod 2 ^ 64 + x / 2 ^ (64 - r) = N.lor ((x * 2 ^ r) mod 2 ^ 64) (x / 2 ^ (64 - r))).
  { rewrite <- N.lxor_lor, N.add_nocarry_lxor; auto; apply N.bits_inj; intro j; rewrite N.land_spec, N.bits_0;
      (destruct (N.lt_ge_cases j r);
        [destruct (N.lt_ge_cases j 64); [rewrite N.mod_pow2_bits_low, N.mul_pow2_bits_low by lia; reflexivity|rewrite N.mod_pow2_bits_high by lia; reflexivity]
        |rewrite (high_bits r (x / 2 ^ (64 - r))) by auto; apply andb_false_r]). }
  rewrite A, N.lor_spec, <- N.shiftr_div_pow2, N.shiftr_spec'. destruct (N.ltb_spec i 64) as [I|I]; cbn [andb].
  - rewrite N.mod_pow2_bits_low by auto. destruct (N.lt_ge_cases i r) as [J|J].
    + rewrite N.mul_pow2_bits_low by auto. cbn [orb]. rewrite N.mod_small by lia. reflexivity.
    + rewrite N.mul_pow2_bits_high by auto. rewrite (high_bits 64 x (i + (64 - r))) by (auto; lia). rewrite orb_false_r.
      replace (i + (64 - r)) with (i - r + 1 * 64) by lia. rewrite N.mod_add, N.mod_small by lia. reflexivity.
  - rewrite N.mod_pow2_bits_high, (high_bits 64 x) by (auto; lia). reflexivity.
Qed.
Lemma rot_word : forall x r, x < 2 ^ 64 -> r < 64 -> rot 64 x r < 2 ^ 64.
Proof.
  intros x r X R. destruct (N.eq_dec (rot 64 x r) 0) as [->|Nz]; [reflexivity|]. apply N.log2_lt_pow2; [lia|].
  destruct (N.lt_ge_cases (N.log2 (rot 64 x r)) 64) as [|G]; auto.
  assert (B := N.bit_log2 (rot 64 x r) Nz). rewrite rot_bits in B by auto. apply N.ltb_ge in G. rewrite G in B. discriminate.
Qed.
Lemma rot_lxor : forall x y r, x < 2 ^ 64 -> y < 2 ^ 64 -> r < 64 -> rot 64 (N.lxor x y) r = N.lxor (rot 64 x r) (rot 64 y r).
Proof.
  intros x y r X Y R. apply N.bits_inj. intro i. rewrite N.lxor_spec, !rot_bits, N.lxor_spec by (auto; apply lxor_lt; auto).
  destruct (i <? 64); reflexivity.
Qed.
Lemma rot_rot : forall x a b, x < 2 ^ 64 -> a < 64 -> b < 64 -> rot 64 (rot 64 x a) b = rot 64 x ((a + b) mod 64).
Proof.
  intros x a b X A B. assert (C : (a + b) mod 64 < 64) by now apply N.mod_lt. apply N.bits_inj. intro i.
  rewrite (rot_bits (rot 64 x a)), !rot_bits by auto using rot_word. destruct (N.ltb_spec i 64) as [I|I]; cbn [andb]; auto.
  assert (D : (i + (64 - b)) mod 64 <? 64 = true) by (apply N.ltb_lt; now apply N.mod_lt). rewrite D. cbn [andb]. f_equal.
  rewrite N.add_mod_idemp_l by discriminate. destruct (N.lt_ge_cases (a + b) 64) as [L|L].
  - rewrite (N.mod_small (a + b)) by auto. replace (i + (64 - b) + (64 - a)) with (i + (64 - (a + b)) + 1 * 64) by lia. now rewrite N.mod_add.
  - replace ((a + b) mod 64) with (a + b - 64).
    + f_equal. lia.
    + replace (a + b) with (a + b - 64 + 1 * 64) at 2 by lia. rewrite N.mod_add by discriminate. rewrite N.mod_small; lia.
Qed.
Lemma rot_inj : forall x y r, x < 2 ^ 64 -> y < 2 ^ 64 -> r < 64 -> rot 64 x r = rot 64 y r -> x = y.
Proof.
  intros x y r X Y R E. apply N.bits_inj. intro i.
  destruct (N.lt_ge_cases i 64) as [I|I]; [|now rewrite !(high_bits 64) by auto].
  assert (B : N.testbit (rot 64 x r) ((i + r) mod 64) = N.testbit (rot 64 y r) ((i + r) mod 64)) by now rewrite E.
  rewrite !rot_bits in B by auto. assert (D : (i + r) mod 64 <? 64 = true) by (apply N.ltb_lt; now apply N.mod_lt).
  rewrite D, N.add_mod_idemp_l in B by discriminate. cbn [andb] in B.
  replace (i + r + (64 - r)) with (i + 1 * 64) in B by lia. now rewrite N.mod_add, N.mod_small in B by (auto; discriminate).
Qed.

(* x xor two of its rotations: squaring doubles the rotations, and 64 is a power of two *)
Definition tri (a b x : N) : N := N.lxor x (N.lxor (rot 64 x a) (rot 64 x b)).
Lemma tri_word : forall a b x, a < 64 -> b < 64 -> x < 2 ^ 64 -> tri a b x < 2 ^ 64.
Proof. intros. unfold tri. repeat apply lxor_lt; auto using rot_word. Qed.
Lemma tri_tri : forall a b x, a < 64 -> b < 64 -> x < 2 ^ 64 ->
  tri a b (tri a b x) = tri ((a + a) mod 64) ((b + b) mod 64) x.
Proof.
  intros a b x A B X. unfold tri.
  assert (Ra := rot_word x a X A). assert (Rb := rot_word x b X B).
  assert (Rab := lxor_lt 64 _ _ Ra Rb).
  rewrite !rot_lxor by auto. rewrite !rot_rot by auto. rewrite (N.add_comm b a).
  generalize (rot 64 x a) (rot 64 x b) (rot 64 x ((a + b) mod 64)) (rot 64 x ((a + a) mod 64)) (rot 64 x ((b + b) mod 64)).
  clear. intros u v w s t. apply N.bits_inj. intro i. rewrite !N.lxor_spec.
  destruct (N.testbit x i), (N.testbit u i), (N.testbit v i), (N.testbit w i), (N.testbit s i), (N.testbit t i); reflexivity.
Qed.
Lemma tri_0 : forall x, x < 2 ^ 64 -> tri 0 0 x = x.
Proof. intros x X. unfold tri. now rewrite N.lxor_nilpotent, N.lxor_0_r. Qed.
Lemma tri_inj : forall x y, x < 2 ^ 64 -> y < 2 ^ 64 -> tri 49 24 x = tri 49 24 y -> x = y.
Proof.
  intros x y X Y E.
  assert (St : forall a b, a < 64 -> b < 64 -> tri a b x = tri a b y -> tri ((a + a) mod 64) ((b + b) mod 64) x = tri ((a + a) mod 64) ((b + b) mod 64) y).
  { intros a b A B F. rewrite <- !tri_tri by auto. now rewrite F. }
  do 6 (apply St in E; [|reflexivity|reflexivity]).
  assert (Z : forall z, z < 2 ^ 64 -> tri 0 0 z = z) by apply tri_0.
  rewrite <- (Z x X), <- (Z y Y). exact E.
Qed.
(* x xor a sum of its high bits: the high bits are kept *)
Lemma bump_inj : forall n x y, n <= 8 -> x < 2 ^ 64 -> y < 2 ^ 64 ->
  N.lxor x (plus (x / 2 ^ 35) n) = N.lxor y (plus (y / 2 ^ 35) n) -> x = y.
Proof.
  intros n x y L X Y E.
  assert (Sm : forall z, z < 2 ^ 64 -> plus (z / 2 ^ 35) n < 2 ^ 30).
  { intros z Z. assert (z / 2 ^ 35 < 2 ^ 29) by (apply N.div_lt_upper_bound; [discriminate|rewrite <- N.pow_add_r; exact Z]).
    unfold plus. rewrite N.mod_small; change (2 ^ 29) with 536870912 in *; change (2 ^ 30) with 1073741824; change (2 ^ 64) with 18446744073709551616; lia. }
  assert (Hi : x / 2 ^ 35 = y / 2 ^ 35).
  { apply N.bits_inj. intro i. rewrite <- !N.shiftr_div_pow2, !N.shiftr_spec'.
    assert (B : N.testbit (N.lxor x (plus (x / 2 ^ 35) n)) (i + 35) = N.testbit (N.lxor y (plus (y / 2 ^ 35) n)) (i + 35)) by now rewrite E.
    rewrite !N.lxor_spec, (high_bits 30 (plus (x / 2 ^ 35) n)), (high_bits 30 (plus (y / 2 ^ 35) n)), !xorb_false_r in B by (auto; lia). exact B. }
  rewrite Hi in E. now apply lxor_inj in E.
Qed.
Lemma rot_inj_any : forall w x y r, r <= w -> x < 2 ^ w -> y < 2 ^ w -> rot w x r = rot w y r -> x = y.
Proof.
  intros w x y r R X Y E. unfold rot in E.
  assert (P : 2 ^ w = 2 ^ (w - r) * 2 ^ r) by (rewrite <- N.pow_add_r; f_equal; lia).
  assert (Z1 := pow2_nz r). assert (Z2 := pow2_nz (w - r)). rewrite P, !N.mul_mod_distr_r in E by auto.
  assert (B : forall z, z < 2 ^ w -> z / 2 ^ (w - r) < 2 ^ r).
  { intros z L. apply N.div_lt_upper_bound; auto. now rewrite <- P. }
  rewrite !(N.mul_comm _ (2 ^ r)) in E. destruct (N.div_mod_unique _ _ _ _ _ (B x X) (B y Y) E) as [E1 E2].
  rewrite (N.div_mod x (2 ^ (w - r))), (N.div_mod y (2 ^ (w - r))) by auto. now rewrite E1, E2.
Qed.
Lemma rot_lt : forall w x r, r <= w -> x < 2 ^ w -> rot w x r < 2 ^ w.
Proof.
  intros w x r R X. unfold rot. assert (P : 2 ^ w = 2 ^ (w - r) * 2 ^ r) by (rewrite <- N.pow_add_r; f_equal; lia).
  assert (Z1 := pow2_nz r). assert (Z2 := pow2_nz (w - r)).
  assert (B : x / 2 ^ (w - r) < 2 ^ r) by (apply N.div_lt_upper_bound; auto; now rewrite <- P).
  rewrite P, N.mul_mod_distr_r by auto. assert (L := N.mod_lt x (2 ^ (w - r)) Z2). nia.
Qed.

(* ---- equal bytes ---- *)
Lemma le_inj : forall a b, Forall is_byte a -> Forall is_byte b -> length a = length b -> le a = le b -> a = b.
Proof.
  induction a as [|x a IH]; intros [|y b] Fa Fb L E; cbn [length] in L; try discriminate; auto.
  inversion Fa; subst. inversion Fb; subst. cbn [le] in E. unfold is_byte in *.
  rewrite !(N.add_comm _ (256 * _)) in E. destruct (N.div_mod_unique 256 (le a) (le b) x y) as [E1 ->]; auto.
  f_equal. apply IH; auto.
Qed.
Lemma bytes_part : forall n p bs, Forall is_byte bs -> Forall is_byte (firstn n (skipn p bs)).
Proof.
  intros n p bs F. rewrite Forall_forall in *. intros x I. apply F. rewrite <- (firstn_skipn p bs). apply in_or_app. right.
  rewrite <- (firstn_skipn n (skipn p bs)). apply in_or_app. now left.
Qed.
Lemma part_inj : forall n p a b, Forall is_byte a -> Forall is_byte b -> length a = length b ->
  le (firstn n (skipn p a)) = le (firstn n (skipn p b)) -> firstn n (skipn p a) = firstn n (skipn p b).
Proof. intros n p a b Fa Fb L E. apply le_inj; auto using bytes_part. rewrite !firstn_length, !skipn_length. lia. Qed.
(* front and back overlap or meet: together they are all *)
Lemma front_back : forall n (a b : list N), length a = length b -> (length a <= 2 * n)%nat ->
  firstn n a = firstn n b -> skipn (length a - n) a = skipn (length a - n) b -> a = b.
Proof.
  intros n a b L M F B. apply nth_ext with (d := 0) (d' := 0); auto. intros i I.
  assert (Q : forall m, skipn m a = skipn m b -> (m <= i)%nat -> nth i a 0 = nth i b 0).
  { intros m E Le. rewrite <- (firstn_skipn m a), <- (firstn_skipn m b), !app_nth2; rewrite ?firstn_length; try lia. rewrite E, L. reflexivity. }
  destruct (Nat.lt_ge_cases i n) as [Lt|Ge]; [|apply (Q _ B); lia].
  rewrite <- (firstn_skipn n a), <- (firstn_skipn n b), !app_nth1 by (rewrite firstn_length; lia). now rewrite F.
Qed.

(* ---- XXH3, up to 8 bytes (64 bits) and up to 16 bytes (128 bits) ---- *)
Lemma avalanche_inj : forall x y, word x -> word y -> avalanche x = avalanche y -> x = y.
Proof.
  intros x y X Y E. unfold avalanche in E.
  apply (mix_inj 64) in E; try reflexivity; try apply times_word. unfold times in E.
  apply (mul_inj _ _ 637979407623780425) in E; try reflexivity; try (apply mix_lt; assumption).
  apply (mix_inj 64) in E; auto; reflexivity.
Qed.
Lemma scatter_inj : forall x y, word x -> word y -> scatter x = scatter y -> x = y.
Proof. intros x y X Y E. unfold scatter, times in E. apply (mul_inj _ _ 192419422752744621) in E; auto. Qed.
Lemma q1_inj : forall x y, word x -> word y -> times x q1 = times y q1 -> x = y.
Proof. intros x y X Y E. unfold times in E. apply (mul_inj _ _ 614540362697595703) in E; auto. Qed.

Lemma at8_byte : forall bs p, Forall is_byte bs -> at8 bs p < 256.
Proof.
  intros bs p F. unfold at8. destruct (Nat.lt_ge_cases p (length bs)) as [L|L]; [|now rewrite nth_overflow].
  exact (proj1 (Forall_forall _ _) F _ (nth_In _ _ L)).
Qed.
Lemma fml_word : forall bs, Forall is_byte bs -> (length bs <= 3)%nat -> word (first_mid_last bs).
Proof.
  intros bs F L. unfold first_mid_last, word, size.
  assert (A := at8_byte bs (length bs - 1) F). assert (B := at8_byte bs 0 F). assert (C := at8_byte bs (length bs / 2) F).
  change (2 ^ 8) with 256. change (2 ^ 16) with 65536. change (2 ^ 24) with 16777216. change (2 ^ 64) with 18446744073709551616. lia.
Qed.
Lemma fml_inj : forall a b, Forall is_byte a -> Forall is_byte b -> (1 <= length a <= 3)%nat -> (1 <= length b <= 3)%nat ->
  first_mid_last a = first_mid_last b -> a = b.
Proof.
  intros a b Fa Fb La Lb E.
  assert (A1 := at8_byte a (length a - 1) Fa). assert (A2 := at8_byte a 0 Fa). assert (A3 := at8_byte a (length a / 2) Fa).
  assert (B1 := at8_byte b (length b - 1) Fb). assert (B2 := at8_byte b 0 Fb). assert (B3 := at8_byte b (length b / 2) Fb).
  unfold first_mid_last, size in E. change (2 ^ 8) with 256 in E. change (2 ^ 16) with 65536 in E. change (2 ^ 24) with 16777216 in E.
  assert (H : at8 a (length a - 1) = at8 b (length b - 1) /\ length a = length b /\ at8 a 0 = at8 b 0 /\ at8 a (length a / 2) = at8 b (length b / 2)) by lia.
  clear -H La. destruct H as (H1 & L & H2 & H3). unfold at8 in *.
  destruct a as [|a0 [|a1 [|a2 [|]]]], b as [|b0 [|b1 [|b2 [|]]]]; cbn in *; try discriminate; try lia; congruence.
Qed.
Theorem short64_inj3 : forall sec seed a b, word seed -> bytes sec -> Forall is_byte a -> Forall is_byte b ->
  (1 <= length a <= 3)%nat -> (1 <= length b <= 3)%nat -> short64 sec seed a = short64 sec seed b -> a = b.
Proof.
  intros sec seed a b W S Fa Fb La Lb E. unfold short64 in E.
  assert (P : forall n, (1 <= n <= 3)%nat -> (n =? 0)%nat = false /\ (n <=? 3)%nat = true).
  { intros n H. split; [apply Nat.eqb_neq; lia|apply Nat.leb_le; lia]. }
  destruct (P _ La) as [P1 P2], (P _ Lb) as [P3 P4]. cbv zeta in E. rewrite P1, P2, P3, P4 in E.
  assert (K := plus_word (N.lxor (at32 sec 0) (at32 sec 4)) seed). set (k := plus _ _) in *. clearbody k.
  apply avalanche_inj in E; try apply times_word. apply q1_inj in E; try (apply lxor_word; auto; apply fml_word; auto; lia).
  apply lxor_inj in E. apply fml_inj in E; auto.
Qed.
Lemma pair_word : forall a b, a < 2 ^ 32 -> b < 2 ^ 32 -> word (a + 2 ^ 32 * b).
Proof. intros a b A B. unfold word. change (2 ^ 64) with (2 ^ 32 * 2 ^ 32). nia. Qed.
Lemma pair_inj : forall a b c d, a < 2 ^ 32 -> c < 2 ^ 32 -> a + 2 ^ 32 * b = c + 2 ^ 32 * d -> a = c /\ b = d.
Proof. intros a b c d A C E. rewrite !(N.add_comm _ (2 ^ 32 * _)) in E. destruct (N.div_mod_unique _ _ _ _ _ A C E). auto. Qed.
Lemma ends_inj : forall n a b, Forall is_byte a -> Forall is_byte b -> length a = length b -> (n <= length a <= 2 * n)%nat ->
  le (firstn n a) = le (firstn n b) -> le (firstn n (skipn (length a - n) a)) = le (firstn n (skipn (length a - n) b)) -> a = b.
Proof.
  intros n a b Fa Fb L M E1 E2. apply (part_inj n 0) in E1; auto. apply part_inj in E2; auto. cbn [skipn] in E1.
  rewrite !firstn_all2 in E2 by (rewrite skipn_length; lia). apply (front_back n); auto. lia.
Qed.
Theorem short64_inj8 : forall sec seed a b, word seed -> bytes sec -> Forall is_byte a -> Forall is_byte b ->
  length a = length b -> (4 <= length a <= 8)%nat -> short64 sec seed a = short64 sec seed b -> a = b.
Proof.
  intros sec seed a b W S Fa Fb L La E. unfold short64 in E. cbv zeta in E. rewrite <- L in E.
  assert (P : (length a =? 0)%nat = false /\ (length a <=? 3)%nat = false /\ (length a <=? 8)%nat = true).
  { repeat split; [apply Nat.eqb_neq|apply Nat.leb_gt|apply Nat.leb_le]; lia. }
  destruct P as (P1 & P2 & P3). rewrite P1, P2, P3 in E.
  replace (size b) with (size a) in E by (unfold size; now rewrite L).
  assert (K : word (minus (N.lxor (at64 sec 8) (at64 sec 16)) (spread seed))) by apply minus_word. set (k := minus _ _) in *. clearbody k.
  assert (Wa : word (at32 a (length a - 4) + 2 ^ 32 * at32 a 0)) by (apply pair_word; now apply at32_lt).
  assert (Wb : word (at32 b (length a - 4) + 2 ^ 32 * at32 b 0)) by (apply pair_word; now apply at32_lt).
  set (u := at32 a (length a - 4) + _) in *. set (v := at32 b (length a - 4) + _) in *.
  assert (Ku := lxor_word _ _ Wa K). assert (Kv := lxor_word _ _ Wb K).
  assert (Tu := tri_word 49 24 _ eq_refl eq_refl Ku). assert (Tv := tri_word 49 24 _ eq_refl eq_refl Kv).
  fold (tri 49 24 (N.lxor u k)) in E. fold (tri 49 24 (N.lxor v k)) in E.
  assert (Su : word (scatter (tri 49 24 (N.lxor u k)))) by apply times_word.
  assert (Sv : word (scatter (tri 49 24 (N.lxor v k)))) by apply times_word.
  apply (mix_inj 64) in E; try reflexivity; try apply times_word.
  apply scatter_inj in E; try (apply lxor_word; auto; apply plus_word).
  apply bump_inj in E; auto; [|unfold size; lia].
  apply scatter_inj in E; auto. apply tri_inj in E; auto. apply lxor_inj in E.
  unfold u, v in E. apply pair_inj in E; try now apply at32_lt. destruct E as [E1 E2].
  unfold at32 in *. cbn [skipn] in E2. apply (ends_inj 4); auto.
Qed.

Lemma odd_inverse : forall n, (4 <= n <= 8)%nat -> exists c', ((q1 + 4 * N.of_nat n) * c') mod 2 ^ 64 = 1.
Proof.
  intros n H. assert (D : n = 4%nat \/ n = 5%nat \/ n = 6%nat \/ n = 7%nat \/ n = 8%nat) by lia.
  destruct D as [->|[->|[->|[->| ->]]]]; [exists 14235818232743220519|exists 17538525664608652179|exists 5347250228291227999|exists 8261976180446476555|exists 7089167629660798231]; reflexivity.
Qed.
Lemma pair_eq : forall {A B} (a a' : A) (b b' : B), (a, b) = (a', b') -> a = a' /\ b = b'.
Proof. intros A B a a' b b' E. injection E. auto. Qed.
Lemma div_word : forall x s, word x -> word (x / 2 ^ s).
Proof. intros x s X. eapply N.le_lt_trans; [|exact X]. apply N.div_le_upper_bound; [apply pow2_nz|]. assert (Z := pow2_nz s). nia. Qed.
Theorem short128_inj8 : forall sec seed a b, word seed -> bytes sec -> Forall is_byte a -> Forall is_byte b ->
  length a = length b -> (4 <= length a <= 8)%nat -> short128 sec seed a = short128 sec seed b -> a = b.
Proof.
  intros sec seed a b W S Fa Fb L La E. unfold short128 in E. cbv zeta in E. rewrite <- L in E.
  assert (P : (length a =? 0)%nat = false /\ (length a <=? 3)%nat = false /\ (length a <=? 8)%nat = true).
  { repeat split; [apply Nat.eqb_neq|apply Nat.leb_gt|apply Nat.leb_le]; lia. }
  destruct P as (P1 & P2 & P3). rewrite P1, P2, P3 in E.
  replace (size b) with (size a) in E by (unfold size; now rewrite L).
  assert (K : word (plus (N.lxor (at64 sec 16) (at64 sec 24)) (spread seed))) by apply plus_word. set (k := plus _ _) in *. clearbody k.
  assert (Wa : word (at32 a 0 + 2 ^ 32 * at32 a (length a - 4))) by (apply pair_word; now apply at32_lt).
  assert (Wb : word (at32 b 0 + 2 ^ 32 * at32 b (length a - 4))) by (apply pair_word; now apply at32_lt).
  set (u := at32 a 0 + _) in *. set (v := at32 b 0 + _) in *.
  assert (Ku := lxor_word _ _ Wa K). assert (Kv := lxor_word _ _ Wb K).
  destruct (odd_inverse (length a) La) as [c' I]. unfold size in E. set (c := q1 + 4 * N.of_nat (length a)) in *. clearbody c.
  apply pair_eq in E. destruct E as [E1 E2]. apply avalanche_inj in E2; try apply mod_word. rewrite E2 in E1.
  set (hv := (N.lxor v k * c / 2 ^ 64 + _) mod 2 ^ 64) in *. assert (Hv : word hv) by apply mod_word. clearbody hv.
  assert (Hv3 := div_word hv 3 Hv).
  apply (mix_inj 64) in E1; try reflexivity; try apply times_word.
  apply scatter_inj in E1; try (apply mix_word, lxor_word; auto; apply mod_word).
  apply (mix_inj 64) in E1; try reflexivity; try (apply lxor_word; auto; apply mod_word).
  apply lxor_inj in E1. apply (mul_inj _ _ c') in E1; auto. apply lxor_inj in E1.
  unfold u, v in E1. apply pair_inj in E1; try now apply at32_lt. destruct E1 as [E1 E3].
  unfold at32 in *. cbn [skipn] in E1. apply (ends_inj 4); auto.
Qed.
(* the high word is split and its low half multiplied *)
Lemma split_mul_inj : forall x y, word x -> word y ->
  ((x / 2 ^ 32) * 2 ^ 32 + (x mod 2 ^ 32) * p2) mod 2 ^ 64 = ((y / 2 ^ 32) * 2 ^ 32 + (y mod 2 ^ 32) * p2) mod 2 ^ 64 -> x = y.
Proof.
  intros x y X Y E.
  assert (Q : forall z, ((z / 2 ^ 32) * 2 ^ 32 + (z mod 2 ^ 32) * p2) mod 2 ^ 64 mod 2 ^ 32 = ((z mod 2 ^ 32) * p2) mod 2 ^ 32).
  { intro z. rewrite N.add_comm. change (2 ^ 64) with (2 ^ 32 * 2 ^ 32). rewrite N.mod_mul_r by discriminate.
    rewrite (N.mul_comm (2 ^ 32) (_ mod _)), N.mod_add, N.mod_mod, N.mod_add by discriminate. reflexivity. }
  assert (Lo : x mod 2 ^ 32 = y mod 2 ^ 32).
  { apply (mul_inj (2 ^ 32) p2 3066638151); try reflexivity; try (apply N.mod_lt; discriminate). rewrite <- !Q, E. reflexivity. }
  rewrite Lo in E. assert (B : forall z, word z -> z / 2 ^ 32 * 2 ^ 32 < 2 ^ 64).
  { intros z Z. assert (z / 2 ^ 32 < 2 ^ 32) by (apply N.div_lt_upper_bound; [discriminate|exact Z]).
    change (2 ^ 64) with (2 ^ 32 * 2 ^ 32). apply N.mul_lt_mono_pos_r; [reflexivity|auto]. }
  apply add_inj in E; auto. apply N.mul_cancel_r in E; [|discriminate].
  rewrite (N.div_mod x (2 ^ 32)), (N.div_mod y (2 ^ 32)) by discriminate. now rewrite E, Lo.
Qed.
Theorem short128_inj16 : forall sec seed a b, word seed -> bytes sec -> Forall is_byte a -> Forall is_byte b ->
  length a = length b -> (9 <= length a <= 16)%nat -> short128 sec seed a = short128 sec seed b -> a = b.
Proof.
  intros sec seed a b W S Fa Fb L La E. unfold short128 in E. cbv zeta in E. rewrite <- L in E.
  assert (P : (length a =? 0)%nat = false /\ (length a <=? 3)%nat = false /\ (length a <=? 8)%nat = false /\ (length a <=? 16)%nat = true).
  { repeat split; [apply Nat.eqb_neq|apply Nat.leb_gt|apply Nat.leb_gt|apply Nat.leb_le]; lia. }
  destruct P as (P1 & P2 & P3 & P4). rewrite P1, P2, P3, P4 in E.
  replace (size b) with (size a) in E by (unfold size; now rewrite L).
  assert (K1 := plus_word (N.lxor (at64 sec 48) (at64 sec 56)) seed). set (k1 := plus _ _) in *. clearbody k1.
  assert (K2 := minus_word (N.lxor (at64 sec 32) (at64 sec 40)) seed). set (k2 := minus _ _) in *. clearbody k2.
  set (k3 := 2 ^ 54 * _) in *. clearbody k3.
  assert (A0 := at64_word a 0 Fa). assert (A1 := at64_word a (length a - 8) Fa).
  assert (B0 := at64_word b 0 Fb). assert (B1 := at64_word b (length a - 8) Fb).
  assert (G : at64 a 0 = at64 b 0 /\ at64 a (length a - 8) = at64 b (length a - 8)).
  2:{ destruct G as [G1 G2]. apply (ends_inj 8); [exact Fa|exact Fb|exact L|lia|exact G1|exact G2]. }
  set (x0 := at64 a 0) in *. set (x1 := at64 a (length a - 8)) in *. set (y0 := at64 b 0) in *. set (y1 := at64 b (length a - 8)) in *.
  clearbody x0 x1 y0 y1. clear - E K1 K2 A0 A1 B0 B1.
  set (m := N.lxor (N.lxor x0 x1) k2 * q1) in *. set (m' := N.lxor (N.lxor y0 y1) k2 * q1) in *.
  assert (Hm : word (N.lxor (N.lxor x0 x1) k2) /\ word (N.lxor (N.lxor y0 y1) k2)) by (split; repeat apply lxor_word; auto).
  set (hi := N.lxor x1 k1) in *. set (hi' := N.lxor y1 k1) in *.
  assert (Hh : word hi /\ word hi') by (split; apply lxor_word; auto).
  assert (H1 : word ((m / 2 ^ 64 + hi / 2 ^ 32 * 2 ^ 32 + hi mod 2 ^ 32 * p2) mod 2 ^ 64)) by apply mod_word.
  assert (H2 : word ((m' / 2 ^ 64 + hi' / 2 ^ 32 * 2 ^ 32 + hi' mod 2 ^ 32 * p2) mod 2 ^ 64)) by apply mod_word.
  assert (G1 : word ((m + k3) mod 2 ^ 64)) by apply mod_word. assert (G2 : word ((m' + k3) mod 2 ^ 64)) by apply mod_word.
  remember ((m / 2 ^ 64 + hi / 2 ^ 32 * 2 ^ 32 + hi mod 2 ^ 32 * p2) mod 2 ^ 64) as high eqn:Eh.
  remember ((m' / 2 ^ 64 + hi' / 2 ^ 32 * 2 ^ 32 + hi' mod 2 ^ 32 * p2) mod 2 ^ 64) as high' eqn:Eh'.
  remember ((m + k3) mod 2 ^ 64) as low eqn:El. remember ((m' + k3) mod 2 ^ 64) as low' eqn:El'.
  assert (F1 : word (N.lxor low (flip 8 high))) by (apply lxor_word; auto; apply (flip_lt 8)).
  assert (F2 : word (N.lxor low' (flip 8 high'))) by (apply lxor_word; auto; apply (flip_lt 8)).
  assert (J : high = high' /\ low = low').
  { remember (N.lxor low (flip 8 high)) as l eqn:Ll. remember (N.lxor low' (flip 8 high')) as l' eqn:Ll'.
    apply pair_eq in E. destruct E as [E1 E2]. apply avalanche_inj in E1; try apply mod_word. apply avalanche_inj in E2; try apply mod_word.
    assert (Q : ((l + high * 2 ^ 64) * q2) mod (2 ^ 64 * 2 ^ 64) = ((l' + high' * 2 ^ 64) * q2) mod (2 ^ 64 * 2 ^ 64)).
    { rewrite !N.mod_mul_r by discriminate. now rewrite E1, E2. }
    assert (B : forall u v, word u -> word v -> u + v * 2 ^ 64 < 2 ^ 64 * 2 ^ 64).
    { clear. unfold word. intros u v U V. nia. }
    apply (mul_inj _ _ 17760883082637542633886208344124640175) in Q; [|reflexivity|now apply B|now apply B].
    rewrite (N.add_comm l), (N.add_comm l'), !(N.mul_comm _ (2 ^ 64)) in Q. destruct (N.div_mod_unique (2 ^ 64) high high' l l' F1 F2 Q) as [Q1 Q2].
    split; auto. rewrite Ll, Ll', Q1 in Q2. now apply lxor_inj in Q2. }
  destruct J as [Jh Jl]. rewrite El, El' in Jl. clear E.
  assert (M1 : N.lxor (N.lxor x0 x1) k2 = N.lxor (N.lxor y0 y1) k2).
  { apply q1_inj; try apply Hm. unfold times. fold m m'. apply (add_inj (2 ^ 64) k3); try apply mod_word.
    rewrite !N.add_mod_idemp_l by discriminate. exact Jl. }
  assert (M2 : m = m') by (unfold m, m'; now rewrite M1).
  rewrite Eh, Eh', M2, <- !N.add_assoc, !(N.add_comm (m' / 2 ^ 64)) in Jh.
  assert (N1 : hi = hi').
  { apply split_mul_inj; try apply Hh. apply (add_inj (2 ^ 64) (m' / 2 ^ 64)); try apply mod_word. rewrite !N.add_mod_idemp_l by discriminate. exact Jh. }
  unfold hi, hi' in N1. apply lxor_inj in N1. subst y1. apply lxor_inj in M1. apply lxor_inj in M1. auto.
Qed.

(* ---- changing one word ---- *)
(* the lists have the same length and agree outside of [lo, hi) *)
Definition same_outside (lo hi : nat) (a b : list N) : Prop :=
  length a = length b /\ forall j, (j < lo \/ hi <= j)%nat -> nth j a 0 = nth j b 0.
Lemma nth_skip : forall m i (l : list N), nth i (skipn m l) 0 = nth (m + i) l 0.
Proof.
  intros m i l. destruct (Nat.lt_ge_cases m (length l)) as [L|L].
  - rewrite <- (firstn_skipn m l) at 2. rewrite app_nth2; rewrite firstn_length; [f_equal; lia|lia].
  - rewrite skipn_all2, !nth_overflow by (cbn; lia). reflexivity.
Qed.
Lemma nth_first : forall m i (l : list N), (i < m)%nat -> nth i (firstn m l) 0 = nth i l 0.
Proof.
  intros m i l L. destruct (Nat.lt_ge_cases i (length l)) as [M|M].
  - rewrite <- (firstn_skipn m l) at 2. rewrite app_nth1; auto. rewrite firstn_length. lia.
  - rewrite !nth_overflow; auto. rewrite firstn_length. lia.
Qed.
Lemma so_eq : forall lo hi a b, same_outside lo hi a b -> (hi <= lo \/ length a <= lo)%nat -> a = b.
Proof. intros lo hi a b [L E] H. apply nth_ext with (d := 0) (d' := 0); auto. intros i I. apply E. lia. Qed.
Lemma so_skip : forall m lo hi a b, same_outside lo hi a b -> same_outside (lo - m) (hi - m) (skipn m a) (skipn m b).
Proof.
  intros m lo hi a b [L E]. split; [rewrite !skipn_length; lia|]. intros j J. rewrite !nth_skip. apply E. lia.
Qed.
Lemma so_first : forall m lo hi a b, same_outside lo hi a b -> same_outside lo hi (firstn m a) (firstn m b).
Proof.
  intros m lo hi a b [L E]. split; [rewrite !firstn_length; lia|]. intros j J. destruct (Nat.lt_ge_cases j m) as [M|M].
  - rewrite !nth_first by auto. auto.
  - rewrite !nth_overflow; auto; rewrite firstn_length; lia.
Qed.
Lemma so_stripe : forall n k lo hi a b, same_outside lo hi a b -> same_outside (lo - n * k) (hi - n * k) (stripe n k a) (stripe n k b).
Proof. intros. unfold stripe. now apply so_first, so_skip. Qed.
Lemma stripe_len : forall n k (a : list N), (length (stripe n k a) <= n)%nat.
Proof. intros. unfold stripe. rewrite firstn_length. lia. Qed.
Lemma so_stripe_eq : forall n k lo hi a b, same_outside lo hi a b -> (n * k + n <= lo \/ hi <= n * k)%nat -> stripe n k a = stripe n k b.
Proof. intros n k lo hi a b S H. apply (so_eq _ _ _ _ (so_stripe n k _ _ _ _ S)). assert (P := stripe_len n k a). lia. Qed.
Lemma so_stripe_ne : forall n q lo hi a b, same_outside lo hi a b -> (n * q <= lo)%nat -> (hi <= n * q + n)%nat -> a <> b ->
  stripe n q a <> stripe n q b.
Proof.
  intros n q lo hi a b [L E] H1 H2 Ne F. apply Ne. apply nth_ext with (d := 0) (d' := 0); auto. intros i I.
  destruct (Nat.lt_ge_cases i lo) as [A|A]; [apply E; auto|]. destruct (Nat.lt_ge_cases i hi) as [B|B]; [|apply E; auto].
  assert (Q : nth (i - n * q) (stripe n q a) 0 = nth (i - n * q) (stripe n q b) 0) by now rewrite F.
  unfold stripe in Q. rewrite !nth_first, !nth_skip in Q by lia. replace (n * q + (i - n * q))%nat with i in Q by lia. exact Q.
Qed.
Lemma stripe_bytes : forall n k a, Forall is_byte a -> Forall is_byte (stripe n k a).
Proof. intros. now apply bytes_part. Qed.
Lemma le_stripe_ne : forall n q a b, Forall is_byte a -> Forall is_byte b -> length a = length b -> stripe n q a <> stripe n q b ->
  le (stripe n q a) <> le (stripe n q b).
Proof. intros n q a b Fa Fb L Ne E. apply Ne. now apply part_inj. Qed.
Lemma le_stripe_lt : forall n q a, Forall is_byte a -> le (stripe n q a) < 256 ^ N.of_nat n.
Proof. intros n q a F. now apply at_bound. Qed.

(* a pass over stripes of which one differs *)
Section Pass.
  Context {T : Type} (n : nat) (f : T -> list N -> T) (I : T -> Prop) (R : T -> T -> Prop)
          (f_I : forall s p, I s -> I (f s p)) (f_R : forall s s' p, R s s' -> R (f s p) (f s' p)).
  Lemma pass_I : forall bs ks s, I s -> I (fold_left (fun s k => f s (stripe n k bs)) ks s).
  Proof. intros bs ks. induction ks; intros s H; cbn; auto. Qed.
  Lemma pass_R : forall bs bs' ks s s', (forall k, In k ks -> stripe n k bs = stripe n k bs') -> R s s' ->
    R (fold_left (fun s k => f s (stripe n k bs)) ks s) (fold_left (fun s k => f s (stripe n k bs')) ks s').
  Proof.
    intros bs bs' ks. induction ks as [|k ks IH]; intros s s' E H; cbn [fold_left]; auto.
    apply IH; [intros; apply E; now right|]. rewrite (E k) by now left. auto.
  Qed.
  Lemma pass_eq : forall bs bs' ks s, (forall k, In k ks -> stripe n k bs = stripe n k bs') ->
    fold_left (fun s k => f s (stripe n k bs)) ks s = fold_left (fun s k => f s (stripe n k bs')) ks s.
  Proof.
    intros bs bs' ks. induction ks as [|k ks IH]; intros s E; cbn [fold_left]; auto. rewrite (E k) by now left.
    apply IH. intros. apply E. now right.
  Qed.
  Lemma pass_one : forall lo hi a b q s, same_outside lo hi a b -> (n * q <= lo)%nat -> (hi <= n * q + n)%nat -> (n * q + n <= length a)%nat ->
    (0 < n)%nat -> (forall s, I s -> R (f s (stripe n q a)) (f s (stripe n q b))) -> I s ->
    R (over_stripes n f s a) (over_stripes n f s b).
  Proof.
    intros lo hi a b q s So H1 H2 H3 H4 D Is. unfold over_stripes. assert (L : length a = length b) by apply So. rewrite <- L.
    assert (Q : (S q <= length a / n)%nat) by (apply Nat.div_le_lower_bound; lia).
    replace (length a / n)%nat with (q + S (length a / n - S q))%nat by lia. rewrite seq_app, !fold_left_app. cbn [seq fold_left Nat.add].
    assert (Eq : forall k, k <> q -> stripe n k a = stripe n k b).
    { intros k Hk. apply (so_stripe_eq n k lo hi); auto. assert (k < q \/ q < k)%nat as [K|K] by lia; [left|right]; nia. }
    apply pass_R.
    - intros k Hk. apply in_seq in Hk. apply Eq. lia.
    - rewrite (pass_eq a b) by (intros k Hk; apply in_seq in Hk; apply Eq; lia). apply D. now apply pass_I.
  Qed.
  Lemma pass_all : forall lo hi a b s, same_outside lo hi a b -> (n * (length a / n) <= lo)%nat ->
    over_stripes n f s a = over_stripes n f s b.
  Proof.
    intros lo hi a b s So H. unfold over_stripes. assert (L : length a = length b) by apply So. rewrite <- L.
    apply pass_eq. intros k K. apply in_seq in K. apply (so_stripe_eq n k lo hi); auto. left. nia.
  Qed.
  Lemma pass_keep : forall a s s', R s s' -> R (over_stripes n f s a) (over_stripes n f s' a).
  Proof. intros. unfold over_stripes. apply pass_R; auto. Qed.
End Pass.

(* different words *)
Definition differ (w : N) (x y : N) : Prop := x < 2 ^ w /\ y < 2 ^ w /\ x <> y.
Definition fits (w : N) (x : N) : Prop := x < 2 ^ w.
Lemma fits_mod : forall w x, fits w (x mod 2 ^ w).
Proof. intros. apply N.mod_lt, pow2_nz. Qed.
Definition invertible (w c : N) : Prop := exists c', (c * c') mod 2 ^ w = 1.
(* add a multiple, rotate, multiply *)
Definition astep (w r c1 c2 h x : N) : N := (rot w ((h + x * c1) mod 2 ^ w) r * c2) mod 2 ^ w.
Lemma astep_h : forall w r c1 c2 h h' x, r <= w -> invertible w c2 -> differ w h h' -> differ w (astep w r c1 c2 h x) (astep w r c1 c2 h' x).
Proof.
  intros w r c1 c2 h h' x R [c' U] (H1 & H2 & H3). split; [apply fits_mod|]. split; [apply fits_mod|]. intro E. apply H3. unfold astep in E.
  apply (mul_inj _ _ c') in E; auto; try (apply rot_lt; auto; apply fits_mod).
  apply rot_inj_any in E; auto; try apply fits_mod. now apply add_inj in E.
Qed.
Lemma astep_x : forall w r c1 c2 h x y, r <= w -> invertible w c1 -> invertible w c2 -> differ w x y -> differ w (astep w r c1 c2 h x) (astep w r c1 c2 h y).
Proof.
  intros w r c1 c2 h x y R [d' V] [c' U] (H1 & H2 & H3). split; [apply fits_mod|]. split; [apply fits_mod|]. intro E. apply H3. unfold astep in E.
  apply (mul_inj _ _ c') in E; auto; try (apply rot_lt; auto; apply fits_mod).
  apply rot_inj_any in E; auto; try apply fits_mod. rewrite !(N.add_comm h) in E.
  rewrite <- (N.add_mod_idemp_l (x * c1)), <- (N.add_mod_idemp_l (y * c1)) in E by apply pow2_nz.
  apply add_inj in E; try apply fits_mod. now apply (mul_inj _ _ d') in E.
Qed.
Ltac inverse c := exists c; reflexivity.
Lemma u_p1 : invertible 32 p1. Proof. inverse 244002641. Qed.
Lemma u_p2 : invertible 32 p2. Proof. inverse 3066638151. Qed.
Lemma u_p3 : invertible 32 p3. Proof. inverse 2828982549. Qed.
Lemma u_p4 : invertible 32 p4. Proof. inverse 2701016015. Qed.
Lemma u_p5 : invertible 32 p5. Proof. inverse 2923004241. Qed.
Lemma u_q1 : invertible 64 q1. Proof. inverse 614540362697595703. Qed.
Lemma u_q2 : invertible 64 q2. Proof. inverse 839798700976720815. Qed.
Lemma u_q3 : invertible 64 q3. Proof. inverse 16855272203555305545. Qed.
Lemma u_q5 : invertible 64 q5. Proof. inverse 14236653164957433613. Qed.

(* ---- XXH32 ---- *)
(* what goes into one step: a whole word of 4 bytes, or a byte behind the last whole word *)
Definition piece32 (n lo hi : nat) : Prop :=
  (exists w, lo = 4 * w /\ hi = 4 * w + 4 /\ hi <= n)%nat \/ (4 * (n / 4) <= lo /\ hi = lo + 1 /\ hi <= n)%nat.
Lemma word32_h : forall h h' p, differ 32 h h' -> differ 32 (word32 h p) (word32 h' p).
Proof. intros h h' p D. apply (astep_h 32 17 p3 p4); auto; [discriminate|apply u_p4]. Qed.
Lemma byte32_h : forall h h' p, differ 32 h h' -> differ 32 (byte32 h p) (byte32 h' p).
Proof. intros h h' p D. apply (astep_h 32 11 p5 p1); auto; [discriminate|apply u_p1]. Qed.
Lemma round32_h : forall h h' p, differ 32 h h' -> differ 32 (round32 h p) (round32 h' p).
Proof. intros h h' p D. apply (astep_h 32 13 p2 p1); auto; [discriminate|apply u_p1]. Qed.
Lemma stripe_differ : forall w n q lo hi a b, Forall is_byte a -> Forall is_byte b -> same_outside lo hi a b -> (n * q <= lo)%nat -> (hi <= n * q + n)%nat ->
  a <> b -> 256 ^ N.of_nat n <= 2 ^ w -> differ w (le (stripe n q a)) (le (stripe n q b)).
Proof.
  intros w n q lo hi a b Fa Fb So H1 H2 Ne B.
  split; [eapply N.lt_le_trans; [now apply le_stripe_lt|auto]|]. split; [eapply N.lt_le_trans; [now apply le_stripe_lt|auto]|].
  apply le_stripe_ne; auto; [apply So|]. eapply so_stripe_ne; eauto.
Qed.
Lemma rest_length : forall n (a : list N), length (rest n a) = (length a - n * (length a / n))%nat.
Proof. intros. unfold rest. apply skipn_length. Qed.
Lemma rest_eq : forall n lo hi a b, (0 < n)%nat -> same_outside lo hi a b -> (hi <= n * (length a / n))%nat -> rest n a = rest n b.
Proof.
  intros n lo hi a b P So H. unfold rest. assert (L : length a = length b) by apply So. rewrite <- L.
  apply (so_eq _ _ _ _ (so_skip (n * (length a / n)) _ _ _ _ So)). lia.
Qed.
Lemma rest_so : forall n lo hi a b, same_outside lo hi a b ->
  same_outside (lo - n * (length a / n)) (hi - n * (length a / n)) (rest n a) (rest n b).
Proof. intros n lo hi a b So. unfold rest. assert (L : length a = length b) by apply So. rewrite <- L. now apply so_skip. Qed.
Lemma rest_ne : forall n lo hi a b, same_outside lo hi a b -> (n * (length a / n) <= lo)%nat -> a <> b -> rest n a <> rest n b.
Proof.
  intros n lo hi a b So H Ne E. apply Ne. unfold rest in E. assert (L : length a = length b) by apply So. rewrite <- L in E.
  rewrite <- (firstn_skipn (n * (length a / n)) a), <- (firstn_skipn (n * (length a / n)) b), E. f_equal.
  apply (so_eq _ _ _ _ (so_first (n * (length a / n)) _ _ _ _ So)). rewrite firstn_length. lia.
Qed.
Lemma rest_bytes : forall n a, Forall is_byte a -> Forall is_byte (rest n a).
Proof. intros. unfold rest. now apply bytes_skipn. Qed.
Lemma tail32_h : forall h h' a, differ 32 h h' -> differ 32 (tail32 h a) (tail32 h' a).
Proof.
  intros h h' a D. unfold tail32. apply pass_keep; [intros; now apply byte32_h|]. apply pass_keep; [intros; now apply word32_h|auto].
Qed.
Lemma tail32_change : forall h lo hi a b, Forall is_byte a -> Forall is_byte b -> same_outside lo hi a b -> piece32 (length a) lo hi -> a <> b -> fits 32 h ->
  differ 32 (tail32 h a) (tail32 h b).
Proof.
  intros h lo hi a b Fa Fb So P Ne Hh. unfold tail32. assert (L : length a = length b) by apply So.
  destruct P as [(w & -> & -> & Hn)|(H1 & -> & H2)].
  - assert (Q : (S w <= length a / 4)%nat) by (apply Nat.div_le_lower_bound; lia).
    rewrite (rest_eq 4 _ _ a b) with (2 := So) by lia. apply pass_keep; [intros; now apply byte32_h|].
    apply (pass_one 4 word32 (fits 32) (differ 32)) with (lo := (4 * w)%nat) (hi := (4 * w + 4)%nat) (q := w); auto; try lia.
    + intros. apply fits_mod.
    + intros. now apply word32_h.
    + intros s Is. apply (astep_x 32 17 p3 p4); [discriminate|apply u_p3|apply u_p4|].
      apply stripe_differ with (4 * w)%nat (4 * w + 4)%nat; auto; discriminate.
  - rewrite (pass_all 4 word32 lo (lo + 1) a b) by auto.
    assert (Fit : fits 32 (over_stripes 4 word32 h b)) by (unfold over_stripes; apply (pass_I 4 word32 (fits 32)); auto; intros; apply fits_mod).
    assert (So' := rest_so 4 _ _ _ _ So). assert (Ne' := rest_ne 4 _ _ _ _ So H1 Ne).
    apply (pass_one 1 byte32 (fits 32) (differ 32)) with (lo := (lo - 4 * (length a / 4))%nat) (hi := (lo + 1 - 4 * (length a / 4))%nat) (q := (lo - 4 * (length a / 4))%nat); auto; try lia.
    + intros. apply fits_mod.
    + intros. now apply byte32_h.
    + rewrite rest_length. lia.
    + intros s Is. apply (astep_x 32 11 p5 p1); [discriminate|apply u_p5|apply u_p1|].
      apply stripe_differ with (lo - 4 * (length a / 4))%nat (lo + 1 - 4 * (length a / 4))%nat; auto using rest_bytes; try lia; discriminate.
Qed.
(* exactly one accumulator differs *)
Definition accs_fit (w : N) (a : accs) : Prop := let '(a1, a2, a3, a4) := a in fits w a1 /\ fits w a2 /\ fits w a3 /\ fits w a4.
Definition one_acc (w : N) (a b : accs) : Prop :=
  let '(a1, a2, a3, a4) := a in let '(b1, b2, b3, b4) := b in
  (differ w a1 b1 /\ a2 = b2 /\ a3 = b3 /\ a4 = b4) \/ (a1 = b1 /\ differ w a2 b2 /\ a3 = b3 /\ a4 = b4)
  \/ (a1 = b1 /\ a2 = b2 /\ differ w a3 b3 /\ a4 = b4) \/ (a1 = b1 /\ a2 = b2 /\ a3 = b3 /\ differ w a4 b4).
Lemma each_lane_fit : forall s p, accs_fit 32 s -> accs_fit 32 (each_lane 4 round32 s p).
Proof. intros [[[a1 a2] a3] a4] p H. cbn. repeat split; apply fits_mod. Qed.
Lemma each_lane_keep : forall s s' p, one_acc 32 s s' -> one_acc 32 (each_lane 4 round32 s p) (each_lane 4 round32 s' p).
Proof.
  intros [[[a1 a2] a3] a4] [[[b1 b2] b3] b4] p H. unfold one_acc, each_lane in *.
  destruct H as [(D & -> & -> & ->)|[(-> & D & -> & ->)|[(-> & -> & D & ->)|(-> & -> & -> & D)]]]; [left|right; left|do 2 right; left|do 3 right];
    repeat split; auto; try apply round32_h; auto; try apply fits_mod; apply (round32_h _ _ _ D).
Qed.
Lemma each_lane_change : forall s i p p', Forall is_byte p -> Forall is_byte p' -> same_outside (4 * i) (4 * i + 4) p p' -> p <> p' -> (i < 4)%nat ->
  one_acc 32 (each_lane 4 round32 s p) (each_lane 4 round32 s p').
Proof.
  intros [[[a1 a2] a3] a4] i p p' Fp Fp' So Ne I. unfold one_acc, each_lane.
  assert (E : forall k, k <> i -> stripe 4 k p = stripe 4 k p').
  { intros k K. apply (so_stripe_eq 4 k _ _ _ _ So). lia. }
  assert (D : forall a, differ 32 (round32 a (le (stripe 4 i p))) (round32 a (le (stripe 4 i p')))).
  { intro a. apply (astep_x 32 13 p2 p1); [discriminate|apply u_p2|apply u_p1|]. apply stripe_differ with (4 * i)%nat (4 * i + 4)%nat; auto; discriminate. }
  assert (C : i = 0%nat \/ i = 1%nat \/ i = 2%nat \/ i = 3%nat) by lia.
  destruct C as [->|[->|[->| ->]]]; [left|right; left|do 2 right; left|do 3 right];
    repeat match goal with |- _ /\ _ => split | |- differ _ _ _ => apply D | |- _ = _ => rewrite E by discriminate; reflexivity end.
Qed.
Lemma join32_change : forall a b, one_acc 32 a b -> differ 32 (join32 a) (join32 b).
Proof.
  intros [[[a1 a2] a3] a4] [[[b1 b2] b3] b4] H. split; [apply fits_mod|]. split; [apply fits_mod|]. unfold one_acc, join32 in *. intro E.
  assert (K : forall r x y c, r <= 32 -> differ 32 x y -> (rot 32 x r + c) mod 2 ^ 32 = (rot 32 y r + c) mod 2 ^ 32 -> False).
  { intros r x y c R (X & Y & Ne) F. apply add_inj in F; try (apply rot_lt; auto). apply rot_inj_any in F; auto. }
  destruct H as [(D & -> & -> & ->)|[(-> & D & -> & ->)|[(-> & -> & D & ->)|(-> & -> & -> & D)]]].
  - apply (K 1 a1 b1 (rot 32 b2 7 + rot 32 b3 12 + rot 32 b4 18)); auto; [discriminate|]. now rewrite !N.add_assoc.
  - apply (K 7 a2 b2 (rot 32 b1 1 + rot 32 b3 12 + rot 32 b4 18)); auto; [discriminate|].
    rewrite !N.add_assoc, (N.add_comm (rot 32 a2 7)), (N.add_comm (rot 32 b2 7)). exact E.
  - apply (K 12 a3 b3 (rot 32 b1 1 + rot 32 b2 7 + rot 32 b4 18)); auto; [discriminate|].
    rewrite (N.add_assoc (rot 32 a3 12)), (N.add_assoc (rot 32 b3 12)), (N.add_comm (rot 32 a3 12)), (N.add_comm (rot 32 b3 12)). exact E.
  - apply (K 18 a4 b4 (rot 32 b1 1 + rot 32 b2 7 + rot 32 b3 12)); auto; [discriminate|].
    rewrite (N.add_comm (rot 32 a4 18)), (N.add_comm (rot 32 b4 18)). exact E.
Qed.
Lemma final32_inj : forall x y, fits 32 x -> fits 32 y -> final32 x = final32 y -> x = y.
Proof.
  intros x y X Y E. unfold final32 in E. apply (mix_inj 32) in E; try reflexivity; try apply fits_mod.
  apply (mul_inj _ _ 2828982549) in E; try reflexivity; try (apply mix_lt; apply fits_mod).
  apply (mix_inj 32) in E; try reflexivity; try apply fits_mod.
  apply (mul_inj _ _ 3066638151) in E; try reflexivity; try (apply mix_lt; assumption).
  apply (mix_inj 32) in E; auto; reflexivity.
Qed.
Lemma xxh32_change : forall seed lo hi a b, Forall is_byte a -> Forall is_byte b -> same_outside lo hi a b -> piece32 (length a) lo hi -> a <> b ->
  xxh32 seed a <> xxh32 seed b.
Proof.
  intros seed lo hi a b Fa Fb So P Ne E. assert (L : length a = length b) by apply So. unfold xxh32 in E. cbv zeta in E. rewrite <- L in E.
  destruct (Nat.lt_ge_cases lo (16 * (length a / 16))) as [Lo|Lo].
  - assert (M := Nat.div_mod (length a) 16 ltac:(discriminate)). assert (M4 := Nat.div_mod (length a) 4 ltac:(discriminate)).
    assert (B4 := Nat.mod_upper_bound (length a) 4 ltac:(discriminate)). assert (B16 := Nat.mod_upper_bound (length a) 16 ltac:(discriminate)).
    destruct P as [(w & -> & -> & Hn)|(H1 & -> & H2)]; [|lia].
    assert (W := Nat.div_mod w 4 ltac:(discriminate)). assert (WB := Nat.mod_upper_bound w 4 ltac:(discriminate)).
    set (q := (w / 4)%nat) in *. set (i := (w mod 4)%nat) in *.
    assert (Sm : (length a <? 16)%nat = false) by (apply Nat.ltb_ge; lia). rewrite Sm in E.
    rewrite (rest_eq 16 _ _ a b ltac:(lia) So) in E by lia.
    assert (D : one_acc 32 (accs32 seed a) (accs32 seed b)).
    { unfold accs32. apply (pass_one 16 (each_lane 4 round32) (accs_fit 32) (one_acc 32)) with (lo := (4 * w)%nat) (hi := (4 * w + 4)%nat) (q := q); auto; try lia.
      - apply each_lane_fit.
      - apply each_lane_keep.
      - intros s Is. apply (each_lane_change s i); auto using stripe_bytes.
        + assert (So' := so_stripe 16 q _ _ _ _ So). replace (4 * w - 16 * q)%nat with (4 * i)%nat in So' by lia.
          replace (4 * w + 4 - 16 * q)%nat with (4 * i + 4)%nat in So' by lia. exact So'.
        + apply (so_stripe_ne 16 q _ _ _ _ So); auto; lia.
      - unfold init32, accs_fit. repeat split; apply fits_mod. }
    apply join32_change in D. destruct D as (D1 & D2 & D3).
    assert (D : differ 32 ((join32 (accs32 seed a) + N.of_nat (length a)) mod 2 ^ 32) ((join32 (accs32 seed b) + N.of_nat (length a)) mod 2 ^ 32)).
    { split; [apply fits_mod|]. split; [apply fits_mod|]. intro F. apply D3. now apply add_inj in F. }
    destruct (tail32_h _ _ (rest 16 b) D) as (T1 & T2 & T3). apply T3. now apply final32_inj.
  - unfold accs32 in E. rewrite (pass_all 16 (each_lane 4 round32) lo hi a b (init32 seed) So Lo) in E.
    set (h := _ mod 2 ^ 32) in E.
    assert (D : differ 32 (tail32 h (rest 16 a)) (tail32 h (rest 16 b))).
    { apply tail32_change with (lo - 16 * (length a / 16))%nat (hi - 16 * (length a / 16))%nat; auto using rest_bytes.
      - now apply rest_so.
      - rewrite rest_length. assert (M := Nat.div_mod (length a) 16 ltac:(discriminate)).
        set (m := (length a / 16)%nat) in *. replace (length a - 16 * m)%nat with (length a mod 16)%nat by lia.
        assert (Q : (length a / 4 = 4 * m + length a mod 16 / 4)%nat).
        { rewrite M at 1. replace (16 * m + length a mod 16)%nat with (length a mod 16 + (4 * m) * 4)%nat by lia. rewrite Nat.div_add by discriminate. lia. }
        destruct P as [(w & -> & -> & Hn)|(H1 & -> & H2)]; [left; exists (w - 4 * m)%nat|right]; lia.
      - now apply (rest_ne 16 lo hi).
      - apply fits_mod. }
    destruct D as (T1 & T2 & T3). apply T3. now apply final32_inj.
Qed.

(* ---- XXH64, behind the last stripe of 32 bytes ---- *)
Definition xstep (r c k h y : N) : N := (rot 64 (N.lxor h y) r * c + k) mod 2 ^ 64.
Lemma xstep_inj : forall r c k z z', r <= 64 -> invertible 64 c -> differ 64 z z' -> differ 64 ((rot 64 z r * c + k) mod 2 ^ 64) ((rot 64 z' r * c + k) mod 2 ^ 64).
Proof.
  intros r c k z z' R [c' U] (H1 & H2 & H3). split; [apply fits_mod|]. split; [apply fits_mod|]. intro E. apply H3.
  rewrite <- (N.add_mod_idemp_l (rot 64 z r * c)), <- (N.add_mod_idemp_l (rot 64 z' r * c)) in E by discriminate.
  apply add_inj in E; try apply fits_mod. apply (mul_inj _ _ c') in E; auto; try (apply rot_lt; auto). now apply rot_inj_any in E.
Qed.
Lemma lxor_h : forall h h' y, differ 64 h h' -> fits 64 y -> differ 64 (N.lxor h y) (N.lxor h' y).
Proof. intros h h' y (H1 & H2 & H3) Y. repeat split; try (apply lxor_lt; auto). intro E. apply H3. now apply lxor_inj in E. Qed.
Lemma lxor_y : forall h y y', differ 64 y y' -> fits 64 h -> differ 64 (N.lxor h y) (N.lxor h y').
Proof. intros h y y' D H. rewrite !(N.lxor_comm h). now apply lxor_h. Qed.
Lemma mul_differ : forall c x y, invertible 64 c -> differ 64 x y -> differ 64 ((x * c) mod 2 ^ 64) ((y * c) mod 2 ^ 64).
Proof. intros c x y [c' U] (X & Y & Ne). split; [apply fits_mod|]. split; [apply fits_mod|]. intro E. apply Ne. now apply (mul_inj _ _ c') in E. Qed.
Lemma long64_is : forall h p, XxhSpec.long64 h p = xstep 27 q1 q4 h (round64 0 (le p)).
Proof. reflexivity. Qed.
Lemma word64_is : forall h p, word64 h p = xstep 23 q2 q3 h ((le p * q1) mod 2 ^ 64).
Proof. reflexivity. Qed.
Lemma byte64_is : forall h p, byte64 h p = xstep 11 q1 0 h ((le p * q5) mod 2 ^ 64).
Proof. intros. unfold byte64, xstep. now rewrite N.add_0_r. Qed.
Lemma long64_h : forall h h' p, differ 64 h h' -> differ 64 (XxhSpec.long64 h p) (XxhSpec.long64 h' p).
Proof. intros h h' p D. rewrite !long64_is. apply xstep_inj; [discriminate|apply u_q1|]. apply lxor_h; auto. apply fits_mod. Qed.
Lemma word64_h : forall h h' p, differ 64 h h' -> differ 64 (word64 h p) (word64 h' p).
Proof. intros h h' p D. rewrite !word64_is. apply xstep_inj; [discriminate|apply u_q2|]. apply lxor_h; auto. apply fits_mod. Qed.
Lemma byte64_h : forall h h' p, differ 64 h h' -> differ 64 (byte64 h p) (byte64 h' p).
Proof. intros h h' p D. rewrite !byte64_is. apply xstep_inj; [discriminate|apply u_q1|]. apply lxor_h; auto. apply fits_mod. Qed.
Lemma fits_steps : forall h p, fits 64 (XxhSpec.long64 h p) /\ fits 64 (word64 h p) /\ fits 64 (byte64 h p).
Proof. intros. repeat split; apply fits_mod. Qed.
(* 8 bytes of the whole 8 byte words, 4 bytes behind them, or a single byte behind these *)
Definition piece64 (n lo hi : nat) : Prop :=
  (exists w, lo = 8 * w /\ hi = 8 * w + 8 /\ hi <= n)%nat \/ (lo = 8 * (n / 8) /\ hi = lo + 4 /\ hi <= n)%nat
  \/ (4 * (n / 4) <= lo /\ hi = lo + 1 /\ hi <= n)%nat.
Lemma tail64_h : forall h h' a, differ 64 h h' -> differ 64 (tail64 h a) (tail64 h' a).
Proof.
  intros h h' a D. unfold tail64. cbv zeta. apply pass_keep; [intros; now apply byte64_h|]. apply pass_keep; [intros; now apply word64_h|].
  apply pass_keep; [intros; now apply long64_h|auto].
Qed.
Lemma div_8_4 : forall n, (n / 4 = 2 * (n / 8) + n mod 8 / 4)%nat.
Proof.
  intro n. rewrite (Nat.div_mod n 8) at 1 by discriminate. replace (8 * (n / 8) + n mod 8)%nat with (n mod 8 + (2 * (n / 8)) * 4)%nat by lia.
  rewrite Nat.div_add by discriminate. lia.
Qed.
Lemma tail64_change : forall h lo hi a b, Forall is_byte a -> Forall is_byte b -> same_outside lo hi a b -> piece64 (length a) lo hi -> a <> b -> fits 64 h ->
  differ 64 (tail64 h a) (tail64 h b).
Proof.
  intros h lo hi a b Fa Fb So P Ne Hh. unfold tail64. cbv zeta. assert (L : length a = length b) by apply So.
  assert (M := Nat.div_mod (length a) 8 ltac:(discriminate)). assert (B8 := Nat.mod_upper_bound (length a) 8 ltac:(discriminate)).
  assert (Fit8 : forall c, fits 64 (over_stripes 8 XxhSpec.long64 h c)) by (intro c; unfold over_stripes; apply (pass_I 8 XxhSpec.long64 (fits 64)); auto; intros; apply fits_steps).
  assert (Fit4 : forall c d s, fits 64 s -> fits 64 (over_stripes 4 word64 s (rest c d))) by (intros c d s Hs; unfold over_stripes; apply (pass_I 4 word64 (fits 64)); auto; intros; apply fits_steps).
  destruct P as [(w & -> & -> & Hn)|P].
  - rewrite (rest_eq 8 _ _ a b ltac:(lia) So) by (assert (S w <= length a / 8)%nat by (apply Nat.div_le_lower_bound; lia); lia).
    apply pass_keep; [intros; now apply byte64_h|]. apply pass_keep; [intros; now apply word64_h|].
    apply (pass_one 8 XxhSpec.long64 (fits 64) (differ 64)) with (lo := (8 * w)%nat) (hi := (8 * w + 8)%nat) (q := w); auto; try lia.
    + intros. apply fits_steps.
    + intros. now apply long64_h.
    + intros s Is. rewrite !long64_is. apply xstep_inj; [discriminate|apply u_q1|]. apply lxor_y; auto.
      apply (astep_x 64 31 q2 q1); [discriminate|apply u_q2|apply u_q1|]. apply stripe_differ with (8 * w)%nat (8 * w + 8)%nat; auto; discriminate.
  - assert (Lo : (8 * (length a / 8) <= lo)%nat) by (assert (D := div_8_4 (length a)); lia).
    rewrite (pass_all 8 XxhSpec.long64 lo hi a b h So Lo).
    assert (So' := rest_so 8 _ _ _ _ So). assert (Ne' := rest_ne 8 _ _ _ _ So Lo Ne). assert (Fa' := rest_bytes 8 a Fa). assert (Fb' := rest_bytes 8 b Fb).
    assert (Ln := rest_length 8 a). assert (D := div_8_4 (length a)). set (m := (length a / 8)%nat) in *.
    replace (length a - 8 * m)%nat with (length a mod 8)%nat in Ln by lia.
    set (a' := rest 8 a) in *. set (b' := rest 8 b) in *. set (h' := over_stripes 8 XxhSpec.long64 h b) in *. assert (Hh' : fits 64 h') by apply Fit8.
    assert (Fit4' : fits 64 (over_stripes 4 word64 h' b')) by now apply Fit4.
    clearbody h' a' b'. destruct P as [(-> & -> & Hn)|(H1 & -> & H2)].
    + replace (8 * m - 8 * m)%nat with 0%nat in So' by lia. replace (8 * m + 4 - 8 * m)%nat with 4%nat in So' by lia.
      rewrite (rest_eq 4 _ _ a' b' ltac:(lia) So') by (assert (1 <= length a' / 4)%nat by (apply Nat.div_le_lower_bound; lia); lia).
      apply pass_keep; [intros; now apply byte64_h|].
      apply (pass_one 4 word64 (fits 64) (differ 64)) with (lo := 0%nat) (hi := 4%nat) (q := 0%nat); auto; try lia.
      * intros. apply fits_steps.
      * intros. now apply word64_h.
      * intros s Is. rewrite !word64_is. apply xstep_inj; [discriminate|apply u_q2|]. apply lxor_y; auto. apply mul_differ; [apply u_q1|].
        apply stripe_differ with 0%nat 4%nat; auto; discriminate.
    + assert (Lo' : (4 * (length a' / 4) <= lo - 8 * m)%nat) by (rewrite Ln; lia).
      rewrite (pass_all 4 word64 _ _ a' b' h' So' Lo').
      assert (So2 := rest_so 4 _ _ _ _ So'). assert (Ne2 := rest_ne 4 _ _ _ _ So' Lo' Ne').
      apply (pass_one 1 byte64 (fits 64) (differ 64)) with (lo := (lo - 8 * m - 4 * (length a' / 4))%nat) (hi := (lo + 1 - 8 * m - 4 * (length a' / 4))%nat)
        (q := (lo - 8 * m - 4 * (length a' / 4))%nat); auto; try lia.
      * intros. apply fits_steps.
      * intros. now apply byte64_h.
      * rewrite rest_length. lia.
      * intros s Is. rewrite !byte64_is. apply xstep_inj; [discriminate|apply u_q1|]. apply lxor_y; auto. apply mul_differ; [apply u_q5|].
        apply stripe_differ with (lo - 8 * m - 4 * (length a' / 4))%nat (lo + 1 - 8 * m - 4 * (length a' / 4))%nat; auto using rest_bytes; try lia; discriminate.
Qed.
Lemma final64_inj : forall x y, fits 64 x -> fits 64 y -> final64 x = final64 y -> x = y.
Proof.
  intros x y X Y E. unfold final64 in E. apply (mix_inj 64) in E; try reflexivity; try apply fits_mod.
  apply (mul_inj _ _ 16855272203555305545) in E; try reflexivity; try (apply mix_lt; apply fits_mod).
  apply (mix_inj 64) in E; try reflexivity; try apply fits_mod.
  apply (mul_inj _ _ 839798700976720815) in E; try reflexivity; try (apply mix_lt; assumption).
  apply (mix_inj 64) in E; auto; reflexivity.
Qed.
Definition begin64 (seed : N) (bs : list N) : N :=
  ((if (length bs <? 32)%nat then (seed + q5) mod 2 ^ 64 else join64 (accs64 seed bs)) + N.of_nat (length bs)) mod 2 ^ 64.
Lemma xxh64_is : forall seed bs, xxh64 seed bs = final64 (tail64 (begin64 seed bs) (rest 32 bs)).
Proof. reflexivity. Qed.
Lemma xxh64_change : forall seed lo hi a b, Forall is_byte a -> Forall is_byte b -> same_outside lo hi a b -> piece64 (length a) lo hi ->
  (32 * (length a / 32) <= lo)%nat -> a <> b -> xxh64 seed a <> xxh64 seed b.
Proof.
  intros seed lo hi a b Fa Fb So P Lo Ne E. assert (L : length a = length b) by apply So. rewrite !xxh64_is in E.
  assert (Eh : begin64 seed a = begin64 seed b).
  { unfold begin64, accs64. rewrite <- L. rewrite (pass_all 32 (each_lane 8 round64) lo hi a b (init64 seed) So Lo). reflexivity. }
  rewrite Eh in E. assert (Hh : fits 64 (begin64 seed b)) by apply fits_mod. set (h := begin64 seed b) in *. clearbody h.
  assert (D : differ 64 (tail64 h (rest 32 a)) (tail64 h (rest 32 b))).
  { apply tail64_change with (lo - 32 * (length a / 32))%nat (hi - 32 * (length a / 32))%nat; auto using rest_bytes.
    - now apply rest_so.
    - rewrite rest_length. assert (M := Nat.div_mod (length a) 32 ltac:(discriminate)).
      set (m := (length a / 32)%nat) in *. replace (length a - 32 * m)%nat with (length a mod 32)%nat by lia.
      assert (Q : (length a / 4 = 8 * m + length a mod 32 / 4)%nat).
      { rewrite M at 1. replace (32 * m + length a mod 32)%nat with (length a mod 32 + (8 * m) * 4)%nat by lia. rewrite Nat.div_add by discriminate. lia. }
      assert (Q8 : (length a / 8 = 4 * m + length a mod 32 / 8)%nat).
      { rewrite M at 1. replace (32 * m + length a mod 32)%nat with (length a mod 32 + (4 * m) * 8)%nat by lia. rewrite Nat.div_add by discriminate. lia. }
      destruct P as [(w & -> & -> & Hn)|[(-> & -> & Hn)|(H1 & -> & H2)]]; [left; exists (w - 4 * m)%nat|right; left|right; right]; lia.
    - now apply (rest_ne 32 lo hi). }
  destruct D as (T1 & T2 & T3). apply T3. apply final64_inj; assumption.
Qed.

(* ---- the properties, of the code ---- *)
(* XXH32: changing one aligned word, or one byte anywhere, changes the hash of an input of any length *)
Theorem C105_xxh32_word : forall re seed a b lo hi, Forall is_byte a -> Forall is_byte b -> same_outside lo hi a b -> piece32 (length a) lo hi ->
  XXH32 re a (length a) seed = XXH32 re b (length b) seed -> a = b.
Proof.
  intros re seed a b lo hi Fa Fb So P E. rewrite !C99_oneshot in E. apply Ok_inj in E.
  destruct (list_eq_dec N.eq_dec a b) as [|Ne]; auto. exfalso. exact (xxh32_change seed lo hi a b Fa Fb So P Ne E).
Qed.
Theorem C105_xxh32_byte : forall re seed pre x y post, Forall is_byte (pre ++ x :: post) -> Forall is_byte (pre ++ y :: post) -> x <> y ->
  XXH32 re (pre ++ x :: post) (length (pre ++ x :: post)) seed <> XXH32 re (pre ++ y :: post) (length (pre ++ y :: post)) seed.
Proof.
  intros re seed pre x y post Fa Fb Ne E. set (a := pre ++ x :: post) in *. set (b := pre ++ y :: post) in *.
  assert (So : same_outside (length pre) (length pre + 1) a b).
  { unfold a, b. split; [rewrite !app_length; reflexivity|]. intros j J. destruct (Nat.lt_ge_cases j (length pre)).
    - rewrite !app_nth1 by auto. reflexivity.
    - rewrite !app_nth2 by auto. destruct (j - length pre)%nat eqn:Z; [lia|reflexivity]. }
  assert (La : (length pre + 1 <= length a)%nat) by (unfold a; rewrite app_length; cbn; lia).
  assert (a = b).
  { destruct (Nat.lt_ge_cases (length pre) (4 * (length a / 4))) as [L|L].
    - assert (W := Nat.div_mod (length pre) 4 ltac:(discriminate)). assert (WB := Nat.mod_upper_bound (length pre) 4 ltac:(discriminate)).
      assert (M := Nat.div_mod (length a) 4 ltac:(discriminate)). set (w := (length pre / 4)%nat) in *.
      apply (C105_xxh32_word re seed a b (4 * w) (4 * w + 4) Fa Fb); [|left; exists w; lia|exact E].
      split; [apply So|]. intros j J. apply So. lia.
    - apply (C105_xxh32_word re seed a b (length pre) (length pre + 1) Fa Fb So); [right; lia|exact E]. }
  unfold a, b in H. apply app_inv_head in H. injection H as H. auto.
Qed.
(* XXH64: changing one step's input behind the last whole stripe of 32 bytes changes the hash, so inputs of 4 or of 8 bytes never collide *)
Theorem C105_xxh64_word : forall re seed a b lo hi, Forall is_byte a -> Forall is_byte b -> same_outside lo hi a b -> piece64 (length a) lo hi ->
  (32 * (length a / 32) <= lo)%nat -> XXH64 re a (length a) seed = XXH64 re b (length b) seed -> a = b.
Proof.
  intros re seed a b lo hi Fa Fb So P Lo E. rewrite !C100_oneshot in E. apply Ok_inj in E.
  destruct (list_eq_dec N.eq_dec a b) as [|Ne]; auto. exfalso. exact (xxh64_change seed lo hi a b Fa Fb So P Lo Ne E).
Qed.
Lemma all_inside : forall a b, length a = length b -> same_outside 0 (length a) a b.
Proof. intros a b L. split; auto. intros j J. rewrite !nth_overflow by lia. reflexivity. Qed.
Theorem C105_xxh32_four : forall re seed a b, Forall is_byte a -> Forall is_byte b -> length a = 4%nat -> length b = 4%nat ->
  XXH32 re a 4 seed = XXH32 re b 4 seed -> a = b.
Proof.
  intros re seed a b Fa Fb La Lb E. apply (C105_xxh32_word re seed a b 0 4 Fa Fb).
  - rewrite <- La. apply all_inside. congruence.
  - left. exists 0%nat. lia.
  - rewrite La, Lb. exact E.
Qed.
Theorem C105_xxh64_eight : forall re seed a b n, n = 4%nat \/ n = 8%nat -> Forall is_byte a -> Forall is_byte b -> length a = n -> length b = n ->
  XXH64 re a n seed = XXH64 re b n seed -> a = b.
Proof.
  intros re seed a b n Hn Fa Fb La Lb E. apply (C105_xxh64_word re seed a b 0 n Fa Fb).
  - rewrite <- La. apply all_inside. congruence.
  - rewrite La. destruct Hn as [-> | ->]; [right; left; cbn; lia|left; exists 0%nat; lia].
  - rewrite La. destruct Hn as [-> | ->]; cbn; lia.
  - rewrite La, Lb. exact E.
Qed.
(* different seeds give different hashes of the same short input *)
Theorem C105_seeds : forall re a s s', s <> s' ->
  ((length a < 16)%nat -> s < 2 ^ 32 -> s' < 2 ^ 32 -> XXH32 re a (length a) s <> XXH32 re a (length a) s')
  /\ ((length a < 32)%nat -> s < 2 ^ 64 -> s' < 2 ^ 64 -> XXH64 re a (length a) s <> XXH64 re a (length a) s').
Proof.
  intros re a s s' Ne. split; intros L S S' E; [rewrite !C99_oneshot in E|rewrite !C100_oneshot in E]; apply Ok_inj in E.
  - unfold xxh32 in E. cbv zeta in E. apply Nat.ltb_lt in L. rewrite L in E.
    assert (D : differ 32 (((s + p5) mod 2 ^ 32 + N.of_nat (length a)) mod 2 ^ 32) (((s' + p5) mod 2 ^ 32 + N.of_nat (length a)) mod 2 ^ 32)).
    { split; [apply fits_mod|]. split; [apply fits_mod|]. intro F. apply Ne. apply add_inj in F; try apply fits_mod. now apply add_inj in F. }
    destruct (tail32_h _ _ (rest 16 a) D) as (T1 & T2 & T3). apply T3. now apply final32_inj.
  - rewrite !xxh64_is in E.
    assert (D : differ 64 (begin64 s a) (begin64 s' a)).
    { apply Nat.ltb_lt in L. unfold begin64. rewrite L. split; [apply fits_mod|]. split; [apply fits_mod|]. intro F. apply Ne.
      apply add_inj in F; try apply fits_mod. now apply add_inj in F. }
    set (h := begin64 s a) in *. set (h' := begin64 s' a) in *. clearbody h h'.
    destruct (tail64_h _ _ (rest 32 a) D) as (T1 & T2 & T3). apply T3. apply final64_inj; assumption.
Qed.
(* XXH3: inputs of 1 to 3 bytes never collide, nor do inputs of the same length of 4 to 8 bytes (64 bits) or of 4 to 16 bytes (128 bits) *)
Definition tiny (a b : list N) : Prop := (1 <= length a <= 3)%nat /\ (1 <= length b <= 3)%nat.
Theorem C105_xxh3 : forall c g a b seed, Forall is_byte a -> Forall is_byte b -> seed < 2 ^ 64 -> length g = 192%nat ->
  debug c = false \/ length a <> 8%nat -> tiny a b \/ (length a = length b /\ (4 <= length a <= 8)%nat) ->
  make_hash_xxh3 c g a seed = make_hash_xxh3 c g b seed -> a = b.
Proof.
  intros c g a b seed Fa Fb S G D H E.
  assert (Kb : bytes kSecret) by apply kSecret_bytes.
  assert (Db : debug c = false \/ length b <> 8%nat) by (destruct H as [[]|[]]; destruct D; auto; right; lia).
  rewrite !C102_make_hash in E by auto. apply Ok_inj in E. unfold xxh3_64 in E.
  assert (La : (length a <=? 240)%nat = true) by (apply Nat.leb_le; destruct H as [[]|[]]; lia).
  assert (Lb : (length b <=? 240)%nat = true) by (apply Nat.leb_le; destruct H as [[]|[]]; lia).
  rewrite La, Lb in E. destruct H as [[H1 H2]|[H1 H2]]; [apply (short64_inj3 kSecret seed)|apply (short64_inj8 kSecret seed)]; auto.
Qed.
Theorem C105_xxh128 : forall c g a b seed, Forall is_byte a -> Forall is_byte b -> seed < 2 ^ 64 -> length g = 192%nat ->
  tiny a b \/ (length a = length b /\ (4 <= length a <= 16)%nat) ->
  XXH3_128bits_withSeed c g a (length a) seed = XXH3_128bits_withSeed c g b (length b) seed -> a = b.
Proof.
  intros c g a b seed Fa Fb S G H E.
  assert (Kb : bytes kSecret) by apply kSecret_bytes. assert (Kl : (136 <= length kSecret)%nat) by (rewrite kSecret_length; lia).
  destruct (C102_128bits c g a seed kSecret Fa S G Kb Kl) as (_ & _ & Ea). destruct (C102_128bits c g b seed kSecret Fb S G Kb Kl) as (_ & _ & Eb).
  rewrite Ea, Eb in E. apply Ok_inj in E. unfold xxh3_128 in E.
  assert (La : (length a <=? 240)%nat = true) by (apply Nat.leb_le; destruct H as [[]|[]]; lia).
  assert (Lb : (length b <=? 240)%nat = true) by (apply Nat.leb_le; destruct H as [[]|[]]; lia).
  rewrite La, Lb in E. destruct H as [[H1 H2]|[H1 H2]].
  - apply (short64_inj3 kSecret seed); auto. unfold short128 in E. unfold short64. cbv zeta in *.
    assert (P : forall n, (1 <= n <= 3)%nat -> (n =? 0)%nat = false /\ (n <=? 3)%nat = true).
    { intros n H. split; [apply Nat.eqb_neq; lia|apply Nat.leb_le; lia]. }
    destruct (P _ H1) as [P1 P2], (P _ H2) as [P3 P4]. rewrite P1, P2, P3, P4 in *. apply pair_eq in E. apply E.
  - destruct (Nat.le_gt_cases (length a) 8); [apply (short128_inj8 kSecret seed)|apply (short128_inj16 kSecret seed)]; auto; lia.
Qed.
Example C105_example : XXH32 true [1; 2; 3; 4] 4 0 <> XXH32 true [1; 2; 3; 5] 4 0
  /\ make_hash_xxh3 (test_build false) (repeat 0 192) [1; 2] 0 <> make_hash_xxh3 (test_build false) (repeat 0 192) [1; 2; 3] 0.
Proof. vm_compute. split; discriminate. Qed.

Print Assumptions C105_xxh32_word.
Print Assumptions C105_xxh32_byte.
Print Assumptions C105_xxh64_word.
Print Assumptions C105_xxh32_four.
Print Assumptions C105_xxh64_eight.
Print Assumptions C105_seeds.
Print Assumptions C105_xxh3.
Print Assumptions C105_xxh128.

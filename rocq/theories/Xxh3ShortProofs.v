(* XXH3 on inputs of up to 240 bytes, and the secret made from a seed. *)
From Coq Require Import NArith Arith List Lia Bool.
From Verif Require Import Base XxhModel XxhSpec XxhProofs XxhProps Xxh3Model Xxh3Spec Xxh3Proofs.
Import ListNotations.
Open Scope N_scope.

Lemma skip_in : forall {A} k n p (b : list A), (p + k <= n)%nat -> firstn k (skipn p (firstn n b)) = firstn k (skipn p b).
Proof. intros A k n p b H. rewrite skipn_firstn_comm, firstn_firstn. f_equal. lia. Qed.
Lemma nth_in : forall {A} (d : A) b n p, (p < n)%nat -> nth p (firstn n b) d = nth p b d.
Proof.
  intros A d b. induction b; intros n p H; destruct n, p; cbn; try lia; auto. apply IHb. lia.
Qed.
Lemma plus_ok : forall a b, wadd 64 a b = plus a b. Proof. reflexivity. Qed.
Lemma minus_ok : forall a b, wsub 64 a b = minus a b. Proof. reflexivity. Qed.
Lemma times_ok : forall a b, wmul 64 a b = times a b. Proof. reflexivity. Qed.

Lemma spread_ok : forall seed, spread_seed seed = spread seed.
Proof.
  intro seed. unfold spread_seed, spread. f_equal. rewrite flip4, N.shiftl_mul_pow2. apply N.mod_small.
  assert (F := flip_lt 4 (wrap 32 seed)). change (256 ^ N.of_nat 4) with (2 ^ 32) in F.
  change (2 ^ 64) with (2 ^ 32 * 2 ^ 32). apply N.mul_lt_mono_pos_r; [reflexivity|exact F].
Qed.
Lemma spread_word : forall seed, word seed -> word (spread seed).
Proof.
  intros seed W. apply lxor_word; auto. unfold word. assert (F := flip_lt 4 (seed mod 2 ^ 32)). change (256 ^ N.of_nat 4) with (2 ^ 32) in F.
  change (2 ^ 64) with (2 ^ 32 * 2 ^ 32). apply N.mul_lt_mono_pos_r; [reflexivity|exact F].
Qed.
Lemma flip8_word : forall x, word (flip 8 x).
Proof. intro x. exact (flip_lt 8 x). Qed.

Lemma combined_ok : forall c1 c2 c3 n, c1 < 256 -> c2 < 256 -> c3 < 256 -> n < 256 ->
  N.lor (N.lor (N.lor (N.shiftl c1 16) (N.shiftl c2 24)) (N.shiftl c3 0)) (N.shiftl n 8) = c3 + 2 ^ 8 * n + 2 ^ 16 * c1 + 2 ^ 24 * c2.
Proof.
  intros c1 c2 c3 n H1 H2 H3 Hn. rewrite !N.shiftl_mul_pow2, N.mul_1_r.
  rewrite (N.lor_comm (c1 * _)), <- N.lor_assoc, (N.lor_comm c3).
  rewrite !lor_add by (change (2 ^ 24) with 16777216; lia).
  replace (c2 * 2 ^ 24 + c1 * 2 ^ 16) with ((c2 * 2 ^ 8 + c1) * 2 ^ 16) by (change (2 ^ 24) with (2 ^ 8 * 2 ^ 16); ring).
  rewrite lor_add by (change (2 ^ 16) with 65536; change (2 ^ 8) with 256; lia).
  change (2 ^ 24) with (2 ^ 8 * 2 ^ 16). ring.
Qed.

Lemma sum3 : forall a b d e f g, wadd 64 (wadd 64 (wmul 64 a b) (wmul 64 d e)) (wmul 64 f g) = (a * b + d * e + f * g) mod 2 ^ 64.
Proof.
  intros. unfold wadd, wmul, wrap. generalize (a * b), (d * e), (f * g). clear. intros x y z.
  rewrite add_mod_r, add_mod_l, <- N.add_assoc, add_mod_l, N.add_assoc, (N.add_comm x), <- N.add_assoc, add_mod_l by discriminate.
  f_equal. ring.
Qed.

Section Short.
  Context (c : build) (input : list N) (len : nat) (Hl : (len <= length input)%nat) (Bi : bytes input).
  Context (sec : list N) (Bs : bytes sec) (Ls : (136 <= length sec)%nat) (seed : N) (Ws : word seed).
  Let bs := firstn len input.

  Lemma bs_length : length bs = len. Proof. unfold bs. now apply firstn_length_le. Qed.
  Lemma bs_bytes : bytes bs. Proof. now apply bytes_firstn. Qed.
  Lemma bs_size : size bs = N.of_nat len. Proof. unfold size. now rewrite bs_length. Qed.
  Lemma in64 : forall p, (p + 8 <= len)%nat -> readLE64 input p = Ok (at64 bs p).
  Proof. intros p H. rewrite rd64 by lia. unfold at64, bs. now rewrite skip_in. Qed.
  Lemma in32 : forall p, (p + 4 <= len)%nat -> readLE32 input p = Ok (at32 bs p).
  Proof. intros p H. rewrite rd32 by lia. unfold at32, bs. now rewrite skip_in. Qed.
  Lemma in8 : forall p, (p < len)%nat -> read8 input p = Ok (at8 bs p).
  Proof. intros p H. rewrite rd8 by lia. unfold at8, bs. now rewrite nth_in. Qed.
  Hint Resolve bs_bytes Bs at64_word at32_word lxor_word plus_word minus_word times_word mod_word avalanche_word spread_word flip8_word Ws : xw.
  Ltac rd := repeat (rewrite ?in64, ?in32, ?in8 by lia; rewrite ?(rd64 sec), ?(rd32 sec) by lia; cbn [bind]).
  Ltac asserts := rewrite !assert_ok by (unfold XXH3_SECRET_SIZE_MIN, XXH3_MIDSIZE_MAX; rewrite ?andb_true_iff, ?Nat.leb_le, ?Nat.ltb_lt; lia); cbn [bind].

  Lemma fml_ok : (0 < len <= 3)%nat ->
    N.lor (N.lor (N.lor (N.shiftl (at8 bs 0) 16) (N.shiftl (at8 bs (len / 2)) 24)) (N.shiftl (at8 bs (len - 1)) 0)) (N.shiftl (N.of_nat len) 8)
    = first_mid_last bs.
  Proof.
    intro H. rewrite combined_ok; try (apply at8_lt; apply bs_bytes); [|lia].
    unfold first_mid_last. now rewrite bs_size, bs_length.
  Qed.
  Lemma mid_lt : (0 < len)%nat -> (len / 2 < len)%nat.
  Proof. intro. apply Nat.div_lt; lia. Qed.

  Lemma len_1to3_64b_ok : (0 < len <= 3)%nat ->
    len_1to3_64b c input len sec seed = Ok (avalanche (times (N.lxor (first_mid_last bs) (plus (N.lxor (at32 sec 0) (at32 sec 4)) seed)) q1)).
  Proof.
    intro H. unfold len_1to3_64b. asserts. rewrite (in8 (len / 2)) by (apply mid_lt; lia). rd.
    rewrite fml_ok by lia. now rewrite avalanche_ok.
  Qed.
  Lemma pair32 : forall a b, a < 2 ^ 32 -> b < 2 ^ 32 -> wadd 64 a (wrap 64 (N.shiftl b 32)) = a + 2 ^ 32 * b.
  Proof.
    intros a b A B. rewrite N.shiftl_mul_pow2. unfold wadd, wrap.
    change (2 ^ 64) with 18446744073709551616. change (2 ^ 32) with 4294967296 in *. rewrite (N.mod_small (b * _)) by lia.
    rewrite N.mod_small by lia. lia.
  Qed.
  Lemma pair_word : forall a b, a < 2 ^ 32 -> b < 2 ^ 32 -> word (a + 2 ^ 32 * b).
  Proof. intros a b A B. unfold word. change (2 ^ 64) with 18446744073709551616. change (2 ^ 32) with 4294967296 in *. lia. Qed.
  Lemma len_4to8_64b_ok : (4 <= len <= 8)%nat -> debug c = false \/ len <> 8%nat ->
    len_4to8_64b c input len sec seed = Ok (
      let x := N.lxor (at32 bs (len - 4) + 2 ^ 32 * at32 bs 0) (minus (N.lxor (at64 sec 8) (at64 sec 16)) (spread seed)) in
      let x := scatter (N.lxor x (N.lxor (rot 64 x 49) (rot 64 x 24))) in
      mix (scatter (N.lxor x (plus (x / 2 ^ 35) (size bs)))) 28).
  Proof.
    intros H D. unfold len_4to8_64b.
    assert (E : XXH_ASSERT c ((4 <=? len)%nat && (len <? 8)%nat) = Ok tt).
    { destruct D as [D|D]; [unfold XXH_ASSERT; now rewrite D|]. apply assert_ok. rewrite andb_true_iff, Nat.leb_le, Nat.ltb_lt. lia. }
    rewrite E. cbn [bind]. rd. cbv zeta. rewrite pair32, spread_ok, minus_ok by (apply at32_lt; apply bs_bytes).
    set (x := N.lxor _ (minus _ _)).
    assert (W : word x) by (apply lxor_word; auto with xw; apply pair_word; apply at32_lt; apply bs_bytes).
    rewrite !rotl_rot by (auto; now apply N.leb_le). rewrite !times_ok.
    rewrite N.shiftr_div_pow2, plus_ok, bs_size, xorshift_mix. reflexivity.
  Qed.
  Lemma len_9to16_64b_ok : (8 < len <= 16)%nat ->
    len_9to16_64b c input len sec seed = Ok (
      let lo := N.lxor (at64 bs 0) (plus (N.lxor (at64 sec 24) (at64 sec 32)) seed) in
      let hi := N.lxor (at64 bs (len - 8)) (minus (N.lxor (at64 sec 40) (at64 sec 48)) seed) in
      avalanche ((size bs + flip 8 lo + hi + fold64 lo hi) mod 2 ^ 64)).
  Proof.
    intro H. unfold len_9to16_64b. asserts. rd. rewrite avalanche_ok, flip8, fold_ok by auto with xw.
    cbv zeta. change (wadd 64 (N.of_nat len) ?x) with ((N.of_nat len + x) mod 2 ^ 64).
    rewrite !wadd_mod, bs_size. reflexivity.
  Qed.
  Lemma mix16B_ok : forall sd p s, word sd -> (p + 16 <= len)%nat -> (s + 16 <= length sec)%nat ->
    mix16B c input p sec s sd = Ok (mix16 sec sd bs p s).
  Proof. intros sd p s Wd P S. unfold mix16B. rd. rewrite plus_ok, minus_ok, fold_ok by auto with xw. reflexivity. Qed.
  Lemma add_mix_ok : forall p s a, (p + 16 <= len)%nat -> (s + 16 <= length sec)%nat ->
    add_mix c input sec seed p s (a mod 2 ^ 64) = Ok ((a + mix16 sec seed bs p s) mod 2 ^ 64).
  Proof. intros p s a P S. unfold add_mix. rewrite mix16B_ok by auto with xw. cbn [bind]. now rewrite wadd_mod. Qed.
  Ltac mixes := repeat (rewrite add_mix_ok by lia; cbn [bind]).
  Lemma pieces : forall k, (32 * k < len <= 32 * k + 32)%nat -> ((len - 1) / 32 = k)%nat.
  Proof. intros k H. symmetry. apply Nat.div_unique with (r := (len - 1 - 32 * k)%nat); lia. Qed.
  Lemma len_17to128_64b_ok : (16 < len <= 128)%nat ->
    len_17to128_64b c input len sec seed = Ok (
      avalanche ((size bs * q1 + sum (map (fun i => mix16 sec seed bs (16 * i) (32 * i)
                                              + mix16 sec seed bs (len - 16 * (i + 1)) (32 * i + 16)) (seq 0 (S ((len - 1) / 32))))) mod 2 ^ 64)).
  Proof.
    intro H. unfold len_17to128_64b. asserts. rewrite bs_size.
    change (wmul 64 (N.of_nat len) PRIME64_1) with ((N.of_nat len * q1) mod 2 ^ 64).
    destruct (Nat.ltb_spec 32 len); [|rewrite (pieces 0) by lia]; [destruct (Nat.ltb_spec 64 len); [|rewrite (pieces 1) by lia]|];
      [destruct (Nat.ltb_spec 96 len); [rewrite (pieces 3) by lia|rewrite (pieces 2) by lia]| |];
      cbv zeta; cbn [bind]; mixes; rewrite avalanche_ok; unfold sum; cbn [seq map fold_right Nat.add Nat.mul];
      repeat match goal with |- context [mix16 ?a ?b ?c ?d ?e] => generalize (mix16 a b c d e); intro end;
      match goal with |- Ok (avalanche (?x mod _)) = Ok (avalanche (?y mod _)) => replace y with x by ring; reflexivity end.
  Qed.
  Lemma sum_loop : forall P S n from a, (forall i, (from <= i < from + n)%nat -> (P i + 16 <= len)%nat /\ (S i + 16 <= length sec)%nat) ->
    for_up n from (fun i acc => add_mix c input sec seed (P i) (S i) acc) (a mod 2 ^ 64)
    = Ok ((a + sum (map (fun i => mix16 sec seed bs (P i) (S i)) (seq from n))) mod 2 ^ 64).
  Proof.
    intros P S n. induction n; intros from a H; cbn [for_up seq map sum fold_right].
    - now rewrite N.add_0_r.
    - rewrite add_mix_ok by (apply H; lia). cbn [bind]. rewrite IHn by (intros i Hi; apply H; lia).
      unfold sum. now rewrite N.add_assoc.
  Qed.
  Lemma len_129to240_64b_ok : (128 < len <= 240)%nat ->
    len_129to240_64b c input len sec seed = Ok (
      let a := avalanche ((size bs * q1 + sum (map (fun i => mix16 sec seed bs (16 * i) (16 * i)) (seq 0 8))) mod 2 ^ 64) in
      let b := sum (map (fun i => mix16 sec seed bs (16 * i) (16 * (i - 8) + 3)) (seq 8 (len / 16 - 8))) in
      avalanche ((a + b + mix16 sec seed bs (len - 16) 119) mod 2 ^ 64)).
  Proof.
    intro H. unfold len_129to240_64b. asserts. rewrite bs_size.
    change (wmul 64 (N.of_nat len) PRIME64_1) with ((N.of_nat len * q1) mod 2 ^ 64).
    rewrite (sum_loop (fun i => 16 * i)%nat (fun i => 16 * i)%nat) by (intros; lia). cbn [bind]. rewrite avalanche_ok.
    assert (D := Nat.div_mod len 16 ltac:(lia)). assert (M := Nat.mod_upper_bound len 16 ltac:(lia)).
    rewrite assert_ok by (apply Nat.leb_le; lia). cbn [bind]. set (a := avalanche _).
    replace a with (a mod 2 ^ 64) at 1 by (apply N.mod_small; apply avalanche_word).
    rewrite (sum_loop (fun i => 16 * i)%nat (fun i => 16 * (i - 8) + 3)%nat) by (intros; lia). cbn [bind].
    unfold XXH3_SECRET_SIZE_MIN, XXH3_MIDSIZE_LASTOFFSET. rewrite add_mix_ok by lia. cbn [bind]. now rewrite avalanche_ok.
  Qed.
  Lemma short64_ok : (len <= 240)%nat -> debug c = false \/ len <> 8%nat ->
    (if (len <=? 16)%nat then len_0to16_64b c input len sec seed
     else if (len <=? 128)%nat then len_17to128_64b c input len sec seed
     else len_129to240_64b c input len sec seed) = Ok (short64 sec seed bs).
  Proof.
    intros H D. unfold short64. rewrite bs_length. destruct (Nat.leb_spec len 16).
    - unfold len_0to16_64b. asserts. destruct (Nat.ltb_spec 8 len).
      + destruct (Nat.eqb_spec len 0); [lia|]. destruct (Nat.leb_spec len 3); [lia|]. destruct (Nat.leb_spec len 8); [lia|].
        now apply len_9to16_64b_ok.
      + destruct (Nat.leb_spec 4 len).
        * destruct (Nat.eqb_spec len 0); [lia|]. destruct (Nat.leb_spec len 3); [lia|]. destruct (Nat.leb_spec len 8); [|lia].
          apply len_4to8_64b_ok; auto.
        * destruct (Nat.ltb_spec 0 len).
          -- destruct (Nat.eqb_spec len 0); [lia|]. destruct (Nat.leb_spec len 3); [|lia]. apply len_1to3_64b_ok. lia.
          -- destruct (Nat.eqb_spec len 0); [|lia]. rd. now rewrite avalanche_ok.
    - destruct (Nat.eqb_spec len 0); [lia|]. destruct (Nat.leb_spec len 3); [lia|]. destruct (Nat.leb_spec len 8); [lia|].
      destruct (Nat.leb_spec len 128); [apply len_17to128_64b_ok|apply len_129to240_64b_ok]; lia.
  Qed.

  (* ---- 128 bits ---- *)
  Lemma len_1to3_128b_ok : (0 < len <= 3)%nat ->
    len_1to3_128b c input len sec seed = Ok (
      let l := first_mid_last bs in
      (avalanche (times (N.lxor l (plus (N.lxor (at32 sec 0) (at32 sec 4)) seed)) q1),
       avalanche (times (N.lxor (rot 32 (flip 4 l) 13) (minus (N.lxor (at32 sec 8) (at32 sec 12)) seed)) q5))).
  Proof.
    intro H. unfold len_1to3_128b. asserts. rewrite (in8 (len / 2)) by (apply mid_lt; lia). rd.
    rewrite fml_ok by lia. rewrite !avalanche_ok, flip4, rotl_rot by (try apply N.leb_le; try reflexivity; exact (flip_lt 4 _)). reflexivity.
  Qed.
  Lemma len_4to8_128b_ok : (4 <= len <= 8)%nat ->
    len_4to8_128b c input len sec seed = Ok (
      let x := N.lxor (at32 bs 0 + 2 ^ 32 * at32 bs (len - 4)) (plus (N.lxor (at64 sec 16) (at64 sec 24)) (spread seed)) in
      let m := x * (q1 + 4 * size bs) in
      let high := (m / 2 ^ 64 + 2 * (m mod 2 ^ 64)) mod 2 ^ 64 in
      (mix (scatter (mix (N.lxor (m mod 2 ^ 64) (high / 2 ^ 3)) 35)) 28, avalanche high)).
  Proof.
    intro H. unfold len_4to8_128b. asserts. rd. cbv zeta. rewrite pair32, spread_ok, plus_ok by (apply at32_lt; apply bs_bytes).
    set (x := N.lxor _ (plus _ _)).
    assert (W : word x) by (apply lxor_word; auto with xw; apply pair_word; apply at32_lt; apply bs_bytes).
    assert (Q : wadd 64 PRIME64_1 (N.shiftl (N.of_nat len) 2) = q1 + 4 * size bs).
    { rewrite bs_size, N.shiftl_mul_pow2. change (2 ^ 2) with 4. rewrite N.mul_comm. unfold wadd. apply N.mod_small.
      change PRIME64_1 with q1. unfold q1. change (2 ^ 64) with 18446744073709551616. lia. }
    assert (Q' : word (q1 + 4 * size bs)).
    { rewrite bs_size. unfold word, q1. change (2 ^ 64) with 18446744073709551616. lia. }
    rewrite Q, mult_ok by auto. cbv beta iota zeta. set (m := x * _). clearbody m.
    rewrite N.shiftl_mul_pow2. change (2 ^ 1) with 2. rewrite (N.mul_comm _ 2).
    replace (wadd 64 (m / 2 ^ 64) (wrap 64 (2 * (m mod 2 ^ 64)))) with ((m / 2 ^ 64 + 2 * (m mod 2 ^ 64)) mod 2 ^ 64)
      by (symmetry; unfold wadd, wrap; apply add_mod_r; discriminate).
    rewrite N.shiftr_div_pow2, !xorshift_mix, avalanche_ok. reflexivity.
  Qed.
  Lemma land_high : forall x, word x -> N.land x 0xFFFFFFFF00000000 = x / 2 ^ 32 * 2 ^ 32.
  Proof.
    intros x W. rewrite <- N.shiftr_div_pow2, <- N.shiftl_mul_pow2. apply N.bits_inj. intro i.
    rewrite N.land_spec. change 0xFFFFFFFF00000000 with (N.shiftl (N.ones 32) 32).
    destruct (N.ltb_spec i 32) as [L|L].
    - rewrite !N.shiftl_spec_low by auto. apply andb_false_r.
    - rewrite !N.shiftl_spec_high' by auto. rewrite N.shiftr_spec', N.sub_add by auto.
      destruct (N.ltb_spec (i - 32) 32).
      + rewrite N.ones_spec_low by auto. apply andb_true_r.
      + rewrite N.ones_spec_high by auto. rewrite andb_false_r. symmetry.
        rewrite <- (N.mod_small x (2 ^ 64)) by auto. apply N.mod_pow2_bits_high. lia.
  Qed.
  Lemma len_9to16_128b_ok : (8 < len <= 16)%nat ->
    len_9to16_128b c input len sec seed = Ok (
      let hi := N.lxor (at64 bs (len - 8)) (plus (N.lxor (at64 sec 48) (at64 sec 56)) seed) in
      let m := N.lxor (N.lxor (at64 bs 0) (at64 bs (len - 8))) (minus (N.lxor (at64 sec 32) (at64 sec 40)) seed) * q1 in
      let low := (m + 2 ^ 54 * (size bs - 1)) mod 2 ^ 64 in
      let high := (m / 2 ^ 64 + (hi / 2 ^ 32) * 2 ^ 32 + (hi mod 2 ^ 32) * p2) mod 2 ^ 64 in
      let h := (N.lxor low (flip 8 high) + high * 2 ^ 64) * q2 in
      (avalanche (h mod 2 ^ 64), avalanche (h / 2 ^ 64 mod 2 ^ 64))).
  Proof.
    intro H. unfold len_9to16_128b. asserts. rd. rewrite (plus_ok _ seed), (minus_ok _ seed).
    set (hi := N.lxor (at64 bs (len - 8)) (plus _ _)). set (k := N.lxor (N.lxor _ _) (minus _ _)). cbv zeta.
    assert (Wh : word hi) by (unfold hi; auto with xw). assert (Wk : word k) by (unfold k; auto with xw).
    rewrite mult_ok by (auto; reflexivity). change PRIME64_1 with q1. cbv beta iota zeta.
    set (m := k * q1).
    assert (Elow : wadd 64 (m mod 2 ^ 64) (wrap 64 (N.shiftl (N.of_nat (len - 1)) 54)) = (m + 2 ^ 54 * (size bs - 1)) mod 2 ^ 64).
    { rewrite wadd_mod. unfold wrap. rewrite add_mod_r by discriminate. rewrite N.shiftl_mul_pow2, bs_size, Nat2N.inj_sub, N.mul_comm. reflexivity. }
    assert (Ehigh : (if ptr64 c
       then wadd 64 (m / 2 ^ 64) (wadd 64 hi (mult32to64 (wrap 32 hi) (PRIME32_2 - 1)))
       else wadd 64 (m / 2 ^ 64) (wadd 64 (N.land hi 0xFFFFFFFF00000000) (mult32to64 (wrap 32 hi) PRIME32_2)))
      = (m / 2 ^ 64 + (hi / 2 ^ 32) * 2 ^ 32 + (hi mod 2 ^ 32) * p2) mod 2 ^ 64).
    { rewrite !m32 by (try reflexivity; apply N.mod_lt; discriminate). unfold wadd, wrap. rewrite land_high by auto.
      assert (Dh := N.div_mod hi (2 ^ 32) ltac:(discriminate)).
      destruct (ptr64 c); rewrite add_mod_r by discriminate; f_equal.
      - change PRIME32_2 with p2. rewrite Dh at 1. replace (hi mod 2 ^ 32 * p2) with (hi mod 2 ^ 32 * (p2 - 1) + hi mod 2 ^ 32).
        + ring.
        + rewrite N.mul_sub_distr_l, N.mul_1_r. assert (hi mod 2 ^ 32 <= hi mod 2 ^ 32 * p2); [|lia].
          rewrite <- N.mul_1_r at 1. apply N.mul_le_mono_l. now apply N.leb_le.
      - change PRIME32_2 with p2. ring. }
    rewrite Elow, Ehigh. clear Elow Ehigh. rewrite flip8.
    set (low := N.lxor _ (flip 8 _)). set (high := (m / 2 ^ 64 + _ + _) mod _) in *.
    assert (Wl : word low) by (unfold low; auto with xw).
    rewrite mult_ok by (auto; reflexivity). cbv beta iota zeta. rewrite !avalanche_ok. change PRIME64_2 with q2.
    assert (E : (low + high * 2 ^ 64) * q2 = low * q2 + high * q2 * 2 ^ 64) by ring. rewrite E.
    rewrite N.mod_add, N.div_add by discriminate. unfold wadd, wmul, wrap. rewrite add_mod_r by discriminate. reflexivity.
  Qed.
  Lemma mix32B_ok : forall sd p p' s a, word sd -> (p + 16 <= len)%nat -> (p' + 16 <= len)%nat -> (s + 32 <= length sec)%nat ->
    mix32B c input sec sd p p' s a = Ok (mix32 sec sd bs a p p' s).
  Proof.
    intros sd p p' s [low high] Wd P P' S. unfold mix32B. rewrite !mix16B_ok by (auto; lia). rd.
    reflexivity.
  Qed.
  Lemma finish_ok : forall a, finish_128b len seed a = finish (size bs) seed a.
  Proof.
    intros [low high]. unfold finish_128b, finish. cbn [fst snd]. rewrite bs_size, !avalanche_ok, !minus_ok, plus_ok. do 3 f_equal.
    apply sum3.
  Qed.
  Lemma len_17to128_128b_ok : (16 < len <= 128)%nat ->
    len_17to128_128b c input len sec seed = Ok (
      finish (size bs) seed (fold_left (fun a i => mix32 sec seed bs a (16 * i) (len - 16 * (i + 1)) (32 * i))
                               (rev (seq 0 (S ((len - 1) / 32)))) (times (size bs) q1, 0))).
  Proof.
    intro H. unfold len_17to128_128b. asserts. rewrite <- finish_ok. rewrite bs_size.
    change (wmul 64 (N.of_nat len) PRIME64_1) with (times (N.of_nat len) q1).
    destruct (Nat.ltb_spec 32 len); [|rewrite (pieces 0) by lia]; [destruct (Nat.ltb_spec 64 len); [|rewrite (pieces 1) by lia]|];
      [destruct (Nat.ltb_spec 96 len); [rewrite (pieces 3) by lia|rewrite (pieces 2) by lia]| |];
      cbv zeta; cbn [bind]; repeat (rewrite mix32B_ok by (auto; lia); cbn [bind]); reflexivity.
  Qed.
  Lemma mix_loop : forall P Q S n from a,
    (forall i, (from <= i < from + n)%nat -> (P i + 16 <= len)%nat /\ (Q i + 16 <= len)%nat /\ (S i + 32 <= length sec)%nat) ->
    for_up n from (fun i acc => mix32B c input sec seed (P i) (Q i) (S i) acc) a
    = Ok (fold_left (fun a i => mix32 sec seed bs a (P i) (Q i) (S i)) (seq from n) a).
  Proof.
    intros P Q S n. induction n; intros from a H; cbn [for_up seq fold_left]; [reflexivity|].
    rewrite mix32B_ok by (auto; apply H; lia). cbn [bind]. apply IHn. intros i Hi. apply H. lia.
  Qed.
  Lemma len_129to240_128b_ok : (128 < len <= 240)%nat ->
    len_129to240_128b c input len sec seed = Ok (
      let a := fold_left (fun a i => mix32 sec seed bs a (32 * i) (32 * i + 16) (32 * i)) (seq 0 4) (times (size bs) q1, 0) in
      let a := (avalanche (fst a), avalanche (snd a)) in
      let a := fold_left (fun a i => mix32 sec seed bs a (32 * i) (32 * i + 16) (32 * (i - 4) + 3)) (seq 4 (len / 32 - 4)) a in
      finish (size bs) seed (mix32 sec (minus 0 seed) bs a (len - 16) (len - 32) 103)).
  Proof.
    intro H. unfold len_129to240_128b. asserts. cbv zeta.
    rewrite (mix_loop (fun i => 32 * i)%nat (fun i => 32 * i + 16)%nat (fun i => 32 * i)%nat) by (intros; lia). cbn [bind].
    assert (D := Nat.div_mod len 32 ltac:(lia)). assert (M := Nat.mod_upper_bound len 32 ltac:(lia)).
    rewrite assert_ok by (apply Nat.leb_le; lia). cbn [bind]. rewrite !avalanche_ok.
    rewrite (mix_loop (fun i => 32 * i)%nat (fun i => 32 * i + 16)%nat (fun i => XXH3_MIDSIZE_STARTOFFSET + 32 * (i - 4))%nat)
      by (unfold XXH3_MIDSIZE_STARTOFFSET; intros; lia). cbn [bind].
    unfold XXH3_SECRET_SIZE_MIN, XXH3_MIDSIZE_LASTOFFSET. rewrite minus_ok, mix32B_ok by (auto with xw; lia). cbn [bind].
    rewrite finish_ok, bs_size. do 3 f_equal.
    assert (FE : forall l a, fold_left (fun a i => mix32 sec seed bs a (32 * i) (32 * i + 16) (XXH3_MIDSIZE_STARTOFFSET + 32 * (i - 4))) l a
      = fold_left (fun a i => mix32 sec seed bs a (32 * i) (32 * i + 16) (32 * (i - 4) + 3)) l a).
    { induction l; intro a0; cbn [fold_left]; auto. rewrite IHl. do 2 f_equal. unfold XXH3_MIDSIZE_STARTOFFSET. lia. }
    apply FE.
  Qed.
  Lemma short128_ok : (len <= 240)%nat ->
    (if (len <=? 16)%nat then len_0to16_128b c input len sec seed
     else if (len <=? 128)%nat then len_17to128_128b c input len sec seed
     else len_129to240_128b c input len sec seed) = Ok (short128 sec seed bs).
  Proof.
    intros H. unfold short128. rewrite bs_length. destruct (Nat.leb_spec len 16).
    - unfold len_0to16_128b. asserts. destruct (Nat.ltb_spec 8 len).
      + destruct (Nat.eqb_spec len 0); [lia|]. destruct (Nat.leb_spec len 3); [lia|]. destruct (Nat.leb_spec len 8); [lia|].
        now apply len_9to16_128b_ok.
      + destruct (Nat.leb_spec 4 len).
        * destruct (Nat.eqb_spec len 0); [lia|]. destruct (Nat.leb_spec len 3); [lia|]. destruct (Nat.leb_spec len 8); [|lia].
          apply len_4to8_128b_ok; auto.
        * destruct (Nat.ltb_spec 0 len).
          -- destruct (Nat.eqb_spec len 0); [lia|]. destruct (Nat.leb_spec len 3); [|lia]. apply len_1to3_128b_ok. lia.
          -- destruct (Nat.eqb_spec len 0); [|lia]. rd. now rewrite !avalanche_ok.
    - destruct (Nat.eqb_spec len 0); [lia|]. destruct (Nat.leb_spec len 3); [lia|]. destruct (Nat.leb_spec len 8); [lia|].
      destruct (Nat.leb_spec len 128); [apply len_17to128_128b_ok|apply len_129to240_128b_ok]; lia.
  Qed.
End Short.

(* ---- the secret made from a seed ---- *)
Lemma kSecret_length : length kSecret = 192%nat. Proof. reflexivity. Qed.
Lemma kSecret_bytes : bytes kSecret. Proof. apply Forall_forall. intros x I. repeat (destruct I as [<-|I]; [reflexivity|]). destruct I. Qed.
Lemma digits_length : forall n x, length (digits n x) = n.
Proof. exact bytes_length. Qed.
Lemma digits_bytes : forall n x, bytes (digits n x).
Proof. exact bytes_are_bytes. Qed.
Definition part (seed : N) (i : nat) : list N :=
  digits 8 (plus (at64 kSecret (16 * i)) seed) ++ digits 8 (minus (at64 kSecret (16 * i + 8)) seed).
Lemma part_length : forall seed i, length (part seed i) = 16%nat.
Proof. intros. unfold part. now rewrite app_length, !digits_length. Qed.
Lemma parts_length : forall seed n, length (flat_map (part seed) (seq 0 n)) = (16 * n)%nat.
Proof.
  intros seed n. induction n; [reflexivity|]. rewrite seq_S, flat_map_app, app_length, IHn. cbn [flat_map Nat.add].
  rewrite app_nil_r, part_length. lia.
Qed.
Lemma init_from : forall seed g n k, length g = 192%nat -> (k + n <= 12)%nat ->
  for_up n k (fun i d =>
    let! k0 := readLE64 kSecret (16 * i) in
    let lo := wadd 64 k0 seed in
    let! k1 := readLE64 kSecret (16 * i + 8) in
    let hi := wsub 64 k1 seed in
    let! d := copy d (16 * i) (bytesLE 8 lo) 0 8 in
    copy d (16 * i + 8) (bytesLE 8 hi) 0 8) (flat_map (part seed) (seq 0 k) ++ skipn (16 * k) g)
  = Ok (flat_map (part seed) (seq 0 (k + n)) ++ skipn (16 * (k + n)) g).
Proof.
  intros seed g n. induction n; intros k G H.
  - cbn [for_up]. now rewrite Nat.add_0_r.
  - cbn [for_up]. rewrite !rd64 by (rewrite kSecret_length; lia). cbn [bind].
    set (lo := wadd 64 _ seed). set (hi := wsub 64 _ seed).
    assert (Lh := parts_length seed k). set (D := flat_map (part seed) (seq 0 k)) in *.
    rewrite copy_ok; [|rewrite app_length, skipn_length; lia|rewrite bytes_length; lia]. cbn [bind skipn].
    rewrite (firstn_all2 (n := 8)) by (rewrite bytes_length; lia).
    rewrite firstn_app, Lh, Nat.sub_diag, firstn_all2 by lia. cbn [firstn]. rewrite app_nil_r.
    rewrite skipn_app, Lh, (skipn_all2 D) by lia. cbn [app]. rewrite skipn_skipn.
    replace (16 * k + 8 - 16 * k)%nat with 8%nat by lia.
    rewrite copy_ok; [|rewrite !app_length, skipn_length, bytes_length; lia|rewrite bytes_length; lia]. cbn [bind skipn].
    rewrite (firstn_all2 (n := 8)) by (rewrite bytes_length; lia).
    rewrite (app_assoc D), firstn_app, app_length, bytes_length, Lh, Nat.sub_diag, firstn_all2 by (rewrite app_length, bytes_length; lia).
    cbn [firstn]. rewrite app_nil_r.
    rewrite skipn_app, app_length, bytes_length, Lh, (skipn_all2 (D ++ _)) by (rewrite app_length, bytes_length; lia). cbn [app].
    rewrite skipn_skipn.
    replace (16 * k + 8 + (16 * k + 8 + 8 - (16 * k + 8)))%nat with (16 * S k)%nat by lia.
    specialize (IHn (S k) G ltac:(lia)). replace (k + S n)%nat with (S k + n)%nat by lia. rewrite <- IHn. f_equal.
    rewrite seq_S, flat_map_app. cbn [flat_map Nat.add]. rewrite app_nil_r. fold D. unfold part.
    change (digits 8 (plus (at64 kSecret (16 * k)) seed)) with (bytesLE 8 lo).
    change (digits 8 (minus (at64 kSecret (16 * k + 8)) seed)) with (bytesLE 8 hi).
    now rewrite <- !app_assoc.
Qed.
Lemma init_ok : forall seed g, length g = 192%nat -> initCustomSecret g seed = Ok (derive seed kSecret).
Proof.
  intros seed g G. unfold initCustomSecret. change (XXH_SECRET_DEFAULT_SIZE / 16)%nat with 12%nat.
  etransitivity; [exact (init_from seed g 12 0 G ltac:(lia))|].
  rewrite skipn_all2 by lia. rewrite app_nil_r. reflexivity.
Qed.
Lemma derive_length : forall seed, length (derive seed kSecret) = 192%nat.
Proof. intro seed. exact (parts_length seed 12). Qed.
Lemma derive_bytes : forall seed, bytes (derive seed kSecret).
Proof.
  intro seed. apply Forall_forall. intros x I. apply in_flat_map in I. destruct I as (i & _ & I). revert x I. apply Forall_forall.
  apply bytes_app; apply digits_bytes.
Qed.
Lemma derive_0 : derive 0 kSecret = kSecret. Proof. vm_compute. reflexivity. Qed.

(* ---- one-shot ---- *)
Definition ok8 (c : build) (len : nat) : Prop := debug c = false \/ len <> 8%nat.
Section OneShot.
  Context (c : build) (input : list N) (len : nat) (Hl : (len <= length input)%nat) (Bi : bytes input).
  Let bs := firstn len input.
  (* a long input is hashed whole *)
  Context (W : (240 < len)%nat -> len = length input).
  Lemma whole : (240 < len)%nat -> bs = input.
  Proof. intro H. unfold bs. rewrite (W H). apply firstn_all. Qed.
  Lemma blen : length bs = len. Proof. now apply firstn_length_le. Qed.

  Lemma secret64_ok : forall sec, bytes sec -> (136 <= length sec)%nat -> ok8 c len ->
    XXH3_64bits_withSecret c input len sec = Ok (xxh3_64_secret sec bs).
  Proof.
    intros sec Bs Ls D. unfold XXH3_64bits_withSecret, xxh3_64_secret. rewrite blen. unfold XXH3_MIDSIZE_MAX, XXH3_SECRET_SIZE_MIN.
    rewrite assert_ok by (now apply Nat.leb_le). cbn [bind].
    assert (S := fun H => short64_ok c input len Hl Bi sec Ls 0 eq_refl H D).
    fold bs in S. destruct (Nat.leb_spec len 240).
    - rewrite <- S by auto. destruct (Nat.leb_spec len 16); auto.
    - destruct (Nat.leb_spec len 16); [lia|]. destruct (Nat.leb_spec len 128); [lia|].
      rewrite (W ltac:(lia)), hashLong64_ok by (auto; lia). now rewrite whole.
  Qed.
  Lemma plain64_ok : ok8 c len -> XXH3_64bits c input len = Ok (xxh3_64_secret kSecret bs).
  Proof.
    intro D. rewrite <- (secret64_ok kSecret kSecret_bytes ltac:(rewrite kSecret_length; lia) D). unfold XXH3_64bits_withSecret.
    rewrite assert_ok by reflexivity. reflexivity.
  Qed.
  Lemma seed64_ok : forall g seed, length g = 192%nat -> word seed -> ok8 c len ->
    XXH3_64bits_withSeed c g input len seed = Ok (xxh3_64 kSecret seed bs).
  Proof.
    intros g seed G Ws D. unfold XXH3_64bits_withSeed, xxh3_64. rewrite blen. unfold XXH3_MIDSIZE_MAX.
    assert (S := fun H => short64_ok c input len Hl Bi kSecret ltac:(rewrite kSecret_length; lia) seed Ws H D).
    fold bs in S. destruct (Nat.leb_spec len 240).
    - rewrite <- S by auto. destruct (Nat.leb_spec len 16); auto.
    - destruct (Nat.leb_spec len 16); [lia|]. destruct (Nat.leb_spec len 128); [lia|].
      unfold hashLong_64b_withSeed. rewrite whole, (W ltac:(lia)) by auto. destruct (N.eqb_spec seed 0) as [->|].
      + rewrite derive_0. apply hashLong64_ok; auto using kSecret_bytes; rewrite ?kSecret_length; lia.
      + rewrite init_ok by auto. cbn [bind]. apply hashLong64_ok; auto using derive_bytes; rewrite ?derive_length; lia.
  Qed.
  Lemma secret128_ok : forall sec, bytes sec -> (136 <= length sec)%nat ->
    XXH3_128bits_withSecret c input len sec = Ok (xxh3_128_secret sec bs).
  Proof.
    intros sec Bs Ls. unfold XXH3_128bits_withSecret, xxh3_128_secret. rewrite blen. unfold XXH3_MIDSIZE_MAX, XXH3_SECRET_SIZE_MIN.
    rewrite assert_ok by (now apply Nat.leb_le). cbn [bind].
    assert (S := fun H => short128_ok c input len Hl Bi sec Ls 0 eq_refl H).
    fold bs in S. destruct (Nat.leb_spec len 240).
    - rewrite <- S by auto. destruct (Nat.leb_spec len 16); auto.
    - destruct (Nat.leb_spec len 16); [lia|]. destruct (Nat.leb_spec len 128); [lia|].
      rewrite (W ltac:(lia)), hashLong128_ok by (auto; lia). now rewrite whole.
  Qed.
  Lemma plain128_ok : XXH3_128bits c input len = Ok (xxh3_128_secret kSecret bs).
  Proof.
    rewrite <- (secret128_ok kSecret kSecret_bytes ltac:(rewrite kSecret_length; lia)). unfold XXH3_128bits_withSecret.
    rewrite assert_ok by reflexivity. reflexivity.
  Qed.
  Lemma seed128_ok : forall g seed, length g = 192%nat -> word seed ->
    XXH3_128bits_withSeed c g input len seed = Ok (xxh3_128 kSecret seed bs).
  Proof.
    intros g seed G Ws. unfold XXH3_128bits_withSeed, xxh3_128. rewrite blen. unfold XXH3_MIDSIZE_MAX.
    assert (S := fun H => short128_ok c input len Hl Bi kSecret ltac:(rewrite kSecret_length; lia) seed Ws H).
    fold bs in S. destruct (Nat.leb_spec len 240).
    - rewrite <- S by auto. destruct (Nat.leb_spec len 16); auto.
    - destruct (Nat.leb_spec len 16); [lia|]. destruct (Nat.leb_spec len 128); [lia|].
      unfold hashLong_128b_withSeed. rewrite whole, (W ltac:(lia)) by auto. destruct (N.eqb_spec seed 0) as [->|].
      + rewrite derive_0. apply hashLong128_ok; auto using kSecret_bytes; rewrite ?kSecret_length; lia.
      + rewrite init_ok by auto. cbn [bind]. apply hashLong128_ok; auto using derive_bytes; rewrite ?derive_length; lia.
  Qed.
End OneShot.

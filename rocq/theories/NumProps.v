(* C37 - C39, C81, C82: conversion between values and text *)
From Coq Require Import NArith ZArith List Bool Arith Lia.
From Verif Require Import Base SboModel NumModel NumSpec NumProofs.
Import ListNotations.
Open Scope N_scope.

(* ---- C37 ---- *)
(* Every value of every integer type: to_string stays within its buffer and gives the usual decimal text, which both
   overloads of from_string read back. *)
Theorem C37_round_trip : forall t z, in_range t z ->
  exists l, to_string t z = Ok l /\ decimal l z /\ from_cstr t l = (true, z) /\ from_view t l = Ok (true, z).
Proof.
  intros t z R. exists (itext z). assert (D := itext_decimal z). assert (T := decimal_number _ _ D).
  assert (NN := number_no_nul _ _ T).
  assert (C : from_cstr t (itext z) = (true, z)).
  { apply from_cstr_spec. exists [], (itext z), z. split; [apply until_nul_id; exact NN|]. split; [constructor|]. split; [exact T|].
    split; [apply in_range_lets; exact R|]. symmetry. apply conv_id. exact R. }
  split; [apply to_string_spec; exact R|]. split; [exact D|]. split; [exact C|].
  rewrite from_view_short; [rewrite C; reflexivity| |exact NN].
  assert (L := itext_length t z R). destruct t; cbn in L; lia.
Qed.
Example C37_round_trip_ex : in_range I64 (-9223372036854775808) /\
  to_string I64 (-9223372036854775808) = Ok [45; 57; 50; 50; 51; 51; 55; 50; 48; 51; 54; 56; 53; 52; 55; 55; 53; 56; 48; 56] /\
  from_view I8 [45; 49; 50; 56] = Ok (true, (-128)%Z) /\ to_string U8 255 = Ok [50; 53; 53].
Proof. vm_compute. intuition discriminate. Qed.

(* the decimal text is determined by the value and determines it *)
Theorem C37_text_unique : forall l l' z z', decimal l z -> decimal l' z' -> (l = l' <-> z = z').
Proof.
  intros l l' z z' D D'. split.
  - intros <-. apply decimal_number in D, D'.
    destruct (scan_complete [] l z ltac:(constructor) D) as (n & m & E & ->).
    destruct (scan_complete [] l z' ltac:(constructor) D') as (n' & m' & E' & ->). congruence.
  - intros <-. eapply decimal_unique; eauto.
Qed.
Example C37_text_unique_ex : decimal [45; 55] (-7) /\ decimal [48] 0 /\ ~ decimal [48; 55] 7.
Proof.
  split; [exact (itext_decimal (-7))|]. split; [exact (itext_decimal 0)|].
  intro D. assert (E := decimal_unique _ _ _ D (itext_decimal 7)). vm_compute in E. discriminate.
Qed.

(* ---- C38 ---- *)
Definition txt_2_32 : list N := [52; 50; 57; 52; 57; 54; 55; 50; 57; 54].
Lemma txt_2_32_denotes : forall z, number_text txt_2_32 z -> z = 4294967296%Z.
Proof.
  intros z T. destruct (scan_complete [] _ z ltac:(constructor) T) as (n & m & E & ->). vm_compute in E. injection E as <- <-. reflexivity.
Qed.
(* "4294967296" is accepted as the int 0 *)
Theorem C38_only_numbers_refuted : exists t s v, from_cstr t s = (true, v) /\ ~ (number_text s v /\ in_range t v).
Proof.
  exists I32, txt_2_32, 0%Z. split; [vm_compute; reflexivity|]. intros [T _]. apply txt_2_32_denotes in T. discriminate.
Qed.
(* "-1" is accepted as an unsigned 4294967295, and "-4294967295" as the unsigned char 1 *)
Theorem C38_negative_refuted : from_cstr U32 [45; 49] = (true, 4294967295%Z) /\
  from_cstr U8 [45; 52; 50; 57; 52; 57; 54; 55; 50; 57; 53] = (true, 1%Z).
Proof. split; vm_compute; reflexivity. Qed.
(* a view is cut at its first NUL ("1", NUL, "x" is 1) and after 255 characters (255 times "0", then "7x", is 0) *)
Theorem C38_view_refuted : from_view I32 [49; 0; 120] = Ok (true, 1%Z) /\ from_view I64 (repeat 48 255 ++ [55; 120]) = Ok (true, 0%Z).
Proof. split; vm_compute; reflexivity. Qed.

(* Exactly which texts are accepted, and as what: blanks, then a number which as a 64-bit value is in range and, for 8 and
   16 bit targets, fits after conversion to 32 bits; the result is the number modulo 2^bits. *)
Theorem C38_accepted_exactly_partial : forall t s v, from_cstr t s = (true, v) <->
  exists ws u z, until_nul s = ws ++ u /\ blank ws /\ number_text u z /\
    (if isgn t then in_range I64 z else (Z.abs z <= imax U64)%Z) /\
    (ibits t < 32 -> in_range t (conv (if isgn t then I32 else U32) z)) /\ v = conv t z.
Proof.
  intros t s v. rewrite from_cstr_spec. unfold lets_through, wide_ok.
  split; intros (ws & u & z & H); exists ws, u, z; tauto.
Qed.
Example C38_accepted_exactly_ex : from_cstr U16 [32; 9; 43; 48; 48; 55] = (true, 7%Z) /\ fst (from_cstr U8 [50; 53; 54]) = false /\
  fst (from_cstr I64 [57; 50; 50; 51; 51; 55; 50; 48; 51; 54; 56; 53; 52; 55; 55; 53; 56; 48; 56]) = false.
Proof. vm_compute. auto. Qed.

(* Full for int64_t, apart from leading blanks: accepted only and always if the text is a number in range, with that value. *)
Theorem C38_int64_partial : forall s v, Forall (fun c => c <> 0) s -> (from_cstr I64 s = (true, v) <->
  exists ws u, s = ws ++ u /\ blank ws /\ number_text u v /\ in_range I64 v).
Proof.
  intros s v F. rewrite C38_accepted_exactly_partial, until_nul_id by exact F. split.
  - intros (ws & u & z & E & B & T & R & _ & ->). cbn in R. rewrite conv_id by exact R. eauto 10.
  - intros (ws & u & E & B & T & R). exists ws, u, v. cbn [isgn ibits]. repeat (split; [assumption|]). split; [lia|]. symmetry. apply conv_id. exact R.
Qed.
Example C38_int64_ex : from_cstr I64 [32; 45; 49; 50] = (true, (-12)%Z) /\ fst (from_cstr I64 [49; 50; 32]) = false.
Proof. vm_compute. auto. Qed.

(* Sound for every type on numbers of magnitude below 2^31, without a minus sign for unsigned types. *)
Theorem C38_small_partial : forall t ws u z v, blank ws -> number_text u z -> (Z.abs z < 2 ^ 31)%Z -> (isgn t = false -> 0 <= z)%Z ->
  (from_cstr t (ws ++ u) = (true, v) <-> in_range t z /\ v = z).
Proof.
  intros t ws u z v B T L P.
  assert (F : Forall (fun c => c <> 0) (ws ++ u)).
  { apply Forall_app. split; [|eapply number_no_nul; eauto]. eapply Forall_impl; [|exact B]. cbn. intros; lia. }
  rewrite from_cstr_spec, until_nul_id by exact F. split.
  - intros (ws' & u' & z' & E & B' & T' & [_ N] & ->).
    assert (z' = z) as ->.
    { destruct (scan_complete ws u z B T) as (n1 & m1 & S1 & ->). destruct (scan_complete ws' u' z' B' T') as (n2 & m2 & S2 & ->).
      rewrite E in S1. congruence. }
    assert (R : in_range t z).
    { destruct (N.ltb_spec (ibits t) 32) as [b|b].
      - specialize (N b). rewrite conv_id in N; [exact N|]. change (2 ^ 31)%Z with 2147483648%Z in L. ty t; try lia; specialize (P eq_refl); lia.
      - change (2 ^ 31)%Z with 2147483648%Z in L. destruct t; try (cbn in b; lia); unfold in_range, imin, imax; cbn; try lia; specialize (P eq_refl); lia. }
    split; [exact R|]. apply conv_id. exact R.
  - intros [R ->]. exists ws, u, z. split; [reflexivity|]. split; [exact B|]. split; [exact T|]. split; [apply in_range_lets; exact R|].
    symmetry. apply conv_id. exact R.
Qed.
Example C38_small_ex : number_text [43; 49; 50; 56] 128 /\ from_cstr U8 [43; 49; 50; 56] = (true, 128%Z) /\ fst (from_cstr I8 [43; 49; 50; 56]) = false.
Proof.
  split; [|vm_compute; auto]. exists [49; 50; 56], 128. split; [discriminate|]. split; [|auto]. apply reads_fold. split; [repeat constructor|reflexivity].
Qed.

(* nothing in range is rejected: every number text denoting a value of the type is read as that value, by both overloads *)
Theorem C38_complete : forall t u z, number_text u z -> in_range t z ->
  from_cstr t u = (true, z) /\ ((length u <= 255)%nat -> from_view t u = Ok (true, z)).
Proof.
  intros t u z T R. assert (F := number_no_nul _ _ T).
  assert (C : from_cstr t u = (true, z)).
  { apply from_cstr_spec. exists [], u, z. split; [apply until_nul_id; exact F|]. split; [constructor|]. split; [exact T|].
    split; [apply in_range_lets; exact R|]. symmetry. apply conv_id. exact R. }
  split; [exact C|]. intro L. rewrite from_view_short by auto. rewrite C. reflexivity.
Qed.
Example C38_complete_ex : number_text [45; 48; 48] 0 /\ in_range U8 0.
Proof.
  split; [|vm_compute; intuition discriminate]. exists [48; 48], 0. split; [discriminate|]. split; [|auto]. apply reads_fold. split; [repeat constructor|reflexivity].
Qed.
(* the string_view overload is the C string overload on texts of at most 255 characters without NUL *)
Theorem C38_view_partial : forall t s, (length s <= 255)%nat -> Forall (fun c => c <> 0) s -> from_view t s = Ok (from_cstr t s).
Proof. exact from_view_short. Qed.
Example C38_view_ex : from_view U8 [55; 120] = Ok (false, 7%Z).
Proof. vm_compute. reflexivity. Qed.

(* ---- C39 ---- *)
(* the grammar of format specifications is parsed as meant *)
Theorem C39_parse : forall num s, (forall v, canonical lower 10 (num v) v) -> spec_ok s -> parse_args (render num s) = Ok (meaning s).
Proof.
  intros num s C H. rewrite <- (parse_render s H). f_equal. unfold render.
  assert (E : forall v, num v = NumProofs.num v) by (intro v; apply (canonical_utext false 10); [lia|apply C]).
  destruct (s_width s) as [[z w]|], (s_prec s) as [p|]; rewrite ?E; reflexivity.
Qed.
Definition demo_spec : spec := Spec (Some (Some 42, 94)) (Some 43) true (Some (true, 12)) (Some 3) (Some 120).
Example C39_parse_ex : spec_ok demo_spec /\ render NumProofs.num demo_spec = [42; 94; 43; 35; 48; 49; 50; 46; 51; 120].
Proof.
  split; [|vm_compute; reflexivity]. unfold spec_ok, demo_spec. cbn [s_align s_sign s_alt s_width s_prec s_type]. unfold letter.
  split; [split; [auto|lia]|]. split; [auto|]. split; [change (2 ^ 31) with 2147483648; lia|]. split; [change (2 ^ 31) with 2147483648; lia|lia].
Qed.

(* five ways in which the formatted text is not the number in the base padded to the width *)
Theorem C39_zero_binary_refuted : to_string_fmt U8 0 [98] = Ok [] /\ ~ (exists a, parse_args [98] = Ok a /\ int_field 0 a []).
Proof.
  split; [vm_compute; reflexivity|]. intros (a & E & b & tab & p & ds & B & (N0 & _) & F).
  vm_compute in E. injection E as <-. cbn in F. destruct F as (i & j & F & _). symmetry in F. apply app_eq_nil in F. destruct F as [_ F].
  apply app_eq_nil in F. tauto.
Qed.
(* the field width is ignored in base 2, alignment is ignored, the sign comes before blank padding: "{:8b}" of 5, "{:<4}" of 5,
   "{:5}" of -5 *)
Theorem C39_padding_refuted :
  to_string_fmt U8 5 [56; 98] = Ok [49; 48; 49] /\ to_string_fmt U8 5 [60; 52] = Ok [32; 32; 32; 53] /\
  to_string_fmt I32 (-5) [53] = Ok [45; 32; 32; 32; 53] /\
  (forall l a, to_string_fmt U8 5 [56; 98] = Ok l -> parse_args [56; 98] = Ok a -> ~ int_field 5 a l) /\
  (forall l a, to_string_fmt U8 5 [60; 52] = Ok l -> parse_args [60; 52] = Ok a -> ~ int_field 5 a l) /\
  (forall l a, to_string_fmt I32 (-5) [53] = Ok l -> parse_args [53] = Ok a -> ~ int_field (-5) a l).
Proof.
  split; [vm_compute; reflexivity|]. split; [vm_compute; reflexivity|]. split; [vm_compute; reflexivity|].
  split; [|split]; intros l a L E; vm_compute in L, E; injection L as <-; injection E as <-;
    intros (b & tab & p & ds & B & C & F); vm_compute in B; injection B as <- <- <-.
  - cbn in F. destruct F as (i & j & _ & W & _). cbn in W. lia.
  - apply (canonical_utext false) in C; [|lia]. subst ds. vm_compute in F. destruct F as (i & j & E & _ & A & _).
    rewrite (A eq_refl) in E. discriminate.
  - apply (canonical_utext false) in C; [|lia]. subst ds. vm_compute in F. destruct F as (i & j & E & _ & _ & A & _).
    rewrite (A eq_refl) in E. destruct i as [|i]; [discriminate|]. cbn in E. discriminate.
Qed.
(* -value overflows: "{}" of the most negative int and long *)
Theorem C39_min_refuted : forall a, int_fmt I32 (imin I32) a = UB /\ int_fmt I64 (imin I64) a = UB.
Proof. intro a. split; reflexivity. Qed.
(* "{:#x}" reads beyond its stack buffer for every value with a non-zero leading hexadecimal digit *)
Theorem C39_overrun_refuted : forall t z a, isgn t = false -> in_range t z -> (2 ^ (Z.of_N (ibits t) - 4) <= z)%Z ->
  alt a = true -> typ a = 120 \/ typ a = 88 -> int_fmt t z a = UB.
Proof.
  intros t z a S R H A T. rewrite uint_out_eq by auto. apply hash_overrun; auto; [apply isbits_ibits|].
  clear R. destruct t; try discriminate; cbn [ibits] in *;
    match goal with |- 2 ^ ?k <= _ => let p := eval vm_compute in (2 ^ k) in change (2 ^ k) with p end;
    match type of H with (2 ^ ?k <= _)%Z => let p := eval vm_compute in (2 ^ k)%Z in change (2 ^ k)%Z with p in H end; lia.
Qed.
Example C39_overrun_ex : parse_args [35; 120] = Ok (Fmt (-1) (-1) 32 62 45 120 true false) /\ to_string_fmt U8 255 [35; 120] = UB /\
  to_string_fmt U8 15 [35; 120] = Ok [48; 120; 0].
Proof. vm_compute. auto. Qed.

(* Where it is right: the whole field, for every type, value and arguments, unless the value is the most negative int / long,
   an explicit sign is asked of an unsigned type, zero is printed in base 2, the "0x" form lacks room for two more digits; and
   either nothing is to be padded, or with zeros and no prefix, or to the right edge and there is no sign.
   Missing for the full claim: the cases refuted above. *)
Theorem C39_field_partial : forall t z s num b tab p ds, (forall v, canonical lower 10 (num v) v) -> spec_ok s ->
  let a := meaning s in
  in_range t z -> (t = I32 \/ t = I64 -> z <> imin t) -> (isgn t = false -> sign a = 45) ->
  base_of (typ a) = Some (b, tab, p) -> canonical tab b ds (Z.abs_N z) -> (b = 2 -> z <> 0%Z) ->
  (alt a = true -> b = 16 -> 0 < Z.abs_N z < 2 ^ (ibits t - 8)) ->
  (width a <= Z.of_nat (length (sign_text (sign a) z ++ ds)))%Z \/
  (b <> 2 /\ alt a = false /\ zero a = true) \/
  (b <> 2 /\ align a = 62 /\ zero a = false /\ sign_text (sign a) z = [] /\ (alt a = false \/ b = 16)) ->
  exists l, to_string_fmt t z (render num s) = Ok l /\ int_field z a l.
Proof.
  intros t z s num b tab p ds C H a R M SU B D Z2 HX RC. unfold to_string_fmt. rewrite (C39_parse num s C H). cbn [bind]. fold a.
  eapply int_fmt_field; eauto.
  destruct H as (_ & H & _). unfold sign_known, a, meaning. cbn [sign]. destruct (s_sign s); auto.
Qed.
(* "{:+#6x}" is not among them, but "{:+06}" of 42, "{:*>8x}" of 48879, "{:#X}" of 48879 (32 bit), "{:b}" of -5 are *)
Example C39_field_ex : to_string_fmt I32 42 [43; 48; 54] = Ok [43; 48; 48; 48; 52; 50] /\
  to_string_fmt U32 48879 [42; 62; 56; 120] = Ok [42; 42; 42; 42; 98; 101; 101; 102] /\
  to_string_fmt U32 48879 [35; 88] = Ok [48; 88; 66; 69; 69; 70] /\ to_string_fmt I8 (-5) [98] = Ok [45; 49; 48; 49].
Proof. vm_compute. auto. Qed.
Example C39_field_hyps_ex : let s := Spec (Some (Some 42, 62)) None false (Some (false, 8)) None (Some 120) in
  spec_ok s /\ exists l, to_string_fmt U32 48879 (render NumProofs.num s) = Ok l /\ int_field 48879 (meaning s) l.
Proof.
  cbv zeta. assert (K : spec_ok (Spec (Some (Some 42, 62)) None false (Some (false, 8)) None (Some 120))).
  { unfold spec_ok, letter. cbn [s_align s_sign s_alt s_width s_prec s_type]. change (2 ^ 31) with 2147483648.
    split; [split; [auto|lia]|]. split; [exact I|]. split; [lia|]. split; [exact I|lia]. }
  split; [exact K|].
  apply C39_field_partial with (b := 16) (tab := lower) (p := [48; 120]) (ds := utext false 16 48879); auto.
  - intro v. apply (utext_canonical false 10). lia.
  - vm_compute. intuition discriminate.
  - intros [X|X]; discriminate.
  - apply (utext_canonical false 16). lia.
  - discriminate.
  - discriminate.
  - right. right. repeat split; auto; discriminate.
Qed.

(* Memory: apart from the "0x" form and the two most negative values, every value and every arguments either give text or are
   rejected by the assertion on the type letter, which happens exactly for letters that name no base. *)
Theorem C39_no_overrun_partial : forall t z a, in_range t z -> (t = I32 \/ t = I64 -> z <> imin t) ->
  (sign a = 43 \/ sign a = 45 \/ sign a = 32) -> ~ (alt a = true /\ (typ a = 120 \/ typ a = 88)) ->
  (exists l, int_fmt t z a = Ok l) /\ base_of (typ a) <> None \/ int_fmt t z a = Contract /\ base_of (typ a) = None.
Proof. exact int_fmt_safe. Qed.
Example C39_no_overrun_ex : to_string_fmt U64 18446744073709551615 [111] =
  Ok [49; 55; 55; 55; 55; 55; 55; 55; 55; 55; 55; 55; 55; 55; 55; 55; 55; 55; 55; 55; 55; 55] /\ to_string_fmt I8 5 [102] = Contract.
Proof. vm_compute. auto. Qed.

(* ---- C81 ---- *)
(* "{:5.2}" of "abc" is "ab": the width is dropped when the precision cuts *)
Theorem C81_precision_and_width_refuted : exists v spec a l, parse_args spec = Ok a /\ to_string_text v spec = Ok l /\ ~ text_field v a l.
Proof.
  exists [97; 98; 99], [53; 46; 50]. eexists _, _. split; [vm_compute; reflexivity|]. split; [vm_compute; reflexivity|].
  intros (i & j & _ & W & _). cbn in W. lia.
Qed.
(* In all other cases the text is cut to the precision and padded to the width as aligned (texts below 2 GiB). *)
Theorem C81_text_field_partial : forall v num s, (forall n, canonical lower 10 (num n) n) -> spec_ok s -> render num s <> [] ->
  (Z.of_nat (length v) < 2 ^ 31)%Z ->
  (prec (meaning s) < 0 \/ prec (meaning s) <= Z.of_nat (length v) /\ width (meaning s) <= prec (meaning s) \/ Z.of_nat (length v) < prec (meaning s))%Z ->
  exists l, to_string_text v (render num s) = Ok l /\ text_field v (meaning s) l.
Proof.
  intros v num s C H N0 L P. assert (E := C39_parse num s C H). unfold to_string_text.
  destruct (render num s); [congruence|]. rewrite E. cbn [bind]. change (2 ^ 31)%Z with 2147483648%Z in L.
  destruct H as (Ha & _ & Hw & _). change (2 ^ 31) with 2147483648 in Hw.
  apply text_fmt_field; auto.
  - lia.
  - unfold meaning. cbn [width]. destruct (s_width s) as [[z w]|]; lia.
  - unfold meaning. cbn [align]. destruct (s_align s) as [[f c]|]; [tauto|auto].
Qed.
Theorem C81_no_spec : forall v, to_string_text v [] = Ok v.
Proof. reflexivity. Qed.
Example C81_text_field_ex : to_string_text [97; 98] [42; 94; 55] = Ok [42; 42; 42; 97; 98; 42; 42] /\
  to_string_text [97; 98] [45; 62; 51] = Ok [45; 97; 98] /\ to_string_text [97; 98; 99] [46; 50] = Ok [97; 98].
Proof. vm_compute. auto. Qed.

(* ---- C82 ---- *)
Theorem C82_round_trip : (forall v, v < 256 -> byte_from_string (byte_to_string v) = Some v) /\
  (forall b, bool_from_string (bool_to_string b) = Some b) /\ (forall c, char_from_string (char_to_string c) = Some c).
Proof. split; [exact byte_round|]. split; [intro b; apply bool_spec; reflexivity|reflexivity]. Qed.
(* and nothing else is accepted: two hexadecimal digits, "true" / "false", one character *)
Theorem C82_accepts_only : (forall s v, byte_from_string s = Some v <->
    exists c0 c1 d0 d1, s = [c0; c1] /\ v = 16 * d0 + d1 /\ d0 < 16 /\ d1 < 16 /\
      (nth_error lower (N.to_nat d0) = Some c0 \/ nth_error upper (N.to_nat d0) = Some c0) /\
      (nth_error lower (N.to_nat d1) = Some c1 \/ nth_error upper (N.to_nat d1) = Some c1)) /\
  (forall s b, bool_from_string s = Some b <-> s = bool_to_string b) /\
  (forall s c, char_from_string s = Some c <-> s = [c]).
Proof.
  split; [|split; [exact bool_spec|]].
  - intros s v. rewrite byte_accepts. split; intros (c0 & c1 & d0 & d1 & H).
    + exists c0, c1, d0, d1. rewrite !hex_from_char_spec in H. tauto.
    + exists c0, c1, d0, d1. rewrite !hex_from_char_spec. tauto.
  - intros [|x [|y s]] c; cbn; split; intro H; try discriminate; congruence.
Qed.
Example C82_ex : byte_to_string 175 = [65; 70] /\ byte_from_string [97; 102] = Some 175 /\ byte_from_string [103; 48] = None /\
  bool_from_string [116; 114; 117] = None.
Proof. vm_compute. auto. Qed.

Print Assumptions C37_round_trip.
Print Assumptions C37_text_unique.
Print Assumptions C38_only_numbers_refuted.
Print Assumptions C38_negative_refuted.
Print Assumptions C38_view_refuted.
Print Assumptions C38_accepted_exactly_partial.
Print Assumptions C38_int64_partial.
Print Assumptions C38_small_partial.
Print Assumptions C38_complete.
Print Assumptions C38_view_partial.
Print Assumptions C39_parse.
Print Assumptions C39_zero_binary_refuted.
Print Assumptions C39_padding_refuted.
Print Assumptions C39_min_refuted.
Print Assumptions C39_overrun_refuted.
Print Assumptions C39_field_partial.
Print Assumptions C39_no_overrun_partial.
Print Assumptions C81_precision_and_width_refuted.
Print Assumptions C81_text_field_partial.
Print Assumptions C81_no_spec.
Print Assumptions C82_round_trip.
Print Assumptions C82_accepts_only.

(* Theorems about the conversion of wide and narrow strings (C125). *)
From Coq Require Import NArith ZArith List Bool Lia Arith.
From Coq Require Import ZifyN.
From Verif Require Import Base WConvModel WConvSpec WConvProofs.
Import ListNotations.
Open Scope N_scope.
Ltac Zify.zify_post_hook ::= Z.to_euclidean_division_equations.

(* The number of bytes that may be stored: the size of dest, and a quarter of opt_num_src_chars if that is given.
   The full claim would take as many characters as opt_num_src_chars says; see C125_quarter_refuted. *)
Theorem C125_narrow_partial : forall dest src opt lim, N.of_nat (length dest) < 2 ^ 31 ->
  Z.of_nat lim = (if 0 <? opt then Z.min (Z.of_nat (length dest)) (opt / 4) else Z.of_nat (length dest))%Z ->
  In 0 src \/ (lim <= length src)%nat ->
  exists dest' r, widechar_to_char (Some dest) src opt = Ok (Some dest', r) /\ narrowed lim src dest dest' r.
Proof.
  intros dest src opt lim HD HL HZ. unfold widechar_to_char. rewrite to_int_small by exact HD. rewrite <- HL.
  change (2 ^ 31) with 2147483648 in HD.
  assert (LE : (lim <= length dest)%nat) by (destruct (0 <? opt)%Z; lia).
  rewrite to_size_nat by lia.
  destruct (wcsrtombs_ok lim dest src [] [] t_nil ltac:(cbn; lia) LE) as (d & r & E & X); [cbn [length]; destruct HZ; auto|].
  rewrite over_nil in E. cbn [length] in E. rewrite E. cbn [bind]. exists d, r. auto.
Qed.
(* The number of wide characters that are stored: the size of dest and opt_num_src_chars. *)
Theorem C125_widen_partial : forall dest src opt lim, N.of_nat (length dest) < 2 ^ 31 ->
  Z.of_nat lim = (if 0 <? opt then Z.min (Z.of_nat (length dest)) opt else Z.of_nat (length dest))%Z ->
  In 0 src ->
  exists dest' r, char_to_widechar dest src opt = Ok (dest', r) /\ widened lim src dest dest' r.
Proof.
  intros dest src opt lim HD HL HZ. unfold char_to_widechar. rewrite to_int_small by exact HD. rewrite <- HL.
  change (2 ^ 31) with 2147483648 in HD.
  assert (LE : (lim <= length dest)%nat) by (destruct (0 <? opt)%Z; lia).
  rewrite to_size_nat by lia.
  destruct (mbsrtowcs_ok lim dest (S (length src)) src [] [] t_nil ltac:(cbn; lia) LE HZ ltac:(lia)) as (d & r & E & X).
  rewrite over_nil in E. cbn [length] in E. rewrite E. exists d, r. auto.
Qed.

(* A text that fits is converted completely, with its terminator, and converting it back gives the same text. *)
Theorem C125_round_trip : forall p bs dest wide q q', text p bs -> N.of_nat (length dest) < 2 ^ 31 -> N.of_nat (length wide) < 2 ^ 31 ->
  (length bs < length dest)%nat -> (length p < length wide)%nat ->
  widechar_to_char (Some dest) (p ++ 0 :: q) (-1) = Ok (Some (over (bs ++ [0]) dest), Z.of_nat (length bs)) /\
  char_to_widechar wide (bs ++ 0 :: q') (-1) = Ok (over (p ++ [0]) wide, Z.of_nat (length p)).
Proof.
  intros p bs dest wide q q' T HD HW LD LW. split.
  - destruct (C125_narrow_partial dest (p ++ 0 :: q) (-1) (length dest) HD eq_refl) as (d & r & E & p1 & q1 & bs1 & EQ & T1 & L1 & X).
    { left. apply in_app_iff. right. left. reflexivity. }
    rewrite E. 
    assert (K : exists p2 bs2, text p2 bs2 /\ p = p1 ++ p2 /\ bs = bs1 ++ bs2 /\ q1 = p2 ++ 0 :: q).
    { clear -T T1 EQ. revert p1 bs1 T1 EQ. induction T as [|c cb p bs D U T IH]; intros p1 bs1 T1 EQ.
      - inversion T1 as [|c' cb' p2 bs2 D' U' T2]; subst; cbn in EQ; [exists [], []; split; [constructor|auto]|]. injection EQ as <- _. congruence.
      - inversion T1 as [|c' cb' p2 bs2 D' U' T2]; subst; cbn in EQ.
        + exists (c :: p), (cb ++ bs). subst. split; [constructor; auto|auto].
        + injection EQ as <- EQ. assert (cb' = cb) by (eapply utf8_fun; eauto). subst cb'.
          destruct (IH p2 bs2 T2 EQ) as (p3 & bs3 & T3 & -> & -> & ->). exists p3, bs3. rewrite app_assoc. auto. }
    destruct K as (p2 & bs2 & T2 & -> & -> & ->). rewrite app_length in LD.
    destruct X as [(q2 & EQ2 & L2 & -> & ->)|[(L2 & _)|[(c & q2 & cb & EQ2 & D2 & U2 & L2 & _)|(c & q2 & EQ2 & S2 & _)]]].
    + inversion T2 as [|c' cb' p3 bs3 D' U' T3]; subst; cbn in EQ2; [rewrite !app_nil_r; reflexivity|]. injection EQ2 as -> _. congruence.
    + lia.
    + inversion T2 as [|c' cb' p3 bs3 D' U' T3]; subst; cbn in EQ2; injection EQ2 as <- _; [congruence|].
      assert (cb = cb') by (eapply utf8_fun; eauto). subst. rewrite app_length in LD. lia.
    + inversion T2 as [|c' cb' p3 bs3 D' U' T3]; subst; cbn in EQ2; injection EQ2 as <- _; exfalso; apply S2; [left; lia|eapply utf8_scalar; eauto].
  - destruct (C125_widen_partial wide (bs ++ 0 :: q') (-1) (length wide) HW eq_refl) as (d & r & E & p1 & q1 & bs1 & EQ & T1 & L1 & X).
    { apply in_app_iff. right. left. reflexivity. }
    rewrite E.
    assert (K : exists p2 bs2, text p2 bs2 /\ p = p1 ++ p2 /\ bs = bs1 ++ bs2 /\ q1 = bs2 ++ 0 :: q').
    { clear -T T1 EQ. revert p1 bs1 T1 EQ. induction T as [|c cb p bs D U T IH]; intros p1 bs1 T1 EQ.
      - inversion T1 as [|c' cb' p2 bs2 D' U' T2]; subst; cbn [app] in EQ; [exists [], []; split; [constructor|auto]|].
        exfalso. pose proof (utf8_pos _ _ U'). destruct cb' as [|b cb']; cbn in *; [lia|]. injection EQ as <- _. apply (utf8_zero _ _ U' D'). left. reflexivity.
      - inversion T1 as [|c' cb' p2 bs2 D' U' T2]; subst.
        + exists (c :: p), (cb ++ bs). cbn in *. subst. split; [constructor; auto|auto].
        + rewrite <- !app_assoc in EQ. pose proof (mbrtowc_utf8 _ _ (bs ++ 0 :: q') U) as M. rewrite EQ, (mbrtowc_utf8 _ _ _ U') in M.
          injection M as -> EQ'. assert (cb' = cb) by (eapply utf8_fun; eauto). subst cb'.
          destruct (IH p2 bs2 T2 (eq_sym EQ')) as (p3 & bs3 & T3 & -> & -> & ->). exists p3, bs3. rewrite app_assoc. auto. }
    destruct K as (p2 & bs2 & T2 & -> & -> & ->). rewrite app_length in LW.
    destruct X as [(q2 & EQ2 & L2 & -> & ->)|[(L2 & _)|(L2 & NO & _)]].
    + inversion T2 as [|c' cb' p3 bs3 D' U' T3]; subst; cbn [app] in EQ2; [rewrite !app_nil_r; reflexivity|].
      exfalso. rewrite <- app_assoc in EQ2. pose proof (utf8_pos _ _ U'). destruct cb' as [|b cb']; cbn in *; [lia|]. injection EQ2 as -> _. apply (utf8_zero _ _ U' D'). left. reflexivity.
    + lia.
    + exfalso. inversion T2 as [|c' cb' p3 bs3 D' U' T3]; subst.
      * apply (NO 0 [0] q'); [constructor; lia|reflexivity].
      * apply (NO c' cb' (bs3 ++ 0 :: q') U'). rewrite <- app_assoc. reflexivity.
Qed.

(* to_string of a wide string has as many characters as the wide string; for ASCII they are the same characters. *)
Lemma wcslen_ok : forall p q, ~ In 0 p -> wcslen (p ++ 0 :: q) = Ok (length p).
Proof.
  induction p as [|c p IH]; intros q H; [reflexivity|]. cbn [wcslen app length]. destruct (N.eqb_spec c 0) as [->|]; [exfalso; apply H; left; reflexivity|].
  rewrite IH by (intro; apply H; right; auto). reflexivity.
Qed.
Lemma over_full : forall out dst, length out = length dst -> over out dst = out.
Proof. intros out dst H. unfold over. rewrite H, skipn_all. apply app_nil_r. Qed.
Theorem C125_to_string_partial : forall p q, ~ In 0 p -> N.of_nat (length p) < 2 ^ 31 ->
  exists s, to_string_wide (Some (p ++ 0 :: q)) = Ok s /\ length s = length p /\
    (Forall (fun c => c < 128) p -> s = p).
Proof.
  intros p q Z L. unfold to_string_wide. rewrite wcslen_ok by exact Z. cbn [bind].
  assert (LR : length (repeat 0 (length p)) = length p) by apply repeat_length.
  destruct (C125_narrow_partial (repeat 0 (length p)) (p ++ 0 :: q) (-1) (length p)) as (d & r & E & X).
  { rewrite LR. exact L. } { rewrite LR. reflexivity. } { right. rewrite app_length. lia. }
  rewrite E. cbn [bind]. exists d. split; [reflexivity|]. destruct X as (p1 & q1 & bs & EQ & T & L1 & X). split.
  - assert (OV : forall out, (length out <= length p)%nat -> length (over out (repeat 0 (length p))) = length p) by (intros out H; rewrite over_len; rewrite LR; auto).
    destruct X as [(q2 & EQ2 & L2 & -> & ->)|[(L2 & -> & _)|[(c & q2 & cb & EQ2 & D2 & U2 & L2 & -> & _)|(c & q2 & EQ2 & S2 & L2 & -> & _)]]]; apply OV; auto.
    rewrite app_length. cbn. lia.
  - intros A.
    assert (K : forall a b, text a b -> Forall (fun c => c < 128) a -> a = b).
    { clear. intros a b T. induction T as [|c cb p bs D U T IH]; intros F; [reflexivity|]. inversion F; subst. rewrite <- (IH H2).
      inversion U; subst; try lia. reflexivity. }
    assert (PRE : exists p2, p = p1 ++ p2 /\ q1 = p2 ++ 0 :: q).
    { pose proof (text_zero _ _ T) as (Z1 & _). clear -EQ Z Z1. revert p EQ Z. induction p1 as [|c p1 IH]; intros p EQ Z; [exists p; auto|].
      destruct p as [|c' p]; cbn in EQ; injection EQ as <- EQ; [exfalso; apply Z1; left; reflexivity|].
      destruct (IH ltac:(intro; apply Z1; right; auto) p EQ ltac:(intro; apply Z; right; auto)) as (p2 & -> & ->). exists p2. auto. }
    destruct PRE as (p2 & -> & ->). apply Forall_app in A. destruct A as (A1 & A2). pose proof (K _ _ T A1) as <-. rewrite app_length in *.
    destruct X as [(q2 & EQ2 & L2 & -> & ->)|[(L2 & -> & _)|[(c & q2 & cb & EQ2 & D2 & U2 & L2 & -> & _)|(c & q2 & EQ2 & S2 & L2 & -> & _)]]].
    + exfalso. destruct p2 as [|c p2]; cbn in *; [lia|]. injection EQ2 as -> _. apply Z. apply in_app_iff. right. left. reflexivity.
    + assert (p2 = []) by (destruct p2; cbn in *; [auto|lia]). subst. rewrite app_nil_r. apply over_full. rewrite repeat_length. cbn. lia.
    + exfalso. destruct p2 as [|c' p2]; cbn in *; injection EQ2 as <- _; [congruence|]. inversion A2; subst. inversion U2; subst; cbn in *; lia.
    + exfalso. destruct p2 as [|c' p2]; cbn in *; injection EQ2 as <- _; apply S2; left; [lia|]. inversion A2; subst. lia.
Qed.

(* Refuted: to_string of a wide string loses characters: it is as long as the wide string, although other characters than ASCII need
   more bytes.  For one such character nothing but zeros is left. *)
Theorem C125_to_string_refuted : forall c cb, utf8 c cb -> 128 <= c -> to_string_wide (Some [c; 0]) = Ok [0].
Proof.
  intros c cb U L. unfold to_string_wide. change [c; 0] with ([c] ++ 0 :: []) at 1. rewrite wcslen_ok by (intros [H|[]]; lia). cbn [bind].
  unfold widechar_to_char. cbn [length repeat]. change (0 <? -1)%Z with false. cbn iota. change (to_size (to_int (N.of_nat 1))) with 1.
  cbn [wcsrtombs]. change (N.of_nat 0 =? 1) with false. cbn iota. destruct (N.eqb_spec c 0); [lia|]. rewrite (wcrtomb_utf8 _ _ U).
  destruct (N.leb_spec (N.of_nat (0 + length cb)) 1); [|reflexivity]. exfalso. inversion U; subst; cbn [length] in *; lia.
Qed.
(* Refuted: opt_num_src_chars is taken as a number of bytes: only a quarter of the characters it allows are converted. *)
Theorem C125_quarter_refuted : forall p dest, text p p -> N.of_nat (length dest) < 2 ^ 31 -> (length p <= length dest)%nat -> (0 < length p)%nat ->
  exists d r, widechar_to_char (Some dest) p (Z.of_nat (length p)) = Ok (Some d, r) /\ (r <= Z.of_nat (length p) / 4)%Z.
Proof.
  intros p dest T HD LD LP. destruct (C125_narrow_partial dest p (Z.of_nat (length p)) (Z.to_nat (Z.of_nat (length p) / 4)) HD) as (d & r & E & X).
  - destruct (Z.ltb_spec 0 (Z.of_nat (length p))); lia.
  - right. lia.
  - exists d, r. split; [exact E|]. destruct X as (p1 & q1 & bs & EQ & T1 & L1 & X).
    destruct X as [(q2 & _ & _ & _ & ->)|[(_ & _ & ->)|[(c & q2 & cb & _ & _ & _ & _ & _ & ->)|(c & q2 & _ & _ & _ & _ & ->)]]]; lia.
Qed.
(* Refuted: in the other direction opt_num_src_chars limits what is stored and not what is read: four bytes are read where two are allowed, *)
Theorem C125_reads_more_refuted : exists dest src, char_to_widechar dest (src ++ [195; 164; 0]) 2 = Ok ([228; 228], 2%Z) /\ length src = 2%nat /\
  char_to_widechar dest src 2 = UB.
Proof. exists [7; 7], [195; 164]. split; [|split]; vm_compute; reflexivity. Qed.
(* and a count of zero reads everything. *)
Theorem C125_zero_refuted : exists dest src, widechar_to_char (Some dest) src 0 = Ok (Some [97; 98; 0], 2%Z) /\ widechar_to_char (Some dest) [] 0 = UB.
Proof. exists [7; 7; 7], [97; 98; 0]. split; vm_compute; reflexivity. Qed.
(* Refuted: an empty default constructed span is a null pointer: nothing is written, but the count of a full conversion is returned. *)
Theorem C125_null_refuted : forall p bs q, text p bs -> widechar_to_char None (p ++ 0 :: q) (-1) = Ok (None, Z.of_nat (length bs)).
Proof.
  intros p bs q T. unfold widechar_to_char. change (0 <? -1)%Z with false. cbn iota.
  assert (K : forall n, wcsrtombs_null (p ++ 0 :: q) n = Ok (Z.of_nat (n + length bs))).
  { induction T as [|c cb p bs D U T IH]; intros n; cbn [app wcsrtombs_null length].
    - rewrite Nat.add_0_r. reflexivity.
    - destruct (N.eqb_spec c 0); [congruence|]. rewrite (wcrtomb_utf8 _ _ U), IH, app_length. do 2 f_equal. lia. }
  rewrite K. reflexivity.
Qed.

(* "ae?" with a, umlaut, euro sign and a character beyond 16 bits *)
Definition ex_text : list N := [97; 228; 8364; 128512].
Definition ex_bytes : list N := [97] ++ [195; 164] ++ [226; 130; 172] ++ [240; 159; 152; 128] ++ [].
Example C125_text_ex : text ex_text ex_bytes.
Proof.
  unfold ex_text, ex_bytes. repeat (apply t_cons; [discriminate| |]); try apply t_nil; apply wcrtomb_some; vm_compute; reflexivity.
Qed.
Example C125_ex : widechar_to_char (Some (repeat 7 12)) (ex_text ++ [0]) (-1) = Ok (Some (ex_bytes ++ [0; 7]), 10%Z) /\
  char_to_widechar (repeat 7 6) (ex_bytes ++ [0]) (-1) = Ok (ex_text ++ [0; 7], 4%Z).
Proof. split; vm_compute; reflexivity. Qed.
(* no room for the third character; a surrogate; a truncated character; a count of nine *)
Example C125_ends_ex :
  widechar_to_char (Some (repeat 7 5)) (ex_text ++ [0]) (-1) = Ok (Some [97; 195; 164; 7; 7], 3%Z) /\
  widechar_to_char (Some (repeat 7 5)) [97; 55296; 0] (-1) = Ok (Some [97; 7; 7; 7; 7], (-1)%Z) /\
  char_to_widechar (repeat 7 3) [97; 195; 0] (-1) = Ok ([97; 7; 7], (-1)%Z) /\
  widechar_to_char (Some (repeat 7 5)) [97; 98; 99; 0] 9 = Ok (Some [97; 98; 7; 7; 7], 2%Z).
Proof. split; [|split; [|split]]; vm_compute; reflexivity. Qed.
Example C125_to_string_ex : to_string_wide (Some [97; 98; 0]) = Ok [97; 98] /\ to_string_wide None = Ok [91; 110; 117; 108; 108; 112; 116; 114; 93] /\
  to_string_wide (Some [97; 8364; 8364; 8364; 0]) = Ok [97; 226; 130; 172].
Proof. split; [|split]; vm_compute; reflexivity. Qed.
Example C125_refuted_ex : utf8 228 [195; 164] /\ text [97; 98; 99; 100; 101] [97; 98; 99; 100; 101].
Proof.
  split; [apply wcrtomb_some; vm_compute; reflexivity|].
  change [97; 98; 99; 100; 101] with ([97] ++ [98] ++ [99] ++ [100] ++ [101] ++ []) at 2.
  repeat (apply t_cons; [discriminate| |]); try apply t_nil; constructor; lia.
Qed.
(* overlong forms, surrogates and codes beyond 10FFFF are no characters *)
Example C125_strict_ex : Forall (fun b => mbrtowc b = Ok None) [[192; 128; 0]; [224; 128; 128; 0]; [237; 160; 128; 0]; [240; 128; 128; 128; 0]; [244; 144; 128; 128; 0]; [128; 0]; [245; 0]].
Proof. repeat constructor. Qed.

Print Assumptions C125_narrow_partial.
Print Assumptions C125_widen_partial.
Print Assumptions C125_round_trip.
Print Assumptions C125_to_string_partial.
Print Assumptions C125_to_string_refuted.
Print Assumptions C125_quarter_refuted.
Print Assumptions C125_reads_more_refuted.
Print Assumptions C125_zero_refuted.
Print Assumptions C125_null_refuted.

(* Numerals, number texts and padded fields of NumModel meet NumSpec. *)
From Coq Require Import NArith ZArith Arith List Bool Lia.
From Verif Require Import Base SboModel SboProofs NumModel NumSpec.
Import ListNotations.
Open Scope N_scope.

(* ---- numerals ---- *)
Definition table (caps : bool) : list N := if caps then upper else lower.
Lemma dchar_table : forall caps d, d < 16 -> nth_error (table caps) (N.to_nat d) = Some (dchar caps d).
Proof.
  intros caps d H.
  assert (K : forallb (fun d => match nth_error (table caps) d with Some c => c =? dchar caps (N.of_nat d) | None => false end) (seq 0 16) = true)
    by (destruct caps; vm_compute; reflexivity).
  rewrite forallb_forall in K. specialize (K (N.to_nat d)).
  rewrite in_seq in K. assert (L : (0 <= N.to_nat d < 0 + 16)%nat) by lia. specialize (K L).
  destruct (nth_error (table caps) (N.to_nat d)) as [c|]; [|discriminate].
  apply N.eqb_eq in K. rewrite N2Nat.id in K. subst. reflexivity.
Qed.
Lemma table_inj : forall caps d d' c, nth_error (table caps) d = Some c -> nth_error (table caps) d' = Some c -> d = d'.
Proof.
  intros caps d d' c H H'.
  apply (proj1 (NoDup_nth_error (table caps))).
  - destruct caps; cbn; repeat constructor; cbn; intuition discriminate.
  - apply nth_error_Some. congruence.
  - congruence.
Qed.
Lemma table_head : forall caps, nth_error (table caps) 0 = Some 48.
Proof. intros []; reflexivity. Qed.

Lemma digs_reads : forall caps b, 2 <= b <= 16 -> forall f v acc, v < 2 ^ N.of_nat f ->
  exists ds, digs f b v acc = ds ++ acc /\ reads (table caps) b (map (dchar caps) ds) v /\ (v = 0 -> ds = []) /\
    (v <> 0 -> ds <> [] /\ hd_error (map (dchar caps) ds) <> Some 48).
Proof.
  intros caps b Hb. induction f; intros v acc Hv.
  - exists []. change (N.of_nat 0) with 0 in Hv. cbn in Hv. assert (v = 0) by lia. subst. cbn.
    split; [reflexivity|]. split; [constructor|]. split; [reflexivity|]. intro K; elim K; reflexivity.
  - cbn [digs]. destruct (N.eqb_spec v 0).
    + subst. exists []. cbn. split; [reflexivity|]. split; [constructor|]. split; [reflexivity|].
      intro K; elim K; reflexivity.
    + rewrite Nat2N.inj_succ, N.pow_succ_r' in Hv.
      assert (Hq : v / b < 2 ^ N.of_nat f) by (apply N.div_lt_upper_bound; [lia|]; nia).
      destruct (IHf (v / b) (v mod b :: acc) Hq) as (ds & E & R & Z0 & Z1).
      exists (ds ++ [v mod b]). rewrite E, <- app_assoc. split; [reflexivity|].
      rewrite map_app. cbn [map].
      assert (Hm : v mod b < b) by (apply N.mod_lt; lia).
      split.
      * replace v with (v / b * b + v mod b) at 2 by (rewrite (N.mul_comm (v / b)); symmetry; apply N.div_mod; lia).
        apply reads_snoc with (v := v / b) (d := v mod b); auto. apply dchar_table. lia.
      * split; [congruence|]. intros _. split; [destruct ds; discriminate|].
        destruct (N.eq_dec (v / b) 0) as [Q|Q].
        -- rewrite (Z0 Q). cbn [map app hd_error].
           assert (v < b) by (apply N.div_small_iff; [lia|exact Q]).
           rewrite N.mod_small by lia. intro K.
           assert (K' : dchar caps v = 48) by congruence. unfold dchar in K'.
           destruct (N.ltb_spec v 10); [lia|]. destruct caps; lia.
        -- destruct (Z1 Q) as [D1 D2]. destruct ds; [congruence|]. exact D2.
Qed.

Lemma utext_canonical : forall caps b v, 2 <= b <= 16 -> canonical (table caps) b (utext caps b v) v.
Proof.
  intros caps b v Hb. unfold utext, numeral. destruct (N.eqb_spec v 0) as [->|n].
  - cbn [map]. change (dchar caps 0) with 48. split; [discriminate|]. split; [|reflexivity].
    apply (reads_snoc (table caps) b [] 0 48 0); [constructor|lia|apply table_head].
  - assert (Hv : v < 2 ^ N.of_nat (N.to_nat (N.size v))) by (rewrite N2Nat.id; apply N.size_gt).
    destruct (digs_reads caps b Hb _ v [] Hv) as (ds & E & R & _ & Z1). rewrite E, app_nil_r.
    destruct (Z1 n) as [D1 D2]. split; [destruct ds; [congruence|discriminate]|]. split; [exact R|].
    intro K. elim (D2 K).
Qed.

Lemma reads_lower_bound : forall caps b l v, 2 <= b -> reads (table caps) b l v -> l <> [] -> hd_error l <> Some 48 ->
  b ^ N.of_nat (length l - 1) <= v.
Proof.
  intros caps b l v Hb R. induction R as [|l v c d R IH D T]; intros N0 Hd; [congruence|].
  rewrite app_length. cbn [length]. replace (length l + 1 - 1)%nat with (length l) by lia.
  destruct l as [|x l].
  - cbn in *. inversion R as [X Y|l' v' ? ? R' ? ? X Y]; [|destruct l'; discriminate]. subst.
    assert (d <> 0); [|lia]. intros ->. rewrite table_head in T. congruence.
  - assert (L : b ^ N.of_nat (length (x :: l) - 1) <= v) by (apply IH; [discriminate|exact Hd]).
    cbn [length] in *. replace (N.of_nat (S (length l))) with (N.succ (N.of_nat (S (length l) - 1))) by lia.
    rewrite N.pow_succ_r'. nia.
Qed.
Lemma reads_upper_bound : forall tab b l v, reads tab b l v -> v < b ^ N.of_nat (length l).
Proof.
  intros tab b l v R. induction R.
  - cbn. lia.
  - rewrite app_length. cbn [length]. replace (N.of_nat (length l + 1)) with (N.succ (N.of_nat (length l))) by lia.
    rewrite N.pow_succ_r'. nia.
Qed.

Lemma hd48 : forall l : list N, {hd_error l = Some 48} + {hd_error l <> Some 48}.
Proof. intros [|c l]; [right; discriminate|]. cbn. destruct (N.eq_dec c 48); [left|right]; congruence. Qed.
Lemma canonical_length : forall caps b l v k, 2 <= b -> canonical (table caps) b l v -> v < b ^ N.of_nat k -> (0 < k)%nat ->
  (length l <= k)%nat.
Proof.
  intros caps b l v k Hb (N0 & R & H0) Hv Hk. destruct (hd48 l) as [E|E].
  - rewrite (H0 E). cbn. lia.
  - assert (L := reads_lower_bound caps b l v Hb R N0 E).
    assert (H1 : b ^ N.of_nat (length l - 1) < b ^ N.of_nat k) by lia.
    apply N.pow_lt_mono_r_iff in H1; lia.
Qed.

Lemma reads_unique : forall caps b, 2 <= b -> forall l v, reads (table caps) b l v -> forall l', reads (table caps) b l' v ->
  hd_error l <> Some 48 -> hd_error l' <> Some 48 -> l = l'.
Proof.
  intros caps b Hb l v R. induction R as [|l v c d R IH D T]; intros l' R' H H'.
  - destruct l' as [|x l']; [reflexivity|].
    assert (L := reads_lower_bound caps b _ _ Hb R' ltac:(discriminate) H').
    assert (b ^ N.of_nat (length (x :: l') - 1) <> 0) by (apply N.pow_nonzero; lia). lia.
  - inversion R' as [X Y|l2 v2 c2 d2 R2 D2 T2 X Y].
    + subst l'. assert (L := reads_lower_bound caps b (l ++ [c]) (v * b + d) Hb).
      assert (b ^ N.of_nat (length (l ++ [c]) - 1) <= v * b + d).
      { apply L; auto. - econstructor; eauto. - destruct l; discriminate. }
      assert (b ^ N.of_nat (length (l ++ [c]) - 1) <> 0) by (apply N.pow_nonzero; lia). lia.
    + subst l'.
      assert (v2 = v /\ d2 = d) as [-> ->].
      { apply N.div_mod_unique with (b := b); [lia|lia|]. lia. }
      assert (c2 = c) by congruence. subst. f_equal.
      apply IH; auto.
      * destruct l; [discriminate|exact H].
      * destruct l2; [discriminate|exact H'].
Qed.
Lemma canonical_unique : forall caps b l l' v, 2 <= b -> canonical (table caps) b l v -> canonical (table caps) b l' v -> l = l'.
Proof.
  intros caps b l l' v Hb C C'.
  assert (K : forall l, canonical (table caps) b l v -> (v = 0 -> l = [48]) /\ (v <> 0 -> hd_error l <> Some 48)).
  { clear - Hb. intros l (N0 & R & H0). split; intro V.
    - destruct (hd48 l) as [E|E]; [auto|].
      assert (L := reads_lower_bound caps b l v Hb R N0 E).
      assert (b ^ N.of_nat (length l - 1) <> 0) by (apply N.pow_nonzero; lia). lia.
    - intro K. rewrite (H0 K) in R. inversion R as [|l2 v2 c2 d2 R2 D2 T2 X Y].
      destruct l2 as [|? [|]]; [|discriminate|discriminate]. injection X as ->.
      inversion R2 as [|l3]; [|destruct l3; discriminate]. subst v2.
      apply (table_inj caps (N.to_nat d2) 0 48) in T2; [|apply table_head]. lia. }
  destruct (N.eq_dec v 0) as [E|E].
  - rewrite (proj1 (K l C) E), (proj1 (K l' C') E). reflexivity.
  - destruct C as (? & R & ?), C' as (? & R' & ?). eapply reads_unique; eauto.
    + apply K; auto. split; auto.
    + apply K; auto. split; auto.
Qed.
Lemma canonical_utext : forall caps b l v, 2 <= b <= 16 -> canonical (table caps) b l v -> l = utext caps b v.
Proof. intros. eapply canonical_unique with (b := b); eauto; [lia|]. apply utext_canonical; auto. Qed.

(* ---- snprintf ---- *)
Lemma view_fits : forall cap text, (length text < cap)%nat -> view_out (snprintf cap text) = Ok text.
Proof.
  intros cap text H. unfold view_out, snprintf. cbn [fst snd].
  rewrite firstn_all2 by lia. rewrite <- app_assoc.
  replace (map Some text ++ [Some 0] ++ repeat None (cap - length (map Some text ++ [Some 0])))
    with ([] ++ map Some text ++ ([Some 0] ++ repeat None (cap - length (map Some text ++ [Some 0])))) by reflexivity.
  rewrite bread_mid by (rewrite ?map_length; reflexivity). cbn [bind]. apply chars_some.
Qed.
Lemma view_over : forall cap text, (0 < cap)%nat -> (cap < length text)%nat -> view_out (snprintf cap text) = UB.
Proof.
  intros cap text H0 H. unfold view_out, snprintf, bread. cbn [fst snd].
  destruct (N.leb_spec (0 + N.of_nat (length text))
    (N.of_nat (length ((map Some (firstn (cap - 1) text) ++ [Some 0]) ++ repeat None (cap - length (map Some (firstn (cap - 1) text) ++ [Some 0]))))));
    [|reflexivity].
  exfalso. rewrite ?app_length, ?repeat_length, ?app_length, ?map_length, ?firstn_length in H1. cbn [length] in H1. lia.
Qed.
Lemma view_full : forall cap text, (0 < cap)%nat -> length text = cap ->
  view_out (snprintf cap text) = Ok (firstn (cap - 1) text ++ [0]).
Proof.
  intros cap text H0 H. unfold view_out, snprintf. cbn [fst snd].
  replace (cap - length (map Some (firstn (cap - 1) text) ++ [Some 0%N]))%nat with 0%nat
    by (rewrite app_length, map_length, firstn_length; cbn [length]; lia).
  cbn [repeat].
  replace (map Some (firstn (cap - 1) text) ++ [Some 0]) with (map Some (firstn (cap - 1) text ++ [0])) by (rewrite map_app; reflexivity).
  replace (map Some (firstn (cap - 1) text ++ [0]) ++ []) with ([] ++ map Some (firstn (cap - 1) text ++ [0]) ++ []) by reflexivity.
  rewrite bread_mid; [apply chars_some|reflexivity|].
  cbn [fst snd]. rewrite map_length, app_length, firstn_length. cbn [length]. rewrite H. replace (Nat.min (cap - 1) cap + 1)%nat with cap by lia. reflexivity.
Qed.

(* ---- integer types ---- *)
Ltac ty t := destruct t; unfold in_range, conv, imin, imax in *; cbn [ibits isgn] in *;
  change (2 ^ (Z.of_N 8 - 1))%Z with 128%Z in *; change (2 ^ (Z.of_N 16 - 1))%Z with 32768%Z in *;
  change (2 ^ (Z.of_N 32 - 1))%Z with 2147483648%Z in *; change (2 ^ (Z.of_N 64 - 1))%Z with 9223372036854775808%Z in *;
  change (2 ^ (Z.of_N 8 - 0))%Z with 256%Z in *; change (2 ^ (Z.of_N 16 - 0))%Z with 65536%Z in *;
  change (2 ^ (Z.of_N 32 - 0))%Z with 4294967296%Z in *; change (2 ^ (Z.of_N 64 - 0))%Z with 18446744073709551616%Z in *;
  change (2 ^ Z.of_N 8)%Z with 256%Z in *; change (2 ^ Z.of_N 16)%Z with 65536%Z in *;
  change (2 ^ Z.of_N 32)%Z with 4294967296%Z in *; change (2 ^ Z.of_N 64)%Z with 18446744073709551616%Z in *.

Lemma conv_id : forall t z, in_range t z -> conv t z = z.
Proof. intros t z H. ty t; rewrite Z.mod_small; lia. Qed.
Lemma conv_range : forall t z, in_range t (conv t z).
Proof.
  intros t z. ty t;
  match goal with |- context [(?a mod ?m)%Z] => assert (L := Z.mod_pos_bound a m ltac:(lia)) end; lia.
Qed.
Lemma conv_add : forall t z k, conv t (z + k * 2 ^ Z.of_N (ibits t)) = conv t z.
Proof.
  intros t z k. unfold conv. f_equal.
  replace (z + k * 2 ^ Z.of_N (ibits t) - imin t)%Z with (z - imin t + k * 2 ^ Z.of_N (ibits t))%Z by lia.
  apply Z.mod_add. apply Z.pow_nonzero; lia.
Qed.
Lemma conv_diff : forall t z, exists k, conv t z = (z + k * 2 ^ Z.of_N (ibits t))%Z.
Proof.
  intros t z. exists (- ((z - imin t) / 2 ^ Z.of_N (ibits t)))%Z. unfold conv.
  assert (E := Z.div_mod (z - imin t) (2 ^ Z.of_N (ibits t)) ltac:(apply Z.pow_nonzero; lia)). lia.
Qed.
Lemma conv_conv : forall t w z, ibits t <= ibits w -> conv t (conv w z) = conv t z.
Proof.
  intros t w z H. destruct (conv_diff w z) as [k ->].
  replace (k * 2 ^ Z.of_N (ibits w))%Z with ((k * 2 ^ (Z.of_N (ibits w) - Z.of_N (ibits t))) * 2 ^ Z.of_N (ibits t))%Z.
  - apply conv_add.
  - rewrite <- Z.mul_assoc, <- Z.pow_add_r by lia. do 2 f_equal. lia.
Qed.
Lemma conv_eq_range : forall t z, conv t z = z <-> in_range t z.
Proof. split; intro H; [rewrite <- H; apply conv_range|apply conv_id; auto]. Qed.

(* ---- scanning ---- *)
Definition dval (acc c : N) : N := acc * 10 + (c - 48).
Lemma is_digit_spec : forall c, is_digit c = true <-> 48 <= c <= 57.
Proof. intros. unfold is_digit. rewrite andb_true_iff, !N.leb_le. tauto. Qed.
Lemma lower_digit : forall d c, d < 10 -> nth_error lower (N.to_nat d) = Some c -> c = 48 + d.
Proof.
  intros d c H T. pose proof (dchar_table false d ltac:(lia)) as K. unfold table in K. rewrite T in K. injection K as ->.
  unfold dchar. destruct (N.ltb_spec d 10); lia.
Qed.
Lemma digit_lower : forall c, 48 <= c <= 57 -> nth_error lower (N.to_nat (c - 48)) = Some c.
Proof.
  intros c H. pose proof (dchar_table false (c - 48) ltac:(lia)) as K. unfold table in K. rewrite K. f_equal.
  unfold dchar. destruct (N.ltb_spec (c - 48) 10); lia.
Qed.
Lemma reads_fold : forall l v, reads lower 10 l v <-> Forall (fun c => is_digit c = true) l /\ v = fold_left dval l 0.
Proof.
  split.
  - intro R. induction R as [|l v c d R [F E] D T]; [split; [constructor|reflexivity]|].
    apply lower_digit in T; [|exact D]. subst c. split.
    + apply Forall_app. split; [exact F|]. constructor; [|constructor]. apply is_digit_spec. lia.
    + rewrite fold_left_app. cbn [fold_left]. rewrite <- E. unfold dval. lia.
  - intros [F ->]. induction l as [|c l IH] using rev_ind; [constructor|].
    apply Forall_app in F. destruct F as [F G]. inversion G as [|? ? Dc _]; subst. apply is_digit_spec in Dc.
    rewrite fold_left_app. cbn [fold_left]. unfold dval at 1.
    apply reads_snoc; [auto|lia|apply digit_lower; lia].
Qed.

Lemma take_digits_app : forall ds rest acc, Forall (fun c => is_digit c = true) ds -> digit_first rest = false ->
  take_digits (ds ++ rest) acc = (fold_left dval ds acc, rest).
Proof.
  induction ds as [|c ds IH]; intros rest acc F D; cbn.
  - destruct rest as [|c r]; cbn in *; [reflexivity|]. rewrite D. reflexivity.
  - inversion F; subst. rewrite H1. apply IH; auto.
Qed.
Lemma take_digits_split : forall l acc m rest, take_digits l acc = (m, rest) ->
  exists ds, l = ds ++ rest /\ Forall (fun c => is_digit c = true) ds /\ m = fold_left dval ds acc /\ digit_first rest = false.
Proof.
  induction l as [|c l IH]; intros acc m rest H; cbn in H.
  - injection H as <- <-. exists []. split; [reflexivity|]. split; [constructor|]. split; reflexivity.
  - destruct (is_digit c) eqn:D.
    + destruct (IH _ _ _ H) as (ds & -> & F & -> & R). exists (c :: ds). split; [reflexivity|].
      split; [constructor; auto|]. split; [reflexivity|exact R].
    + injection H as <- <-. exists []. split; [reflexivity|]. split; [constructor|]. split; [reflexivity|]. exact D.
Qed.
Lemma is_space_spec : forall c, is_space c = true <-> c = 32 \/ 9 <= c <= 13.
Proof. intros. unfold is_space. rewrite orb_true_iff, andb_true_iff, !N.leb_le, N.eqb_eq. tauto. Qed.
Lemma skip_space_split : forall l, exists ws, l = ws ++ skip_space l /\ blank ws.
Proof.
  induction l as [|c l [ws [E B]]]; cbn.
  - exists []. split; [reflexivity|constructor].
  - destruct (is_space c) eqn:S.
    + exists (c :: ws). cbn. rewrite <- E. split; [reflexivity|]. constructor; [apply is_space_spec; exact S|exact B].
    + exists []. split; [reflexivity|constructor].
Qed.
Lemma skip_space_blank : forall ws l, blank ws -> match l with c :: _ => is_space c = false | [] => True end -> skip_space (ws ++ l) = l.
Proof.
  induction ws as [|c ws IH]; intros l B H; cbn.
  - destruct l as [|c l]; cbn; [reflexivity|]. rewrite H. reflexivity.
  - inversion B; subst. apply is_space_spec in H2. rewrite H2. apply IH; auto.
Qed.
Definition signed_z (neg : bool) (m : N) : Z := if neg then (- Z.of_N m)%Z else Z.of_N m.

Lemma scan_sound : forall s neg m, scan s = Some (neg, m, []) ->
  exists ws u, s = ws ++ u /\ blank ws /\ number_text u (signed_z neg m).
Proof.
  intros s neg m H. unfold scan in H. destruct (skip_space_split s) as (ws & E & B).
  set (u := skip_space s) in *. clearbody u. subst s. exists ws, u. split; [reflexivity|]. split; [exact B|].
  destruct (take_sign u) as [n r] eqn:TS.
  destruct r as [|c r]; [discriminate|]. destruct (is_digit c) eqn:D; [|discriminate].
  destruct (take_digits (c :: r) 0) as [m' rest] eqn:TD. injection H as -> -> ->.
  destruct (take_digits_split _ _ _ _ TD) as (ds & E & F & M & _). rewrite app_nil_r in E.
  exists ds, m. split; [rewrite <- E; discriminate|]. split; [apply reads_fold; auto|].
  rewrite <- E. unfold take_sign in TS. destruct u as [|x u]; [discriminate|].
  destruct (N.eqb_spec x 45) as [->|].
  - injection TS as <- ->. right. right. split; reflexivity.
  - destruct (N.eqb_spec x 43) as [->|].
    + injection TS as <- ->. right. left. split; reflexivity.
    + injection TS as <- -> ->. left. split; reflexivity.
Qed.
Lemma scan_complete : forall ws u z, blank ws -> number_text u z ->
  exists neg m, scan (ws ++ u) = Some (neg, m, []) /\ z = signed_z neg m.
Proof.
  intros ws u z B (ds & m & N0 & R & H). apply reads_fold in R. destruct R as [F M].
  destruct ds as [|d ds]; [congruence|]. assert (D : is_digit d = true) by (inversion F; auto).
  assert (D' := D). apply is_digit_spec in D'.
  assert (TD : take_digits (d :: ds) 0 = (m, [])).
  { rewrite <- (app_nil_r (d :: ds)). rewrite take_digits_app by auto. rewrite M. reflexivity. }
  unfold scan. destruct H as [[-> ->]|[[-> ->]|[-> ->]]].
  - exists false, m. rewrite skip_space_blank; [|exact B|].
    + unfold take_sign. destruct (N.eqb_spec d 45); [lia|]. destruct (N.eqb_spec d 43); [lia|].
      rewrite D, TD. split; reflexivity.
    + destruct (is_space d) eqn:S; [|reflexivity]. apply is_space_spec in S. lia.
  - exists false, m. rewrite skip_space_blank by (auto; reflexivity). cbn [take_sign N.eqb Pos.eqb]. rewrite D, TD. split; reflexivity.
  - exists true, m. rewrite skip_space_blank by (auto; reflexivity). cbn [take_sign N.eqb Pos.eqb]. rewrite D, TD. split; reflexivity.
Qed.

(* ---- from_string ---- *)
(* the numbers the conversion lets through *)
Definition wide_ok (sg : bool) (z : Z) : Prop := if sg then in_range I64 z else (Z.abs z <= imax U64)%Z.
Definition lets_through (t : ity) (z : Z) : Prop :=
  wide_ok (isgn t) z /\ (ibits t < 32 -> in_range t (conv (if isgn t then I32 else U32) z)).

Lemma from_wide_spec : forall t s v, 32 <= ibits t -> (from_wide t s = (true, v) <->
  exists ws u z, s = ws ++ u /\ blank ws /\ number_text u z /\ wide_ok (isgn t) z /\ v = conv t z).
Proof.
  intros t s v Ht. unfold from_wide. split.
  - intro H. injection H as A V. unfold accepted in A. destruct (isgn t) eqn:S.
    + unfold strtol in *. destruct (scan s) as [[[neg m] rest]|] eqn:E; [|discriminate].
      fold (signed_z neg m) in *.
      destruct (Z.ltb_spec (signed_z neg m) (imin I64)); [destruct rest; discriminate|].
      destruct (Z.ltb_spec (imax I64) (signed_z neg m)); [destruct rest; discriminate|].
      destruct rest; [|discriminate].
      destruct (scan_sound _ _ _ E) as (ws & u & -> & B & T).
      exists ws, u, (signed_z neg m). cbn in V. repeat (split; [first [reflexivity|assumption|split; assumption]|]). auto.
    + unfold strtoul in *. destruct (scan s) as [[[neg m] rest]|] eqn:E; [|discriminate].
      fold (signed_z neg m) in *.
      destruct (Z.ltb_spec (imax U64) (Z.of_N m)); [destruct rest; discriminate|].
      destruct rest; [|discriminate].
      destruct (scan_sound _ _ _ E) as (ws & u & -> & B & T).
      exists ws, u, (signed_z neg m). cbn [fst] in V. rewrite conv_conv in V by (destruct t; cbn; lia).
      split; [reflexivity|]. split; [exact B|]. split; [exact T|]. split; [|auto].
      unfold wide_ok, signed_z. destruct neg; lia.
  - intros (ws & u & z & -> & B & T & W & ->).
    destruct (scan_complete ws u z B T) as (neg & m & E & ->). destruct (isgn t) eqn:S.
    + unfold strtol. rewrite E. fold (signed_z neg m). unfold wide_ok, in_range in W.
      destruct (Z.ltb_spec (signed_z neg m) (imin I64)); [lia|].
      destruct (Z.ltb_spec (imax I64) (signed_z neg m)); [lia|]. reflexivity.
    + unfold strtoul. rewrite E. fold (signed_z neg m). unfold wide_ok in W.
      destruct (Z.ltb_spec (imax U64) (Z.of_N m)); [unfold signed_z in W; destruct neg; lia|].
      cbn [fst accepted]. rewrite conv_conv by (destruct t; cbn; lia). reflexivity.
Qed.

Lemma from_cstr_spec : forall t s v, from_cstr t s = (true, v) <->
  exists ws u z, until_nul s = ws ++ u /\ blank ws /\ number_text u z /\ lets_through t z /\ v = conv t z.
Proof.
  intros t s v.
  assert (W : 32 <= ibits t -> (from_wide t (until_nul s) = (true, v) <->
    exists ws u z, until_nul s = ws ++ u /\ blank ws /\ number_text u z /\ lets_through t z /\ v = conv t z)).
  { intro Ht. rewrite from_wide_spec by exact Ht. unfold lets_through. split.
    - intros (ws & u & z & E & B & T & O & V). exists ws, u, z. repeat (split; [assumption|]). split; [|exact V]. split; [exact O|lia].
    - intros (ws & u & z & E & B & T & [O _] & V). exists ws, u, z. auto. }
  assert (M : ibits t < 32 -> (from_narrow t (until_nul s) = (true, v) <->
    exists ws u z, until_nul s = ws ++ u /\ blank ws /\ number_text u z /\ lets_through t z /\ v = conv t z)).
  { intro Ht. unfold from_narrow. set (W32 := if isgn t then I32 else U32).
    assert (HW : 32 <= ibits W32) by (unfold W32; destruct (isgn t); cbn; lia).
    assert (HS : isgn W32 = isgn t) by (unfold W32; destruct (isgn t); reflexivity).
    assert (HB : ibits t <= ibits W32) by lia.
    destruct (from_wide W32 (until_nul s)) as [ok full] eqn:FW. split.
    - intro H. injection H as A V. apply andb_true_iff in A. destruct A as [-> A]. apply Z.eqb_eq in A.
      apply from_wide_spec in FW; [|exact HW]. destruct FW as (ws & u & z & E & B & T & O & F).
      exists ws, u, z. repeat (split; [assumption|]). rewrite HS in O.
      subst full. rewrite conv_conv in V by exact HB. split; [|auto].
      split; [exact O|]. intros _. fold W32. apply conv_eq_range. symmetry. exact A.
    - intros (ws & u & z & E & B & T & [O R] & V).
      assert (FW' : from_wide W32 (until_nul s) = (true, conv W32 z)).
      { apply from_wide_spec; [exact HW|]. exists ws, u, z. repeat (split; [first [assumption|rewrite HS; assumption]|]). reflexivity. }
      rewrite FW in FW'. injection FW' as -> ->. specialize (R Ht). fold W32 in R.
      rewrite (conv_id t (conv W32 z)) by exact R. rewrite Z.eqb_refl. cbn [andb]. f_equal.
      rewrite V. rewrite <- (conv_conv t W32 z HB). symmetry. apply conv_id. exact R. }
  unfold from_cstr. destruct t; first [apply W; cbn; lia|apply M; cbn; lia].
Qed.

Lemma until_nul_id : forall l, Forall (fun c => c <> 0) l -> until_nul l = l.
Proof.
  induction l as [|c l IH]; intro F; cbn; [reflexivity|]. inversion F; subst.
  destruct (N.eqb_spec c 0); [congruence|]. f_equal. auto.
Qed.
Lemma from_view_short : forall t s, (length s <= 255)%nat -> Forall (fun c => c <> 0) s -> from_view t s = Ok (from_cstr t s).
Proof.
  intros t s L F. unfold from_view.
  assert (C : conv I32 (Z.of_nat (length s)) = Z.of_nat (length s)).
  { apply conv_id. unfold in_range. change (imin I32) with (-2147483648)%Z. change (imax I32) with 2147483647%Z. lia. }
  rewrite C. destruct (Z.ltb_spec (Z.of_nat (length s)) 0); [lia|]. rewrite Nat2Z.id, firstn_all. cbn [bind].
  rewrite until_nul_id by exact F. rewrite firstn_all2 by lia. reflexivity.
Qed.
Lemma in_range_lets : forall t z, in_range t z -> lets_through t z.
Proof.
  intros t z H. split.
  - unfold wide_ok. ty t; lia.
  - intros Hb. rewrite conv_id; [exact H|]. destruct t; cbn [ibits] in Hb; try lia; unfold in_range, imin, imax in *; cbn in *; lia.
Qed.

(* ---- to_string ---- *)
Lemma itext_decimal : forall z, decimal (itext z) z.
Proof.
  intro z. unfold decimal, itext. assert (K := utext_canonical false 10 (Z.abs_N z) ltac:(lia)).
  destruct (z <? 0)%Z; [eexists; split; [reflexivity|exact K]|exact K].
Qed.
Lemma decimal_number : forall l z, decimal l z -> number_text l z.
Proof.
  intros l z H. unfold decimal in H. destruct (Z.ltb_spec z 0).
  - destruct H as (ds & -> & N0 & R & _). exists ds, (Z.abs_N z). split; [exact N0|]. split; [exact R|]. right. right.
    split; [reflexivity|]. lia.
  - destruct H as (N0 & R & _). exists l, (Z.abs_N z). split; [exact N0|]. split; [exact R|]. left. split; [reflexivity|]. lia.
Qed.
Lemma decimal_unique : forall l l' z, decimal l z -> decimal l' z -> l = l'.
Proof.
  intros l l' z H H'. unfold decimal in *. destruct (z <? 0)%Z.
  - destruct H as (ds & -> & C), H' as (ds' & -> & C'). f_equal. apply (canonical_unique false 10 ds ds' (Z.abs_N z)); auto; lia.
  - apply (canonical_unique false 10 l l' (Z.abs_N z)); auto; lia.
Qed.
Lemma number_no_nul : forall l z, number_text l z -> Forall (fun c => c <> 0) l.
Proof.
  intros l z (ds & m & _ & R & H). apply reads_fold in R. destruct R as [F _].
  assert (G : Forall (fun c => c <> 0) ds).
  { eapply Forall_impl; [|exact F]. intros c D. apply is_digit_spec in D. lia. }
  destruct H as [[-> _]|[[-> _]|[-> _]]]; auto; constructor; auto; lia.
Qed.
Lemma itext_length : forall t z, in_range t z -> (length (itext z) < plain_cap t)%nat.
Proof.
  intros t z H.
  assert (K : forall k, Z.abs_N z < 10 ^ N.of_nat k -> (0 < k)%nat -> (length (utext false 10 (Z.abs_N z)) <= k)%nat).
  { intros k Hk H0. apply (canonical_length false 10 _ (Z.abs_N z)); auto; [lia|]. apply utext_canonical. lia. }
  unfold itext. set (u := utext false 10 (Z.abs_N z)) in *. clearbody u.
  specialize (K (match t with I8 | U8 => 3 | I16 | U16 => 5 | I32 | U32 => 10 | I64 => 19 | U64 => 20 end)%nat).
  destruct (Z.ltb_spec z 0); cbn [length]; ty t; cbn [plain_cap Nat.add] in *;
    match type of K with context [10 ^ N.of_nat ?k] => let p := eval vm_compute in (10 ^ N.of_nat k) in change (10 ^ N.of_nat k) with p in K end; lia.
Qed.
Lemma to_string_spec : forall t z, in_range t z -> to_string t z = Ok (itext z).
Proof. intros. apply view_fits. apply itext_length. auto. Qed.

(* ---- binary ---- *)
Lemma bin_loop_spec : forall f v p acc, v < 2 ^ p -> v < 2 ^ N.of_nat f ->
  exists ds p', bin_loop (S f) v p (repeat None (N.to_nat p) ++ map Some acc)
    = Ok (repeat None (N.to_nat p') ++ map Some (ds ++ acc), p') /\ p' + N.of_nat (length ds) = p /\
    reads lower 2 ds v /\ (v = 0 -> ds = []) /\ (v <> 0 -> ds <> [] /\ hd_error ds <> Some 48).
Proof.
  assert (Z0 : forall f p acc, exists ds p', bin_loop (S f) 0 p (repeat None (N.to_nat p) ++ map Some acc)
    = Ok (repeat None (N.to_nat p') ++ map Some (ds ++ acc), p') /\ p' + N.of_nat (length ds) = p /\
    reads lower 2 ds 0 /\ (0 = 0 -> ds = []) /\ (0 <> 0 -> ds <> [] /\ hd_error ds <> Some 48)).
  { intros f p acc. exists [], p. split; [reflexivity|]. split; [cbn; lia|]. split; [constructor|]. split; [reflexivity|].
    intro K; elim K; reflexivity. }
  induction f; intros v p acc Hp Hf.
  - assert (v = 0) by (cbn in Hf; lia). subst. apply Z0.
  - destruct (N.eq_dec v 0) as [->|n]; [apply Z0|].
    remember (S f) as f1 eqn:F1. cbn [bin_loop]. destruct (N.eqb_spec v 0) as [|_]; [congruence|].
    assert (P0 : p <> 0) by (intros ->; cbn in Hp; lia). destruct (N.eqb_spec p 0); [congruence|].
    replace (repeat (@None N) (N.to_nat p)) with (repeat (@None N) (N.to_nat (p - 1)) ++ [None]).
    2: { change [@None N] with (repeat (@None N) 1). rewrite <- repeat_app. f_equal. lia. }
    rewrite <- app_assoc. cbn [app].
    rewrite bset_mid by (rewrite repeat_length; lia). cbn [bind].
    change (Some (if N.odd v then 49 else 48) :: map Some acc) with (map Some ((if N.odd v then 49 else 48) :: acc)).
    assert (Q : N.shiftr v 1 = v / 2) by (rewrite N.shiftr_div_pow2; reflexivity). rewrite Q.
    assert (Hp' : v / 2 < 2 ^ (p - 1)).
    { apply N.div_lt_upper_bound; [lia|]. replace p with (N.succ (p - 1)) in Hp by lia. rewrite N.pow_succ_r' in Hp. exact Hp. }
    assert (Hf' : v / 2 < 2 ^ N.of_nat f).
    { apply N.div_lt_upper_bound; [lia|]. rewrite F1, Nat2N.inj_succ, N.pow_succ_r' in Hf. exact Hf. }
    assert (D : v = v / 2 * 2 + (if N.odd v then 1 else 0)).
    { rewrite <- N.div2_div. rewrite (N.div2_odd v) at 1. destruct (N.odd v); cbn [N.b2n]; lia. }
    subst f1. destruct (IHf (v / 2) (p - 1) ((if N.odd v then 49 else 48) :: acc) Hp' Hf') as (ds & p' & E & L & R & A0 & A1).
    exists (ds ++ [if N.odd v then 49 else 48]), p'. split; [rewrite E, <- app_assoc; reflexivity|].
    split; [rewrite app_length; cbn [length]; lia|]. split.
    { rewrite D at 2. apply reads_snoc; [exact R| |]; destruct (N.odd v); try lia; reflexivity. }
    split; [congruence|]. intros _. split; [destruct ds; discriminate|].
    destruct (N.eq_dec (v / 2) 0) as [E0|E0].
    + rewrite (A0 E0). cbn [app hd_error]. rewrite E0 in D. destruct (N.odd v); [discriminate|lia].
    + destruct (A1 E0) as [B1 B2]. destruct ds; [congruence|exact B2].
Qed.
Lemma to_binary_spec : forall bits v, v < 2 ^ bits -> bits <= 64 ->
  to_binary bits v = Ok (if v =? 0 then [] else utext false 2 v).
Proof.
  intros bits v H B. unfold to_binary.
  assert (Hp : v < 2 ^ (bits + 1)) by (rewrite N.pow_add_r; change (2 ^ 1) with 2; lia).
  assert (Hf : v < 2 ^ N.of_nat 64).
  { eapply N.lt_le_trans; [exact H|]. apply N.pow_le_mono_r; [lia|]. change (N.of_nat 64) with 64. exact B. }
  destruct (bin_loop_spec 64 v (bits + 1) [] Hp Hf) as (ds & p' & E & L & R & A0 & A1).
  cbn [map] in E. rewrite app_nil_r in E. unfold fresh. rewrite E. cbn [bind].
  rewrite app_nil_r.
  replace (repeat None (N.to_nat p') ++ map Some ds) with (repeat None (N.to_nat p') ++ map Some ds ++ []) by (rewrite app_nil_r; reflexivity).
  rewrite bread_mid by (rewrite ?repeat_length, ?map_length; lia). cbn [bind]. rewrite chars_some. f_equal.
  destruct (N.eqb_spec v 0) as [V|V]; [auto|]. destruct (A1 V) as [B1 B2].
  apply (canonical_utext false 2); [lia|]. split; [exact B1|]. split; [exact R|]. intro K; elim (B2 K).
Qed.

(* ---- integer fields ---- *)
Lemma emit_spec : forall a cap text, (length text < cap)%nat -> emit a cap text = Ok (add_fill a (Z.of_nat (length text)) ++ text).
Proof. intros. unfold emit. rewrite view_fits by auto. cbn [bind snprintf snd]. rewrite nat_N_Z. reflexivity. Qed.
Lemma utext_length : forall caps b v k, 2 <= b <= 16 -> v < b ^ N.of_nat k -> (0 < k)%nat -> (length (utext caps b v) <= k)%nat.
Proof. intros. eapply canonical_length with (b := b); eauto; [lia|]. apply utext_canonical; auto. Qed.

Definition isbits (bits : N) : Prop := bits = 8 \/ bits = 16 \/ bits = 32 \/ bits = 64.
Ltac lit := repeat match goal with |- context [?b ^ N.of_nat ?k] => let p := eval vm_compute in (b ^ N.of_nat k) in change (b ^ N.of_nat k) with p end.
Lemma dec_cap : forall bits v, isbits bits -> v < 2 ^ bits -> (length (utext false 10 v) < 21)%nat.
Proof.
  intros bits v I H. apply Nat.lt_succ_r. apply utext_length; [lia| |lia]. lit.
  destruct I as [->|[->|[-> | ->]]]; eapply N.lt_le_trans; try exact H; vm_compute; discriminate.
Qed.
Lemma oct_cap : forall bits v, isbits bits -> v < 2 ^ bits -> (length (utext false 8 v) < N.to_nat (bits / 8) * 8 / 3 + 1 + 1)%nat.
Proof.
  intros bits v I H. replace (N.to_nat (bits / 8) * 8 / 3 + 1 + 1)%nat with (S (N.to_nat (bits / 8) * 8 / 3 + 1))%nat by lia.
  apply Nat.lt_succ_r.
  apply utext_length; [lia| |lia].
  destruct I as [->|[->|[-> | ->]]]; eapply N.lt_le_trans; try exact H; vm_compute; discriminate.
Qed.
Lemma hex_cap : forall caps bits v, isbits bits -> v < 2 ^ bits -> (length (utext caps 16 v) < N.to_nat (bits / 8) * 2 + 1)%nat.
Proof.
  intros caps bits v I H. replace (N.to_nat (bits / 8) * 2 + 1)%nat with (S (N.to_nat (bits / 8) * 2))%nat by lia.
  apply Nat.lt_succ_r. apply utext_length; [lia| |].
  - destruct I as [->|[->|[-> | ->]]]; eapply N.lt_le_trans; try exact H; vm_compute; discriminate.
  - destruct I as [->|[->|[-> | ->]]]; vm_compute; lia.
Qed.
Lemma hash_cap : forall caps bits v, isbits bits -> bits <> 8 -> v < 2 ^ (bits - 8) ->
  (length (hex_text caps true v) < N.to_nat (bits / 8) * 2 + 1)%nat.
Proof.
  intros caps bits v I B H. unfold hex_text. rewrite app_length.
  assert (L : (length (utext caps 16 v) <= N.to_nat (bits / 8) * 2 - 2)%nat).
  { apply utext_length; [lia| |].
    - destruct I as [->|[->|[-> | ->]]]; eapply N.lt_le_trans; try exact H; vm_compute; discriminate.
    - destruct I as [->|[->|[-> | ->]]]; try congruence; vm_compute; lia. }
  assert (2 <= N.to_nat (bits / 8) * 2 - 2)%nat by (destruct I as [->|[->|[-> | ->]]]; try congruence; vm_compute; lia).
  destruct (true && negb (v =? 0)); cbn [length]; lia.
Qed.

(* what unsigned_to_string_impl writes when no buffer is too small *)
Definition uout (b : N) (p ds : list N) (v : N) (a : fmt) : list N :=
  if b =? 2 then (if alt a then p else []) ++ (if v =? 0 then [] else ds)
  else if b =? 16 then
    let q := if alt a && negb (v =? 0) then p else [] in
    add_fill a (Z.of_nat (length (q ++ ds))) ++ q ++ ds
  else (if alt a then p else []) ++ add_fill a (Z.of_nat (length ds)) ++ ds.

Lemma base_of_table : forall t b tab p, base_of t = Some (b, tab, p) -> exists caps, tab = table caps /\ 2 <= b <= 16.
Proof.
  intros t b tab p H. unfold base_of in H.
  repeat match type of H with (if ?x then _ else _) = _ => destruct x end; try discriminate; injection H as <- <- <-;
    first [exists false; split; [reflexivity|lia] | exists true; split; [reflexivity|lia]].
Qed.
Lemma unsigned_out_spec : forall bits v a b tab p ds, isbits bits -> v < 2 ^ bits -> base_of (typ a) = Some (b, tab, p) ->
  canonical tab b ds v -> (alt a = true -> b = 16 -> bits <> 8 /\ v < 2 ^ (bits - 8)) ->
  unsigned_out bits v a = Ok (uout b p ds v a).
Proof.
  intros bits v a b tab p ds I H B C HX. unfold unsigned_out, base_of, uout in *.
  assert (B64 : bits <= 64) by (destruct I as [->|[->|[-> | ->]]]; lia).
  destruct ((typ a =? 0) || (typ a =? 100) || (typ a =? 117)).
  { injection B as <- <- <-. apply (canonical_utext false) in C; [|lia]. subst ds. cbn [N.eqb Pos.eqb].
    rewrite emit_spec by (apply (dec_cap bits); auto). destruct (alt a); reflexivity. }
  destruct (typ a =? 98).
  { injection B as <- <- <-. apply (canonical_utext false) in C; [|lia]. subst ds. rewrite to_binary_spec by auto. reflexivity. }
  destruct (typ a =? 66).
  { injection B as <- <- <-. apply (canonical_utext false) in C; [|lia]. subst ds. rewrite to_binary_spec by auto. reflexivity. }
  destruct (typ a =? 111).
  { injection B as <- <- <-. apply (canonical_utext false) in C; [|lia]. subst ds. cbn [N.eqb Pos.eqb].
    rewrite emit_spec by (apply oct_cap; auto). reflexivity. }
  assert (X : forall caps q, canonical (table caps) 16 ds v -> q = [48; if caps then 88 else 120] ->
    (alt a = true -> bits <> 8 /\ v < 2 ^ (bits - 8)) ->
    emit a (N.to_nat (bits / 8) * 2 + 1) (hex_text caps (alt a) v)
    = Ok (let q := if alt a && negb (v =? 0) then q else [] in add_fill a (Z.of_nat (length (q ++ ds))) ++ q ++ ds)).
  { intros caps q C' -> HX'. apply canonical_utext in C'; [|lia]. subst ds.
    rewrite emit_spec.
    - unfold hex_text. cbv zeta. reflexivity.
    - destruct (alt a) eqn:A.
      + destruct (HX' eq_refl). apply hash_cap; auto.
      + unfold hex_text. cbn [andb app]. apply hex_cap; auto. }
  destruct (typ a =? 120).
  { injection B as <- <- <-. cbn [N.eqb Pos.eqb]. apply (X false); auto. }
  destruct (typ a =? 88); [|discriminate].
  injection B as <- <- <-. cbn [N.eqb Pos.eqb]. apply (X true); auto.
Qed.
Lemma unsigned_out_none : forall bits v a, base_of (typ a) = None -> unsigned_out bits v a = Contract.
Proof.
  intros bits v a B. unfold unsigned_out, base_of in *.
  repeat match type of B with (if ?x then _ else _) = _ => destruct x; [discriminate|] end. reflexivity.
Qed.

Definition negatable (t : ity) (z : Z) : Prop := (t = I32 \/ t = I64) -> z <> imin t.
Definition sign_known (a : fmt) : Prop := sign a = 43 \/ sign a = 45 \/ sign a = 32.
Definition reduced (s : list N) (a : fmt) : fmt := match s with [] => a | _ => dec_width a end.
Lemma isbits_ibits : forall t, isbits (ibits t).
Proof. intros []; unfold isbits; cbn; auto. Qed.
Lemma abs_bound : forall t z, in_range t z -> Z.abs_N z < 2 ^ ibits t.
Proof.
  intros t z H. ty t;
  match goal with |- _ < 2 ^ ?k => let p := eval vm_compute in (2 ^ k) in change (2 ^ k) with p end; lia.
Qed.
Lemma int_out_eq : forall t z a, isgn t = true -> in_range t z -> negatable t z -> sign_known a ->
  int_fmt t z a = let s := sign_text (sign a) z in let! r := unsigned_out (ibits t) (Z.abs_N z) (reduced s a) in Ok (s ++ r).
Proof.
  intros t z a S R M K. unfold int_fmt. rewrite S. unfold int_out.
  assert (E : (if (z <? 0)%Z then negate t z else Ok z) = Ok (Z.abs z)).
  { destruct (Z.ltb_spec z 0).
    - unfold negate. unfold negatable in M. destruct t; try discriminate; try (f_equal; lia).
      + destruct (Z.eqb_spec z (imin I32)); [elim M; auto|f_equal; lia].
      + destruct (Z.eqb_spec z (imin I64)); [elim M; auto|f_equal; lia].
    - f_equal. lia. }
  rewrite E. cbn [bind].
  assert (U : Z.to_N (Z.abs z mod 2 ^ Z.of_N (ibits t)) = Z.abs_N z).
  { rewrite Z.mod_small; [lia|]. assert (B := abs_bound t z R). split; [lia|].
    apply N2Z.inj_lt in B. rewrite N2Z.inj_pow in B. change (Z.of_N 2) with 2%Z in B. lia. }
  rewrite U. unfold sign_text.
  destruct K as [K|[K|K]]; rewrite K; cbn [N.eqb Pos.eqb]; destruct (z <? 0)%Z; reflexivity.
Qed.
Lemma uint_out_eq : forall t z a, isgn t = false -> in_range t z -> int_fmt t z a = unsigned_out (ibits t) (Z.abs_N z) a.
Proof.
  intros t z a S R. unfold int_fmt. rewrite S. f_equal. unfold in_range, imin in R. rewrite S in R. lia.
Qed.

Lemma add_fill_eq : forall a len, (0 <= len)%Z -> add_fill a len = repeat (if zero a then 48 else fill a) (Z.to_nat (width a - len)).
Proof.
  intros a len H. unfold add_fill. destruct (Z.ltb_spec 0 (width a)), (Z.ltb_spec len (width a)); cbn [andb]; try reflexivity;
    replace (Z.to_nat (width a - len)) with O by lia; reflexivity.
Qed.
Lemma add_fill_dec : forall a len, (0 <= len)%Z ->
  add_fill (dec_width a) len = repeat (if zero a then 48 else fill a) (Z.to_nat (width a - 1 - len)).
Proof.
  intros a len H. rewrite add_fill_eq by auto. unfold dec_width. destruct (Z.ltb_spec 0 (width a)); [reflexivity|].
  f_equal. lia.
Qed.
Lemma add_fill_reduced : forall s a len, (0 <= len)%Z -> (length s <= 1)%nat ->
  add_fill (reduced s a) len = repeat (if zero a then 48 else fill a) (Z.to_nat (width a - Z.of_nat (length s) - len)).
Proof.
  intros [|x [|y s]] a len H L; cbn [length reduced] in *; [|apply add_fill_dec; auto|lia].
  rewrite add_fill_eq by auto. do 2 f_equal. lia.
Qed.
Lemma sign_text_length : forall s z, (length (sign_text s z) <= 1)%nat.
Proof. intros. unfold sign_text. destruct (z <? 0)%Z, (s =? 43), (s =? 32); cbn; lia. Qed.

(* the cases in which the field comes out right *)
Definition right_case (z : Z) (a : fmt) (b : N) (ds : list N) : Prop :=
  (width a <= Z.of_nat (length (sign_text (sign a) z ++ ds)))%Z \/
  (b <> 2 /\ alt a = false /\ zero a = true) \/
  (b <> 2 /\ align a = 62 /\ zero a = false /\ sign_text (sign a) z = [] /\ (alt a = false \/ b = 16)).

Lemma int_fmt_field : forall t z a b tab p ds, in_range t z -> negatable t z -> sign_known a ->
  (isgn t = false -> sign a = 45) -> base_of (typ a) = Some (b, tab, p) -> canonical tab b ds (Z.abs_N z) ->
  (b = 2 -> z <> 0%Z) -> (alt a = true -> b = 16 -> 0 < Z.abs_N z < 2 ^ (ibits t - 8)) -> right_case z a b ds ->
  exists l, int_fmt t z a = Ok l /\ int_field z a l.
Proof.
  intros t z a b tab p ds R M K SU B C Z2 HX RC.
  set (s := sign_text (sign a) z) in *.
  assert (SL : (length s <= 1)%nat) by apply sign_text_length.
  assert (E : int_fmt t z a = Ok (s ++ uout b p ds (Z.abs_N z) (reduced s a))).
  { assert (F : forall s', unsigned_out (ibits t) (Z.abs_N z) (reduced s' a) = Ok (uout b p ds (Z.abs_N z) (reduced s' a))).
    { intro s'. apply unsigned_out_spec with (tab := tab).
      - apply isbits_ibits. - apply abs_bound; auto.
      - destruct s'; cbn; [exact B|]. unfold dec_width. destruct (0 <? width a)%Z; exact B.
      - exact C.
      - replace (alt (reduced s' a)) with (alt a) by (destruct s'; cbn; [reflexivity|]; unfold dec_width; destruct (0 <? width a)%Z; reflexivity).
        intros A X. destruct (HX A X) as [P Q]. split; [intro Y; rewrite Y in Q; cbn in Q; lia|exact Q]. }
    destruct (isgn t) eqn:S.
    - rewrite int_out_eq by auto. cbv zeta. fold s. rewrite F. reflexivity.
    - rewrite uint_out_eq by auto.
      assert (s = []) as ->.
      { unfold s, sign_text. rewrite (SU eq_refl). unfold in_range, imin in R. rewrite S in R.
        destruct (Z.ltb_spec z 0); [lia|reflexivity]. }
      apply (F []). }
  eexists. split; [exact E|]. exists b, tab, p, ds. split; [exact B|]. split; [exact C|]. fold s. cbv zeta.
  assert (EA : alt (reduced s a) = alt a) by (destruct s; cbn; [reflexivity|]; unfold dec_width; destruct (0 <? width a)%Z; reflexivity).
  unfold uout. rewrite EA, !add_fill_reduced by (auto; lia).
  unfold right_case in RC. fold s in RC.
  set (c := if zero a then 48 else fill a). set (q := if alt a then p else []).
  assert (Q : b = 16 -> (if alt a && negb (Z.abs_N z =? 0) then p else []) = q).
  { intro X. unfold q. destruct (alt a) eqn:A; [|reflexivity]. destruct (HX eq_refl X).
    destruct (N.eqb_spec (Z.abs_N z) 0); [lia|reflexivity]. }
  assert (V : b = 2 -> (if Z.abs_N z =? 0 then [] else ds) = ds).
  { intro X. specialize (Z2 X). destruct (N.eqb_spec (Z.abs_N z) 0); [lia|reflexivity]. }
  (* without padding *)
  assert (PL : forall l, l = (s ++ q) ++ ds -> (width a <= Z.of_nat (length (s ++ ds)))%Z ->
    if zero a
    then exists k, l = (s ++ q) ++ repeat 48 k ++ ds /\ Z.of_nat (length l) = Z.max (width a) (Z.of_nat (length ((s ++ q) ++ ds)))
    else padded (align a) (fill a) (width a) ((s ++ q) ++ ds) l).
  { intros l -> W.
    assert (W' : Z.of_nat (length ((s ++ q) ++ ds)) = Z.max (width a) (Z.of_nat (length ((s ++ q) ++ ds)))).
    { rewrite !app_length in *. lia. }
    destruct (zero a).
    - exists O. split; [reflexivity|exact W'].
    - exists O, O. cbn [repeat app]. rewrite app_nil_r. split; [reflexivity|]. split; [exact W'|]. repeat split; auto. }
  (* with padding between pre and digits *)
  assert (ZL : forall l k, l = s ++ repeat c k ++ ds -> k = Z.to_nat (width a - Z.of_nat (length s) - Z.of_nat (length ds)) ->
    alt a = false -> zero a = true ->
    exists k, l = (s ++ q) ++ repeat 48 k ++ ds /\ Z.of_nat (length l) = Z.max (width a) (Z.of_nat (length ((s ++ q) ++ ds)))).
  { intros l k -> Kk A Zr. unfold q, c. rewrite A, Zr, app_nil_r. exists k. split; [reflexivity|].
    rewrite !app_length, repeat_length. lia. }
  (* right aligned, no sign *)
  assert (RL : forall l k body, l = repeat (fill a) k ++ body -> k = Z.to_nat (width a - Z.of_nat (length body)) -> align a = 62 ->
    padded (align a) (fill a) (width a) body l).
  { intros l k body -> Kk AL. exists k, O. cbn [repeat]. rewrite app_nil_r. split; [reflexivity|]. split.
    - rewrite app_length, repeat_length. lia.
    - rewrite AL. split; [discriminate|]. split; [reflexivity|discriminate]. }
  destruct (N.eqb_spec b 2) as [B2|B2].
  { destruct RC as [W|[[X _]|[X _]]]; try congruence. rewrite (V B2). apply PL; [rewrite app_assoc; reflexivity|exact W]. }
  destruct (N.eqb_spec b 16) as [B16|B16].
  - cbv zeta. rewrite (Q B16). destruct RC as [W|[[_ [A Zr]]|[_ [AL [Zr [S0 _]]]]]].
    + apply PL; [|exact W]. replace (Z.to_nat (width a - Z.of_nat (length s) - Z.of_nat (length (q ++ ds)))) with O.
      * cbn [repeat app]. rewrite app_assoc. reflexivity.
      * rewrite !app_length in *. lia.
    + rewrite Zr. assert (q = []) as Q0 by (unfold q; rewrite A; reflexivity).
      eapply ZL; [|reflexivity|exact A|exact Zr]. rewrite Q0. reflexivity.
    + rewrite Zr. rewrite S0. cbn [app length].
      eapply RL; [|reflexivity|exact AL]. unfold c. rewrite Zr. do 3 f_equal. lia.
  - fold q. destruct RC as [W|[[_ [A Zr]]|[_ [AL [Zr [S0 [A|X]]]]]]]; [| | |congruence].
    + apply PL; [|exact W]. replace (Z.to_nat (width a - Z.of_nat (length s) - Z.of_nat (length ds))) with O.
      * cbn [repeat app]. rewrite app_assoc. reflexivity.
      * rewrite !app_length in *. lia.
    + rewrite Zr. eapply ZL; [|reflexivity|exact A|exact Zr]. unfold q. rewrite A. reflexivity.
    + rewrite Zr. rewrite S0. unfold q. rewrite A. cbn [app length].
      eapply RL; [|reflexivity|exact AL]. unfold c. rewrite Zr. do 3 f_equal. lia.
Qed.

(* no over-run, every other argument *)
Lemma int_fmt_safe : forall t z a, in_range t z -> negatable t z -> sign_known a ->
  ~ (alt a = true /\ (typ a = 120 \/ typ a = 88)) ->
  (exists l, int_fmt t z a = Ok l) /\ base_of (typ a) <> None \/ int_fmt t z a = Contract /\ base_of (typ a) = None.
Proof.
  intros t z a R M K X.
  assert (F : forall a', typ a' = typ a -> alt a' = alt a -> base_of (typ a) <> None -> exists l, unsigned_out (ibits t) (Z.abs_N z) a' = Ok l).
  { intros a' T A B. destruct (base_of (typ a)) as [[[b tab] p]|] eqn:E; [|congruence].
    destruct (base_of_table _ _ _ _ E) as (caps & -> & Hb).
    eexists. apply unsigned_out_spec with (tab := table caps) (b := b) (p := p) (ds := utext caps b (Z.abs_N z)).
    - apply isbits_ibits. - apply abs_bound; auto. - rewrite T; exact E. - apply utext_canonical; auto.
    - intros A' ->. elim X. split; [congruence|]. unfold base_of in E.
      repeat match type of E with (if ?x then _ else _) = _ => destruct x eqn:? end; try discriminate;
        match goal with H : (typ a =? ?k) = true |- _ => apply N.eqb_eq in H end; auto. }
  assert (RD : forall s, typ (reduced s a) = typ a /\ alt (reduced s a) = alt a).
  { intros [|]; cbn; auto. unfold dec_width. destruct (0 <? width a)%Z; auto. }
  destruct (base_of (typ a)) eqn:E.
  - left. split; [|discriminate]. destruct (isgn t) eqn:S.
    + rewrite int_out_eq by auto. cbv zeta. destruct (RD (sign_text (sign a) z)) as [T A].
      destruct (F _ T A) as [l L]; [discriminate|]. rewrite L. cbn [bind]. eauto.
    + rewrite uint_out_eq by auto. apply F; auto. discriminate.
  - right. split; [|reflexivity]. destruct (isgn t) eqn:S.
    + rewrite int_out_eq by auto. cbv zeta. destruct (RD (sign_text (sign a) z)) as [T A].
      rewrite unsigned_out_none by (rewrite T; exact E). reflexivity.
    + rewrite uint_out_eq by auto. apply unsigned_out_none; auto.
Qed.

(* the alternative hexadecimal form does not fit its buffer *)
Lemma hex_digits_min : forall caps bits v, isbits bits -> 2 ^ (bits - 4) <= v -> (N.to_nat (bits / 8) * 2 <= length (utext caps 16 v))%nat.
Proof.
  intros caps bits v I H. destruct (utext_canonical caps 16 v ltac:(lia)) as (_ & R & _). apply reads_upper_bound in R.
  assert (L : 2 ^ (bits - 4) < 16 ^ N.of_nat (length (utext caps 16 v))) by lia.
  replace (2 ^ (bits - 4)) with (16 ^ N.of_nat (N.to_nat (bits / 8) * 2 - 1)) in L.
  - apply N.pow_lt_mono_r_iff in L; lia.
  - destruct I as [->|[->|[-> | ->]]]; vm_compute; reflexivity.
Qed.
Lemma hash_overrun : forall bits v a, isbits bits -> 2 ^ (bits - 4) <= v -> alt a = true -> typ a = 120 \/ typ a = 88 ->
  unsigned_out bits v a = UB.
Proof.
  intros bits v a I H A T. unfold unsigned_out.
  assert (V0 : v <> 0) by (assert (2 ^ (bits - 4) <> 0) by (apply N.pow_nonzero; lia); lia).
  assert (X : forall caps, emit a (N.to_nat (bits / 8) * 2 + 1) (hex_text caps (alt a) v) = UB).
  { intro caps. assert (K := hex_digits_min caps bits v I H). unfold emit. set (n := N.to_nat (bits / 8)) in *. clearbody n.
    rewrite view_over; [reflexivity|lia|]. unfold hex_text. rewrite A.
    destruct (N.eqb_spec v 0); [congruence|]. cbn [andb negb]. rewrite app_length. cbn [length]. lia. }
  destruct T as [T|T]; rewrite T; cbn [N.eqb Pos.eqb orb]; apply X.
Qed.

(* ---- format specifications ---- *)
Definition headP (P : N -> Prop) (l : list N) : Prop := match l with c :: _ => P c | [] => True end.
Definition num (v : N) : list N := utext false 10 v.
Lemma num_digits : forall v, Forall (fun c => is_digit c = true) (num v) /\ fold_left dval (num v) 0 = v /\ num v <> [] /\
  (0 < v -> hd_error (num v) <> Some 48).
Proof.
  intro v. destruct (utext_canonical false 10 v ltac:(lia)) as (N0 & R & H0). fold (num v) in *.
  assert (R' := R). apply reads_fold in R'. destruct R' as [F E]. split; [exact F|]. split; [auto|]. split; [exact N0|].
  intros V K. rewrite (H0 K) in E. cbn in E. lia.
Qed.
Lemma fold_dval_ge : forall ds acc, acc <= fold_left dval ds acc.
Proof.
  induction ds as [|c ds IH]; intro acc; cbn [fold_left]; [lia|]. eapply N.le_trans; [|apply IH]. unfold dval. lia.
Qed.
Lemma int_ok_in : forall z, (0 <= z < 2147483648)%Z -> int_ok z = Ok z.
Proof.
  intros z H. unfold int_ok. change (imin I32) with (-2147483648)%Z. change (imax I32) with 2147483647%Z.
  destruct (Z.leb_spec (-2147483648) z); [|lia]. destruct (Z.leb_spec z 2147483647); [reflexivity|lia].
Qed.
Lemma puint_spec : forall ds rest out, Forall (fun c => is_digit c = true) ds -> digit_first rest = false ->
  fold_left dval ds out < 2147483648 -> puint (ds ++ rest) (Z.of_N out) = Ok (Z.of_N (fold_left dval ds out), rest).
Proof.
  induction ds as [|c ds IH]; intros rest out F D L; cbn [app fold_left].
  - destruct rest as [|x r]; cbn in *; [reflexivity|]. rewrite D. reflexivity.
  - inversion F as [|? ? Dc F']; subst. cbn [puint]. rewrite Dc. apply is_digit_spec in Dc.
    cbn [fold_left] in L. assert (G := fold_dval_ge ds (dval out c)). unfold dval in G at 1.
    rewrite int_ok_in by lia. cbn [bind]. rewrite int_ok_in by lia. cbn [bind].
    replace (Z.of_N out * 10 + (Z.of_N c - 48))%Z with (Z.of_N (dval out c)) by (unfold dval; lia).
    apply IH; auto.
Qed.
Lemma parse_num : forall v rest, v < 2 ^ 31 -> digit_first rest = false -> parse_unsigned_int (num v ++ rest) = Ok (Z.of_N v, rest).
Proof.
  intros v rest V D. destruct (num_digits v) as (F & E & N0 & _). change (2 ^ 31) with 2147483648 in V.
  destruct (num v) as [|c ds]; [congruence|]. inversion F as [|? ? Dc F']; subst. apply is_digit_spec in Dc.
  cbn [app parse_unsigned_int]. cbn [fold_left] in *. unfold dval at 2 in V. cbn [N.mul N.add] in V.
  replace (Z.of_N c - 48)%Z with (Z.of_N (c - 48)) by lia.
  replace (dval 0 c) with (c - 48) by (unfold dval; lia).
  apply puint_spec; auto.
Qed.
Lemma num_first : forall v rest, digit_first (num v ++ rest) = true.
Proof.
  intros v rest. destruct (num_digits v) as (F & _ & N0 & _). destruct (num v); [congruence|]. inversion F; subst. auto.
Qed.

Lemma head_app : forall (P : N -> Prop) l r, headP P r -> Forall P l -> headP P (l ++ r).
Proof. intros P [|c l] r H F; cbn; [exact H|]. inversion F; auto. Qed.
Lemma headP_impl : forall (P Q : N -> Prop) l, (forall c, P c -> Q c) -> headP P l -> headP Q l.
Proof. intros P Q [|c l] H; cbn; auto. Qed.
Lemma digit_first_head : forall l, headP (fun c => is_digit c = false) l -> digit_first l = false.
Proof. intros [|c l]; cbn; auto. Qed.

Ltac cls := unfold is_align, is_sign, is_digit in *; repeat match goal with
  | |- context [?a =? ?b] => destruct (N.eqb_spec a b) | |- context [?a <=? ?b] => destruct (N.leb_spec a b) end;
  cbn [orb andb]; first [reflexivity|exfalso; lia].

Lemma parse_render : forall s, spec_ok s -> parse_args (render num s) = Ok (meaning s).
Proof.
  intros [al sg ha wi pr tp] (Hal & Hsg & Hwi & Hpr & Htp). unfold render, meaning. cbn [s_align s_sign s_alt s_width s_prec s_type] in *.
  set (R5 := match tp with Some c => [c] | None => [] end).
  set (R4 := match pr with Some p => 46 :: num p | None => [] end ++ R5).
  set (R3 := match wi with Some (z, w) => (if z then [48] else []) ++ num w | None => [] end ++ R4).
  set (R2 := (if ha then [35] else []) ++ R3).
  set (R1 := match sg with Some c => [c] | None => [] end ++ R2).
  assert (ND : forall v, Forall (fun c => 48 <= c <= 57) (num v)).
  { intro v. eapply Forall_impl; [|apply num_digits]. intros c H. apply is_digit_spec. exact H. }
  assert (F5 : Forall letter R5) by (unfold R5; destruct tp; constructor; auto).
  assert (F4 : Forall (fun c => letter c \/ 46 <= c <= 57) R4).
  { unfold R4. apply Forall_app. split.
    - destruct pr; constructor; [lia|]. eapply Forall_impl; [|apply ND]. cbn. intros; lia.
    - eapply Forall_impl; [|exact F5]. cbn. auto. }
  assert (H4 : headP (fun c => letter c \/ c = 46) R4).
  { unfold R4. destruct pr; cbn; [auto|]. destruct tp; cbn; auto. }
  assert (F3 : Forall (fun c => letter c \/ 46 <= c <= 57) R3).
  { unfold R3. apply Forall_app. split; [|exact F4]. destruct wi as [[z w]|]; [|constructor]. apply Forall_app. split.
    - destruct z; constructor; auto. lia.
    - eapply Forall_impl; [|apply ND]. cbn. intros; lia. }
  assert (F2 : Forall (fun c => letter c \/ 46 <= c <= 57 \/ c = 35) R2).
  { unfold R2. apply Forall_app. split; [destruct ha; constructor; auto|]. eapply Forall_impl; [|exact F3]. cbn. intros; tauto. }
  assert (F1 : Forall (fun c => letter c \/ 46 <= c <= 57 \/ c = 35 \/ c = 43 \/ c = 45 \/ c = 32) R1).
  { unfold R1. apply Forall_app. split; [destruct sg; constructor; auto; tauto|]. eapply Forall_impl; [|exact F2]. cbn. intros; tauto. }
  unfold letter in *.
  set (al' := match al with Some (_, c) => c | None => 62 end). set (fl' := match al with Some (Some f, _) => f | _ => 32 end).
  assert (P1 : p_align fmt0 (match al with Some (Some f, c) => [f; c] | Some (None, c) => [c] | None => [] end ++ R1)
    = (Fmt (-1) (-1) fl' al' 45 0 false false, R1)).
  { unfold al', fl'. destruct al as [[[f|] c]|].
    - destruct Hal as [Hc Hf]. cbn [app p_align].
      replace (is_align f) with false by (symmetry; cls). replace (is_align c) with true by (symmetry; cls). reflexivity.
    - destruct Hal as [Hc _]. cbn [app p_align]. replace (is_align c) with true by (symmetry; cls). reflexivity.
    - cbn [app]. destruct R1 as [|x R1]; [reflexivity|]. inversion F1 as [|? ? X1 F1']; subst. cbn [p_align].
      replace (is_align x) with false by (symmetry; cls). destruct R1 as [|y R1]; [reflexivity|].
      inversion F1' as [|? ? X2 _]; subst. replace (is_align y) with false by (symmetry; cls). reflexivity. }
  set (sg' := match sg with Some c => c | None => 45 end).
  assert (P2 : p_sign (Fmt (-1) (-1) fl' al' 45 0 false false) R1 = (Fmt (-1) (-1) fl' al' sg' 0 false false, R2)).
  { unfold R1, sg'. destruct sg as [c|]; cbn [app].
    - cbn [p_sign]. replace (is_sign c) with true by (symmetry; cls). reflexivity.
    - destruct R2 as [|x r]; [reflexivity|]. inversion F2; subst. cbn [p_sign]. replace (is_sign x) with false by (symmetry; cls). reflexivity. }
  assert (P3 : p_alt (Fmt (-1) (-1) fl' al' sg' 0 false false) R2 = (Fmt (-1) (-1) fl' al' sg' 0 ha false, R3)).
  { unfold R2. destruct ha; cbn [app]; [reflexivity|].
    destruct R3 as [|x r]; [reflexivity|]. inversion F3; subst. cbn [p_alt]. destruct (N.eqb_spec x 35); [lia|reflexivity]. }
  set (w' := match wi with Some (_, w) => Z.of_N w | None => (-1)%Z end). set (z' := match wi with Some (z, _) => z | None => false end).
  assert (D4 : digit_first R4 = false).
  { apply digit_first_head. eapply headP_impl; [|exact H4]. cbn. intros c Hc. cls. }
  assert (P4 : bind (p_zero (Fmt (-1) (-1) fl' al' sg' 0 ha false) R3) (fun '(a, l) => p_width a l)
    = Ok (Fmt w' (-1) fl' al' sg' 0 ha z', R4)).
  { unfold R3, w', z'. destruct wi as [[z w]|].
    - destruct (num_digits w) as (Fw & _ & Nw & Hw). specialize (Hw ltac:(lia)).
      assert (P : forall a, p_width a (num w ++ R4) = Ok (Fmt (Z.of_N w) (prec a) (fill a) (align a) (sign a) (typ a) (alt a) (zero a), R4)).
      { intro a. unfold p_width. rewrite num_first, parse_num by (auto; lia). reflexivity. }
      destruct z; rewrite <- app_assoc; cbn [app].
      + cbn [p_zero N.eqb Pos.eqb]. rewrite num_first. cbn [contract bind].
        assert (H48 : match num w ++ R4 with d :: _ => d =? 48 | [] => false end = false).
        { destruct (num w) as [|d l]; [congruence|]. cbn [app]. destruct (N.eqb_spec d 48); [subst; elim Hw; reflexivity|reflexivity]. }
        rewrite H48. cbn [negb contract bind]. rewrite P. reflexivity.
      + assert (Z0 : forall a, p_zero a (num w ++ R4) = Ok (a, num w ++ R4)).
        { intro a. destruct (num w) as [|d l]; [congruence|]. cbn [app p_zero].
          destruct (N.eqb_spec d 48); [subst; elim Hw; reflexivity|reflexivity]. }
        rewrite Z0. cbn [bind]. rewrite P. reflexivity.
    - cbn [app].
      assert (Z0 : forall a, p_zero a R4 = Ok (a, R4)).
      { intro a. destruct R4 as [|d l]; [reflexivity|]. cbn [p_zero headP] in *. destruct (N.eqb_spec d 48); [lia|reflexivity]. }
      rewrite Z0. cbn [bind]. unfold p_width. rewrite D4. reflexivity. }
  set (p' := match pr with Some p => Z.of_N p | None => (-1)%Z end).
  assert (P5 : p_prec (Fmt w' (-1) fl' al' sg' 0 ha z') R4 = Ok (Fmt w' p' fl' al' sg' 0 ha z', R5)).
  { assert (D5 : digit_first R5 = false) by (unfold R5; destruct tp; cbn; [cls|reflexivity]).
    unfold R4, p'. destruct pr as [p|]; cbn [app].
    - cbn [p_prec N.eqb Pos.eqb]. rewrite num_first. cbn [contract bind]. rewrite parse_num by auto. reflexivity.
    - unfold R5. destruct tp as [c|]; [|reflexivity]. cbn [p_prec]. destruct (N.eqb_spec c 46); [lia|reflexivity]. }
  unfold parse_args. rewrite P1, P2, P3.
  destruct (p_zero (Fmt (-1) (-1) fl' al' sg' 0 ha false) R3) as [[a l]| | |]; try discriminate P4.
  cbn [bind] in *. rewrite P4. cbn [bind]. rewrite P5. cbn [bind].
  unfold R5. destruct tp; reflexivity.
Qed.

(* ---- text ---- *)
Open Scope Z_scope.
Lemma text_fmt_field : forall v a, Z.of_nat (length v) <= 2147483647 -> width a <= 2147483647 ->
  (align a = 60 \/ align a = 62 \/ align a = 94)%N ->
  (prec a < 0 \/ prec a <= Z.of_nat (length v) /\ width a <= prec a \/ Z.of_nat (length v) < prec a) ->
  exists l, text_fmt v a = Ok l /\ text_field v a l.
Proof.
  intros v a L W A P. unfold text_fmt, text_field.
  assert (C : conv I32 (Z.of_nat (length v)) = Z.of_nat (length v)).
  { apply conv_id. unfold in_range. change (imin I32) with (-2147483648). change (imax I32) with 2147483647. lia. }
  rewrite C.
  destruct (Z.leb_spec 0 (prec a)), (Z.leb_spec (prec a) (Z.of_nat (length v))); cbn [andb];
    destruct (Z.ltb_spec (prec a) 0); try lia.
  1: { eexists. split; [reflexivity|]. exists O, O. cbn [repeat app]. rewrite app_nil_r. split; [reflexivity|].
       split; [rewrite firstn_length; lia|]. repeat split; auto. }
  all: try (replace (firstn (Z.to_nat (prec a)) v) with v by (symmetry; apply firstn_all2; lia)).
  all: destruct (Z.ltb_spec (Z.of_nat (length v)) (width a));
    [|eexists; split; [reflexivity|]; exists O, O; cbn [repeat app]; rewrite app_nil_r; split; [reflexivity|];
      split; [lia|]; repeat split; auto].
  all: rewrite Z.mod_small by (change (2 ^ 64) with 18446744073709551616; lia).
  all: set (k := Z.to_N (width a - Z.of_nat (length v))); assert (Kk : Z.of_N k = width a - Z.of_nat (length v)) by lia; clearbody k.
  all: destruct A as [A|[A|A]]; rewrite A; cbn [N.eqb Pos.eqb]; eexists; (split; [reflexivity|]).
  all: try (exists O, (N.to_nat k); cbn [repeat app]; split; [reflexivity|]; split; [rewrite app_length, repeat_length; lia|];
    repeat split; intros; discriminate).
  all: try (exists (N.to_nat k), O; cbn [repeat app]; rewrite app_nil_r; split; [reflexivity|]; split; [rewrite app_length, repeat_length; lia|];
    repeat split; intros; discriminate).
  all: assert (E := N.div_mod k 2 ltac:(lia)); assert (M := N.mod_lt k 2 ltac:(lia));
    exists (N.to_nat (k / 2 + (if (k mod 2 =? 1)%N then 1 else 0))%N), (N.to_nat (k / 2)); split; [reflexivity|];
    set (q := (k / 2)%N) in *; set (r := (k mod 2)%N) in *; clearbody q r;
    destruct (N.eqb_spec r 1); (split; [rewrite !app_length, !repeat_length; lia|]); (split; [discriminate|]); (split; [discriminate|]); intros _; lia.
Qed.
Open Scope N_scope.

(* ---- bytes ---- *)
Lemma byte_round : forall v, v < 256 -> byte_from_string (byte_to_string v) = Some v.
Proof.
  intros v H. assert (K : forallb (fun n => match byte_from_string (byte_to_string (N.of_nat n)) with Some x => x =? N.of_nat n | None => false end) (seq 0 256) = true)
    by (vm_compute; reflexivity).
  rewrite forallb_forall in K. specialize (K (N.to_nat v)). rewrite in_seq, N2Nat.id in K. specialize (K ltac:(lia)).
  destruct (byte_from_string (byte_to_string v)); [|discriminate]. apply N.eqb_eq in K. congruence.
Qed.
Lemma hex_from_char_spec : forall c d, hex_from_char c = Some d <->
  d < 16 /\ (nth_error lower (N.to_nat d) = Some c \/ nth_error upper (N.to_nat d) = Some c).
Proof.
  intros c d. split.
  - intro H. unfold hex_from_char in H.
    destruct ((48 <=? c) && (c <=? 57)) eqn:E1.
    { assert (d = c - 48) by congruence. subst d. apply andb_true_iff in E1. rewrite !N.leb_le in E1. split; [lia|]. left. apply digit_lower. lia. }
    destruct ((97 <=? c) && (c <=? 102)) eqn:E2.
    { assert (d = 10 + (c - 97)) by congruence. subst d. apply andb_true_iff in E2. rewrite !N.leb_le in E2. split; [lia|]. left.
      change lower with (table false). rewrite dchar_table by lia. f_equal. unfold dchar.
      destruct (N.ltb_spec (10 + (c - 97)) 10); lia. }
    destruct ((65 <=? c) && (c <=? 70)) eqn:E3; [|discriminate].
    assert (d = 10 + (c - 65)) by congruence. subst d. apply andb_true_iff in E3. rewrite !N.leb_le in E3. split; [lia|]. right.
    change upper with (table true). rewrite dchar_table by lia. f_equal. unfold dchar.
    destruct (N.ltb_spec (10 + (c - 65)) 10); lia.
  - intros [D T].
    assert (K : forall caps, hex_from_char (dchar caps d) = Some d).
    { intro caps.
      assert (Q : forallb (fun n => match hex_from_char (dchar caps (N.of_nat n)) with Some x => x =? N.of_nat n | None => false end) (seq 0 16) = true)
        by (destruct caps; vm_compute; reflexivity).
      rewrite forallb_forall in Q. specialize (Q (N.to_nat d)). rewrite in_seq, N2Nat.id in Q. specialize (Q ltac:(lia)).
      destruct (hex_from_char (dchar caps d)); [|discriminate]. apply N.eqb_eq in Q. congruence. }
    destruct T as [T|T].
    + change lower with (table false) in T. rewrite dchar_table in T by auto. injection T as <-. apply K.
    + change upper with (table true) in T. rewrite dchar_table in T by auto. injection T as <-. apply K.
Qed.
Lemma byte_accepts : forall s v, byte_from_string s = Some v <->
  exists c0 c1 d0 d1, s = [c0; c1] /\ hex_from_char c0 = Some d0 /\ hex_from_char c1 = Some d1 /\ v = 16 * d0 + d1.
Proof.
  intros s v. split.
  - intro H. destruct s as [|c0 [|c1 [|]]]; try discriminate. cbn in H.
    destruct (hex_from_char c0) as [d0|] eqn:E0; [|discriminate]. destruct (hex_from_char c1) as [d1|] eqn:E1; [|discriminate].
    exists c0, c1, d0, d1. split; [reflexivity|]. split; [exact E0|]. split; [exact E1|].
    assert (K : N.shiftl d0 4 + d1 = v) by congruence. rewrite N.shiftl_mul_pow2 in K. change (2 ^ 4) with 16 in K. lia.
  - intros (c0 & c1 & d0 & d1 & -> & E0 & E1 & ->). unfold byte_from_string. rewrite E0, E1. apply f_equal.
    rewrite N.shiftl_mul_pow2. change (2 ^ 4) with 16. lia.
Qed.
Lemma bool_spec : forall s b, bool_from_string s = Some b <-> s = bool_to_string b.
Proof.
  intros s b. unfold bool_from_string, bool_to_string, text_eqb.
  destruct (list_eq_dec N.eq_dec s true_text) as [->|n].
  - split; intro H; [injection H as <-; reflexivity|]. destruct b; [reflexivity|discriminate].
  - destruct (list_eq_dec N.eq_dec s false_text) as [->|n'].
    + split; intro H; [injection H as <-; reflexivity|]. destruct b; [discriminate|reflexivity].
    + split; intro H; [discriminate|]. destruct b; congruence.
Qed.

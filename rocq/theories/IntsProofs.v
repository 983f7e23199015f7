(* Proofs about the integer helpers and index ranges. *)
From Coq Require Import ZArith List Bool Lia.
From Verif Require Import Base IntsModel IntsSpec.
Import ListNotations.
Open Scope Z_scope.

Ltac types t H := destruct t as [sg bt]; unfold cpp_type in H; cbn [bits] in H; destruct H as [H|[H|[H|H]]]; subst bt; destruct sg.
Lemma pow7 : 2 ^ 7 = 128. Proof. reflexivity. Qed.
Lemma pow8 : 2 ^ 8 = 256. Proof. reflexivity. Qed.
Lemma pow15 : 2 ^ 15 = 32768. Proof. reflexivity. Qed.
Lemma pow16 : 2 ^ 16 = 65536. Proof. reflexivity. Qed.
Lemma pow31 : 2 ^ 31 = 2147483648. Proof. reflexivity. Qed.
Lemma pow32 : 2 ^ 32 = 4294967296. Proof. reflexivity. Qed.
Lemma pow63 : 2 ^ 63 = 9223372036854775808. Proof. reflexivity. Qed.
Lemma pow64 : 2 ^ 64 = 18446744073709551616. Proof. reflexivity. Qed.

(* what is needed of a type *)
Lemma type_facts t : cpp_type t ->
  exists h, 0 < h /\ 2 ^ bits t = 2 * h /\ 2 ^ (bits t - 1) = h /\
    imin t = (if signed t then - h else 0) /\ imax t = (if signed t then h - 1 else 2 * h - 1) /\ 128 <= h.
Proof.
  intros H. types t H; eexists; repeat split; cbn [bits signed]; unfold imin, imax; cbn [bits signed];
    change (8 - 1) with 7; change (16 - 1) with 15; change (32 - 1) with 31; change (64 - 1) with 63;
    rewrite ?pow7, ?pow8, ?pow15, ?pow16, ?pow31, ?pow32, ?pow63, ?pow64; try reflexivity; lia.
Qed.
Lemma promoted_facts t : cpp_type t ->
  cpp_type (promoted t) /\ imin (promoted t) <= imin t /\ imax t <= imax (promoted t) /\
  (promoted t = t \/ (signed (promoted t) = true /\ bits t < 32 /\ 4 * imax t < imax (promoted t) /\ imin (promoted t) < imin t)).
Proof.
  intros H. types t H; unfold promoted; cbn [bits signed];
    match goal with |- context [?a <? ?b] => let c := eval vm_compute in (a <? b) in change (a <? b) with c end;
    cbv iota; (split; [unfold cpp_type; cbn; auto|]); (split; [discriminate|]); (split; [discriminate|]);
    try (left; reflexivity); right; repeat split; reflexivity.
Qed.
Lemma convert_small t x : cpp_type t -> value t x -> convert t x = x.
Proof.
  intros H V. destruct (type_facts t H) as (h & P & E & F & Mi & Ma & _). unfold value in V. unfold convert. rewrite E, F.
  rewrite Mi, Ma in V. destruct (signed t); cbn [andb].
  - destruct (Z.leb_spec h (x mod (2 * h))) as [L|L].
    + destruct (Z.lt_ge_cases x 0) as [N|N]; [|rewrite Z.mod_small in L by lia; lia].
      assert (x mod (2 * h) = x + 2 * h) as -> by (symmetry; apply Z.mod_unique with (q := -1); lia). lia.
    + destruct (Z.lt_ge_cases x 0) as [N|N]; [|rewrite Z.mod_small by lia; lia].
      assert (x mod (2 * h) = x + 2 * h) as E' by (symmetry; apply Z.mod_unique with (q := -1); lia). rewrite E' in L. lia.
  - apply Z.mod_small. lia.
Qed.
Lemma arith_ok t x : cpp_type t -> value t x -> arith t x = Ok x.
Proof.
  intros H V. unfold arith. destruct (signed t) eqn:S.
  - unfold in_type. unfold value in V. destruct (Z.leb_spec (imin t) x), (Z.leb_spec x (imax t)); cbn; try lia. reflexivity.
  - destruct (type_facts t H) as (h & P & E & F & Mi & Ma & _). rewrite S in Mi, Ma. unfold value in V. rewrite E.
    f_equal. apply Z.mod_small. lia.
Qed.
Lemma value_promoted t x : cpp_type t -> value t x -> value (promoted t) x.
Proof. intros H V. destruct (promoted_facts t H) as (_ & A & B & _). unfold value in *. lia. Qed.

Lemma incr_ok t x : cpp_type t -> value t x -> x < imax t -> incr t x = Ok (x + 1).
Proof.
  intros H V L. pose proof (promoted_facts t H) as (P & _). assert (value t (x + 1)) as V' by (unfold value in *; lia).
  unfold incr, iadd. rewrite arith_ok by (try apply value_promoted; assumption). cbn [bind]. rewrite convert_small by assumption. reflexivity.
Qed.
Lemma decr_ok t x : cpp_type t -> value t x -> imin t < x -> decr t x = Ok (x - 1).
Proof.
  intros H V L. pose proof (promoted_facts t H) as (P & _). assert (value t (x - 1)) as V' by (unfold value in *; lia).
  unfold decr, isub. rewrite arith_ok by (try apply value_promoted; assumption). cbn [bind]. rewrite convert_small by assumption. reflexivity.
Qed.
Lemma decr_wrap t : cpp_type t -> ~ wide_signed t -> decr t (imin t) = Ok (imax t).
Proof.
  intros H W. types t H; try (vm_compute; reflexivity); exfalso; apply W; split; cbn; lia || reflexivity.
Qed.
Lemma incr_wrap t : cpp_type t -> ~ wide_signed t -> incr t (imax t) = Ok (imin t).
Proof.
  intros H W. types t H; try (vm_compute; reflexivity); exfalso; apply W; split; cbn; lia || reflexivity.
Qed.
Lemma incr_over t : cpp_type t -> wide_signed t -> incr t (imax t) = UB.
Proof. intros H [S W]. types t H; cbn in S, W; try discriminate; try lia; vm_compute; reflexivity. Qed.
Lemma decr_over t : cpp_type t -> wide_signed t -> decr t (imin t) = UB.
Proof. intros H [S W]. types t H; cbn in S, W; try discriminate; try lia; vm_compute; reflexivity. Qed.

(* ---- rounding ---- *)
Lemma div_ceil_ok t n d : cpp_type t -> value t n -> value t d -> 0 < n -> 0 < d ->
  exists q, int_div_ceil t n d = Ok q /\ quotient_up n d q.
Proof.
  intros H Vn Vd Pn Pd. pose proof (promoted_facts t H) as (P & Hmin & Hmax & _).
  assert (imin t <= 0) as M0 by (destruct (type_facts t H) as (h & ? & _ & _ & -> & _); destruct (signed t); lia).
  unfold int_div_ceil. destruct (Z.ltb_spec 0 n), (Z.ltb_spec 0 d); try lia. cbn [andb contract bind].
  unfold isub. rewrite arith_ok by (try assumption; unfold value in *; lia). cbn [bind].
  unfold idiv. destruct (Z.eqb_spec d 0); [lia|]. rewrite Z.quot_div_nonneg by lia.
  assert (0 <= (n - 1) / d <= n - 1) as Q. { split; [apply Z.div_pos; lia|]. apply Z.div_le_upper_bound; nia. }
  rewrite arith_ok by (try assumption; unfold value in *; lia). cbn [bind]. unfold iadd.
  rewrite arith_ok by (try assumption; unfold value in *; lia). cbn [bind]. rewrite convert_small by (try assumption; unfold value in *; lia).
  eexists. split; [reflexivity|]. unfold quotient_up. pose proof (Z.div_mod (n - 1) d). pose proof (Z.mod_pos_bound (n - 1) d Pd). nia.
Qed.
Lemma to_multiple_ok t v d : cpp_type t -> value t v -> value t d -> 0 <= v -> 0 < d -> v + d <= imax (promoted t) + (if signed (promoted t) then 0 else 1) ->
  (exists m, multiple_up v d m /\ m <= imax t) -> exists m, int_ceil_to_multiple t v d = Ok m /\ multiple_up v d m.
Proof.
  intros H Vv Vd Pv Pd Le (m & [[k ->] B] & Lm). exists (k * d). split; [|split; [exists k; reflexivity|exact B]].
  pose proof (promoted_facts t H) as (P & Hmin & Hmax & _).
  assert (imin t <= 0) as M0 by (destruct (type_facts t H) as (h & ? & _ & _ & -> & _); destruct (signed t); lia).
  assert (0 <= k) as Pk by nia.
  assert (Z.quot (v + d - 1) d = k) as Q.
  { rewrite Z.quot_div_nonneg by lia. symmetry. apply Z.div_unique with (r := v + d - 1 - d * k); lia. }
  assert (k <= k * d) as Kd by nia.
  unfold int_ceil_to_multiple, iadd, isub, idiv, imul.
  assert (exists s, arith (promoted t) (v + d) = Ok s /\ arith (promoted t) (s - 1) = Ok (v + d - 1)) as (s & -> & Es).
  { destruct (signed (promoted t)) eqn:S.
    - exists (v + d). split; [apply arith_ok; try assumption; unfold value in *; lia|].
      replace (v + d - 1) with (v + d - 1) by lia. apply arith_ok; [assumption|unfold value in *; lia].
    - destruct (type_facts _ P) as (h & Ph & E & F & Mi & Ma & _). rewrite S in Mi, Ma. unfold arith. rewrite S, E.
      exists ((v + d) mod (2 * h)). split; [reflexivity|]. f_equal.
      rewrite Zminus_mod_idemp_l. apply Z.mod_small. lia. }
  cbn [bind]. rewrite Es. cbn [bind]. destruct (Z.eqb_spec d 0); [lia|]. rewrite Q.
  rewrite arith_ok by (try assumption; unfold value in *; lia). cbn [bind].
  rewrite arith_ok by (try assumption; unfold value in *; lia). cbn [bind].
  rewrite convert_small; [reflexivity|assumption|unfold value in *; lia].
Qed.

(* ---- intervals ---- *)
Lemma interval_nil b e : e <= b -> interval b e = [].
Proof. intros L. unfold interval. replace (Z.to_nat (e - b)) with O by lia. reflexivity. Qed.
Lemma interval_cons b e : b < e -> interval b e = b :: interval (b + 1) e.
Proof.
  intros L. unfold interval. replace (Z.to_nat (e - b)) with (S (Z.to_nat (e - (b + 1)))) by lia.
  cbn [seq map]. f_equal; [lia|]. rewrite <- seq_shift, map_map. apply map_ext. intros i. lia.
Qed.
Lemma interval_snoc b e : b < e -> interval b e = interval b (e - 1) ++ [e - 1].
Proof.
  intros L. unfold interval. replace (Z.to_nat (e - b)) with (S (Z.to_nat (e - 1 - b))) by lia.
  rewrite seq_S, map_app. cbn [map]. f_equal. f_equal. lia.
Qed.
Lemma interval_in b e x : In x (interval b e) <-> b <= x < e.
Proof.
  unfold interval. rewrite in_map_iff. split.
  - intros (i & <- & I). apply in_seq in I. lia.
  - intros B. exists (Z.to_nat (x - b)). split; [lia|]. apply in_seq. lia.
Qed.
Lemma iterate_ok t : cpp_type t -> forall fuel b e, value t b -> value t e -> b <= e -> e - b < Z.of_nat fuel ->
  iterate fuel t b e = Ok (interval b e).
Proof.
  intros H. induction fuel as [|fuel IH]; intros b e Vb Ve L F; [lia|]. cbn. destruct (Z.eqb_spec b e) as [->|Ne].
  - rewrite interval_nil by lia. reflexivity.
  - rewrite incr_ok by (try assumption; unfold value in *; lia). cbn [bind].
    rewrite IH by (try assumption; unfold value in *; lia). cbn [bind]. rewrite (interval_cons b e) by lia. reflexivity.
Qed.
(* e: the value before the first one, possibly wrapped *)
Lemma iterate_rev_ok t : cpp_type t -> forall fuel b c e, value t b -> value t c -> b <= c ->
  (b < c -> decr t b = Ok e) -> (b = imin t -> e = imax t /\ ~ wide_signed t) -> (imin t < b -> e = b - 1) ->
  c < imax t \/ b < c -> c - b < Z.of_nat fuel ->
  b < c -> iterate_rev fuel t (c - 1) e = Ok (rev (interval b c)).
Proof.
  intros H. induction fuel as [|fuel IH]; intros b c e Vb Vc L D W N T F Lt; [lia|]. cbn.
  assert (c - 1 <> e) as Ne. { destruct (Z.eq_dec b (imin t)) as [B|B]; [destruct (W B); unfold value in *; lia|rewrite N; unfold value in *; lia]. }
  destruct (Z.eqb_spec (c - 1) e); [contradiction|]. rewrite (interval_snoc b c), rev_app_distr by lia. cbn [rev app].
  destruct (Z.eq_dec b (c - 1)) as [B|B].
  - rewrite <- B at 1. rewrite D by lia. cbn [bind]. rewrite (interval_nil b) by lia. destruct fuel as [|fuel]; [lia|]. cbn.
    rewrite Z.eqb_refl. reflexivity.
  - rewrite decr_ok by (try assumption; unfold value in *; lia). cbn [bind].
    rewrite (IH b (c - 1)); try assumption; try (unfold value in *; lia). reflexivity. intros _. apply D. lia.
Qed.
Lemma reversed_ok t r fuel : cpp_type t -> range_of t r -> (wide_signed t -> imin t < rbegin r) -> (rend r - rbegin r < Z.of_nat fuel) ->
  exists q, reversed t r = Ok q /\ iterate_rev fuel t (rbegin q) (rend q) = Ok (rev (contents r)) /\ rev_reversed t q = Ok r.
Proof.
  intros H (Vb & Ve & L) W F. unfold reversed, contents. destruct r as [b e]. cbn [rbegin rend] in *.
  assert (decr t b = Ok (if b =? imin t then imax t else b - 1)) as Db.
  { destruct (Z.eqb_spec b (imin t)) as [->|Ne]; [apply decr_wrap; [assumption|intros X; specialize (W X); lia]|].
    apply decr_ok; try assumption. unfold value in *; lia. }
  assert (decr t e = Ok (if e =? imin t then imax t else e - 1)) as De.
  { destruct (Z.eqb_spec e (imin t)) as [->|Ne]; [apply decr_wrap; [assumption|intros X; specialize (W X); unfold value in *; lia]|].
    apply decr_ok; try assumption. unfold value in *; lia. }
  assert (forall x, value t x -> (wide_signed t -> imin t < x) -> incr t (if x =? imin t then imax t else x - 1) = Ok x) as Inc.
  { intros x Vx Wx. destruct (Z.eqb_spec x (imin t)) as [->|Ne]; [apply incr_wrap; [assumption|intros X; specialize (Wx X); lia]|].
    rewrite incr_ok by (try assumption; unfold value in *; lia). f_equal. lia. }
  rewrite De, Db. cbn [bind]. eexists. split; [reflexivity|]. cbn [rbegin rend]. split.
  - destruct (Z.eq_dec b e) as [->|Ne].
    + rewrite interval_nil by lia. destruct fuel as [|fuel]; [lia|]. cbn. rewrite Z.eqb_refl. reflexivity.
    + assert (imin t < e) as Me by (unfold value in *; lia). destruct (Z.eqb_spec e (imin t)); [lia|].
      apply iterate_rev_ok; try assumption; try lia.
      * intros _. exact Db.
      * intros ->. rewrite Z.eqb_refl. split; [reflexivity|]. intros X. specialize (W X). lia.
      * intros B. destruct (Z.eqb_spec b (imin t)); lia.
  - unfold rev_reversed. cbn [rbegin rend]. rewrite (Inc b) by assumption. cbn [bind].
    rewrite (Inc e); [reflexivity|assumption|]. intros X. specialize (W X). lia.
Qed.
Lemma skip_first_ok t r : cpp_type t -> range_of t r -> exists q, skip_first t r = Ok q /\ range_of t q /\ contents q = tl (contents r).
Proof.
  intros H (Vb & Ve & L). destruct r as [b e]. unfold skip_first, contents, range_of in *. cbn [rbegin rend] in *.
  destruct (Z.eqb_spec b e) as [->|Ne].
  - eexists. split; [reflexivity|]. cbn. split; [unfold value in *; lia|]. rewrite interval_nil by lia. reflexivity.
  - rewrite incr_ok by (try assumption; unfold value in *; lia). cbn [bind]. eexists. split; [reflexivity|]. cbn [rbegin rend].
    split; [unfold value in *; lia|]. rewrite (interval_cons b e) by lia. reflexivity.
Qed.
Lemma skip_last_ok t r : cpp_type t -> range_of t r -> exists q, skip_last t r = Ok q /\ range_of t q /\ contents q = removelast (contents r).
Proof.
  intros H (Vb & Ve & L). destruct r as [b e]. unfold skip_last, contents, range_of in *. cbn [rbegin rend] in *.
  destruct (Z.eqb_spec b e) as [->|Ne].
  - eexists. split; [reflexivity|]. cbn. split; [unfold value in *; lia|]. rewrite interval_nil by lia. reflexivity.
  - rewrite decr_ok by (try assumption; unfold value in *; lia). cbn [bind]. eexists. split; [reflexivity|]. cbn [rbegin rend].
    split; [unfold value in *; lia|]. rewrite (interval_snoc b e) by lia. rewrite removelast_last. reflexivity.
Qed.
Lemma filter_interval v : forall n b e, Z.to_nat (e - b) = n -> filter (fun x => x <=? v) (interval b e) = interval b (Z.min e (v + 1)).
Proof.
  induction n as [|n IH]; intros b e E.
  - rewrite !interval_nil by lia. reflexivity.
  - rewrite (interval_cons b e) by lia. cbn [filter]. rewrite IH by lia. destruct (Z.leb_spec b v).
    + rewrite (interval_cons b (Z.min e (v + 1))) by lia. reflexivity.
    + rewrite !interval_nil by lia. reflexivity.
Qed.
Lemma cap_ok t r v : cpp_type t -> range_of t r -> value t v ->
  exists q, cap t r v = Ok q /\ range_of t q /\ contents q = filter (fun x => x <=? v) (contents r).
Proof.
  intros H (Vb & Ve & L) Vv. pose proof (promoted_facts t H) as (P & Hmin & Hmax & _).
  destruct r as [b e]. unfold cap, contents, range_of in *. cbn [rbegin rend] in *. rewrite (filter_interval v _ b e eq_refl).
  destruct (Z.leb_spec e v).
  - eexists. split; [reflexivity|]. cbn [rbegin rend]. split; [unfold value in *; lia|]. rewrite Z.min_l by lia. reflexivity.
  - destruct (Z.ltb_spec v b).
    + eexists. split; [reflexivity|]. cbn [rbegin rend]. split; [|rewrite !interval_nil by lia; reflexivity].
      destruct (type_facts t H) as (h & ? & _ & _ & Mi & Ma & ?). unfold value. rewrite Mi, Ma. destruct (signed t); lia.
    + unfold iadd. rewrite arith_ok by (try assumption; unfold value in *; lia). cbn [bind].
      rewrite convert_small by (try assumption; unfold value in *; lia). eexists. split; [reflexivity|]. cbn [rbegin rend].
      split; [unfold value in *; lia|]. rewrite Z.min_r by lia. reflexivity.
Qed.
(* a loop that starts behind its end overflows *)
Lemma iterate_over t : cpp_type t -> wide_signed t -> forall fuel b e, value t b -> e < b -> imax t - b < Z.of_nat fuel -> iterate fuel t b e = UB.
Proof.
  intros H W. induction fuel as [|fuel IH]; intros b e Vb L F; [unfold value in *; lia|]. cbn. destruct (Z.eqb_spec b e); [lia|].
  destruct (Z.eq_dec b (imax t)) as [->|Ne]; [rewrite incr_over by assumption; reflexivity|].
  rewrite incr_ok by (try assumption; unfold value in *; lia). cbn [bind]. rewrite IH; [reflexivity|unfold value in *; lia|lia|lia].
Qed.

(* Proofs about the size classes of tlsf.cc. *)
From Coq Require Import NArith List Bool Lia.
From Verif Require Import Base TlsfModel TlsfMapSpec.
Import ListNotations.
Open Scope N_scope.

Lemma lxor32 : forall v, 32 <= v -> v < 64 -> N.lxor v 32 = v - 32.
Proof.
  intros v L H.
  assert (A : forallb (fun n => N.lxor (N.of_nat n) 32 =? N.of_nat n - 32) (seq 32 32) = true) by reflexivity.
  rewrite forallb_forall in A. specialize (A (N.to_nat v)).
  rewrite N2Nat.id in A. apply N.eqb_eq, A. apply in_seq. lia.
Qed.

(* the second level index of a large size *)
Lemma big_parts : forall s, 256 <= s ->
  let e := N.log2 s in
  8 <= e /\ 2 ^ e <= s /\ s < 2 * 2 ^ e /\ 2 ^ e = 32 * 2 ^ (e - 5) /\
  32 <= s / 2 ^ (e - 5) /\ s / 2 ^ (e - 5) < 64.
Proof.
  intros s H e.
  assert (Le : 8 <= e).
  { change 8 with (N.log2 256). apply N.log2_le_mono. auto. }
  destruct (N.log2_spec s ltac:(lia)) as [A B]. fold e in A, B.
  rewrite N.pow_succ_r' in B.
  assert (E : 2 ^ e = 32 * 2 ^ (e - 5)).
  { change 32 with (2 ^ 5). rewrite <- N.pow_add_r. f_equal. lia. }
  pose proof (pow2_pos (e - 5)) as P.
  repeat split; auto.
  - apply N.div_le_lower_bound; lia.
  - apply N.div_lt_upper_bound; lia.
Qed.

Lemma mapping_big : forall s, 256 <= s ->
  mapping_insert s = (N.log2 s - 7, s / 2 ^ (N.log2 s - 5) - 32).
Proof.
  intros s H. unfold mapping_insert, SMALL_BLOCK_SIZE.
  destruct (N.ltb_spec s 256); [lia|]. unfold fls.
  cbv [FL_INDEX_SHIFT SL_INDEX_COUNT_LOG2].
  rewrite N.shiftr_div_pow2. change (N.shiftl 1 5) with 32.
  destruct (big_parts s H) as (_ & _ & _ & _ & A & B).
  rewrite lxor32 by auto. reflexivity.
Qed.
Lemma mapping_small : forall s, s < 256 -> mapping_insert s = (0, s / 8).
Proof.
  intros s H. unfold mapping_insert, SMALL_BLOCK_SIZE.
  destruct (N.ltb_spec s 256); [reflexivity|lia].
Qed.

Lemma mapping_in : forall s, s < 2 ^ 32 -> in_tables (mapping_insert s).
Proof.
  intros s H. unfold in_tables. destruct (N.ltb_spec s 256) as [L|L].
  - rewrite mapping_small by auto. cbn [fst snd]. split; [lia|]. apply N.div_lt_upper_bound; lia.
  - rewrite mapping_big by auto. cbn [fst snd].
    destruct (big_parts s L) as (A & B & C & D & E & F).
    assert (N.log2 s < 32).
    { apply N.log2_lt_pow2; lia. }
    lia.
Qed.

Lemma mapping_interval : forall s,
  let '(fl, sl) := mapping_insert s in sl < 32 /\ class_lo fl sl <= s /\ s < class_hi fl sl.
Proof.
  intros s. unfold class_lo, class_hi. destruct (N.ltb_spec s 256) as [L|L].
  - rewrite mapping_small by auto. cbn [fst snd]. change (0 =? 0) with true. cbv iota.
    ndm s 8. split; [lia|split; lia].
  - rewrite mapping_big by auto.
    destruct (big_parts s L) as (A & B & C & D & E & F).
    destruct (N.eqb_spec (N.log2 s - 7) 0); [lia|].
    replace (N.log2 s - 7 + 2) with (N.log2 s - 5) by lia.
    set (g := 2 ^ (N.log2 s - 5)) in *. assert (0 < g) by apply pow2_pos.
    ndm s g. split; [lia|]. replace (32 + (q - 32)) with q by lia. lia.
Qed.

Lemma class_mono : forall fl sl fl' sl', sl < 32 -> sl' < 32 ->
  class_le (fl, sl) (fl', sl') -> class_lo fl sl <= class_lo fl' sl'.
Proof.
  intros fl sl fl' sl' A B [H|[H1 H2]]; cbn [fst snd] in *; unfold class_lo.
  - destruct (N.eqb_spec fl' 0); [lia|].
    destruct (N.eqb_spec fl 0) as [E|E].
    + pose proof (N.pow_le_mono_r 2 3 (fl' + 2) ltac:(lia) ltac:(lia)) as P.
      change (2 ^ 3) with 8 in P. nia.
    + pose proof (N.pow_le_mono_r 2 (fl + 2 + 1) (fl' + 2) ltac:(lia) ltac:(lia)) as P.
      rewrite N.pow_add_r in P. change (2 ^ 1) with 2 in P.
      pose proof (pow2_pos (fl + 2)).
      transitivity (64 * 2 ^ (fl + 2)); [nia|]. transitivity (32 * 2 ^ (fl' + 2)); nia.
  - subst fl'. destruct (N.eqb_spec fl 0); [lia|]. apply N.mul_le_mono_r. lia.
Qed.
(* the intervals of different classes do not overlap *)
Lemma class_gap : forall fl sl fl' sl', sl < 32 -> sl' < 32 ->
  (fl < fl' \/ (fl = fl' /\ sl < sl')) -> class_hi fl sl <= class_lo fl' sl'.
Proof.
  intros fl sl fl' sl' A B [H|[H1 H2]]; unfold class_lo, class_hi.
  - destruct (N.eqb_spec fl' 0); [lia|].
    destruct (N.eqb_spec fl 0) as [E|E].
    + pose proof (N.pow_le_mono_r 2 3 (fl' + 2) ltac:(lia) ltac:(lia)) as P.
      change (2 ^ 3) with 8 in P. nia.
    + pose proof (N.pow_le_mono_r 2 (fl + 2 + 1) (fl' + 2) ltac:(lia) ltac:(lia)) as P.
      rewrite N.pow_add_r in P. change (2 ^ 1) with 2 in P.
      pose proof (pow2_pos (fl + 2)).
      transitivity (64 * 2 ^ (fl + 2)); [nia|]. transitivity (32 * 2 ^ (fl' + 2)); nia.
  - subst fl'. destruct (N.eqb_spec fl 0); [lia|]. apply N.mul_le_mono_r. lia.
Qed.
Lemma class_unique : forall s fl sl, sl < 32 -> class_lo fl sl <= s -> s < class_hi fl sl ->
  mapping_insert s = (fl, sl).
Proof.
  intros s fl sl H L U. pose proof (mapping_interval s) as M.
  destruct (mapping_insert s) as [fl' sl']. destruct M as (H' & L' & U').
  destruct (N.lt_trichotomy fl fl') as [C|[C|C]].
  - pose proof (class_gap fl sl fl' sl' H H' (or_introl C)). lia.
  - subst fl'. destruct (N.lt_trichotomy sl sl') as [D|[D|D]].
    + pose proof (class_gap fl sl fl sl' H H' (or_intror (conj eq_refl D))). lia.
    + subst. reflexivity.
    + pose proof (class_gap fl sl' fl sl H' H (or_intror (conj eq_refl D))). lia.
  - pose proof (class_gap fl' sl' fl sl H' H (or_introl C)). lia.
Qed.

Lemma mapping_mono : forall s s', s <= s' -> class_le (mapping_insert s) (mapping_insert s').
Proof.
  intros s s' H. pose proof (mapping_interval s) as M. pose proof (mapping_interval s') as M'.
  destruct (mapping_insert s) as [fl sl], (mapping_insert s') as [fl' sl'].
  destruct M as (A & B & C), M' as (A' & B' & C').
  unfold class_le. cbn [fst snd].
  destruct (N.lt_trichotomy fl fl') as [D|[D|D]]; auto.
  - destruct (N.le_gt_cases sl sl') as [|G]; auto. subst.
    pose proof (class_gap fl' sl' fl' sl A' A (or_intror (conj eq_refl G))). lia.
  - pose proof (class_gap fl' sl' fl sl A' A (or_introl D)). lia.
Qed.

(* the size whose class is searched *)
Definition rounded (r : N) : N := if 256 <=? r then r + (2 ^ (N.log2 r - 5) - 1) else r.
Lemma rounded_bounds : forall r, r < 2 ^ 33 -> r <= rounded r /\ rounded r <= r + r / 32.
Proof.
  intros r H. unfold rounded. destruct (N.leb_spec 256 r) as [L|L]; [|split; [lia|pose proof (N.le_0_l (r/32)); lia]].
  destruct (big_parts r L) as (A & B & C & D & E & F).
  split; [lia|]. assert (2 ^ (N.log2 r - 5) <= r / 32); [|lia].
  apply N.div_le_lower_bound; lia.
Qed.
Lemma mapping_search_eq : forall r, r < 2 ^ 33 -> mapping_search r = mapping_insert (rounded r).
Proof.
  intros r H. unfold mapping_search, rounded, SMALL_BLOCK_SIZE, SL_INDEX_COUNT_LOG2, fls.
  destruct (N.leb_spec 256 r) as [L|L]; auto.
  rewrite N.shiftl_1_l. f_equal. apply wadd_small.
  destruct (big_parts r L) as (A & B & C & D & E & F).
  change (2 ^ 64) with (2 ^ 31 * 2 ^ 33). lia.
Qed.

Lemma search_lower : forall r, r < 2 ^ 33 ->
  let '(fl, sl) := mapping_search r in sl < 32 /\ (256 <= r -> r <= class_lo fl sl).
Proof.
  intros r H. rewrite mapping_search_eq by auto.
  pose proof (mapping_interval (rounded r)) as M.
  destruct (N.ltb_spec (rounded r) 256) as [S|S].
  - destruct (rounded_bounds r H). destruct (mapping_insert (rounded r)) as [fl sl].
    split; [tauto|]. lia.
  - destruct (mapping_insert (rounded r)) as [fl sl] eqn:Em.
    split; [tauto|]. intro L.
    rewrite mapping_big in Em by auto. inversion Em; subst fl sl. clear Em M.
    set (r' := rounded r) in *.
    destruct (big_parts r' S) as (A & B & C & D & E & F).
    destruct (big_parts r L) as (A0 & B0 & C0 & D0 & E0 & F0).
    unfold class_lo. destruct (N.eqb_spec (N.log2 r' - 7) 0); [lia|].
    replace (N.log2 r' - 7 + 2) with (N.log2 r' - 5) by lia.
    assert (R : r' = r + (2 ^ (N.log2 r - 5) - 1)).
    { unfold r', rounded. destruct (N.leb_spec 256 r); [auto|lia]. }
    assert (Lg : N.log2 r <= N.log2 r') by (apply N.log2_le_mono; lia).
    replace (32 + (r' / 2 ^ (N.log2 r' - 5) - 32)) with (r' / 2 ^ (N.log2 r' - 5)) by lia.
    destruct (N.eq_dec (N.log2 r') (N.log2 r)) as [Q|Q].
    + rewrite Q in *. set (g := 2 ^ (N.log2 r - 5)) in *.
      assert (0 < g) by apply pow2_pos. ndm r' g.
      destruct (N.le_gt_cases r (q * g)); auto. exfalso.
      assert (q * g + r0 = r + (g - 1)) by lia. assert (r + (g - 1) >= q * g + 1 + (g - 1)) by lia. lia.
    + assert (P : 2 * 2 ^ (N.log2 r) <= 2 ^ (N.log2 r')).
      { rewrite <- N.pow_succ_r'. apply N.pow_le_mono_r; lia. }
      transitivity (2 ^ (N.log2 r')); [lia|]. rewrite D. apply N.mul_le_mono_r. lia.
Qed.

Lemma good_fit : forall r b, r < 2 ^ 33 -> (r < 256 -> r mod 8 = 0) ->
  class_le (mapping_search r) (mapping_insert b) -> r <= b.
Proof.
  intros r b H Al C. pose proof (mapping_interval b) as M. pose proof (search_lower r H) as S.
  destruct (mapping_search r) as [fl sl] eqn:Es, (mapping_insert b) as [fl' sl'] eqn:Eb.
  destruct M as (A & B & _), S as (D & E).
  destruct (N.le_gt_cases 256 r) as [G|G].
  - pose proof (class_mono fl sl fl' sl' D A C). specialize (E G). lia.
  - pose proof (class_mono fl sl fl' sl' D A C) as L.
    rewrite mapping_search_eq in Es by auto. unfold rounded in Es.
    destruct (N.leb_spec 256 r); [lia|]. rewrite mapping_small in Es by auto. inversion Es; subst fl sl.
    unfold class_lo at 1 in L. change (0 =? 0) with true in L. cbv iota in L.
    specialize (Al G). pose proof (N.div_mod r 8 ltac:(lia)). lia.
Qed.

Lemma found_if_bigger : forall r b, r < 2 ^ 33 -> r + r / 32 <= b ->
  class_le (mapping_search r) (mapping_insert b).
Proof.
  intros r b H L. rewrite mapping_search_eq by auto. apply mapping_mono.
  destruct (rounded_bounds r H). lia.
Qed.
(* below 256 nothing is lost *)
Lemma found_small : forall r b, r < 256 -> r <= b -> class_le (mapping_search r) (mapping_insert b).
Proof.
  intros r b H L. rewrite mapping_search_eq by lia. apply mapping_mono.
  unfold rounded. destruct (N.leb_spec 256 r); lia.
Qed.

(* ---- bit searches ---- *)
Lemma ffs_spec : forall w, w <> 0 ->
  N.testbit w (ffs w) = true /\ forall k, k < ffs w -> N.testbit w k = false.
Proof.
  intros [|p] H; [congruence|]. clear H. cbn [ffs].
  induction p as [p IH|p IH|]; cbn [ffs_pos].
  - split; [reflexivity|]. intros; lia.
  - destruct IH as [A B].
    assert (E : forall k, N.testbit (N.pos p~0) (N.succ k) = N.testbit (N.pos p) k).
    { intro k. change (N.pos p~0) with (2 * N.pos p). apply N.testbit_even_succ. lia. }
    split.
    + replace (1 + ffs_pos p) with (N.succ (ffs_pos p)) by lia. rewrite E. auto.
    + intros k Hk. destruct (N.eq_dec k 0) as [->|]; [reflexivity|].
      replace k with (N.succ (k - 1)) by lia. rewrite E. apply B. lia.
  - split; [reflexivity|]. intros; lia.
Qed.

Lemma mask_bit : forall k i, k < 32 ->
  N.testbit (wrap 32 (N.shiftl (N.ones 32) k)) i = (k <=? i) && (i <? 32).
Proof.
  intros k i H. unfold wrap.
  destruct (N.ltb_spec i 32) as [L|L].
  - rewrite N.mod_pow2_bits_low by auto. rewrite andb_true_r.
    destruct (N.leb_spec k i).
    + rewrite N.shiftl_spec_high' by auto. apply N.ones_spec_low. lia.
    + apply N.shiftl_spec_low. auto.
  - rewrite N.mod_pow2_bits_high by auto. rewrite andb_false_r. reflexivity.
Qed.
Lemma small_bit : forall w n i, w < 2 ^ n -> N.testbit w i = true -> i < n.
Proof.
  intros w n i H B. destruct (N.lt_ge_cases i n); auto.
  assert (w = w mod 2 ^ n) by (symmetry; apply N.mod_small; auto).
  rewrite H1 in B. rewrite N.mod_pow2_bits_high in B by auto. discriminate.
Qed.
Lemma nonzero_bit : forall w, w <> 0 <-> exists i, N.testbit w i = true.
Proof.
  intro w. split.
  - intro H. exists (ffs w). apply ffs_spec. auto.
  - intros [i H] E. subst. rewrite N.bits_0 in H. discriminate.
Qed.

(* search_suitable_block returns the smallest marked class that is at least (fl, sl) *)
Lemma search_spec : forall t fl sl, bitmaps_ok t -> fl < 25 -> sl < 32 ->
  match search_suitable_block t fl sl with
  | Ok None => forall c, in_tables c -> class_le (fl, sl) c -> ~ marked t c
  | Ok (Some (b, fl', sl')) =>
      in_tables (fl', sl') /\ class_le (fl, sl) (fl', sl') /\ marked t (fl', sl') /\ b = hds t fl' sl' /\
      forall c, in_tables c -> class_le (fl, sl) c -> marked t c -> class_le (fl', sl') c
  | _ => False
  end.
Proof.
  intros t fl sl [Bf Bs] Hf Hs. unfold search_suitable_block, get_sl, FL_INDEX_COUNT.
  destruct (N.ltb_spec fl 25); [|lia]. cbn [defined bind].
  unfold mask_from. destruct (N.ltb_spec sl 32); [|lia]. cbn [defined bind].
  destruct (Bs fl Hf) as [Ws Fs].
  set (k := wrap 32 (N.shiftl (N.ones 32) sl)).
  destruct (N.eqb_spec (N.land (slb t fl) k) 0) as [Z|Z].
  - assert (Zb : forall i, sl <= i -> i < 32 -> N.testbit (slb t fl) i = false).
    { intros i A B. assert (T : N.testbit (N.land (slb t fl) k) i = false) by (rewrite Z; apply N.bits_0).
      rewrite N.land_spec in T. unfold k in T. rewrite mask_bit in T by auto.
      destruct (N.leb_spec sl i); [|lia]. destruct (N.ltb_spec i 32); [|lia].
      rewrite andb_true_r in T. auto. }
    destruct (N.ltb_spec (fl + 1) 32); [|lia]. cbn [defined bind].
    set (kf := wrap 32 (N.shiftl (N.ones 32) (fl + 1))).
    destruct (N.eqb_spec (N.land (flb t) kf) 0) as [Y|Y].
    + cbn [bind]. intros [i j] [Ii Ij] [C|[C D]] M; cbn [fst snd] in *; unfold marked in M; cbn [fst snd] in M.
      * assert (N.testbit (flb t) i = true).
        { apply (Bs i Ii). apply nonzero_bit. eauto. }
        assert (T : N.testbit (N.land (flb t) kf) i = false) by (rewrite Y; apply N.bits_0).
        rewrite N.land_spec in T. unfold kf in T. rewrite mask_bit in T by auto.
        destruct (N.leb_spec (fl + 1) i); [|lia]. destruct (N.ltb_spec i 32); [|lia].
        rewrite H2 in T. discriminate.
      * subst i. rewrite Zb in M by auto. discriminate.
    + destruct (ffs_spec _ Y) as [Ft Fm]. set (f' := ffs (N.land (flb t) kf)) in *.
      rewrite N.land_spec in Ft. unfold kf in Ft. rewrite mask_bit in Ft by auto.
      apply andb_prop in Ft. destruct Ft as [Ft Fr]. apply andb_prop in Fr. destruct Fr as [Fr _].
      apply N.leb_le in Fr.
      assert (Lf : f' < 25) by (eapply small_bit; eauto).
      destruct (N.ltb_spec f' 25); [|lia]. cbn [defined bind].
      destruct (Bs f' Lf) as [Ws' Fs']. assert (Nz : slb t f' <> 0) by (apply Fs'; auto).
      destruct (N.eqb_spec (slb t f') 0); [congruence|]. cbn [negb contract bind].
      destruct (ffs_spec _ Nz) as [St Sm]. set (s' := ffs (slb t f')) in *.
      assert (Ls : s' < 32) by (eapply small_bit; eauto).
      unfold get_hd, FL_INDEX_COUNT, SL_INDEX_COUNT.
      destruct (N.ltb_spec f' 25); [|lia]. destruct (N.ltb_spec s' 32); [|lia]. cbn [andb defined bind].
      split; [split; auto|]. split; [left; cbn; lia|]. split; [exact St|]. split; [reflexivity|].
      intros [i j] [Ii Ij] C M; unfold class_le, marked in *; cbn [fst snd] in *.
      destruct C as [C|[C D]].
      * assert (Fi : N.testbit (flb t) i = true) by (apply (Bs i Ii); apply nonzero_bit; eauto).
        assert (f' <= i).
        { destruct (N.le_gt_cases f' i) as [|G]; auto. specialize (Fm i G). rewrite N.land_spec in Fm.
          unfold kf in Fm. rewrite mask_bit in Fm by auto. rewrite Fi in Fm.
          destruct (N.leb_spec (fl + 1) i); [|lia]. destruct (N.ltb_spec i 32); [|lia]. discriminate. }
        destruct (N.eq_dec f' i); [|left; lia]. right. split; auto. subst i.
        destruct (N.le_gt_cases s' j) as [|G]; auto. rewrite (Sm j G) in M. discriminate.
      * subst i. rewrite Zb in M by auto. discriminate.
  - cbn [bind].
    destruct (N.eqb_spec (N.land (slb t fl) k) 0); [congruence|]. cbn [negb contract bind].
    destruct (ffs_spec _ Z) as [St Sm]. set (s' := ffs (N.land (slb t fl) k)) in *.
    rewrite N.land_spec in St. unfold k in St. rewrite mask_bit in St by auto.
    apply andb_prop in St. destruct St as [St Sr]. apply andb_prop in Sr. destruct Sr as [Sr Sx].
    apply N.leb_le in Sr. apply N.ltb_lt in Sx.
    unfold get_hd, FL_INDEX_COUNT, SL_INDEX_COUNT.
    destruct (N.ltb_spec fl 25); [|lia]. destruct (N.ltb_spec s' 32); [|lia]. cbn [andb defined bind].
    split; [split; auto|]. split; [right; cbn; auto|]. split; [exact St|]. split; [reflexivity|].
    intros [i j] [Ii Ij] C M; unfold class_le, marked in *; cbn [fst snd] in *.
    destruct C as [C|[C D]]; [left; auto|]. right. split; auto. subst i.
    destruct (N.le_gt_cases s' j) as [|G]; auto. specialize (Sm j G).
    rewrite N.land_spec, M in Sm. unfold k in Sm. rewrite mask_bit in Sm by auto.
    destruct (N.leb_spec sl j); [|lia]. destruct (N.ltb_spec j 32); [|lia]. discriminate.
Qed.

(* realloc, pools and the checkers of tlsf.cc on a heap that satisfies the invariant. *)
From Coq Require Import NArith List Bool Lia.
From Verif Require Import Base TlsfModel TlsfMapSpec TlsfMapProofs TlsfListProofs TlsfPhysProofs TlsfProofs TlsfOpProofs.
Import ListNotations.
Open Scope N_scope.

Lemma shift_used_left : forall t zl za zL n X zR zr,
  Inv t zl za zL ((n, false) :: X) zR zr <-> Inv t zl za (zL ++ [(n, false)]) X zR zr.
Proof.
  intros. unfold Inv. replace (zp zl za (zL ++ [(n, false)]) X zR zr) with (zp zl za zL ((n, false) :: X) zR zr).
  2: { unfold zp. rewrite <- app_assoc. reflexivity. }
  assert (E : forall z s, oth zl za zL ((n, false) :: X) zR zr true z s <-> oth zl za (zL ++ [(n, false)]) X zR zr true z s).
  { intros z s. unfold oth. rewrite trip_app, len_app, in_app_iff. cbn [len trip In].
    replace (za + (len zL + (n + 8 + 0)) + len X) with (za + len zL + (n + 8 + len X)) by lia.
    split; intros [H|[H|[H|H]]]; auto. destruct H as [H|[H|[]]]; auto. inv H. }
  split; apply core_ext; intros; [|symmetry]; apply E.
Qed.

Definition keeps_range (a e : N) (m m' : memory) : Prop := forall x, a <= x -> x < e -> m' x = m x.

(* the used block at b changes its size from something to s; all others are as before *)
Definition resizes (P P' : list pool) (b s : N) : Prop :=
  forall z q, used P' z q <-> (used P z q /\ z <> b) \/ (z = b /\ q = s).

Lemma used_out : forall t zl za zL s zR zr, Inv t zl za zL [(s, false)] zR zr -> forall z q,
  (used (zp zl za zL [(s, false)] zR zr) z q /\ z <> za + len zL) <-> oth zl za zL [(s, false)] zR zr false z q.
Proof.
  intros t zl za zL s zR zr I z q. unfold used. rewrite zp_all. cbn [trip In]. split.
  - intros [[H|[H|[]]] Ne]; auto. inv H. congruence.
  - intro H. split; auto. pose proof I as (Sz & Ge & _). pose proof (oth_clear _ _ _ _ _ _ _ _ _ _ _ Sz Ge H) as Cl.
    cbn [len] in Cl. lia.
Qed.

Lemma trim_used_ok : forall t zl za zL s zR zr n, Inv t zl za zL [(s, false)] zR zr ->
  coals zl -> coals zr -> coal false zL -> coal false zR -> n mod 8 = 0 -> 24 <= n -> n <= s ->
  let P := zp zl za zL [(s, false)] zR zr in
  exists t' P' s', block_trim_used t (za + len zL) n = Ok t' /\ follows t P t' P' /\ (n <= s' /\ s' < n + 32) /\
    resizes P P' (za + len zL) s' /\
    keeps (fun z q => used P z q /\ z <> za + len zL) (mem t) (mem t') /\
    keeps_range (za + len zL + 16) (za + len zL + 16 + n) (mem t) (mem t').
Proof.
  intros t zl za zL s zR zr n I Ca Cb Cc Cd N1 N2 N3 P.
  destruct (inv_word _ _ _ _ _ _ _ _ I) as (W & M4 & M8 & S1 & S2).
  unfold block_trim_used. rewrite (p_free _ _ _ _ _ W M4). cbn [bind negb contract].
  rewrite (can_split_ok _ _ _ _ _ _ _ _ n I) by lia. cbn [bind].
  destruct (N.leb_spec (32 + n) s) as [L|L].
  2: { exists t, P, s. split; [reflexivity|]. split.
       { apply follows_refl; [apply good_inv_used; auto|]. apply coals_zp. split; [auto|]. split; [auto|].
         apply coal_app. split; [auto|]. cbn [app coal]. split; [apply andb_false_r|auto]. }
       split; [lia|]. split; [|split; [apply keeps_refl|intros x _ _; reflexivity]].
       intros z q. split.
       - intro H. destruct (N.eq_dec z (za + len zL)) as [->|Ne]; [|auto]. right. split; auto.
         unfold used in H. assert (K : In (za + len zL, s, false) (all P)) by (apply zp_all; right; left; reflexivity).
         pose proof I as (Sz & Ge & _). destruct (all_sep _ _ _ _ _ _ _ _ _ Ge H K) as [(_ & Q & _)|Q]; [auto|].
         pose proof (all_size _ _ _ _ Sz H). lia.
       - intros [[H _]|[-> ->]]; auto. apply zp_all. right. left. reflexivity. }
  destruct (inv_split _ _ _ _ _ _ _ _ n I N1 ltac:(lia)) as (m' & q & E & D & H1 & H2 & H3 & H4 & H5 & R8 & F).
  set (a := za + len zL) in *. rewrite E. cbn [bind].
  rewrite (p_set_prev_used _ _ _ _ _ H2) by auto using mod8_4. cbn [bind].
  set (m1 := upd m' (a + 8 + n + 8) (word (s - n - 8) true false)).
  assert (D1 : same_dom (mem t) m1).
  { eapply same_dom_trans; [exact D|]. apply same_dom_upd. rewrite H2. discriminate. }
  destruct (cut_inv t zl za zL s false zR zr n m1 I N1 N2 ltac:(lia) D1) as [I' K'].
  { fold a. unfold m1. rewrite !upd_other by lia. exact H1. }
  { fold a. unfold m1. apply upd_same. }
  { discriminate. }
  { fold a. unfold m1. rewrite !upd_other by lia. exact H3. }
  { fold a. unfold m1. rewrite !upd_other by lia. exact H4. }
  { fold a. intros x X. unfold m1. rewrite !upd_other by lia. apply F; lia. }
  apply shift_used_left in I'.
  assert (El : za + len (zL ++ [(n, false)]) = a + 8 + n) by (rewrite len_app; cbn [len]; unfold a; lia).
  destruct (merge_next_ok _ _ _ _ _ _ _ I') as (t3 & E3 & Nu3 & D3 & I3 & K3). rewrite El in E3. rewrite E3. cbn [bind].
  set (s3 := match zR with (u, true) :: _ => s - n - 8 + u + 8 | _ => s - n - 8 end) in *.
  set (zR3 := match zR with (_, true) :: k => k | _ => zR end) in *.
  change [(s3, true)] with ([] ++ [(s3, true)]) in I3.
  destruct (insert_right _ _ _ _ _ _ _ _ I3) as (t4 & E4 & Nu4 & D4 & I4 & K4).
  cbn [len] in E4. rewrite N.add_0_r, El in E4. rewrite E4. cbn [mem nul set_mem] in *.
  set (P' := zp zl za (zL ++ [(n, false)]) [] ((s3, true) :: zR3) zr) in *.
  assert (O1 : forall z w, oth zl za (zL ++ [(n, false)]) [(s - n - 8, true)] zR zr false z w <->
                           oth zl za zL [(s, false)] zR zr false z w \/ (z = a /\ w = n)).
  { intros z w. unfold oth. rewrite trip_app, len_app, in_app_iff. cbn [len trip In]. fold a.
    replace (za + (len zL + (n + 8 + 0)) + (s - n - 8 + 8 + 0)) with (a + (s + 8 + 0)) by (unfold a; lia).
    split; [intros [H|[[H|[H|[]]]|[H|H]]]; auto; inv H; auto|].
    intros [[H|[H|[H|H]]]|[-> ->]]; auto. }
  assert (O2 : forall z w, used P' z w <-> oth zl za (zL ++ [(n, false)]) [(s - n - 8, true)] zR zr false z w).
  { intros z w. unfold used, P'. rewrite zp_all. unfold oth. rewrite El. cbn [len trip In]. unfold s3, zR3.
    destruct zR as [|[sq [|]] zR]; cbn [trip In].
    - rewrite N.add_0_r. split; [intros [[H|[H|[[H|H]|H]]]|[]]; auto 8; inv H; tauto|tauto].
    - replace (a + 8 + n + 0 + 8 + (s - n - 8 + sq + 8)) with (a + 8 + n + (s - n - 8 + 8 + 0) + 8 + sq) by lia.
      split; [intros [[H|[H|[[H|H]|H]]]|[]]; auto 8; inv H|intros [H|[H|[[H|H]|H]]]; auto 8; inv H].
    - replace (a + 8 + n + 0 + 8 + (s - n - 8)) with (a + 8 + n + (s - n - 8 + 8 + 0)) by lia.
      split; [intros [[H|[H|[[H|H]|H]]]|[]]; auto 8; inv H|tauto]. }
  pose proof (used_out _ _ _ _ _ _ _ I) as Uo. fold a in Uo. fold P in Uo.
  exists t4, P', n. split; [reflexivity|]. split; [|split; [lia|split; [|split]]].
  - split; [apply good_inv_nil; auto|]. split.
    { apply coals_zp. split; [auto|]. split; [auto|]. rewrite coal_app. cbn [app coal]. rewrite coal_app.
      split; [split; [auto|]; cbn [coal]; split; [apply andb_false_r|auto]|].
      rewrite lastf_app1. split; [reflexivity|]. unfold zR3. destruct zR as [|[sq [|]] zR]; cbn [coal] in *; [auto|tauto|].
      split; [reflexivity|tauto]. }
    split.
    { unfold P', P, zp, skel. rewrite !map_app. cbn [map fst snd app]. do 2 f_equal. f_equal.
      rewrite !len_app. cbn [len]. unfold s3, zR3. destruct zR as [|[sq [|]] zR]; cbn [len]; lia. }
    split; [congruence|]. eapply same_dom_trans; [exact D1|]. eapply same_dom_trans; eauto.
  - intros z w. rewrite O2, O1, Uo. reflexivity.
  - eapply keeps_trans; [eapply keeps_ext; [|exact K']|eapply keeps_trans; [eapply keeps_ext; [|exact K3]|eapply keeps_ext; [|exact K4]]].
    + intros z w H. apply Uo. auto.
    + intros z w H. apply O1. left. apply Uo. auto.
    + intros z w H. apply O2, O1. left. apply Uo. auto.
  - intros x X1 X2.
    assert (Ub : used P' a n) by (apply O2, O1; auto).
    rewrite (K4 a n x Ub X1 X2). rewrite (K3 a n x (proj2 (O1 _ _) (or_intror (conj eq_refl eq_refl))) X1 X2).
    unfold m1. rewrite upd_other by lia. apply F; lia.
Qed.

(* block_merge_next of a used block, followed by block_mark_as_used *)
Lemma grow_ok : forall t zl za zL s q zR zr, Inv t zl za zL [(s, false)] ((q, true) :: zR) zr ->
  exists t1 m2, block_merge_next t (za + len zL) = Ok t1 /\
    block_mark_as_used (mem t1) (za + len zL) = Ok m2 /\ nul t1 = nul t /\ same_dom (mem t) m2 /\
    Inv (set_mem t1 m2) zl za zL [(s + q + 8, false)] zR zr /\
    keeps (oth zl za zL [(s, false)] ((q, true) :: zR) zr false) (mem t) m2 /\
    keeps_range (za + len zL + 16) (za + len zL + 16 + s) (mem t) m2.
Proof.
  intros t zl za zL s q zR zr I. destruct (inv_word _ _ _ _ _ _ _ _ I) as (W & M4 & M8 & S1 & S2).
  destruct (inv_focus _ _ _ _ _ _ _ I) as (A1 & A2 & A3 & A3b & Sg & Hd0 & Hm & Sz & Dm). cbn [len seg lastf hs hf hd fst snd] in *.
  unfold block_merge_next. rewrite (p_next _ _ _ _ _ W M4) by lia. cbn [bind].
  destruct (N.eqb_spec (za + len zL + 8 + s) 0); [lia|]. cbn [negb contract bind].
  replace (za + len zL + (s + 8 + 0) + 8) with (za + len zL + 8 + s + 8) in Hd0 by lia.
  rewrite (p_free _ _ _ _ _ Hd0 Hm). cbn [bind].
  rewrite (p_last _ _ _ _ _ W M4). cbn [bind]. destruct (N.eqb_spec s 0); [lia|]. cbn [negb contract bind].
  destruct (remove_right _ _ _ _ _ _ _ _ I) as (t1 & E1 & Nu & D1 & I1 & _ & K1).
  cbn [len] in E1. replace (za + len zL + (s + 8 + 0)) with (za + len zL + 8 + s) in E1 by lia.
  rewrite E1. cbn [bind app] in *.
  destruct (inv_focus _ _ _ _ _ _ _ I1) as (B1 & B2 & B3 & B3b & Sg1 & Hd1 & Hm1 & Sz1 & Dm1).
  set (a := za + len zL) in *. cbn [len seg lastf] in *. destruct Sg1 as (W1 & _ & W2 & Ft2 & _).
  destruct (Sz1 q true (or_intror (or_introl eq_refl))) as (T1 & T2 & T3).
  replace (a + (s + 8 + (q + 8 + 0)) + 8) with (a + 8 + s + 8 + q + 8) in Hd1 by lia.
  assert (De : mem t1 (a + 8 + s + 8 + q) <> None) by (rewrite Ft2; [discriminate|auto]).
  rewrite (absorb_mem _ _ _ _ _ _ _ _ W1 W2) by auto using mod8_4. cbn [bind].
  set (S := s + q + 8). set (e := a + 8 + s + 8 + q) in *.
  set (m2 := upd (upd (mem t1) (a + 8) (word S false (lastf false zL))) e a).
  assert (V1 : m2 (a + 8) = Some (word S false (lastf false zL))) by (unfold m2, e; rewrite upd_other by lia; apply upd_same).
  assert (V2 : m2 (e + 8) = Some (word (hs zR) (hf zR) true)) by (unfold m2, e; rewrite !upd_other by lia; exact Hd1).
  assert (SM : S mod 8 = 0) by (unfold S; apply mod8_add; auto; apply mod8_add; auto).
  exists (set_mem t1 m2). cbn [mem set_mem].
  unfold block_mark_as_used. rewrite (p_next _ _ _ _ _ V1) by (auto using mod8_4; unfold S; lia). cbn [bind].
  replace (a + 8 + S) with e by (unfold e, S; lia).
  rewrite (p_set_prev_used _ _ _ _ _ V2 Hm1). cbn [bind].
  set (m3 := upd m2 (e + 8) (word (hs zR) (hf zR) false)).
  assert (V3 : m3 (a + 8) = Some (word S false (lastf false zL))) by (unfold m3, e; rewrite upd_other by lia; auto).
  rewrite (p_set_used _ _ _ _ _ V3) by auto using mod8_4.
  set (m4 := upd m3 (a + 8) (word S false (lastf false zL))). exists m4.
  split; [reflexivity|]. split; [reflexivity|]. split; [exact Nu|].
  assert (D4 : same_dom (mem t1) m4).
  { apply same_dom_trans with m2.
    - unfold m2. eapply same_dom_trans; apply same_dom_upd; [rewrite W1; discriminate|].
      unfold e. rewrite upd_other by lia. exact De.
    - apply same_dom_trans with m3; apply same_dom_upd; [rewrite V2|rewrite V3]; discriminate. }
  split; [eapply same_dom_trans; eauto|].
  destruct (replace_ok t1 m4 zl za zL _ [(S, false)] zR zr I1) as [I4 K4]; auto.
  - cbn [len]. unfold S. lia.
  - intros s' f' [Ee|[]]. inv Ee. split; [unfold S; lia|]. split; [auto|unfold S; lia].
  - fold a. cbn [len]. intros x X. unfold m4, m3, m2, e. rewrite !upd_other by lia. reflexivity.
  - fold a. cbn [seg]. split; [unfold m4; apply upd_same|]. split; [discriminate|exact Logic.I].
  - fold a. cbn [len lastf]. replace (a + (s + 8 + (q + 8 + 0)) + 8) with (e + 8) by (unfold e; lia).
    unfold m4, m3, e. rewrite upd_other by lia. apply upd_same.
  - split; [exact I4|]. split.
    + eapply keeps_trans; [eapply keeps_ext; [|exact K1]|eapply keeps_ext; [|exact K4]].
      * intros z w H. apply used_oth. exact H.
      * intros z w H. apply oth_used_right in H. exact H.
    + intros x X1 X2. transitivity (mem t1 x).
      * unfold m4, m3, m2, e. rewrite !upd_other by lia. reflexivity.
      * apply (K1 a s x); auto. unfold used. apply zp_all. right. left. reflexivity.
Qed.

(* ---- copying between blocks ---- *)
Definition byte_at (m : memory) (x : N) : option N :=
  match m (8 * (x / 8)) with Some w => Some ((w / 2 ^ (8 * (x mod 8))) mod 256) | None => None end.

Lemma store_ok : forall t P b s m', Good t P -> used P b s -> same_dom (mem t) m' ->
  (forall x, x < b + 16 \/ b + 16 + s <= x -> m' x = mem t x) -> Good (set_mem t m') P.
Proof.
  intros t P b s m' G U D F. destruct (open_block _ _ _ _ U) as (zl & za & zL & zR & zr & -> & ->).
  apply good_inv_used in G. apply good_inv_used.
  destruct (inv_focus _ _ _ _ _ _ _ G) as (A1 & A2 & A3 & A3b & Sg & Hd & Hm & Sz & Dm). set (a := za + len zL) in *.
  destruct (Sz s false (or_introl eq_refl)) as (S1 & S2 & S3).
  apply (replace_ok t m' zl za zL [(s, false)] [(s, false)] zR zr G); auto.
  - fold a. cbn [len]. intros y Y. apply F. lia.
  - fold a. cbn [seg] in *. destruct Sg as (W & _ & _). split; [rewrite F; auto; lia|]. split; [discriminate|exact Logic.I].
  - fold a. cbn [len] in *. rewrite F by lia. exact Hd.
Qed.

Lemma copy_words_ok : forall k m dst src,
  (dst + 8 * N.of_nat k <= src \/ src + 8 * N.of_nat k <= dst) ->
  (forall i, i < N.of_nat k -> m (dst + 8 * i) <> None /\ m (src + 8 * i) <> None) ->
  exists m', copy_words k m dst src = Ok m' /\ same_dom m m' /\
    (forall x, x < dst \/ dst + 8 * N.of_nat k <= x -> m' x = m x) /\
    (forall i, i < N.of_nat k -> m' (dst + 8 * i) = m (src + 8 * i)).
Proof.
  induction k as [|k IH]; intros m dst src Dj Dm.
  { exists m. cbn [copy_words]. split; [reflexivity|]. split; [apply same_dom_refl|]. split; [auto|]. intros i H. lia. }
  cbn [copy_words]. destruct (Dm 0 ltac:(lia)) as [D0 S0]. rewrite N.mul_0_r, !N.add_0_r in *.
  destruct (m src) as [v|] eqn:Ev; [|congruence]. rewrite (rd_some _ _ _ Ev). cbn [bind].
  rewrite (wr_some _ _ _ D0). cbn [bind].
  destruct (IH (upd m dst v) (dst + 8) (src + 8)) as (m' & E & D & F & C).
  - lia.
  - intros i Hi. destruct (Dm (i + 1) ltac:(lia)) as [A B].
    replace (dst + 8 + 8 * i) with (dst + 8 * (i + 1)) by lia. replace (src + 8 + 8 * i) with (src + 8 * (i + 1)) by lia.
    split; unfold upd.
    + destruct (N.eqb_spec (dst + 8 * (i + 1)) dst); [lia|auto].
    + destruct (N.eqb_spec (src + 8 * (i + 1)) dst); [discriminate|auto].
  - exists m'. split; [exact E|]. split; [eapply same_dom_trans; [apply same_dom_upd; exact D0|exact D]|]. split.
    + intros x X. rewrite F by lia. apply upd_other. lia.
    + intros i Hi. destruct (N.eq_dec i 0) as [->|Z].
      * rewrite N.mul_0_r, !N.add_0_r. rewrite F by lia. rewrite upd_same. auto.
      * replace (dst + 8 * i) with (dst + 8 + 8 * (i - 1)) by lia. rewrite C by lia.
        replace (src + 8 + 8 * (i - 1)) with (src + 8 * i) by lia. apply upd_other. lia.
Qed.

Lemma low_bytes : forall v w r i, r < 8 -> i < r ->
  ((v mod 2 ^ (8 * r) + 2 ^ (8 * r) * w) / 2 ^ (8 * i)) mod 256 = (v / 2 ^ (8 * i)) mod 256.
Proof.
  intros v w r i R I. pose proof (pow2_pos (8 * i)). pose proof (pow2_pos (8 * r)).
  set (x := v mod 2 ^ (8 * r) + 2 ^ (8 * r) * w).
  assert (E : x mod 2 ^ (8 * r) = v mod 2 ^ (8 * r)).
  { unfold x. rewrite (N.mul_comm _ w), N.mod_add by lia. apply N.mod_mod. lia. }
  assert (B : forall y, (y / 2 ^ (8 * i)) mod 256 = ((y mod 2 ^ (8 * r)) / 2 ^ (8 * i)) mod 256).
  { intro y. change 256 with (2 ^ 8). apply N.bits_inj. intro j.
    destruct (N.lt_ge_cases j 8) as [J|J].
    - rewrite !N.mod_pow2_bits_low by auto. rewrite !N.div_pow2_bits. symmetry. apply N.mod_pow2_bits_low. lia.
    - rewrite !N.mod_pow2_bits_high by auto. reflexivity. }
  rewrite (B x), (B v), E. reflexivity.
Qed.

Lemma copy_bytes_ok : forall m dst src n, dst mod 8 = 0 -> src mod 8 = 0 ->
  (dst + up n 3 <= src \/ src + up n 3 <= dst) ->
  (forall x, x mod 8 = 0 -> (dst <= x /\ x < dst + n) \/ (src <= x /\ x < src + n) -> m x <> None) ->
  exists m', copy_bytes m dst src n = Ok m' /\ same_dom m m' /\
    (forall x, x < dst \/ dst + up n 3 <= x -> m' x = m x) /\
    (forall j, j < n -> byte_at m' (dst + j) = byte_at m (src + j)).
Proof.
  intros m dst src n A8 B8 Dj Dm. unfold copy_bytes. destruct (up_spec n 3) as (U1 & U2 & U3). change (2 ^ 3) with 8 in *.
  pose proof (N.div_mod n 8 ltac:(lia)) as En. pose proof (N.mod_lt n 8 ltac:(lia)) as Ln.
  pose proof (N.div_mod (up n 3) 8 ltac:(lia)) as Eu. rewrite U3 in Eu.
  set (k := n / 8) in *. set (r := n mod 8) in *. clearbody k r.
  pose proof (N.div_mod dst 8 ltac:(lia)) as Ed. rewrite A8 in Ed.
  pose proof (N.div_mod src 8 ltac:(lia)) as Es. rewrite B8 in Es.
  assert (Kd : N.of_nat (N.to_nat k) = k) by apply N2Nat.id.
  destruct (copy_words_ok (N.to_nat k) m dst src) as (m1 & E1 & D1 & F1 & C1); rewrite ?Kd in *.
  - lia.
  - intros i Hi. split; apply Dm; try lia.
    + apply mod8_add; auto. rewrite N.mul_comm. apply N.mod_mul. lia.
    + apply mod8_add; auto. rewrite N.mul_comm. apply N.mod_mul. lia.
  - rewrite E1. cbn [bind].
    assert (Dv : forall j, (dst + j) / 8 = dst / 8 + j / 8 /\ (dst + j) mod 8 = j mod 8).
    { intro j. rewrite Ed at 1 3. rewrite N.add_0_r, (N.mul_comm 8). rewrite (N.add_comm (dst / 8 * 8)).
      rewrite N.div_add, N.mod_add by lia. split; lia. }
    assert (Sv : forall j, (src + j) / 8 = src / 8 + j / 8 /\ (src + j) mod 8 = j mod 8).
    { intro j. rewrite Es at 1 3. rewrite N.add_0_r, (N.mul_comm 8). rewrite (N.add_comm (src / 8 * 8)).
      rewrite N.div_add, N.mod_add by lia. split; lia. }
    assert (Bw : forall m' j, j / 8 < k -> (forall i, i < k -> m' (dst + 8 * i) = m (src + 8 * i)) ->
                 byte_at m' (dst + j) = byte_at m (src + j)).
    { intros m' j Hj C. unfold byte_at. rewrite (proj1 (Dv j)), (proj2 (Dv j)), (proj1 (Sv j)), (proj2 (Sv j)).
      replace (8 * (dst / 8 + j / 8)) with (dst + 8 * (j / 8)) by lia.
      replace (8 * (src / 8 + j / 8)) with (src + 8 * (j / 8)) by lia. rewrite C by auto. reflexivity. }
    destruct (N.eqb_spec r 0) as [Z|Z].
    + exists m1. split; [reflexivity|]. split; [exact D1|]. split.
      * intros x X. apply F1. lia.
      * intros j Hj. apply Bw; auto. apply N.div_lt_upper_bound; lia.
    + assert (Uk : up n 3 = 8 * k + 8).
      { apply N.le_antisymm.
        - apply up_le; [lia|]. change (2 ^ 3) with 8. replace (8 * k + 8) with ((k + 1) * 8) by lia. apply N.mod_mul. lia.
        - assert (k < up n 3 / 8) by lia. lia. }
      assert (Dd : m (dst + 8 * k) <> None).
      { apply Dm; [|lia]. apply mod8_add; auto. rewrite N.mul_comm. apply N.mod_mul. lia. }
      assert (Ds : m (src + 8 * k) <> None).
      { apply Dm; [|lia]. apply mod8_add; auto. rewrite N.mul_comm. apply N.mod_mul. lia. }
      destruct (m (src + 8 * k)) as [v|] eqn:Ev; [|congruence].
      assert (Ev1 : m1 (src + 8 * k) = Some v) by (rewrite F1 by lia; auto).
      rewrite (rd_some _ _ _ Ev1). cbn [bind].
      destruct (m (dst + 8 * k)) as [w|] eqn:Ew; [|congruence].
      assert (Ew1 : m1 (dst + 8 * k) = Some w) by (rewrite F1 by lia; auto).
      rewrite (rd_some _ _ _ Ew1). cbn [bind].
      rewrite wr_some by (rewrite Ew1; discriminate).
      set (m2 := upd m1 (dst + 8 * k) (v mod 2 ^ (8 * r) + 2 ^ (8 * r) * (w / 2 ^ (8 * r)))).
      exists m2. split; [reflexivity|].
      split; [eapply same_dom_trans; [exact D1|]; apply same_dom_upd; rewrite Ew1; discriminate|]. split.
      * intros x X. unfold m2. rewrite upd_other by lia. apply F1. lia.
      * intros j Hj. destruct (N.lt_ge_cases (j / 8) k) as [L|L].
        { apply Bw; auto. intros i Hi. unfold m2. rewrite upd_other by lia. auto. }
        pose proof (N.div_mod j 8 ltac:(lia)) as Ej. pose proof (N.mod_lt j 8 ltac:(lia)).
        assert (Jk : j / 8 < k + 1) by (apply N.div_lt_upper_bound; lia).
        assert (Jq : j / 8 = k) by (clear - Jk L; lia). clear Jk. rename Jq into Jk.
        unfold byte_at. rewrite (proj1 (Dv j)), (proj2 (Dv j)), (proj1 (Sv j)), (proj2 (Sv j)), Jk.
        replace (8 * (dst / 8 + k)) with (dst + 8 * k) by lia. replace (8 * (src / 8 + k)) with (src + 8 * k) by lia.
        rewrite Ev. unfold m2. rewrite upd_same. f_equal. apply low_bytes; lia.
Qed.

Lemma byte_eq : forall m m' x, m' (8 * (x / 8)) = m (8 * (x / 8)) -> byte_at m' x = byte_at m x.
Proof. intros m m' x E. unfold byte_at. rewrite E. reflexivity. Qed.
Lemma word_range : forall a x n, a mod 8 = 0 -> a <= x -> x < a + n -> a <= 8 * (x / 8) /\ 8 * (x / 8) < a + n.
Proof.
  intros a x n A X1 X2. pose proof (N.div_mod x 8 ltac:(lia)). pose proof (N.mod_lt x 8 ltac:(lia)).
  pose proof (N.div_mod a 8 ltac:(lia)) as E. rewrite A in E.
  set (u := x / 8) in *. set (v := a / 8) in *. set (w := x mod 8) in *. clearbody u v w. clear A. split; lia.
Qed.

(* the used block at b moves to b' with s' bytes *)
Definition moves (P P' : list pool) (b b' s' : N) : Prop :=
  (forall z q, used P' z q <-> (used P z q /\ z <> b) \/ (z = b' /\ q = s')) /\
  (forall z q, used P z q -> z <> b -> z <> b').

Lemma realloc_ok : forall t P b s n, Good t P -> coals P -> used P b s -> n <> 0 -> n + 8 <= 2 ^ 32 ->
  (tlsf_realloc t (Some (b + 16)) n = Ok (t, None) /\ s < n /\
     forall z q, In (z, q, true) (all P) -> q < N.max (n + 7) 24 + N.max (n + 7) 24 / 32) \/
  (exists t' P' b' s', tlsf_realloc t (Some (b + 16)) n = Ok (t', Some (b' + 16)) /\
     follows t P t' P' /\ (n <= s' /\ s' < N.max (n + 7) 24 + 32) /\ moves P P' b b' s' /\
     keeps (fun z q => used P z q /\ z <> b) (mem t) (mem t') /\
     (forall j, j < s -> j < n -> byte_at (mem t') (b' + 16 + j) = byte_at (mem t) (b + 16 + j))).
Proof.
  intros t P b s n G C U Z B. unfold tlsf_realloc. destruct (N.eqb_spec n 0); [congruence|].
  unfold block_from_ptr, block_start_offset. replace (b + 16 - 16) with b by lia.
  destruct (open_block _ _ _ _ U) as (zl & za & zL & zR & zr & EP & Eb).
  assert (I : Inv t zl za zL [(s, false)] zR zr) by (apply good_inv_used; rewrite <- EP; auto).
  destruct (inv_word _ _ _ _ _ _ _ _ I) as (W & M4 & M8 & S1 & S2).
  destruct (inv_focus _ _ _ _ _ _ _ I) as (A1 & A2 & A3 & A3b & _ & Hd & Hm & _ & Dm).
  cbn [len lastf] in *. rewrite <- Eb in *. replace (b + (s + 8 + 0) + 8) with (b + 8 + s + 8) in * by lia.
  rewrite (p_next _ _ _ _ _ W M4) by lia. cbn [bind]. rewrite (p_size _ _ _ _ _ W M4). cbn [bind].
  rewrite (p_size _ _ _ _ _ Hd Hm). cbn [bind]. unfold ALIGN_SIZE, block_header_overhead.
  rewrite (adjust_ok n 3 ltac:(lia) Z ltac:(change (2 ^ 3) with 8; lia) : adjust_request_size n 8 = _). cbn [bind].
  destruct (up_spec n 3) as (U1 & U2 & U3). change (2 ^ 3) with 8 in *.
  assert (Lu : up n 3 < 2 ^ 32).
  { assert (up n 3 <= 2 ^ 32 - 8); [|lia]. apply up_le; [lia|]. reflexivity. }
  destruct (N.ltb_spec (up n 3) (2 ^ 32)) as [_|]; [|lia]. cbv iota. set (r := N.max (up n 3) 24).
  assert (R8 : r mod 8 = 0) by (unfold r; destruct (N.max_spec (up n 3) 24) as [[_ ->]|[_ ->]]; auto).
  assert (Rn : n <= r /\ 24 <= r /\ r <= N.max (n + 7) 24) by (unfold r; lia). destruct Rn as (Rn & R24 & Rx).
  rewrite (p_free _ _ _ _ _ W M4). cbn [bind negb contract]. rewrite (p_free _ _ _ _ _ Hd Hm). cbn [bind].
  pose proof C as C0. rewrite EP in C0. apply coals_zp in C0. destruct C0 as (Ca & Cb & Cc). rewrite coal_app in Cc. cbn [app coal] in Cc.
  destruct Cc as (Cc & _ & Cd).
  pose proof (used_out _ _ _ _ _ _ _ I) as Uo. rewrite <- EP, <- Eb in Uo.
  destruct (N.ltb_spec s r) as [Lr|Lr]; cbn [andb].
  - destruct (negb (hf zR) || (s + hs zR + 8 <? r)) eqn:Cond.
    + (* a new block *)
      assert (sn : s < n).
      { destruct (N.lt_ge_cases s n); auto. exfalso.
        assert (up n 3 <= s) by (apply up_le; auto). unfold r in Lr. lia. }
      destruct (malloc_ok t P n G C) as [[E F]|(t1 & P1 & b1 & s1 & E & Fo & L1 & _ & Ad & K1)]; [lia| |].
      { left. rewrite E. cbn [bind]. split; [reflexivity|]. split; [auto|]. destruct F as [F|[F|F]]; [lia| |exact F].
        (* the request is below 2^32, so it was a search *)
        intros z q Hq. exfalso. lia. }
      right. rewrite E. cbn [bind].
      destruct Fo as (G1 & C1 & Sk1 & N1 & D1). destruct Ad as [Ad1 Ad2].
      assert (U1b : used P1 b s) by (apply Ad1; auto). assert (U1n : used P1 b1 s1) by (apply Ad1; auto).
      replace (N.min s n) with s by lia.
      pose proof G1 as (Sz1 & Ge1 & _).
      destruct (all_size _ _ _ _ Sz1 U1n) as (T1 & T2 & T3).
      destruct (all_place _ _ _ _ _ _ Sz1 Ge1 U1n) as (Q1 & Q2 & Q3 & _ & Q5).
      destruct (all_place _ _ _ _ _ _ Sz1 Ge1 U1b) as (V1 & V2 & V3 & _ & V5).
      assert (Us : up s 3 = s) by (apply up_id; exact M8).
      destruct (copy_bytes_ok (mem t1) (b1 + 16) (b + 16) s) as (m2 & E2 & D2 & F2 & B2).
      * apply mod8_add; auto.
      * apply mod8_add; auto.
      * rewrite Us. destruct (Ad2 _ _ U); lia.
      * intros x X8 [X|X]; [apply Q5|apply V5]; auto; lia.
      * rewrite E2. cbn [bind]. rewrite Us in F2.
        assert (G2 : Good (set_mem t1 m2) P1).
        { apply (store_ok t1 P1 b1 s1 m2 G1 U1n D2). intros x X. apply F2. lia. }
        destruct (free_ok (set_mem t1 m2) P1 b s G2 C1 U1b) as (t3 & P3 & E3 & Fo3 & Dr & K3).
        rewrite E3. cbn [bind]. exists t3, P3, b1, s1. split; [reflexivity|].
        destruct Fo3 as (G3 & C3 & Sk3 & N3 & D3). cbn [mem nul set_mem] in *.
        assert (Nb : b1 <> b) by (destruct (Ad2 _ _ U); lia).
        split.
        { split; [auto|]. split; [auto|]. split; [congruence|]. split; [congruence|].
          eapply same_dom_trans; [exact D1|]. eapply same_dom_trans; eauto. }
        split; [lia|]. split.
        { split.
          - intros z q. rewrite (Dr z q), Ad1. split; [intros [[H|[-> ->]] Ne]; auto|].
            intros [[H Ne]|[-> ->]]; auto.
          - intros z q H _. destruct (Ad2 _ _ H); [|lia].
            pose proof G as (Sz0 & _). pose proof (all_size _ _ _ _ Sz0 H). lia. }
        split.
        { intros z q x [H Ne] X1 X2. rewrite (K3 z q x); [|split; [apply Ad1; auto|auto]|auto|auto].
          rewrite F2; [|destruct (Ad2 _ _ H); lia]. apply (K1 z q x); auto. }
        { intros j Hs Hn. transitivity (byte_at m2 (b1 + 16 + j)).
          - apply byte_eq. destruct (word_range (b1 + 16) (b1 + 16 + j) s1) as [Y1 Y2]; [apply mod8_add; auto|lia|lia|].
            apply (K3 b1 s1); [split; auto|lia|lia].
          - rewrite B2 by auto. apply byte_eq.
            destruct (word_range (b + 16) (b + 16 + j) s) as [Y1 Y2]; [apply mod8_add; auto|lia|lia|].
            apply (K1 b s); auto. }
    + (* grow into the next block *)
      apply orb_false_iff in Cond. destruct Cond as [Hf Hc]. apply negb_false_iff in Hf. apply N.ltb_ge in Hc.
      destruct zR as [|[q f] zR]; [discriminate|]. cbn [hf hs hd fst snd] in Hf, Hc. subst f.
      right. destruct (grow_ok _ _ _ _ _ _ _ _ I) as (t1 & m2 & E1 & E2 & N1 & D2 & I2 & K2 & R2).
      rewrite <- Eb in *. rewrite E1. cbn [bind]. rewrite E2. cbn [bind coal] in *.
      destruct (trim_used_ok _ _ _ _ _ _ _ r I2) as (t3 & P3 & s3 & E3 & Fo & L3 & Rs & K3 & R3);
        [auto|auto|auto|eapply coal_weak; apply Cd|auto|auto|lia|].
      rewrite <- Eb in *. rewrite E3. cbn [bind]. exists t3, P3, b, s3. split; [reflexivity|].
      pose proof (used_out _ _ _ _ _ _ _ I2) as Uo2. rewrite <- Eb in Uo2.
      assert (Oo : forall z w, oth zl za zL [(s + q + 8, false)] zR zr false z w <-> oth zl za zL [(s, false)] ((q, true) :: zR) zr false z w).
      { intros z w. unfold oth. cbn [len trip In].
        replace (za + len zL + (s + 8 + 0) + 8 + q) with (za + len zL + (s + q + 8 + 8 + 0)) by lia.
        split; [tauto|]. intros [H|[H|[[H|H]|H]]]; auto. inv H. }
      cbn [mem nul set_mem] in *. split.
      { destruct Fo as (F1 & F2 & F3 & F4 & F5). split; [auto|]. split; [auto|]. split.
        - rewrite F3, EP. unfold zp, skel. rewrite !map_app. cbn [map fst snd]. do 2 f_equal. f_equal. rewrite !len_app. cbn [len]. lia.
        - cbn [nul mem set_mem] in *. split; [congruence|]. eapply same_dom_trans; eauto. }
      split; [lia|]. split.
      { split; [|auto]. intros z w. rewrite (Rs z w), Uo2, Oo, <- Uo. tauto. }
      split.
      { intros z w x H X1 X2. rewrite (K3 z w x); auto; [|apply Uo2, Oo, Uo; exact H].
        apply (K2 z w x); auto. apply Uo. exact H. }
      { intros j Hs Hn. apply byte_eq. destruct (all_place _ _ _ _ _ _ (proj1 G) (proj1 (proj2 G)) U) as (V1 & _).
        destruct (word_range (b + 16) (b + 16 + j) s) as [Y1 Y2]; [apply mod8_add; auto|lia|lia|].
        destruct (word_range (b + 16) (b + 16 + j) r) as [Y3 Y4]; [apply mod8_add; auto|lia|lia|].
        rewrite R3 by lia. apply R2; lia. }
  - (* the block is large enough *)
    right. cbn [bind].
    destruct (trim_used_ok _ _ _ _ _ _ _ r I) as (t3 & P3 & s3 & E3 & Fo & L3 & Rs & K3 & R3);
      [auto|auto|auto|auto|auto|auto|lia|].
    rewrite <- Eb, <- EP in *. rewrite E3. cbn [bind]. exists t3, P3, b, s3. split; [reflexivity|].
    split; [exact Fo|]. split; [lia|]. split; [split; [exact Rs|auto]|]. split; [exact K3|].
    intros j Hs Hn. apply byte_eq. destruct (all_place _ _ _ _ _ _ (proj1 G) (proj1 (proj2 G)) U) as (V1 & _).
    destruct (word_range (b + 16) (b + 16 + j) r) as [Y3 Y4]; [apply mod8_add; auto|lia|lia|].
    apply R3; lia.
Qed.

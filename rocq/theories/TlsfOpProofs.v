(* malloc, memalign, free and realloc of tlsf.cc on a heap that satisfies the invariant. *)
From Coq Require Import NArith List Bool Lia.
From Verif Require Import Base TlsfModel TlsfMapSpec TlsfMapProofs TlsfListProofs TlsfPhysProofs TlsfProofs.
Import ListNotations.
Open Scope N_scope.

(* every free block is in its list *)
Definition Good (t : tlsf) (P : list pool) : Prop := Core t P (fun z s => In (z, s, true) (all P)).

(* no two free blocks are adjacent *)
Fixpoint coal (pf : bool) (l : list blk) : Prop :=
  match l with [] => True | (_, f) :: l => (pf && f = false) /\ coal f l end.
Definition coals (P : list pool) : Prop := forall a l, In (a, l) P -> coal false l.

Lemma coal_app : forall l pf k, coal pf (l ++ k) <-> coal pf l /\ coal (lastf pf l) k.
Proof. induction l as [|[s f] l IH]; intros pf k; cbn [app coal lastf]; [tauto|]. rewrite IH. tauto. Qed.
Lemma coal_weak : forall pf l, coal pf l -> coal false l.
Proof. intros pf [|[s f] l]; cbn; auto. intros [_ H]. auto. Qed.
Lemma coals_zp : forall zl za zL X zR zr,
  coals (zp zl za zL X zR zr) <-> coals zl /\ coals zr /\ coal false (zL ++ X ++ zR).
Proof.
  intros. unfold coals, zp. split.
  - intro H. split; [|split].
    + intros a l K. apply (H a). apply in_or_app. auto.
    + intros a l K. apply (H a). apply in_or_app. right. right. auto.
    + apply (H za). apply in_or_app. right. left. reflexivity.
  - intros (A & B & C) a l H. apply in_app_or in H. destruct H as [H|[H|H]]; eauto. inv H. auto.
Qed.

Lemma open_block : forall P z s f, In (z, s, f) (all P) ->
  exists zl za zL zR zr, P = zp zl za zL [(s, f)] zR zr /\ z = za + len zL.
Proof.
  intros P z s f H. apply all_in in H. destruct H as (a & l & Hp & Ht).
  apply in_split in Hp. destruct Hp as (zl & zr & ->). apply trip_split in Ht. destruct Ht as (zL & zR & -> & ->).
  exists zl, a, zL, zR, zr. auto.
Qed.
Lemma good_inv_used : forall t zl za zL s zR zr,
  Good t (zp zl za zL [(s, false)] zR zr) <-> Inv t zl za zL [(s, false)] zR zr.
Proof.
  intros. assert (E : forall z s', In (z, s', true) (all (zp zl za zL [(s, false)] zR zr)) <->
                      oth zl za zL [(s, false)] zR zr true z s').
  { intros z s'. rewrite zp_all. cbn [trip In]. split; [intros [H|[H|[]]]; [auto|inv H]|auto]. }
  unfold Good, Inv. split; apply core_ext; intros; [|symmetry]; apply E.
Qed.
Lemma good_inv_nil : forall t zl za zL zR zr, Good t (zp zl za zL [] zR zr) <-> Inv t zl za zL [] zR zr.
Proof.
  intros. assert (E : forall z s', In (z, s', true) (all (zp zl za zL [] zR zr)) <-> oth zl za zL [] zR zr true z s').
  { intros z s'. rewrite zp_all. cbn [trip In]. tauto. }
  unfold Good, Inv. split; apply core_ext; intros; [|symmetry]; apply E.
Qed.

(* ---- rounding up ---- *)
Lemma land_mask : forall v k, v < 2 ^ 64 -> k <= 64 -> N.land v (wnot 64 (2 ^ k - 1)) = 2 ^ k * (v / 2 ^ k).
Proof.
  intros v k V K. replace (2 ^ k - 1) with (N.ones k) by (rewrite N.ones_equiv; lia).
  rewrite N.mul_comm, <- N.shiftr_div_pow2, <- N.shiftl_mul_pow2, <- N.ldiff_ones_r.
  apply N.bits_inj. intro i. rewrite N.land_spec, wnot_spec, N.ldiff_spec.
  destruct (N.ltb_spec i 64) as [L|L]; [reflexivity|].
  assert (T : N.testbit v i = false).
  { destruct (N.eq_dec v 0) as [->|Z]; [apply N.bits_0|]. apply N.bits_above_log2.
    apply N.log2_lt_pow2 in V; lia. }
  rewrite T. reflexivity.
Qed.
Definition up (x k : N) : N := 2 ^ k * ((x + 2 ^ k - 1) / 2 ^ k).
Lemma up_spec : forall x k, x <= up x k /\ up x k < x + 2 ^ k /\ up x k mod 2 ^ k = 0.
Proof.
  intros x k. unfold up. pose proof (pow2_pos k). pose proof (N.div_mod (x + 2 ^ k - 1) (2 ^ k) ltac:(lia)).
  pose proof (N.mod_lt (x + 2 ^ k - 1) (2 ^ k) ltac:(lia)).
  assert ((2 ^ k * ((x + 2 ^ k - 1) / 2 ^ k)) mod 2 ^ k = 0) by (rewrite N.mul_comm; apply N.mod_mul; lia).
  set (q := 2 ^ k * ((x + 2 ^ k - 1) / 2 ^ k)) in *. set (r := (x + 2 ^ k - 1) mod 2 ^ k) in *.
  clearbody q r. set (d := 2 ^ k) in *. clearbody d. split; [|split; [|auto]]; clear - H H0 H1; lia.
Qed.
Lemma up_le : forall x k y, x <= y -> y mod 2 ^ k = 0 -> up x k <= y.
Proof.
  intros x k y L M. unfold up. pose proof (pow2_pos k). pose proof (N.div_mod y (2 ^ k) ltac:(lia)) as E.
  rewrite M in E. assert ((x + 2 ^ k - 1) / 2 ^ k <= y / 2 ^ k).
  { apply N.lt_succ_r. apply N.div_lt_upper_bound; [lia|]. lia. }
  rewrite E. rewrite N.add_0_r. apply N.mul_le_mono_l. auto.
Qed.
Lemma align_up_ok : forall x k, k <= 63 -> x + 2 ^ k <= 2 ^ 64 -> align_up x (2 ^ k) = Ok (up x k).
Proof.
  intros x k K B. unfold align_up. pose proof (pow2_pos k).
  assert (2 ^ k < 2 ^ 64) by (apply N.pow_lt_mono_r; lia).
  rewrite wsub_ge by lia.
  assert (Z : N.land (2 ^ k) (2 ^ k - 1) = 0).
  { replace (2 ^ k - 1) with (N.ones k) by (rewrite N.ones_equiv; lia). rewrite N.land_ones. apply N.mod_same. lia. }
  rewrite Z. cbn [N.eqb contract bind]. rewrite wadd_small by lia. rewrite land_mask by lia.
  unfold up. replace (x + (2 ^ k - 1)) with (x + 2 ^ k - 1) by lia. reflexivity.
Qed.
Lemma adjust_ok : forall x k, k <= 63 -> x <> 0 -> x + 2 ^ k <= 2 ^ 64 ->
  adjust_request_size x (2 ^ k) = Ok (if up x k <? 2 ^ 32 then N.max (up x k) 24 else 0).
Proof.
  intros x k K Z B. unfold adjust_request_size. destruct (N.eqb_spec x 0); [lia|].
  rewrite align_up_ok by auto. reflexivity.
Qed.
Lemma mod_pow_8 : forall x k, 3 <= k -> x mod 2 ^ k = 0 -> x mod 8 = 0.
Proof.
  intros x k K M. pose proof (pow2_pos k). pose proof (N.div_mod x (2 ^ k) ltac:(lia)) as E.
  rewrite M, N.add_0_r in E. rewrite E.
  replace (2 ^ k) with (8 * 2 ^ (k - 3)) by (change 8 with (2 ^ 3); rewrite <- N.pow_add_r; f_equal; lia).
  rewrite <- N.mul_assoc, N.mul_comm. apply N.mod_mul. lia.
Qed.

(* ---- finding a block ---- *)
Lemma locate_ok : forall t P r, Good t P -> r < 2 ^ 32 -> r mod 8 = 0 ->
  (block_locate_free t r = Ok (t, None) /\ (r = 0 \/ forall z s, In (z, s, true) (all P) -> s < r + r / 32)) \/
  (exists t' zl za zL s zR zr, P = zp zl za zL [(s, true)] zR zr /\ r <= s /\ r <> 0 /\
     block_locate_free t r = Ok (t', Some (za + len zL)) /\ nul t' = nul t /\ same_dom (mem t) (mem t') /\
     Inv t' zl za zL [(s, true)] zR zr /\ keeps (used P) (mem t) (mem t')).
Proof.
  intros t P r G R1 R2. unfold block_locate_free. destruct (N.eqb_spec r 0) as [->|Z].
  { left. cbn [bind]. auto. }
  pose proof G as (S & Ge & Ly & Ls & OA). pose proof (locate_find t _ r Ls R1 R2 Z) as F.
  destruct (mapping_search r) as [fl sl] eqn:Ms.
  destruct (if fl <? FL_INDEX_COUNT then search_suitable_block t fl sl else Ok None) as [[[[b fl'] sl']|]| | |] eqn:Es;
    try contradiction.
  - right. destruct F as (s & Hb & L & Mi). cbv beta in Hb.
    destruct (open_block _ _ _ _ Hb) as (zl & za & zL & zR & zr & -> & ->).
    assert (I : Inv t zl za zL [] ((s, true) :: zR) zr) by (apply good_inv_nil; exact G).
    destruct (remove_right _ _ _ _ _ _ _ _ I) as (t' & E1 & N & D & I' & E2 & K).
    exists t', zl, za, zL, s, zR, zr. split; [reflexivity|]. split; [auto|]. split; [auto|].
    cbn [len app] in *. rewrite N.add_0_r in *. split; [|auto].
    cbn [bind]. destruct (all_place _ _ _ _ _ _ S Ge Hb) as (_ & Z1 & _).
    destruct (N.eqb_spec (za + len zL) 0); [congruence|].
    rewrite (layout_size _ _ _ _ _ S Ly Hb). cbn [bind]. destruct (N.leb_spec r s); [|lia]. cbn [contract bind].
    rewrite Mi in E2. cbn [fst snd] in E2. rewrite E2. reflexivity.
  - left. cbn [bind]. split; [reflexivity|]. right. intros z s H. specialize (F z s H). cbv beta in F.
    assert (R3 : r < 2 ^ 33) by lia. rewrite <- Ms in F. rewrite mapping_search_eq in F by auto.
    destruct (rounded_bounds r R3). destruct (N.lt_ge_cases s (rounded r)) as [L|L]; [lia|].
    exfalso. apply F. apply mapping_mono. auto.
Qed.

(* ---- handing a block out ---- *)
Lemma cut_len : forall s n zR, 32 + n <= s \/ s < 32 + n ->
  fst (cut_to s n zR) + 8 + len (snd (cut_to s n zR)) = s + 8 + len zR.
Proof. intros s n zR _. unfold cut_to. destruct (N.leb_spec (32 + n) s); cbn [fst snd len]; lia. Qed.

(* the used blocks of P' are those of P and one more, at address b, of s bytes *)
Definition adds (P P' : list pool) (b s : N) : Prop :=
  (forall z s', used P' z s' <-> used P z s' \/ (z = b /\ s' = s)) /\
  (forall z s', used P z s' -> z + 8 + s' <= b \/ b + 8 + s <= z).
(* the state t' with pools P' follows t with P *)
Definition follows (t : tlsf) (P : list pool) (t' : tlsf) (P' : list pool) : Prop :=
  Good t' P' /\ coals P' /\ skel P' = skel P /\ nul t' = nul t /\ same_dom (mem t) (mem t').

Lemma prepare_ok : forall t zl za zL s zR zr n, Inv t zl za zL [(s, true)] zR zr ->
  coals (zp zl za zL [(s, true)] zR zr) \/
    (coals zl /\ coals zr /\ coal false zL /\ coal true zR) ->
  n mod 8 = 0 -> 24 <= n -> n <= s ->
  exists t' P' s', block_prepare_used t (Some (za + len zL)) n = Ok (t', Some (za + len zL + 16)) /\
    follows t (zp zl za zL [(s, true)] zR zr) t' P' /\ (n <= s' /\ s' < n + 32) /\
    adds (zp zl za zL [(s, true)] zR zr) P' (za + len zL) s' /\
    keeps (used (zp zl za zL [(s, true)] zR zr)) (mem t) (mem t').
Proof.
  intros t zl za zL s zR zr n I C N1 N2 N3.
  assert (C' : coals zl /\ coals zr /\ coal false zL /\ coal true zR).
  { destruct C as [C|C]; auto. apply coals_zp in C. destruct C as (A & B & C). rewrite coal_app in C.
    cbn [app coal] in C. tauto. }
  clear C. destruct C' as (Ca & Cb & Cc & Cd).
  unfold block_prepare_used. destruct (N.eqb_spec n 0); [lia|]. cbn [negb contract bind].
  destruct (trim_free_ok _ _ _ _ _ _ _ n I N1 N2 N3) as (t1 & E1 & Nu1 & D1 & I1 & K1).
  set (s' := fst (cut_to s n zR)) in *. set (zR' := snd (cut_to s n zR)) in *.
  rewrite E1. cbn [bind]. destruct (mark_used_ok _ _ _ _ _ _ _ I1) as (m2 & E2 & D2 & I2 & K2).
  rewrite E2. cbn [bind].
  pose proof (cut_len s n zR ltac:(lia)) as CL. fold s' in CL. fold zR' in CL.
  assert (Oz : forall z q, oth zl za zL [(s', true)] zR' zr false z q <-> oth zl za zL [(s, true)] zR zr false z q).
  { intros z q. unfold s', zR', cut_to. destruct (N.leb_spec (32 + n) s) as [Lq|Lq]; [|reflexivity]. unfold oth. cbn [fst snd len trip In].
    replace (za + len zL + (n + 8 + 0) + 8 + (s - n - 8)) with (za + len zL + (s + 8 + 0)) by lia.
    split; [intros [H|[H|[[H|H]|H]]]; auto; inv H|tauto]. }
  assert (Uo : forall z q, used (zp zl za zL [(s, true)] zR zr) z q <-> oth zl za zL [(s, true)] zR zr false z q).
  { intros z q. unfold used. rewrite zp_all. cbn [trip In]. split; [intros [H|[H|[]]]; [auto|inv H]|auto]. }
  assert (Uk : forall z q, used (zp zl za zL [(s, true)] zR zr) z q -> oth zl za zL [(s', true)] zR' zr false z q).
  { intros z q U. apply Oz, Uo, U. }
  exists (set_mem t1 m2), (zp zl za zL [(s', false)] zR' zr), s'.
  split; [reflexivity|]. split; [|split; [|split]].
  - split; [apply good_inv_used; auto|]. split.
    { apply coals_zp. split; [auto|]. split; [auto|]. apply coal_app. split; [auto|]. cbn [app coal].
      split; [apply andb_false_r|]. unfold zR', cut_to. destruct (N.leb_spec (32 + n) s); cbn [snd].
      - cbn [coal]. split; auto.
      - eapply coal_weak; eauto. }
    split.
    { unfold zp, skel. rewrite !map_app. cbn [map fst snd]. rewrite !len_app. cbn [len].
      do 2 f_equal. f_equal. lia. }
    split; [exact Nu1|]. cbn [mem set_mem]. eapply same_dom_trans; eauto.
  - unfold s', cut_to. destruct (N.leb_spec (32 + n) s); cbn [fst]; lia.
  - split.
    + intros z q. rewrite Uo, <- Oz. unfold used. rewrite zp_all. cbn [trip In]. unfold oth. cbn [len].
      split; [intros [H|[H|[]]]; [auto|inv H; auto]|].
      intros [H|[-> ->]]; auto.
    + intros z q U. apply Uk in U. pose proof I1 as (S1 & G1 & _).
      pose proof (oth_clear _ _ _ _ _ _ _ _ _ _ _ S1 G1 U) as Cl. cbn [len] in Cl. lia.
  - cbn [mem set_mem]. eapply keeps_trans; [eapply keeps_ext; [|exact K1]|eapply keeps_ext; [|exact K2]].
    + intros z q U. apply Uo, U.
    + exact Uk.
Qed.

Lemma follows_refl : forall t P, Good t P -> coals P -> follows t P t P.
Proof. intros. split; auto. split; auto. split; auto. split; auto. apply same_dom_refl. Qed.
Lemma follows_from : forall t P t1 P1 t2 P2, skel P1 = skel P -> nul t1 = nul t -> same_dom (mem t) (mem t1) ->
  follows t1 P1 t2 P2 -> follows t P t2 P2.
Proof.
  intros t P t1 P1 t2 P2 Sk Nu D (A & B & C & E & F). split; [auto|]. split; [auto|]. split; [congruence|].
  split; [congruence|]. eapply same_dom_trans; eauto.
Qed.

Lemma malloc_ok : forall t P n, Good t P -> coals P -> n + 8 <= 2 ^ 64 ->
  (tlsf_malloc t n = Ok (t, None) /\
     (n = 0 \/ 2 ^ 32 <= n + 7 \/
      forall z s, In (z, s, true) (all P) -> s < N.max (n + 7) 24 + N.max (n + 7) 24 / 32)) \/
  (exists t' P' b s, tlsf_malloc t n = Ok (t', Some (b + 16)) /\ follows t P t' P' /\ (n <= s /\ s < N.max (n + 7) 24 + 32) /\ n <> 0 /\
     adds P P' b s /\ keeps (used P) (mem t) (mem t')).
Proof.
  intros t P n G C B. unfold tlsf_malloc, ALIGN_SIZE. destruct (N.eq_dec n 0) as [->|Z].
  { left. split; [|auto]. unfold adjust_request_size. cbn [N.eqb bind].
    destruct (locate_ok t P 0 G ltac:(lia) eq_refl) as [[E _]|(t' & zl & za & zL & s & zR & zr & _ & _ & H & _)]; [|lia].
    rewrite E. reflexivity. }
  rewrite (adjust_ok n 3 ltac:(lia) Z B : adjust_request_size n 8 = _). cbn [bind].
  destruct (up_spec n 3) as (U1 & U2 & U3). change (2 ^ 3) with 8 in *.
  destruct (N.ltb_spec (up n 3) (2 ^ 32)) as [L|L].
  2: { left. destruct (locate_ok t P 0 G ltac:(lia) eq_refl) as [[E _]|(t' & zl & za & zL & s & zR & zr & _ & _ & H & _)]; [|lia].
       rewrite E. split; [reflexivity|]. right. left. lia. }
  cbv iota. set (r := N.max (up n 3) 24).
  assert (R8 : r mod 8 = 0) by (unfold r; destruct (N.max_spec (up n 3) 24) as [[_ ->]|[_ ->]]; auto).
  destruct (locate_ok t P r G ltac:(unfold r; lia) R8) as [[E F]|(t1 & zl & za & zL & s & zR & zr & -> & R1 & R2 & E & Nu & D & I & K)].
  - left. rewrite E. split; [reflexivity|]. right. right. intros z s H. destruct F as [F|F]; [lia|].
    specialize (F z s H). assert (r <= N.max (n + 7) 24) by lia.
    assert (r / 32 <= N.max (n + 7) 24 / 32) by (apply N.div_le_mono; lia). lia.
  - right. rewrite E. cbn [bind].
    destruct (prepare_ok t1 zl za zL s zR zr r I (or_introl C) R8 ltac:(lia) R1) as (t' & P' & s' & E' & Fo & Ls & Ad & Kp).
    exists t', P', (za + len zL), s'. split; [exact E'|]. split; [eapply follows_from; eauto|].
    split; [lia|]. split; [auto|]. split; [auto|]. eapply keeps_trans; eauto.
Qed.

(* ---- free ---- *)
Definition drops (P P' : list pool) (b : N) : Prop :=
  forall z s, used P' z s <-> used P z s /\ z <> b.

Lemma free_ok : forall t P b s, Good t P -> coals P -> used P b s ->
  exists t' P', tlsf_free t (b + 16) = Ok t' /\ follows t P t' P' /\ drops P P' b /\
    keeps (fun z q => used P z q /\ z <> b) (mem t) (mem t').
Proof.
  intros t P b s G C U. destruct (open_block _ _ _ _ U) as (zl & za & zL & zR & zr & -> & ->).
  apply good_inv_used in G. rename G into I. unfold tlsf_free, block_from_ptr, block_start_offset.
  replace (za + len zL + 16 - 16) with (za + len zL) by lia.
  destruct (inv_word _ _ _ _ _ _ _ _ I) as (W & M4 & M8 & S1 & S2).
  rewrite (p_free _ _ _ _ _ W M4). cbn [bind negb contract].
  destruct (mark_free_ok _ _ _ _ _ _ _ I) as (m1 & E1 & D1 & I1 & K1). rewrite E1. cbn [bind].
  destruct (merge_prev_ok _ _ _ _ _ _ _ I1) as (t2 & zL' & s2 & E2 & Sh & Nu2 & D2 & I2 & K2). rewrite E2. cbn [bind].
  destruct (merge_next_ok _ _ _ _ _ _ _ I2) as (t3 & E3 & Nu3 & D3 & I3 & K3). rewrite E3. cbn [bind].
  set (s3 := match zR with (q, true) :: _ => s2 + q + 8 | _ => s2 end) in *.
  set (zR3 := match zR with (_, true) :: k => k | _ => zR end) in *.
  change [(s3, true)] with ([] ++ [(s3, true)]) in I3.
  destruct (insert_right _ _ _ _ _ _ _ _ I3) as (t4 & E4 & Nu4 & D4 & I4 & K4).
  cbn [len] in E4. rewrite N.add_0_r in E4. rewrite E4. cbn [mem nul set_mem] in *.
  (* the blocks in use outside of the focus are always the same *)
  assert (O1 : forall z q, oth zl za zL' [(s2, true)] zR zr false z q <-> oth zl za zL [(s, false)] zR zr false z q).
  { intros z q. destruct Sh as [(_ & -> & ->)|(sp & -> & ->)]; [reflexivity|].
    unfold oth. rewrite trip_app, len_app, in_app_iff. cbn [len trip In].
    replace (za + (len zL' + (sp + 8 + 0)) + (s + 8 + 0)) with (za + len zL' + (sp + s + 8 + 8 + 0)) by lia.
    split; [tauto|]. intros [H|[[H|[H|[]]]|H]]; auto. inv H. }
  assert (O2 : forall z q, oth zl za zL' [] ((s3, true) :: zR3) zr false z q <-> oth zl za zL' [(s2, true)] zR zr false z q).
  { intros z q. unfold oth. cbn [len trip In]. unfold s3, zR3. destruct zR as [|[sq [|]] zR]; cbn [trip In].
    - replace (za + len zL' + 0) with (za + len zL') by lia.
      split; [intros [H|[H|[[H|H]|H]]]; auto; inv H; tauto|tauto].
    - replace (za + len zL' + 0 + 8 + (s2 + sq + 8)) with (za + len zL' + (s2 + 8 + 0) + 8 + sq) by lia.
      split; [intros [H|[H|[[H|H]|H]]]; auto; inv H|intros [H|[H|[[H|H]|H]]]; auto; inv H].
    - replace (za + len zL' + 0 + 8 + s2) with (za + len zL' + (s2 + 8 + 0)) by lia.
      split; [intros [H|[H|[[H|H]|H]]]; auto; inv H|tauto]. }
  assert (Uo : forall z q, (used (zp zl za zL [(s, false)] zR zr) z q /\ z <> za + len zL) <-> oth zl za zL [(s, false)] zR zr false z q).
  { intros z q. unfold used. rewrite zp_all. cbn [trip In]. split.
    - intros [[H|[H|[]]] Ne]; auto. inv H. congruence.
    - intro H. split; auto. pose proof I as (Sz & Ge & _). pose proof (oth_clear _ _ _ _ _ _ _ _ _ _ _ Sz Ge H) as Cl.
      cbn [len] in Cl. lia. }
  exists t4, (zp zl za zL' [] ((s3, true) :: zR3) zr). split; [reflexivity|]. split; [|split].
  - split; [apply good_inv_nil; auto|]. split.
    { apply coals_zp in C. destruct C as (Ca & Cb & Cc). apply coals_zp. split; [auto|]. split; [auto|].
      rewrite coal_app in Cc. cbn [app coal] in Cc. destruct Cc as (Cc & _ & Cd).
      rewrite coal_app. cbn [app coal].
      assert (CL : coal false zL' /\ lastf false zL' = false).
      { destruct Sh as [(Lf & -> & ->)|(sp & -> & ->)]; [auto|].
        rewrite coal_app in Cc. cbn [coal] in Cc. destruct Cc as (Q1 & Q2 & _). rewrite andb_true_r in Q2. auto. }
      destruct CL as [CL1 CL2]. rewrite CL2. split; [auto|]. split; [reflexivity|].
      unfold zR3. destruct zR as [|[sq [|]] zR]; cbn [coal] in *; [auto| |].
      - tauto.
      - split; [reflexivity|]. tauto. }
    split.
    { unfold zp, skel. rewrite !map_app. cbn [map fst snd]. do 2 f_equal. f_equal.
      cbn [app]. rewrite !len_app. cbn [len].
      assert (H1 : len zL' + s2 = len zL + s).
      { destruct Sh as [(_ & -> & ->)|(sp & -> & ->)]; [lia|]. rewrite len_app. cbn [len]. lia. }
      unfold s3, zR3. destruct zR as [|[sq [|]] zR]; cbn [len]; lia. }
    split; [congruence|]. eapply same_dom_trans; [exact D1|]. eapply same_dom_trans; [exact D2|].
    eapply same_dom_trans; eauto.
  - intros z q. rewrite Uo, <- O1, <- O2. unfold used. rewrite zp_all. cbn [trip In]. tauto.
  - eapply keeps_trans; [|eapply keeps_trans; [|eapply keeps_trans]].
    + eapply keeps_ext; [|exact K1]. intros z q H. apply Uo, H.
    + eapply keeps_ext; [|exact K2]. intros z q H. apply Uo in H. exact H.
    + eapply keeps_ext; [|exact K3]. intros z q H. apply Uo in H. apply O1, H.
    + eapply keeps_ext; [|exact K4]. intros z q H. apply Uo in H. apply used_oth. apply O2, O1, H.
Qed.

(* ---- memalign ---- *)
Lemma up_id : forall x k, x mod 2 ^ k = 0 -> up x k = x.
Proof. intros x k M. apply N.le_antisymm; [apply up_le; auto; lia|apply (up_spec x k)]. Qed.
Lemma mod_pow_le : forall x k j, k <= j -> x mod 2 ^ j = 0 -> x mod 2 ^ k = 0.
Proof.
  intros x k j K M. pose proof (pow2_pos j). pose proof (pow2_pos k). pose proof (N.div_mod x (2 ^ j) ltac:(lia)) as E.
  rewrite M, N.add_0_r in E. rewrite E.
  replace (2 ^ j) with (2 ^ (j - k) * 2 ^ k) by (rewrite <- N.pow_add_r; f_equal; lia).
  replace (2 ^ (j - k) * 2 ^ k * (x / (2 ^ (j - k) * 2 ^ k))) with ((2 ^ (j - k) * (x / (2 ^ (j - k) * 2 ^ k))) * 2 ^ k) by lia.
  apply N.mod_mul. lia.
Qed.
Lemma add_pow_mod : forall x k, x mod 2 ^ k = 0 -> (x + 2 ^ k) mod 2 ^ k = 0.
Proof.
  intros x k M. pose proof (pow2_pos k). replace (x + 2 ^ k) with (x + 1 * 2 ^ k) by lia.
  rewrite N.mod_add by lia. auto.
Qed.

(* the gap in front of the block that memalign hands out *)
Definition memalign_gap (ptr align : N) : outcome N :=
  let! aligned := align_up ptr align in
  let gap := wsub 64 aligned ptr in
  if negb (gap =? 0) && (gap <? 32) then
    let offset := N.max (32 - gap) align in
    let! aligned := align_up (wadd 64 aligned offset) align in
    Ok (wsub 64 aligned ptr)
  else Ok gap.

Lemma gap_ok : forall ptr k r s, ptr mod 8 = 0 -> ptr < 2 ^ 63 -> k <= 32 -> 24 <= r ->
  (k <= 3 \/ r + 2 ^ k + 32 <= s) ->
  exists g, memalign_gap ptr (2 ^ k) = Ok g /\ (ptr + g) mod 2 ^ k = 0 /\ g mod 8 = 0 /\
    (g = 0 \/ (32 <= g /\ g + 32 <= s /\ r <= s - g)).
Proof.
  intros ptr k r s P8 PB K R S. unfold memalign_gap.
  assert (KB : 2 ^ k <= 2 ^ 32) by (apply N.pow_le_mono_r; lia). pose proof (pow2_pos k) as KP.
  rewrite (align_up_ok ptr k) by lia. cbn [bind].
  destruct (up_spec ptr k) as (U1 & U2 & U3). set (p0 := up ptr k) in *.
  rewrite wsub_ge by lia.
  destruct (N.le_gt_cases k 3) as [K3|K3].
  { assert (E : p0 = ptr) by (apply up_id; apply (mod_pow_le _ k 3); auto).
    rewrite E, N.sub_diag. cbn [N.eqb negb andb]. exists 0. split; [reflexivity|].
    rewrite N.add_0_r. rewrite E in U3. split; [auto|]. split; [reflexivity|auto]. }
  assert (P0 : p0 mod 8 = 0) by (apply (mod_pow_8 p0 k); auto; lia).
  assert (G8 : (p0 - ptr) mod 8 = 0) by (apply mod8_sub; auto).
  assert (S' : r + 2 ^ k + 32 <= s) by (destruct S; [lia|auto]). clear S.
  set (gap := p0 - ptr) in *. assert (Eg : ptr + gap = p0) by (unfold gap; lia).
  destruct (N.eqb_spec gap 0) as [Z|Z]; cbn [negb andb].
  { exists 0. split; [rewrite Z; reflexivity|]. rewrite N.add_0_r. rewrite Z, N.add_0_r in Eg. rewrite Eg. auto. }
  destruct (N.ltb_spec gap 32) as [L|L].
  2: { exists gap. split; [reflexivity|]. rewrite Eg. split; [auto|]. split; [auto|]. right. lia. }
  assert (G24 : gap <= 24).
  { pose proof (N.div_mod gap 8 ltac:(lia)) as E. rewrite G8 in E. assert (gap / 8 < 4) by (apply N.div_lt_upper_bound; lia). lia. }
  destruct (N.max_spec (32 - gap) (2 ^ k)) as [[M1 ->]|[M1 ->]].
  - rewrite wadd_small by lia. rewrite align_up_ok by lia. cbn [bind].
    rewrite (up_id (p0 + 2 ^ k) k) by (apply add_pow_mod; auto). rewrite wsub_ge by lia.
    exists (p0 + 2 ^ k - ptr). split; [reflexivity|].
    replace (ptr + (p0 + 2 ^ k - ptr)) with (p0 + 2 ^ k) by lia. split; [apply add_pow_mod; auto|].
    split; [|right; lia]. replace (p0 + 2 ^ k - ptr) with (gap + 2 ^ k) by lia. apply mod8_add; auto.
    apply (mod_pow_8 _ k); [lia|]. apply N.mod_same. lia.
  - assert (Ek : k = 4).
    { destruct (N.le_gt_cases k 4); [lia|]. assert (2 ^ 5 <= 2 ^ k) by (apply N.pow_le_mono_r; lia).
      change (2 ^ 5) with 32 in *. lia. }
    subst k. change (2 ^ 4) with 16 in *.
    assert (Eg8 : gap = 8).
    { pose proof (N.div_mod gap 8 ltac:(lia)) as E. rewrite G8 in E. assert (gap / 8 < 2) by (apply N.div_lt_upper_bound; lia). lia. }
    rewrite wadd_small by lia. 
    rewrite (align_up_ok (p0 + (32 - gap)) 4 ltac:(lia) ltac:(change (2 ^ 4) with 16; lia) : align_up _ 16 = _). cbn [bind].
    destruct (up_spec (p0 + (32 - gap)) 4) as (V1 & V2 & V3).
    assert (V4 : up (p0 + (32 - gap)) 4 <= p0 + 32).
    { apply up_le; [lia|]. change (2 ^ 4) with 16. rewrite N.add_mod, U3 by lia. reflexivity. }
    change (2 ^ 4) with 16 in *. set (p1 := up (p0 + (32 - gap)) 4) in *. rewrite wsub_ge by lia.
    exists (p1 - ptr). split; [reflexivity|]. replace (ptr + (p1 - ptr)) with p1 by lia. split; [auto|].
    split; [|right; lia]. apply mod8_sub; auto; [|lia]. apply (mod_pow_8 p1 4); [lia|auto].
Qed.

Lemma memalign_unfold : forall t align size, tlsf_memalign t align size =
  (let! adjust := adjust_request_size size ALIGN_SIZE in
   let! swg := adjust_request_size (wadd 64 (wadd 64 adjust align) 32) align in
   let! (t, b) := block_locate_free t (if negb (adjust =? 0) && (ALIGN_SIZE <? align) then swg else adjust) in
   let! (t, b) :=
     match b with
     | None => Ok (t, None)
     | Some b =>
       let! gap := memalign_gap (block_to_ptr b) align in
       if negb (gap =? 0) then
         let! _ := contract (32 <=? gap) in
         let! (t, b) := block_trim_free_leading t b gap in Ok (t, Some b)
       else Ok (t, Some b)
     end in
   block_prepare_used t b adjust).
Proof.
  intros. unfold tlsf_memalign, memalign_gap, block_header_size.
  destruct (adjust_request_size size ALIGN_SIZE); try reflexivity. cbn [bind].
  destruct (adjust_request_size (wadd 64 (wadd 64 a align) 32) align); try reflexivity. cbn [bind].
  destruct (block_locate_free t _) as [[t1 [b|]]| | |]; cbn [bind]; [|reflexivity|reflexivity|reflexivity|reflexivity].
  destruct (align_up (block_to_ptr b) align) as [x| | |]; cbn [bind]; [|reflexivity|reflexivity|reflexivity].
  destruct (negb (wsub 64 x (block_to_ptr b) =? 0) && (wsub 64 x (block_to_ptr b) <? 32)); [|reflexivity].
  destruct (align_up (wadd 64 x (N.max (32 - wsub 64 x (block_to_ptr b)) align)) align); reflexivity.
Qed.

Lemma memalign_ok : forall t P k n, Good t P -> coals P -> n + 8 <= 2 ^ 64 -> k <= 62 ->
  let need := N.max (n + 7) 24 + 2 * 2 ^ k + 32 in
  (tlsf_memalign t (2 ^ k) n = Ok (t, None) /\
     (n = 0 \/ 2 ^ 32 <= need \/ forall z s, In (z, s, true) (all P) -> s < need + need / 32)) \/
  (exists t' P' b s, tlsf_memalign t (2 ^ k) n = Ok (t', Some (b + 16)) /\ follows t P t' P' /\ (n <= s /\ s < N.max (n + 7) 24 + 32) /\ n <> 0 /\
     (b + 16) mod 2 ^ k = 0 /\ adds P P' b s /\ keeps (used P) (mem t) (mem t')).
Proof.
  intros t P k n G C B K need. rewrite memalign_unfold. unfold ALIGN_SIZE.
  assert (KB : 2 ^ k <= 2 ^ 62) by (apply N.pow_le_mono_r; lia). pose proof (pow2_pos k) as KP.
  (* the two sizes *)
  assert (A1 : exists r, adjust_request_size n 8 = Ok r /\ (r = 0 \/ (24 <= r /\ n <= r)) /\ r < 2 ^ 32 /\ r mod 8 = 0 /\
                 r <= N.max (n + 7) 24 /\ (r = 0 -> n = 0 \/ 2 ^ 32 <= n + 7) /\ (r <> 0 -> n <> 0)).
  { destruct (N.eq_dec n 0) as [->|Z]; [exists 0; unfold adjust_request_size; cbn; split; [reflexivity|]; lia|].
    rewrite (adjust_ok n 3 ltac:(lia) Z B : adjust_request_size n 8 = _).
    destruct (up_spec n 3) as (U1 & U2 & U3). change (2 ^ 3) with 8 in *.
    destruct (N.ltb_spec (up n 3) (2 ^ 32)) as [L|L].
    - exists (N.max (up n 3) 24). split; [reflexivity|]. split; [lia|]. split; [lia|]. split.
      { destruct (N.max_spec (up n 3) 24) as [[_ ->]|[_ ->]]; auto. } lia.
    - exists 0. split; [reflexivity|]. split; [lia|]. split; [lia|]. split; [reflexivity|]. lia. }
  destruct A1 as (r & E1 & R1 & R2 & R3 & R4 & R5 & R6). rewrite E1. cbn [bind].
  rewrite (wadd_small 64 r) by lia. rewrite wadd_small by lia.
  assert (A2 : exists q, adjust_request_size (r + 2 ^ k + 32) (2 ^ k) = Ok q /\
                 (q = 0 \/ (r + 2 ^ k + 32 <= q /\ (3 < k -> q mod 8 = 0))) /\ q < 2 ^ 32 /\ q <= need /\ (q = 0 -> 2 ^ 32 <= need)).
  { rewrite adjust_ok by lia. destruct (up_spec (r + 2 ^ k + 32) k) as (U1 & U2 & U3).
    set (u := up (r + 2 ^ k + 32) k) in *. destruct (N.ltb_spec u (2 ^ 32)) as [L|L].
    - exists (N.max u 24). split; [reflexivity|]. split; [right; split; [lia|]|split; [lia|]; split; unfold need; lia].
      intro K3. replace (N.max u 24) with u by lia. apply (mod_pow_8 u k); auto. lia.
    - exists 0. split; [reflexivity|]. split; [auto|]. split; [lia|]. split; unfold need; lia. }
  destruct A2 as (q & E2 & Q1 & Q2 & Q3 & Q4). rewrite E2. cbn [bind].
  assert (K3' : 8 <? 2 ^ k = (3 <? k)).
  { apply eq_true_iff_eq. rewrite !N.ltb_lt. change 8 with (2 ^ 3). split; intro H.
    - apply (N.pow_lt_mono_r_iff 2); auto. lia.
    - apply N.pow_lt_mono_r; auto. lia. }
  rewrite K3'. set (z := if negb (r =? 0) && (3 <? k) then q else r).
  assert (Zs : z < 2 ^ 32 /\ z mod 8 = 0 /\ z <= need /\ (z = 0 -> n = 0 \/ 2 ^ 32 <= need) /\
               (z <> 0 -> r <> 0 /\ r <= z /\ (k <= 3 \/ r + 2 ^ k + 32 <= z))).
  { unfold z. destruct (N.eqb_spec r 0) as [Zr|Zr]; cbn [negb andb].
    - rewrite Zr in *. split; [lia|]. split; [auto|]. split; [lia|]. split; [|lia]. intros _. unfold need. destruct (R5 eq_refl); lia.
    - destruct (N.ltb_spec 3 k) as [K3|K3].
      + split; [lia|]. split; [destruct Q1 as [->|[_ Q1]]; auto|]. split; [lia|]. split; [|lia]. auto.
      + split; [lia|]. split; [auto|]. split; [unfold need; lia|]. split; [|lia]. lia. }
  clearbody z. destruct Zs as (Z1 & Z2 & Z3 & Z4 & Z5).
  destruct (locate_ok t P z G Z1 Z2) as [[E F]|(t1 & zl & za & zL & s & zR & zr & -> & L1 & L2 & E & Nu & D & I & Kp)].
  { left. rewrite E. cbn [bind]. split; [reflexivity|]. destruct F as [F|F]; [destruct (Z4 F); auto|].
    right. right. intros y s H. specialize (F y s H). assert (z / 32 <= need / 32) by (apply N.div_le_mono; lia). lia. }
  right. rewrite E. cbn [bind]. destruct (Z5 L2) as (Y1 & Y2 & Y3).
  destruct (inv_focus _ _ _ _ _ _ _ I) as (A1 & A2 & A3 & A3b & _ & _ & _ & Sz & _). cbn [len] in A3.
  destruct (Sz s true (or_introl eq_refl)) as (S1 & S2 & S3). set (a := za + len zL) in *.
  assert (Y4 : k <= 32).
  { destruct Y3 as [Y3|Y3]; [lia|]. destruct (N.le_gt_cases k 32); auto.
    assert (2 ^ 32 <= 2 ^ k) by (apply N.pow_le_mono_r; lia). lia. }
  unfold block_to_ptr, block_start_offset.
  destruct (gap_ok (a + 16) k r s) as (g & Eg & G1 & G2 & G3); [apply mod8_add; auto|lia|auto|lia|destruct Y3; [auto|right; lia]|].
  rewrite Eg. cbn [bind]. destruct (N.eqb_spec g 0) as [Zg|Zg]; cbn [negb].
  - destruct (prepare_ok t1 zl za zL s zR zr r I (or_introl C) R3 ltac:(lia) ltac:(lia)) as (t' & P' & s' & E' & Fo & Ls & Ad & Kp').
    cbn [bind]. exists t', P', a, s'. split; [exact E'|]. split; [eapply follows_from; eauto|].
    split; [lia|]. split; [auto|]. split; [rewrite Zg, N.add_0_r in G1; exact G1|]. split; [auto|]. eapply keeps_trans; eauto.
  - destruct G3 as [G3|G3]; [congruence|]. destruct (N.leb_spec 32 g); [|lia]. cbn [contract bind].
    destruct (trim_leading_ok _ _ _ _ _ _ _ g I G2) as (t2 & E2' & Nu2 & D2 & I2 & K2); [lia|lia|].
    fold a in E2'. rewrite E2'. cbn [bind].
    apply coals_zp in C. destruct C as (Ca & Cb & Cc). rewrite coal_app in Cc. cbn [app coal] in Cc.
    destruct Cc as (Cc & Cd & Ce).
    assert (El : za + len (zL ++ [(g - 8, true)]) = a + g) by (rewrite len_app; cbn [len]; unfold a; lia).
    destruct (prepare_ok t2 zl za (zL ++ [(g - 8, true)]) (s - g) zR zr r I2) as (t' & P' & s' & E' & Fo & Ls & Ad & Kp'); [|auto|lia|lia|].
    { right. split; [auto|]. split; [auto|]. split; [|auto]. apply coal_app. split; [auto|]. cbn [coal]. auto. }
    rewrite El in *. exists t', P', (a + g), s'. split; [exact E'|].
    assert (Ue : forall z0 q0, used (zp zl za (zL ++ [(g - 8, true)]) [(s - g, true)] zR zr) z0 q0 <->
                               used (zp zl za zL [(s, true)] zR zr) z0 q0).
    { intros z0 q0. unfold used. rewrite !zp_all. rewrite oth_used_left. unfold oth. cbn [len trip In].
      replace (za + len zL + (g - 8 + 8 + (s - g + 8 + 0))) with (za + len zL + (s + 8 + 0)) by lia.
      split; (intros [H'|[H'|[]]]; [auto|inv H']). }
    split.
    { apply (follows_from t _ t2 (zp zl za (zL ++ [(g - 8, true)]) [(s - g, true)] zR zr)); auto; [|congruence|eapply same_dom_trans; eauto].
      unfold zp, skel. rewrite !map_app. cbn [map fst snd]. do 2 f_equal. f_equal. rewrite !len_app. cbn [len]. lia. }
    split; [lia|]. split; [auto|]. split; [replace (a + g + 16) with (a + 16 + g) by lia; auto|]. split.
    + destruct Ad as [Ad1 Ad2]. split.
      * intros z0 q0. rewrite Ad1, Ue. tauto.
      * intros z0 q0 H'. apply Ad2. apply Ue. auto.
    + eapply keeps_trans; [exact Kp|]. eapply keeps_trans; [eapply keeps_ext; [|exact K2]|eapply keeps_ext; [|exact Kp']].
      * intros z0 q0 H'. unfold used in H'. apply zp_all in H'. cbn [trip In] in H'. destruct H' as [H'|[H'|[]]]; [auto|inv H'].
      * intros z0 q0 H'. apply Ue. auto.
Qed.

(* ---- writing into a block in use ---- *)
Lemma write_ok : forall t P b s x v, Good t P -> used P b s -> b + 16 <= x -> x < b + 16 + s -> mem t x <> None ->
  Good (set_mem t (upd (mem t) x v)) P.
Proof.
  intros t P b s x v G U X1 X2 D. destruct (open_block _ _ _ _ U) as (zl & za & zL & zR & zr & -> & ->).
  apply good_inv_used in G. apply good_inv_used.
  destruct (inv_focus _ _ _ _ _ _ _ G) as (A1 & A2 & A3 & A3b & Sg & Hd & Hm & Sz & Dm). set (a := za + len zL) in *.
  apply (replace_ok t (upd (mem t) x v) zl za zL [(s, false)] [(s, false)] zR zr G); auto.
  - apply same_dom_upd. auto.
  - fold a. cbn [len]. intros y Y. rewrite upd_other; auto. lia.
  - fold a. cbn [seg] in *. destruct Sg as (W & _ & _). split; [rewrite upd_other; auto; lia|]. split; [discriminate|exact Logic.I].
  - fold a. cbn [len] in *. rewrite upd_other by lia. exact Hd.
Qed.

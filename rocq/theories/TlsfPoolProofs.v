(* Creating the allocator, adding and removing pools, and the checkers of tlsf.cc. *)
From Coq Require Import NArith Arith List Bool Lia.
From Verif Require Import Base TlsfModel TlsfMapSpec TlsfMapProofs TlsfListProofs TlsfPhysProofs TlsfProofs TlsfOpProofs TlsfRealProofs.
Import ListNotations.
Open Scope N_scope.

Lemma create_ok : forall m addr, addr <> 0 -> m (addr + 16) <> None -> m (addr + 24) <> None ->
  exists t, tlsf_create m addr = Ok t /\ nul t = addr /\ same_dom m (mem t) /\ Good t [] /\ coals [] /\
    (forall x, x < addr \/ addr + 32 <= x -> mem t x = m x).
Proof.
  intros m addr Z D1 D2. unfold tlsf_create, f_next_free, f_prev_free. rewrite wr_some by auto. cbn [bind].
  set (m1 := upd m (addr + 16) addr).
  assert (D2' : m1 (addr + 24) <> None) by (unfold m1; rewrite upd_other; auto; lia).
  rewrite wr_some by auto. cbn [bind]. set (m2 := upd m1 (addr + 24) addr).
  assert (D : same_dom m m2) by (apply same_dom_trans with m1; apply same_dom_upd; auto).
  eexists. split; [reflexivity|]. cbn [nul mem]. split; [reflexivity|]. split; [exact D|]. split; [|split].
  - split; [intros a l s f []|]. split; [split; [intros a n []|constructor]|]. split; [intros a l []|].
    split; [|intros z s []].
    split. { split; [reflexivity|]. intros fl _. cbn [slb flb]. split; [reflexivity|]. rewrite N.bits_0. split; [discriminate|congruence]. }
    cbn [nul mem]. split; [auto|]. split; [eapply same_dom_some; eauto|]. split; [eapply same_dom_some; eauto|].
    split. { split; [intros z s []|intros z s z' s' []]. }
    exists (fun _ _ => []). intros fl sl _ _. split; [reflexivity|]. cbn [slb]. split; [rewrite N.bits_0; split; [discriminate|congruence]|].
    split; [exact Logic.I|]. split; [constructor|]. intro y. split; [intros []|]. intros (s & [] & _).
  - intros a l [].
  - intros x X. unfold m2, m1. rewrite !upd_other by lia. reflexivity.
Qed.

Lemma align_down8 : forall x, x < 2 ^ 64 -> align_down x 8 = Ok (8 * (x / 8)).
Proof.
  intros x B. unfold align_down. change (N.land 8 (wsub 64 8 1) =? 0) with true. cbn [contract bind].
  change (wsub 64 8 1) with (N.ones 3). rewrite N.land_ones. change (2 ^ 3) with 8.
  pose proof (N.div_mod x 8 ltac:(lia)). pose proof (N.mod_lt x 8 ltac:(lia)).
  rewrite wsub_ge by lia. f_equal. lia.
Qed.

(* the region of a pool: its first block starts 8 bytes before it *)
Definition pool_len (bytes : N) : N := 8 * ((bytes - 16) / 8) + 8.
Definition region_ok (m : memory) (addr bytes : N) : Prop :=
  addr mod 8 = 0 /\ 8 < addr /\ addr + bytes <= 2 ^ 63 /\ 40 <= bytes /\ bytes < 2 ^ 32 + 16 /\
  (forall x, x mod 8 = 0 -> addr <= x -> x < addr + bytes -> m x <> None).

Lemma add_pool_ok : forall t P addr bytes, Good t P -> coals P -> region_ok (mem t) addr bytes ->
  (nul t + control_size <= addr \/ addr + bytes <= nul t) ->
  (forall a l, In (a, l) P -> apart (addr - 8, pool_len bytes) (a, len l)) ->
  exists t' pb, tlsf_add_pool t addr bytes = Ok (t', Some addr) /\ nul t' = nul t /\ same_dom (mem t) (mem t') /\
    let P' := (addr - 8, [(pb, true)]) :: P in
    pb = 8 * ((bytes - 16) / 8) /\ Good t' P' /\ coals P' /\ keeps (used P) (mem t) (mem t').
Proof.
  intros t P addr bytes G C (R1 & R2 & R3 & R4 & R5 & R6) Nc Ap.
  unfold tlsf_add_pool, block_header_overhead, ALIGN_SIZE. change (2 * 8) with 16.
  rewrite wsub_ge by lia. rewrite align_down8 by lia. cbn [bind]. rewrite R1. cbn [N.eqb negb].
  set (pb := 8 * ((bytes - 16) / 8)).
  assert (Pb : 24 <= pb /\ pb < 2 ^ 32 /\ pb + 16 <= bytes /\ pb mod 8 = 0).
  { unfold pb. pose proof (N.div_mod (bytes - 16) 8 ltac:(lia)). pose proof (N.mod_lt (bytes - 16) 8 ltac:(lia)).
    assert (24 / 8 <= (bytes - 16) / 8) by (apply N.div_le_mono; lia). change (24 / 8) with 3 in *.
    assert ((bytes - 16) / 8 < 2 ^ 29) by (apply N.div_lt_upper_bound; [lia|]; change (8 * 2 ^ 29) with (2 ^ 32); lia).
    set (qq := (bytes - 16) / 8) in *. set (rr := (bytes - 16) mod 8) in *. clearbody qq rr.
    change (2 ^ 32) with 4294967296 in *. change (2 ^ 29) with 536870912 in *. split; [lia|]. split; [lia|]. split; [lia|]. rewrite N.mul_comm. apply N.mod_mul. lia. }
  destruct Pb as (P1 & P2 & P3 & P4). unfold block_size_min, block_size_max.
  destruct (N.ltb_spec pb 24) as [Hx|_]; [lia|]. destruct (N.ltb_spec (2 ^ 32) pb) as [Hx|_]; [lia|]. cbn [orb].
  assert (PL : pool_len bytes = pb + 8) by reflexivity. rewrite PL in Ap. clearbody pb.
  set (a := addr - 8) in *. assert (Ea : addr = a + 8) by (unfold a; lia).
  assert (A8 : a mod 8 = 0) by (unfold a; apply mod8_sub; auto; lia).
  assert (A0 : a <> 0) by (unfold a; lia). clearbody a. subst addr.
  set (P' := (a, [(pb, true)]) :: P). set (e := a + 8 + pb).
  pose proof G as (S & Ge & Ly & Ls & OA).
  assert (S' : sizes P').
  { intros a0 l s f [H|H] Hb; [|eapply S; eauto]. inv H. destruct Hb as [Hb|[]]. inv Hb. auto. }
  assert (Ge' : forall m', same_dom (mem t) m' -> geo (nul t) m' (skel P')).
  { intros m' D. apply (geo_dom _ (mem t)); auto. destruct Ge as [Ge1 Ge2]. split.
    - intros a0 n0 [H|H]; [|auto]. cbn in H. inv H.
      split; [auto|]. split; [auto|]. split; [lia|]. split; [|unfold control_size in *; lia].
      intros x X1 X2 X3. apply R6; auto; lia.
    - cbn [skel map fst snd]. constructor; [|exact Ge2]. apply Forall_forall. intros [a0 n0] H.
      unfold skel in H. apply in_map_iff in H. destruct H as ([a1 l1] & E & H). cbn in E. inv E.
      cbn [len fst snd]. replace (pb + 8 + 0) with (pb + 8) by lia. apply Ap. auto. }
  assert (Hy : In (a, pb, true) (all P')) by (left; reflexivity).
  assert (Sub : forall z s f, In (z, s, f) (all P) -> In (z, s, f) (all P')).
  { intros z s f H. right. exact H. }
  assert (Out : forall z s f, In (z, s, f) (all P) -> z + 24 + s <= a + 8 \/ a + pb + 16 <= z + 8).
  { intros z s f H. apply all_in in H. destruct H as (a0 & l0 & H0 & H1). apply trip_bound in H1.
    specialize (Ap _ _ H0). unfold apart in Ap. cbn in Ap. lia. }
  (* the header of the block *)
  assert (Dh : mem t (a + 8) <> None) by (apply R6; [apply mod8_add; auto|lia|lia]).
  destruct (mem t (a + 8)) as [w|] eqn:Ew; [|congruence]. destruct (word_any w) as (ws & wf & wp & -> & Wm).
  rewrite (p_set_size _ _ _ _ _ Ew Wm) by (apply mod8_4; auto). cbn [bind].
  assert (E1 : upd (mem t) (a + 8) (word pb wf wp) (a + 8) = Some (word pb wf wp)) by apply upd_same.
  rewrite (p_set_free _ _ _ _ _ E1) by (apply mod8_4; auto). cbn [bind].
  set (m2 := upd (upd (mem t) (a + 8) (word pb wf wp)) (a + 8) (word pb true wp)).
  assert (E2 : m2 (a + 8) = Some (word pb true wp)) by apply upd_same.
  rewrite (p_set_prev_used _ _ _ _ _ E2) by (apply mod8_4; auto). cbn [bind].
  set (m3 := upd m2 (a + 8) (word pb true false)).
  assert (E3 : m3 (a + 8) = Some (word pb true false)) by apply upd_same.
  assert (F3 : forall x, x <> a + 8 -> m3 x = mem t x) by (intros x X; unfold m3, m2; rewrite !upd_other by auto; auto).
  assert (D3 : same_dom (mem t) m3).
  { unfold m3, m2. eapply same_dom_trans; [eapply same_dom_trans|]; apply same_dom_upd; rewrite ?upd_same; try discriminate. congruence. }
  (* filing it *)
  assert (L3 : Lists (set_mem t m3) (fun z s => In (z, s, true) (all P))).
  { apply Lists_mem; auto. intros z s H. pose proof (all_size _ _ _ _ S H). destruct (Out _ _ _ H); split; apply F3; lia. }
  destruct (insert_ok (set_mem t m3) _ a pb L3) as (t4 & E4 & N4 & D4 & T4 & L4); auto; cbn [nul mem set_mem] in *.
  { lia. }
  { unfold far, control_size in *. lia. }
  { intros z s H. pose proof (all_size _ _ _ _ S H). unfold far. destruct (Out _ _ _ H); lia. }
  { eapply same_dom_some; [exact D3|]. apply R6; [apply mod8_add; auto|lia|lia]. }
  { eapply same_dom_some; [exact D3|]. apply R6; [apply mod8_add; auto|lia|lia]. }
  unfold block_insert. rewrite (p_size _ _ _ _ _ (E3 : mem (set_mem t m3) (a + 8) = _)) by (apply mod8_4; auto). cbn [bind].
  destruct (mapping_insert pb) as [fl sl]. cbn [fst snd] in E4. rewrite E4. cbn [bind].
  (* the words of the pool that filing changed are the two links *)
  assert (K4 : forall x, a + 8 <= x -> x <> a + 16 -> x <> a + 24 -> x < a + pb + 24 -> mem t4 x = m3 x).
  { intros x X1 X2 X3 X4. destruct (T4 x) as [T|(z & Hz & Ez)]; auto. exfalso.
    destruct Hz as [->|[s [Hz|[-> ->]]]].
    - unfold control_size in Nc. lia.
    - pose proof (all_size _ _ _ _ S Hz). destruct (Out _ _ _ Hz); lia.
    - lia. }
  assert (H4 : mem t4 (a + 8) = Some (word pb true false)) by (rewrite K4 by lia; auto).
  assert (De : mem t4 e <> None).
  { eapply same_dom_some; [exact D4|]. eapply same_dom_some; [exact D3|]. unfold e. apply R6; [apply mod8_add; auto|lia|lia].
    }
  rewrite (p_link_next _ _ _ _ _ H4) by (try (apply mod8_4; auto); auto; lia). cbn [bind]. fold e.
  set (m5 := upd (mem t4) e a).
  assert (D5 : same_dom (mem t4) m5) by (apply same_dom_upd; auto).
  assert (De8 : m5 (e + 8) <> None).
  { eapply same_dom_some; [exact D5|]. eapply same_dom_some; [exact D4|]. eapply same_dom_some; [exact D3|].
    unfold e. apply R6; [|lia|lia]. apply mod8_add; auto. apply mod8_add; auto. }
  destruct (m5 (e + 8)) as [v|] eqn:Ev; [|congruence]. destruct (word_any v) as (vs & vf & vp & -> & Vm).
  rewrite (p_set_size _ _ _ _ _ Ev Vm) by reflexivity. cbn [bind].
  assert (E6 : upd m5 (e + 8) (word 0 vf vp) (e + 8) = Some (word 0 vf vp)) by apply upd_same.
  rewrite (p_set_used _ _ _ _ _ E6) by reflexivity. cbn [bind].
  set (m7 := upd (upd m5 (e + 8) (word 0 vf vp)) (e + 8) (word 0 false vp)).
  assert (E7 : m7 (e + 8) = Some (word 0 false vp)) by apply upd_same.
  rewrite (p_set_prev_free _ _ _ _ _ E7) by reflexivity. cbn [bind].
  set (m8 := upd m7 (e + 8) (word 0 false true)).
  assert (E8 : m8 (e + 8) = Some (word 0 false true)) by apply upd_same.
  assert (E8e : m8 e = Some a).
  { unfold m8, m7. rewrite !upd_other by lia. unfold m5. apply upd_same. }
  assert (F8 : forall x, x <> e -> x <> e + 8 -> m8 x = mem t4 x).
  { intros x X1 X2. unfold m8, m7, m5. rewrite !upd_other by auto. reflexivity. }
  assert (D8 : same_dom (mem t4) m8).
  { eapply same_dom_trans; [exact D5|]. unfold m8, m7. eapply same_dom_trans; [eapply same_dom_trans|]; apply same_dom_upd;
      rewrite ?upd_same; try discriminate. congruence. }
  exists (set_mem t4 m8), pb. split; [reflexivity|]. split; [exact N4|]. cbn [mem nul set_mem].
  assert (DD : same_dom (mem t) m8) by (eapply same_dom_trans; [exact D3|]; eapply same_dom_trans; eauto).
  split; [exact DD|]. split; [reflexivity|]. fold P'.
  (* the memory without the links *)
  set (m0 := upd (upd m3 e a) (e + 8) (word 0 false true)).
  assert (Ly0 : layout m0 P').
  { intros a0 l0 [H|H].
    - inv H. cbn [phys]. fold e. split; [unfold m0, e; rewrite !upd_other by lia; exact E3|]. split.
      + intros _. unfold m0. rewrite upd_other by lia. apply upd_same.
      + unfold m0. apply upd_same.
    - apply (phys_frame (mem t)); [|apply Ly; auto]. intros x X1 X2. specialize (Ap _ _ H). unfold apart in Ap. cbn in Ap.
      unfold m0, e. rewrite !upd_other by lia. apply F3. lia. }
  assert (D0 : same_dom (mem t) m0).
  { intro x. unfold m0, upd. destruct (N.eqb_spec x (e + 8)) as [->|X1]; [|destruct (N.eqb_spec x e) as [->|X2]].
    - specialize (DD (e + 8)). rewrite E8 in DD. rewrite DD. split; discriminate.
    - specialize (DD e). rewrite E8e in DD. rewrite DD. split; discriminate.
    - apply D3. }
  assert (T0 : forall x, m8 x = m0 x \/ touched (fun z s => In (z, s, true) (all P) \/ (z = a /\ s = pb)) (nul t) x).
  { intro x. unfold m0. destruct (N.eq_dec x (e + 8)) as [->|X1]; [left; rewrite upd_same; auto|].
    rewrite upd_other by auto. destruct (N.eq_dec x e) as [->|X2]; [left; rewrite upd_same; auto|].
    rewrite upd_other, F8 by auto. apply T4. }
  assert (OA' : forall z s, In (z, s, true) (all P) \/ (z = a /\ s = pb) -> In (z, s, true) (all P')).
  { intros z s [H|[-> ->]]; auto. }
  split.
  { split; [exact S'|]. cbn [nul mem set_mem]. rewrite N4. split; [apply Ge'; auto|].
    split; [exact (layout_touched _ _ _ _ _ S' (Ge' m0 D0) Ly0 OA' T0)|]. split; [|auto].
    apply (Lists_ext _ (fun z s => In (z, s, true) (all P) \/ (z = a /\ s = pb))).
    - intros z s. split; [apply OA'|]. intro H. cbn in H. destruct H as [H|H]; [inv H; auto|auto].
    - apply Lists_mem; auto. intros z s [H|[-> ->]].
      + pose proof (all_size _ _ _ _ S H). unfold e in *. destruct (Out _ _ _ H); split; apply F8; lia.
      + unfold e in *. split; apply F8; lia. }
  split.
  { intros a0 l0 [H|H]; [inv H; cbn; auto|eapply C; eauto]. }
  { intros b s x U X1 X2. pose proof (keeps_touched _ _ _ _ _ S' (Ge' m0 D0) OA' T0 b s x) as K. rewrite K; auto.
    - pose proof (Out _ _ _ U). unfold m0, e. rewrite !upd_other by lia. apply F3. lia.
    - unfold used. apply Sub. exact U. }
Qed.

(* ---- removing a pool without blocks in use ---- *)
Lemma fop_remove : forall {A} (R : A -> A -> Prop) l x k, ForallOrdPairs R (l ++ x :: k) -> ForallOrdPairs R (l ++ k).
Proof.
  induction l as [|y l IH]; intros x k H; cbn [app] in *; inversion H; subst; auto.
  constructor; [|eapply IH; eauto]. rewrite Forall_forall in *. intros z Hz. apply H2. rewrite in_app_iff in *. cbn. tauto.
Qed.
Lemma core_drop : forall t zl za l zr, Core t (zl ++ (za, l) :: zr) (fun z s => In (z, s, true) (all zl) \/ In (z, s, true) (all zr)) ->
  Good t (zl ++ zr).
Proof.
  intros t zl za l zr (S & G & Ly & Ls & OA).
  assert (Sub : forall p, In p (zl ++ zr) -> In p (zl ++ (za, l) :: zr)).
  { intros p H. rewrite in_app_iff in *. cbn. tauto. }
  split; [intros a0 l0 s f H; apply (S a0 l0 s f); auto|]. split.
  { destruct G as [G1 G2]. split.
    - intros a n H. apply G1. unfold skel in *. apply in_map_iff in H. destruct H as (p & E & H). apply in_map_iff. exists p. auto.
    - unfold skel in *. rewrite map_app in *. cbn [map] in G2. eapply fop_remove; eauto. }
  split; [intros a0 l0 H; apply Ly; auto|]. split; [|auto].
  eapply Lists_ext; [|exact Ls]. intros z s. cbv beta. rewrite all_app, in_app_iff. tauto.
Qed.

Lemma remove_pool_ok : forall t zl a s zr, let P := zl ++ (a, [(s, true)]) :: zr in Good t P -> coals P ->
  exists t', tlsf_remove_pool t (a + 8) = Ok t' /\ nul t' = nul t /\ same_dom (mem t) (mem t') /\
    Good t' (zl ++ zr) /\ coals (zl ++ zr) /\ keeps (used P) (mem t) (mem t').
Proof.
  intros t zl a s zr P G C. unfold tlsf_remove_pool, block_header_overhead. replace (a + 8 - 8) with a by lia.
  assert (EP : P = zp zl a [] [] [(s, true)] zr) by reflexivity.
  pose proof G as G0. rewrite EP in G0. apply good_inv_nil in G0.
  pose proof G as (S & Ge & Ly & Ls & OA).
  assert (Hp : In (a, [(s, true)]) P) by (apply in_or_app; right; left; reflexivity).
  pose proof (Ly _ _ Hp) as Ph. cbn [phys] in Ph. destruct Ph as (W & Ft & We).
  destruct (S _ _ s true Hp (or_introl eq_refl)) as (S1 & S2 & S3). apply mod8_4 in S2.
  rewrite (p_free _ _ _ _ _ W S2). cbn [bind contract]. rewrite (p_next _ _ _ _ _ W S2) by lia. cbn [bind].
  rewrite (p_free _ _ _ _ _ We eq_refl). cbn [bind negb contract]. rewrite (p_size _ _ _ _ _ We eq_refl). cbn [bind N.eqb contract].
  rewrite (p_size _ _ _ _ _ W S2). cbn [bind].
  destruct (remove_right _ _ _ _ _ _ _ _ G0) as (t' & E1 & Nu & D & I' & E2 & K).
  cbn [len] in E2. rewrite !N.add_0_r in E2. destruct (mapping_insert s) as [fl sl]. cbn [fst snd] in E2.
  exists t'. split; [exact E2|]. split; [exact Nu|]. split; [exact D|]. split; [|split; [|exact K]].
  - apply (core_drop t' zl a [(s, true)] zr). unfold Inv, zp in I'. cbn [app] in I'.
    eapply core_ext; [|exact I']. intros z q. unfold oth. cbn [trip In]. tauto.
  - intros a0 l0 H. apply (C a0 l0). unfold P. rewrite in_app_iff in *. cbn. tauto.
Qed.

(* ---- tlsf_check, tlsf_check_pool ---- *)
Lemma free_neighbours : forall t P z s, Good t P -> coals P -> In (z, s, true) (all P) ->
  exists q, mem t (z + 8) = Some (word s true false) /\ mem t (z + 8 + s + 8) = Some (word q false true) /\
    q mod 4 = 0 /\ 24 <= s /\ s mod 4 = 0.
Proof.
  intros t P z s G C H. destruct (open_block _ _ _ _ H) as (zl & za & zL & zR & zr & -> & ->).
  pose proof G as (S & Ge & Ly & _). pose proof (Ly _ _ (zp_in _ _ _ _ _ _)) as Ph.
  apply phys_app in Ph. destruct Ph as [_ Ph]. cbn [app phys] in Ph. destruct Ph as (W & _ & Ph).
  apply coals_zp in C. destruct C as (_ & _ & C). rewrite coal_app in C. cbn [app coal] in C. destruct C as (_ & C1 & C2).
  rewrite andb_true_r in C1. rewrite C1 in W. apply phys_head in Ph.
  assert (Hz : hf zR = false) by (destruct zR as [|[sq f] zR]; [reflexivity|]; cbn in *; tauto).
  destruct (all_size _ _ _ _ S H) as (S1 & S2 & _). exists (hs zR). rewrite Hz in Ph. split; [exact W|]. split; [exact Ph|].
  split; [|split; [auto|apply mod8_4; auto]]. destruct zR as [|[sq f] zR]; [reflexivity|]. cbn. apply mod8_4.
  apply (S _ _ sq f (zp_in _ _ _ _ _ _)). apply in_or_app. right. apply in_or_app. right. left. reflexivity.
Qed.

Lemma check_list_ok : forall t P fl sl l fuel, Good t P -> coals P ->
  (forall y, In y l -> exists s, In (y, s, true) (all P) /\ mapping_insert s = (fl, sl)) ->
  forall p, dll (mem t) (nul t) p l -> (length l < fuel)%nat -> check_list fuel t fl sl (hd (nul t) l) = Ok tt.
Proof.
  intros t P fl sl l fuel G C. revert fuel. induction l as [|y l IH]; intros fuel F p D L.
  - destruct fuel; [cbn in L; lia|]. cbn [check_list hd]. rewrite N.eqb_refl. reflexivity.
  - destruct fuel; [cbn in L; lia|]. cbn [check_list hd]. cbn [dll] in D. destruct D as (D1 & D2 & D3).
    destruct (F y (or_introl eq_refl)) as (s & H & M).
    pose proof G as (S & Ge & _). pose proof (nul_far _ _ _ _ _ _ S Ge H) as Nf. unfold far in Nf.
    destruct (N.eqb_spec y (nul t)); [lia|].
    destruct (free_neighbours _ _ _ _ G C H) as (q & W & Wn & Q4 & S24 & S4).
    rewrite (p_free _ _ _ _ _ W S4). cbn [bind contract]. rewrite (p_prev_free _ _ _ _ _ W S4). cbn [bind negb contract].
    rewrite (p_next _ _ _ _ _ W S4) by lia. cbn [bind]. rewrite (p_free _ _ _ _ _ Wn Q4). cbn [bind negb contract].
    rewrite (p_prev_free _ _ _ _ _ Wn Q4). cbn [bind contract]. rewrite (p_size _ _ _ _ _ W S4). cbn [bind].
    unfold block_size_min. destruct (N.leb_spec 24 s); [|lia]. cbn [contract bind]. rewrite M, !N.eqb_refl. cbn [andb contract bind].
    unfold f_next_free. rewrite (rd_some _ _ _ D2). cbn [bind]. apply (IH fuel (fun y' Hy => F y' (or_intror Hy)) y); [exact D3|]. cbn in L. lia.
Qed.

Lemma bit_land : forall w i, N.land w (N.shiftl 1 i) =? 0 = negb (N.testbit w i).
Proof.
  intros w i. destruct (N.testbit w i) eqn:T; cbn [negb].
  - apply N.eqb_neq. intro E. apply (f_equal (fun v => N.testbit v i)) in E. rewrite N.land_spec, N.bits_0, T, N.shiftl_spec_high' in E by lia.
    rewrite N.sub_diag in E. discriminate.
  - apply N.eqb_eq. apply N.bits_inj. intro j. rewrite N.land_spec, N.bits_0.
    destruct (N.eq_dec j i) as [->|Ne]; [rewrite T; reflexivity|].
    rewrite N.shiftl_1_l, N.pow2_bits_false by auto. apply andb_false_r.
Qed.

Lemma check_ok : forall t P, Good t P -> coals P -> exists f0, forall fuel, (f0 <= fuel)%nat -> tlsf_check fuel t = Ok tt.
Proof.
  intros t P G C. pose proof G as (S & Ge & Ly & (B & N0 & N1 & N2 & Fl & L & HL) & OA).
  (* a bound on the length of the lists *)
  assert (Bd : forall n, exists f0, forall fl sl, fl * 32 + sl < n -> fl < 25 -> sl < 32 -> (length (L fl sl) < f0)%nat).
  { intro n. induction n as [|n [f0 IH]] using N.peano_ind; [exists O; intros; lia|].
    exists (Nat.max f0 (1 + length (L (n / 32) (n mod 32)))). intros fl sl H1 H2 H3.
    destruct (N.eq_dec (fl * 32 + sl) n) as [E|E].
    - assert (Ef : fl = n / 32) by (apply (N.div_unique n 32 fl sl); lia).
      assert (Es : sl = n mod 32) by (apply (N.mod_unique n 32 fl sl); lia).
      rewrite Ef, Es. eapply Nat.lt_le_trans; [|apply Nat.le_max_r]. apply Nat.lt_succ_diag_r.
    - specialize (IH fl sl ltac:(lia) H2 H3). eapply Nat.lt_le_trans; [exact IH|apply Nat.le_max_l]. }
  destruct (Bd 800) as [f0 Hf]. exists f0. intros fuel Lf. unfold tlsf_check.
  assert (Cl : forall fl sl, fl < 25 -> sl < 32 -> check_class fuel t fl sl = Ok tt).
  { intros fl sl H1 H2. destruct (HL fl sl H1 H2) as (Hh & Hb & Hd & Nd & Hm). destruct B as [B1 B2].
    destruct (B2 fl H1) as [B3 B4].
    unfold check_class, bit32, get_sl, get_hd, defined, FL_INDEX_COUNT, SL_INDEX_COUNT.
    destruct (N.ltb_spec fl 32); [|lia]. destruct (N.ltb_spec sl 32); [|lia]. destruct (N.ltb_spec fl 25); [|lia].
    cbn [andb bind]. rewrite !bit_land. rewrite Hh.
    destruct (N.testbit (slb t fl) sl) eqn:T; cbn [negb].
    - assert (Ne : slb t fl <> 0) by (intro Z; rewrite Z, N.bits_0 in T; discriminate).
      assert (Tf : N.testbit (flb t) fl = true) by (apply B4; auto). rewrite Tf. cbn [negb bind].
      destruct (N.eqb_spec (slb t fl) 0); [congruence|]. cbn [negb contract bind].
      assert (Ln : L fl sl <> []) by (apply Hb; auto).
      assert (Hne : hd (nul t) (L fl sl) <> nul t).
      { destruct (L fl sl) as [|y k] eqn:EL; [congruence|]. cbn [hd].
        destruct (proj1 (Hm y) (or_introl eq_refl)) as (s & Hy & _). pose proof (nul_far _ _ _ _ _ _ S Ge Hy) as Nf. unfold far in Nf. lia. }
      destruct (N.eqb_spec (hd (nul t) (L fl sl)) (nul t)); [congruence|]. cbn [negb contract bind].
      apply (check_list_ok t P fl sl (L fl sl) fuel G C) with (p := nul t); auto.
      + intros y Hy. apply Hm. auto.
      + specialize (Hf fl sl ltac:(lia) H1 H2). lia.
    - assert (Ln : L fl sl = []) by (destruct (L fl sl); [auto|]; destruct Hb as [_ Hb]; specialize (Hb ltac:(discriminate)); discriminate).
      rewrite Ln. cbn [hd]. rewrite N.eqb_refl.
      destruct (N.testbit (flb t) fl); reflexivity. }
  assert (Cf : forall n c, c + N.of_nat n <= 800 -> check_from n fuel t c = Ok tt).
  { induction n as [|n IH]; intros c H; [reflexivity|]. cbn [check_from]. unfold SL_INDEX_COUNT.
    rewrite Cl; [cbn [bind]; apply IH; lia| |].
    - apply N.div_lt_upper_bound; lia.
    - apply N.mod_lt. lia. }
  apply Cf. cbv. discriminate.
Qed.

Lemma check_pool_walk : forall l m fuel pf a, (forall b, In b l -> 24 <= fst b /\ fst b mod 8 = 0) -> phys m pf a l ->
  (length l < fuel)%nat -> check_pool fuel m a pf = Ok tt.
Proof.
  induction l as [|[s f] l IH]; intros m fuel pf a B H L; (destruct fuel; [cbn in L; lia|]); cbn [check_pool phys] in *.
  - rewrite (p_last _ _ _ _ _ H eq_refl). reflexivity.
  - destruct H as (W & _ & H). destruct (B (s, f) (or_introl eq_refl)) as [B1 B2]. cbn in B1, B2. apply mod8_4 in B2.
    rewrite (p_last _ _ _ _ _ W B2). cbn [bind]. destruct (N.eqb_spec s 0); [lia|].
    rewrite (p_prev_free _ _ _ _ _ W B2). cbn [bind]. rewrite (p_free _ _ _ _ _ W B2). cbn [bind].
    rewrite Bool.eqb_reflx. cbn [contract bind]. rewrite (p_next _ _ _ _ _ W B2) by auto. cbn [bind].
    apply IH; [intros b Hb; apply B; right; auto|exact H|cbn in L; lia].
Qed.
Lemma check_pool_ok : forall t P a l, Good t P -> In (a, l) P ->
  forall fuel, (length l < fuel)%nat -> tlsf_check_pool fuel t (a + 8) = Ok tt.
Proof.
  intros t P a l (S & Ge & Ly & _) H fuel L. unfold tlsf_check_pool, block_header_overhead. replace (a + 8 - 8) with a by lia.
  apply (check_pool_walk l); auto. intros [s f] Hb. apply (S a l s f) in Hb; auto. cbn. tauto.
Qed.

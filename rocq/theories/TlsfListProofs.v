(* The segregated free lists of tlsf.cc: insert_free_block, remove_free_block and the search keep the
   lists, their heads and the two bitmaps consistent. *)
From Coq Require Import NArith List Bool Lia.
From Verif Require Import Base TlsfModel TlsfMapSpec TlsfMapProofs.
Import ListNotations.
Open Scope N_scope.

Ltac inv H := inversion H; subst; clear H.

Definition same_dom (m m' : memory) : Prop := forall x, m x = None <-> m' x = None.
Lemma same_dom_refl : forall m, same_dom m m.
Proof. intros m x. tauto. Qed.
Lemma same_dom_trans : forall m1 m2 m3, same_dom m1 m2 -> same_dom m2 m3 -> same_dom m1 m3.
Proof. intros m1 m2 m3 A B x. rewrite (A x). apply B. Qed.
Lemma same_dom_upd : forall m x v, m x <> None -> same_dom m (upd m x v).
Proof.
  intros m x v H y. unfold upd. destruct (N.eqb_spec y x); [subst; split; congruence|tauto].
Qed.
Lemma same_dom_some : forall m m' x, same_dom m m' -> m x <> None -> m' x <> None.
Proof. intros m m' x D H C. apply H, D, C. Qed.

Lemma rd_some : forall m x v, m x = Some v -> rd m x = Ok v.
Proof. intros m x v H. unfold rd. rewrite H. reflexivity. Qed.
Lemma wr_some : forall m x v, m x <> None -> wr m x v = Ok (upd m x v).
Proof. intros m x v H. unfold wr. destruct (m x); congruence. Qed.
Lemma upd_same : forall m x v, upd m x v x = Some v.
Proof. intros. unfold upd. rewrite N.eqb_refl. reflexivity. Qed.
Lemma upd_other : forall m x v y, y <> x -> upd m x v y = m y.
Proof. intros. unfold upd. destruct (N.eqb_spec y x); congruence. Qed.

(* ---- doubly linked lists through the words b+16 (next_free) and b+24 (prev_free) ---- *)
Fixpoint dll (m : memory) (nul p : N) (l : list N) : Prop :=
  match l with
  | [] => True
  | y :: l' => m (y + 24) = Some p /\ m (y + 16) = Some (hd nul l') /\ dll m nul y l'
  end.
Lemma dll_frame : forall m m' nul l p,
  (forall z, In z l -> m' (z + 16) = m (z + 16) /\ m' (z + 24) = m (z + 24)) ->
  dll m nul p l -> dll m' nul p l.
Proof.
  induction l as [|y l IH]; intros p F D; cbn in *; auto.
  destruct D as (A & B & C). destruct (F y (or_introl eq_refl)) as [F1 F2].
  rewrite F1, F2. repeat split; auto.
Qed.
Lemma dll_at : forall m nul A p y B, dll m nul p (A ++ y :: B) ->
  m (y + 24) = Some (last A p) /\ m (y + 16) = Some (hd nul B).
Proof.
  induction A as [|a A IH]; intros p y B D.
  - cbn in *. tauto.
  - cbn [app dll] in D. destruct D as (_ & _ & D). apply IH in D.
    replace (last (a :: A) p) with (last A a); auto.
    destruct A as [|a' A]; auto. cbn [last]. clear. revert a'. induction A as [|b A IH]; intro a'; auto.
    cbn [last] in *. apply IH.
Qed.
Lemma last_cons : forall (A : list N) a p, last (a :: A) p = last A a.
Proof.
  intros [|a' A] a p; auto. cbn [last]. revert a'. induction A as [|b A IH]; intro a'; auto.
  cbn [last] in *. apply IH.
Qed.
Lemma last_in : forall (A : list N) p, last A p = p \/ In (last A p) A.
Proof.
  induction A as [|a A IH]; intro p; auto. right. rewrite last_cons.
  destruct (IH a) as [E|E]; [left; auto|right; auto].
Qed.
Lemma hd_in : forall (B : list N) d, hd d B = d \/ In (hd d B) B.
Proof. intros [|b B] d; cbn; auto. Qed.
Lemma last_nonempty_in : forall (A : list N) p, A <> [] -> In (last A p) A.
Proof.
  induction A as [|a A IH]; intros p H; [congruence|]. rewrite last_cons.
  destruct A as [|b A]; [left; auto|]. right. apply IH. discriminate.
Qed.

(* taking y out of the list *)
Lemma dll_remove : forall m m' nul y B A p,
  NoDup (p :: A ++ y :: B) ->
  dll m nul p (A ++ y :: B) ->
  (forall b, hd_error B = Some b -> m' (b + 24) = Some (last A p)) ->
  (A <> [] -> m' (last A p + 16) = Some (hd nul B)) ->
  (forall z, In z (A ++ B) -> hd_error B <> Some z -> m' (z + 24) = m (z + 24)) ->
  (forall z, In z (A ++ B) -> z <> last A p -> m' (z + 16) = m (z + 16)) ->
  dll m' nul p (A ++ B).
Proof.
  induction A as [|a A IH]; intros p ND D HB HA F1 F2.
  - cbn [app] in *. cbn [dll] in D. destruct D as (_ & _ & D).
    destruct B as [|b B]; [exact I|]. cbn [dll] in *. destruct D as (_ & D2 & D3).
    split; [apply HB; reflexivity|]. split.
    + rewrite F2; [auto|left; auto|]. cbn [last]. inv ND. intro E. subst. apply H1. right. left. auto.
    + apply (dll_frame m); auto. intros z Hz. inv ND. inv H2. inv H4.
      split.
      * apply F2; [right; auto|]. cbn [last]. intro E. subst. apply H1. right. right. auto.
      * apply F1; [right; auto|]. cbn. intro E. inv E. auto.
  - cbn [app] in *. cbn [dll] in D. destruct D as (D1 & D2 & D3). cbn [dll].
    rewrite last_cons in *.
    assert (NDa : NoDup (a :: A ++ y :: B)) by (inv ND; auto).
    split; [|split].
    + rewrite F1; auto; [left; auto|]. destruct B as [|b B]; cbn; [discriminate|].
      intro E. inv E. inv NDa. apply H1. apply in_or_app. right. right. left. auto.
    + destruct A as [|a' A].
      * cbn [app last] in *. apply HA. discriminate.
      * rewrite F2; [exact D2|left; auto|]. rewrite last_cons. intro E. apply NoDup_cons_iff in NDa.
        destruct NDa as [NDa _]. apply NDa. apply in_or_app. left. rewrite E. rewrite <- (last_cons A a' a). apply last_nonempty_in. discriminate.
    + apply IH; auto.
      * intros NE. apply HA. discriminate.
      * intros z Hz. apply F1. right. auto.
      * intros z Hz. apply F2. right. auto.
Qed.

(* ---- bit updates ---- *)
Lemma bit_set : forall w k i, N.testbit (N.lor w (N.shiftl 1 k)) i = N.testbit w i || (i =? k).
Proof.
  intros. rewrite N.lor_spec. f_equal. rewrite N.shiftl_1_l. rewrite N.pow2_bits_eqb.
  apply N.eqb_sym.
Qed.
Lemma bit_clear : forall w k i, N.testbit (N.ldiff w (N.shiftl 1 k)) i = N.testbit w i && negb (i =? k).
Proof.
  intros. rewrite N.ldiff_spec. f_equal. rewrite N.shiftl_1_l. rewrite N.pow2_bits_eqb.
  rewrite N.eqb_sym. reflexivity.
Qed.
Lemma lt_bits : forall w n, (forall i, N.testbit w i = true -> i < n) -> w < 2 ^ n.
Proof.
  intros w n H. destruct (N.eq_dec w 0) as [->|Z].
  - apply N.neq_0_lt_0, N.pow_nonzero. lia.
  - apply N.log2_lt_pow2; [lia|]. apply H. apply N.bit_log2. auto.
Qed.
Lemma lor_lt : forall w k n, w < 2 ^ n -> k < n -> N.lor w (N.shiftl 1 k) < 2 ^ n.
Proof.
  intros w k n A B. apply lt_bits. intros i H. rewrite bit_set in H.
  apply orb_prop in H. destruct H as [H|H]; [eapply small_bit; eauto|].
  apply N.eqb_eq in H. lia.
Qed.
Lemma ldiff_lt : forall w k n, w < 2 ^ n -> N.ldiff w (N.shiftl 1 k) < 2 ^ n.
Proof.
  intros w k n A. apply lt_bits. intros i H. rewrite bit_clear in H.
  apply andb_prop in H. destruct H as [H _]. eapply small_bit; eauto.
Qed.

(* ---- the free lists of a state: O z s says that block z of size s is filed ---- *)
Definition far (x y : N) : Prop := x + 32 <= y \/ y + 32 <= x.
Definition Filed (O : N -> N -> Prop) (nul : N) : Prop :=
  (forall z s, O z s -> z <> 0 /\ far z nul /\ s < 2 ^ 32) /\
  (forall z s z' s', O z s -> O z' s' -> (z = z' /\ s = s') \/ far z z').
Definition class_ok (t : tlsf) (O : N -> N -> Prop) (fl sl : N) (l : list N) : Prop :=
  hds t fl sl = hd (nul t) l /\ (N.testbit (slb t fl) sl = true <-> l <> []) /\
  dll (mem t) (nul t) (nul t) l /\ NoDup l /\
  (forall y, In y l <-> exists s, O y s /\ mapping_insert s = (fl, sl)).
Definition Lists (t : tlsf) (O : N -> N -> Prop) : Prop :=
  bitmaps_ok t /\ nul t <> 0 /\ mem t (nul t + 16) <> None /\ mem t (nul t + 24) <> None /\
  Filed O (nul t) /\
  exists L : N -> N -> list N, forall fl sl, fl < 25 -> sl < 32 -> class_ok t O fl sl (L fl sl).

(* words that list operations may touch *)
Definition touched (O : N -> N -> Prop) (nul x : N) : Prop :=
  exists z, (z = nul \/ exists s, O z s) /\ (x = z + 16 \/ x = z + 24).

Lemma Lists_ext : forall t (O O' : N -> N -> Prop), (forall z s, O z s <-> O' z s) -> Lists t O -> Lists t O'.
Proof.
  intros t O O' E (B & N0 & N1 & N2 & (F1 & F2) & L & HL).
  split; [auto|]. split; [auto|]. split; [auto|]. split; [auto|]. split.
  - split.
    + intros z s H. apply (F1 z s). apply E. auto.
    + intros z s z' s' A C. apply (F2 z s z' s'); apply E; auto.
  - exists L. intros fl sl Hf Hs. destruct (HL fl sl Hf Hs) as (A & C & D & G & M).
    repeat split; try tauto.
    + intro Y. apply M in Y. destruct Y as (s & Y & Z). exists s. split; auto. apply E; auto.
    + intros (s & Y & Z). apply M. exists s. split; auto. apply E; auto.
Qed.

(* writes outside of the link words of filed blocks do not matter *)
Lemma Lists_mem : forall t m' O, Lists t O -> same_dom (mem t) m' ->
  (forall z s, O z s -> m' (z + 16) = mem t (z + 16) /\ m' (z + 24) = mem t (z + 24)) ->
  Lists (set_mem t m') O.
Proof.
  intros t m' O (B & N0 & N1 & N2 & F & L & HL) D E.
  split; [exact B|]. split; [exact N0|].
  split; [exact (same_dom_some _ _ _ D N1)|]. split; [exact (same_dom_some _ _ _ D N2)|].
  split; [exact F|]. exists L. intros fl sl Hf Hs. destruct (HL fl sl Hf Hs) as (A & C & X & G & M).
  split; [exact A|]. split; [exact C|]. split; [|split; [exact G|exact M]].
  cbn [mem set_mem nul]. apply (dll_frame (mem t)); auto.
  intros z Hz. apply M in Hz. destruct Hz as (s & Hz & _). eapply E; eauto.
Qed.

Lemma dll_dom : forall m nul A p y B, dll m nul p (A ++ y :: B) -> m (y + 16) <> None /\ m (y + 24) <> None.
Proof. intros m nul A p y B D. apply dll_at in D. destruct D as [D1 D2]. rewrite D1, D2. split; discriminate. Qed.

Lemma mapping_pair_eqb : forall (fl sl a b : N), ((a =? fl) && (b =? sl) = true) <-> (a, b) = (fl, sl).
Proof.
  intros. rewrite andb_true_iff, !N.eqb_eq. split; [intros [-> ->]; auto|]. intro E. inv E. auto.
Qed.

Lemma class_dom : forall t O fl sl l y, class_ok t O fl sl l -> In y l ->
  mem t (y + 16) <> None /\ mem t (y + 24) <> None.
Proof.
  intros t O fl sl l y (_ & _ & D & _) H. apply in_split in H. destruct H as (A & B & ->).
  eapply dll_dom; eauto.
Qed.

Lemma align8 : forall x, x mod 8 = 0 -> x + 8 < 2 ^ 64 -> TlsfModel.align_up x ALIGN_SIZE = Ok x.
Proof.
  intros x A B. unfold TlsfModel.align_up, ALIGN_SIZE.
  change (N.land 8 (wsub 64 8 1) =? 0) with true. cbn [contract bind].
  change (wsub 64 8 1) with 7. rewrite wadd_small by lia. f_equal.
  apply N.bits_inj. intro i. rewrite N.land_spec, wnot_spec.
  assert (E : x = 8 * (x / 8)) by (pose proof (N.div_mod x 8); lia).
  set (q := x / 8) in *. clearbody q. subst x.
  destruct (N.ltb_spec i 3) as [L|L].
  - assert (T : N.testbit 7 i = true) by (assert (i = 0 \/ i = 1 \/ i = 2) as [->|[->| ->]] by lia; reflexivity).
    rewrite T. destruct (N.ltb_spec i 64); [|lia]. cbn [xorb]. rewrite andb_false_r.
    symmetry. change 8 with (2 ^ 3). rewrite N.mul_comm. apply N.mul_pow2_bits_low. auto.
  - assert (T : N.testbit 7 i = false).
    { destruct (N.testbit 7 i) eqn:G; auto. apply (small_bit 7 3) in G; [lia|reflexivity]. }
    rewrite T. cbn [xorb].
    assert (P : N.testbit (8 * q + 7) i = N.testbit (8 * q) i).
    { replace i with (i - 3 + 3) by lia. rewrite <- !N.div_pow2_bits. f_equal.
      change (2 ^ 3) with 8. rewrite (N.mul_comm 8 q), N.div_add_l by lia. rewrite N.div_mul by lia.
      change (7 / 8) with 0. lia. }
    rewrite P. destruct (N.ltb_spec i 64) as [G|G]; [rewrite andb_true_r; auto|].
    rewrite andb_false_r. symmetry. destruct (N.testbit (8 * q) i) eqn:K; auto.
    apply (small_bit (8 * q) 64) in K; lia.
Qed.

Lemma insert_ok : forall t O y s,
  Lists t O -> s < 2 ^ 32 -> y <> 0 -> y mod 8 = 0 -> y + 24 < 2 ^ 64 ->
  far y (nul t) -> (forall z s', O z s' -> far y z) ->
  mem t (y + 16) <> None -> mem t (y + 24) <> None ->
  exists t', insert_free_block t y (fst (mapping_insert s)) (snd (mapping_insert s)) = Ok t' /\
    nul t' = nul t /\ same_dom (mem t) (mem t') /\
    (forall x, mem t' x = mem t x \/ touched (fun z s' => O z s' \/ (z = y /\ s' = s)) (nul t) x) /\
    Lists t' (fun z s' => O z s' \/ (z = y /\ s' = s)).
Proof.
  intros t O y s (B & N0 & N1 & N2 & (F1 & F2) & L & HL) Hs Y0 Ya Yb Yn Yf Y1 Y2.
  destruct (mapping_in s Hs) as [If Is]. destruct (mapping_insert s) as [fl sl] eqn:Em. cbn [fst snd] in *.
  destruct (HL fl sl If Is) as (A1 & A2 & A3 & A4 & A5).
  set (l := L fl sl) in *. set (c := hd (nul t) l) in *.
  assert (Cc : c = nul t \/ In c l) by apply hd_in.
  assert (Ec : c = hd (nul t) l) by reflexivity. clearbody c l.
  assert (C0 : c <> 0).
  { destruct Cc as [->|Cc]; auto. apply A5 in Cc. destruct Cc as (s' & Cc & _). apply (F1 c s'); auto. }
  assert (Cf : far y c).
  { destruct Cc as [->|Cc]; auto. apply A5 in Cc. destruct Cc as (s' & Cc & _). eapply Yf; eauto. }
  assert (Cd : mem t (c + 24) <> None).
  { destruct Cc as [->|Cc]; auto. apply (class_dom t O fl sl l c); auto. unfold class_ok. rewrite A1, Ec. auto. }
  unfold far in *.
  unfold insert_free_block, get_hd, FL_INDEX_COUNT, SL_INDEX_COUNT.
  destruct (N.ltb_spec fl 25); [|lia]. destruct (N.ltb_spec sl 32); [|lia]. cbn [andb defined bind].
  rewrite A1. destruct (N.eqb_spec c 0); [congruence|]. cbn [negb contract bind].
  destruct (N.eqb_spec y 0); [congruence|]. cbn [negb contract bind].
  unfold f_next_free, f_prev_free.
  rewrite wr_some by auto. cbn [bind].
  set (m1 := upd (mem t) (y + 16) c).
  assert (D1 : same_dom (mem t) m1) by (apply same_dom_upd; auto).
  rewrite wr_some by (eapply same_dom_some; eauto). cbn [bind].
  set (m2 := upd m1 (y + 24) (nul t)).
  assert (D2 : same_dom m1 m2) by (apply same_dom_upd; eapply same_dom_some; eauto).
  assert (D12 : same_dom (mem t) m2) by (eapply same_dom_trans; eauto).
  rewrite wr_some by (eapply same_dom_some; eauto). cbn [bind].
  set (m3 := upd m2 (c + 24) y).
  assert (D3 : same_dom (mem t) m3).
  { eapply same_dom_trans; [exact D12|]. apply same_dom_upd. eapply same_dom_some; eauto. }
  unfold block_to_ptr, block_start_offset. rewrite align8;
    [|rewrite N.add_mod by lia; rewrite Ya; reflexivity|lia].
  cbn [bind]. rewrite N.eqb_refl. cbn [contract bind].
  unfold set_hd, FL_INDEX_COUNT, SL_INDEX_COUNT.
  destruct (N.ltb_spec fl 25); [|lia]. destruct (N.ltb_spec sl 32); [|lia]. cbn [andb defined bind].
  unfold bit32. destruct (N.ltb_spec fl 32); [|lia]. destruct (N.ltb_spec sl 32); [|lia]. cbn [andb defined bind].
  unfold set_flb, get_sl, set_sl. cbn [mem nul flb slb hds set_mem]. unfold FL_INDEX_COUNT.
  destruct (N.ltb_spec fl 25); [|lia]. cbn [defined bind].
  eexists. split; [reflexivity|]. cbn [nul mem slb flb hds]. split; [reflexivity|].
  split; [exact D3|].
  assert (M3 : forall x, x <> y + 16 -> x <> y + 24 -> x <> c + 24 -> m3 x = mem t x).
  { intros x X1 X2 X3. unfold m3, m2, m1. rewrite !upd_other; auto. }
  split.
  { intro x. destruct (N.eq_dec x (y + 16)) as [E1|E1]; [right; exists y; split; [right; exists s; auto|auto]|].
    destruct (N.eq_dec x (y + 24)) as [E2|E2]; [right; exists y; split; [right; exists s; auto|auto]|].
    destruct (N.eq_dec x (c + 24)) as [E3|E3].
    - right. exists c. split; auto. destruct Cc as [Cc|Cc]; auto. right.
      apply A5 in Cc. destruct Cc as (s' & Cc & _). exists s'. auto.
    - left. apply M3; auto. }
  (* the lists *)
  assert (Uniq : forall z s1 s2, O z s1 -> O z s2 -> s1 = s2).
  { intros z s1 s2 P Q. destruct (F2 z s1 z s2 P Q) as [[_ ->]|G]; auto. unfold far in G; lia. }
  destruct B as [Bf Bs].
  split.
  { split; cbn [flb slb].
    - apply lor_lt; auto.
    - intros i Hi. destruct (Bs i Hi) as [Bs1 Bs2]. rewrite bit_set.
      destruct (N.eqb_spec i fl) as [->|Ne].
      + split; [apply lor_lt; auto|]. rewrite orb_true_r. split; auto. intros _.
        apply nonzero_bit. exists sl. rewrite bit_set, N.eqb_refl. apply orb_true_r.
      + split; auto. rewrite orb_false_r. auto. }
  cbn [nul mem]. split; [auto|]. split; [eapply same_dom_some; eauto|]. split; [eapply same_dom_some; eauto|].
  split.
  { split.
    - intros z s' [P|[-> ->]]; [apply F1; auto|]. split; auto.
    - intros z s1 z' s2 [P|[-> ->]] [Q|[-> ->]].
      + apply F2; auto.
      + right. pose proof (Yf _ _ P). unfold far in *; lia.
      + right. pose proof (Yf _ _ Q). unfold far in *; lia.
      + left. auto. }
  exists (fun i j => if (i =? fl) && (j =? sl) then y :: l else L i j).
  intros i j Hi Hj. unfold class_ok. cbn [hds slb mem nul].
  destruct ((i =? fl) && (j =? sl)) eqn:Eij.
  - apply mapping_pair_eqb in Eij. injection Eij as -> ->.
    split; [reflexivity|]. rewrite N.eqb_refl. rewrite bit_set, N.eqb_refl, orb_true_r.
    split; [split; [discriminate|auto]|].
    assert (Yl : ~ In y l).
    { intro K. apply A5 in K. destruct K as (s' & K & _). apply Yf in K. lia. }
    split.
    { cbn [dll]. split; [|split].
      - unfold m3. rewrite upd_other by lia. unfold m2. apply upd_same.
      - unfold m3. rewrite upd_other by lia. unfold m2. rewrite upd_other by lia. unfold m1. rewrite <- Ec. apply upd_same.
      - destruct l as [|c' l']; [exact I|]. cbn [hd] in Ec. subst c'.
        cbn [dll] in A3 |- *. destruct A3 as (_ & A3b & A3c).
        split; [unfold m3; apply upd_same|]. split.
        + rewrite M3 by lia. auto.
        + apply (dll_frame (mem t)); auto. intros z Hz.
          assert (Oz : exists sz, O z sz) by (destruct (proj1 (A5 z) (or_intror Hz)) as (sz & ? & _); eauto).
          destruct Oz as [sz Oz]. destruct (proj1 (A5 c) (or_introl eq_refl)) as (sc & Oc & _).
          apply NoDup_cons_iff in A4. destruct A4 as [A4 _]. assert (Zc : z <> c) by congruence.
          pose proof (Yf _ _ Oz). destruct (F2 _ _ _ _ Oz Oc) as [[? _]|G]; [congruence|].
          unfold far in *. split; apply M3; lia. }
    split; [constructor; auto|].
    intro z. cbn [In]. rewrite A5. split.
    + intros [<-|(s' & P & Q)]; [exists s; auto|exists s'; auto].
    + intros (s' & [P|[-> ->]] & Q); [right; eauto|left; auto].
  - destruct (HL i j Hi Hj) as (G1 & G2 & G3 & G4 & G5).
    assert (Nij : (i, j) <> (fl, sl)) by (intro K; apply mapping_pair_eqb in K; congruence).
    split; [auto|]. split.
    { destruct (N.eqb_spec i fl) as [->|Ne]; auto. rewrite bit_set.
      destruct (N.eqb_spec j sl) as [->|Nj]; [congruence|]. rewrite orb_false_r. auto. }
    split.
    { apply (dll_frame (mem t)); auto. intros z Hz. apply G5 in Hz. destruct Hz as (sz & Oz & Mz).
      pose proof (Yf _ _ Oz) as Fz.
      assert (far z c).
      { destruct Cc as [->|Cc]; [apply F1 with sz; auto|]. apply A5 in Cc. destruct Cc as (sc & Oc & Mc).
        destruct (F2 _ _ _ _ Oz Oc) as [[_ ->]|G]; auto. congruence. }
      unfold far in *. split; apply M3; lia. }
    split; [auto|]. intro z. rewrite G5. split.
    + intros (s' & P & Q). exists s'. auto.
    + intros (s' & [P|[-> ->]] & Q); [eauto|congruence].
Qed.

Lemma nodup_split_unique : forall (A B A' B' : list N) y,
  NoDup (A ++ y :: B) -> A ++ y :: B = A' ++ y :: B' -> A = A' /\ B = B'.
Proof.
  induction A as [|a A IH]; intros B A' B' y ND E.
  - destruct A' as [|a' A']; inv E; auto. exfalso. cbn in ND. inv ND. apply H1. apply in_or_app. right. left. auto.
  - destruct A' as [|a' A']; cbn in E; inv E.
    + exfalso. cbn in ND. inv ND. apply H1. apply in_or_app. right. left. auto.
    + cbn in ND. inv ND. apply IH in H1; auto. destruct H1 as [-> ->]. auto.
Qed.

Lemma remove_ok : forall t O y s,
  Lists t O -> O y s ->
  exists t', remove_free_block t y (fst (mapping_insert s)) (snd (mapping_insert s)) = Ok t' /\
    nul t' = nul t /\ same_dom (mem t) (mem t') /\
    (forall x, mem t' x = mem t x \/ touched O (nul t) x) /\
    Lists t' (fun z s' => O z s' /\ z <> y).
Proof.
  intros t O y s (B & N0 & N1 & N2 & (F1 & F2) & L & HL) Oy.
  assert (Hs : s < 2 ^ 32) by (apply (F1 y s); auto).
  destruct (mapping_in s Hs) as [If Is]. destruct (mapping_insert s) as [fl sl] eqn:Em. cbn [fst snd] in *.
  pose proof (HL fl sl If Is) as Cl. destruct (HL fl sl If Is) as (A1 & A2 & A3 & A4 & A5).
  set (l := L fl sl) in *.
  assert (Yl : In y l) by (apply A5; eauto).
  apply in_split in Yl. destruct Yl as (A & C & El).
  assert (ElemO : forall z, In z l -> exists sz, O z sz /\ mapping_insert sz = (fl, sl)) by (intros z Z; apply A5; auto).
  assert (NnulL : ~ In (nul t) l).
  { intro K. apply ElemO in K. destruct K as (sz & K & _). apply F1 in K. unfold far in K. lia. }
  rewrite El in *.
  set (p := last A (nul t)). set (n := hd (nul t) C).
  destruct (dll_at _ _ _ _ _ _ A3) as [P1 P2]. fold p in P1. fold n in P2.
  assert (Pc : p = nul t \/ In p A) by apply last_in.
  assert (Nc : n = nul t \/ In n C) by apply hd_in.
  assert (inl : forall z, In z A \/ In z C -> In z (A ++ y :: C)).
  { intros z [Z|Z]; apply in_or_app; [left; auto|right; right; auto]. }
  assert (P0 : p <> 0).
  { destruct Pc as [->|Pc]; auto. destruct (ElemO p (inl p (or_introl Pc))) as (sz & Oz & _). apply (F1 p sz); auto. }
  assert (N0' : n <> 0).
  { destruct Nc as [->|Nc]; auto. destruct (ElemO n (inl n (or_intror Nc))) as (sz & Oz & _). apply (F1 n sz); auto. }
  assert (Pd : mem t (p + 16) <> None).
  { destruct Pc as [->|Pc]; auto. apply (class_dom t O fl sl _ p Cl). auto. }
  assert (Nd : mem t (n + 24) <> None).
  { destruct Nc as [->|Nc]; auto. apply (class_dom t O fl sl _ n Cl). auto. }
  unfold remove_free_block, f_prev_free, f_next_free.
  rewrite (rd_some _ _ _ P1). cbn [bind]. rewrite (rd_some _ _ _ P2). cbn [bind].
  destruct (N.eqb_spec p 0); [congruence|]. cbn [negb contract bind].
  destruct (N.eqb_spec n 0); [congruence|]. cbn [negb contract bind].
  rewrite wr_some by auto. cbn [bind]. set (m1 := upd (mem t) (n + 24) p).
  assert (D1 : same_dom (mem t) m1) by (apply same_dom_upd; auto).
  rewrite wr_some by (eapply same_dom_some; eauto). cbn [bind]. set (m2 := upd m1 (p + 16) n).
  assert (D2 : same_dom (mem t) m2).
  { eapply same_dom_trans; [exact D1|]. apply same_dom_upd. eapply same_dom_some; eauto. }
  assert (M2 : forall x, x <> n + 24 -> x <> p + 16 -> m2 x = mem t x).
  { intros x X1 X2. unfold m2, m1. rewrite !upd_other; auto. }
  assert (Tch : forall x, m2 x = mem t x \/ touched O (nul t) x).
  { intro x. destruct (N.eq_dec x (n + 24)) as [E|E].
    - right. exists n. split; auto. destruct Nc as [Nc|Nc]; auto. right.
      destruct (ElemO n (inl n (or_intror Nc))) as (sz & Oz & _). eauto.
    - destruct (N.eq_dec x (p + 16)) as [E'|E'].
      + right. exists p. split; auto. destruct Pc as [Pc|Pc]; auto. right.
        destruct (ElemO p (inl p (or_introl Pc))) as (sz & Oz & _). eauto.
      + left. auto. }
  (* distances *)
  assert (FarO : forall z sz, O z sz -> far z (nul t)) by (intros z sz Z; apply (F1 z sz); auto).
  assert (dist : forall z z', (In z (A ++ y :: C) \/ z = nul t) -> (In z' (A ++ y :: C) \/ z' = nul t) ->
                 z = z' \/ far z z').
  { intros z z' [Z|Z] [Z'|Z'].
    - destruct (ElemO z Z) as (sz & Oz & _). destruct (ElemO z' Z') as (sz' & Oz' & _).
      destruct (F2 _ _ _ _ Oz Oz') as [[? _]|]; auto.
    - destruct (ElemO z Z) as (sz & Oz & _). right. rewrite Z'. eauto.
    - destruct (ElemO z' Z') as (sz & Oz & _). right. rewrite Z. apply FarO in Oz. unfold far in *. lia.
    - left. congruence. }
  assert (Pin : In p (A ++ y :: C) \/ p = nul t) by (destruct Pc; auto).
  assert (Nin : In n (A ++ y :: C) \/ n = nul t) by (destruct Nc; auto).
  (* the new list *)
  assert (ND : NoDup (nul t :: A ++ y :: C)) by (constructor; auto).
  assert (ND' : NoDup (A ++ C)) by (eapply NoDup_remove_1; eauto).
  assert (New : dll m2 (nul t) (nul t) (A ++ C)).
  { apply (dll_remove (mem t) m2 (nul t) y C A (nul t)); auto.
    - intros b Eb. destruct C as [|b' C]; [discriminate|]. cbn in Eb. inv Eb. cbn [hd] in n. subst n.
      fold p. unfold m2. rewrite upd_other.
      + unfold m1. apply upd_same.
      + destruct (dist b p Nin Pin) as [E|E]; [|unfold far in E; lia].
        intro; lia.
    - intros _. unfold m2. apply upd_same.
    - intros z Hz Hh. apply in_app_or in Hz. apply M2.
      + assert (z <> n).
        { intro E. subst z. destruct C as [|b C]; [|cbn in *; congruence]. cbn [hd] in n. subst n.
          destruct Hz as [Hz|[]]. apply NnulL. auto. }
        destruct (dist z n (or_introl (inl z Hz)) Nin) as [E|E]; [congruence|]. unfold far in E. lia.
      + destruct (dist z p (or_introl (inl z Hz)) Pin) as [E|E]; [subst; lia|]. unfold far in E. lia.
    - intros z Hz Hl. apply in_app_or in Hz. fold p in Hl. apply M2.
      + destruct (dist z n (or_introl (inl z Hz)) Nin) as [E|E]; [subst; lia|]. unfold far in E. lia.
      + destruct (dist z p (or_introl (inl z Hz)) Pin) as [E|E]; [congruence|]. unfold far in E. lia. }
  (* lists of other classes *)
  assert (Uniq : forall z s1 s2, O z s1 -> O z s2 -> s1 = s2).
  { intros z s1 s2 P Q. destruct (F2 z s1 z s2 P Q) as [[_ ->]|G]; auto. unfold far in G; lia. }
  assert (Oth : forall i j, i < 25 -> j < 32 -> (i, j) <> (fl, sl) ->
            dll m2 (nul t) (nul t) (L i j) /\ NoDup (L i j) /\
            (forall z, In z (L i j) <-> exists s', (O z s' /\ z <> y) /\ mapping_insert s' = (i, j))).
  { intros i j Hi Hj Ne. destruct (HL i j Hi Hj) as (G1 & G2 & G3 & G4 & G5).
    split; [|split; auto].
    - apply (dll_frame (mem t)); auto. intros z Hz. apply G5 in Hz. destruct Hz as (sz & Oz & Mz).
      assert (K : forall q, In q (A ++ y :: C) \/ q = nul t -> far z q).
      { intros q [Q|Q]; [|subst; eauto]. destruct (ElemO q Q) as (sq & Oq & Mq).
        destruct (F2 _ _ _ _ Oz Oq) as [[E1 E2]|G]; auto. congruence. }
      pose proof (K p Pin). pose proof (K n Nin). unfold far in *. split; apply M2; lia.
    - intro z. rewrite G5. split.
      + intros (s' & P & Q). exists s'. split; auto. split; auto. intro E. subst z.
        rewrite (Uniq _ _ _ P Oy) in Q. congruence.
      + intros (s' & (P & _) & Q). eauto. }
  assert (Mem : forall z, In z (A ++ C) <-> exists s', (O z s' /\ z <> y) /\ mapping_insert s' = (fl, sl)).
  { intro z. split.
    - intro Z. apply in_app_or in Z. destruct (ElemO z (inl z Z)) as (sz & Oz & Mz). exists sz.
      split; auto. split; auto. intro E. subst z. apply NoDup_remove_2 in A4. apply A4. apply in_or_app. auto.
    - intros (s' & (P & Ne) & Q). assert (Z : In z (A ++ y :: C)) by (apply A5; eauto).
      apply in_app_or in Z. apply in_or_app. destruct Z as [Z|[Z|Z]]; auto. congruence. }
  assert (FiledN : Filed (fun z s' => O z s' /\ z <> y) (nul t)).
  { split; [intros z s' [P _]; apply F1; auto|]. intros z s1 z' s2 [P _] [Q _]. apply F2; auto. }
  destruct B as [Bf Bs].
  unfold get_hd, FL_INDEX_COUNT, SL_INDEX_COUNT.
  destruct (N.ltb_spec fl 25); [|lia]. destruct (N.ltb_spec sl 32); [|lia]. cbn [andb defined bind].
  cbn [hds set_mem]. rewrite A1.
  destruct (N.eqb_spec (hd (nul t) (A ++ y :: C)) y) as [Eh|Eh].
  - (* y was the head *)
    assert (A = []).
    { destruct A as [|a A]; auto. cbn in Eh. subst a. cbn in A4. inv A4. exfalso. apply H3.
      apply in_or_app. right. left. auto. }
    subst A. cbn [app] in *.
    unfold set_hd, FL_INDEX_COUNT, SL_INDEX_COUNT.
    destruct (N.ltb_spec fl 25); [|lia]. destruct (N.ltb_spec sl 32); [|lia]. cbn [andb defined bind].
    cbn [nul mem flb slb hds set_mem].
    destruct (N.eqb_spec n (nul t)) as [En|En].
    + (* the list is empty now *)
      assert (C = []).
      { destruct C as [|b C]; auto. exfalso. apply NnulL. rewrite <- En. right. left. reflexivity. }
      subst C.
      unfold get_sl, set_sl, FL_INDEX_COUNT. cbn [slb nul mem flb hds].
      destruct (N.ltb_spec fl 25); [|lia]. cbn [defined bind].
      unfold bit32. destruct (N.ltb_spec sl 32); [|lia]. cbn [defined bind].
      destruct (N.ltb_spec fl 25); [|lia]. cbn [defined bind slb].
      rewrite N.eqb_refl.
      set (w := N.ldiff (slb t fl) (N.shiftl 1 sl)).
      assert (CLS : forall i j, i < 25 -> j < 32 -> forall f,
        class_ok (mkT m2 (nul t) f (fun i => if i =? fl then w else slb t i)
                      (fun i j => if (i =? fl) && (j =? sl) then n else hds t i j))
                 (fun z s' => O z s' /\ z <> y) i j (if (i =? fl) && (j =? sl) then [] else L i j)).
      { intros i j Hi Hj f. unfold class_ok. cbn [hds slb mem nul].
        destruct ((i =? fl) && (j =? sl)) eqn:Eij.
        - apply mapping_pair_eqb in Eij. injection Eij as -> ->. rewrite N.eqb_refl. split; [auto|].
          split; [unfold w; rewrite bit_clear, N.eqb_refl, andb_false_r; split; congruence|].
          split; [exact I|]. split; [constructor|]. exact Mem.
        - assert (Ne : (i, j) <> (fl, sl)) by (intro K; apply mapping_pair_eqb in K; congruence).
          destruct (HL i j Hi Hj) as (G1 & G2 & _). split; [auto|]. split.
          + destruct (N.eqb_spec i fl) as [->|Nf]; auto. unfold w. rewrite bit_clear.
            destruct (N.eqb_spec j sl) as [->|Nj]; [congruence|]. rewrite andb_true_r. auto.
          + apply Oth; auto. }
      destruct (N.eqb_spec w 0) as [W|W].
      * destruct (N.ltb_spec fl 32); [|lia]. cbn [defined bind set_flb].
        eexists. split; [reflexivity|]. cbn [nul mem set_flb]. split; [auto|]. split; [exact D2|]. split; [exact Tch|].
        split.
        { split; cbn [flb slb set_flb].
          - apply ldiff_lt. auto.
          - intros i Hi. destruct (Bs i Hi) as [B1 B2]. rewrite bit_clear.
            destruct (N.eqb_spec i fl) as [->|Nf].
            + split; [rewrite W; lia|]. rewrite andb_false_r. split; congruence.
            + rewrite andb_true_r. auto. }
        cbn [nul mem set_flb]. split; [auto|]. split; [eapply same_dom_some; eauto|]. split; [eapply same_dom_some; eauto|].
        split; [exact FiledN|].
        exists (fun i j => if (i =? fl) && (j =? sl) then [] else L i j).
        intros i j Hi Hj. cbv beta. apply (CLS i j Hi Hj).
      * eexists. split; [reflexivity|]. cbn [nul mem]. split; [auto|]. split; [exact D2|]. split; [exact Tch|].
        split.
        { split; cbn [flb slb].
          - auto.
          - intros i Hi. destruct (Bs i Hi) as [B1 B2].
            destruct (N.eqb_spec i fl) as [->|Nf]; auto.
            split; [apply ldiff_lt; auto|]. split; [auto|]. intros _.
            apply B2. intro Z. apply W. unfold w. rewrite Z. apply N.ldiff_0_l. }
        cbn [nul mem]. split; [auto|]. split; [eapply same_dom_some; eauto|]. split; [eapply same_dom_some; eauto|].
        split; [exact FiledN|].
        exists (fun i j => if (i =? fl) && (j =? sl) then [] else L i j).
        intros i j Hi Hj. cbv beta. apply (CLS i j Hi Hj).
    + assert (C <> []) by (intro; subst; cbn in *; congruence).
      eexists. split; [reflexivity|]. cbn [nul mem]. split; [auto|]. split; [exact D2|]. split; [exact Tch|].
      split; [split; [exact Bf|exact Bs]|].
      cbn [nul mem]. split; [auto|]. split; [eapply same_dom_some; eauto|]. split; [eapply same_dom_some; eauto|].
      split; [exact FiledN|].
      exists (fun i j => if (i =? fl) && (j =? sl) then C else L i j).
      intros i j Hi Hj. cbv beta. unfold class_ok. cbn [hds slb mem nul].
      destruct ((i =? fl) && (j =? sl)) eqn:Eij.
      * apply mapping_pair_eqb in Eij. injection Eij as -> ->. split; [auto|].
        split; [rewrite A2; split; [auto|discriminate]|]. split; [exact New|]. split; [exact ND'|exact Mem].
      * assert (Ne : (i, j) <> (fl, sl)) by (intro K; apply mapping_pair_eqb in K; congruence).
        destruct (HL i j Hi Hj) as (G1 & G2 & _). split; [auto|]. split; [auto|]. apply Oth; auto.
  - (* y was not the head *)
    assert (A <> []) by (intro; subst; cbn in Eh; congruence).
    eexists. split; [reflexivity|]. cbn [nul mem set_mem]. split; [auto|]. split; [exact D2|]. split; [exact Tch|].
    split; [split; [exact Bf|exact Bs]|].
    cbn [nul mem set_mem]. split; [auto|]. split; [eapply same_dom_some; eauto|]. split; [eapply same_dom_some; eauto|].
    split; [exact FiledN|].
    exists (fun i j => if (i =? fl) && (j =? sl) then A ++ C else L i j).
    intros i j Hi Hj. cbv beta. unfold class_ok. cbn [hds slb mem nul set_mem].
    destruct ((i =? fl) && (j =? sl)) eqn:Eij.
    + apply mapping_pair_eqb in Eij. injection Eij as -> ->. rewrite A1. split; [destruct A; [congruence|reflexivity]|].
      split; [rewrite A2; split; [intros _; destruct A; [congruence|discriminate]|intros _; destruct A; discriminate]|].
      split; [exact New|]. split; [exact ND'|exact Mem].
    + assert (Ne : (i, j) <> (fl, sl)) by (intro K; apply mapping_pair_eqb in K; congruence).
      destruct (HL i j Hi Hj) as (G1 & G2 & _). split; [auto|]. split; [auto|]. apply Oth; auto.
Qed.

(* what the search finds is filed, and large enough *)
Lemma locate_find : forall t O r, Lists t O -> r < 2 ^ 32 -> r mod 8 = 0 -> r <> 0 ->
  let '(fl, sl) := mapping_search r in
  match (if fl <? FL_INDEX_COUNT then search_suitable_block t fl sl else Ok None) with
  | Ok None => forall z s, O z s -> ~ class_le (mapping_search r) (mapping_insert s)
  | Ok (Some (b, fl', sl')) => exists s, O b s /\ r <= s /\ mapping_insert s = (fl', sl')
  | _ => False
  end.
Proof.
  intros t O r (B & N0 & N1 & N2 & (F1 & F2) & L & HL) Hr Al Nz.
  pose proof (search_lower r ltac:(lia)) as SL. destruct (mapping_search r) as [fl sl] eqn:Es.
  destruct SL as [Hs _]. unfold FL_INDEX_COUNT. destruct (N.ltb_spec fl 25) as [Hf|Hf].
  - pose proof (search_spec t fl sl B Hf Hs) as S.
    destruct (search_suitable_block t fl sl) as [[[[b fl'] sl']|]| | |]; try contradiction.
    + destruct S as ((If & Is) & Le & Mk & Eb & _). cbn [fst snd] in *.
      destruct (HL fl' sl' If Is) as (A1 & A2 & A3 & A4 & A5).
      unfold marked in Mk. cbn [fst snd] in Mk. apply A2 in Mk.
      assert (I : In b (L fl' sl')).
      { rewrite Eb, A1. destruct (L fl' sl'); [congruence|left; reflexivity]. }
      apply A5 in I. destruct I as (s & Ob & Ms). exists s. split; [auto|]. split; [|auto].
      apply good_fit; [lia|auto|]. rewrite Es, Ms. auto.
    + intros z s Oz Le. assert (Ls : s < 2 ^ 32) by (apply (F1 z s); auto).
      pose proof (mapping_in s Ls) as I. apply (S (mapping_insert s) I Le).
      destruct (mapping_insert s) as [i j] eqn:Em. destruct I as [Ii Ij]. cbn [fst snd] in *.
      destruct (HL i j Ii Ij) as (A1 & A2 & A3 & A4 & A5). unfold marked. cbn [fst snd]. apply A2.
      assert (In z (L i j)) by (apply A5; eauto). destruct (L i j); [contradiction|discriminate].
  - intros z s Oz Le. assert (Ls : s < 2 ^ 32) by (apply (F1 z s); auto).
    destruct (mapping_in s Ls) as [I _]. destruct (mapping_insert s) as [i j]. unfold class_le in Le. cbn [fst snd] in *. lia.
Qed.

(* Proofs about the virtual-memory allocators. *)
From Coq Require Import NArith ZArith List Lia Bool Arith.
Import ListNotations.
From Verif Require Import Base BitsModel BitsSpec BitsProofs AllocModel AllocSpec AllocProofs
  VAllocModel VAllocSpec.
Open Scope N_scope.

Global Arguments N.mul : simpl never.
Global Arguments N.add : simpl never.

(* ---------- pages ---------- *)
Lemma page_bounds : forall x, 4096 * page x <= x /\ x < 4096 * page x + 4096.
Proof.
  intro x. unfold page. pose proof (N.div_mod x 4096 ltac:(lia)). pose proof (N.mod_lt x 4096 ltac:(lia)).
  set (d := x / 4096) in *. set (r := x mod 4096) in *. clearbody d r. lia.
Qed.
Lemma page_uniq : forall x p, 4096 * p <= x -> x < 4096 * p + 4096 -> page x = p.
Proof. intros x p H1 H2. pose proof (page_bounds x). lia. Qed.
Lemma page_mult : forall a, page (4096 * a) = a.
Proof. intro a. apply page_uniq; lia. Qed.
Lemma page_mono : forall x y, x <= y -> page x <= page y.
Proof. intros. pose proof (page_bounds x). pose proof (page_bounds y). lia. Qed.

Lemma pow2_4096 : pow2 4096. Proof. exists 12. split; reflexivity. Qed.

(* ---------- commit / decommit: whole pages around the range ---------- *)
Lemma commit_pages : forall ptr sz, ptr + sz + 8192 < 2 ^ 64 ->
  let np := align_down 64 ptr 4096 in
  let ns := align_up 64 (wadd 64 sz (wsub 64 ptr np)) 4096 in
  page np = page ptr /\ page (np + ns) = page (ptr + sz + 4095).
Proof.
  intros ptr sz H. cbv zeta.
  assert (E : align_down 64 ptr 4096 = 4096 * page ptr).
  { pose proof (align_down_eq 64 ptr 12 ltac:(lia) ltac:(unfold is_word; lia) ltac:(lia)) as A.
    change (2 ^ 12) with 4096 in A. rewrite A.
    pose proof (N.div_mod ptr 4096 ltac:(lia)) as D. unfold page.
    set (d := ptr / 4096) in *. set (r := ptr mod 4096) in *. clearbody d r. lia. }
  rewrite E. split; [apply page_mult|].
  pose proof (page_bounds ptr) as B.
  rewrite wsub_ge by lia. unfold wadd. rewrite wrap_small by lia.
  destruct (lma_exists 4096 (sz + (ptr - 4096 * page ptr)) ltac:(lia)) as (r & Hr).
  pose proof (lma_lt 4096 _ _ eq_refl Hr) as L.
  rewrite (align_up_exact _ _ r pow2_4096) by (auto; lia).
  destruct Hr as ((c & ->) & G & _). symmetry.
  replace (4096 * page ptr + c * 4096) with (4096 * (page ptr + c)) by lia.
  rewrite page_mult. apply page_uniq; lia.
Qed.

Lemma commit_exact : forall v ptr sz, ptr + sz + 8192 < 2 ^ 64 ->
  commit v ptr sz =
    if (rlo v <=? page ptr) && (page (ptr + sz + 4095) <=? rhi v)
    then Ok (mkvm (rlo v) (rhi v)
               (fun p => if (page ptr <=? p) && (p <? page (ptr + sz + 4095)) then true else acc v p) (byt v))
    else Contract.
Proof.
  intros v ptr sz H. destruct (commit_pages ptr sz H) as (E1 & E2). unfold commit, protect. cbv zeta in *.
  rewrite E1, E2. destruct (_ && _); reflexivity.
Qed.
Lemma decommit_exact : forall v ptr sz, ptr + sz + 8192 < 2 ^ 64 ->
  decommit v ptr sz =
    if (rlo v <=? page ptr) && (page (ptr + sz + 4095) <=? rhi v)
    then Ok (mkvm (rlo v) (rhi v)
               (fun p => if (page ptr <=? p) && (p <? page (ptr + sz + 4095)) then false else acc v p) (byt v))
    else Contract.
Proof.
  intros v ptr sz H. destruct (commit_pages ptr sz H) as (E1 & E2). unfold decommit, protect. cbv zeta in *.
  rewrite E1, E2. destruct (_ && _); reflexivity.
Qed.

(* addresses of [lo, hi) are accessible *)
Definition avail (v : vm) (lo hi : N) : Prop := forall x, lo <= x -> x < hi -> acc v (page x) = true.

Lemma usable_avail : forall v lo hi a n, avail v lo hi -> lo <= a -> a + n <= hi -> usable v a n = true.
Proof.
  intros v lo hi a n H Hl Hh. unfold usable. apply forallb_forall. intros p Hp. unfold pages_of in Hp.
  destruct (N.eqb_spec n 0); [destruct Hp|].
  apply in_map_iff in Hp. destruct Hp as (i & <- & Hi). apply in_seq in Hi.
  pose proof (page_bounds a). pose proof (page_bounds (a + n - 1)).
  pose proof (page_mono a (a + n - 1) ltac:(lia)).
  set (p := page a + N.of_nat i). assert (Hp : page a <= p /\ p <= page (a + n - 1)) by (unfold p; lia).
  clearbody p. destruct (N.le_gt_cases (4096 * p) a) as [L|G].
  - assert (p = page a) by lia. subst p. apply H; lia.
  - rewrite <- (page_mult p). apply H; lia.
Qed.

Section Grow.
  Variables b max : N.
  Hypothesis Hb : 0 < b.
  Hypothesis Htop : b + max <= 2 ^ 62.

  Definition reserved (v : vm) : Prop := rlo v = page b /\ rhi v = page (b + max + 4095).

  Lemma grow_exact : forall v cur pe ch num r, reserved v -> pow2 ch -> ch <= 2 ^ 61 ->
    b <= cur -> cur <= pe -> pe <= b + max -> num <= 2 ^ 63 ->
    least_multiple_above ch num r ->
    (cur + num <= pe -> grow v cur pe (b + max) ch num = Ok (v, pe)) /\
    (pe < cur + num -> pe + r <= b + max ->
       exists v', grow v cur pe (b + max) ch num = Ok (v', pe + r) /\ reserved v' /\ byt v' = byt v /\
         (avail v b pe -> avail v' b (pe + r))) /\
    (pe < cur + num -> b + max < pe + r -> grow v cur pe (b + max) ch num = Contract).
  Proof.
    intros v cur pe ch num r (R1 & R2) Hc Hc' H1 H2 H3 Hn Hr.
    destruct (pow2_pos' _ Hc) as (Hc0 & _). pose proof (lma_lt _ _ _ Hc0 Hr) as L.
    unfold grow. rewrite wadd_small by lia.
    rewrite (align_up_exact num ch r) by (auto; lia). rewrite wadd_small by lia.
    split; [|split].
    - intro H. destruct (N.leb_spec (cur + num) pe); [reflexivity|lia].
    - intros H Hf. destruct (N.leb_spec (cur + num) pe); [lia|].
      destruct (N.leb_spec (pe + r) (b + max)); [|lia]. cbn [contract bind].
      rewrite commit_exact by lia. rewrite R1, R2.
      destruct (N.leb_spec (page b) (page pe)) as [|X]; [|pose proof (page_mono b pe); lia].
      destruct (N.leb_spec (page (pe + r + 4095)) (page (b + max + 4095))) as [|X];
        [|pose proof (page_mono (pe + r + 4095) (b + max + 4095)); lia].
      cbn [andb bind]. eexists. split; [reflexivity|]. split; [split; reflexivity|]. split; [reflexivity|].
      intros A x Hx1 Hx2. cbn [acc].
      destruct (N.leb_spec (page pe) (page x)) as [P|P].
      + pose proof (page_bounds x). pose proof (page_bounds (pe + r + 4095)).
        destruct (N.ltb_spec (page x) (page (pe + r + 4095))); [reflexivity|lia].
      + cbn [andb]. apply A; [lia|]. destruct (N.lt_ge_cases x pe); auto.
        pose proof (page_mono pe x ltac:(lia)). lia.
    - intros H Hf. destruct (N.leb_spec (cur + num) pe); [lia|].
      destruct (N.leb_spec (pe + r) (b + max)); [lia|reflexivity].
  Qed.

  Lemma grow_inv : forall v cur pe ch num v' pe', reserved v -> pow2 ch -> ch <= 2 ^ 61 ->
    b <= cur -> cur <= pe -> pe <= b + max -> num <= 2 ^ 63 -> avail v b pe ->
    grow v cur pe (b + max) ch num = Ok (v', pe') ->
    reserved v' /\ byt v' = byt v /\ avail v' b pe' /\ cur + num <= pe' /\ pe <= pe' /\ pe' <= b + max.
  Proof.
    intros v cur pe ch num v' pe' R Hc Hc' H1 H2 H3 Hn A G.
    destruct (pow2_pos' _ Hc) as (Hc0 & _). destruct (lma_exists ch num Hc0) as (r & Hr).
    destruct (grow_exact v cur pe ch num r R Hc Hc' H1 H2 H3 Hn Hr) as (G1 & G2 & G3).
    destruct (N.le_gt_cases (cur + num) pe) as [L|L].
    - rewrite (G1 L) in G. assert (v' = v /\ pe' = pe) as (-> & ->) by (split; congruence).
      split; [auto|]. split; [auto|]. split; [auto|]. lia.
    - destruct (N.le_gt_cases (pe + r) (b + max)) as [M|M].
      + destruct (G2 L M) as (w & E & Rw & Bw & Aw). rewrite E in G.
        assert (v' = w /\ pe' = pe + r) as (-> & ->) by (split; congruence).
        split; [auto|]. split; [auto|]. split; [auto|].
        destruct Hr as (_ & Hge & _). lia.
      + rewrite (G3 L M) in G. discriminate.
  Qed.

  (* giving back the pages above an address that is a multiple of a chunk of whole pages *)
  Lemma decommit_inv : forall v ptr pe v', reserved v -> (4096 | ptr) -> ptr <= pe -> pe <= b + max ->
    avail v b pe -> decommit v ptr (pe - ptr) = Ok v' ->
    reserved v' /\ byt v' = byt v /\ avail v' b ptr.
  Proof.
    intros v ptr pe v' (R1 & R2) (c & Hc) H1 H2 A D. rewrite decommit_exact in D by lia.
    destruct (_ && _); [|discriminate].
    match type of D with Ok ?x = _ => assert (v' = x) by congruence end. subst v'.
    split; [split; auto|]. split; [reflexivity|]. intros x Hx1 Hx2. cbn [acc].
    assert (page ptr = c) by (rewrite Hc, N.mul_comm; apply page_mult).
    pose proof (page_bounds x).
    destruct (N.leb_spec (page ptr) (page x)); [lia|]. cbn [andb]. apply A; lia.
  Qed.
End Grow.

Lemma chunk_page : forall ch x p, pow2 ch -> 4096 <= ch -> least_multiple_above ch x p -> (4096 | p).
Proof.
  intros ch x p (k & Hk & ->) H ((c & ->) & _).
  assert (12 <= k). { apply N.pow_le_mono_r_iff with 2; [lia|]. exact H. }
  exists (c * 2 ^ (k - 12)). change 4096 with (2 ^ 12). rewrite <- N.mul_assoc, <- N.pow_add_r.
  f_equal. f_equal. lia.
Qed.

(* ---------- virtual_linear_allocator ---------- *)
Section VLinP.
  Variables b max ch : N.
  Hypothesis Hsane : sane_reservation b max ch.

  Definition lhdr (l : list block) (x : N) : Prop := exists q, In q l /\ addr q <= x + 8 /\ x < addr q.

  (* blocks stacked upwards from b, each with its size stored in front; top is the end of the latest *)
  Fixpoint lchain (top : N) (l : list block) (m : bytes) : Prop :=
    match l with
    | [] => top = b
    | q :: t => top = addr q + size q /\ well_aligned q /\ size q <= 2 ^ 61 /\
                load m (addr q - 8) 8 = size q /\
                exists top', top' + 8 <= addr q /\ lchain top' t m
    end.

  Lemma lchain_ge : forall l top m, lchain top l m -> b <= top.
  Proof.
    induction l as [|q t IH]; intros top m H; cbn in H; [lia|].
    destruct H as (-> & _ & _ & _ & top' & H1 & C). apply IH in C. lia.
  Qed.
  Lemma lchain_below : forall l top m q, lchain top l m -> In q l -> b + 8 <= addr q /\ addr q + size q <= top.
  Proof.
    induction l as [|r t IH]; intros top m q H HI; [destruct HI|]. cbn in H.
    destruct H as (-> & _ & _ & _ & top' & H1 & C). pose proof (lchain_ge _ _ _ C).
    destruct HI as [->|HI]; [lia|]. apply (IH _ _ _ C) in HI. lia.
  Qed.
  Lemma lchain_lower : forall q t top m r, lchain top (q :: t) m -> In r t -> addr r + size r + 8 <= addr q.
  Proof.
    intros q t top m r H HI. cbn in H. destruct H as (-> & _ & _ & _ & top' & H1 & C).
    apply (lchain_below _ _ _ _ C) in HI. lia.
  Qed.
  Lemma lchain_hdr_free : forall l top m q x, lchain top l m -> In q l -> holds q x -> ~ lhdr l x.
  Proof.
    induction l as [|r t IH]; intros top m q x H HI Hx (r' & HI' & X1 & X2); [destruct HI|].
    cbn in H. destruct H as (-> & _ & _ & _ & top' & H1 & C). unfold holds in Hx.
    destruct HI as [->|HI], HI' as [->|HI'].
    - lia.
    - apply (lchain_below _ _ _ _ C) in HI'. lia.
    - apply (lchain_below _ _ _ _ C) in HI. lia.
    - apply (IH _ _ _ _ C HI Hx). exists r'. auto.
  Qed.
  Lemma lchain_frame : forall l top m m', lchain top l m -> top < 2 ^ 64 ->
    (forall x, x < 2 ^ 64 -> lhdr l x -> m x = m' x) -> lchain top l m'.
  Proof.
    induction l as [|q t IH]; intros top m m' H Ht F; cbn in *; [auto|].
    destruct H as (-> & A & S & L & top' & H1 & C). pose proof (lchain_ge _ _ _ C).
    split; [auto|]. split; [auto|]. split; [auto|]. split.
    - rewrite <- L. symmetry. apply load_ext; [lia|]. intros x Hx. apply F; [lia|].
      exists q. split; [left; auto|]. lia.
    - exists top'. split; [auto|]. apply IH with m; auto; [lia|].
      intros x Hx (r & HI & X). apply F; [auto|]. exists r. split; [right; auto|auto].
  Qed.
  Lemma lchain_good : forall l top m, lchain top l m -> good_blocks b top l.
  Proof.
    induction l as [|q t IH]; intros top m H; cbn in H.
    - split; [constructor|]. split; constructor.
    - destruct H as (-> & A & S & L & top' & H1 & C). pose proof (lchain_ge _ _ _ C).
      eapply good_cons; [exact (IH _ _ C)|lia|lia|auto].
  Qed.
  Lemma lchain_header : forall l top m q, lchain top l m -> In q l -> load m (addr q - 8) 8 = size q.
  Proof.
    induction l as [|r t IH]; intros top m q H HI; [destruct HI|]. cbn in H.
    destruct H as (-> & A & S & L & top' & H1 & C). destruct HI as [->|HI]; eauto.
  Qed.

  Definition vinv (st : VLin.state) (l : list block) : Prop :=
    VLin.vb st = b /\ VLin.ve st = b + max /\ VLin.chunk st = ch /\
    reserved b max (VLin.mem st) /\
    VLin.cur st <= VLin.pe st /\ VLin.pe st <= b + max /\ avail (VLin.mem st) b (VLin.pe st) /\
    lchain (VLin.cur st) l (byt (VLin.mem st)) /\
    match l with [] => VLin.last st = 0 | q :: _ => VLin.last st = addr q end.

  Lemma vlin_alloc : forall st l s a p, vinv st l -> sane_request s a ->
    least_multiple_above a (VLin.cur st + 8) p ->
    p + s <= 2 ^ 63 /\ 8 + VLin.cur st <= p /\
    ((exists v' pe', grow (VLin.mem st) (VLin.cur st) (VLin.pe st) (b + max) ch (p + s - VLin.cur st) = Ok (v', pe')
       /\ VLin.alloc st s a = Ok (VLin.mkst b (b + max) (p + s) pe' p ch
            (mkvm (rlo v') (rhi v') (acc v') (store (byt v') (p - 8) 8 s)), p)
       /\ vinv (VLin.mkst b (b + max) (p + s) pe' p ch
            (mkvm (rlo v') (rhi v') (acc v') (store (byt v') (p - 8) 8 s))) (mkb p s a :: l)
       /\ byt v' = byt (VLin.mem st))
     \/ (grow (VLin.mem st) (VLin.cur st) (VLin.pe st) (b + max) ch (p + s - VLin.cur st) = Contract
         /\ VLin.alloc st s a = Contract)).
  Proof.
    intros st l s a p (B & E & Ch & R & I1 & I2 & A & C & La) (Ha & Ha' & Hs) Hm.
    destruct Hsane as (Hb & _ & _ & Ht & Hc & Hc').
    destruct (pow2_pos' _ Ha) as (Ha0 & _).
    pose proof (lma_lt _ _ _ Ha0 Hm) as L. assert (Hge : VLin.cur st + 8 <= p) by apply Hm.
    pose proof (lchain_ge _ _ _ C) as Hcur.
    split; [lia|]. split; [lia|].
    unfold VLin.alloc. rewrite B, E, Ch. destruct (N.eqb_spec b 0); [lia|]. cbn [negb contract bind].
    rewrite (wadd_small 64 (VLin.cur st) 8) by lia.
    rewrite (align_up_exact _ _ p) by (auto; lia).
    rewrite (wsub_ge 64 p (VLin.cur st)) by lia. rewrite (wadd_small 64 (p - VLin.cur st) s) by lia.
    replace (p - VLin.cur st + s) with (p + s - VLin.cur st) by lia.
    destruct (lma_exists ch (p + s - VLin.cur st) (proj1 (pow2_pos' _ Hc))) as (r & Hr).
    destruct (grow_exact b max Hb Ht (VLin.mem st) (VLin.cur st) (VLin.pe st) ch (p + s - VLin.cur st) r R Hc Hc'
                Hcur I1 I2 ltac:(lia) Hr) as (G1 & G2 & G3).
    assert (K : (exists v' pe', grow (VLin.mem st) (VLin.cur st) (VLin.pe st) (b + max) ch (p + s - VLin.cur st) = Ok (v', pe'))
                \/ grow (VLin.mem st) (VLin.cur st) (VLin.pe st) (b + max) ch (p + s - VLin.cur st) = Contract).
    { destruct (N.le_gt_cases (VLin.cur st + (p + s - VLin.cur st)) (VLin.pe st)); [left; eauto|].
      destruct (N.le_gt_cases (VLin.pe st + r) (b + max)) as [M|M]; [|right; auto].
      left. destruct (G2 ltac:(lia) M) as (w & Ew & _). eauto. }
    destruct K as [(v' & pe' & G)|G]; [left|right].
    - exists v', pe'. split; [auto|].
      assert (Hnum : p + s - VLin.cur st <= 2 ^ 63) by lia.
      destruct (grow_inv b max Hb Ht _ _ _ ch _ v' pe' R Hc Hc' Hcur I1 I2 Hnum A G)
        as (R' & B' & A' & F1 & F2 & F3).
      rewrite G. cbn [bind]. unfold vstore. rewrite (wsub_ge 64 p 8) by lia.
      rewrite (usable_avail v' b pe') by (auto; lia). cbn [defined bind].
      rewrite wadd_small by lia. split; [reflexivity|]. split; [|auto].
      unfold vinv. cbn [VLin.vb VLin.ve VLin.cur VLin.pe VLin.last VLin.chunk VLin.mem byt].
      split; [auto|]. split; [auto|]. split; [auto|]. split; [exact R'|]. split; [lia|]. split; [auto|].
      split; [exact A'|]. split; [|reflexivity].
      cbn [lchain addr size]. split; [auto|]. split; [apply Hm|]. split; [lia|]. split.
      + apply load_store; [lia|]. change (256 ^ N.of_nat 8) with (2 ^ 64). lia.
      + exists (VLin.cur st). split; [lia|]. rewrite B'.
        eapply lchain_frame; [exact C|lia|]. intros x Hx (q & HI & X1 & X2).
        pose proof (lchain_below _ _ _ _ C HI). rewrite store_other by lia. reflexivity.
    - split; [auto|]. rewrite G. reflexivity.
  Qed.

  Lemma vlin_size : forall st l q, vinv st l -> In q l ->
    VLin.get_allocation_size st (addr q) = Ok (Some (size q)).
  Proof.
    intros st l q (B & E & Ch & R & I1 & I2 & A & C & La) HI. destruct Hsane as (Hb & _ & _ & Ht & _).
    pose proof (lchain_below _ _ _ _ C HI). unfold VLin.get_allocation_size.
    destruct (N.eqb_spec (addr q) 0); [lia|]. unfold vload. rewrite wsub_ge by lia.
    rewrite (usable_avail _ b (VLin.pe st)) by (auto; lia). cbn [defined bind].
    rewrite (lchain_header _ _ _ _ C HI). reflexivity.
  Qed.

  (* realloc of the latest block *)
  Lemma vlin_realloc_latest : forall st q l n a', vinv st (q :: l) -> n <= 2 ^ 60 ->
    (exists v' pe', VLin.realloc st (addr q) n a' = Ok (VLin.mkst b (b + max) (addr q + n) pe' (addr q) ch
            (mkvm (rlo v') (rhi v') (acc v') (store (byt (VLin.mem st)) (addr q - 8) 8 n)), addr q)
       /\ vinv (VLin.mkst b (b + max) (addr q + n) pe' (addr q) ch
            (mkvm (rlo v') (rhi v') (acc v') (store (byt (VLin.mem st)) (addr q - 8) 8 n))) (mkb (addr q) n (align q) :: l))
    \/ VLin.realloc st (addr q) n a' = Contract.
  Proof.
    intros st q l n a' Hv Hn. pose proof (vlin_size st (q :: l) q Hv (or_introl eq_refl)) as Sz.
    destruct Hv as (B & E & Ch & R & I1 & I2 & A & C & La). destruct Hsane as (Hb & _ & _ & Ht & Hc & Hc').
    pose proof (lchain_below _ _ _ _ C (or_introl eq_refl)) as Bl. pose proof (lchain_ge _ _ _ C) as Hcur.
    unfold VLin.realloc. rewrite La, N.eqb_refl. destruct (N.eqb_spec (addr q) 0); [lia|]. cbn [negb orb].
    rewrite Sz. cbn [bind]. pose proof C as C0. cbn [lchain] in C.
    destruct C as (Top & Al & Hs & Ld & top' & H1 & C).
    rewrite wsub_ge by lia. replace (VLin.cur st - addr q) with (size q) by lia. rewrite N.eqb_refl. cbn [contract bind].
    rewrite B, E, Ch.
    assert (K : (exists v' pe', (if size q <? n
                  then grow (VLin.mem st) (VLin.cur st) (VLin.pe st) (b + max) ch (n - size q)
                  else Ok (VLin.mem st, VLin.pe st)) = Ok (v', pe')
                  /\ reserved b max v' /\ byt v' = byt (VLin.mem st) /\ avail v' b pe' /\ addr q + n <= pe'
                  /\ pe' <= b + max)
                \/ (if size q <? n
                  then grow (VLin.mem st) (VLin.cur st) (VLin.pe st) (b + max) ch (n - size q)
                  else Ok (VLin.mem st, VLin.pe st)) = Contract).
    { destruct (N.ltb_spec (size q) n).
      - destruct (lma_exists ch (n - size q) (proj1 (pow2_pos' _ Hc))) as (r & Hr).
        destruct (grow_exact b max Hb Ht (VLin.mem st) (VLin.cur st) (VLin.pe st) ch (n - size q) r R Hc Hc'
                Hcur I1 I2 ltac:(lia) Hr) as (G1 & G2 & G3).
        assert (K : (exists v' pe', grow (VLin.mem st) (VLin.cur st) (VLin.pe st) (b + max) ch (n - size q) = Ok (v', pe'))
                \/ grow (VLin.mem st) (VLin.cur st) (VLin.pe st) (b + max) ch (n - size q) = Contract).
        { destruct (N.le_gt_cases (VLin.cur st + (n - size q)) (VLin.pe st)); [left; eauto|].
          destruct (N.le_gt_cases (VLin.pe st + r) (b + max)) as [M|M]; [|right; auto].
          left. destruct (G2 ltac:(lia) M) as (w & Ew & _). eauto. }
        destruct K as [(v' & pe' & G)|G]; [left|right; auto].
        assert (Hnum : n - size q <= 2 ^ 63) by lia.
        destruct (grow_inv b max Hb Ht _ _ _ ch _ v' pe' R Hc Hc' Hcur I1 I2 Hnum A G)
          as (R' & B' & A' & F1 & F2 & F3).
        exists v', pe'. split; [auto|]. split; [auto|]. split; [auto|]. split; [auto|]. lia.
      - left. exists (VLin.mem st), (VLin.pe st). split; [auto|]. split; [auto|]. split; [auto|]. split; [auto|]. lia. }
    destruct K as [(v' & pe' & -> & R' & B' & A' & F1 & F3)| ->]; [left|right; reflexivity].
    cbn [bind]. exists v', pe'. unfold vstore. rewrite (wsub_ge 64 (addr q) 8) by lia.
    rewrite (usable_avail v' b pe') by (auto; lia). cbn [defined bind].
    rewrite wadd_small by lia. rewrite B'. split; [reflexivity|].
    unfold vinv. cbn [VLin.vb VLin.ve VLin.cur VLin.pe VLin.last VLin.chunk VLin.mem byt].
    split; [auto|]. split; [auto|]. split; [auto|]. split; [exact R'|]. split; [lia|]. split; [auto|].
    split; [exact A'|]. split; [|reflexivity].
    cbn [lchain addr size]. split; [auto|]. split; [exact Al|]. split; [lia|]. split.
    - apply load_store; [lia|]. change (256 ^ N.of_nat 8) with (2 ^ 64). lia.
    - exists top'. split; [lia|].
      eapply lchain_frame; [exact C|lia|]. intros x Hx (r & HI & X1 & X2).
      pose proof (lchain_below _ _ _ _ C HI). rewrite store_other by lia. reflexivity.
  Qed.

  (* realloc of an older block: a new block with the common prefix copied *)
  Lemma vlin_realloc_other : forall st r l q n a, vinv st (r :: l) -> In q l -> 0 < n -> sane_request n a ->
    VLin.realloc st (addr q) n a = Contract \/
    exists st' p, VLin.realloc st (addr q) n a = Ok (st', p) /\ vinv st' (mkb p n a :: r :: l) /\
      (forall i, i < N.min (size q) n -> byt (VLin.mem st') (p + i) = byt (VLin.mem st) (addr q + i)) /\
      (forall x, x < VLin.cur st -> byt (VLin.mem st') x = byt (VLin.mem st) x).
  Proof.
    intros st r l q n a Hv HI Hn Hr. destruct (lma_exists a (VLin.cur st + 8) (proj1 (pow2_pos' _ (proj1 Hr)))) as (p & Hm).
    destruct (vlin_alloc st (r :: l) n a p Hv Hr Hm) as (Hps & Hge & K).
    pose proof Hv as (B & E & Ch & R & I1 & I2 & A & C & La).
    pose proof (lchain_lower _ _ _ _ _ C HI) as Lw.
    pose proof (lchain_below _ _ _ _ C (or_intror HI)) as Bl.
    pose proof (lchain_below _ _ _ _ C (or_introl eq_refl)) as Br.
    unfold VLin.realloc. destruct (N.eqb_spec (addr q) 0); [lia|]. rewrite La.
    destruct (N.eqb_spec (addr q) (addr r)); [lia|]. cbn [negb orb].
    unfold VLin.default_realloc. destruct (N.ltb_spec 0 n); [|lia].
    destruct K as [(v' & pe' & G & Al & Hv' & B')|(_ & ->)]; [right|left; reflexivity].
    rewrite Al. cbn [bind]. destruct (N.eqb_spec (addr q) 0); [lia|]. cbn [negb].
    rewrite (vlin_size _ _ q Hv' (or_intror (or_intror HI))). cbn [bind].
    pose proof Hv' as (_ & _ & _ & R' & J1 & J2 & A' & C' & La').
    cbn [VLin.vb VLin.ve VLin.cur VLin.pe VLin.last VLin.chunk VLin.mem byt] in *.
    unfold vcopy.
    rewrite (usable_avail _ b pe' p) by (auto; lia). rewrite (usable_avail _ b pe' (addr q)) by (auto; lia).
    cbn [andb defined bind].
    destruct (N.leb_spec (addr q + N.min (size q) n) p); [|lia]. rewrite orb_true_r. cbn [orb defined bind].
    eexists. exists p. split; [reflexivity|]. split; [|split].
    - unfold vinv. cbn [VLin.vb VLin.ve VLin.cur VLin.pe VLin.last VLin.chunk VLin.mem byt].
      split; [auto|]. split; [auto|]. split; [auto|]. split; [exact R'|]. split; [auto|]. split; [auto|].
      split; [exact A'|]. split; [|reflexivity].
      eapply lchain_frame; [exact C'|lia|]. intros x Hx Hh. cbn [byt].
      destruct (N.leb_spec p x); cbn [andb]; [|reflexivity].
      destruct (N.ltb_spec x (p + N.min (size q) n)); [|reflexivity]. exfalso.
      eapply lchain_hdr_free; [exact C'|left; reflexivity| |exact Hh]. unfold holds. cbn [addr size]. lia.
    - intros i Hi. cbn [VLin.mem byt].
      destruct (N.leb_spec p (p + i)); [|lia]. destruct (N.ltb_spec (p + i) (p + N.min (size q) n)); [|lia].
      cbn [andb]. replace (addr q + (p + i - p)) with (addr q + i) by lia.
      rewrite store_other by lia. rewrite B'. reflexivity.
    - intros x Hx. cbn [VLin.mem byt]. destruct (N.leb_spec p x); [lia|]. cbn [andb].
      rewrite store_other by lia. rewrite B'. reflexivity.
  Qed.

  Lemma vlin_hist_inv : forall st l, vlin_hist b max ch st l -> vinv st l.
  Proof.
    destruct Hsane as (Hb & Hbp & Hmax & Ht & Hc & Hc').
    intros st l H. induction H.
    - unfold VLin.initialize in H0. destruct (_ && _); [|discriminate]. cbn [contract bind] in H0.
      destruct (is_pow2 64 ch); [|discriminate]. cbn [contract bind] in H0.
      destruct (negb (b =? 0)); [|discriminate]. cbn [contract bind] in H0.
      rewrite wadd_small in H0 by lia.
      match type of H0 with Ok ?x = _ => assert (st = x) by congruence end. subst st.
      unfold vinv, reserve. cbn [VLin.vb VLin.ve VLin.cur VLin.pe VLin.last VLin.chunk VLin.mem byt].
      split; [auto|]. split; [auto|]. split; [auto|]. split; [split; reflexivity|]. split; [lia|]. split; [lia|].
      split; [intros x; lia|]. split; reflexivity.
    - destruct (lma_exists a (VLin.cur st + 8) (proj1 (pow2_pos' _ (proj1 H0)))) as (r & Hm).
      destruct (vlin_alloc st l s a r IHvlin_hist H0 Hm) as (_ & _ & [(v' & pe' & _ & E & Hv & _)|(_ & E)]);
        rewrite E in H1; [|discriminate].
      match type of H1 with Ok (?x, ?y) = _ => assert (st' = x) by congruence; assert (p = y) by congruence end.
      subst st' p. exact Hv.
    - exact IHvlin_hist.
    - cbn [VLin.realloc N.eqb orb] in H2. unfold VLin.realloc in H2. cbn [N.eqb orb] in H2.
      unfold VLin.default_realloc in H2.
      destruct (N.ltb_spec 0 n); [|lia].
      destruct (lma_exists a (VLin.cur st + 8) (proj1 (pow2_pos' _ (proj1 H1)))) as (r & Hm).
      destruct (vlin_alloc st l n a r IHvlin_hist H1 Hm) as (_ & _ & [(v' & pe' & _ & E & Hv & _)|(_ & E)]);
        rewrite E in H2; [|discriminate]. cbn [bind N.eqb negb] in H2.
      match type of H2 with Ok (?x, ?y) = _ => assert (st' = x) by congruence; assert (p = y) by congruence end.
      subst st' p. exact Hv.
    - destruct (vlin_realloc_latest st (mkb q s a) l n a' IHvlin_hist H0) as [(v' & pe' & E & Hv)|E];
        cbn [addr align] in *; rewrite E in H1; [|discriminate].
      match type of H1 with Ok (?x, ?y) = _ => assert (st' = x) by congruence; assert (p = y) by congruence end.
      subst st' p. exact Hv.
    - destruct (vlin_realloc_other st r l q n a IHvlin_hist H0 H1 H2) as [E|(st2 & p2 & E & Hv & _)];
        rewrite E in H3; [discriminate|].
      assert (st' = st2) by congruence; assert (p = p2) by congruence. subst. exact Hv.
    - destruct IHvlin_hist as (B & E & Ch & R & I1 & I2 & A & C & La).
      unfold vinv. cbn [VLin.vb VLin.ve VLin.cur VLin.pe VLin.last VLin.chunk VLin.mem byt].
      split; [auto|]. split; [auto|]. split; [auto|]. split; [exact R|]. split; [auto|]. split; [auto|].
      split; [exact A|]. split; [|exact La].
      eapply lchain_frame; [exact C|lia|]. intros y Hy Hh. unfold upd.
      destruct (N.eqb_spec y x); [|reflexivity]. subst y. exfalso. eapply lchain_hdr_free; eauto.
    - destruct IHvlin_hist as (B & E & Ch & R & I1 & I2 & A & C & La).
      pose proof (lchain_ge _ _ _ C).
      unfold vinv, VLin.reset. cbn [fst VLin.vb VLin.ve VLin.cur VLin.pe VLin.last VLin.chunk VLin.mem byt].
      split; [auto|]. split; [auto|]. split; [auto|]. split; [exact R|]. split; [lia|]. split; [auto|].
      split; [exact A|]. split; [|reflexivity]. cbn [lchain]. exact B.
    - destruct IHvlin_hist as (B & E & Ch & R & I1 & I2 & A & C & La).
      pose proof (lchain_ge _ _ _ C).
      unfold VLin.decommit_idle_memory in H1. rewrite Ch in H1.
      destruct (lma_exists ch (VLin.cur st) (proj1 (pow2_pos' _ Hc))) as (p & Hm).
      pose proof (lma_lt _ _ _ (proj1 (pow2_pos' _ Hc)) Hm) as L.
      rewrite (align_up_exact _ _ p) in H1 by (auto; lia).
      assert (Hge : VLin.cur st <= p) by apply Hm.
      destruct (N.le_gt_cases p (VLin.pe st)) as [P|P].
      + rewrite wsub_ge in H1 by lia.
        destruct (_ && _).
        * destruct (decommit (VLin.mem st) p (VLin.pe st - p)) eqn:D; try discriminate. cbn [bind] in H1.
          match type of H1 with Ok (?x, ?y) = _ => assert (st' = x) by congruence end. subst st'.
          destruct (decommit_inv b max Hb Ht _ _ _ _ R (chunk_page _ _ _ Hc H0 Hm) P I2 A D) as (R' & B' & A').
          unfold vinv. cbn [VLin.vb VLin.ve VLin.cur VLin.pe VLin.last VLin.chunk VLin.mem byt].
          split; [auto|]. split; [auto|]. split; [auto|]. split; [exact R'|]. split; [auto|]. split; [lia|].
          split; [exact A'|]. split; [|exact La]. rewrite B'. exact C.
        * assert (st' = st) by congruence. subst. unfold vinv. auto 12.
      + rewrite wsub_lt in H1 by lia.
        destruct (N.ltb_spec (2 ^ 64 + VLin.pe st - p) (2 ^ 63)); [lia|]. rewrite andb_false_r in H1.
        assert (st' = st) by congruence. subst. unfold vinv. auto 12.
  Qed.
End VLinP.

(* ---------- virtual_stack_allocator ---------- *)
Section VStkP.
  Variables b max ch : N.
  Hypothesis Hsane : sane_reservation b max ch.

  Let Hb : 0 < b. Proof. apply Hsane. Qed.
  Let Ht : b + max <= 2 ^ 62. Proof. apply Hsane. Qed.
  Let Ht64 : b + max < 2 ^ 64. Proof. pose proof Ht. lia. Qed.
  Let Hc : pow2 ch. Proof. apply Hsane. Qed.
  Let Hc' : ch <= 2 ^ 61. Proof. apply Hsane. Qed.

  Definition sinv (st : VStk.state) (l : list (block * Stk.ctl)) : Prop :=
    VStk.chunk st = ch /\ reserved b max (VStk.mem st) /\
    Stk.head (VStk.fields st) <= VStk.pe st /\ VStk.pe st <= b + max /\ avail (VStk.mem st) b (VStk.pe st) /\
    chain b max (VStk.fields st) l (byt (VStk.mem st)).

  Lemma sinv_basic : forall st l, sinv st l ->
    Stk.begin_ (VStk.fields st) = b /\ Stk.end_ (VStk.fields st) = b + max
    /\ Stk.head (VStk.fields st) <= b + max /\ b <= Stk.head (VStk.fields st).
  Proof. intros st l (_ & _ & _ & _ & _ & C). exact (chain_basic b max Hb Ht64 _ _ _ C). Qed.

  Lemma grow_cases : forall st l num, sinv st l -> num <= 2 ^ 63 ->
    (exists v' pe', grow (VStk.mem st) (Stk.head (VStk.fields st)) (VStk.pe st) (b + max) ch num = Ok (v', pe')
      /\ reserved b max v' /\ byt v' = byt (VStk.mem st) /\ avail v' b pe'
      /\ Stk.head (VStk.fields st) + num <= pe' /\ pe' <= b + max)
    \/ grow (VStk.mem st) (Stk.head (VStk.fields st)) (VStk.pe st) (b + max) ch num = Contract.
  Proof.
    intros st l num S Hn. pose proof (sinv_basic _ _ S) as (_ & _ & _ & Hcur).
    destruct S as (Ch & R & I1 & I2 & A & C).
    destruct (lma_exists ch num (proj1 (pow2_pos' _ Hc))) as (r & Hr).
    destruct (grow_exact b max Hb Ht (VStk.mem st) (Stk.head (VStk.fields st)) (VStk.pe st) ch num r R Hc Hc'
                Hcur I1 I2 Hn Hr) as (G1 & G2 & G3).
    assert (K : (exists v' pe', grow (VStk.mem st) (Stk.head (VStk.fields st)) (VStk.pe st) (b + max) ch num = Ok (v', pe'))
                \/ grow (VStk.mem st) (Stk.head (VStk.fields st)) (VStk.pe st) (b + max) ch num = Contract).
    { destruct (N.le_gt_cases (Stk.head (VStk.fields st) + num) (VStk.pe st)); [left; eauto|].
      destruct (N.le_gt_cases (VStk.pe st + r) (b + max)) as [M|M]; [|right; auto].
      left. destruct (G2 ltac:(lia) M) as (w & Ew & _). eauto. }
    destruct K as [(v' & pe' & G)|G]; [left|right; auto].
    destruct (grow_inv b max Hb Ht _ _ _ ch _ v' pe' R Hc Hc' Hcur I1 I2 Hn A G)
      as (R' & B' & A' & F1 & F2 & F3).
    exists v', pe'. auto 8.
  Qed.

  Lemma vstk_alloc : forall st l s a, sinv st l -> sane_request s a -> a <= 2 ^ 31 ->
    VStk.alloc st s a = Contract \/
    (VStk.alloc st s a = UB /\ Stk.last_id (VStk.fields st) = (2 ^ 31 - 1)%Z) \/
    exists st' p, VStk.alloc st s a = Ok (st', p) /\ sinv st' ((mkb p s a, VStk.fields st) :: l).
  Proof.
    intros st l s a S (Ha & Ha' & Hs) Ha31. pose proof (sinv_basic _ _ S) as (B & E & I & Hcur).
    destruct (lma_exists a (Stk.head (VStk.fields st) + 8) (proj1 (pow2_pos' _ Ha))) as (p & Hm).
    pose proof (lma_lt _ _ _ (proj1 (pow2_pos' _ Ha)) Hm) as L.
    assert (Hge : Stk.head (VStk.fields st) + 8 <= p) by apply Hm.
    pose proof Ht as Ht'. pose proof Hb as Hb'.
    assert (P : 2 ^ 62 + 8 + 2 ^ 61 + 2 ^ 60 < 2 ^ 63) by reflexivity.
    assert (P' : 2 ^ 63 < 2 ^ 64) by reflexivity.
    unfold VStk.alloc. rewrite B, E. destruct (N.eqb_spec b 0); [lia|]. cbn [negb contract bind].
    rewrite (awh_exact _ _ _ p) by (auto; lia).
    rewrite (wsub_ge 64 p (Stk.head (VStk.fields st))) by lia.
    rewrite (wadd_small 64 (p - Stk.head (VStk.fields st)) s) by lia.
    assert (Hn : p - Stk.head (VStk.fields st) + s <= 2 ^ 63) by lia.
    pose proof S as (Ch & R & I1 & I2 & A & C). rewrite Ch.
    destruct (grow_cases st l _ S Hn) as [(v' & pe' & G & R' & B' & A' & F1 & F3)|G]; [right|left; rewrite G; reflexivity].
    rewrite G. cbn [bind]. pose proof (chain_id b max Hb Ht64 _ _ _ C) as (_ & Hid).
    destruct (Z.ltb_spec (Stk.last_id (VStk.fields st)) (2 ^ 31 - 1)) as [Hlt|Hlt].
    2: { left. split; [reflexivity|]. lia. }
    right. cbn [defined bind]. unfold vstore.
    rewrite (wsub_ge 64 p 8) by lia. rewrite (wsub_ge 64 p 4) by lia.
    rewrite (usable_avail v' b pe') by (auto; lia). cbn [defined bind rlo rhi acc byt].
    rewrite (usable_avail _ b pe') by (auto; lia). cbn [defined bind].
    rewrite wadd_small by lia.
    eexists. exists p. split; [reflexivity|]. unfold sinv. cbn [VStk.fields VStk.pe VStk.chunk VStk.mem byt Stk.head].
    split; [auto|]. split; [exact R'|]. split; [lia|]. split; [auto|]. split; [exact A'|].
    rewrite B'. apply chain_push; auto. lia.
  Qed.

  Lemma vstk_header : forall st l q c k, sinv st l -> nth_error l k = Some (q, c) ->
    VStk.header st (addr q) = Ok (addr q - Stk.head c, (Stk.last_id (VStk.fields st) - Z.of_nat k)%Z).
  Proof.
    intros st l q c k S Hk. pose proof (sinv_basic _ _ S) as (B & E & I & Hcur).
    destruct S as (Ch & R & I1 & I2 & A & C).
    destruct (chain_header b max Hb Ht64 _ _ _ _ _ _ C Hk) as (X1 & X2).
    pose proof (chain_below b max Hb Ht64 _ _ _ _ _ C (nth_error_In _ _ Hk)) as Bl.
    unfold VStk.header, vload. rewrite !wsub_ge by (pose proof Ht; lia).
    rewrite !(usable_avail _ b (VStk.pe st)) by (auto; pose proof Hb; lia). cbn [defined bind].
    rewrite X1, X2. reflexivity.
  Qed.

  Lemma vstk_free : forall st q c l, sinv st ((q, c) :: l) ->
    VStk.free st (addr q) = Ok (VStk.mkst c (VStk.pe st) (VStk.chunk st) (VStk.mem st))
    /\ sinv (VStk.mkst c (VStk.pe st) (VStk.chunk st) (VStk.mem st)) l.
  Proof.
    intros st q c l S. pose proof (sinv_basic _ _ S) as (B & E & I & Hcur).
    pose proof (vstk_header _ _ q c 0 S eq_refl) as Hh.
    pose proof S as (Ch & R & I1 & I2 & A & C).
    pose proof (chain_below b max Hb Ht64 _ _ _ _ _ C (or_introl eq_refl)) as Bl.
    pose proof (chain_id b max Hb Ht64 _ _ _ C) as (Hid & Hid'). pose proof Hb as Hb'. pose proof Ht as Ht'.
    unfold VStk.free. destruct (N.eqb_spec (addr q) 0); [lia|]. rewrite Hh. cbn [bind].
    cbn [chain] in C. destruct C as (_ & _ & _ & Hi & Hl & Hq & Hhd & Ha & Hp & L1 & L2 & C).
    pose proof (chain_basic b max Hb Ht64 _ _ _ C) as (B' & E' & _ & _).
    rewrite Z.sub_0_r, Z.eqb_refl. cbn [contract bind].
    cbn [length] in Hid. destruct (Z.ltb_spec (- 2 ^ 31) (Stk.last_id (VStk.fields st))); [|lia].
    cbn [defined bind]. rewrite wsub_ge by lia. split.
    - apply (f_equal (@Ok _)). f_equal. destruct c; cbn in *. f_equal; try congruence; lia.
    - unfold sinv. cbn [VStk.fields VStk.pe VStk.chunk VStk.mem]. split; [auto|]. split; [auto|]. split; [lia|].
      split; [auto|]. split; [auto|]. exact C.
  Qed.

  Lemma vstk_realloc : forall st q c l n a', sinv st ((q, c) :: l) -> 0 < n -> n <= 2 ^ 60 ->
    VStk.realloc st (addr q) n a' = Contract \/
    exists st', VStk.realloc st (addr q) n a' = Ok (st', addr q) /\ sinv st' ((mkb (addr q) n (align q), c) :: l)
      /\ byt (VStk.mem st') = byt (VStk.mem st).
  Proof.
    intros st q c l n a' S Hn Hn'. pose proof (sinv_basic _ _ S) as (B & E & I & Hcur).
    pose proof (vstk_header _ _ q c 0 S eq_refl) as Hh.
    pose proof S as (Ch & R & I1 & I2 & A & C).
    pose proof (chain_below b max Hb Ht64 _ _ _ _ _ C (or_introl eq_refl)) as Bl.
    pose proof Hb as Hb'. pose proof Ht as Ht'.
    unfold VStk.realloc. destruct (N.eqb_spec n 0); [lia|]. destruct (N.eqb_spec (addr q) 0); [lia|].
    rewrite Hh. cbn [bind]. rewrite Z.sub_0_r, Z.eqb_refl. cbn [contract bind]. rewrite E, B, Ch.
    rewrite wsub_ge by lia. cbn [chain] in C.
    destruct C as (CB & CE & CI & Hi & Hl & Hq & Hhd & Ha & Hp & L1 & L2 & C).
    replace (Stk.head (VStk.fields st) - addr q) with (size q) by lia.
    assert (K : (exists v' pe', (if size q <? n
                  then grow (VStk.mem st) (Stk.head (VStk.fields st)) (VStk.pe st) (b + max) ch (n - size q)
                  else Ok (VStk.mem st, VStk.pe st)) = Ok (v', pe')
                  /\ reserved b max v' /\ byt v' = byt (VStk.mem st) /\ avail v' b pe' /\ addr q + n <= pe'
                  /\ pe' <= b + max)
                \/ (if size q <? n
                  then grow (VStk.mem st) (Stk.head (VStk.fields st)) (VStk.pe st) (b + max) ch (n - size q)
                  else Ok (VStk.mem st, VStk.pe st)) = Contract).
    { destruct (N.ltb_spec (size q) n).
      - assert (Hnum : n - size q <= 2 ^ 63) by lia.
        destruct (grow_cases st _ _ S Hnum) as [(v' & pe' & G & R' & B' & A' & F1 & F3)|G]; [left|right; auto].
        exists v', pe'. split; [auto|]. split; [auto|]. split; [auto|]. split; [auto|]. lia.
      - left. exists (VStk.mem st), (VStk.pe st). split; [auto|]. split; [auto|]. split; [auto|]. split; [auto|]. lia. }
    destruct K as [(v' & pe' & -> & R' & B' & A' & F1 & F3)| ->]; [right|left; reflexivity].
    cbn [bind]. rewrite wadd_small by lia. eexists. split; [reflexivity|].
    cbn [VStk.mem]. split; [|exact B'].
    unfold sinv. cbn [VStk.fields VStk.pe VStk.chunk VStk.mem Stk.head].
    split; [auto|]. split; [exact R'|]. split; [lia|]. split; [auto|]. split; [exact A'|].
    rewrite B'. cbn [chain Stk.begin_ Stk.end_ Stk.head Stk.last_id addr size].
    split; [auto|]. split; [auto|]. split; [lia|]. split; [auto|]. split; [auto|]. split; [auto|]. split; [auto|].
    split; [exact Ha|]. split; [auto|]. split; [auto|]. split; [auto|]. exact C.
  Qed.

  Lemma vstk_hist_inv : forall st l, vstk_hist b max ch st l -> sinv st l.
  Proof.
    pose proof Hb as Hb'. pose proof Ht as Ht'. pose proof Hc' as Hc2.
    intros st l H. induction H.
    - unfold VStk.initialize in H0. destruct (_ && _); [|discriminate]. cbn [contract bind] in H0.
      destruct (is_pow2 64 ch); [|discriminate]. cbn [contract bind] in H0.
      destruct (negb (b =? 0)); [|discriminate]. cbn [contract bind] in H0.
      rewrite wadd_small in H0 by lia.
      match type of H0 with Ok ?x = _ => assert (st = x) by congruence end. subst st.
      unfold sinv, reserve. cbn [VStk.fields VStk.pe VStk.chunk VStk.mem byt Stk.head].
      split; [auto|]. split; [split; reflexivity|]. split; [lia|]. split; [lia|].
      split; [intros x; lia|]. cbn. split; [auto|]. split; [auto|]. split; [lia|]. auto.
    - destruct (vstk_alloc st l s a IHvstk_hist H0 H1) as [E|[(E & _)|(st2 & p2 & E & S2)]];
        rewrite E in H2; try discriminate.
      assert (st' = st2) by congruence. assert (p = p2) by congruence. subst. exact S2.
    - cbn in H0. injection H0 as <-. auto.
    - destruct (vstk_free _ _ _ _ IHvstk_hist) as (E & S2). rewrite E in H0.
      match type of H0 with Ok ?x = _ => assert (st' = x) by congruence end. subst st'. exact S2.
    - destruct (vstk_realloc st (mkb q s a) c l n a' IHvstk_hist H0 H1) as [E|(st2 & E & S2 & _)];
        cbn [addr align] in *; rewrite E in H2; [discriminate|].
      assert (st' = st2) by congruence. assert (p = q) by congruence. subst. exact S2.
    - destruct IHvstk_hist as (Ch & R & I1 & I2 & A & C).
      unfold sinv. cbn [VStk.fields VStk.pe VStk.chunk VStk.mem byt].
      split; [auto|]. split; [exact R|]. split; [auto|]. split; [auto|]. split; [exact A|].
      eapply chain_frame; eauto. intros y Hy Hd. unfold upd.
      destruct (N.eqb_spec y x); [|reflexivity]. subst y. exfalso.
      eapply (chain_hdr_free b max); eauto.
    - pose proof (sinv_basic _ _ IHvstk_hist) as (B & E & I & Hcur).
      destruct IHvstk_hist as (Ch & R & I1 & I2 & A & C).
      unfold sinv, VStk.reset. cbn [fst VStk.fields VStk.pe VStk.chunk VStk.mem byt Stk.head].
      split; [auto|]. split; [exact R|]. split; [lia|]. split; [auto|]. split; [exact A|].
      cbn. split; [auto|]. split; [auto|]. split; [lia|]. auto.
    - pose proof (sinv_basic _ _ IHvstk_hist) as (B & E & I & Hcur).
      destruct IHvstk_hist as (Ch & R & I1 & I2 & A & C).
      unfold VStk.decommit_idle_memory in H1. rewrite Ch in H1.
      destruct (lma_exists ch (Stk.head (VStk.fields st)) (proj1 (pow2_pos' _ Hc))) as (p & Hm).
      pose proof (lma_lt _ _ _ (proj1 (pow2_pos' _ Hc)) Hm) as L.
      rewrite (align_up_exact _ _ p) in H1 by (auto; lia).
      assert (Hge : Stk.head (VStk.fields st) <= p) by apply Hm.
      destruct (N.le_gt_cases p (VStk.pe st)) as [P|P].
      + rewrite wsub_ge in H1 by lia.
        destruct (_ && _).
        * destruct (decommit (VStk.mem st) p (VStk.pe st - p)) eqn:D; try discriminate. cbn [bind] in H1.
          match type of H1 with Ok (?x, ?y) = _ => assert (st' = x) by congruence end. subst st'.
          destruct (decommit_inv b max Hb Ht _ _ _ _ R (chunk_page _ _ _ Hc H0 Hm) P I2 A D) as (R' & B' & A').
          unfold sinv. cbn [VStk.fields VStk.pe VStk.chunk VStk.mem byt].
          split; [auto|]. split; [exact R'|]. split; [auto|]. split; [lia|].
          split; [exact A'|]. rewrite B'. exact C.
        * assert (st' = st) by congruence. subst. unfold sinv. auto 12.
      + rewrite wsub_lt in H1 by lia.
        destruct (N.ltb_spec (2 ^ 64 + VStk.pe st - p) (2 ^ 63)); [lia|]. rewrite andb_false_r in H1.
        assert (st' = st) by congruence. subst. unfold sinv. auto 12.
  Qed.

  Lemma vstk_free_older : forall st q c l r d, sinv st ((q, c) :: l) -> In (r, d) l ->
    VStk.free st (addr r) = Contract.
  Proof.
    intros st q c l r d S HI. apply In_nth_error in HI. destruct HI as (k & Hk).
    pose proof (vstk_header _ _ r d (Datatypes.S k) S Hk) as Hh.
    pose proof S as (_ & _ & _ & _ & _ & C).
    pose proof (chain_below b max Hb Ht64 _ _ _ _ _ C (or_intror (nth_error_In _ _ Hk))) as Bl.
    unfold VStk.free. destruct (N.eqb_spec (addr r) 0); [pose proof Hb; lia|]. rewrite Hh. cbn [bind].
    destruct (Z.eqb_spec (Stk.last_id (VStk.fields st) - Z.of_nat (Datatypes.S k)) (Stk.last_id (VStk.fields st))); [lia|reflexivity].
  Qed.

  Lemma vstk_is_latest : forall st l q c k, sinv st l -> nth_error l k = Some (q, c) ->
    VStk.is_latest_allocation st (addr q) = Ok (k =? 0)%nat.
  Proof.
    intros st l q c k S Hk. pose proof (vstk_header _ _ q c k S Hk) as Hh.
    pose proof (sinv_basic _ _ S) as (B & E & I & Hcur). pose proof S as (_ & _ & I1 & _ & _ & C).
    pose proof (chain_below b max Hb Ht64 _ _ _ _ _ C (nth_error_In _ _ Hk)) as Bl. pose proof Hb as Hb'.
    unfold VStk.is_latest_allocation. destruct (N.eqb_spec (addr q) 0); [lia|]. cbn [negb contract bind].
    rewrite B. destruct (N.ltb_spec b (addr q)); [|lia]. destruct (N.eqb_spec (VStk.pe st) 0); [lia|].
    cbn [negb andb contract bind]. rewrite Hh. cbn [bind]. apply f_equal.
    destruct (Nat.eqb_spec k 0).
    - subst. rewrite Z.sub_0_r. apply Z.eqb_refl.
    - apply Z.eqb_neq. lia.
  Qed.
End VStkP.

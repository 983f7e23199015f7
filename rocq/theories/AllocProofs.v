(* Proofs about linear_allocator, stack_allocator and align_up_with_header. *)
From Coq Require Import NArith ZArith List Lia Bool Arith.
Import ListNotations.
From Verif Require Import Base BitsModel BitsSpec BitsProofs AllocModel AllocSpec.
Open Scope N_scope.

(* ---------- alignment ---------- *)
Lemma pow2_one : pow2 1. Proof. exists 0. split; reflexivity. Qed.
Lemma pow2_pos' : forall a, pow2 a -> 0 < a /\ a < 2 ^ 64.
Proof. intros a (k & Hk & ->). split; [apply pow2_pos|]. apply N.pow_lt_mono_r; lia. Qed.

(* the top of the address space is a multiple of every power of two *)
Lemma pow2_top : forall a, pow2 a -> (a | 2 ^ 64).
Proof. intros a (k & Hk & ->). exists (2 ^ (64 - k)). rewrite <- N.pow_add_r. f_equal. lia. Qed.

Lemma lma_unique : forall a v r s, least_multiple_above a v r -> least_multiple_above a v s -> r = s.
Proof.
  intros a v r s (H1 & H2 & H3) (G1 & G2 & G3). apply N.le_antisymm; auto.
Qed.

Lemma lma_lt : forall a v r, 0 < a -> least_multiple_above a v r -> r < v + a.
Proof.
  intros a v r Ha H. destruct (N.lt_ge_cases r (v + a)) as [|C]; auto. exfalso.
  destruct H as (D & L & M).
  assert (a <= r) by lia.
  assert (Hd : (a | r - a)).
  { apply N.divide_sub_r; [exact D | apply N.divide_refl]. }
  specialize (M _ Hd). lia.
Qed.

Lemma align_up_exact : forall v a p, pow2 a -> v < 2 ^ 64 -> least_multiple_above a v p -> p < 2 ^ 64 ->
  align_up 64 v a = p.
Proof.
  intros v a p Hp Hv Hm Hlt. destruct Hp as (k & Hk & ->).
  destruct (N.lt_ge_cases (v + 2 ^ k - 1) (2 ^ 64)) as [L|G].
  - eapply lma_unique; [apply align_up_spec; auto | auto].
  - exfalso.
    assert (Hp : pow2 (2 ^ k)) by (exists k; auto).
    pose proof (pow2_top _ Hp) as T. destruct Hm as ((c & Hc) & Hle & _). destruct T as (d & Hd).
    pose proof (pow2_pos k). rewrite Hd in Hlt, G. subst p.
    assert (c < d) by nia. assert (c + 1 <= d) by lia.
    assert ((c + 1) * 2 ^ k <= d * 2 ^ k) by (apply N.mul_le_mono_r; auto).
    lia.
Qed.

Lemma lma_exists : forall a v, 0 < a -> exists p, least_multiple_above a v p.
Proof. intros a v Ha. eexists. apply (lma_unique_form a v). auto. Qed.

Lemma lma_skip : forall a v w r, v <= w -> w <= r -> least_multiple_above a v r -> least_multiple_above a w r.
Proof. intros a v w r H1 H2 (D & L & M). split; [auto|]. split; [auto|]. intros m Hm Hw. apply M; auto; lia. Qed.

(* align_up_with_header is exactly the least multiple of align at or above head + header *)
Lemma awh_exact : forall head a hs p, pow2 a -> head < 2 ^ 64 -> hs < 2 ^ 64 ->
  least_multiple_above a (head + hs) p -> p < 2 ^ 64 ->
  align_up_with_header head a hs = p.
Proof.
  intros head a hs p Hp Hh Hhs Hm Hlt.
  destruct (pow2_pos' _ Hp) as (Ha & Ha').
  destruct (lma_exists a head Ha) as (q & Hq).
  assert (Hqp : q <= p).
  { destruct Hq as (_ & _ & M). apply M; [apply Hm|]. destruct Hm as (_ & L & _). lia. }
  pose proof (lma_lt _ _ _ Ha Hq) as Hqa.
  unfold align_up_with_header. rewrite (align_up_exact head a q) by (auto; lia).
  assert (Hhq : head <= q) by apply Hq.
  rewrite wsub_ge by lia.
  destruct (N.ltb_spec (q - head) hs) as [L|G].
  - set (rest := hs - (q - head)). assert (Hr : head + hs = q + rest) by (unfold rest; lia).
    assert (Hr0 : 0 < rest) by (unfold rest; lia). rewrite Hr in Hm. clearbody rest.
    destruct Hq as (Dq & _ & _).
    assert (E : p = q + a * ((rest + a - 1) / a)).
    { apply (lma_unique a (q + rest)); auto.
      pose proof (N.div_mod (rest + a - 1) a ltac:(lia)).
      pose proof (N.mod_lt (rest + a - 1) a ltac:(lia)).
      split; [|split].
      - apply N.divide_add_r; [auto|]. apply N.divide_factor_l.
      - lia.
      - intros m (c & Hc) Hge. destruct Dq as (d & Hd). subst m q.
        set (t := (rest + a - 1) / a) in *. set (r := (rest + a - 1) mod a) in *. clearbody t r.
        clear - H H0 Hge Ha Hr0.
        destruct (N.lt_ge_cases (d + t) (c + 1)) as [K|K].
        + assert (K' : d + t <= c) by lia. apply (N.mul_le_mono_r _ _ a) in K'. lia.
        + apply (N.mul_le_mono_r _ _ a) in K. lia. }
    pose proof (N.div_mod rest a ltac:(lia)) as Dm. pose proof (N.mod_lt rest a ltac:(lia)) as Ml.
    destruct (N.ltb_spec 0 (rest mod a)) as [H0|H0].
    + assert (D : (rest + a - 1) / a = 1 + rest / a).
      { symmetry. apply N.div_unique with (rest mod a - 1);
          set (r := rest mod a) in *; set (t := rest / a) in *; clearbody r t; clear - Dm Ml H0 Ha; [lia|nia]. }
      rewrite D in E. unfold wmul. rewrite wrap_small by lia. unfold wadd. rewrite wrap_small by lia. auto.
    + assert (D : (rest + a - 1) / a = rest / a).
      { symmetry. apply N.div_unique with (a - 1);
          set (r := rest mod a) in *; set (t := rest / a) in *; clearbody r t; clear - Dm Ml H0 Ha; [lia|nia]. }
      rewrite D in E. unfold wmul. rewrite wrap_small by lia. unfold wadd. rewrite wrap_small by lia. auto.
  - apply (lma_unique a (head + hs)); auto. eapply lma_skip; [| |exact Hq]; lia.
Qed.

(* ---------- blocks ---------- *)
Lemma apart_le : forall b c, addr b + size b <= addr c -> apart c b.
Proof. intros b c H x ((H1 & H2) & (H3 & H4)). lia. Qed.

Lemma good_grow : forall lo hi hi' l, hi <= hi' -> good_blocks lo hi l -> good_blocks lo hi' l.
Proof.
  intros lo hi hi' l H (W & A & D). split; [|split]; auto.
  eapply Forall_impl; [|exact W]. intros b (H1 & H2). split; lia.
Qed.

(* adding a block above everything *)
Lemma good_cons : forall lo hi l q, good_blocks lo hi l -> lo <= addr q -> hi <= addr q -> well_aligned q ->
  good_blocks lo (addr q + size q) (q :: l).
Proof.
  intros lo hi l q (W & A & D) Hlo Hhi Hq. split; [|split].
  - constructor; [split; lia|]. eapply Forall_impl; [|exact W]. intros c (H1 & H2). split; lia.
  - constructor; auto.
  - split; [|auto]. eapply Forall_impl; [|exact W]. intros c (H1 & H2). apply apart_le. lia.
Qed.

(* ---------- linear allocator ---------- *)
Section LinP.
  Variables b len : N.
  Hypothesis Hb : 0 < b.
  Hypothesis Hlen : b + len < 2 ^ 64.

  (* invariant: older blocks end at or below the latest one, which ends at the head *)
  Definition lin_inv (st : Lin.state) (l : list block) : Prop :=
    Lin.begin_ st = b /\ Lin.end_ st = b + len /\ Lin.head st <= b + len /\ b <= Lin.head st /\
    match l with
    | [] => Lin.latest st = 0 /\ Lin.head st = b
    | q :: t => Lin.latest st = addr q /\ Lin.head st = addr q + size q /\ b <= addr q
                /\ well_aligned q /\ good_blocks b (addr q) t
    end.

  Lemma lin_inv_good : forall st l, lin_inv st l -> good_blocks b (Lin.head st) l.
  Proof.
    intros st l (B & E & H1 & H2 & M). destruct l as [|q t].
    - split; [constructor|]. split; constructor.
    - destruct M as (_ & Hh & Hq & Ha & G). rewrite Hh.
      eapply good_cons; eauto. lia.
  Qed.

  Lemma lin_max_pow2 : forall a, a = 0 \/ pow2 a -> pow2 (N.max a 1).
  Proof.
    intros a [-> | H]; [exact pow2_one|]. destruct (pow2_pos' _ H). rewrite N.max_l by lia. auto.
  Qed.

  Lemma lin_alloc_exact : forall st l s a p, lin_inv st l -> a = 0 \/ pow2 a ->
    least_multiple_above (N.max a 1) (Lin.head st) p -> p + s < 2 ^ 64 ->
    Lin.alloc st s a = if p + s <=? b + len
                       then Ok (Lin.mkst b (p + s) (b + len) p, p) else Contract.
  Proof.
    intros st l s a p (B & E & H1 & H2 & M) Ha Hm Hw. unfold Lin.alloc.
    rewrite B, E. destruct (N.eqb_spec b 0); [lia|]. cbn [negb contract bind].
    rewrite (align_up_exact _ _ p) by (auto using lin_max_pow2; lia).
    rewrite wadd_small by lia. destruct (p + s <=? b + len); reflexivity.
  Qed.

  Lemma lin_hist_inv : forall st l, lin_hist b len st l -> lin_inv st l.
  Proof.
    intros st l H. induction H.
    - unfold lin_inv, Lin.init. cbn. rewrite wadd_small by lia. repeat split; lia.
    - destruct H1 as (q & Hm & Hq). pose proof (lin_alloc_exact _ _ s a q IHlin_hist H0 Hm ltac:(lia)) as E.
      rewrite H2 in E. destruct (N.leb_spec (q + s) (b + len)); [|discriminate].
      assert (st' = Lin.mkst b (q + s) (b + len) q /\ p = q) as (-> & ->) by (split; congruence).
      pose proof (lin_inv_good _ _ IHlin_hist) as G.
      destruct IHlin_hist as (_ & _ & _ & H5 & _). destruct Hm as (D & Hle & _).
      unfold lin_inv. cbn. split; [auto|]. split; [auto|]. split; [lia|]. split; [lia|].
      split; [auto|]. split; [auto|]. split; [lia|]. split; [exact D|].
      eapply good_grow; [|exact G]. lia.
    - exact IHlin_hist.
    - destruct IHlin_hist as (B & E & I1 & I2 & L & Hd & Hq & Ha & G). cbn in *.
      unfold Lin.realloc in H1. destruct (N.eqb_spec q 0); [lia|]. cbn [negb] in H1.
      rewrite L, N.eqb_refl in H1. cbn [contract bind] in H1.
      rewrite wadd_small in H1 by lia. rewrite E, B in H1.
      destruct (N.leb_spec (q + n) (b + len)); [|discriminate]. cbn [contract bind] in H1.
      assert (st' = Lin.mkst b (q + n) (b + len) q /\ p = q) as (-> & ->) by (split; congruence).
      unfold lin_inv. cbn. split; [auto|]. split; [auto|]. split; [lia|]. split; [lia|].
      split; [auto|]. split; [auto|]. split; [lia|]. split; [exact Ha|exact G].
    - destruct IHlin_hist as (B & E & I1 & I2 & M). unfold lin_inv, Lin.reset. cbn.
      rewrite B. repeat (split; [first [lia | auto]|]). auto.
  Qed.

  Lemma lin_size_spec : forall st q l, lin_hist b len st (q :: l) ->
    Lin.get_allocation_size st (addr q) = Some (size q).
  Proof.
    intros st q l H. apply lin_hist_inv in H. destruct H as (B & E & I1 & I2 & L & Hd & Hq & Ha & G).
    unfold Lin.get_allocation_size. rewrite L, N.eqb_refl.
    destruct (N.eqb_spec (addr q) 0); [lia|]. cbn [negb orb].
    rewrite wsub_ge by lia. f_equal. lia.
  Qed.

  Lemma lin_size_sound : forall st l p n, lin_hist b len st l -> Lin.get_allocation_size st p = Some n ->
    exists q t, l = q :: t /\ addr q = p /\ size q = n.
  Proof.
    intros st l p n H G. destruct l as [|q t].
    - apply lin_hist_inv in H. destruct H as (_ & _ & _ & _ & L & _).
      unfold Lin.get_allocation_size in G. rewrite L in G. destruct (p =? 0); discriminate.
    - exists q, t. split; [auto|]. pose proof (lin_size_spec _ _ _ H) as S.
      apply lin_hist_inv in H. destruct H as (_ & _ & _ & _ & L & _).
      assert (p = addr q).
      { unfold Lin.get_allocation_size in G. rewrite L in G.
        destruct (N.eqb_spec p (addr q)); auto. rewrite orb_true_r in G. discriminate. }
      subst p. split; congruence.
  Qed.

  Lemma lin_realloc_latest : forall st q l n a', lin_hist b len st (q :: l) -> addr q + n < 2 ^ 64 ->
    Lin.realloc st (addr q) n a' =
      if addr q + n <=? b + len
      then Ok (Lin.mkst b (addr q + n) (b + len) (addr q), addr q) else Contract.
  Proof.
    intros st q l n a' H Hn. apply lin_hist_inv in H. destruct H as (B & E & I1 & I2 & L & Hd & Hq & Ha & G).
    unfold Lin.realloc. destruct (N.eqb_spec (addr q) 0); [lia|]. cbn [negb].
    rewrite L, N.eqb_refl. cbn [contract bind]. rewrite wadd_small by lia. rewrite E, B.
    destruct (addr q + n <=? b + len); reflexivity.
  Qed.

  Lemma lin_sizes : forall st l, lin_hist b len st l ->
    Lin.allocated_size st + Lin.remaining_size st = Lin.max_size st /\ Lin.max_size st = len.
  Proof.
    intros st l H. apply lin_hist_inv in H. destruct H as (B & E & I1 & I2 & _).
    unfold Lin.allocated_size, Lin.remaining_size, Lin.max_size. rewrite B, E.
    rewrite !wsub_ge by lia. lia.
  Qed.
End LinP.

(* ---------- byte memory ---------- *)
Lemma store_other : forall n m a v x, a + N.of_nat n <= 2 ^ 64 -> x < a \/ a + N.of_nat n <= x ->
  x < 2 ^ 64 -> store m a n v x = m x.
Proof.
  induction n; intros m a v x Ha Hx Hx'; [reflexivity|]. cbn [store].
  assert (Hu : upd m a (v mod 256) x = m x).
  { unfold upd. destruct (N.eqb_spec x a); [lia|reflexivity]. }
  destruct (N.eq_dec (a + 1) (2 ^ 64)) as [E|E].
  - destruct n; [|lia]. cbn [store]. exact Hu.
  - unfold wadd. rewrite wrap_small by lia. rewrite IHn by lia. exact Hu.
Qed.

Lemma load_ext : forall n m m' a, a + N.of_nat n <= 2 ^ 64 ->
  (forall x, a <= x < a + N.of_nat n -> m x = m' x) -> load m a n = load m' a n.
Proof.
  induction n; intros m m' a Ha H; [reflexivity|]. cbn [load].
  rewrite (H a) by lia. destruct n; [reflexivity|].
  unfold wadd. rewrite wrap_small by lia. rewrite (IHn m m'); auto; [lia|].
  intros x Hx. apply H. lia.
Qed.

Lemma load_store : forall n m a v, a + N.of_nat n <= 2 ^ 64 -> v < 256 ^ N.of_nat n ->
  load (store m a n v) a n = v.
Proof.
  induction n; intros m a v Ha Hv.
  - cbn in *. lia.
  - cbn [load store].
    assert (Hv' : v / 256 < 256 ^ N.of_nat n).
    { apply N.div_lt_upper_bound; [lia|]. rewrite Nnat.Nat2N.inj_succ, N.pow_succ_r' in Hv. exact Hv. }
    assert (Hd : v = v mod 256 + 256 * (v / 256)) by (pose proof (N.div_mod v 256); lia).
    destruct n.
    + cbn [store load]. unfold upd. rewrite N.eqb_refl. change (256 ^ N.of_nat 0) with 1 in Hv'.
      apply N.lt_1_r in Hv'. rewrite Hv' in Hd. rewrite Hd at 2. reflexivity.
    + unfold wadd in *. rewrite wrap_small by lia.
      rewrite IHn by (auto; lia).
      rewrite store_other by lia.
      unfold upd. rewrite N.eqb_refl. symmetry. exact Hd.
Qed.

Lemma store_bytes : forall n m a v, (forall x, m x < 256) -> forall x, store m a n v x < 256.
Proof.
  induction n; intros m a v H x; [apply H|]. cbn [store]. apply IHn. intro y. unfold upd.
  destruct (y =? a); [apply N.mod_lt; lia|apply H].
Qed.

Global Arguments load : simpl never.
Global Arguments store : simpl never.

Lemma u32_s32 : forall z, (0 <= z < 2 ^ 31)%Z -> s32 (u32 z) = z /\ u32 z < 2 ^ 32.
Proof.
  intros z H. unfold s32, u32. rewrite Z.mod_small by lia.
  change (2 ^ 31) with (Z.to_N (2 ^ 31)). change (2 ^ 32) with (Z.to_N (2 ^ 32)).
  destruct (N.ltb_spec (Z.to_N z) (Z.to_N (2 ^ 31))); lia.
Qed.

(* ---------- stack allocator ---------- *)
Section StkP.
  Variables b len : N.
  Hypothesis Hb : 0 < b.
  Hypothesis Hlen : b + len < 2 ^ 64.

  (* x is a byte of the header of a live block *)
  Definition hdr (l : list (block * Stk.ctl)) (x : N) : Prop :=
    exists q c, In (q, c) l /\ addr q <= x + 8 /\ x < addr q.

  Fixpoint chain (c : Stk.ctl) (l : list (block * Stk.ctl)) (m : bytes) : Prop :=
    Stk.begin_ c = b /\ Stk.end_ c = b + len /\ Stk.head c <= b + len /\
    match l with
    | [] => Stk.head c = b /\ Stk.last_id c = 0%Z
    | (q, c') :: t =>
        Stk.last_id c = (Stk.last_id c' + 1)%Z /\ (Stk.last_id c < 2 ^ 31)%Z /\
        Stk.head c' + 8 <= addr q /\ Stk.head c = addr q + size q /\ well_aligned q /\
        addr q - Stk.head c' < 2 ^ 32 /\
        load m (addr q - 8) 4 = addr q - Stk.head c' /\
        load m (addr q - 4) 4 = u32 (Stk.last_id c) /\
        chain c' t m
    end.

  Lemma chain_basic : forall l c m, chain c l m ->
    Stk.begin_ c = b /\ Stk.end_ c = b + len /\ Stk.head c <= b + len /\ b <= Stk.head c.
  Proof.
    induction l as [|[q c'] t IH]; intros c m H; cbn in H.
    - destruct H as (B & E & I & Hh & _). repeat split; auto; lia.
    - destruct H as (B & E & I & _ & _ & Hq & Hh & _ & _ & _ & _ & C).
      apply IH in C. repeat split; auto; lia.
  Qed.

  Lemma chain_id : forall l c m, chain c l m -> Stk.last_id c = Z.of_nat (length l) /\ (Stk.last_id c < 2 ^ 31)%Z.
  Proof.
    induction l as [|[q c'] t IH]; intros c m H; cbn in H.
    - destruct H as (_ & _ & _ & _ & H). cbn. lia.
    - destruct H as (_ & _ & _ & Hi & Hl & _ & _ & _ & _ & _ & _ & C).
      apply IH in C. cbn [length]. lia.
  Qed.

  Lemma chain_below : forall l c m q d, chain c l m -> In (q, d) l ->
    b + 8 <= addr q /\ addr q + size q <= Stk.head c.
  Proof.
    induction l as [|[q c'] t IH]; intros c m r d H HI; [destruct HI|].
    destruct HI as [E|E]; cbn in H;
      destruct H as (_ & _ & I & Hi & Hl & Hq & Hh & _ & _ & _ & _ & C);
      pose proof (chain_basic _ _ _ C).
    - injection E as -> ->. lia.
    - apply (IH _ _ _ _ C) in E. lia.
  Qed.

  (* bytes of live blocks are not header bytes *)
  Lemma chain_hdr_free : forall l c m q d x, chain c l m -> In (q, d) l -> holds q x -> ~ hdr l x.
  Proof.
    induction l as [|[q c'] t IH]; intros c m r d x H HI Hx (r' & d' & HI' & X1 & X2); [destruct HI|].
    cbn in H. destruct H as (_ & _ & I & Hi & Hl & Hq & Hh & _ & _ & _ & _ & C).
    pose proof (chain_basic _ _ _ C) as Bs. unfold holds in Hx.
    destruct HI as [E|HI], HI' as [E'|HI'].
    - injection E as -> ->. injection E' as -> ->. lia.
    - injection E as -> ->. apply (chain_below _ _ _ _ _ C) in HI'. lia.
    - injection E' as -> ->. apply (chain_below _ _ _ _ _ C) in HI. lia.
    - apply (IH _ _ _ _ _ C HI Hx). exists r', d'. auto.
  Qed.

  Lemma chain_frame : forall l c m m', chain c l m ->
    (forall x, x < 2 ^ 64 -> hdr l x -> m x = m' x) -> chain c l m'.
  Proof.
    induction l as [|[q c'] t IH]; intros c m m' H F; cbn in *; [auto|].
    destruct H as (B & E & I & Hi & Hl & Hq & Hh & Ha & Hp & L1 & L2 & C).
    pose proof (chain_basic _ _ _ C) as Bs.
    assert (X : forall x, addr q - 8 <= x < addr q -> m x = m' x).
    { intros x Hx. apply F; [lia|]. exists q, c'. split; [left; auto|]. lia. }
    split; [auto|]. split; [auto|]. split; [auto|]. split; [auto|]. split; [auto|]. split; [auto|].
    split; [auto|]. split; [auto|]. split; [auto|]. split; [|split].
    - rewrite <- L1. symmetry. apply load_ext; [lia|]. intros x Hx. apply X. cbn in Hx. lia.
    - rewrite <- L2. symmetry. apply load_ext; [lia|]. intros x Hx. apply X. cbn in Hx. lia.
    - apply IH with m; auto. intros x Hx (r & d & HI & X1 & X2). apply F; [auto|].
      exists r, d. split; [right; auto|]. auto.
  Qed.

  Lemma chain_good : forall l c m, chain c l m -> good_blocks b (Stk.head c) (map fst l).
  Proof.
    induction l as [|[q c'] t IH]; intros c m H; cbn in H.
    - split; [constructor|]. split; constructor.
    - destruct H as (B & E & I & Hi & Hl & Hq & Hh & Ha & Hp & L1 & L2 & C).
      pose proof (chain_basic _ _ _ C) as Bs. cbn [map fst].
      rewrite Hh. eapply good_cons; [exact (IH _ _ C)|lia|lia|auto].
  Qed.

  Lemma stk_alloc_exact : forall st l s a p, chain (Stk.fields st) l (Stk.mem st) -> pow2 a ->
    least_multiple_above a (Stk.head (Stk.fields st) + 8) p -> p + s < 2 ^ 64 ->
    (Stk.last_id (Stk.fields st) < 2 ^ 31 - 1)%Z ->
    Stk.alloc st s a =
      if p + s <=? b + len then
        Ok (Stk.mkst (Stk.mkctl b (p + s) (b + len) (Stk.last_id (Stk.fields st) + 1))
              (store (store (Stk.mem st) (p - 8) 4 (wrap 32 (p - Stk.head (Stk.fields st))))
                 (p - 4) 4 (u32 (Stk.last_id (Stk.fields st) + 1))), p)
      else Contract.
  Proof.
    intros [c m] l s a p C Hp Hm Hw Hid. cbn [Stk.fields Stk.mem] in *.
    pose proof (chain_basic _ _ _ C) as (B & E & I1 & I2).
    unfold Stk.alloc. cbn [Stk.fields Stk.mem]. rewrite B.
    destruct (N.eqb_spec b 0); [lia|]. cbn [negb contract bind].
    rewrite (awh_exact _ _ _ p) by (auto; lia).
    rewrite wadd_small by lia. rewrite E.
    destruct (N.leb_spec (p + s) (b + len)); [|reflexivity]. cbn [contract bind].
    destruct (Z.ltb_spec (Stk.last_id c) (2 ^ 31 - 1)); [|lia]. cbn [defined bind].
    assert (Hge : Stk.head c + 8 <= p) by apply Hm.
    unfold Stk.header_in. rewrite B, E.
    destruct (N.leb_spec (b + 8) p); [|lia]. destruct (N.leb_spec p (b + len)); [|lia].
    cbn [andb defined bind].
    rewrite !wsub_ge by lia. reflexivity.
  Qed.

  Lemma chain_header : forall l c0 m q c k, chain c0 l m -> nth_error l k = Some (q, c) ->
    load m (addr q - 8) 4 = addr q - Stk.head c
    /\ s32 (load m (addr q - 4) 4) = (Stk.last_id c0 - Z.of_nat k)%Z.
  Proof.
    intros l c0 m q c k C Hk.
    assert (X : load m (addr q - 8) 4 = addr q - Stk.head c
                /\ load m (addr q - 4) 4 = u32 (Stk.last_id c0 - Z.of_nat k)).
    { revert c0 k C Hk. induction l as [|[r d] t IH]; intros c0 k C Hk; [destruct k; discriminate|].
      cbn in C. destruct C as (B & E & I & Hi & Hl & Hq & Hh & Ha & Hp & L1 & L2 & C).
      destruct k; cbn in Hk.
      - injection Hk as -> ->. rewrite L1, L2. split; [auto|]. f_equal. lia.
      - apply IH with (c0 := d) in Hk; [|auto]. rewrite Hi.
        replace (Stk.last_id d + 1 - Z.of_nat (S k))%Z with (Stk.last_id d - Z.of_nat k)%Z by lia. auto. }
    destruct X as (-> & ->). split; [auto|]. apply u32_s32.
    pose proof (chain_id _ _ _ C).
    assert (k < length l)%nat by (apply nth_error_Some; congruence). lia.
  Qed.

  (* effect of an allocation at p on the live blocks *)
  Lemma chain_push : forall c l m s a p, chain c l m -> pow2 a -> a <= 2 ^ 31 ->
    least_multiple_above a (Stk.head c + 8) p -> p + s <= b + len -> (Stk.last_id c < 2 ^ 31 - 1)%Z ->
    chain (Stk.mkctl b (p + s) (b + len) (Stk.last_id c + 1)) ((mkb p s a, c) :: l)
      (store (store m (p - 8) 4 (wrap 32 (p - Stk.head c))) (p - 4) 4 (u32 (Stk.last_id c + 1))).
  Proof.
    intros c l m s a p C Ha Ha31 Hm Hfit Hlt'.
    pose proof (chain_id _ _ _ C) as (Hid & Hlt).
    pose proof (chain_basic _ _ _ C) as (B & E & I1 & I2).
    pose proof (lma_lt _ _ _ (proj1 (pow2_pos' _ Ha)) Hm) as Hpad.
    destruct Hm as (D & Hge & _).
    cbn [Stk.fields Stk.mem chain Stk.begin_ Stk.end_ Stk.head Stk.last_id addr size].
    assert (P31 : 2 ^ 31 + 8 < 2 ^ 32) by reflexivity.
    split; [auto|]. split; [auto|]. split; [auto|]. split; [auto|]. split; [lia|]. split; [auto|].
    split; [auto|]. split; [exact D|]. split; [lia|].
    destruct (u32_s32 (Stk.last_id c + 1) ltac:(lia)) as (_ & Hu).
    split; [|split].
    - rewrite (load_ext _ _ (store m (p - 8) 4 (wrap 32 (p - Stk.head c)))); [|lia|].
      + rewrite wrap_small by lia. apply load_store; [lia|]. change (256 ^ N.of_nat 4) with (2 ^ 32). lia.
      + intros x Hx. apply store_other; lia.
    - apply load_store; [lia|]. exact Hu.
    - eapply chain_frame; [exact C|]. intros x Hx (r & d & HI & X1 & X2).
      pose proof (chain_below _ _ _ _ _ C HI).
      rewrite !store_other by lia. reflexivity.
  Qed.

  Lemma stk_header : forall st q c l, chain (Stk.fields st) l (Stk.mem st) -> In (q, c) l ->
    (forall k, nth_error l k = Some (q, c) ->
     Stk.header st (addr q) = Ok (addr q - Stk.head c, (Stk.last_id (Stk.fields st) - Z.of_nat k)%Z)).
  Proof.
    intros [c0 m] q c l. cbn [Stk.fields Stk.mem]. intros C _ k Hk.
    destruct (chain_header _ _ _ _ _ _ C Hk) as (X1 & X2).
    pose proof (chain_basic _ _ _ C) as (B & E & I1 & I2).
    pose proof (chain_below _ _ _ _ _ C (nth_error_In _ _ Hk)) as Bl.
    unfold Stk.header, Stk.header_in. cbn [Stk.fields Stk.mem]. rewrite B, E.
    destruct (N.leb_spec (b + 8) (addr q)); [|lia]. destruct (N.leb_spec (addr q) (b + len)); [|lia].
    cbn [andb defined bind]. rewrite !wsub_ge by lia. rewrite X1, X2. reflexivity.
  Qed.

  Lemma stk_free_exact : forall st q c l, chain (Stk.fields st) ((q, c) :: l) (Stk.mem st) ->
    Stk.free st (addr q) = Ok (Stk.mkst c (Stk.mem st)).
  Proof.
    intros st q c l C. pose proof (chain_below _ _ _ _ _ C (or_introl eq_refl)) as Bl.
    pose proof (chain_basic _ _ _ C) as Bs.
    pose proof (chain_id _ _ _ C) as (Hid & Hid').
    unfold Stk.free. destruct (N.eqb_spec (addr q) 0); [lia|].
    rewrite (stk_header _ _ _ _ C (or_introl eq_refl) 0%nat eq_refl). cbn [bind].
    cbn in C. destruct C as (B & E & I & Hi & Hl & Hq & Hh & Ha & Hp & L1 & L2 & C).
    rewrite Z.sub_0_r, Z.eqb_refl. cbn [contract bind].
    cbn [length] in Hid. destruct (Z.ltb_spec (- 2 ^ 31) (Stk.last_id (Stk.fields st))); [|lia].
    cbn [defined bind]. rewrite wsub_ge by lia.
    pose proof (chain_basic _ _ _ C) as (B' & E' & _ & _).
    apply (f_equal (@Ok _)). f_equal. destruct c; cbn in *. f_equal; try congruence; lia.
  Qed.

  Lemma stk_realloc_exact : forall st q c l n a', chain (Stk.fields st) ((q, c) :: l) (Stk.mem st) ->
    0 < n -> addr q + n < 2 ^ 64 ->
    Stk.realloc st (addr q) n a' =
      if addr q + n <=? b + len then
        Ok (Stk.mkst (Stk.mkctl b (addr q + n) (b + len) (Stk.last_id (Stk.fields st))) (Stk.mem st), addr q)
      else Contract.
  Proof.
    intros st q c l n a' C Hn Hw.
    pose proof (chain_below _ _ _ _ _ C (or_introl eq_refl)) as Bl.
    pose proof (chain_basic _ _ _ C) as (B & E & _ & _).
    unfold Stk.realloc. destruct (N.eqb_spec n 0); [lia|]. destruct (N.eqb_spec (addr q) 0); [lia|].
    rewrite (stk_header _ _ _ _ C (or_introl eq_refl) 0%nat eq_refl). cbn [bind].
    rewrite Z.sub_0_r, Z.eqb_refl. cbn [contract bind]. rewrite wadd_small by lia. rewrite E, B.
    destruct (addr q + n <=? b + len); reflexivity.
  Qed.

  Lemma stk_hist_chain : forall st l, stk_hist b len st l -> chain (Stk.fields st) l (Stk.mem st).
  Proof.
    intros st l H. induction H.
    - unfold Stk.init. cbn. rewrite wadd_small by lia. repeat split; lia.
    - destruct H2 as (q & Hm & Hq).
      pose proof (chain_id _ _ _ IHstk_hist) as (Hid & Hlt).
      pose proof (chain_basic _ _ _ IHstk_hist) as (B & E & I1 & I2).
      assert (Hlt' : (Stk.last_id (Stk.fields st) < 2 ^ 31 - 1)%Z).
      { unfold Stk.alloc in H3. destruct (contract _); try discriminate H3. cbn [bind] in H3.
        destruct (contract _); try discriminate H3. cbn [bind] in H3.
        destruct (Z.ltb_spec (Stk.last_id (Stk.fields st)) (2 ^ 31 - 1)); [auto|discriminate H3]. }
      rewrite (stk_alloc_exact _ _ s a q IHstk_hist H0 Hm ltac:(lia) Hlt') in H3.
      destruct (N.leb_spec (q + s) (b + len)) as [Hfit|]; [|discriminate].
      assert (Hp : p = q) by congruence. subst q.
      match type of H3 with Ok (?x, _) = _ => assert (st' = x) by congruence end. subst st'.
      cbn [Stk.fields Stk.mem]. apply chain_push; auto.
    - cbn in H0. injection H0 as <-. auto.
    - rewrite (stk_free_exact _ _ _ _ IHstk_hist) in H0. injection H0 as <-. cbn.
      cbn in IHstk_hist. tauto.
    - pose proof (stk_realloc_exact _ _ _ _ n a' IHstk_hist H0 H1) as Ex. cbn [addr] in Ex.
      rewrite Ex in H2. clear Ex.
      destruct (N.leb_spec (q + n) (b + len)) as [Hfit|]; [|discriminate].
      assert (p = q) by congruence. subst p.
      match type of H2 with Ok (?x, _) = _ => assert (st' = x) by congruence end. subst st'.
      cbn in IHstk_hist. cbn. destruct IHstk_hist as (B & E & I & Hi & Hl & Hq & Hh & Ha & Hp & L1 & L2 & C).
      repeat (split; [auto|]). auto.
    - cbn. eapply chain_frame; [exact IHstk_hist|]. intros y Hy Hd. unfold upd.
      destruct (N.eqb_spec y x); [|reflexivity]. subst y. exfalso.
      eapply chain_hdr_free; eauto.
    - pose proof (chain_basic _ _ _ IHstk_hist) as (B & E & I1 & I2). cbn. repeat split; auto; lia.
  Qed.

  (* freeing a live block that is not the most recent one trips the assertion *)
  Lemma stk_free_older : forall st q c l r d, chain (Stk.fields st) ((q, c) :: l) (Stk.mem st) -> In (r, d) l ->
    Stk.free st (addr r) = Contract.
  Proof.
    intros st q c l r d C HI. pose proof (chain_below _ _ _ _ _ C (or_intror HI)) as Bl.
    unfold Stk.free. destruct (N.eqb_spec (addr r) 0); [lia|].
    apply In_nth_error in HI. destruct HI as (k & Hk).
    rewrite (stk_header _ r d _ C (or_intror (nth_error_In _ _ Hk)) (S k) Hk). cbn [bind].
    destruct (Z.eqb_spec (Stk.last_id (Stk.fields st) - Z.of_nat (S k)) (Stk.last_id (Stk.fields st))); [lia|reflexivity].
  Qed.

  Lemma stk_realloc_older : forall st q c l r d n a, chain (Stk.fields st) ((q, c) :: l) (Stk.mem st) -> In (r, d) l ->
    Stk.realloc st (addr r) n a = Contract.
  Proof.
    intros st q c l r d n a C HI. unfold Stk.realloc.
    rewrite (stk_free_older _ _ _ _ _ _ C HI).
    pose proof (chain_below _ _ _ _ _ C (or_intror HI)) as Bl.
    apply In_nth_error in HI. destruct HI as (k & Hk).
    destruct (N.eqb_spec n 0); [reflexivity|].
    destruct (N.eqb_spec (addr r) 0); [lia|].
    rewrite (stk_header _ r d _ C (or_intror (nth_error_In _ _ Hk)) (S k) Hk). cbn [bind].
    destruct (Z.eqb_spec (Stk.last_id (Stk.fields st) - Z.of_nat (S k)) (Stk.last_id (Stk.fields st))); [lia|reflexivity].
  Qed.

  (* freeing the same block twice in a row trips the assertion *)
  Lemma stk_double_free : forall st q c l st', chain (Stk.fields st) ((q, c) :: l) (Stk.mem st) ->
    Stk.free st (addr q) = Ok st' -> Stk.free st' (addr q) = Contract.
  Proof.
    intros st q c l st' C F. rewrite (stk_free_exact _ _ _ _ C) in F. injection F as <-.
    pose proof (stk_header _ _ _ _ C (or_introl eq_refl) 0%nat eq_refl) as Hh.
    pose proof (chain_below _ _ _ _ _ C (or_introl eq_refl)) as Bl.
    pose proof (chain_basic _ _ _ C) as (B & E & _ & _).
    cbn in C. destruct C as (_ & _ & I & Hi & Hl & Hq & Hh' & Ha & Hp & L1 & L2 & C).
    pose proof (chain_basic _ _ _ C) as (B' & E' & _ & _).
    unfold Stk.header, Stk.header_in in Hh. rewrite B, E in Hh.
    unfold Stk.free. destruct (N.eqb_spec (addr q) 0); [lia|].
    unfold Stk.header, Stk.header_in. cbn [Stk.fields Stk.mem]. rewrite B', E', Hh. cbn [bind].
    destruct (Z.eqb_spec (Stk.last_id (Stk.fields st) - Z.of_nat 0) (Stk.last_id c)); [lia|reflexivity].
  Qed.
End StkP.

(* live blocks and their headers need room *)
Lemma chain_room : forall b len l c m, 0 < b -> b + len < 2 ^ 64 -> chain b len c l m ->
  8 * N.of_nat (length l) <= Stk.head c - b.
Proof.
  intros b len l. induction l as [|[q c'] t IH]; intros c m Hb Hlen C.
  - cbn. lia.
  - pose proof C as C0. cbn in C. destruct C as (B & E & I & Hi & Hl & Hq & Hh & Ha & Hp & L1 & L2 & C).
    pose proof (chain_basic b len Hb Hlen _ _ _ C). specialize (IH _ _ Hb Hlen C). cbn [length]. lia.
Qed.

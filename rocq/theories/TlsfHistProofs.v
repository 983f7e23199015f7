(* Histories of clients of the two level segregated fit allocator. *)
From Coq Require Import NArith Arith List Bool Lia.
From Verif Require Import Base TlsfModel TlsfMapSpec TlsfMapProofs TlsfListProofs TlsfPhysProofs TlsfProofs
  TlsfOpProofs TlsfRealProofs TlsfPoolProofs TlsfSpec.
Import ListNotations.
Open Scope N_scope.

(* buffer b lies in a used block *)
Definition backed (t : tlsf) (P : list pool) (b : buffer) : Prop :=
  16 <= ptr b /\ ptr b mod align b = 0 /\
  (exists s, used P (ptr b - 16) s /\ size b <= s /\ s < rounded_up (size b) + 32) /\
  (forall j v, j < size b -> data b j = Some v -> byte (mem t) (ptr b + j) = Some v).
Definition pool_of (p : N * N) : N * N := (fst p - 8, pool_len (snd p)).
Definition WInv (m : memory) (w : world) : Prop :=
  same_dom m (mem (heap w)) /\
  exists P, Good (heap w) P /\ coals P /\ skel P = map pool_of (pools w) /\
    (forall p, In p (pools w) -> 8 < fst p /\ 40 <= snd p) /\
    NoDup (map ptr (live w)) /\ (forall b, In b (live w) -> backed (heap w) P b) /\
    (forall z s, used P z s -> exists b, In b (live w) /\ ptr b = z + 16).

Lemma byte_byte_at : forall m x, byte m x = byte_at m x.
Proof. reflexivity. Qed.

Lemma used_unique : forall t P z s s', Good t P -> used P z s -> used P z s' -> s = s'.
Proof.
  intros t P z s s' (S & Ge & _) H H'. destruct (all_sep _ _ _ _ _ _ _ _ _ Ge H H') as [(_ & E & _)|E]; auto.
  pose proof (all_size _ _ _ _ S H). pose proof (all_size _ _ _ _ S H'). lia.
Qed.
Lemma used_align : forall t P z s, Good t P -> used P z s -> z mod 8 = 0.
Proof. intros t P z s (S & Ge & _) H. apply (all_place _ _ _ _ _ _ S Ge H). Qed.

(* a buffer in an untouched block is still backed *)
Lemma backed_keep : forall t P t' P' b (V : N -> N -> Prop), Good t P -> backed t P b ->
  (forall s, used P (ptr b - 16) s -> V (ptr b - 16) s /\ used P' (ptr b - 16) s) ->
  keeps V (mem t) (mem t') -> backed t' P' b.
Proof.
  intros t P t' P' b V G (B1 & B2 & (s & B3 & B4 & B5) & B6) H K. destruct (H s B3) as [H1 H2].
  split; [auto|]. split; [auto|]. split; [eauto|]. intros j v Hj Hd. rewrite <- (B6 j v Hj Hd).
  rewrite !byte_byte_at. apply byte_eq. pose proof (used_align _ _ _ _ G B3) as A.
  assert (A' : ptr b mod 8 = 0).
  { replace (ptr b) with (ptr b - 16 + 16) by lia. apply mod8_add; auto. }
  destruct (word_range (ptr b) (ptr b + j) s A') as [X Y]; [lia|lia|]. apply (K _ s _ H1); lia.
Qed.

Lemma drop_in : forall A (l : list A) i x, In x (drop_nth i l) -> In x l.
Proof. induction l as [|y l IH]; intros [|i] x H; cbn in *; auto. destruct H; auto. right. eapply IH; eauto. Qed.
Lemma drop_map : forall A B (f : A -> B) l i, map f (drop_nth i l) = drop_nth i (map f l).
Proof. induction l as [|y l IH]; intros [|i]; cbn; auto. rewrite IH. reflexivity. Qed.
Lemma drop_nodup : forall A (l : list A) i, NoDup l -> NoDup (drop_nth i l).
Proof.
  induction l as [|y l IH]; intros [|i] H; cbn; auto; apply NoDup_cons_iff in H; destruct H as [H1 H2]; auto.
  constructor; auto. intro K. apply H1. eapply drop_in; eauto.
Qed.
Lemma drop_other : forall (l : list buffer) i b c, NoDup (map ptr l) -> nth_error l i = Some b ->
  (In c (drop_nth i l) <-> In c l /\ ptr c <> ptr b).
Proof.
  induction l as [|y l IH]; intros [|i] b c N H; cbn in *; try discriminate; apply NoDup_cons_iff in N; destruct N as [N1 N2].
  - inv H. split.
    + intro K. split; auto. intro E. apply N1. rewrite <- E. apply in_map. auto.
    + intros [[->|K] Ne]; [congruence|auto].
  - rewrite (IH i b c N2 H). split.
    + intros [->|[K Ne]]; [|auto]. split; auto. intro E. apply N1. rewrite E. apply in_map. eapply nth_error_In; eauto.
    + intros [[->|K] Ne]; auto.
Qed.
Lemma set_other : forall (l : list buffer) i b b' c, NoDup (map ptr l) -> nth_error l i = Some b ->
  (In c (set_nth i b' l) <-> c = b' \/ (In c l /\ ptr c <> ptr b)).
Proof.
  induction l as [|y l IH]; intros [|i] b b' c N H; cbn in *; try discriminate; apply NoDup_cons_iff in N; destruct N as [N1 N2].
  - inv H. split.
    + intros [->|K]; auto. right. split; auto. intro E. apply N1. rewrite <- E. apply in_map. auto.
    + intros [->|[[->|K] Ne]]; auto. congruence.
  - rewrite (IH i b b' c N2 H). split.
    + intros [->|[K|[K Ne]]]; auto. right. split; auto. intro E. apply N1. rewrite E. apply in_map. eapply nth_error_In; eauto.
    + intros [->|[[->|K] Ne]]; auto.
Qed.
Lemma set_nodup : forall (l : list buffer) i b b', NoDup (map ptr l) -> nth_error l i = Some b ->
  (forall c, In c l -> ptr c <> ptr b -> ptr c <> ptr b') -> NoDup (map ptr (set_nth i b' l)).
Proof.
  induction l as [|y l IH]; intros [|i] b b' N H F; cbn in *; try discriminate; apply NoDup_cons_iff in N; destruct N as [N1 N2].
  - inv H. constructor; auto. intro K. apply in_map_iff in K. destruct K as (c & E & K). apply (F c); auto.
    intro E'. apply N1. rewrite <- E'. apply in_map. auto.
  - constructor.
    + intro K. apply in_map_iff in K. destruct K as (c & E & K). apply (set_other l i b b' c N2 H) in K.
      assert (Yb : ptr y <> ptr b). { intro E'. apply N1. rewrite E'. apply in_map. eapply nth_error_In; eauto. }
      destruct K as [->|[K Ne]].
      * apply (F y); auto.
      * apply N1. rewrite <- E. apply in_map. auto.
    + apply IH with (b := b); auto.
Qed.
Lemma live_unique : forall (l : list buffer) b c, NoDup (map ptr l) -> In b l -> In c l -> ptr b = ptr c -> b = c.
Proof.
  induction l as [|y l IH]; intros b c N B C E; [contradiction|]. cbn in N. apply NoDup_cons_iff in N. destruct N as [N1 N2].
  destruct B as [->|B], C as [->|C]; auto.
  - exfalso. apply N1. rewrite E. apply in_map. auto.
  - exfalso. apply N1. rewrite <- E. apply in_map. auto.
Qed.

Lemma wsub_bound : forall a b, wsub 64 a b < 2 ^ 64.
Proof. intros. unfold wsub. apply wrap_lt. Qed.

(* ---- steps ---- *)
Lemma took_inv : forall m w t P t' P' b s n al, same_dom m (mem (heap w)) -> heap w = t -> Good t P -> coals P ->
  skel P = map pool_of (pools w) -> (forall p, In p (pools w) -> 8 < fst p /\ 40 <= snd p) ->
  NoDup (map ptr (live w)) -> (forall c, In c (live w) -> backed t P c) ->
  (forall z q, used P z q -> exists c, In c (live w) /\ ptr c = z + 16) ->
  follows t P t' P' -> n <= s -> s < rounded_up n + 32 -> (b + 16) mod al = 0 -> adds P P' b s -> keeps (used P) (mem t) (mem t') ->
  WInv m (mkW t' (mkB (b + 16) n al (fun _ => None) :: live w) (pools w)).
Proof.
  intros m w t P t' P' b s n al D0 <- G C Sk Pl Nd Bk Cv (F1 & F2 & F3 & F4 & F5) L1 L2 Al [Ad1 Ad2] K.
  split; [cbn; eapply same_dom_trans; eauto|]. cbn [heap live pools]. exists P'.
  split; [auto|]. split; [auto|]. split; [congruence|]. split; [auto|]. split.
  { cbn. constructor; auto. intro H. apply in_map_iff in H. destruct H as (c & E & H). destruct (Bk c H) as (_ & _ & (q & U & _) & _).
    rewrite E in U. replace (b + 16 - 16) with b in U by lia. pose proof (all_size _ _ _ _ (proj1 G) U).
    destruct (Ad2 _ _ U); lia. }
  split.
  - intros c [<-|H].
    + split; [cbn; lia|]. split; [exact Al|]. cbn [ptr size data]. replace (b + 16 - 16) with b by lia. split; [|intros; discriminate].
      exists s. split; [apply Ad1; auto|auto].
    + apply (backed_keep (heap w) P t' P' c (used P)); auto. intros q U. split; auto. apply Ad1. auto.
  - intros z q H. apply Ad1 in H. destruct H as [H|[-> ->]].
    + destruct (Cv _ _ H) as (c & Hc & E). exists c. split; [right; auto|auto].
    + eexists. split; [left; reflexivity|reflexivity].
Qed.

Lemma free_inv : forall m w P i b, same_dom m (mem (heap w)) -> Good (heap w) P -> coals P ->
  skel P = map pool_of (pools w) -> (forall p, In p (pools w) -> 8 < fst p /\ 40 <= snd p) ->
  NoDup (map ptr (live w)) -> (forall c, In c (live w) -> backed (heap w) P c) ->
  (forall z q, used P z q -> exists c, In c (live w) /\ ptr c = z + 16) ->
  nth_error (live w) i = Some b ->
  exists t, tlsf_free (heap w) (ptr b) = Ok t /\ WInv m (mkW t (drop_nth i (live w)) (pools w)).
Proof.
  intros m w P i b D0 G C Sk Pl Nd Bk Cv Hb. pose proof (nth_error_In _ _ Hb) as Ib.
  destruct (Bk b Ib) as (B1 & _ & (s & B3 & _) & _).
  destruct (free_ok _ _ _ _ G C B3) as (t' & P' & E & (F1 & F2 & F3 & F4 & F5) & Dr & K).
  replace (ptr b - 16 + 16) with (ptr b) in E by lia. exists t'. split; [exact E|].
  split; [cbn; eapply same_dom_trans; eauto|]. cbn [heap live pools]. exists P'.
  split; [auto|]. split; [auto|]. split; [congruence|]. split; [auto|].
  split; [rewrite drop_map; apply drop_nodup; auto|]. split.
  - intros c H. apply (drop_other _ _ _ _ Nd Hb) in H. destruct H as [H Ne]. pose proof (Bk c H) as Bc. pose proof (proj1 Bc).
    apply (backed_keep (heap w) P t' P' c (fun z q => used P z q /\ z <> ptr b - 16)); auto.
    intros q U. split; [split; [auto|lia]|]. apply Dr. split; [auto|lia].
  - intros z q H. apply Dr in H. destruct H as [H Ne]. destruct (Cv _ _ H) as (c & Hc & Ec).
    exists c. split; [|auto]. apply (drop_other _ _ _ _ Nd Hb). split; [auto|lia].
Qed.

Lemma store_byte_ok : forall m x v w, m (8 * (x / 8)) = Some w -> v < 256 ->
  exists m', store_byte m x v = Ok m' /\ same_dom m m' /\
    (forall y, y <> 8 * (x / 8) -> m' y = m y) /\
    byte m' x = Some v /\ (forall y, y <> x -> byte m' y = byte m y).
Proof.
  intros m x v w E V. unfold store_byte. rewrite (rd_some _ _ _ E). cbn [bind]. rewrite wr_some by (rewrite E; discriminate).
  set (r := x mod 8). pose proof (N.mod_lt x 8 ltac:(lia)) as Lr. fold r in Lr.
  set (k := 2 ^ (8 * r)). pose proof (pow2_pos (8 * r)) as Kp. fold k in Kp.
  set (u := w mod k + k * (v + 256 * (w / (k * 256)))).
  eexists. split; [reflexivity|]. split; [apply same_dom_upd; rewrite E; discriminate|].
  split; [intros y Y; apply upd_other; auto|].
  (* byte i of u *)
  assert (Hi : forall i, (u / 2 ^ (8 * i)) mod 256 = if i =? r then v else (w / 2 ^ (8 * i)) mod 256).
  { intro i. pose proof (pow2_pos (8 * i)) as Ip. pose proof (N.mod_lt w k ltac:(lia)) as Wl.
    destruct (N.eqb_spec i r) as [->|Ne].
    - fold k. unfold u. rewrite N.mul_comm, N.div_add by lia. rewrite (N.div_small (w mod k)) by auto. rewrite N.add_0_l.
      rewrite (N.mul_comm 256), N.mod_add by lia. apply N.mod_small. auto.
    - destruct (N.lt_ge_cases i r) as [L|L].
      + unfold u, k. rewrite low_bytes by lia. reflexivity.
      + assert (H : k * 256 <= 2 ^ (8 * i)).
        { unfold k. change 256 with (2 ^ 8). rewrite <- N.pow_add_r. apply N.pow_le_mono_r; lia. }
        assert (Ei : 2 ^ (8 * i) = (k * 256) * 2 ^ (8 * i - 8 * r - 8)).
        { unfold k. change 256 with (2 ^ 8). rewrite <- !N.pow_add_r. f_equal. lia. }
        pose proof (pow2_pos (8 * i - 8 * r - 8)).
        assert (Eu : u / (k * 256) = w / (k * 256)).
        2: { rewrite Ei, <- (N.div_div u (k * 256)), <- (N.div_div w (k * 256)), Eu by lia. reflexivity. }
        rewrite <- (N.div_div u) by lia. unfold u.
        rewrite (N.mul_comm k), N.div_add by lia. rewrite (N.div_small (w mod k)) by auto.
        rewrite N.add_0_l, (N.mul_comm 256), N.div_add by lia. rewrite (N.div_small v) by auto. reflexivity. }
  split.
  - unfold byte. rewrite upd_same. fold r. rewrite Hi, N.eqb_refl. reflexivity.
  - intros y Y. unfold byte. destruct (N.eq_dec (y / 8) (x / 8)) as [Eq|Nq].
    + rewrite Eq, upd_same, E, Hi. destruct (N.eqb_spec (y mod 8) r) as [Er|]; [|reflexivity].
      exfalso. apply Y. rewrite (N.div_mod y 8), (N.div_mod x 8), Eq by lia. unfold r in Er. rewrite Er. reflexivity.
    + rewrite upd_other by lia. reflexivity.
Qed.

Lemma skel_pools : forall P l, skel P = map pool_of l -> forall a k, In (a, k) P -> exists p, In p l /\ a = fst p - 8 /\ len k = pool_len (snd p).
Proof.
  intros P l E a k H. apply skel_in in H. rewrite E in H. apply in_map_iff in H. destruct H as (p & Ep & H).
  unfold pool_of in Ep. inv Ep. eauto.
Qed.
Lemma pool_len_le : forall bytes, 16 <= bytes -> pool_len bytes + 8 <= bytes /\ bytes < pool_len bytes + 16.
Proof.
  intros bytes H. unfold pool_len. pose proof (N.div_mod (bytes - 16) 8 ltac:(lia)). pose proof (N.mod_lt (bytes - 16) 8 ltac:(lia)).
  set (q := (bytes - 16) / 8) in *. set (r := (bytes - 16) mod 8) in *. clearbody q r. lia.
Qed.

Theorem step_inv : forall m w o, WInv m w -> op_ok m o -> exists w', step w o = Ok w' /\ WInv m w'.
Proof.
  intros m w o W O. pose proof W as W0. destruct W as (D0 & P & G & C & Sk & Pl & Nd & Bk & Cv).
  destruct o as [n|k n|i|i n|i j v|addr bytes|i]; cbn [step op_ok] in *.
  - destruct (malloc_ok _ _ n G C O) as [[E _]|(t' & P' & b & s & E & Fo & [L1 L2] & _ & Ad & K)]; rewrite E; cbn [bind].
    + eexists. split; [reflexivity|]. destruct w as [h l p]. exact W0.
    + eexists. split; [reflexivity|]. eapply took_inv; eauto.
      apply mod8_add; auto. apply (used_align t' P' b s); [apply Fo|]. apply Ad. auto.
  - destruct O as [O1 O2].
    destruct (memalign_ok _ _ k n G C O1 O2) as [[E _]|(t' & P' & b & s & E & Fo & [L1 L2] & _ & Al & Ad & K)]; rewrite E; cbn [bind].
    + eexists. split; [reflexivity|]. destruct w as [h l p]. exact W0.
    + eexists. split; [reflexivity|]. eapply took_inv; eauto.
  - destruct (nth_error (live w) i) as [b|] eqn:Hb; [|eauto].
    destruct (free_inv m w P i b) as (t & E & W'); auto. rewrite E. cbn [bind]. eauto.
  - destruct (nth_error (live w) i) as [b|] eqn:Hb; [|eauto].
    pose proof (nth_error_In _ _ Hb) as Ib. destruct (Bk b Ib) as (B1 & B2 & (s & B3 & B4 & B5) & B6).
    destruct (N.eq_dec n 0) as [->|Z].
    { destruct (free_inv m w P i b) as (t & E & W'); auto. unfold tlsf_realloc. cbn [N.eqb]. rewrite E. cbn [bind]. eauto. }
    destruct (realloc_ok _ _ _ _ n G C B3 Z O) as [[E _]|(t' & P' & b' & s' & E & (F1 & F2 & F3 & F4 & F5) & [L1 L2] & [Mv1 Mv2] & K & By)];
      replace (ptr b - 16 + 16) with (ptr b) in * by lia; rewrite E; cbn [bind].
    { destruct (N.eqb_spec n 0); [congruence|]. eexists. split; [reflexivity|]. destruct w as [h l p]. exact W0. }
    eexists. split; [reflexivity|]. split; [cbn; eapply same_dom_trans; eauto|]. cbn [heap live pools]. exists P'.
    split; [auto|]. split; [auto|]. split; [congruence|]. split; [auto|]. split; [|split].
    + apply set_nodup with (b := b); auto. intros c Hc Ne. cbn [ptr]. destruct (Bk c Hc) as (C1 & _ & (q & U & _) & _).
      specialize (Mv2 _ _ U ltac:(lia)). lia.
    + intros c H. apply (set_other _ _ _ _ _ Nd Hb) in H. destruct H as [->|[H Ne]].
      * split; [cbn; lia|]. cbn [ptr size align data]. replace (b' + 16 - 16) with b' by lia.
        assert (U' : used P' b' s') by (apply Mv1; auto).
        split; [apply mod8_add; auto; apply (used_align t' P' b' s'); auto|]. split; [exists s'; auto|].
        intros j v Hj Hd. destruct (N.ltb_spec j (size b)); [|discriminate]. rewrite byte_byte_at, By by lia. apply B6; auto.
      * pose proof (Bk c H) as Bc. pose proof (proj1 Bc).
        apply (backed_keep (heap w) P t' P' c (fun z q => used P z q /\ z <> ptr b - 16)); auto.
        intros q U. split; [split; [auto|lia]|]. apply Mv1. left. split; [auto|lia].
    + intros z q H. apply Mv1 in H. destruct H as [[H Ne]|[-> ->]].
      * destruct (Cv _ _ H) as (c & Hc & Ec). exists c. split; [|auto]. apply (set_other _ _ _ _ _ Nd Hb). right. split; [auto|lia].
      * eexists. split; [apply (set_other _ _ _ _ _ Nd Hb); left; reflexivity|reflexivity].
  - destruct (nth_error (live w) i) as [b|] eqn:Hb; [|eauto].
    destruct (N.ltb_spec j (size b)) as [Lj|]; [|cbn [andb]; eauto]. destruct (N.ltb_spec v 256) as [Lv|]; cbn [andb]; [|eauto].
    pose proof (nth_error_In _ _ Hb) as Ib. destruct (Bk b Ib) as (B1 & B2 & (s & B3 & B4 & B5) & B6).
    pose proof G as (S & Ge & _). destruct (all_place _ _ _ _ _ _ S Ge B3) as (A1 & A2 & A3 & A4 & A5).
    assert (A8 : ptr b mod 8 = 0) by (replace (ptr b) with (ptr b - 16 + 16) by lia; apply mod8_add; auto).
    destruct (word_range (ptr b) (ptr b + j) s A8) as [X1 X2]; [lia|lia|].
    destruct (mem (heap w) (8 * ((ptr b + j) / 8))) as [u|] eqn:Eu.
    2: { exfalso. apply (A5 (8 * ((ptr b + j) / 8))); auto; try lia. rewrite N.mul_comm. apply N.mod_mul. lia. }
    destruct (store_byte_ok _ _ _ _ Eu Lv) as (m' & E & D' & F' & By1 & By2). rewrite E. cbn [bind].
    eexists. split; [reflexivity|]. split; [cbn; eapply same_dom_trans; eauto|]. cbn [heap live pools]. exists P.
    split; [eapply (store_ok _ _ _ _ m' G B3 D'); intros x X; apply F'; lia|]. split; [auto|]. split; [auto|]. split; [auto|].
    split; [apply set_nodup with (b := b); auto|]. split.
    + intros c H. apply (set_other _ _ _ _ _ Nd Hb) in H. destruct H as [->|[H Ne]].
      * split; [exact B1|]. split; [exact B2|]. cbn [ptr size data mem set_mem]. split; [eauto|].
        intros j' v' Hj Hd. destruct (N.eqb_spec j' j) as [->|Nj]; [congruence|]. rewrite By2 by lia. auto.
      * destruct (Bk c H) as (C1 & C2 & (q & C3 & C4 & C5) & C6). split; [auto|]. split; [auto|]. split; [eauto|].
        intros j' v' Hj Hd. cbn [mem set_mem]. rewrite By2; auto. intro Ex.
        destruct (all_sep _ _ _ _ _ _ _ _ _ Ge B3 C3) as [(Q & _)|Q]; [lia|]. lia.
    + intros z q H. destruct (Cv _ _ H) as (c & Hc & Ec).
      destruct (N.eq_dec (ptr c) (ptr b)) as [Eb|Nb].
      * eexists. split; [apply (set_other _ _ _ _ _ Nd Hb); left; reflexivity|]. cbn. congruence.
      * exists c. split; [|auto]. apply (set_other _ _ _ _ _ Nd Hb). auto.
  - destruct (apart_b addr bytes (nul (heap w)) control_size && forallb _ (pools w)) eqn:Ap; [|eauto].
    apply andb_true_iff in Ap. destruct Ap as [Ap1 Ap2]. rewrite forallb_forall in Ap2.
    unfold apart_b in Ap1. apply orb_true_iff in Ap1. rewrite !N.leb_le in Ap1.
    destruct O as (O1 & O2 & O3 & O4).
    assert (Dec : (addr mod 8 = 0 /\ 40 <= bytes /\ bytes < 2 ^ 32 + 16) \/ tlsf_add_pool (heap w) addr bytes = Ok (heap w, None)).
    { destruct (N.eq_dec (addr mod 8) 0) as [A8|A8].
      2: { right. unfold tlsf_add_pool, ALIGN_SIZE. rewrite align_down8 by apply wsub_bound. cbn [bind].
           destruct (N.eqb_spec (addr mod 8) 0); [congruence|]. reflexivity. }
      destruct (N.lt_ge_cases bytes 40) as [L|L]; [|destruct O3 as [O3|O3]; [auto|]].
      - right. unfold tlsf_add_pool, ALIGN_SIZE, block_header_overhead, block_size_min, block_size_max. change (2 * 8) with 16.
        rewrite align_down8 by apply wsub_bound. cbn [bind]. rewrite A8. cbn [N.eqb negb].
        destruct (N.lt_ge_cases bytes 16) as [L'|L'].
        + rewrite wsub_lt by lia.
          assert (H : 2 ^ 64 - 16 <= 8 * ((2 ^ 64 + bytes - 16) / 8)).
          { assert ((2 ^ 64 - 16) / 8 <= (2 ^ 64 + bytes - 16) / 8) by (apply N.div_le_mono; lia).
            change ((2 ^ 64 - 16) / 8) with (2 ^ 61 - 2) in *. change (2 ^ 64 - 16) with (8 * (2 ^ 61 - 2)).
            apply N.mul_le_mono_l. auto. }
          destruct (N.ltb_spec (2 ^ 32) (8 * ((2 ^ 64 + bytes - 16) / 8))); [|lia]. rewrite orb_true_r. reflexivity.
        + rewrite wsub_ge by lia. assert (H : (bytes - 16) / 8 < 3) by (apply N.div_lt_upper_bound; lia).
          destruct (N.ltb_spec (8 * ((bytes - 16) / 8)) 24); [reflexivity|]. lia.
      - right. unfold tlsf_add_pool, ALIGN_SIZE, block_header_overhead, block_size_min, block_size_max. change (2 * 8) with 16.
        rewrite align_down8 by apply wsub_bound. cbn [bind]. rewrite A8. cbn [N.eqb negb].
        rewrite wsub_ge by lia.
        assert (H : (2 ^ 32 + 8) / 8 <= (bytes - 16) / 8) by (apply N.div_le_mono; lia).
        change ((2 ^ 32 + 8) / 8) with (2 ^ 29 + 1) in H.
        destruct (N.ltb_spec (2 ^ 32) (8 * ((bytes - 16) / 8))) as [|Hc]; [rewrite orb_true_r; reflexivity|].
        exfalso. set (q := (bytes - 16) / 8) in *. clearbody q. change (2 ^ 32) with 4294967296 in Hc. change (2 ^ 29) with 536870912 in H. lia. }
    destruct Dec as [(A8 & L1 & L2)|E].
    2: { rewrite E. cbn [bind]. eexists. split; [reflexivity|]. destruct w. exact W0. }
    destruct (add_pool_ok _ P addr bytes G C) as (t' & pb & E & N' & D' & Epb & G' & C' & K).
    { split; [auto|]. split; [auto|]. split; [auto|]. split; [auto|]. split; [auto|].
      intros x X1 X2 X3. eapply same_dom_some; [exact D0|]. apply O4; auto. }
    { lia. }
    { intros a l Hp. destruct (skel_pools _ _ Sk _ _ Hp) as (p & Hq & -> & ->). specialize (Ap2 p Hq).
      unfold apart_b in Ap2. apply orb_true_iff in Ap2. rewrite !N.leb_le in Ap2. destruct (Pl p Hq) as [P8 P40].
      destruct (pool_len_le bytes ltac:(lia)). destruct (pool_len_le (snd p) ltac:(lia)). unfold apart. cbn [fst snd]. lia. }
    rewrite E. cbn [bind]. eexists. split; [reflexivity|]. split; [cbn; eapply same_dom_trans; eauto|].
    cbn [heap live pools]. eexists. split; [exact G'|]. split; [exact C'|]. split.
    { cbn [skel map]. f_equal; [|exact Sk]. cbn [fst snd len]. unfold pool_of. cbn [fst snd]. f_equal. unfold pool_len. rewrite Epb. lia. }
    split; [intros p [<-|H]; [cbn; lia|auto]|]. split; [auto|]. split.
    + intros c H. apply (backed_keep (heap w) P t' _ c (used P)); auto. intros q U. split; auto. right. exact U.
    + intros z q H. apply Cv with (s := q). destruct H as [H|H]; [inv H|exact H].
  - destruct (nth_error (pools w) i) as [p|] eqn:Hp; [|eauto].
    destruct (unused w p) eqn:Un; [|eauto]. unfold unused in Un. rewrite forallb_forall in Un.
    (* the pool consists of one free block *)
    assert (Sp : forall (Q : list pool) (l : list (N * N)) i p, skel Q = map pool_of l -> nth_error l i = Some p ->
                 exists zl k zr, Q = zl ++ (fst p - 8, k) :: zr /\ len k = pool_len (snd p) /\ skel (zl ++ zr) = map pool_of (drop_nth i l)).
    { clear. unfold skel. induction Q as [|[a k] Q IH]; intros [|q l] [|i] p E H; cbn in *; try discriminate.
      - inv H. unfold pool_of in E. injection E as E1 E2 E3. exists [], k, Q. cbn. rewrite E1. auto.
      - injection E as E1 E2 E3. destruct (IH l i p E3 H) as (zl & k' & zr & -> & El & Es). exists ((a, k) :: zl), k', zr.
        split; [reflexivity|]. split; [auto|]. cbn. rewrite Es. unfold pool_of. rewrite E1, E2. reflexivity. }
    destruct (Sp P (pools w) i p Sk Hp) as (zl & k & zr & EP & El & Es).
    pose proof (nth_error_In _ _ Hp) as Ip. destruct (Pl p Ip) as [P8 P40]. destruct (pool_len_le (snd p) ltac:(lia)) as [Q1 Q2].
    assert (Nu : forall z s, In (z, s, false) (trip (fst p - 8) k) -> False).
    { intros z s H. assert (U : used P z s).
      { rewrite EP. unfold used. rewrite all_app. apply in_or_app. right. cbn. apply in_or_app. left. exact H. }
      destruct (Cv _ _ U) as (c & Hc & Ec). specialize (Un c Hc). apply orb_true_iff in Un. rewrite N.ltb_lt, N.leb_le in Un.
      pose proof (trip_bound _ _ _ _ _ H). pose proof (all_size _ _ _ _ (proj1 G) U). lia. }
    assert (Hk : coal false k) by (apply (C (fst p - 8)); rewrite EP; apply in_or_app; right; left; reflexivity).
    assert (K1 : exists s, k = [(s, true)]).
    { destruct k as [|[s f] k].
      - change (len []) with 0 in El. rewrite <- El in Q2. lia.
      - destruct f; [|exfalso; apply (Nu (fst p - 8) s); left; reflexivity].
        destruct k as [|[s' f'] k]; [eauto|]. cbn in Hk. destruct Hk as (_ & H & _). destruct f'; [discriminate|].
        exfalso. eapply Nu. right. left. reflexivity. }
    destruct K1 as [s ->]. rewrite EP in *.
    destruct (remove_pool_ok _ _ _ _ _ G C) as (t' & E & N' & D' & G' & C' & K).
    replace (fst p - 8 + 8) with (fst p) in E by lia. rewrite E. cbn [bind].
    eexists. split; [reflexivity|]. split; [cbn; eapply same_dom_trans; eauto|]. cbn [heap live pools].
    exists (zl ++ zr). split; [auto|]. split; [auto|]. split; [auto|].
    split; [intros q Hq; apply Pl; eapply drop_in; eauto|]. split; [auto|].
    assert (Ue : forall z q, used (zl ++ (fst p - 8, [(s, true)]) :: zr) z q <-> used (zl ++ zr) z q).
    { intros z q. unfold used. rewrite !all_app, !in_app_iff. cbn. split; [intros [H|[H|H]]; auto; inv H|tauto]. }
    split.
    + intros c H. apply (backed_keep (heap w) _ t' (zl ++ zr) c _ G (Bk c H)) with (2 := K). intros q U. split; [auto|]. apply Ue. auto.
    + intros z q H. apply Ue in H. eauto.
Qed.

Theorem run_inv : forall m l w, WInv m w -> Forall (op_ok m) l -> exists w', run w l = Ok w' /\ WInv m w'.
Proof.
  induction l as [|o l IH]; intros w W F; cbn [run]; [eauto|]. inv F.
  destruct (step_inv m w o W) as (w1 & E & W1); auto. rewrite E. cbn [bind]. apply IH; auto.
Qed.
Lemma run_app : forall l k w, run w (l ++ k) = (let! w := run w l in run w k).
Proof. induction l as [|o l IH]; intros k w; cbn; [reflexivity|]. destruct (step w o); cbn; auto. Qed.

Lemma start_inv : forall m addr t, addr <> 0 -> m (addr + 16) <> None -> m (addr + 24) <> None ->
  tlsf_create m addr = Ok t -> WInv m (mkW t [] []).
Proof.
  intros m addr t Z D1 D2 E. destruct (create_ok m addr Z D1 D2) as (t' & E' & N' & D & G & C & K).
  rewrite E in E'. inv E'. split; [exact D|]. exists []. cbn. split; [auto|]. split; [auto|]. split; [auto|].
  split; [intros p []|]. split; [constructor|]. split; [intros b []|intros z s []].
Qed.

Lemma inv_safe : forall m w, WInv m w -> safe w.
Proof.
  intros m w (D0 & P & G & C & Sk & Pl & Nd & Bk & Cv). pose proof G as (S & Ge & _). split.
  - assert (H : forall l, incl l (live w) -> NoDup (map ptr l) -> ForallOrdPairs disjoint l).
    { induction l as [|b l IH]; intros I N; [constructor|]. cbn in N. apply NoDup_cons_iff in N. destruct N as [N1 N2].
      constructor; [|apply IH; auto; intros x X; apply I; right; auto]. apply Forall_forall. intros c Hc.
      destruct (Bk b (I b (or_introl eq_refl))) as (B1 & _ & (s & B3 & B4 & _) & _).
      destruct (Bk c (I c (or_intror Hc))) as (C1 & _ & (q & C3 & C4 & _) & _). unfold disjoint.
      destruct (all_sep _ _ _ _ _ _ _ _ _ Ge B3 C3) as [(Q & _)|Q]; [|lia].
      exfalso. apply N1. replace (ptr b) with (ptr c) by lia. apply in_map. auto. }
    apply H; [apply incl_refl|auto].
  - intros b Hb. destruct (Bk b Hb) as (B1 & B2 & (s & B3 & B4 & B5) & B6).
    split; [|split; [|auto]].
    + apply all_in in B3. destruct B3 as (a & l & Hp & Ht). destruct (skel_pools _ _ Sk _ _ Hp) as (p & Hq & Ea & El).
      exists p. split; [auto|]. unfold inside. destruct (Pl p Hq). destruct (pool_len_le (snd p) ltac:(lia)). apply trip_bound in Ht. lia.
    + replace (ptr b) with (ptr b - 16 + 16) by lia. apply mod8_add; auto. eapply used_align; eauto.
Qed.

(* the block around position x of a pool *)
Lemma trip_find : forall l a x, a <= x -> x < a + len l -> exists z s f, In (z, s, f) (trip a l) /\ z <= x /\ x < z + 8 + s.
Proof.
  induction l as [|[s f] l IH]; intros a x A B; cbn [len trip] in *; [lia|].
  destruct (N.lt_ge_cases x (a + 8 + s)) as [L|L].
  - exists a, s, f. split; [left; auto|lia].
  - destruct (IH (a + 8 + s) x) as (z & q & g & H & R); [lia|lia|]. exists z, q, g. split; [right; auto|auto].
Qed.
(* behind a free block: the end of the pool or a used block *)
Lemma trip_after : forall l a pf z s, coal pf l -> In (z, s, true) (trip a l) ->
  z + 8 + s = a + len l \/ exists q, In (z + 8 + s, q, false) (trip a l).
Proof.
  induction l as [|[s0 f0] l IH]; intros a pf z s C H; cbn [trip len coal] in *; [contradiction|]. destruct C as [_ C]. destruct H as [H|H].
  - inv H. destruct l as [|[s1 f1] l]; [left; cbn; lia|]. right. cbn in C. destruct C as [C _]. cbn in C. subst f1.
    exists s1. right. left. reflexivity.
  - destruct (IH _ _ _ _ C H) as [E|(q & E)]; [left; lia|right; exists q; right; exact E].
Qed.

Lemma gap_free : forall m w len, WInv m w -> len <> 0 -> gap w len ->
  exists P, Good (heap w) P /\ coals P /\ exists z s, In (z, s, true) (all P) /\ len <= s + 8.
Proof.
  intros m w n (D0 & P & G & C & Sk & Pl & Nd & Bk & Cv) Zn (p & x & Ip & L1 & L2 & Av).
  exists P. split; [auto|]. split; [auto|]. destruct (Pl p Ip) as [P8 P40]. destruct (pool_len_le (snd p) ltac:(lia)) as [Q1 Q2].
  assert (Hp : exists l, In (fst p - 8, l) P /\ len l = pool_len (snd p)).
  { assert (H : In (pool_of p) (skel P)) by (rewrite Sk; apply in_map; auto). unfold skel in H. apply in_map_iff in H.
    destruct H as ([a l] & E & H). unfold pool_of in E. inv E. exists l. split; [auto|]. cbn in *. auto. }
  destruct Hp as (l & Hp & El).
  assert (Us : forall z s, In (z, s, false) (trip (fst p - 8) l) -> z + 16 + s <= x \/ x + n <= z + 8).
  { intros z s H. assert (U : used P z s) by (apply all_in; eauto). destruct (Cv _ _ U) as (b & Hb & Eb).
    destruct (Bk b Hb) as (_ & _ & (q & B3 & _ & B5) & _). replace (ptr b - 16) with z in B3 by lia.
    rewrite <- (used_unique _ _ _ _ _ G U B3) in B5. specialize (Av b Hb). unfold taken_lo, taken_hi in Av. lia. }
  destruct (trip_find l (fst p - 8) (x - 8)) as (z & s & f & H & R1 & R2); [lia|lia|].
  destruct f; [|apply Us in H; lia]. exists z, s. split; [apply all_in; eauto|].
  destruct (trip_after _ _ _ _ _ (C _ _ Hp) H) as [E|(q & E)]; [lia|]. apply Us in E. lia.
Qed.

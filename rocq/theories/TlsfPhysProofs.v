(* The physical layout of the pools of tlsf.cc: header words, and the invariant that ties memory, the
   list of blocks of every pool and the free lists together. *)
From Coq Require Import NArith List Bool Lia.
From Verif Require Import Base TlsfModel TlsfMapSpec TlsfMapProofs TlsfListProofs.
Import ListNotations.
Open Scope N_scope.

(* ---- header words ---- *)
Definition word (s : N) (f p : bool) : N := s + N.b2n f + 2 * N.b2n p.

Lemma mod4 : forall s, s mod 4 = 0 -> exists q, s = 4 * q.
Proof. intros s H. exists (s / 4). pose proof (N.div_mod s 4). lia. Qed.
Lemma mod8_4 : forall s, s mod 8 = 0 -> s mod 4 = 0.
Proof.
  intros s H. pose proof (N.div_mod s 8 ltac:(lia)). rewrite H in H0.
  replace s with (s / 8 * 2 * 4) by lia. apply N.mod_mul. lia.
Qed.
Lemma word_size : forall s f p, s mod 4 = 0 -> N.ldiff (word s f p) 3 = s.
Proof. intros s f p H. apply mod4 in H. destruct H as [[|q] ->]; destruct f, p; reflexivity. Qed.
Lemma word_free : forall s f p, s mod 4 = 0 -> N.testbit (word s f p) 0 = f.
Proof. intros s f p H. apply mod4 in H. destruct H as [[|q] ->]; destruct f, p; reflexivity. Qed.
Lemma word_prev : forall s f p, s mod 4 = 0 -> N.testbit (word s f p) 1 = p.
Proof. intros s f p H. apply mod4 in H. destruct H as [[|q] ->]; destruct f, p; reflexivity. Qed.
Lemma word_set_free : forall s f p, s mod 4 = 0 -> N.lor (word s f p) 1 = word s true p.
Proof. intros s f p H. apply mod4 in H. destruct H as [[|q] ->]; destruct f, p; reflexivity. Qed.
Lemma word_set_used : forall s f p, s mod 4 = 0 -> N.ldiff (word s f p) 1 = word s false p.
Proof. intros s f p H. apply mod4 in H. destruct H as [[|q] ->]; destruct f, p; reflexivity. Qed.
Lemma word_set_prev : forall s f p, s mod 4 = 0 -> N.lor (word s f p) 2 = word s f true.
Proof. intros s f p H. apply mod4 in H. destruct H as [[|q] ->]; destruct f, p; reflexivity. Qed.
Lemma word_set_prevu : forall s f p, s mod 4 = 0 -> N.ldiff (word s f p) 2 = word s f false.
Proof. intros s f p H. apply mod4 in H. destruct H as [[|q] ->]; destruct f, p; reflexivity. Qed.
Lemma word_set_size : forall s f p n, s mod 4 = 0 -> n mod 4 = 0 -> N.lor n (N.land (word s f p) 3) = word n f p.
Proof.
  intros s f p n H G. apply mod4 in H. apply mod4 in G. destruct H as [[|q] ->], G as [[|r] ->]; destruct f, p; reflexivity.
Qed.
(* every word is a header word of some size *)
Lemma word_any : forall w, exists s f p, w = word s f p /\ s mod 4 = 0.
Proof.
  intro w. exists (4 * (w / 4)), (N.odd (w mod 4)), (2 <=? w mod 4). split.
  - pose proof (N.div_mod w 4 ltac:(lia)) as E. pose proof (N.mod_lt w 4 ltac:(lia)) as L.
    unfold word. set (r := w mod 4) in *. set (q := w / 4) in *. clearbody q r.
    assert (r = 0 \/ r = 1 \/ r = 2 \/ r = 3) as [R|[R|[R|R]]] by lia; subst r w;
      cbv [N.odd N.even negb N.b2n N.leb N.compare Pos.compare Pos.compare_cont]; lia.
  - rewrite N.mul_comm. apply N.mod_mul. lia.
Qed.

(* ---- blocks of a pool ---- *)
Definition blk := (N * bool)%type.       (* size, free *)
Fixpoint len (l : list blk) : N := match l with [] => 0 | (s, _) :: l => s + 8 + len l end.
Fixpoint lastf (pf : bool) (l : list blk) : bool := match l with [] => pf | (_, f) :: l => lastf f l end.
Fixpoint trip (a : N) (l : list blk) : list (N * N * bool) :=
  match l with [] => [] | (s, f) :: l => (a, s, f) :: trip (a + 8 + s) l end.
Definition hs (l : list blk) : N := fst (hd (0, false) l).
Definition hf (l : list blk) : bool := snd (hd (0, false) l).

(* the headers of the blocks l that start at address a; pf: the block before them is free *)
Fixpoint seg (m : memory) (pf : bool) (a : N) (l : list blk) : Prop :=
  match l with
  | [] => True
  | (s, f) :: l =>
    m (a + 8) = Some (word s f pf) /\ (f = true -> m (a + 8 + s) = Some a) /\ seg m f (a + 8 + s) l
  end.
(* ... and the sentinel *)
Fixpoint phys (m : memory) (pf : bool) (a : N) (l : list blk) : Prop :=
  match l with
  | [] => m (a + 8) = Some (word 0 false pf)
  | (s, f) :: l =>
    m (a + 8) = Some (word s f pf) /\ (f = true -> m (a + 8 + s) = Some a) /\ phys m f (a + 8 + s) l
  end.

Lemma len_app : forall l k, len (l ++ k) = len l + len k.
Proof. induction l as [|[s f] l IH]; intro k; cbn [len app]; [lia|]. rewrite IH. lia. Qed.
Lemma lastf_app : forall l pf k, lastf pf (l ++ k) = lastf (lastf pf l) k.
Proof. induction l as [|[s f] l IH]; intros pf k; cbn [lastf app]; auto. Qed.
Lemma trip_app : forall l a k, trip a (l ++ k) = trip a l ++ trip (a + len l) k.
Proof.
  induction l as [|[s f] l IH]; intros a k; cbn [trip app len].
  - rewrite N.add_0_r. reflexivity.
  - rewrite IH. f_equal. f_equal. f_equal. lia.
Qed.
Lemma phys_app : forall m l pf a k,
  phys m pf a (l ++ k) <-> seg m pf a l /\ phys m (lastf pf l) (a + len l) k.
Proof.
  induction l as [|[s f] l IH]; intros pf a k; cbn [phys seg app len lastf].
  - rewrite N.add_0_r. tauto.
  - rewrite IH. replace (a + (s + 8 + len l)) with (a + 8 + s + len l) by lia. tauto.
Qed.
Lemma seg_app : forall m l pf a k,
  seg m pf a (l ++ k) <-> seg m pf a l /\ seg m (lastf pf l) (a + len l) k.
Proof.
  induction l as [|[s f] l IH]; intros pf a k; cbn [seg app len lastf].
  - rewrite N.add_0_r. tauto.
  - rewrite IH. replace (a + (s + 8 + len l)) with (a + 8 + s + len l) by lia. tauto.
Qed.
Lemma seg_frame : forall m m' l pf a, (forall x, a + 8 <= x -> x < a + len l + 8 -> m' x = m x) ->
  seg m pf a l -> seg m' pf a l.
Proof.
  induction l as [|[s f] l IH]; intros pf a F H; cbn [seg len] in *; auto.
  destruct H as (A & B & C). rewrite !F by lia. split; [auto|]. split; [auto|].
  apply IH; auto. intros x X1 X2. apply F; lia.
Qed.
Lemma phys_frame : forall m m' l pf a, (forall x, a + 8 <= x -> x <= a + len l + 8 -> m' x = m x) ->
  phys m pf a l -> phys m' pf a l.
Proof.
  induction l as [|[s f] l IH]; intros pf a F H; cbn [phys len] in *.
  - rewrite F by lia. auto.
  - destruct H as (A & B & C). rewrite !F by lia. split; [auto|]. split; [auto|].
    apply IH; auto. intros x X1 X2. apply F; lia.
Qed.
Lemma phys_head : forall m pf a l, phys m pf a l -> m (a + 8) = Some (word (hs l) (hf l) pf).
Proof. intros m pf a [|[s f] l] H; cbn in *; tauto. Qed.
Lemma phys_rehead : forall m m' pf pf' a l, phys m pf a l ->
  m' (a + 8) = Some (word (hs l) (hf l) pf') ->
  (forall x, a + 8 < x -> x <= a + len l + 8 -> m' x = m x) -> (forall b, In b l -> 24 <= fst b) ->
  phys m' pf' a l.
Proof.
  intros m m' pf pf' a [|[s f] l] H E F B; cbn [phys hs hf hd fst snd len] in *; auto.
  destruct H as (_ & P & Q). specialize (B (s, f) (or_introl eq_refl)). cbn in B.
  split; [auto|]. split; [rewrite F by lia; auto|].
  apply (phys_frame m); auto. intros x X1 X2. apply F; lia.
Qed.

Lemma trip_bound : forall l a z s f, In (z, s, f) (trip a l) -> a <= z /\ z + 8 + s <= a + len l.
Proof.
  induction l as [|[s0 f0] l IH]; intros a z s f H; cbn [trip len In] in *; [contradiction|].
  destruct H as [H|H]; [inv H; lia|]. apply IH in H. lia.
Qed.
Lemma trip_sep : forall l a z s f z' s' f', In (z, s, f) (trip a l) -> In (z', s', f') (trip a l) ->
  (z = z' /\ s = s' /\ f = f') \/ z + 8 + s <= z' \/ z' + 8 + s' <= z.
Proof.
  induction l as [|[s0 f0] l IH]; intros a z s f z' s' f' H H'; cbn [trip In] in *; [contradiction|].
  destruct H as [H|H], H' as [H'|H'].
  - inv H. inv H'. auto.
  - inv H. apply trip_bound in H'. lia.
  - inv H'. apply trip_bound in H. lia.
  - eapply IH; eauto.
Qed.
Lemma trip_in : forall l a z s f, In (z, s, f) (trip a l) -> In (s, f) l.
Proof.
  induction l as [|[s0 f0] l IH]; intros a z s f H; cbn [trip In] in *; [contradiction|].
  destruct H as [H|H]; [inv H; auto|]. right. eapply IH; eauto.
Qed.
Lemma trip_split : forall l a z s f, In (z, s, f) (trip a l) ->
  exists l1 l2, l = l1 ++ (s, f) :: l2 /\ z = a + len l1.
Proof.
  induction l as [|[s0 f0] l IH]; intros a z s f H; cbn [trip In] in *; [contradiction|].
  destruct H as [H|H].
  - inv H. exists [], l. split; auto. cbn. lia.
  - apply IH in H. destruct H as (l1 & l2 & -> & ->). exists ((s0, f0) :: l1), l2.
    split; auto. cbn [len]. lia.
Qed.
Lemma trip_mod : forall l a z s f, (forall b, In b l -> fst b mod 8 = 0) -> a mod 8 = 0 ->
  In (z, s, f) (trip a l) -> z mod 8 = 0.
Proof.
  induction l as [|[s0 f0] l IH]; intros a z s f B A H; cbn [trip In] in *; [contradiction|].
  destruct H as [H|H]; [inv H; auto|]. apply (IH (a + 8 + s0) z s f); auto.
  specialize (B (s0, f0) (or_introl eq_refl)). cbn in B.
  rewrite N.add_mod, (N.add_mod a 8), A, B by lia. reflexivity.
Qed.

(* ---- pools ---- *)
Definition pool := (N * list blk)%type.
Definition all (P : list pool) : list (N * N * bool) := flat_map (fun p => trip (fst p) (snd p)) P.
Definition skel (P : list pool) : list (N * N) := map (fun p => (fst p, len (snd p))) P.
Definition sizes (P : list pool) : Prop :=
  forall a l s f, In (a, l) P -> In (s, f) l -> 24 <= s /\ s mod 8 = 0 /\ s < 2 ^ 32.
Definition apart (p q : N * N) : Prop :=
  fst p + snd p + 16 <= fst q + 8 \/ fst q + snd q + 16 <= fst p + 8.
Definition geo (nul : N) (m : memory) (S : list (N * N)) : Prop :=
  (forall a n, In (a, n) S -> a mod 8 = 0 /\ a <> 0 /\ (a + n + 16 <= 2 ^ 63 /\ n < 2 ^ 32 + 8) /\
     (forall x, x mod 8 = 0 -> a + 8 <= x -> x < a + n + 16 -> m x <> None) /\
     (nul + control_size <= a + 8 \/ a + n + 16 <= nul)) /\
  ForallOrdPairs apart S.
Definition layout (m : memory) (P : list pool) : Prop :=
  forall a l, In (a, l) P -> phys m false a l.

Definition Core (t : tlsf) (P : list pool) (O : N -> N -> Prop) : Prop :=
  sizes P /\ geo (nul t) (mem t) (skel P) /\ layout (mem t) P /\ Lists t O /\
  (forall z s, O z s -> In (z, s, true) (all P)).

(* the words of used blocks *)
Definition keeps (U : N -> N -> Prop) (m m' : memory) : Prop :=
  forall b s x, U b s -> b + 16 <= x -> x < b + 16 + s -> m' x = m x.
Definition used (P : list pool) (b s : N) : Prop := In (b, s, false) (all P).

Lemma keeps_refl : forall U m, keeps U m m.
Proof. intros U m b s x _ _ _. reflexivity. Qed.
Lemma keeps_trans : forall U m1 m2 m3, keeps U m1 m2 -> keeps U m2 m3 -> keeps U m1 m3.
Proof. intros U m1 m2 m3 A B b s x H X Y. rewrite (B b s x H X Y). eapply A; eauto. Qed.
Lemma keeps_ext : forall (U V : N -> N -> Prop) m m', (forall b s, V b s -> U b s) -> keeps U m m' -> keeps V m m'.
Proof. intros U V m m' E K b s x H X1 X2. apply (K b s x); auto. Qed.

Lemma geo_dom : forall nul m m' S, same_dom m m' -> geo nul m S -> geo nul m' S.
Proof.
  intros nul m m' S D [G A]. split; auto. intros a n H. destruct (G a n H) as (G1 & G2 & G3 & G4 & G5).
  split; auto. split; auto. split; auto. split; auto. intros x X1 X2 X3. eapply same_dom_some; eauto.
Qed.
Lemma all_in : forall P z s f, In (z, s, f) (all P) <-> exists a l, In (a, l) P /\ In (z, s, f) (trip a l).
Proof.
  intros P z s f. unfold all. rewrite in_flat_map. split.
  - intros ([a l] & H & T). eauto.
  - intros (a & l & H & T). exists (a, l). auto.
Qed.
Lemma skel_in : forall P a l, In (a, l) P -> In (a, len l) (skel P).
Proof. intros P a l H. unfold skel. apply in_map_iff. exists (a, l). auto. Qed.

Lemma pairs_in : forall {A} (R : A -> A -> Prop) l x y, (forall a b, R a b -> R b a) ->
  ForallOrdPairs R l -> In x l -> In y l -> x = y \/ R x y.
Proof.
  intros A R l x y Sym F. induction F as [|a l Fa F IH]; intros X Y; [contradiction|].
  cbn in X, Y. rewrite Forall_forall in Fa. destruct X as [->|X], Y as [->|Y]; auto.
Qed.
Lemma apart_sym : forall p q, apart p q -> apart q p.
Proof. unfold apart. intros. tauto. Qed.
Lemma fop_cons : forall {A} (R : A -> A -> Prop) x l, ForallOrdPairs R (x :: l) ->
  (forall y, In y l -> R x y) /\ ForallOrdPairs R l.
Proof. intros A R x l H. inversion H; subst. split; auto. apply Forall_forall. auto. Qed.
Lemma pools_apart : forall Q, ForallOrdPairs apart (skel Q) ->
  forall a l a' l', In (a, l) Q -> In (a', l') Q -> (a, l) = (a', l') \/ apart (a, len l) (a', len l').
Proof.
  induction Q as [|[q k] Q IH]; intros F a l a' l' X Y; [contradiction|].
  cbn [skel map fst snd] in F. apply fop_cons in F. destruct F as [F1 F2].
  destruct X as [X|X], Y as [Y|Y].
  - left. congruence.
  - right. inv X. apply F1. apply (skel_in Q); auto.
  - right. inv Y. apply apart_sym. apply F1. apply (skel_in Q); auto.
  - apply IH; auto.
Qed.
(* two blocks of the heap are the same or do not overlap *)
Lemma all_sep : forall nul m P z s f z' s' f', geo nul m (skel P) ->
  In (z, s, f) (all P) -> In (z', s', f') (all P) ->
  (z = z' /\ s = s' /\ f = f') \/ z + 8 + s <= z' \/ z' + 8 + s' <= z.
Proof.
  intros nul m P z s f z' s' f' [_ G] H H'.
  apply all_in in H. apply all_in in H'. destruct H as (a & l & Hp & Ht), H' as (a' & l' & Hp' & Ht').
  destruct (pools_apart P G a l a' l' Hp Hp') as [E|E].
  - inv E. eapply trip_sep; eauto.
  - right. apply trip_bound in Ht. apply trip_bound in Ht'. unfold apart in E. cbn in E. lia.
Qed.
Lemma all_size : forall P z s f, sizes P -> In (z, s, f) (all P) -> 24 <= s /\ s mod 8 = 0 /\ s < 2 ^ 32.
Proof.
  intros P z s f S H. apply all_in in H. destruct H as (a & l & Hp & Ht). eapply S; eauto. eapply trip_in; eauto.
Qed.
Lemma all_place : forall nul m P z s f, sizes P -> geo nul m (skel P) -> In (z, s, f) (all P) ->
  z mod 8 = 0 /\ z <> 0 /\ z + s + 24 <= 2 ^ 63 /\ (nul + 32 <= z \/ z + s + 24 <= nul) /\
  (forall x, x mod 8 = 0 -> z + 8 <= x -> x < z + 24 + s -> m x <> None).
Proof.
  intros nul m P z s f S [G _] H. apply all_in in H. destruct H as (a & l & Hp & Ht).
  destruct (G a (len l) (skel_in _ _ _ Hp)) as (G1 & G2 & G3 & G4 & G5).
  pose proof (trip_bound _ _ _ _ _ Ht) as B.
  split. { eapply trip_mod; eauto. intros [s0 f0] Hb. destruct (S a l s0 f0 Hp Hb) as (_ & X & _). exact X. }
  split; [lia|]. split; [lia|]. split; [unfold control_size in G5; lia|].
  intros x X1 X2 X3. apply G4; lia.
Qed.
Lemma all_far : forall nul m P z s f z' s' f', sizes P -> geo nul m (skel P) ->
  In (z, s, f) (all P) -> In (z', s', f') (all P) -> (z = z' /\ s = s' /\ f = f') \/ far z z'.
Proof.
  intros nul m P z s f z' s' f' S G H H'. destruct (all_sep _ _ _ _ _ _ _ _ _ G H H') as [E|E]; auto.
  apply all_size in H; auto. apply all_size in H'; auto. right. unfold far. lia.
Qed.
Lemma nul_far : forall nul m P z s f, sizes P -> geo nul m (skel P) -> In (z, s, f) (all P) -> far z nul.
Proof.
  intros nul m P z s f S G H. destruct (all_place _ _ _ _ _ _ S G H) as (_ & _ & _ & D & _).
  apply all_size in H; auto. unfold far. lia.
Qed.

(* ---- words that list operations touch are neither headers nor footers nor used ---- *)
Lemma layout_touched : forall nul m m' P (O : N -> N -> Prop), sizes P -> geo nul m (skel P) -> layout m P ->
  (forall z s, O z s -> In (z, s, true) (all P)) ->
  (forall x, m' x = m x \/ touched O nul x) -> layout m' P.
Proof.
  intros nul m m' P O S G Ly OA D a l Hp.
  assert (Eq : forall x, ~ touched O nul x -> m' x = m x) by (intros x Nt; destruct (D x); tauto).
  destruct (proj1 G a (len l) (skel_in _ _ _ Hp)) as (G1 & G2 & G3 & G4 & G5). unfold control_size in G5.
  (* header words and footers of this pool *)
  assert (Meta : forall x, (x = a + len l + 8 \/
             exists z s f, In (z, s, f) (trip a l) /\ (x = z + 8 \/ (f = true /\ x = z + 8 + s))) -> m' x = m x).
  { intros x Hx. apply Eq. intros (y & Hy & Ey).
    destruct Hy as [->|[sy Oy]].
    - destruct Hx as [Hx|(z & s & f & Hz & Hx)]; [lia|]. apply trip_bound in Hz. lia.
    - apply OA in Oy. pose proof (all_size _ _ _ _ S Oy) as [Sy _].
      destruct Hx as [Hx|(z & s & f & Hz & Hx)].
      + (* the sentinel against a block *)
        apply all_in in Oy. destruct Oy as (a' & l' & Hp' & Ht').
        pose proof (trip_bound _ _ _ _ _ Ht').
        destruct (pools_apart P (proj2 G) a l a' l' Hp Hp') as [E|E]; [inv E; lia|].
        unfold apart in E. cbn in E. lia.
      + assert (Az : In (z, s, f) (all P)) by (apply all_in; eauto).
        pose proof (all_size _ _ _ _ S Az) as [Sz _].
        destruct (all_sep _ _ _ _ _ _ _ _ _ G Az Oy) as [(-> & -> & ->)|E]; lia. }
  specialize (Ly a l Hp). revert Ly Meta. clear. intros Ly Meta.
  assert (Gen : forall l pf a, phys m pf a l ->
    (forall x, (x = a + len l + 8 \/
             exists z s f, In (z, s, f) (trip a l) /\ (x = z + 8 \/ (f = true /\ x = z + 8 + s))) -> m' x = m x) ->
    phys m' pf a l).
  { clear. induction l as [|[s f] l IH]; intros pf a Ph Meta; cbn [phys len trip] in *.
    - rewrite Meta; auto. left. lia.
    - destruct Ph as (A & B & C). split; [|split].
      + rewrite Meta; auto. right. exists a, s, f. split; [left; auto|auto].
      + intro Ef. rewrite Meta; auto. right. exists a, s, f. split; [left; auto|auto].
      + apply IH; auto. intros x [X|(z & s1 & f1 & Z & X)].
        * apply Meta. left. lia.
        * apply Meta. right. exists z, s1, f1. split; [right; auto|auto]. }
  apply Gen; auto.
Qed.

Lemma keeps_touched : forall nul m m' P (O : N -> N -> Prop), sizes P -> geo nul m (skel P) ->
  (forall z s, O z s -> In (z, s, true) (all P)) ->
  (forall x, m' x = m x \/ touched O nul x) -> keeps (used P) m m'.
Proof.
  intros nul m m' P O S G OA D b s x U X1 X2. destruct (D x) as [E|(y & Hy & Ey)]; auto. exfalso.
  unfold used in U. destruct Hy as [->|[sy Oy]].
  - destruct (all_place _ _ _ _ _ _ S G U) as (_ & _ & _ & P1 & _). lia.
  - apply OA in Oy. pose proof (all_size _ _ _ _ S Oy) as [Sy _].
    destruct (all_sep _ _ _ _ _ _ _ _ _ G U Oy) as [(_ & _ & E)|E]; [discriminate|lia].
Qed.

(* ---- filing and unfiling a block ---- *)
Lemma block_size_ok : forall m b s f p, m (b + 8) = Some (word s f p) -> s mod 4 = 0 -> block_size m b = Ok s.
Proof.
  intros m b s f p H M. unfold block_size, f_size. rewrite (rd_some _ _ _ H). cbn [bind].
  rewrite word_size by auto. reflexivity.
Qed.
Lemma seg_word : forall m l pf a z s f, seg m pf a l -> In (z, s, f) (trip a l) ->
  exists p, m (z + 8) = Some (word s f p).
Proof.
  induction l as [|[s0 f0] l IH]; intros pf a z s f H I; cbn [seg trip In] in *; [contradiction|].
  destruct H as (A & B & C). destruct I as [I|I]; [inv I; eauto|]. eapply IH; eauto.
Qed.
Lemma phys_seg : forall m l pf a, phys m pf a l -> seg m pf a l.
Proof.
  intros m l pf a H. rewrite <- (app_nil_r l) in H. apply phys_app in H. tauto.
Qed.
Lemma layout_word : forall m P z s f, layout m P -> In (z, s, f) (all P) -> exists p, m (z + 8) = Some (word s f p).
Proof.
  intros m P z s f L H. apply all_in in H. destruct H as (a & l & Hp & Ht).
  specialize (L a l Hp). apply phys_seg in L. eapply seg_word; eauto.
Qed.
Lemma layout_size : forall m P z s f, sizes P -> layout m P -> In (z, s, f) (all P) -> block_size m z = Ok s.
Proof.
  intros m P z s f S L H. destruct (layout_word _ _ _ _ _ L H) as [p E].
  eapply block_size_ok; eauto. apply mod8_4. apply (all_size _ _ _ _ S H).
Qed.

Lemma core_insert : forall t P O y s, Core t P O -> In (y, s, true) (all P) -> (forall s', ~ O y s') ->
  exists t', block_insert t y = Ok t' /\ nul t' = nul t /\ same_dom (mem t) (mem t') /\
    keeps (used P) (mem t) (mem t') /\
    Core t' P (fun z s' => O z s' \/ (z = y /\ s' = s)).
Proof.
  intros t P O y s (S & G & Ly & Ls & OA) Hy Ny.
  pose proof (all_size _ _ _ _ S Hy) as (Y1 & Y2 & Y3).
  destruct (all_place _ _ _ _ _ _ S G Hy) as (A1 & A2 & A3 & A4 & A5).
  assert (D16 : mem t (y + 16) <> None).
  { apply A5; try lia. rewrite N.add_mod, A1 by lia. reflexivity. }
  assert (D24 : mem t (y + 24) <> None).
  { apply A5; try lia. rewrite N.add_mod, A1 by lia. reflexivity. }
  destruct (insert_ok t O y s Ls) as (t' & E & N & D & T & Ls'); auto.
  { lia. }
  { eapply nul_far; eauto. }
  { intros z s' Oz. destruct (all_far _ _ _ _ _ _ _ _ _ S G Hy (OA _ _ Oz)) as [(-> & -> & _)|F]; auto.
    exfalso. eapply Ny; eauto. }
  exists t'. unfold block_insert. rewrite (layout_size _ _ _ _ _ S Ly Hy). cbn [bind].
  destruct (mapping_insert s) as [fl sl]. cbn [fst snd] in E. split; [exact E|]. split; [exact N|].
  split; [exact D|].
  assert (OA' : forall z s', (O z s' \/ (z = y /\ s' = s)) -> In (z, s', true) (all P)).
  { intros z s' [Oz|[-> ->]]; auto. }
  split; [exact (keeps_touched _ _ _ _ _ S G OA' T)|].
  split; [exact S|]. split; [rewrite N; apply (geo_dom _ (mem t)); auto|].
  split; [exact (layout_touched _ _ _ _ _ S G Ly OA' T)|]. split; auto.
Qed.

Lemma core_unfile : forall t P O y s, Core t P O -> O y s ->
  exists t', remove_free_block t y (fst (mapping_insert s)) (snd (mapping_insert s)) = Ok t' /\
    block_remove t y = Ok t' /\ nul t' = nul t /\ same_dom (mem t) (mem t') /\
    keeps (used P) (mem t) (mem t') /\
    Core t' P (fun z s' => O z s' /\ z <> y).
Proof.
  intros t P O y s (S & G & Ly & Ls & OA) Hy.
  destruct (remove_ok t O y s Ls Hy) as (t' & E & N & D & T & Ls').
  exists t'. split; [exact E|].
  unfold block_remove. rewrite (layout_size _ _ _ _ _ S Ly (OA _ _ Hy)). cbn [bind].
  destruct (mapping_insert s) as [fl sl]. cbn [fst snd] in E. split; [exact E|]. split; [exact N|].
  split; [exact D|]. split; [exact (keeps_touched _ _ _ _ _ S G OA T)|].
  split; [exact S|]. split; [rewrite N; apply (geo_dom _ (mem t)); auto|].
  split; [exact (layout_touched _ _ _ _ _ S G Ly OA T)|]. split; auto.
  intros z s' [Oz _]. auto.
Qed.

Lemma core_ext : forall t P O O', (forall z s, O z s <-> O' z s) -> Core t P O -> Core t P O'.
Proof.
  intros t P O O' E (S & G & Ly & Ls & OA). split; [auto|]. split; [auto|]. split; [auto|].
  split; [apply (Lists_ext t O); auto|]. intros z s H. apply OA, E, H.
Qed.

(* ---- working on a few adjacent blocks X of one pool ---- *)
Definition zp (zl : list pool) (za : N) (zL X zR : list blk) (zr : list pool) : list pool :=
  zl ++ (za, zL ++ X ++ zR) :: zr.
(* the blocks outside of X *)
Definition oth (zl : list pool) (za : N) (zL X zR : list blk) (zr : list pool) (f : bool) (z s : N) : Prop :=
  In (z, s, f) (all zl) \/ In (z, s, f) (trip za zL) \/
  In (z, s, f) (trip (za + len zL + len X) zR) \/ In (z, s, f) (all zr).

Lemma all_app : forall P Q, all (P ++ Q) = all P ++ all Q.
Proof. intros. unfold all. apply flat_map_app. Qed.
Lemma zp_all : forall zl za zL X zR zr z s f,
  In (z, s, f) (all (zp zl za zL X zR zr)) <->
  oth zl za zL X zR zr f z s \/ In (z, s, f) (trip (za + len zL) X).
Proof.
  intros. unfold zp, oth. rewrite all_app. cbn [all flat_map fst snd].
  change (flat_map (fun p => trip (fst p) (snd p)) zr) with (all zr).
  rewrite !trip_app. rewrite !in_app_iff. tauto.
Qed.
Lemma zp_skel : forall zl za zL X X' zR zr, len X = len X' ->
  skel (zp zl za zL X zR zr) = skel (zp zl za zL X' zR zr).
Proof.
  intros. unfold zp, skel. rewrite !map_app. cbn [map fst snd]. rewrite !len_app, H. reflexivity.
Qed.
Lemma zp_in : forall zl za zL X zR zr, In (za, zL ++ X ++ zR) (zp zl za zL X zR zr).
Proof. intros. unfold zp. apply in_or_app. right. left. reflexivity. Qed.

Definition Inv (t : tlsf) (zl : list pool) (za : N) (zL X zR : list blk) (zr : list pool) : Prop :=
  Core t (zp zl za zL X zR zr) (oth zl za zL X zR zr true).

Lemma pool_clear : forall nul m zl za zL X zR zr a l, geo nul m (skel (zp zl za zL X zR zr)) ->
  In (a, l) zl \/ In (a, l) zr -> apart (a, len l) (za, len (zL ++ X ++ zR)).
Proof.
  intros nul m zl za zL X zR zr a l [_ G] H. unfold zp, skel in G. rewrite map_app in G. cbn [map fst snd] in G.
  induction zl as [|p zl IH]; cbn [map app] in G; apply fop_cons in G; destruct G as [G1 G2].
  - destruct H as [[]|H]. apply apart_sym. apply G1. apply (skel_in zr); auto.
  - destruct H as [[->|H]|H]; [|apply IH; auto|apply IH; auto].
    apply G1. apply in_or_app. right. left. reflexivity.
Qed.
(* what is outside of X stays clear of the words from the first header of X to the header after X *)
Lemma oth_clear : forall nul m zl za zL X zR zr f z s, sizes (zp zl za zL X zR zr) ->
  geo nul m (skel (zp zl za zL X zR zr)) -> oth zl za zL X zR zr f z s ->
  z + 16 + s <= za + len zL + 8 \/ za + len zL + len X <= z.
Proof.
  intros nul m zl za zL X zR zr f z s S G H.
  assert (Out : In (z, s, f) (all zl) \/ In (z, s, f) (all zr) ->
                z + 16 + s <= za + len zL + 8 \/ za + len zL + len X <= z).
  { intro K. assert (exists a l, (In (a, l) zl \/ In (a, l) zr) /\ In (z, s, f) (trip a l)) as (a & l & Hp & Ht).
    { destruct K as [K|K]; apply all_in in K; destruct K as (a & l & Hp & Ht); eauto. }
    apply trip_bound in Ht. pose proof (pool_clear _ _ _ _ _ _ _ _ _ _ G Hp) as A.
    rewrite !len_app in A. unfold apart in A. cbn in A. lia. }
  destruct H as [H|[H|[H|H]]]; auto; apply trip_bound in H; lia.
Qed.

Lemma replace_ok : forall t m' zl za zL X X' zR zr,
  Inv t zl za zL X zR zr -> len X' = len X ->
  (forall s f, In (s, f) X' -> 24 <= s /\ s mod 8 = 0 /\ s < 2 ^ 32) ->
  same_dom (mem t) m' ->
  (forall x, x < za + len zL + 8 \/ za + len zL + len X + 8 < x -> m' x = mem t x) ->
  seg m' (lastf false zL) (za + len zL) X' ->
  m' (za + len zL + len X + 8) = Some (word (hs zR) (hf zR) (lastf (lastf false zL) X')) ->
  Inv (set_mem t m') zl za zL X' zR zr /\
  keeps (oth zl za zL X zR zr false) (mem t) m'.
Proof.
  intros t m' zl za zL X X' zR zr (S & G & Ly & Ls & OA) EL Sx D F Sg Hd.
  set (a := za + len zL) in *. set (e := a + len X) in *.
  assert (S' : sizes (zp zl za zL X' zR zr)).
  { intros a0 l s f Hp Hb. unfold zp in Hp. apply in_app_or in Hp. destruct Hp as [Hp|[Hp|Hp]].
    - apply (S a0 l s f); auto. apply in_or_app. auto.
    - inv Hp. apply in_app_or in Hb. destruct Hb as [Hb|Hb]; [|apply in_app_or in Hb; destruct Hb as [Hb|Hb]]; [|exact (Sx s f Hb)|].
      + apply (S a0 _ s f (zp_in _ _ _ _ _ _)). apply in_or_app; auto.
      + apply (S a0 _ s f (zp_in _ _ _ _ _ _)). apply in_or_app. right. apply in_or_app. auto.
    - apply (S a0 l s f); auto. apply in_or_app. right. right. auto. }
  assert (Ox : forall f z s, oth zl za zL X' zR zr f z s <-> oth zl za zL X zR zr f z s).
  { intros f z s. unfold oth. rewrite EL. tauto. }
  split.
  - split; [exact S'|]. cbn [nul mem set_mem]. split.
    { rewrite (zp_skel zl za zL X' X zR zr EL). apply (geo_dom _ (mem t)); auto. }
    split.
    { intros a0 l Hp. unfold zp in Hp. apply in_app_or in Hp.
      assert (Out : In (a0, l) zl \/ In (a0, l) zr -> phys m' false a0 l).
      { intro Ho. apply (phys_frame (mem t)).
        - intros x X1 X2. apply F. pose proof (pool_clear _ _ _ _ _ _ _ _ _ _ G Ho) as A.
          rewrite !len_app in A. unfold apart in A. cbn in A. unfold e, a. lia.
        - apply Ly. unfold zp. apply in_or_app. destruct Ho; [auto|right; right; auto]. }
      destruct Hp as [Hp|[Hp|Hp]]; auto. inv Hp.
      pose proof (Ly a0 (zL ++ X ++ zR) (zp_in _ _ _ _ _ _)) as Ph.
      apply phys_app in Ph. destruct Ph as [P1 P2]. apply phys_app in P2. destruct P2 as [P2 P3].
      fold a in P2, P3. fold e in P3.
      apply phys_app. split.
      - apply (seg_frame (mem t)); auto; intros x X1 X2; apply F; left; unfold a; lia.
      - fold a. apply phys_app. split; [exact Sg|]. rewrite EL. fold e.
        apply (phys_rehead (mem t) m' _ _ e zR P3); auto.
        intros [sb fb] Hb. cbn. apply (S a0 (zL ++ X ++ zR) sb fb); [apply zp_in|].
        apply in_or_app. right. apply in_or_app. auto. }
    split.
    { apply (Lists_ext _ (oth zl za zL X zR zr true)); [intros; symmetry; apply Ox|].
      apply Lists_mem; auto. intros z s Oz.
      pose proof (oth_clear _ _ _ _ _ _ _ _ _ _ _ S G Oz) as C.
      pose proof (all_size _ _ _ _ S (OA _ _ Oz)) as [Sz _]. fold a in C. fold e in C.
      split; apply F; lia. }
    { intros z s Oz. apply zp_all. auto. }
  - intros b s x U X1 X2. pose proof (oth_clear _ _ _ _ _ _ _ _ _ _ _ S G U) as C. fold a in C. fold e in C.
    apply F. lia.
Qed.

(* Blocks of a synced_tlsf_allocator that is used by any number of threads (C124). *)
From Coq Require Import NArith Arith List Bool Lia.
From Verif Require Import Base SpinModel SpinProofs AllocProps TlsfModel TlsfAllocModel TlsfSpec TlsfProps TlsfAllocProps SyncModel SyncSpec SyncProofs.
Import ListNotations.

Notation hevent := (event tcall tres).
Notation hentry := (entry tcall tres).

(* threads allocate and free *)
Definition tsane (c : tcall) : Prop :=
  match c with TAlloc n a => (n + 8 <= 2 ^ 64)%N /\ exists k, (k <= 62)%N /\ a = (2 ^ k)%N | TFree _ => True | _ => False end.
(* every free gives back a block that an earlier call returned, any thread may do it, and no block is given back twice;
   owner tells which call returned the block that a call of free gives back *)
Definition disciplined (owner : nat -> nat) (h : list hevent) : Prop :=
  (forall h1 id k p h2, h = h1 ++ Inv id k (TFree (Some p)) :: h2 ->
     exists k' n a, In (Inv (owner id) k' (TAlloc n a)) h1 /\ In (Ret (owner id) (TP (Some p))) h1) /\
  (forall id k p id' k' p', In (Inv id k (TFree (Some p))) h -> In (Inv id' k' (TFree (Some p'))) h -> owner id = owner id' -> id = id').
(* call id returned block p, and nobody has begun to give it back *)
Definition holds (owner : nat -> nat) (h : list hevent) (id : nat) (n a p : N) : Prop :=
  (exists k, In (Inv id k (TAlloc n a)) h) /\ In (Ret id (TP (Some p))) h /\
  forall id' k p', In (Inv id' k (TFree (Some p'))) h -> owner id' <> id.

(* ---- one thread ---- *)
Definition buf (e : hentry) : buffer :=
  match ecall e, eres e with TAlloc n a, TP (Some p) => mkB p n a (fun _ => None) | _, _ => mkB 0 0 0 (fun _ => None) end.
Definition is_alloc (e : hentry) : Prop := exists n a p, ecall e = TAlloc n a /\ eres e = TP (Some p).
Definition freed (owner : nat -> nat) (l : list hentry) (id : nat) : Prop := exists e p, In e l /\ ecall e = TFree (Some p) /\ owner (eid e) = id.
(* the discipline in the order of effects *)
Definition lawful (owner : nat -> nat) (l : list hentry) : Prop :=
  NoDup (map eid l) /\ (forall e, In e l -> tsane (ecall e)) /\
  (forall l0 e p l1, l = l0 ++ e :: l1 -> ecall e = TFree (Some p) ->
     exists x n a, In x l0 /\ eid x = owner (eid e) /\ ecall x = TAlloc n a /\ eres x = TP (Some p)) /\
  (forall e p e' p', In e l -> In e' l -> ecall e = TFree (Some p) -> ecall e' = TFree (Some p') -> owner (eid e) = owner (eid e') -> eid e = eid e').
(* the heap after the calls l: its live buffers are the blocks that were allocated and not freed *)
Definition tracks (owner : nat -> nat) (m : memory) (addr : N) (ps : list (N * N)) (l : list hentry) (w : world) : Prop :=
  reached m addr w /\ pools w = ps /\ exists es, live w = map buf es /\ NoDup (map eid es) /\
    forall e, In e es <-> In e l /\ is_alloc e /\ ~ freed owner l (eid e).

Lemma drop_map {A B} (f : A -> B) : forall l i, drop_nth i (map f l) = map f (drop_nth i l).
Proof. induction l as [|x l IH]; intros [|i]; cbn; auto. rewrite IH. reflexivity. Qed.
Lemma drop_in {A} (f : A -> nat) : forall l i x, NoDup (map f l) -> nth_error l i = Some x -> forall y, In y (drop_nth i l) <-> In y l /\ f y <> f x.
Proof.
  induction l as [|z l IH]; intros [|i] x N H y; cbn in *; try discriminate.
  - injection H as ->. inversion N as [|? ? N1 N2]; subst. split.
    + intros I. split; [auto|]. intros E. apply N1. rewrite <- E. apply in_map. exact I.
    + intros ([<-|I] & D); [contradiction|exact I].
  - inversion N as [|? ? N1 N2]; subst. rewrite (IH i x N2 H y). split.
    + intros [<-|(I & D)]; [|auto]. split; [auto|]. intros E. apply N1. rewrite E. apply in_map. eapply nth_error_In; eauto.
    + intros ([<-|I] & D); auto.
Qed.
Lemma drop_nodup {A} (f : A -> nat) : forall l i, NoDup (map f l) -> NoDup (map f (drop_nth i l)).
Proof.
  induction l as [|z l IH]; intros [|i] N; cbn in *; auto; inversion N as [|? ? N1 N2]; subst; auto.
  constructor; [|auto]. intros I. apply N1. apply in_map_iff in I. destruct I as (y & E & I). rewrite <- E. apply in_map.
  clear -I. revert i I. induction l as [|x l IH]; intros [|i] I; cbn in *; auto. destruct I as [->|I]; eauto.
Qed.
Lemma nodup_eid : forall (l : list hentry) x y, NoDup (map eid l) -> In x l -> In y l -> eid x = eid y -> x = y.
Proof.
  induction l as [|z l IH]; intros x y N Hx Hy E; [destruct Hx|]. cbn in N. inversion N as [|? ? N1 N2]; subst.
  destruct Hx as [->|Hx], Hy as [->|Hy]; auto.
  - exfalso. apply N1. rewrite E. apply in_map. exact Hy.
  - exfalso. apply N1. rewrite <- E. apply in_map. exact Hx.
Qed.
Lemma seq_snoc : forall l e (s s2 : option tlsf), sequential tbody s (l ++ [e]) s2 -> exists s1, sequential tbody s l s1 /\ tbody (ecall e) s1 = Ok (s2, eres e).
Proof.
  induction l as [|x l IH]; intros e s s2 H; cbn [app sequential] in *.
  - destruct H as (s1 & E & ->). exists s. auto.
  - destruct H as (s1 & E & H). destruct (IH e s1 s2 H) as (s' & H1 & H2). exists s'. eauto.
Qed.
Lemma lawful_snoc : forall owner l e, lawful owner (l ++ [e]) -> lawful owner l /\ ~ In (eid e) (map eid l) /\ tsane (ecall e).
Proof.
  intros owner l e (N & T & F & I). rewrite map_app in N. cbn [map] in N. split; [|split].
  - split; [apply NoDup_remove_1 in N; rewrite app_nil_r in N; exact N|]. split; [intros x Hx; apply T, in_or_app; auto|]. split.
    + intros l0 x p l1 -> E. apply (F l0 x p (l1 ++ [e])); [rewrite <- app_assoc; reflexivity|exact E].
    + intros x p x' p' Hx Hx'. apply I; apply in_or_app; auto.
  - apply NoDup_remove_2 in N. rewrite app_nil_r in N. exact N.
  - apply T, in_or_app. right. left. reflexivity.
Qed.

(* what a call does to a tracked heap *)
Lemma alloc_tracked : forall owner m addr ps l w n a, tracks owner m addr ps l w -> tsane (TAlloc n a) ->
  a_alloc (Some (heap w)) n a = Contract \/ exists t p, a_alloc (Some (heap w)) n a = Ok (Some t, p) /\
    reached m addr (mkW t (mkB p n a (fun _ => None) :: live w) (pools w)).
Proof.
  intros owner m addr ps l w n a (R & _) (B & k & K & ->). destruct (C98_alloc m addr w k n R B K) as [(t & p & E & _ & _ & R')|(E & _)]; [right; eauto|left; exact E].
Qed.
Lemma free_tracked : forall owner m addr ps l w p x n a, tracks owner m addr ps l w -> In x l -> ecall x = TAlloc n a -> eres x = TP (Some p) -> ~ freed owner l (eid x) ->
  exists t i es, a_free (Some (heap w)) (Some p) = Ok (Some t) /\ live w = map buf es /\ NoDup (map eid es) /\ nth_error es i = Some x /\
    (forall e, In e es <-> In e l /\ is_alloc e /\ ~ freed owner l (eid e)) /\ reached m addr (mkW t (map buf (drop_nth i es)) (pools w)).
Proof.
  intros owner m addr ps l w p x n a (R & _ & es & L & N & H) Hx Ec Er NF.
  assert (In x es) as Ix by (apply H; split; [exact Hx|]; split; [exists n, a, p; auto|exact NF]).
  apply In_nth_error in Ix. destruct Ix as (i & Hi). destruct (C98_free m addr w i (buf x) R) as (t & E & R').
  { rewrite L. apply map_nth_error. exact Hi. }
  exists t, i, es. assert (ptr (buf x) = p) as Ep by (unfold buf; rewrite Ec, Er; reflexivity). rewrite Ep in E. split; [exact E|].
  rewrite L, drop_map in R'. auto 10.
Qed.

Lemma freed_snoc : forall owner l e id, freed owner (l ++ [e]) id <-> freed owner l id \/ exists p, ecall e = TFree (Some p) /\ owner (eid e) = id.
Proof.
  intros owner l e id. split.
  - intros (x & p & Hx & Ec & Eo). apply in_app_or in Hx. destruct Hx as [Hx|[<-|[]]]; [left; exists x, p; auto|right; exists p; auto].
  - intros [(x & p & Hx & Ec & Eo)|(p & Ec & Eo)]; [exists x, p|exists e, p]; (split; [apply in_or_app|auto]); [left; exact Hx|right; left; reflexivity].
Qed.
Lemma seq_tracks : forall owner m addr ps w0, reached m addr w0 -> pools w0 = ps -> live w0 = [] -> forall l s, lawful owner l ->
  sequential tbody (Some (heap w0)) l s -> exists w, s = Some (heap w) /\ tracks owner m addr ps l w.
Proof.
  intros owner m addr ps w0 R0 P0 L0. induction l as [|e l IH] using rev_ind; intros s LF SQ.
  - cbn in SQ. exists w0. split; [auto|]. split; [exact R0|]. split; [exact P0|]. exists []. split; [exact L0|]. split; [constructor|]. cbn. tauto.
  - pose proof LF as (N & _ & FF & FI). destruct (lawful_snoc _ _ _ LF) as (LF' & Fr & Te). apply seq_snoc in SQ. destruct SQ as (s1 & SQ & E).
    destruct (IH s1 LF' SQ) as (w & -> & T). clear IH.
    destruct (ecall e) as [n a|[p|]|p n a|p|f| |mm aa bb] eqn:Ec; cbn [tsane] in Te; try contradiction; cbn [tbody] in E.
    + destruct (alloc_tracked owner m addr ps l w n a T Te) as [EA|(t & p & EA & R')]; rewrite EA in E; cbn [bind] in E; [discriminate|].
      injection E as <- Er. exists (mkW t (mkB p n a (fun _ => None) :: live w) (pools w)). split; [reflexivity|]. destruct T as (R & Pw & es & Lw & Ne & H).
      split; [exact R'|]. split; [exact Pw|]. exists (e :: es). cbn [live map]. split; [unfold buf at 1; rewrite Ec, <- Er, <- Lw; reflexivity|]. split.
      * constructor; [|exact Ne]. intros I. apply in_map_iff in I. destruct I as (x & Ex & Hx). apply H in Hx. apply Fr. rewrite <- Ex. apply in_map. apply Hx.
      * intros x. cbn [In]. rewrite H, in_app_iff, freed_snoc. cbn [In]. split.
        -- intros [<-|(I & A & NF)].
           ++ split; [auto|]. split; [exists n, a, p; auto|]. intros [(y & q & Hy & Ey & Eo)|(q & Eq & _)]; [|congruence].
              apply in_split in Hy. destruct Hy as (l0 & l1 & ->). destruct LF' as (_ & _ & FF' & _). destruct (FF' l0 y q l1 eq_refl Ey) as (z & n' & a' & Hz & Ez & _).
              apply Fr. rewrite <- Eo, <- Ez. apply in_map. apply in_or_app. auto.
           ++ split; [auto|]. split; [exact A|]. intros [F|(q & Eq & _)]; [auto|congruence].
        -- intros ([I|[<-|[]]] & A & NF); [right|left; reflexivity]. split; [exact I|]. split; [exact A|]. intros F. apply NF. auto.
    + destruct (FF l e p [] eq_refl Ec) as (x & n & a & Hx & Ex & Exc & Exr).
      assert (~ freed owner l (eid x)) as NF.
      { intros (y & q & Hy & Ey & Eo). apply Fr. assert (eid y = eid e) as <-; [|apply in_map; exact Hy].
        apply (FI y q e p); auto; [apply in_or_app; auto|apply in_or_app; right; left; reflexivity|congruence]. }
      destruct (free_tracked owner m addr ps l w p x n a T Hx Exc Exr NF) as (t & i & es & EA & Lw & Ne & Hi & H & R'). rewrite EA in E. cbn [bind] in E. injection E as <- Er.
      exists (mkW t (map buf (drop_nth i es)) (pools w)). split; [reflexivity|]. split; [exact R'|]. split; [apply T|]. exists (drop_nth i es). split; [reflexivity|]. split; [apply drop_nodup; exact Ne|].
      intros y. rewrite (drop_in eid es i x Ne Hi y), H, in_app_iff, freed_snoc. cbn [In]. split.
      * intros ((I & A & NFy) & D). split; [auto|]. split; [exact A|]. intros [F|(q & _ & Eo)]; [auto|congruence].
      * intros ([I|[<-|[]]] & A & NFy); [|destruct A as (n' & a' & p' & A & _); congruence]. split; [split; [exact I|]; split; [exact A|]; auto|].
        intros D. apply NFy. right. exists p. split; [exact Ec|congruence].
    + injection E as <- Er. exists w. split; [reflexivity|]. destruct T as (R & Pw & es & Lw & Ne & H). split; [exact R|]. split; [exact Pw|]. exists es. split; [exact Lw|]. split; [exact Ne|].
      intros x. rewrite H, in_app_iff, freed_snoc. cbn [In]. split.
      * intros (I & A & NF). split; [auto|]. split; [exact A|]. intros [F|(q & Eq & _)]; [auto|congruence].
      * intros ([I|[<-|[]]] & A & NF); [split; [exact I|]; split; [exact A|]; auto|destruct A as (n' & a' & p' & A & _); congruence].
Qed.

(* ---- all threads ---- *)
Lemma prefix_before : forall (l0 l1 l0' l1' : list hentry) e, l0 ++ e :: l1 = l0' ++ l1' -> ~ In (eid e) (map eid l0') -> exists t, l0 = l0' ++ t.
Proof.
  induction l0 as [|x l0 IH]; intros l1 l0' l1' e E N; destruct l0' as [|x' l0']; cbn in *; try (eexists; reflexivity).
  - injection E as -> _. exfalso. apply N. auto.
  - injection E as -> E. destruct (IH l1 l0' l1' e E) as (t & ->); [tauto|]. exists t. reflexivity.
Qed.
(* the entry of a call that returned before another began *)
Lemma owner_entry : forall owner (h : list hevent) l, explains l h -> disciplined owner h -> forall id k p, In (Inv id k (TFree (Some p))) h ->
  exists n a l0 l1, l = l0 ++ l1 /\ ~ In id (map eid l0) /\ In (mke (owner id) (TAlloc n a) (TP (Some p))) l0.
Proof.
  intros owner h l X (D1 & _) id k p Hi. apply in_split in Hi. destruct Hi as (h1 & h2 & Eh). destruct (D1 h1 id k p h2 Eh) as (k' & n & a & Ha & Hr).
  destruct (x_order _ _ X h1 id k _ h2 (owner id) _ Eh Hr) as (l0 & l1 & El & I0 & N0). exists n, a, l0, l1. split; [exact El|]. split; [exact N0|].
  assert (In (Ret (owner id) (TP (Some p))) h) as Hr' by (rewrite Eh; apply in_or_app; auto).
  assert (In (Inv (owner id) k' (TAlloc n a)) h) as Ha' by (rewrite Eh; apply in_or_app; auto).
  destruct (x_returned _ _ X _ _ Hr') as (c & Hc). destruct (x_called _ _ X _ Hc) as (k2 & Hc2). cbn [eid ecall] in Hc2.
  destruct (x_calls _ _ X _ _ _ _ _ Ha' Hc2) as (_ & <-). apply in_map_iff in I0. destruct I0 as (x & Ex & Hx).
  replace (mke (owner id) (TAlloc n a) (TP (Some p))) with x; [exact Hx|].
  apply (nodup_eid l); auto; [exact (x_once _ _ X)|rewrite El; apply in_or_app; auto].
Qed.
Lemma explained_lawful : forall owner (h : list hevent) l, explains l h -> disciplined owner h -> (forall e, In e l -> tsane (ecall e)) -> lawful owner l.
Proof.
  intros owner h l X D T. split; [exact (x_once _ _ X)|]. split; [exact T|]. split.
  - intros l0 e p l1 E Ec. assert (In e l) as He by (rewrite E; apply in_or_app; right; left; reflexivity).
    destruct (x_called _ _ X e He) as (k & Hk). rewrite Ec in Hk. destruct (owner_entry owner h l X D _ k p Hk) as (n & a & l0' & l1' & E' & N & I).
    rewrite E in E'. destruct (prefix_before _ _ _ _ _ E' N) as (t & ->). eexists _, n, a. split; [apply in_or_app; left; exact I|]. auto.
  - intros e p e' p' He He' Ec Ec' Eo. destruct (x_called _ _ X e He) as (k & Hk), (x_called _ _ X e' He') as (k' & Hk'). rewrite Ec in Hk. rewrite Ec' in Hk'.
    eapply (proj2 D); eauto.
Qed.

(* Any number of threads that allocate and free, in any interleaving: no run faults, a run stops only in the assertion of an alloc that
   would fail for one thread as well, and the blocks that are held lie in the pool, are aligned and overlap no other held block. *)
Theorem C124_tlsf_blocks : forall m addr bytes s0 threads es owner, (addr mod 8 = 0 -> addr <> 0 -> addr + bytes <= 2 ^ 63 ->
  control_size + 40 <= bytes -> bytes < control_size + 2 ^ 32 + 16 -> region m addr bytes -> a_initialize None m addr bytes = Ok s0 ->
  Forall locked es -> Forall (calls tsane) es ->
  (forall es1 es2 y, es = es1 ++ es2 -> run tbody (init threads s0) es1 = Ok y -> disciplined owner (hist y)) ->
  match run tbody (init threads s0) es with
  | Ok y =>
      (forall id k n a r, In (Inv id k (TAlloc n a)) (hist y) -> In (Ret id r) (hist y) -> exists p, r = TP (Some p)) /\
      (forall id n a p, holds owner (hist y) id n a p -> addr + control_size <= p /\ p + n <= addr + bytes /\ p mod a = 0) /\
      (forall id n a p id' n' a' p', holds owner (hist y) id n a p -> holds owner (hist y) id' n' a' p' -> id <> id' -> p + n <= p' \/ p' + n' <= p)
  | Contract => exists w k n, reached m addr w /\ a_alloc (Some (heap w)) n (2 ^ k) = Contract /\
                  (n = 0 \/ 2 ^ 32 <= need_aligned k n \/ ~ gap w (8 + need_aligned k n + need_aligned k n / 32))
  | _ => False
  end)%N.
Proof.
  intros m addr bytes s0 threads es owner A Z B L1 L2 RG E0 F G D.
  destruct (C98_initialize m addr bytes A Z B L1 L2 RG) as (t0 & E0' & R0). assert (s0 = Some t0) by congruence. subst s0.
  set (w0 := mkW t0 [] [(addr + control_size, bytes - control_size)%N]) in *.
  destruct (run_stuck tbody tsane threads (Some t0) es (init threads (Some t0)) [] (init_ok tbody tsane threads (Some t0)) F G)
    as [(y & l & E & O)|(es1 & e & es2 & y & l & Ees & E & O & SK)]; cbn [app] in *;
  [pose proof (D es [] y (eq_sym (app_nil_r es)) E) as DY|pose proof (D es1 (e :: es2) y Ees E) as DY].
  - rewrite E. pose proof (ok_explains _ _ _ _ _ _ O) as X.
    assert (PL : forall e, In e l -> tsane (ecall e)) by (intros e He; destruct (o_lin _ _ _ _ _ _ O e He) as (_ & k & Hi); eapply o_P; eauto).
    pose proof (explained_lawful owner _ l X DY PL) as LF.
    destruct (seq_tracks owner m addr _ w0 R0 eq_refl eq_refl l (ob y) LF (o_seq _ _ _ _ _ _ O)) as (w & Eo & R & Pw & bs & Lw & Ne & H).
    assert (K : forall id n a p, holds owner (hist y) id n a p -> In (mke id (TAlloc n a) (TP (Some p))) bs).
    { intros id n a p ((k & Hi) & Hr & NF). destruct (x_returned _ _ X _ _ Hr) as (c & Hc). destruct (x_called _ _ X _ Hc) as (k' & Hi'). cbn [eid ecall] in Hi'.
      destruct (x_calls _ _ X _ _ _ _ _ Hi Hi') as (_ & <-). apply H. split; [exact Hc|]. split; [exists n, a, p; auto|]. cbn [eid].
      intros (x & q & Hx & Ex & Exo). destruct (x_called _ _ X x Hx) as (k2 & Hk2). rewrite Ex in Hk2. exact (NF _ _ _ Hk2 Exo). }
    destruct R as (Z' & D1 & D2 & t & ops & Et & Fo & Ro). destruct (C66_every_history_safe m addr t ops Z' D1 D2 Et Fo) as (w' & Ew & SF & SI).
    assert (w' = w) by congruence. subst w'. split; [|split].
    + intros id k n a r Hi Hr. destruct (x_returned _ _ X _ _ Hr) as (c & Hc). destruct (x_called _ _ X _ Hc) as (k' & Hi'). cbn [eid ecall] in Hi'.
      destruct (x_calls _ _ X _ _ _ _ _ Hi Hi') as (_ & <-). pose proof (o_seq _ _ _ _ _ _ O) as SQ. clear -SQ Hc. revert SQ. generalize (Some t0).
      induction l as [|e l IH]; intros s SQ; [destruct Hc|]. cbn [sequential] in SQ. destruct SQ as (s1 & E & SQ). destruct Hc as [->|Hc]; [|eauto].
      cbn [ecall eres tbody] in E. destruct (a_alloc s n a) as [[s' p]| | |]; cbn [bind] in E; try discriminate. injection E as _ <-. eauto.
    + intros id n a p Hh. pose proof (in_map buf _ _ (K _ _ _ _ Hh)) as I. rewrite <- Lw in I. destruct (SI _ I) as ((q & Hq & I1 & I2) & _ & Al & _).
      rewrite Pw in Hq. destruct Hq as [<-|[]]. cbn in I1, I2, Al. change control_size with 6536%N in *. split; [exact I1|]. split; [lia|exact Al].
    + intros id n a p id' n' a' p' Hh Hh' Dd. pose proof (K _ _ _ _ Hh) as I. pose proof (K _ _ _ _ Hh') as I'.
      rewrite Lw in SF. clear -SF I I' Dd. induction bs as [|x bs IH]; [destruct I|]. cbn [map] in SF. inversion SF as [|? ? S1 S2]; subst. rewrite Forall_forall in S1.
      destruct I as [->|I], I' as [E|I'].
      * congruence.
      * apply (S1 _ (in_map buf _ _ I')).
      * subst x. destruct (S1 _ (in_map buf _ _ I)) as [Q|Q]; cbn in Q; auto.
      * auto.
  - pose proof (ok_explains _ _ _ _ _ _ O) as X.
    assert (PL : forall e, In e l -> tsane (ecall e)) by (intros x He; destruct (o_lin _ _ _ _ _ _ O x He) as (_ & k & Hi); eapply o_P; eauto).
    pose proof (explained_lawful owner _ l X DY PL) as LF.
    destruct (seq_tracks owner m addr _ w0 R0 eq_refl eq_refl l (ob y) LF (o_seq _ _ _ _ _ _ O)) as (w & Eo & T).
    destruct SK as (id & k & c & Hi & NI & Pc & SK). rewrite Eo in SK.
    destruct c as [n a|[p|]|p n a|p|f| |mm aa bb]; cbn [tsane] in Pc; try contradiction; cbn [tbody] in SK.
    + destruct Pc as (Bn & j & Kj & ->). destruct T as (R & _). destruct (C98_alloc m addr w j n R Bn Kj) as [(t & p & EA & _)|(EA & Why)]; rewrite EA in SK; cbn [bind] in SK;
        destruct (run tbody (init threads (Some t0)) es); try discriminate; try contradiction. exists w, j, n. auto.
    + exfalso. destruct (owner_entry owner _ l X DY id k p Hi) as (n & a & l0 & l1 & El & N0 & I).
      assert (In (mke (owner id) (TAlloc n a) (TP (Some p))) l) as I' by (rewrite El; apply in_or_app; auto).
      destruct (free_tracked owner m addr _ l w p _ n a T I' eq_refl eq_refl) as (t & i & bs & EA & _).
      { cbn [eid]. intros (x & q & Hx & Ex & Exo). destruct (x_called _ _ X x Hx) as (k2 & Hk2). rewrite Ex in Hk2.
        pose proof (proj2 DY _ _ _ _ _ _ Hk2 Hi Exo) as Q. apply NI. rewrite <- Q. apply in_map. exact Hx. }
      rewrite EA in SK. cbn [bind] in SK. destruct (run tbody (init threads (Some t0)) es); try discriminate; contradiction.
    + exfalso. cbn in SK. destruct (run tbody (init threads (Some t0)) es); try discriminate; contradiction.
Qed.

(* ---- examples ---- *)
Lemma hist_grows : forall S C R (body : C -> S -> outcome (S * R)) es (y y' : sys S C R), run body y es = Ok y' -> exists t, hist y' = hist y ++ t.
Proof.
  intros S C R body. assert (ONE : forall e (y y' : sys S C R), sstep body y e = Ok y' -> exists t, hist y' = hist y ++ t).
  { intros e y y' H. assert (SK : y = y' -> exists t, hist y' = hist y ++ t) by (intros <-; exists []; rewrite app_nil_r; reflexivity).
    destruct e as [k c|k seen|k|k|k|k c]; cbn [sstep] in H; destruct (nth_error (ts y) k) as [[|id c'|id c'|id c' s|id r]|]; try (injection H as H; auto; fail).
    - destruct (start_lock (lk y) k); cbn [bind] in H; try discriminate. injection H as <-. eexists. reflexivity.
    - destruct (SpinModel.step (lk y) k seen) as [[l b]| | |]; cbn [bind] in H; try discriminate. destruct (aget (thr l) k); cbn [bind] in H; try discriminate. injection H as <-. exists []. rewrite app_nil_r. reflexivity.
    - destruct (access (lk y) k); cbn [bind] in H; try discriminate. injection H as <-. exists []. rewrite app_nil_r. reflexivity.
    - destruct (access (lk y) k); cbn [bind] in H; try discriminate. destruct (body c' s) as [[s2 r]| | |]; cbn [bind] in H; try discriminate. injection H as <-. exists []. rewrite app_nil_r. reflexivity.
    - destruct (unlock (lk y) k); cbn [bind] in H; try discriminate. injection H as <-. eexists. reflexivity.
    - destruct (bare_access (lk y) k); cbn [bind] in H; try discriminate. destruct (body c (ob y)) as [[s2 r]| | |]; cbn [bind] in H; try discriminate. injection H as <-. eexists. reflexivity. }
  induction es as [|e es IH]; intros y y' H; cbn [run] in H.
  - injection H as <-. exists []. rewrite app_nil_r. reflexivity.
  - destruct (sstep body y e) as [y1| | |] eqn:E; cbn [bind] in H; try discriminate. destruct (ONE e y y1 E) as (t & T), (IH y1 y' H) as (t' & T').
    exists (t ++ t'). rewrite T', T, app_assoc. reflexivity.
Qed.
(* the discipline of a whole history is the discipline at every time *)
Lemma disciplined_before : forall owner s0 threads es y, run tbody (init threads s0) es = Ok y -> disciplined owner (hist y) ->
  forall es1 es2 y1, es = es1 ++ es2 -> run tbody (init threads s0) es1 = Ok y1 -> disciplined owner (hist y1).
Proof.
  intros owner s0 threads es y E (D1 & D2) es1 es2 y1 -> E1.
  assert (E2 : run tbody y1 es2 = Ok y).
  { revert E E1. generalize (init threads s0 : sys (option tlsf) tcall tres). induction es1 as [|e es1 IH]; intros y0 E E1; cbn [app run] in *; [congruence|].
    destruct (sstep tbody y0 e) as [y2| | |]; cbn [bind] in *; try discriminate. eauto. }
  destruct (hist_grows _ _ _ _ _ _ _ E2) as (t & T). rewrite T in D1, D2. split.
  - intros h1 id k p h2 Eh. apply (D1 h1 id k p (h2 ++ t)). rewrite Eh, <- app_assoc. reflexivity.
  - intros id k p id' k' p' H H'. apply (D2 id k p id' k' p'); apply in_or_app; auto.
Qed.
Definition ts0 := get None (a_initialize None zeros 1024 (control_size + 4096)).
(* two allocations at the same time; then thread 1 frees the block of thread 0 while thread 0 allocates again *)
Definition ts_events : list (ev tcall) :=
  [ECall 0 (TAlloc 16 8); ECall 1 (TAlloc 32 64); ETick 1 false; ETick 0 true; EBegin 1; EFinish 1; EReturn 1; ETick 0 false; ETick 0 false; EBegin 0; EFinish 0; EReturn 0;
   ECall 0 (TAlloc 100 8); ECall 1 (TFree (Some 7568)); ETick 1 false; EBegin 1; EFinish 1; ETick 0 true; EReturn 1; ETick 0 false; ETick 0 false; EBegin 0; EFinish 0; EReturn 0]%N.
Definition ts_hist : list hevent := match run tbody (init 2 ts0) ts_events with Ok y => hist y | _ => [] end.
Example C124_tlsf_blocks_ex : ts_hist = [Inv 0 0 (TAlloc 16 8); Inv 1 1 (TAlloc 32 64); Ret 1 (TP (Some 7616)); Ret 0 (TP (Some 7568));
  Inv 2 0 (TAlloc 100 8); Inv 3 1 (TFree (Some 7568)); Ret 3 TU; Ret 2 (TP (Some 7656))]%N.
Proof. vm_compute. reflexivity. Qed.
Example C124_tlsf_blocks_conditions : (a_initialize None zeros 1024 (control_size + 4096) = Ok ts0 /\ region zeros 1024 (control_size + 4096)) %N /\
  Forall locked ts_events /\ Forall (calls tsane) ts_events /\
  (forall es1 es2 y, ts_events = es1 ++ es2 -> run tbody (init 2 ts0) es1 = Ok y -> disciplined (fun _ => O) (hist y)) /\
  holds (fun _ => O) ts_hist 1 32 64 7616 /\ holds (fun _ => O) ts_hist 2 100 8 7656.
Proof.
  split; [split; [apply ok_get; vm_compute; reflexivity|]|].
  { intros x _ _ H. unfold zeros. change (1024 + (control_size + 4096))%N with 11656%N in H. destruct (N.ltb_spec x 65536); [discriminate|lia]. }
  split; [repeat constructor|]. split.
  { assert (T : forall k j n, (n + 8 <= 2 ^ 64)%N -> (j <= 62)%N -> calls tsane (ECall k (TAlloc n (2 ^ j)))).
    { intros k j n Hn Hj. split; [exact Hn|]. exists j. auto. }
    unfold ts_events. repeat (apply Forall_cons; [first [exact Logic.I|idtac]|]); [..|apply Forall_nil].
    - apply (T 0%nat 3%N 16%N); vm_compute; discriminate.
    - apply (T 1%nat 6%N 32%N); vm_compute; discriminate.
    - apply (T 0%nat 3%N 100%N); vm_compute; discriminate. }
  split.
  - destruct (run tbody (init 2 ts0) ts_events) as [y| | |] eqn:E; [|vm_compute in E; discriminate..].
    assert (H : hist y = ts_hist) by (unfold ts_hist; rewrite E; reflexivity). rewrite C124_tlsf_blocks_ex in H.
    apply (disciplined_before _ _ _ _ _ E). rewrite H. clear E H. split.
    + intros h1 id k p h2 Eh. do 5 (destruct h1 as [|? h1]; [discriminate|injection Eh as <- Eh]).
      destruct h1 as [|? h1]; [injection Eh as <- <- <- <-; exists O, 16%N, 8%N; cbn; auto 10|injection Eh as <- Eh].
      do 3 (destruct h1 as [|? h1]; [discriminate|try discriminate; injection Eh as <- Eh]).
    + intros id k p id' k' p' I I' _. cbn in I, I'. repeat (destruct I as [I|I]; [try discriminate|]); [|destruct I].
      repeat (destruct I' as [I'|I']; [try discriminate|]); [|destruct I']. congruence.
  - rewrite C124_tlsf_blocks_ex. split; (split; [eexists; cbn; auto 10|split; [cbn; auto 10|]]);
    intros id' k p' I; cbn in I; repeat (destruct I as [I|I]; [try discriminate|]); try destruct I; discriminate.
Qed.
(* without the discipline: two threads give back the same block, the second one meets the assertion of the heap *)
Definition one (k : nat) (c : tcall) : list (ev tcall) := [ECall k c; ETick k false; EBegin k; EFinish k; EReturn k].
Example C124_double_free : run tbody (init 2 ts0) (one 0 (TAlloc 16 8) ++ one 0 (TFree (Some 7568)) ++ one 1 (TFree (Some 7568)))%N = Contract.
Proof. vm_compute. reflexivity. Qed.
Print Assumptions C124_tlsf_blocks.

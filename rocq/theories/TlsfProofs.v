(* The operations of tlsf.cc keep the heap invariant. *)
From Coq Require Import NArith List Bool Lia.
From Verif Require Import Base TlsfModel TlsfMapSpec TlsfMapProofs TlsfListProofs TlsfPhysProofs.
Import ListNotations.
Open Scope N_scope.

(* decide reads through a chain of updates *)
Ltac memr :=
  unfold upd in *; repeat match goal with
  | |- context [?x =? ?y] => destruct (N.eqb_spec x y); try lia
  | H : context [?x =? ?y] |- _ => destruct (N.eqb_spec x y); try lia
  end; try congruence.

(* ---- effects on memory ---- *)
Section Prim.
  Variables (m : memory) (b s : N) (f p : bool).
  Hypothesis W : m (b + 8) = Some (word s f p).
  Hypothesis M : s mod 4 = 0.

  Lemma p_size : block_size m b = Ok s.
  Proof. eapply block_size_ok; eauto. Qed.
  Lemma p_free : block_is_free m b = Ok f.
  Proof. unfold block_is_free, f_size. rewrite (rd_some _ _ _ W). cbn [bind]. rewrite word_free; auto. Qed.
  Lemma p_prev_free : block_is_prev_free m b = Ok p.
  Proof. unfold block_is_prev_free, f_size. rewrite (rd_some _ _ _ W). cbn [bind]. rewrite word_prev; auto. Qed.
  Lemma p_last : block_is_last m b = Ok (s =? 0).
  Proof. unfold block_is_last. rewrite p_size. reflexivity. Qed.
  Lemma p_next : s <> 0 -> block_next m b = Ok (b + 8 + s).
  Proof.
    intro Z. unfold block_next. rewrite p_size. cbn [bind]. rewrite p_last. cbn [bind].
    destruct (N.eqb_spec s 0); [congruence|]. cbn [negb contract bind]. f_equal.
    unfold offset_to_block, block_to_ptr, block_start_offset, block_header_overhead. lia.
  Qed.
  Let D : m (b + 8) <> None. Proof. rewrite W. discriminate. Qed.
  Lemma p_set_free : block_set_free m b = Ok (upd m (b + 8) (word s true p)).
  Proof. unfold block_set_free, f_size. rewrite (rd_some _ _ _ W). cbn [bind]. rewrite wr_some, word_set_free; auto. Qed.
  Lemma p_set_used : block_set_used m b = Ok (upd m (b + 8) (word s false p)).
  Proof. unfold block_set_used, f_size. rewrite (rd_some _ _ _ W). cbn [bind]. rewrite wr_some, word_set_used; auto. Qed.
  Lemma p_set_prev_free : block_set_prev_free m b = Ok (upd m (b + 8) (word s f true)).
  Proof. unfold block_set_prev_free, f_size. rewrite (rd_some _ _ _ W). cbn [bind]. rewrite wr_some, word_set_prev; auto. Qed.
  Lemma p_set_prev_used : block_set_prev_used m b = Ok (upd m (b + 8) (word s f false)).
  Proof. unfold block_set_prev_used, f_size. rewrite (rd_some _ _ _ W). cbn [bind]. rewrite wr_some, word_set_prevu; auto. Qed.
  Lemma p_set_size : forall n, n mod 4 = 0 -> block_set_size m b n = Ok (upd m (b + 8) (word n f p)).
  Proof.
    intros n Hn. unfold block_set_size, f_size. rewrite (rd_some _ _ _ W). cbn [bind].
    rewrite wr_some, word_set_size; auto.
  Qed.
  Lemma p_link_next : s <> 0 -> m (b + 8 + s) <> None ->
    block_link_next m b = Ok (upd m (b + 8 + s) b, b + 8 + s).
  Proof.
    intros Z E. unfold block_link_next. rewrite p_next by auto. cbn [bind]. unfold f_prev_phys.
    rewrite wr_some by auto. reflexivity.
  Qed.
End Prim.

(* ---- facts about the blocks X under work ---- *)
Lemma inv_focus : forall t zl za zL X zR zr, Inv t zl za zL X zR zr ->
  let a := za + len zL in
  a mod 8 = 0 /\ a <> 0 /\ a + len X + 24 <= 2 ^ 63 + 8 /\ len zL + len X + len zR < 2 ^ 32 + 8 /\
  seg (mem t) (lastf false zL) a X /\
  mem t (a + len X + 8) = Some (word (hs zR) (hf zR) (lastf (lastf false zL) X)) /\ hs zR mod 4 = 0 /\
  (forall s f, In (s, f) X -> 24 <= s /\ s mod 8 = 0 /\ s < 2 ^ 32) /\
  (forall x, x mod 8 = 0 -> a + 8 <= x -> x <= a + len X + 8 -> mem t x <> None).
Proof.
  intros t zl za zL X zR zr (S & G & Ly & Ls & OA) a.
  pose proof (zp_in zl za zL X zR zr) as Hp.
  destruct (proj1 G _ _ (skel_in _ _ _ Hp)) as (G1 & G2 & [G3 G6] & G4 & G5).
  rewrite !len_app in G3, G4, G5, G6.
  assert (Sz : forall s f, In (s, f) (zL ++ X ++ zR) -> 24 <= s /\ s mod 8 = 0 /\ s < 2 ^ 32).
  { intros s f H. exact (S _ _ s f Hp H). }
  assert (Am : forall l c, c mod 8 = 0 -> (forall s f, In (s, f) l -> s mod 8 = 0) -> (c + len l) mod 8 = 0).
  { induction l as [|[s f] l IH]; intros c C H; cbn [len].
    - rewrite N.add_0_r. auto.
    - replace (c + (s + 8 + len l)) with ((c + 8 + s) + len l) by lia. apply IH.
      + rewrite N.add_mod, (N.add_mod c 8), C, (H s f) by (cbn; auto; lia). reflexivity.
      + intros s' f' K. apply (H s' f'). right. auto. }
  assert (Aa : a mod 8 = 0).
  { apply Am; auto. intros s f K. destruct (Sz s f) as (_ & Z & _); [apply in_or_app; auto|exact Z]. }
  pose proof (Ly _ _ Hp) as Ph. apply phys_app in Ph. destruct Ph as [P1 P2].
  apply phys_app in P2. destruct P2 as [P2 P3].
  split; [exact Aa|]. split; [unfold a; lia|]. split; [unfold a; lia|]. split; [lia|]. split; [exact P2|].
  split; [apply (phys_head _ _ _ _ P3)|]. split.
  { destruct zR as [|[s f] zR]; [reflexivity|]. cbn. apply mod8_4.
    destruct (Sz s f) as (_ & Z & _); [|exact Z]. apply in_or_app. right. apply in_or_app. right. left. reflexivity. }
  split; [intros s f K; apply (Sz s f); apply in_or_app; right; apply in_or_app; auto|].
  intros x X1 X2 X3. apply G4; auto; unfold a in *; lia.
Qed.
Lemma mod8_add : forall a b, a mod 8 = 0 -> b mod 8 = 0 -> (a + b) mod 8 = 0.
Proof. intros a b A B. rewrite N.add_mod, A, B by lia. reflexivity. Qed.
Lemma mod8_sub : forall a b, a mod 8 = 0 -> b mod 8 = 0 -> b <= a -> (a - b) mod 8 = 0.
Proof.
  intros a b A B L. pose proof (N.div_mod a 8 ltac:(lia)). pose proof (N.div_mod b 8 ltac:(lia)).
  replace (a - b) with ((a / 8 - b / 8) * 8) by lia. apply N.mod_mul. lia.
Qed.

(* ---- marking ---- *)
Lemma mark_used_ok : forall t zl za zL s zR zr, Inv t zl za zL [(s, true)] zR zr ->
  exists m', block_mark_as_used (mem t) (za + len zL) = Ok m' /\ same_dom (mem t) m' /\
    Inv (set_mem t m') zl za zL [(s, false)] zR zr /\
    keeps (oth zl za zL [(s, true)] zR zr false) (mem t) m'.
Proof.
  intros t zl za zL s zR zr I. destruct (inv_focus _ _ _ _ _ _ _ I) as (A1 & A2 & A3 & A3b & Sg & Hd & Hm & Sz & Dm).
  set (a := za + len zL) in *. cbn [len seg lastf] in *. destruct Sg as (W & Ft & _).
  destruct (Sz s true (or_introl eq_refl)) as (S1 & S2 & S3).
  replace (a + (s + 8 + 0) + 8) with (a + 8 + s + 8) in Hd by lia.
  unfold block_mark_as_used. rewrite (p_next _ _ _ _ _ W) by (auto using mod8_4; lia). cbn [bind].
  rewrite (p_set_prev_used _ _ _ _ _ Hd Hm). cbn [bind].
  set (m1 := upd (mem t) (a + 8 + s + 8) (word (hs zR) (hf zR) false)).
  assert (W1 : m1 (a + 8) = Some (word s true (lastf false zL))) by (unfold m1; rewrite upd_other; auto; lia).
  rewrite (p_set_used _ _ _ _ _ W1) by auto using mod8_4.
  set (m2 := upd m1 (a + 8) (word s false (lastf false zL))).
  exists m2. split; [reflexivity|].
  assert (D : same_dom (mem t) m2).
  { eapply same_dom_trans; [apply same_dom_upd|apply same_dom_upd].
    - rewrite Hd. discriminate.
    - rewrite W1. discriminate. }
  split; [exact D|].
  apply (replace_ok t m2 zl za zL [(s, true)] [(s, false)] zR zr I); auto.
  - intros s' f' [E|[]]. inv E. auto.
  - fold a. cbn [len]. intros x X. unfold m2, m1. memr.
  - fold a. cbn [seg]. split; [unfold m2; apply upd_same|]. split; [discriminate|exact Logic.I].
  - fold a. cbn [len lastf]. replace (a + (s + 8 + 0) + 8) with (a + 8 + s + 8) by lia.
    unfold m2, m1. memr.
Qed.

Lemma mark_free_ok : forall t zl za zL s zR zr, Inv t zl za zL [(s, false)] zR zr ->
  exists m', block_mark_as_free (mem t) (za + len zL) = Ok m' /\ same_dom (mem t) m' /\
    Inv (set_mem t m') zl za zL [(s, true)] zR zr /\
    keeps (oth zl za zL [(s, false)] zR zr false) (mem t) m'.
Proof.
  intros t zl za zL s zR zr I. destruct (inv_focus _ _ _ _ _ _ _ I) as (A1 & A2 & A3 & A3b & Sg & Hd & Hm & Sz & Dm).
  set (a := za + len zL) in *. cbn [len seg lastf] in *. destruct Sg as (W & Ft & _).
  destruct (Sz s false (or_introl eq_refl)) as (S1 & S2 & S3).
  replace (a + (s + 8 + 0) + 8) with (a + 8 + s + 8) in Hd by lia.
  assert (De : mem t (a + 8 + s) <> None).
  { apply Dm; [|lia|lia]. apply mod8_add; auto. apply mod8_add; auto. }
  unfold block_mark_as_free. rewrite (p_link_next _ _ _ _ _ W) by (auto using mod8_4; lia). cbn [bind].
  set (m0 := upd (mem t) (a + 8 + s) a).
  assert (H0 : m0 (a + 8 + s + 8) = Some (word (hs zR) (hf zR) false)) by (unfold m0; rewrite upd_other; auto; lia).
  rewrite (p_set_prev_free _ _ _ _ _ H0 Hm). cbn [bind].
  set (m1 := upd m0 (a + 8 + s + 8) (word (hs zR) (hf zR) true)).
  assert (W1 : m1 (a + 8) = Some (word s false (lastf false zL))) by (unfold m1, m0; rewrite !upd_other; auto; lia).
  rewrite (p_set_free _ _ _ _ _ W1) by auto using mod8_4.
  set (m2 := upd m1 (a + 8) (word s true (lastf false zL))).
  exists m2. split; [reflexivity|].
  assert (D : same_dom (mem t) m2).
  { eapply same_dom_trans; [apply (same_dom_upd _ (a + 8 + s) a); auto|].
    eapply same_dom_trans; [apply same_dom_upd|apply same_dom_upd].
    - fold m0. rewrite H0. discriminate.
    - fold m0. fold m1. rewrite W1. discriminate. }
  split; [exact D|].
  apply (replace_ok t m2 zl za zL [(s, false)] [(s, true)] zR zr I); auto.
  - intros s' f' [E|[]]. inv E. auto.
  - fold a. cbn [len]. intros x X. unfold m2, m1, m0. memr.
  - fold a. cbn [seg]. split; [unfold m2; apply upd_same|]. split; [|exact Logic.I]. intros _.
    unfold m2, m1, m0. memr.
  - fold a. cbn [len lastf]. replace (a + (s + 8 + 0) + 8) with (a + 8 + s + 8) by lia.
    unfold m2, m1, m0. memr.
Qed.

(* ---- absorbing the following block ---- *)
Lemma absorb_mem : forall m a s1 f1 p s2 f2 p2,
  m (a + 8) = Some (word s1 f1 p) -> m (a + 8 + s1 + 8) = Some (word s2 f2 p2) ->
  s1 mod 4 = 0 -> s2 mod 4 = 0 -> 24 <= s1 -> m (a + 8 + s1 + 8 + s2) <> None ->
  block_absorb m a (a + 8 + s1) =
    Ok (upd (upd m (a + 8) (word (s1 + s2 + 8) f1 p)) (a + 8 + s1 + 8 + s2) a).
Proof.
  intros m a s1 f1 p s2 f2 p2 W1 W2 M1 M2 L D. unfold block_absorb.
  rewrite (p_last _ _ _ _ _ W1 M1). cbn [bind]. destruct (N.eqb_spec s1 0); [lia|]. cbn [negb contract bind].
  unfold f_size. rewrite (rd_some _ _ _ W1). cbn [bind]. rewrite (p_size _ _ _ _ _ W2 M2). cbn [bind].
  rewrite wr_some by (rewrite W1; discriminate). cbn [bind].
  replace (word s1 f1 p + (s2 + block_header_overhead)) with (word (s1 + s2 + 8) f1 p)
    by (unfold word, block_header_overhead; lia).
  set (m1 := upd m (a + 8) (word (s1 + s2 + 8) f1 p)).
  assert (E : m1 (a + 8) = Some (word (s1 + s2 + 8) f1 p)) by apply upd_same.
  assert (M4 : (s1 + s2 + 8) mod 4 = 0).
  { rewrite N.add_mod, (N.add_mod s1 s2), M1, M2 by lia. reflexivity. }
  replace (a + 8 + s1 + 8 + s2) with (a + 8 + (s1 + s2 + 8)) in * by lia.
  rewrite (p_link_next _ _ _ _ _ E M4); [reflexivity|lia|].
  unfold m1. destruct (N.eq_dec (a + 8 + (s1 + s2 + 8)) (a + 8)); [lia|]. rewrite upd_other by auto. auto.
Qed.

Lemma absorb_ok : forall t zl za zL s1 s2 zR zr, Inv t zl za zL [(s1, true); (s2, true)] zR zr ->
  exists m', block_absorb (mem t) (za + len zL) (za + len zL + 8 + s1) = Ok m' /\ same_dom (mem t) m' /\
    Inv (set_mem t m') zl za zL [(s1 + s2 + 8, true)] zR zr /\
    keeps (oth zl za zL [(s1, true); (s2, true)] zR zr false) (mem t) m'.
Proof.
  intros t zl za zL s1 s2 zR zr I. destruct (inv_focus _ _ _ _ _ _ _ I) as (A1 & A2 & A3 & A3b & Sg & Hd & Hm & Sz & Dm).
  set (a := za + len zL) in *. cbn [len seg lastf] in *. destruct Sg as (W & Ft & W2 & Ft2 & _).
  destruct (Sz s1 true (or_introl eq_refl)) as (S1 & S2 & S3).
  destruct (Sz s2 true (or_intror (or_introl eq_refl))) as (T1 & T2 & T3).
  replace (a + (s1 + 8 + (s2 + 8 + 0)) + 8) with (a + 8 + s1 + 8 + s2 + 8) in Hd by lia.
  assert (De : mem t (a + 8 + s1 + 8 + s2) <> None) by (rewrite Ft2; [discriminate|auto]).
  rewrite (absorb_mem _ _ _ _ _ _ _ _ W W2) by auto using mod8_4.
  eexists. split; [reflexivity|]. set (m1 := upd (mem t) (a + 8) (word (s1 + s2 + 8) true (lastf false zL))).
  set (m2 := upd m1 (a + 8 + s1 + 8 + s2) a).
  assert (D : same_dom (mem t) m2).
  { eapply same_dom_trans; apply same_dom_upd; [rewrite W; discriminate|].
    unfold m1; rewrite upd_other by lia. auto. }
  split; [exact D|].
  apply (replace_ok t m2 zl za zL _ [(s1 + s2 + 8, true)] zR zr I); auto.
  - cbn [len]. lia.
  - intros s' f' [E|[]]. inv E. split; [lia|]. split; [|unfold a in *; lia].
    apply mod8_add; auto. apply mod8_add; auto.
  - fold a. cbn [len]. intros x X. unfold m2, m1. memr.
  - fold a. cbn [seg]. split; [unfold m2, m1; memr|]. split; [|exact Logic.I]. intros _.
    replace (a + 8 + (s1 + s2 + 8)) with (a + 8 + s1 + 8 + s2) by lia. unfold m2. apply upd_same.
  - fold a. cbn [len lastf]. replace (a + (s1 + 8 + (s2 + 8 + 0)) + 8) with (a + 8 + s1 + 8 + s2 + 8) by lia.
    unfold m2, m1. memr.
Qed.

(* ---- splitting ---- *)
Lemma split_mem : forall m a s f p n hsz hfr hp, m (a + 8) = Some (word s f p) ->
  m (a + 8 + s + 8) = Some (word hsz hfr hp) -> hsz mod 4 = 0 ->
  a mod 8 = 0 -> n mod 8 = 0 -> s mod 8 = 0 -> n + 32 <= s -> a + s + 32 <= 2 ^ 63 + 8 -> 
  (forall x, x mod 8 = 0 -> a + 8 <= x -> x <= a + 8 + s + 8 -> m x <> None) ->
  exists m' q, block_split m a n = Ok (m', a + 8 + n) /\ same_dom m m' /\
    m' (a + 8) = Some (word n f p) /\ m' (a + 8 + n + 8) = Some (word (s - n - 8) true q) /\
    m' (a + 8 + s) = Some (a + 8 + n) /\ m' (a + 8 + s + 8) = Some (word hsz hfr true) /\
    (forall x, x <> a + 8 -> x <> a + 8 + n + 8 -> x <> a + 8 + s -> x <> a + 8 + s + 8 -> m' x = m x).
Proof.
  intros m a s f p n hsz hfr hp W Hd Hm A1 N1 S1 L B Dm.
  assert (Q : forall w, w mod 8 = 0 -> w mod 4 = 0) by (intros; apply mod8_4; auto).
  unfold block_split.
  replace (offset_to_block (block_to_ptr a) n) with (a + 8 + n)
    by (unfold offset_to_block, block_to_ptr, block_start_offset, block_header_overhead; lia).
  rewrite (p_size _ _ _ _ _ W) by auto. cbn [bind]. unfold block_to_ptr, block_start_offset, block_header_overhead.
  rewrite align8; [|repeat apply mod8_add; auto|lia]. cbn [bind]. rewrite N.eqb_refl. cbn [contract bind].
  rewrite (wadd_small 64 n 8) by lia. rewrite (wsub_ge 64 s (n + 8)) by lia.
  set (rs := s - (n + 8)). assert (Rs : rs mod 8 = 0) by (unfold rs; apply mod8_sub; auto; [apply mod8_add; auto|lia]).
  rewrite (wadd_small 64 rs n) by lia. rewrite wadd_small by lia.
  destruct (N.eqb_spec s (rs + n + 8)); [|lia]. cbn [contract bind].
  assert (Dr : m (a + 8 + n + 8) <> None).
  { apply Dm; [repeat apply mod8_add; auto|lia|lia]. }
  destruct (m (a + 8 + n + 8)) as [w|] eqn:Ew; [|congruence].
  destruct (word_any w) as (ws & wf & wp & -> & Wm).
  rewrite (p_set_size _ _ _ _ _ Ew Wm) by auto. cbn [bind].
  set (m1 := upd m (a + 8 + n + 8) (word rs wf wp)).
  assert (E1 : m1 (a + 8 + n + 8) = Some (word rs wf wp)) by apply upd_same.
  rewrite (p_size _ _ _ _ _ E1) by auto. cbn [bind]. unfold block_size_min.
  destruct (N.leb_spec 24 rs); [|lia]. cbn [contract bind].
  assert (W1 : m1 (a + 8) = Some (word s f p)) by (unfold m1; rewrite upd_other; auto; lia).
  rewrite (p_set_size _ _ _ _ _ W1) by auto. cbn [bind].
  set (m2 := upd m1 (a + 8) (word n f p)).
  assert (E2 : m2 (a + 8 + n + 8) = Some (word rs wf wp)) by (unfold m2; rewrite upd_other; auto; lia).
  unfold block_mark_as_free.
  assert (De : m (a + 8 + s) <> None) by (apply Dm; [repeat apply mod8_add; auto|lia|lia]).
  assert (Er : a + 8 + n + 8 + rs = a + 8 + s) by lia.
  rewrite (p_link_next _ _ _ _ _ E2); [|auto|lia|].
  2: { unfold m2, m1. rewrite Er, !upd_other by lia. auto. }
  cbn [bind]. rewrite Er. set (m3 := upd m2 (a + 8 + s) (a + 8 + n)).
  assert (H3 : m3 (a + 8 + s + 8) = Some (word hsz hfr hp)) by (unfold m3, m2, m1; rewrite !upd_other by lia; auto).
  rewrite (p_set_prev_free _ _ _ _ _ H3 Hm). cbn [bind].
  set (m4 := upd m3 (a + 8 + s + 8) (word hsz hfr true)).
  assert (E4 : m4 (a + 8 + n + 8) = Some (word rs wf wp)) by (unfold m4, m3; rewrite !upd_other by lia; auto).
  rewrite (p_set_free _ _ _ _ _ E4) by auto. cbn [bind].
  exists (upd m4 (a + 8 + n + 8) (word rs true wp)), wp. split; [reflexivity|].
  replace (s - n - 8) with rs by lia.
  split.
  { apply same_dom_trans with m1; [apply same_dom_upd; rewrite Ew; discriminate|].
    apply same_dom_trans with m2; [apply same_dom_upd; rewrite W1; discriminate|].
    apply same_dom_trans with m3; [apply same_dom_upd; unfold m2, m1; rewrite !upd_other by lia; auto|].
    apply same_dom_trans with m4; [apply same_dom_upd; rewrite H3; discriminate|].
    apply same_dom_upd. rewrite E4. discriminate. }
  split; [unfold m4, m3, m2; rewrite !upd_other by lia; apply upd_same|].
  split; [apply upd_same|].
  split; [unfold m4; rewrite !upd_other by lia; unfold m3; apply upd_same|].
  split; [rewrite !upd_other by lia; unfold m4; apply upd_same|].
  intros x X1 X2 X3 X4. unfold m4, m3, m2, m1. rewrite !upd_other by auto. reflexivity.
Qed.

(* ---- moving the border of the blocks under work ---- *)
Lemma oth_right : forall nul m zl za zL X s zR zr z s', sizes (zp zl za zL X ((s, true) :: zR) zr) ->
  geo nul m (skel (zp zl za zL X ((s, true) :: zR) zr)) ->
  (oth zl za zL X ((s, true) :: zR) zr true z s' /\ z <> za + len zL + len X) <->
  oth zl za zL (X ++ [(s, true)]) zR zr true z s'.
Proof.
  intros nul m zl za zL X s zR zr z s' S G.
  assert (E : zp zl za zL X ((s, true) :: zR) zr = zp zl za zL (X ++ [(s, true)]) zR zr).
  { unfold zp. rewrite <- app_assoc. reflexivity. }
  rewrite E in S, G. split.
  - intros [H Ne]. unfold oth in *. rewrite len_app. cbn [len trip In] in *.
    replace (za + len zL + (len X + (s + 8 + 0))) with (za + len zL + len X + 8 + s) by lia.
    destruct H as [H|[H|[[H|H]|H]]]; auto. inv H. congruence.
  - intro H. split.
    + unfold oth in *. rewrite len_app in H. cbn [len trip In] in *.
      replace (za + len zL + (len X + (s + 8 + 0))) with (za + len zL + len X + 8 + s) in H by lia. tauto.
    + pose proof (oth_clear _ _ _ _ _ _ _ _ _ _ _ S G H) as C. rewrite len_app in C. cbn [len] in C.
      pose proof (proj1 (all_size _ z s' true S ltac:(apply zp_all; auto))). lia.
Qed.
Lemma oth_left : forall nul m zl za zL X s zR zr z s', sizes (zp zl za (zL ++ [(s, true)]) X zR zr) ->
  geo nul m (skel (zp zl za (zL ++ [(s, true)]) X zR zr)) ->
  (oth zl za (zL ++ [(s, true)]) X zR zr true z s' /\ z <> za + len zL) <->
  oth zl za zL ((s, true) :: X) zR zr true z s'.
Proof.
  intros nul m zl za zL X s zR zr z s' S G.
  assert (E : zp zl za (zL ++ [(s, true)]) X zR zr = zp zl za zL ((s, true) :: X) zR zr).
  { unfold zp. rewrite <- app_assoc. reflexivity. }
  rewrite E in S, G. split.
  - intros [H Ne]. unfold oth in *. rewrite trip_app, len_app, in_app_iff in H. cbn [len trip In] in *.
    replace (za + (len zL + (s + 8 + 0)) + len X) with (za + len zL + (s + 8 + len X)) in H by lia.
    destruct H as [H|[[H|[H|[]]]|[H|H]]]; auto. inv H. congruence.
  - intro H. split.
    + unfold oth in *. rewrite trip_app, len_app, in_app_iff. cbn [len trip In] in *.
      replace (za + (len zL + (s + 8 + 0)) + len X) with (za + len zL + (s + 8 + len X)) by lia. tauto.
    + pose proof (oth_clear _ _ _ _ _ _ _ _ _ _ _ S G H) as C. cbn [len] in C.
      pose proof (proj1 (all_size _ z s' true S ltac:(apply zp_all; auto))). lia.
Qed.
Lemma oth_used_right : forall zl za zL X s zR zr z s',
  oth zl za zL X ((s, true) :: zR) zr false z s' <-> oth zl za zL (X ++ [(s, true)]) zR zr false z s'.
Proof.
  intros. unfold oth. rewrite len_app. cbn [len trip In].
  replace (za + len zL + (len X + (s + 8 + 0))) with (za + len zL + len X + 8 + s) by lia.
  split; intros [H|[H|[H|H]]]; auto. destruct H as [H|H]; [inv H|auto].
Qed.
Lemma oth_used_left : forall zl za zL X s zR zr z s',
  oth zl za (zL ++ [(s, true)]) X zR zr false z s' <-> oth zl za zL ((s, true) :: X) zR zr false z s'.
Proof.
  intros. unfold oth. rewrite trip_app, len_app, in_app_iff. cbn [len trip In].
  replace (za + (len zL + (s + 8 + 0)) + len X) with (za + len zL + (s + 8 + len X)) by lia.
  split; intros [H|[H|[H|H]]]; auto. destruct H as [H|[H|[]]]; [auto|inv H].
Qed.
Lemma used_oth : forall zl za zL X zR zr b s, oth zl za zL X zR zr false b s -> used (zp zl za zL X zR zr) b s.
Proof. intros. unfold used. apply zp_all. auto. Qed.

(* filing the last block under work *)
Lemma insert_right : forall t zl za zL X s zR zr, Inv t zl za zL (X ++ [(s, true)]) zR zr ->
  exists t', block_insert t (za + len zL + len X) = Ok t' /\ nul t' = nul t /\ same_dom (mem t) (mem t') /\
    Inv t' zl za zL X ((s, true) :: zR) zr /\
    keeps (used (zp zl za zL X ((s, true) :: zR) zr)) (mem t) (mem t').
Proof.
  intros t zl za zL X s zR zr I. unfold Inv in I.
  assert (E : zp zl za zL (X ++ [(s, true)]) zR zr = zp zl za zL X ((s, true) :: zR) zr).
  { unfold zp. rewrite <- app_assoc. reflexivity. }
  rewrite E in I. pose proof I as (S & G & _).
  assert (Hy : In (za + len zL + len X, s, true) (all (zp zl za zL X ((s, true) :: zR) zr))).
  { apply zp_all. left. unfold oth. right. right. left. left. reflexivity. }
  destruct (core_insert _ _ _ _ _ I Hy) as (t' & E1 & N & D & K & C').
  { intros s' H. apply (oth_right _ _ _ _ _ _ _ _ _ _ _ S G) in H. tauto. }
  exists t'. split; [exact E1|]. split; [exact N|]. split; [exact D|]. split; [|exact K].
  unfold Inv. eapply core_ext; [|exact C']. intros z s'. cbv beta. split.
  - intros [H|[-> ->]].
    + apply (oth_right _ _ _ _ _ _ _ _ _ _ _ S G) in H. tauto.
    + unfold oth. right. right. left. left. reflexivity.
  - intro H. destruct (N.eq_dec z (za + len zL + len X)) as [->|Ne].
    + right. split; auto. assert (A : In (za + len zL + len X, s', true) (all (zp zl za zL X ((s, true) :: zR) zr))).
      { apply zp_all. auto. }
      pose proof (all_size _ _ _ _ S A). destruct (all_sep _ _ _ _ _ _ _ _ _ G A Hy) as [(_ & Q & _)|Q]; [auto|lia].
    + left. apply (oth_right _ _ _ _ _ _ _ _ _ _ _ S G). auto.
Qed.
(* filing the first block under work *)
Lemma insert_left : forall t zl za zL X s zR zr, Inv t zl za zL ((s, true) :: X) zR zr ->
  exists t', block_insert t (za + len zL) = Ok t' /\ nul t' = nul t /\ same_dom (mem t) (mem t') /\
    Inv t' zl za (zL ++ [(s, true)]) X zR zr /\
    keeps (used (zp zl za (zL ++ [(s, true)]) X zR zr)) (mem t) (mem t').
Proof.
  intros t zl za zL X s zR zr I. unfold Inv in I.
  assert (E : zp zl za zL ((s, true) :: X) zR zr = zp zl za (zL ++ [(s, true)]) X zR zr).
  { unfold zp. rewrite <- app_assoc. reflexivity. }
  rewrite E in I. pose proof I as (S & G & _).
  assert (Ho : oth zl za (zL ++ [(s, true)]) X zR zr true (za + len zL) s).
  { unfold oth. right. left. rewrite trip_app. apply in_or_app. right. left. reflexivity. }
  assert (Hy : In (za + len zL, s, true) (all (zp zl za (zL ++ [(s, true)]) X zR zr))).
  { apply zp_all. auto. }
  destruct (core_insert _ _ _ _ _ I Hy) as (t' & E1 & N & D & K & C').
  { intros s' H. apply (oth_left _ _ _ _ _ _ _ _ _ _ _ S G) in H. tauto. }
  exists t'. split; [exact E1|]. split; [exact N|]. split; [exact D|]. split; [|exact K].
  unfold Inv. eapply core_ext; [|exact C']. intros z s'. cbv beta. split.
  - intros [H|[-> ->]]; [apply (oth_left _ _ _ _ _ _ _ _ _ _ _ S G) in H; tauto|exact Ho].
  - intro H. destruct (N.eq_dec z (za + len zL)) as [->|Ne].
    + right. split; auto. assert (A : In (za + len zL, s', true) (all (zp zl za (zL ++ [(s, true)]) X zR zr))).
      { apply zp_all. auto. }
      pose proof (all_size _ _ _ _ S A). destruct (all_sep _ _ _ _ _ _ _ _ _ G A Hy) as [(_ & Q & _)|Q]; [auto|lia].
    + left. apply (oth_left _ _ _ _ _ _ _ _ _ _ _ S G). auto.
Qed.
(* taking a free neighbour out of its list *)
Lemma remove_right : forall t zl za zL X s zR zr, Inv t zl za zL X ((s, true) :: zR) zr ->
  exists t', block_remove t (za + len zL + len X) = Ok t' /\ nul t' = nul t /\ same_dom (mem t) (mem t') /\
    Inv t' zl za zL (X ++ [(s, true)]) zR zr /\
    remove_free_block t (za + len zL + len X) (fst (mapping_insert s)) (snd (mapping_insert s)) = Ok t' /\
    keeps (used (zp zl za zL X ((s, true) :: zR) zr)) (mem t) (mem t').
Proof.
  intros t zl za zL X s zR zr I. unfold Inv in I. pose proof I as (S & G & _).
  assert (Ho : oth zl za zL X ((s, true) :: zR) zr true (za + len zL + len X) s).
  { unfold oth. right. right. left. left. reflexivity. }
  destruct (core_unfile _ _ _ _ _ I Ho) as (t' & E1 & E2 & N & D & K & C').
  exists t'. split; [exact E2|]. split; [exact N|]. split; [exact D|]. split; [|split; [exact E1|exact K]].
  unfold Inv.
  assert (E : zp zl za zL (X ++ [(s, true)]) zR zr = zp zl za zL X ((s, true) :: zR) zr).
  { unfold zp. rewrite <- app_assoc. reflexivity. }
  rewrite E. eapply core_ext; [|exact C']. intros z s'. cbv beta.
  apply (oth_right _ _ _ _ _ _ _ _ _ _ _ S G).
Qed.
Lemma remove_left : forall t zl za zL X s zR zr, Inv t zl za (zL ++ [(s, true)]) X zR zr ->
  exists t', block_remove t (za + len zL) = Ok t' /\ nul t' = nul t /\ same_dom (mem t) (mem t') /\
    Inv t' zl za zL ((s, true) :: X) zR zr /\
    keeps (used (zp zl za (zL ++ [(s, true)]) X zR zr)) (mem t) (mem t').
Proof.
  intros t zl za zL X s zR zr I. unfold Inv in I. pose proof I as (S & G & _).
  assert (Ho : oth zl za (zL ++ [(s, true)]) X zR zr true (za + len zL) s).
  { unfold oth. right. left. rewrite trip_app. apply in_or_app. right. left. reflexivity. }
  destruct (core_unfile _ _ _ _ _ I Ho) as (t' & E1 & E2 & N & D & K & C').
  exists t'. split; [exact E2|]. split; [exact N|]. split; [exact D|]. split; [|exact K].
  unfold Inv.
  assert (E : zp zl za zL ((s, true) :: X) zR zr = zp zl za (zL ++ [(s, true)]) X zR zr).
  { unfold zp. rewrite <- app_assoc. reflexivity. }
  rewrite E. eapply core_ext; [|exact C']. intros z s'. cbv beta.
  apply (oth_left _ _ _ _ _ _ _ _ _ _ _ S G).
Qed.

(* ---- cutting the block under work ---- *)
Lemma cut_inv : forall t zl za zL s f zR zr n m', Inv t zl za zL [(s, f)] zR zr ->
  n mod 8 = 0 -> 24 <= n -> n + 32 <= s -> same_dom (mem t) m' ->
  let a := za + len zL in
  m' (a + 8) = Some (word n f (lastf false zL)) -> m' (a + 8 + n + 8) = Some (word (s - n - 8) true f) ->
  (f = true -> m' (a + 8 + n) = Some a) ->
  m' (a + 8 + s) = Some (a + 8 + n) -> m' (a + 8 + s + 8) = Some (word (hs zR) (hf zR) true) ->
  (forall x, x < a + 8 \/ a + 8 + s + 8 < x -> m' x = mem t x) ->
  Inv (set_mem t m') zl za zL [(n, f); (s - n - 8, true)] zR zr /\
  keeps (oth zl za zL [(s, f)] zR zr false) (mem t) m'.
Proof.
  intros t zl za zL s f zR zr n m' I N1 N2 L D a W1 W2 Ft1 Ft2 Hd F.
  destruct (inv_focus _ _ _ _ _ _ _ I) as (A1 & A2 & A3 & A3b & Sg & Hd0 & Hm & Sz & Dm).
  destruct (Sz s f (or_introl eq_refl)) as (S1 & S2 & S3). fold a in Dm, Sg, Hd0, A1, A2, A3. cbn [len] in *.
  apply (replace_ok t m' zl za zL [(s, f)] [(n, f); (s - n - 8, true)] zR zr I); auto.
  - cbn [len]. lia.
  - intros s' f' [E|[E|[]]]; inv E; [split; [lia|split; [auto|lia]]|].
    split; [lia|]. split; [|lia]. apply mod8_sub; auto; [|lia]. apply mod8_sub; auto. lia.
  - fold a. cbn [len]. intros x X. apply F. lia.
  - fold a. cbn [seg]. split; [exact W1|]. split; [exact Ft1|]. split; [exact W2|]. split; [|exact Logic.I].
    intros _. replace (a + 8 + n + 8 + (s - n - 8)) with (a + 8 + s) by lia. exact Ft2.
  - fold a. cbn [len lastf]. replace (a + (s + 8 + 0) + 8) with (a + 8 + s + 8) by lia. exact Hd.
Qed.

Lemma inv_split : forall t zl za zL s f zR zr n, Inv t zl za zL [(s, f)] zR zr ->
  n mod 8 = 0 -> n + 32 <= s ->
  let a := za + len zL in
  exists m' q, block_split (mem t) a n = Ok (m', a + 8 + n) /\ same_dom (mem t) m' /\
    m' (a + 8) = Some (word n f (lastf false zL)) /\ m' (a + 8 + n + 8) = Some (word (s - n - 8) true q) /\
    m' (a + 8 + s) = Some (a + 8 + n) /\ m' (a + 8 + s + 8) = Some (word (hs zR) (hf zR) true) /\
    m' (a + 8 + n) <> None /\ (s - n - 8) mod 8 = 0 /\
    (forall x, x <> a + 8 -> x <> a + 8 + n + 8 -> x <> a + 8 + s -> x <> a + 8 + s + 8 -> m' x = mem t x).
Proof.
  intros t zl za zL s f zR zr n I N1 L a.
  destruct (inv_focus _ _ _ _ _ _ _ I) as (A1 & A2 & A3 & A3b & Sg & Hd0 & Hm & Sz & Dm).
  destruct (Sz s f (or_introl eq_refl)) as (S1 & S2 & S3). fold a in Dm, Sg, Hd0, A1, A2, A3. cbn [len seg lastf] in *.
  destruct Sg as (W & _). replace (a + (s + 8 + 0) + 8) with (a + 8 + s + 8) in Hd0 by lia.
  destruct (split_mem _ _ _ _ _ n _ _ _ W Hd0) as (m' & q & E & D & H1 & H2 & H3 & H4 & H5); auto; [lia| |].
  { intros x X1 X2 X3. apply Dm; auto. lia. }
  exists m', q. split; [exact E|]. split; [exact D|]. split; [exact H1|]. split; [exact H2|]. split; [exact H3|].
  split; [exact H4|]. split; [|split; [|exact H5]].
  - eapply same_dom_some; [exact D|]. apply Dm; [|lia|lia]. apply mod8_add; auto. apply mod8_add; auto.
  - apply mod8_sub; auto; [|lia]. apply mod8_sub; auto. lia.
Qed.

Lemma inv_word : forall t zl za zL s f zR zr, Inv t zl za zL [(s, f)] zR zr ->
  mem t (za + len zL + 8) = Some (word s f (lastf false zL)) /\ s mod 4 = 0 /\ s mod 8 = 0 /\ 24 <= s /\ s < 2 ^ 32.
Proof.
  intros t zl za zL s f zR zr I.
  destruct (inv_focus _ _ _ _ _ _ _ I) as (A1 & A2 & A3 & A3b & Sg & Hd0 & Hm & Sz & Dm).
  destruct (Sz s f (or_introl eq_refl)) as (S1 & S2 & S3). cbn [seg] in Sg. split; [tauto|].
  split; [apply mod8_4; auto|]. auto.
Qed.

(* what the blocks become when a free block of s bytes is cut after n bytes *)
Definition cut_to (s n : N) (zR : list blk) : N * list blk :=
  if 32 + n <=? s then (n, (s - n - 8, true) :: zR) else (s, zR).

Lemma can_split_ok : forall t zl za zL s f zR zr n, Inv t zl za zL [(s, f)] zR zr -> n < 2 ^ 33 ->
  block_can_split (mem t) (za + len zL) n = Ok (32 + n <=? s).
Proof.
  intros t zl za zL s f zR zr n I L. destruct (inv_word _ _ _ _ _ _ _ _ I) as (W & M4 & M8 & S1 & S2).
  unfold block_can_split. rewrite (p_size _ _ _ _ _ W M4). cbn [bind]. unfold block_header_size.
  rewrite wadd_small; [reflexivity|]. lia.
Qed.

Lemma trim_free_ok : forall t zl za zL s zR zr n, Inv t zl za zL [(s, true)] zR zr ->
  n mod 8 = 0 -> 24 <= n -> n <= s ->
  let s' := fst (cut_to s n zR) in let zR' := snd (cut_to s n zR) in
  exists t', block_trim_free t (za + len zL) n = Ok t' /\ nul t' = nul t /\ same_dom (mem t) (mem t') /\
    Inv t' zl za zL [(s', true)] zR' zr /\
    keeps (oth zl za zL [(s, true)] zR zr false) (mem t) (mem t').
Proof.
  intros t zl za zL s zR zr n I N1 N2 N3. destruct (inv_word _ _ _ _ _ _ _ _ I) as (W & M4 & M8 & S1 & S2).
  unfold block_trim_free, cut_to. rewrite (p_free _ _ _ _ _ W M4). cbn [bind contract].
  rewrite (can_split_ok _ _ _ _ _ _ _ _ n I) by lia. cbn [bind].
  destruct (N.leb_spec (32 + n) s) as [L|L]; cbn [fst snd].
  2: { exists t. split; [reflexivity|]. split; [reflexivity|]. split; [apply same_dom_refl|]. split; auto. apply keeps_refl. }
  destruct (inv_split _ _ _ _ _ _ _ _ n I N1 ltac:(lia)) as (m' & q & E & D & H1 & H2 & H3 & H4 & H5 & R8 & F).
  set (a := za + len zL) in *. rewrite E. cbn [bind].
  rewrite (p_link_next _ _ _ _ _ H1) by (auto using mod8_4; lia). cbn [bind].
  set (m1 := upd m' (a + 8 + n) a).
  assert (H2' : m1 (a + 8 + n + 8) = Some (word (s - n - 8) true q)) by (unfold m1; rewrite upd_other; auto; lia).
  rewrite (p_set_prev_free _ _ _ _ _ H2') by auto using mod8_4. cbn [bind].
  set (m2 := upd m1 (a + 8 + n + 8) (word (s - n - 8) true true)).
  assert (D2 : same_dom (mem t) m2).
  { eapply same_dom_trans; [exact D|]. apply same_dom_trans with m1; apply same_dom_upd; auto.
    rewrite H2'. discriminate. }
  destruct (cut_inv t zl za zL s true zR zr n m2 I N1 N2 ltac:(lia) D2) as [I' K'].
  { fold a. unfold m2, m1. rewrite !upd_other by lia. exact H1. }
  { fold a. unfold m2. apply upd_same. }
  { intros _. fold a. unfold m2, m1. rewrite upd_other by lia. apply upd_same. }
  { fold a. unfold m2, m1. rewrite !upd_other by lia. exact H3. }
  { fold a. unfold m2, m1. rewrite !upd_other by lia. exact H4. }
  { fold a. intros x X. unfold m2, m1. rewrite !upd_other by lia. apply F; lia. }
  change [(n, true); (s - n - 8, true)] with ([(n, true)] ++ [(s - n - 8, true)]) in I'.
  destruct (insert_right _ _ _ _ _ _ _ _ I') as (t' & E1 & Nu & D' & I'' & K'').
  cbn [len] in E1. fold a in E1. replace (a + (n + 8 + 0)) with (a + 8 + n) in E1 by lia.
  exists t'. split; [exact E1|]. split; [exact Nu|]. cbn [mem set_mem] in *. split; [eapply same_dom_trans; eauto|].
  split; [exact I''|]. eapply keeps_trans; [exact K'|]. eapply keeps_ext; [|exact K''].
  intros b z Ho. apply used_oth. unfold oth in *. cbn [len trip In] in *. fold a in Ho |- *.
  replace (a + (n + 8 + 0) + 8 + (s - n - 8)) with (a + (s + 8 + 0)) by lia. tauto.
Qed.

Lemma trim_leading_ok : forall t zl za zL s zR zr g, Inv t zl za zL [(s, true)] zR zr ->
  g mod 8 = 0 -> 32 <= g -> g + 32 <= s ->
  exists t', block_trim_free_leading t (za + len zL) g = Ok (t', za + len zL + g) /\
    nul t' = nul t /\ same_dom (mem t) (mem t') /\
    Inv t' zl za (zL ++ [(g - 8, true)]) [(s - g, true)] zR zr /\
    keeps (oth zl za zL [(s, true)] zR zr false) (mem t) (mem t').
Proof.
  intros t zl za zL s zR zr g I N1 N2 N3. destruct (inv_word _ _ _ _ _ _ _ _ I) as (W & M4 & M8 & S1 & S2).
  unfold block_trim_free_leading. rewrite (can_split_ok _ _ _ _ _ _ _ _ g I) by lia. cbn [bind].
  destruct (N.leb_spec (32 + g) s); [|lia]. unfold block_header_overhead.
  assert (G8 : (g - 8) mod 8 = 0) by (apply mod8_sub; auto; lia).
  destruct (inv_split _ _ _ _ _ _ _ _ (g - 8) I G8 ltac:(lia)) as (m' & q & E & D & H1 & H2 & H3 & H4 & H5 & R8 & F).
  set (a := za + len zL) in *. set (n := g - 8) in *. rewrite E. cbn [bind].
  rewrite (p_set_prev_free _ _ _ _ _ H2) by auto using mod8_4. cbn [bind].
  set (m1 := upd m' (a + 8 + n + 8) (word (s - n - 8) true true)).
  assert (H1' : m1 (a + 8) = Some (word n true (lastf false zL))) by (unfold m1; rewrite upd_other; auto; lia).
  assert (H5' : m1 (a + 8 + n) <> None) by (unfold m1; rewrite upd_other; auto; lia).
  rewrite (p_link_next _ _ _ _ _ H1') by (auto using mod8_4; lia). cbn [bind].
  set (m2 := upd m1 (a + 8 + n) a).
  assert (D2 : same_dom (mem t) m2).
  { eapply same_dom_trans; [exact D|]. apply same_dom_trans with m1; apply same_dom_upd; auto.
    rewrite H2. discriminate. }
  destruct (cut_inv t zl za zL s true zR zr n m2 I G8 ltac:(lia) ltac:(lia) D2) as [I' K'].
  { fold a. unfold m2. rewrite upd_other by lia. exact H1'. }
  { fold a. unfold m2, m1. rewrite upd_other by lia. apply upd_same. }
  { intros _. fold a. unfold m2. apply upd_same. }
  { fold a. unfold m2, m1. rewrite !upd_other by lia. exact H3. }
  { fold a. unfold m2, m1. rewrite !upd_other by lia. exact H4. }
  { fold a. intros x X. unfold m2, m1. rewrite !upd_other by lia. apply F; lia. }
  destruct (insert_left _ _ _ _ _ _ _ _ I') as (t' & E1 & Nu & D' & I'' & K'').
  fold a in E1. rewrite E1. cbn [bind]. exists t'. replace (a + 8 + n) with (a + g) by lia.
  split; [reflexivity|]. split; [exact Nu|]. cbn [mem set_mem] in *. split; [eapply same_dom_trans; eauto|].
  replace (s - n - 8) with (s - g) in I'' by lia. split; [exact I''|].
  eapply keeps_trans; [exact K'|]. eapply keeps_ext; [|exact K''].
  intros b z Ho. apply used_oth. apply oth_used_left. unfold oth in *. cbn [len trip In] in *. fold a in Ho |- *.
  replace (a + (n + 8 + (s - n - 8 + 8 + 0))) with (a + (s + 8 + 0)) by lia. tauto.
Qed.

(* ---- merging with free neighbours ---- *)
Lemma merge_next_ok : forall t zl za zL s zR zr, Inv t zl za zL [(s, true)] zR zr ->
  let s' := match zR with (s2, true) :: _ => s + s2 + 8 | _ => s end in
  let zR' := match zR with (_, true) :: zR' => zR' | _ => zR end in
  exists t', block_merge_next t (za + len zL) = Ok t' /\ nul t' = nul t /\ same_dom (mem t) (mem t') /\
    Inv t' zl za zL [(s', true)] zR' zr /\
    keeps (oth zl za zL [(s, true)] zR zr false) (mem t) (mem t').
Proof.
  intros t zl za zL s zR zr I. destruct (inv_word _ _ _ _ _ _ _ _ I) as (W & M4 & M8 & S1 & S2).
  destruct (inv_focus _ _ _ _ _ _ _ I) as (A1 & A2 & A3 & A3b & Sg & Hd0 & Hm & Sz & Dm). cbn [len seg lastf] in *.
  unfold block_merge_next. rewrite (p_next _ _ _ _ _ W M4) by lia. cbn [bind].
  destruct (N.eqb_spec (za + len zL + 8 + s) 0); [lia|]. cbn [negb contract bind].
  replace (za + len zL + (s + 8 + 0) + 8) with (za + len zL + 8 + s + 8) in Hd0 by lia.
  rewrite (p_free _ _ _ _ _ Hd0 Hm). cbn [bind].
  destruct zR as [|[s2 f2] zR]; [|destruct f2]; cbn [hf hd snd].
  1, 3: exists t; split; [reflexivity|]; split; [reflexivity|]; split; [apply same_dom_refl|]; split; [exact I|]; apply keeps_refl.
  rewrite (p_last _ _ _ _ _ W M4). cbn [bind]. destruct (N.eqb_spec s 0); [lia|]. cbn [negb contract bind].
  destruct (remove_right _ _ _ _ _ _ _ _ I) as (t1 & E1 & Nu & D1 & I1 & _ & K1).
  cbn [len] in E1. replace (za + len zL + (s + 8 + 0)) with (za + len zL + 8 + s) in E1 by lia.
  rewrite E1. cbn [bind app] in *.
  destruct (absorb_ok _ _ _ _ _ _ _ _ I1) as (m' & E2 & D2 & I2 & K2). rewrite E2. cbn [bind].
  exists (set_mem t1 m'). split; [reflexivity|]. split; [exact Nu|]. cbn [mem set_mem].
  split; [eapply same_dom_trans; eauto|]. split; [exact I2|].
  eapply keeps_trans; [|eapply keeps_ext; [|exact K2]].
  - eapply keeps_ext; [|exact K1]. intros b z Ho. apply used_oth. exact Ho.
  - intros b z Ho. apply oth_used_right in Ho. exact Ho.
Qed.

Lemma prev_shape : forall zL, lastf false zL = true -> exists zL' sp, zL = zL' ++ [(sp, true)].
Proof.
  intros zL. destruct zL as [|b zL] using rev_ind; [discriminate|]. clear IHzL. intro H.
  assert (E : forall l pf q, lastf pf (l ++ [q]) = snd q).
  { induction l as [|[s f] l IH]; intros pf [s' f']; cbn; auto. apply IH. }
  rewrite E in H. destruct b as [sp f]. cbn in H. subst f. eauto.
Qed.
Lemma lastf_app1 : forall l pf s f, lastf pf (l ++ [(s, f)]) = f.
Proof. induction l as [|[s0 f0] l IH]; intros pf s f; cbn; auto. Qed.

Lemma merge_prev_ok : forall t zl za zL s zR zr, Inv t zl za zL [(s, true)] zR zr ->
  exists t' zL' s', block_merge_prev t (za + len zL) = Ok (t', za + len zL') /\
    ((lastf false zL = false /\ zL' = zL /\ s' = s) \/
     (exists sp, zL = zL' ++ [(sp, true)] /\ s' = sp + s + 8)) /\
    nul t' = nul t /\ same_dom (mem t) (mem t') /\
    Inv t' zl za zL' [(s', true)] zR zr /\
    keeps (oth zl za zL [(s, true)] zR zr false) (mem t) (mem t').
Proof.
  intros t zl za zL s zR zr I. destruct (inv_word _ _ _ _ _ _ _ _ I) as (W & M4 & M8 & S1 & S2).
  unfold block_merge_prev. rewrite (p_prev_free _ _ _ _ _ W M4). cbn [bind].
  destruct (lastf false zL) eqn:Lf.
  2: { exists t, zL, s. split; [reflexivity|]. split; [auto|]. split; [reflexivity|].
       split; [apply same_dom_refl|]. split; [exact I|apply keeps_refl]. }
  destruct (prev_shape _ Lf) as (zL' & sp & ->).
  pose proof I as (S & G & Ly & _).
  pose proof (Ly _ _ (zp_in _ _ _ _ _ _)) as Ph. apply phys_app in Ph. destruct Ph as [P1 _].
  apply seg_app in P1. destruct P1 as [_ P1]. cbn [seg] in P1. destruct P1 as (Wp & Fp & _).
  rewrite len_app in *. cbn [len] in *.
  assert (Sp : 24 <= sp /\ sp mod 8 = 0 /\ sp < 2 ^ 32).
  { apply (S _ _ sp true (zp_in _ _ _ _ _ _)). apply in_or_app. left. apply in_or_app. right. left. reflexivity. }
  assert (Ap : za <> 0). { destruct (proj1 G _ _ (skel_in _ _ _ (zp_in _ _ _ _ _ _))) as (_ & Z & _). exact Z. }
  unfold block_prev. rewrite (p_prev_free _ _ _ _ _ W M4). cbn [bind contract]. unfold f_prev_phys.
  replace (za + (len zL' + (sp + 8 + 0))) with (za + len zL' + 8 + sp) in * by lia.
  rewrite (rd_some _ _ _ (Fp eq_refl)). cbn [bind].
  destruct (N.eqb_spec (za + len zL') 0); [lia|]. cbn [negb contract bind].
  rewrite (p_free _ _ _ _ _ Wp) by (apply mod8_4; tauto). cbn [contract bind].
  destruct (remove_left _ _ _ _ _ _ _ _ I) as (t1 & E1 & Nu & D1 & I1 & K1). rewrite E1. cbn [bind].
  destruct (absorb_ok _ _ _ _ _ _ _ _ I1) as (m' & E2 & D2 & I2 & K2). rewrite E2. cbn [bind].
  exists (set_mem t1 m'), zL', (sp + s + 8). split; [reflexivity|]. split; [eauto|]. split; [exact Nu|].
  cbn [mem set_mem]. split; [eapply same_dom_trans; eauto|]. split; [exact I2|].
  eapply keeps_trans; [|eapply keeps_ext; [|exact K2]].
  - eapply keeps_ext; [|exact K1]. intros b z Ho. apply used_oth. exact Ho.
  - intros b z Ho. exact (proj1 (oth_used_left _ _ _ _ _ _ _ _ _) Ho).
Qed.

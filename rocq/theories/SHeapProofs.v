From Coq Require Import NArith Arith List Bool Lia.
From Verif Require Import Base OwnHeap Sha1Model StrModel SboModel SboSpec SboProofs SHeapModel SHeapSpec.
Import ListNotations.
Open Scope nat_scope.

Lemma obind : forall A B (a : outcome A) (f : A -> outcome B) y, bind a f = Ok y -> exists x, a = Ok x /\ f x = Ok y.
Proof. intros A B [x| | |] f y H; cbn in H; try discriminate. eauto. Qed.
Lemma block_Ok : forall h b x, block h b = Ok x <-> nth_error h b = Some (Some x).
Proof. unfold block. intros. destruct (nth_error h b) as [[|]|]; split; intro H; try discriminate; congruence. Qed.

(* ---- what a function may do to the heap on behalf of one string ---- *)
Definition fits_in (h : heap) (s : hstr) : Prop := forall b, hp s = PBlk b -> b < length h.
Definition local (h : heap) (s : hstr) (h' : heap) (s' : hstr) : Prop :=
  length h <= length h' /\
  (forall b, b < length h -> hp s <> PBlk b -> nth_error h' b = nth_error h b) /\
  (forall b, hp s = PBlk b -> hp s' <> PBlk b -> nth_error h' b = Some None) /\
  (forall b, length h <= b -> b < length h' -> hp s' <> PBlk b -> nth_error h' b = Some None) /\
  (forall b, hp s' = PBlk b -> hp s = PBlk b \/ length h <= b).
Lemma load_fits : forall h s v, load h s = Ok v -> fits_in h s.
Proof.
  unfold load, fits_in. intros h s v H b E. rewrite E in H. apply obind in H. destruct H as (x & H & _). apply block_Ok in H.
  apply nth_error_Some. congruence.
Qed.
Lemma local_refl : forall h s s', hp s' = hp s -> local h s h s'.
Proof.
  intros h s s' E. split; [lia|]. split; [auto|]. split; [intros b A B; congruence|]. split; [intros; lia|].
  intros b A. left. congruence.
Qed.
Lemma hptr_dec : forall p q : hptr, {p = q} + {p <> q}.
Proof. decide equality. apply Nat.eq_dec. Qed.
Lemma local_trans : forall h s h1 s1 h2 s2, fits_in h s -> local h s h1 s1 -> local h1 s1 h2 s2 -> local h s h2 s2.
Proof.
  intros h s h1 s1 h2 s2 F (A1 & A2 & A3 & A4 & A5) (B1 & B2 & B3 & B4 & B5). split; [lia|]. split; [|split; [|split]].
  - intros b L N. rewrite <- (A2 b L N). apply B2; [lia|]. intro E. destruct (A5 b E); [auto|lia].
  - intros b E N. specialize (F b E). destruct (hptr_dec (hp s1) (PBlk b)) as [O|O]; [now apply B3|].
    rewrite B2; auto. lia.
  - intros b L1 L2 N. destruct (hptr_dec (hp s1) (PBlk b)) as [O|O]; [now apply B3|].
    destruct (Nat.lt_ge_cases b (length h1)); [|now apply B4]. rewrite B2; auto.
  - intros b E. destruct (B5 b E) as [E1|L]; [auto|right; lia].
Qed.

(* ---- one string: a step of the heap model follows a step of the model without heap ---- *)
Definition Sim (h : heap) (s : hstr) (r : outcome (heap * hstr)) (rv : outcome sbo) : Prop :=
  forall v', rv = Ok v' -> exists h' s', r = Ok (h', s') /\ load h' s' = Ok v' /\ local h s h' s'.

Lemma load_facts : forall h s v, load h s = Ok v ->
  hsz s = ssz v /\ hun s = un v /\ hshort s = is_short v /\ hbuf h s = buffer v /\ (forall sc, hcap sc s = capacity sc v).
Proof.
  intros h [p n u] v H. unfold load, hshort, is_short, hbuf, buffer, hcap, capacity, is_short, hshort in *. cbn in *.
  destruct p as [|b|].
  - injection H as <-. cbn. auto.
  - apply obind in H. destruct H as (x & Hx & H). injection H as <-. cbn. auto.
  - injection H as <-. cbn. auto.
Qed.
Lemma Sim_ret : forall h s v, load h s = Ok v -> Sim h s (Ok (h, s)) (Ok v).
Proof. intros h s v L v' E. injection E as <-. exists h, s. split; [auto|]. split; [auto|]. now apply local_refl. Qed.
Lemma Sim_bind : forall h s r rv k kv, fits_in h s -> Sim h s r rv ->
  (forall h1 s1 v1, load h1 s1 = Ok v1 -> local h s h1 s1 -> Sim h1 s1 (k h1 s1) (kv v1)) ->
  Sim h s (bind r (fun p => let (h, s) := p in k h s)) (bind rv kv).
Proof.
  intros h s r rv k kv F H K v' E. apply obind in E. destruct E as (v1 & E1 & E2). destruct (H v1 E1) as (h1 & s1 & -> & L1 & T1). cbn [bind].
  destruct (K h1 s1 v1 L1 T1 v' E2) as (h2 & s2 & -> & L2 & T2). exists h2, s2. split; [auto|]. split; [auto|].
  eapply local_trans; eauto.
Qed.
(* both sides compute the same pure thing *)
Lemma Sim_pure : forall A h s (a : outcome A) k kv, (forall x, a = Ok x -> Sim h s (k x) (kv x)) -> Sim h s (bind a k) (bind a kv).
Proof. intros A h s a k kv H v' E. apply obind in E. destruct E as (x & E1 & E2). rewrite E1. cbn [bind]. exact (H x E1 v' E2). Qed.

Lemma local_lset : forall h s b x s', hp s = PBlk b -> hp s' = PBlk b -> local h s (lset h b x) s'.
Proof.
  intros h s b x s' E E'. split; [rewrite lset_length; lia|]. split; [|split; [|split]].
  - intros c L N. apply lset_nth_neq. congruence.
  - intros c O N. congruence.
  - intros c L1 L2. rewrite lset_length in L2. lia.
  - intros c O. left. congruence.
Qed.
Lemma load_lset : forall h s b x y, hp s = PBlk b -> nth_error h b = Some y -> load (lset h b (Some x)) s = Ok (mkS (LHeap x) (hsz s) (hun s)).
Proof.
  intros h s b x y E N. unfold load. rewrite E. unfold block. rewrite lset_nth_eq; [reflexivity|]. apply nth_error_Some. congruence.
Qed.
Lemma Sim_put : forall h s v b n, load h s = Ok v -> (exists x, buffer v = Ok x) -> Sim h s (hput h s b n) (Ok (put v b n)).
Proof.
  intros h [p n0 u] v b n L (x & B) v' E. injection E as <-. unfold load, hput in *. cbn in *. destruct p as [|k|].
  - injection L as <-. exists h, (mkH PSbo n b). split; [auto|]. split; [reflexivity|]. now apply local_refl.
  - apply obind in L. destruct L as (y & Hy & L). injection L as <-. rewrite Hy. cbn [bind].
    exists (lset h k (Some b)), (mkH (PBlk k) n u). split; [auto|]. apply block_Ok in Hy. split.
    + unfold load. cbn. unfold block. rewrite lset_nth_eq; [reflexivity|]. apply nth_error_Some. congruence.
    + now apply local_lset.
  - injection L as <-. discriminate.
Qed.
(* in_place functions leave _data alone *)
Definition stays (v v' : sbo) : Prop :=
  match loc v, loc v' with LSbo, LSbo | LHeap _, LHeap _ => True | _, _ => False end.
Lemma Sim_in_place : forall f h s v, load h s = Ok v -> (forall v', f v = Ok v' -> stays v v') -> Sim h s (in_place f h s) (f v).
Proof.
  intros f h [p n u] v L K v' E. specialize (K v' E). unfold in_place. rewrite L. cbn [bind]. rewrite E. cbn [bind].
  destruct v' as [l' n' u']. unfold load, store, stays in *. cbn in *. destruct p as [|b|].
  - injection L as <-. cbn in K. destruct l'; try easy. eexists _, _. split; [reflexivity|]. split; [reflexivity|]. now apply local_refl.
  - apply obind in L. destruct L as (y & Hy & L). injection L as <-. cbn in K. destruct l' as [|x|]; try easy. rewrite Hy. cbn [bind].
    eexists _, _. split; [reflexivity|]. apply block_Ok in Hy. split.
    + unfold load. cbn. unfold block. rewrite lset_nth_eq; [reflexivity|]. apply nth_error_Some. congruence.
    + now apply local_lset.
  - injection L as <-. cbn in K. easy.
Qed.

(* delete[] of the own block *)
Lemma free_ok : forall h s v, load h s = Ok v -> exists h', free h s = Ok h' /\ length h' = length h /\
  (forall b, b < length h -> hp s <> PBlk b -> nth_error h' b = nth_error h b) /\ (forall b, hp s = PBlk b -> nth_error h' b = Some None).
Proof.
  intros h [p n u] v L. unfold free, hshort, load in *. cbn in *. destruct p as [|b|].
  - exists h. repeat split; auto. intros b E. discriminate.
  - apply obind in L. destruct L as (y & Hy & L). cbn [delete]. rewrite Hy. cbn [bind]. eexists. split; [reflexivity|].
    apply block_Ok in Hy. assert (b < length h) by (apply nth_error_Some; congruence).
    split; [apply lset_length|]. split; intros c.
    + intros _ N. apply lset_nth_neq. congruence.
    + intros E. injection E as <-. now apply lset_nth_eq.
  - exists h. cbn. repeat split; auto. intros b E. discriminate.
Qed.
Lemma free_local : forall h s v s', load h s = Ok v -> (forall b, hp s' <> PBlk b) -> exists h', free h s = Ok h' /\ local h s h' s' /\ length h' = length h.
Proof.
  intros h s v s' L N. destruct (free_ok h s v L) as (h' & E & Ln & A & B). exists h'. split; [auto|]. split; [|auto].
  split; [lia|]. split; [exact A|]. split; [intros b O _; now apply B|]. split; [intros; lia|]. intros b O. destruct (N b O).
Qed.
Lemma free_alloc : forall h s v x, load h s = Ok v -> exists h', free h s = Ok h' /\
  forall n u, local h s (h' ++ [Some x]) (mkH (PBlk (length h')) n u) /\ load (h' ++ [Some x]) (mkH (PBlk (length h')) n u) = Ok (mkS (LHeap x) n u).
Proof.
  intros h s v x L. pose proof (load_fits _ _ _ L) as F. destruct (free_ok h s v L) as (h' & E & Ln & A & B). exists h'. split; [auto|]. intros n u. split.
  - split; [rewrite app_length; cbn; lia|]. split; [|split; [|split]].
    + intros b Lb N. rewrite nth_error_app1 by lia. now apply A.
    + intros b O _. rewrite nth_error_app1 by (rewrite Ln; now apply F). now apply B.
    + intros b L1 L2 N. rewrite app_length in L2. cbn in L2, N. assert (b = length h') by lia. subst. congruence.
    + intros b O. cbn in O. injection O as <-. right. lia.
  - unfold load. cbn. unfold block. rewrite nth_app_new. reflexivity.
Qed.
Lemma alloc_free : forall h s v x, load h s = Ok v -> exists h', free (h ++ [Some x]) s = Ok h' /\
  forall n u, local h s h' (mkH (PBlk (length h)) n u) /\ load h' (mkH (PBlk (length h)) n u) = Ok (mkS (LHeap x) n u).
Proof.
  intros h s v x L. pose proof (load_fits _ _ _ L) as F.
  assert (L2 : load (h ++ [Some x]) s = Ok v).
  { unfold load, block in *. destruct (hp s) as [|b|] eqn:E; auto. rewrite nth_error_app1 by (now apply F). exact L. }
  destruct (free_ok _ s v L2) as (h' & E & Ln & A & B). rewrite app_length in Ln, A. cbn in Ln, A. exists h'. split; [auto|]. intros n u. split.
  - split; [lia|]. split; [|split; [|split]].
    + intros b Lb N. rewrite A by (auto; lia). rewrite nth_error_app1 by lia. reflexivity.
    + intros b O _. now apply B.
    + intros b L1 L3 N. cbn in N. assert (b = length h) by lia. subst. congruence.
    + intros b O. cbn in O. injection O as <-. right. lia.
  - unfold load. cbn. unfold block. rewrite A. { rewrite nth_app_new. reflexivity. } { lia. }
    intro O. specialize (F _ O). lia.
Qed.
Lemma Sim_adopt : forall h s v x n c, load h s = Ok v -> Sim h s (adopt h s x n c) (Ok (set_heap v x n c)).
Proof.
  intros h s v x n c L v' E. injection E as <-. unfold adopt, alloc. destruct (alloc_free h s v x L) as (h' & -> & K). cbn [bind].
  destruct (K n (write_cap c (hun s))) as (K1 & K2). eexists _, _. split; [reflexivity|]. split; [|exact K1].
  rewrite K2. unfold set_heap. destruct (load_facts _ _ _ L) as (_ & -> & _). reflexivity.
Qed.

(* arguments *)
Definition same_arg (h : heap) (a : harg) (g : sarg) : Prop :=
  match a, g with
  | HVal l, SVal l' => l = l'
  | HOwn o n, SOwn o' n' => o = o' /\ n = n'
  | HOther x o n, SVal l => n = N.of_nat (length l) /\ exists c, hbuf h x = Ok c /\ bread c o n = Ok (map Some l)
  | _, _ => False
  end.
Lemma same_len : forall h a g, same_arg h a g -> hlen a = slen g.
Proof. intros h [l|o n|x o n] [l'|o' n'] H; cbn in *; try easy; try (now subst); tauto. Qed.
Lemma same_read : forall h a g b, same_arg h a g -> hread h b a = sread b g.
Proof.
  intros h [l|o n|x o n] [l'|o' n'] b H; cbn in *; try easy; [now subst|now destruct H; subst|].
  destruct H as (_ & c & -> & B). exact B.
Qed.
Lemma same_memcpy : forall h a g b d, same_arg h a g -> hmemcpy h b d a = memcpy_in b d g.
Proof.
  intros h [l|o n|x o n] [l'|o' n'] b d H; cbn in *; try easy; [now subst|now destruct H; subst|].
  destruct H as (_ & c & -> & B). cbn [bind]. rewrite B. reflexivity.
Qed.

Section P.
  Variable sc : N.

  Ltac facts L := let Z := fresh "Z" in let U := fresh "U" in let Sh := fresh "Sh" in let Bu := fresh "Bu" in let Ca := fresh "Ca" in
    destruct (load_facts _ _ _ L) as (Z & U & Sh & Bu & Ca); rewrite ?Z, ?U, ?Sh, ?Bu, ?Ca in *.

  Lemma reserve_force_sim : forall h s v nc, load h s = Ok v -> Sim h s (hreserve_force h s nc) (reserve_force v nc).
  Proof.
    intros h s v nc L. unfold hreserve_force, reserve_force. facts L.
    apply Sim_pure; intros b _. apply Sim_pure; intros o _. apply Sim_pure; intros nb _. now apply Sim_adopt.
  Qed.
  Lemma reserve_sim : forall h s v n, load h s = Ok v -> Sim h s (hreserve sc h s n) (reserve sc v n).
  Proof.
    intros h s v n L. unfold hreserve, reserve. facts L. apply Sim_pure; intros c _. destruct (n <=? c)%N; [now apply Sim_ret|now apply reserve_force_sim].
  Qed.
  Lemma init_load : forall h, load h (hinit sc) = Ok (sinit sc).
  Proof. reflexivity. Qed.
  Lemma uninit_sim : forall h n, Sim h (hinit sc) (huninitialized sc h n) (uninitialized sc n).
  Proof.
    intros h n. unfold huninitialized, uninitialized. apply Sim_bind; [eapply load_fits, init_load|apply reserve_sim, init_load|].
    intros h1 s1 v1 L _. facts L. apply Sim_pure; intros b B. apply Sim_pure; intros b2 _. apply Sim_put; eauto.
  Qed.
  Lemma push_back_sim : forall h s v c, load h s = Ok v -> Sim h s (hpush_back sc h s c) (push_back sc v c).
  Proof.
    intros h s v c L. unfold hpush_back, push_back. facts L. apply Sim_pure; intros cap _. apply Sim_bind; [eapply load_fits; eauto| |].
    - destruct (ssz v =? cap)%N; [now apply reserve_force_sim|now apply Sim_ret].
    - intros h1 s1 v1 L1 _. facts L1. apply Sim_pure; intros b B. apply Sim_pure; intros b2 _. apply Sim_pure; intros b3 _. apply Sim_put; eauto.
  Qed.
  Lemma resize_sim : forall h s v n c, load h s = Ok v -> Sim h s (hresize sc h s n c) (resize sc v n c).
  Proof.
    intros h s v n c L. unfold hresize, resize. apply Sim_bind; [eapply load_fits; eauto|now apply reserve_sim|].
    intros h1 s1 v1 L1 _. facts L1. apply Sim_pure; intros b B. apply Sim_pure; intros b2 _. apply Sim_pure; intros b3 _. apply Sim_put; eauto.
  Qed.
  Lemma clear_sim : forall h s v, load h s = Ok v -> Sim h s (hclear h s) (Ok (clear v)).
  Proof.
    intros h s v L v' E. injection E as <-. unfold hclear. destruct (free_local h s v (mkH PSbo 0 (write_cap 0 (hun s))) L) as (h' & -> & T & _); [discriminate|].
    cbn [bind]. eexists _, _. split; [reflexivity|]. split; [|exact T]. unfold load, clear. cbn. destruct (load_facts _ _ _ L) as (_ & -> & _). reflexivity.
  Qed.
  Lemma to_inline : forall h s v n u, load h s = Ok v -> Sim h s (let! h := free h s in Ok (h, mkH PSbo n u)) (Ok (mkS LSbo n u)).
  Proof.
    intros h s v n u L v' E. injection E as <-. destruct (free_local h s v (mkH PSbo n u) L) as (h' & -> & T & _); [discriminate|].
    cbn [bind]. eexists _, _. split; [reflexivity|]. split; [reflexivity|exact T].
  Qed.
  Lemma shrink_sim : forall h s v, load h s = Ok v -> Sim h s (hshrink sc h s) (shrink_to_fit sc v).
  Proof.
    intros h s v L. unfold hshrink, shrink_to_fit. facts L. destruct (is_short v); [now apply Sim_ret|].
    apply Sim_pure; intros c _. destruct (ssz v =? c)%N; [now apply Sim_ret|]. destruct (ssz v <=? sc)%N.
    - apply Sim_pure; intros b B. apply Sim_pure; intros o _. apply Sim_pure; intros u' _. eapply to_inline; eauto.
    - apply Sim_pure; intros b B. apply Sim_pure; intros o _. apply Sim_pure; intros u' _. now apply Sim_adopt.
  Qed.
  Lemma fill_sim : forall h s v c n, load h s = Ok v -> Sim h s (hfill sc h s c n) (fill sc v c n).
  Proof.
    intros h s v c n L. unfold hfill, fill. set (m := match n with Some n => n | None => SIZE_MAX end). facts L. apply Sim_pure; intros cap _.
    apply Sim_bind; [eapply load_fits; eauto| |].
    - destruct (m <=? cap)%N; [apply Sim_pure; intros b B; apply Sim_pure; intros b2 _; apply Sim_put; eauto|].
      destruct (negb (m =? SIZE_MAX)%N); [|now apply Sim_ret].
      intros v' E. apply obind in E. destruct E as (x & E1 & E). apply obind in E. destruct E as (b & E2 & E). injection E as <-.
      destruct (free_alloc h s v b L) as (h' & -> & K). cbn [bind]. rewrite E1. cbn [bind]. rewrite E2. cbn [bind alloc].
      destruct (K m (write_cap m (un v))) as (K1 & K2). eexists _, _. split; [reflexivity|]. split; [exact K2|exact K1].
    - intros h1 s1 v1 L1 _. facts L1. apply Sim_pure; intros b B. apply Sim_pure; intros b2 _. apply Sim_put; eauto.
  Qed.
  Lemma pad_start_sim : forall h s v n c, load h s = Ok v -> Sim h s (hpad_start sc h s n c) (pad_start sc v n c).
  Proof.
    intros h s v n c L. unfold hpad_start, pad_start. facts L. destruct (n <=? ssz v)%N; [now apply Sim_ret|].
    apply Sim_bind; [eapply load_fits; eauto|now apply reserve_sim|].
    intros h1 s1 v1 L1 _. facts L1. apply Sim_pure; intros b B. apply Sim_pure; intros b2 _. apply Sim_pure; intros b3 _. apply Sim_pure; intros b4 _. apply Sim_put; eauto.
  Qed.
  Lemma pad_end_sim : forall h s v n c, load h s = Ok v -> Sim h s (hpad_end sc h s n c) (pad_end sc v n c).
  Proof.
    intros h s v n c L. unfold hpad_end, pad_end. facts L. destruct (n <=? ssz v)%N; [now apply Sim_ret|].
    apply Sim_bind; [eapply load_fits; eauto|now apply reserve_sim|].
    intros h1 s1 v1 L1 _. facts L1. apply Sim_pure; intros b B. apply Sim_pure; intros b2 _. apply Sim_pure; intros b3 _. apply Sim_put; eauto.
  Qed.
  Lemma replace_sim : forall h s v pos cnt a g, load h s = Ok v -> same_arg h a g -> Sim h s (hreplace sc h s pos cnt a) (replace sc v pos cnt g).
  Proof.
    intros h s v pos cnt a g L G. unfold hreplace, replace. facts L. rewrite (same_len _ _ _ G).
    apply Sim_pure; intros _ _. apply Sim_pure; intros _ _. apply Sim_pure; intros b B. destruct (cnt =? slen g)%N.
    - rewrite (same_memcpy _ _ _ _ _ G). apply Sim_pure; intros b2 _. apply Sim_put; eauto.
    - apply Sim_pure; intros cap _. destruct (cap <? wadd 64 (wsub 64 (ssz v) cnt) (slen g))%N.
      + apply Sim_pure; intros x1 _. apply Sim_pure; intros n1 _. rewrite (same_read _ _ _ _ G).
        do 5 (apply Sim_pure; intros ? _). now apply Sim_adopt.
      + apply Sim_pure; intros b2 _. rewrite (same_memcpy _ _ _ _ _ G). do 2 (apply Sim_pure; intros ? _). apply Sim_put; eauto.
  Qed.
  Lemma append_sim : forall h s v a g, load h s = Ok v -> same_arg h a g -> Sim h s (happend sc h s a) (append sc v g).
  Proof.
    intros h s v a g L G. unfold happend, append. facts L. rewrite (same_len _ _ _ G).
    apply Sim_pure; intros cap _. apply Sim_pure; intros b B. destruct (wadd 64 (ssz v) (slen g) <=? cap)%N.
    - rewrite (same_memcpy _ _ _ _ _ G). do 2 (apply Sim_pure; intros ? _). apply Sim_put; eauto.
    - do 3 (apply Sim_pure; intros ? _). rewrite (same_read _ _ _ _ G). do 3 (apply Sim_pure; intros ? _). now apply Sim_adopt.
  Qed.
  Lemma replace_loop_sim : forall fuel h s v i old new, load h s = Ok v -> Sim h s (hreplace_loop sc fuel h s i old new) (replace_loop sc fuel v i old new).
  Proof.
    induction fuel as [|fuel IH]; intros h s v i old new L; cbn [hreplace_loop replace_loop].
    - intros v' E. discriminate.
    - facts L. destruct (wadd 64 i (N.of_nat (length old)) <=? ssz v)%N; [|now apply Sim_ret].
      rewrite L. cbn [bind]. do 3 (apply Sim_pure; intros ? _). match goal with |- Sim _ _ (if ?b then _ else _) _ => destruct b end.
      + apply Sim_bind; [eapply load_fits; eauto|now apply replace_sim|]. intros h1 s1 v1 L1 _. now apply IH.
      + now apply IH.
  Qed.
  Lemma replace_all_sim : forall h s v old new, load h s = Ok v -> Sim h s (hreplace_all sc h s old new) (replace_all sc v old new).
  Proof.
    intros h s v old new L. unfold hreplace_all, replace_all. facts L. apply Sim_pure; intros _ _.
    destruct (ssz v <? N.of_nat (length old))%N; [now apply Sim_ret|now apply replace_loop_sim].
  Qed.

  (* ---- new strings out of others ---- *)
  Definition apart (r s : hstr) : Prop := forall b, hp r = PBlk b -> hp s <> PBlk b.
  Lemma frame : forall h r h' r' s v, local h r h' r' -> load h s = Ok v -> apart r s -> load h' s = Ok v /\ apart r' s.
  Proof.
    intros h r h' r' s v (A1 & A2 & A3 & A4 & A5) L D. pose proof (load_fits _ _ _ L) as F. split.
    - unfold load in *. destruct (hp s) as [|b|] eqn:E; auto. unfold block in *. rewrite A2; auto. intros O. apply (D b O). exact E.
    - intros b O E. specialize (F b E). destruct (A5 b O) as [O2|]; [|lia]. now apply (D b O2).
  Qed.
  Lemma apart_init : forall s, apart (hinit sc) s.
  Proof. intros s b E. discriminate. Qed.
  Lemma mapped_sim : forall h f s v, load h s = Ok v -> Sim h (hinit sc) (hmapped sc h f s) (mapped sc f v).
  Proof.
    intros h f s v L. unfold hmapped, mapped. destruct (load_facts _ _ _ L) as (Z & _). rewrite Z.
    apply Sim_bind; [eapply load_fits, init_load|apply uninit_sim|]. intros h1 r vr Lr T.
    destruct (frame _ _ _ _ _ _ T L (apart_init s)) as (L1 & _). facts L1. facts Lr.
    apply Sim_pure; intros src _. apply Sim_pure; intros dst B. apply Sim_pure; intros b _. apply Sim_put; eauto.
  Qed.
  Lemma capitalized_sim : forall h s v, load h s = Ok v -> Sim h (hinit sc) (hcapitalized sc h s) (capitalized sc v).
  Proof.
    intros h s v L. unfold hcapitalized, capitalized. destruct (load_facts _ _ _ L) as (Z & _). rewrite Z.
    apply Sim_bind; [eapply load_fits, init_load|apply uninit_sim|]. intros h1 r vr Lr T.
    destruct (frame _ _ _ _ _ _ T L (apart_init s)) as (L1 & _). facts L1. facts Lr.
    apply Sim_pure; intros src _. apply Sim_pure; intros dst B. do 2 (apply Sim_pure; intros ? _). apply Sim_put; eauto.
  Qed.
  Lemma replaced_sim : forall h s v pos cnt l, load h s = Ok v -> Sim h (hinit sc) (hreplaced sc h s pos cnt l) (replaced sc v pos cnt (SVal l)).
  Proof.
    intros h s v pos cnt l L. unfold hreplaced, replaced. destruct (load_facts _ _ _ L) as (Z & _ & _ & Bu & _). rewrite Z, Bu. cbn [slen sread].
    do 2 (apply Sim_pure; intros _ _). apply Sim_pure; intros b0 B0.
    apply Sim_bind; [eapply load_fits, init_load|apply uninit_sim|]. intros h1 r vr Lr T.
    destruct (frame _ _ _ _ _ _ T L (apart_init s)) as (L1 & _). facts L1. facts Lr. rewrite B0. cbn [bind].
    apply Sim_pure; intros dst B. do 5 (apply Sim_pure; intros ? _). apply Sim_put; eauto.
  Qed.
  Lemma concat_sim : forall h l s v, load h s = Ok v -> Sim h (hinit sc) (hconcat sc h l s) (concat_front sc l v).
  Proof.
    intros h l s v L. unfold hconcat, concat_front. destruct (load_facts _ _ _ L) as (Z & _). rewrite Z.
    apply Sim_bind; [eapply load_fits, init_load|apply uninit_sim|]. intros h1 r vr Lr T.
    destruct (frame _ _ _ _ _ _ T L (apart_init s)) as (L1 & _). facts L1. facts Lr.
    apply Sim_pure; intros dst B. do 4 (apply Sim_pure; intros ? _). apply Sim_put; eauto.
  Qed.
  Lemma inline_sim : forall h r n u, hp r = PSbo -> Sim h r (Ok (h, mkH PSbo n u)) (Ok (mkS LSbo n u)).
  Proof. intros h r n u E v' V. injection V as <-. eexists _, _. split; [reflexivity|]. split; [reflexivity|]. now apply local_refl. Qed.
  Lemma alloc_sim : forall h r v x n u, load h r = Ok v -> hp r = PSbo ->
    Sim h r (let (h, k) := alloc h x in Ok (h, mkH (PBlk k) n u)) (Ok (mkS (LHeap x) n u)).
  Proof.
    intros h r v x n u L P v' V. injection V as <-. cbn [alloc]. destruct (free_alloc h r v x L) as (h' & F & K).
    unfold free, hshort in F. rewrite P in F. injection F as <-. destruct (K n u) as (K1 & K2). eexists _, _. split; [reflexivity|]. auto.
  Qed.
  Lemma copy_sim : forall h s v, load h s = Ok v -> Sim h (hinit sc) (hcopy sc h s) (copy_ctor sc v).
  Proof.
    intros h s v L. unfold hcopy, copy_ctor. facts L. destruct (is_short v); [now apply inline_sim|].
    do 2 (apply Sim_pure; intros ? _). destruct (ssz v <=? sc)%N.
    - apply Sim_pure; intros ? _. now apply inline_sim.
    - apply Sim_pure; intros ? _. now apply (alloc_sim _ _ (sinit sc)).
  Qed.
  Lemma of_chars_sim : forall h l, Sim h (hinit sc) (hof_chars sc h l) (of_chars sc l).
  Proof.
    intros h l. unfold hof_chars, of_chars. destruct (N.of_nat (length l) <=? sc)%N.
    - cbn [hbuf hp buffer loc un hun].
      set (s := mkH PSbo (N.of_nat (length l)) (zeros sc)). set (v := mkS LSbo (N.of_nat (length l)) (zeros sc)).
      assert (Lv : load h s = Ok v) by reflexivity.
      change (Ok (zeros sc)) with (buffer v). apply Sim_pure; intros b B. do 2 (apply Sim_pure; intros ? _).
      intros v' E. destruct (Sim_put h s v x0 (N.of_nat (length l)) Lv ltac:(eauto) v' E) as (h' & s' & E1 & E2 & E3).
      exists h', s'. split; [auto|]. split; [auto|]. exact E3.
    - cbn [alloc]. set (x := fresh (wadd 64 (N.of_nat (length l)) 1)). set (n := N.of_nat (length l)).
      set (s := mkH (PBlk (length h)) n (write_cap n (zeros sc))). set (v := mkS (LHeap x) n (write_cap n (zeros sc))).
      destruct (free_alloc h (hinit sc) (sinit sc) x eq_refl) as (h' & F & K). injection F as <-. destruct (K n (write_cap n (zeros sc))) as (K1 & K2).
      fold s v in K1, K2. intros v' E.
      assert (S1 : Sim (h ++ [Some x]) s (let! b := hbuf (h ++ [Some x]) s in let! b := bwrite b 0 (map Some l) in let! b := bset b n 0 in hput (h ++ [Some x]) s b n)
                    (let! b := buffer v in let! b := bwrite b 0 (map Some l) in let! b := bset b n 0 in Ok (put v b n))).
      { facts K2. apply Sim_pure; intros b B. do 2 (apply Sim_pure; intros ? _). apply Sim_put; eauto. }
      destruct (S1 v' E) as (h2 & s2 & E1 & E2 & E3). exists h2, s2. split; [exact E1|]. split; [auto|].
      eapply local_trans; [|exact K1|exact E3]. eapply load_fits, init_load.
  Qed.
  Lemma replaced_loop_sim : forall fuel h s v r vr i old new, load h s = Ok v -> load h r = Ok vr -> apart r s ->
    Sim h r (hreplaced_loop sc fuel h s r i old new) (replaced_loop sc fuel v vr i old new).
  Proof.
    induction fuel as [|fuel IH]; intros h s v r vr i old new L Lr D; cbn [hreplaced_loop replaced_loop].
    - intros v' E. discriminate.
    - facts L. destruct (i <? ssz v)%N; [|now apply Sim_ret].
      rewrite L. cbn [bind]. do 2 (apply Sim_pure; intros ? _). match goal with |- Sim _ _ (if ?b then _ else _) _ => destruct b end.
      + apply Sim_bind; [eapply load_fits; eauto|now apply append_sim|]. intros h1 r1 v1 L1 T.
        destruct (frame _ _ _ _ _ _ T L D). now apply IH.
      + apply Sim_pure; intros ? _. apply Sim_pure; intros ? _. apply Sim_bind; [eapply load_fits; eauto|now apply push_back_sim|].
        intros h1 r1 v1 L1 T. destruct (frame _ _ _ _ _ _ T L D). now apply IH.
  Qed.
  Lemma copy_assign_sim : forall h s v rhs vr, load h s = Ok v -> load h rhs = Ok vr -> apart s rhs ->
    Sim h s (hcopy_assign sc h s rhs) (copy_assign sc v vr).
  Proof.
    intros h s v rhs vr L Lr D. unfold hcopy_assign, copy_assign.
    destruct (free_local h s v (mkH PNull 0 []) L) as (h0 & F & T & Ln); [discriminate|].
    destruct (frame _ _ _ _ _ _ T Lr D) as (Lr0 & _).
    assert (K : forall x n u, local h s (h0 ++ [Some x]) (mkH (PBlk (length h0)) n u) /\ load (h0 ++ [Some x]) (mkH (PBlk (length h0)) n u) = Ok (mkS (LHeap x) n u)).
    { intros x n u. destruct (free_alloc h s v x L) as (h' & F' & K). rewrite F in F'. injection F' as <-. apply K. }
    assert (I : forall n u, Sim h s (Ok (h0, mkH PSbo n u)) (Ok (mkS LSbo n u))).
    { intros n u v' E. injection E as <-. eexists _, _. split; [reflexivity|]. split; [reflexivity|].
      destruct T as (A1 & A2 & A3 & A4 & A5). repeat split; auto; cbn in *; try (intros; apply A3; auto; discriminate); try (intros; discriminate).
      intros; apply A4; auto; discriminate. }
    rewrite F. cbn [bind]. destruct (load_facts _ _ _ L) as (_ & Us & _). facts Lr0. rewrite Us. destruct (is_short vr); [apply I|].
    do 2 (apply Sim_pure; intros ? _). destruct (ssz vr <=? sc)%N.
    - apply Sim_pure; intros ? _. apply I.
    - apply Sim_pure; intros nb _. cbn [alloc]. intros v' E. injection E as <-. unfold set_heap.
      destruct (K nb (ssz vr) (write_cap (ssz vr) (un v))) as (K1 & K2). eexists _, _. split; [reflexivity|]. auto.
  Qed.

  (* ---- functions that leave _data alone ---- *)
  Ltac unbind := repeat match goal with
    | H : bind _ _ = Ok _ |- _ => let x := fresh "x" in let e := fresh "e" in apply obind in H; destruct H as (x & e & H)
    | H : (if ?b then _ else _) = Ok _ |- _ => destruct b
    | H : Ok _ = Ok _ |- _ => injection H as <-
    end.
  Lemma stays_put : forall v b x n, buffer v = Ok x -> stays v (put v b n).
  Proof. intros [[|y|] m u] b x n B; cbn in *; try easy; exact Logic.I. Qed.
  Lemma stays_refl : forall v x, buffer v = Ok x -> stays v v.
  Proof. intros [[|y|] m u] x B; cbn in *; try easy; exact Logic.I. Qed.
  Lemma stays_ops : forall o v v' r, step sc v o = Ok (v', r) ->
    match o with
    | PopBack | Capitalize | ReplaceChar _ _ | RemovePrefix _ | RemovePrefixStr _ | RemoveSuffix _ | RemoveSuffixStr _
    | TrimStart _ | TrimEnd _ | Trim _ | SetAt _ _ => stays v v'
    | _ => True
    end.
  Proof.
    intros o v v' r E. destruct o; auto; cbn [step] in E; unfold ru in E;
      unfold pop_back, capitalize, replace_char, remove_prefix_str, remove_prefix, remove_suffix_str, remove_suffix, trim_start, trim_end, trim, set_at in E;
      apply obind in E; destruct E as (v1 & E1 & E); injection E as <- <-; unbind; try (unfold remove_prefix in *; unbind); eauto using stays_put, stays_refl.
  Qed.
  Lemma step_sim : forall h s v o v' r, load h s = Ok v -> step sc v o = Ok (v', r) ->
    exists h' s', hstep sc h s o = Ok (h', s', r) /\ load h' s' = Ok v' /\ local h s h' s'.
  Proof.
    intros h s v o v' r L E.
    assert (U : forall H V, Sim h s H V -> ru V = Ok (v', r) -> exists h' s', hu H = Ok (h', s', r) /\ load h' s' = Ok v' /\ local h s h' s').
    { intros H V S EV. unfold ru in EV. apply obind in EV. destruct EV as (x & EV & E2). injection E2 as <- <-.
      destruct (S x EV) as (h' & s' & -> & L' & T). exists h', s'. auto. }
    assert (Q : forall f, rc v (f v) = Ok (v', r) -> exists h' s', hq h s f = Ok (h', s', r) /\ load h' s' = Ok v' /\ local h s h' s').
    { intros f EV. unfold rc in EV. apply obind in EV. destruct EV as (x & EV & E2). injection E2 as <- <-. unfold hq. rewrite L. cbn [bind]. rewrite EV. cbn [bind].
      exists h, s. split; [auto|]. split; [auto|]. now apply local_refl. }
    pose proof (stays_ops o v v' r E) as St.
    assert (P : forall f, ru (f v) = Ok (v', r) -> stays v v' -> exists h' s', hu (in_place f h s) = Ok (h', s', r) /\ load h' s' = Ok v' /\ local h s h' s').
    { intros f EV Sv. apply (U _ _ (Sim_in_place f h s v L ltac:(intros x Ex; unfold ru in EV; rewrite Ex in EV; cbn in EV; injection EV as -> _; exact Sv)) EV). }
    destruct o; cbn [step hstep] in *.
    - apply (U _ _ (push_back_sim h s v c L) E).
    - apply (U _ _ (append_sim h s v (HVal l) (SVal l) L eq_refl) E).
    - apply (U _ _ (append_sim h s v (HOwn o n) (SOwn o n) L (conj eq_refl eq_refl)) E).
    - now apply P.
    - apply (U _ _ (resize_sim h s v n c L) E).
    - apply (U _ _ (reserve_sim h s v n L) E).
    - apply (U _ _ (clear_sim h s v L) E).
    - apply (U _ _ (shrink_sim h s v L) E).
    - apply (U _ _ (fill_sim h s v c n L) E).
    - now apply P.
    - now apply P.
    - now apply P.
    - now apply P.
    - now apply P.
    - now apply P.
    - now apply P.
    - now apply P.
    - now apply P.
    - apply (U _ _ (pad_start_sim h s v n c L) E).
    - apply (U _ _ (pad_end_sim h s v n c L) E).
    - apply (U _ _ (replace_sim h s v pos cnt (HVal l) (SVal l) L eq_refl) E).
    - apply (U _ _ (replace_sim h s v pos 0%N (HVal l) (SVal l) L eq_refl) E).
    - apply (U _ _ (replace_all_sim h s v old new L) E).
    - apply (Q (fun v => get v i)). exact E.
    - now apply P.
    - apply (Q front). exact E.
    - apply (Q back). exact E.
    - injection E as <- <-. exists h, s. split; [|split; [exact L|now apply local_refl]]. destruct (load_facts _ _ _ L) as (-> & _). reflexivity.
  Qed.

  (* ---- the store ---- *)
  Definition same (h : heap) (x : option hstr) (y : option sbo) : Prop :=
    match x, y with None, None => True | Some s, Some v => load h s = Ok v | _, _ => False end.
  Definition Inv (h : heap) (hs : list (option hstr)) (w : world) : Prop :=
    length hs = length w /\ (forall k x y, nth_error hs k = Some x -> nth_error w k = Some y -> same h x y) /\
    (forall b, live h b -> exists k, owns hs k b) /\
    (forall k j b, owns hs k b -> owns hs j b -> k = j).
  Lemma inv_get : forall h hs w k v, Inv h hs w -> gets w k = Ok v -> exists s, nth_error hs k = Some (Some s) /\ load h s = Ok v /\ k < length hs.
  Proof.
    intros h hs w k v (Ln & S & _) G. unfold gets in G. destruct (nth_error w k) as [[x|]|] eqn:E; try discriminate. injection G as ->.
    assert (k < length w) as Lk by (apply nth_error_Some; congruence). destruct (nth_error hs k) as [y|] eqn:Ey; [|apply nth_error_None in Ey; lia].
    pose proof (S k _ _ Ey E) as H. destruct y as [s|]; [|destruct H]. exists s. split; [auto|]. split; [exact H|lia].
  Qed.
  Lemma inv_val : forall h hs w k s, Inv h hs w -> nth_error hs k = Some (Some s) -> exists v, nth_error w k = Some (Some v) /\ load h s = Ok v.
  Proof.
    intros h hs w k s (Ln & S & _) G. assert (k < length w) as Lk by (rewrite <- Ln; apply nth_error_Some; congruence).
    destruct (nth_error w k) as [y|] eqn:Ey; [|apply nth_error_None in Ey; lia].
    pose proof (S k _ _ G Ey) as H. destruct y as [v|]; [|destruct H]. eauto.
  Qed.
  Lemma load_live : forall h s v b, load h s = Ok v -> hp s = PBlk b -> live h b.
  Proof. intros h s v b L E. unfold load in L. rewrite E in L. apply obind in L. destruct L as (x & L & _). apply block_Ok in L. exists x. exact L. Qed.
  Lemma inv_excl : forall h hs w, Inv h hs w -> exclusive (h, hs).
  Proof.
    intros h hs w I. pose proof I as (Ln & S & C & U). split; [|split]; cbn [fst snd]; auto.
    intros k b (s & N & P). destruct (inv_val _ _ _ _ _ I N) as (v & _ & L). eapply load_live; eauto.
  Qed.
  Lemma owns_lset : forall hs k x j b, owns (lset hs k x) j b -> (j = k /\ exists s, x = Some s /\ hp s = PBlk b) \/ (j <> k /\ owns hs j b).
  Proof.
    intros hs k x j b (s & N & P). apply lset_cases in N. destruct N as [(-> & E & _)|(D & N)].
    - left. split; [auto|]. exists s. auto.
    - right. split; [auto|]. exists s. auto.
  Qed.
  Lemma inv_apart : forall h hs w k j s s', Inv h hs w -> k <> j -> nth_error hs k = Some (Some s) -> nth_error hs j = Some (Some s') -> apart s s'.
  Proof.
    intros h hs w k j s s' (_ & _ & _ & U) N E1 E2 b P Q. apply N. apply (U k j b); [exists s|exists s']; auto.
  Qed.
  Lemma inv_set : forall h hs w k s v h' s' v', Inv h hs w -> nth_error hs k = Some (Some s) -> load h s = Ok v -> local h s h' s' -> load h' s' = Ok v' ->
    Inv h' (lset hs k (Some s')) (lset w k (Some v')).
  Proof.
    intros h hs w k s v h' s' v' I N L T L'. assert (Lk : k < length hs) by (apply nth_error_Some; congruence).
    assert (Fr : forall j sj, j <> k -> nth_error hs j = Some (Some sj) -> load h' sj = load h sj /\ fits_in h sj).
    { intros j sj D Nj. destruct (inv_val _ _ _ _ _ I Nj) as (vj & _ & Lj). rewrite Lj. split; [|eapply load_fits; eauto].
      eapply frame; [exact T|exact Lj|]. apply (inv_apart h hs w k j); auto. }
    destruct I as (Ln & S & C & U). destruct T as (A1 & A2 & A3 & A4 & A5).
    split; [now rewrite !lset_length|]. split; [|split].
    - intros j x y Nx Ny. apply lset_cases in Nx. apply lset_cases in Ny.
      destruct Nx as [(-> & -> & _)|(D & Nx)]; destruct Ny as [(D2 & -> & _)|(D2 & Ny)]; try congruence; try exact L'.
      pose proof (S j _ _ Nx Ny) as H. destruct x as [sj|]; [|exact H]. destruct y as [vj|]; [|exact H]. cbn in *.
      rewrite <- H. apply (Fr j); auto.
    - intros b (x & B). destruct (hptr_dec (hp s') (PBlk b)) as [O|O].
      + exists k, s'. split; [now apply lset_nth_eq|exact O].
      + destruct (Nat.lt_ge_cases b (length h)) as [Lb|Lb].
        * destruct (hptr_dec (hp s) (PBlk b)) as [O2|O2]; [rewrite A3 in B; auto; discriminate|].
          rewrite A2 in B by auto. destruct (C b (ex_intro _ x B)) as (j & sj & Nj & Pj). exists j, sj. split; [|exact Pj].
          rewrite lset_nth_neq; [exact Nj|]. intros ->. congruence.
        * rewrite A4 in B; auto; [discriminate|]. apply nth_error_Some. congruence.
    - assert (X : forall j b, hp s' = PBlk b -> j <> k -> owns hs j b -> False).
      { intros j b P D (sj & Nj & Pj). destruct (A5 b P) as [Q|Q].
        - apply D. apply (U j k b); [exists sj; auto|exists s; auto].
        - destruct (Fr j sj D Nj) as (_ & F). specialize (F b Pj). lia. }
      intros i j b Oi Oj. apply owns_lset in Oi. apply owns_lset in Oj.
      destruct Oi as [(-> & si & Ei & Pi)|(Di & Oi)]; destruct Oj as [(-> & sj & Ej & Pj)|(Dj & Oj)]; auto.
      + exfalso. injection Ei as <-. eapply X; eauto.
      + exfalso. injection Ej as <-. eapply X; eauto.
      + eapply U; eauto.
  Qed.
  Lemma inv_app : forall h hs w r vr, Inv h hs w -> load h r = Ok vr -> (forall b, hp r <> PBlk b) -> Inv h (hs ++ [Some r]) (w ++ [Some vr]).
  Proof.
    intros h hs w r vr (Ln & S & C & U) L P. split; [rewrite !app_length; cbn; lia|]. split; [|split].
    - intros k x y Nx Ny. apply nth_snoc in Nx. apply nth_snoc in Ny.
      destruct Nx as [Nx|(-> & ->)]; destruct Ny as [Ny|(D & ->)]; eauto.
      + assert (k < length hs) by (apply nth_error_Some; congruence). lia.
      + assert (length hs < length w) by (apply nth_error_Some; congruence). lia.
    - intros b B. destruct (C b B) as (k & s & N & Q). exists k, s. split; [|exact Q]. rewrite nth_error_app1; auto. apply nth_error_Some. congruence.
    - assert (X : forall k b, owns (hs ++ [Some r]) k b -> owns hs k b).
      { intros k b (s & N & Q). apply nth_snoc in N. destruct N as [N|(_ & E)]; [exists s; auto|]. injection E as ->. destruct (P b Q). }
      intros k j b Ok Oj. apply (U k j b); apply X; auto.
  Qed.
  Lemma inv_add : forall h hs w r h' s' v', Inv h hs w -> hp r = PSbo -> local h r h' s' -> load h' s' = Ok v' -> Inv h' (hs ++ [Some s']) (w ++ [Some v']).
  Proof.
    intros h hs w r h' s' v' I P T L. assert (Lr : load h r = Ok (mkS LSbo (hsz r) (hun r))) by (unfold load; now rewrite P).
    pose proof (inv_app h hs w r _ I Lr ltac:(intros b; rewrite P; discriminate)) as I1. pose proof I as (Ln & _).
    pose proof (inv_set _ _ _ (length hs) r _ h' s' v' I1 (nth_app_new _ hs (Some r)) Lr T L) as I2.
    rewrite lset_app_new in I2. rewrite Ln, lset_app_new in I2. exact I2.
  Qed.
  Lemma inv_gone : forall h hs w k s, Inv h hs w -> nth_error hs k = Some (Some s) -> (forall b, hp s <> PBlk b) -> Inv h (lset hs k None) (lset w k None).
  Proof.
    intros h hs w k s (Ln & S & C & U) N P. split; [now rewrite !lset_length|]. split; [|split].
    - intros j x y Nx Ny. apply lset_cases in Nx. apply lset_cases in Ny.
      destruct Nx as [(-> & -> & _)|(D & Nx)]; destruct Ny as [(D2 & -> & _)|(D2 & Ny)]; try congruence; try exact Logic.I; eauto.
    - intros b B. destruct (C b B) as (j & sj & Nj & Q). exists j, sj. split; [|exact Q]. rewrite lset_nth_neq; auto. intros ->. rewrite N in Nj. injection Nj as <-. destruct (P b Q).
    - intros i j b Oi Oj. apply owns_lset in Oi. apply owns_lset in Oj.
      destruct Oi as [(_ & si & Ei & _)|(Di & Oi)]; [discriminate|]. destruct Oj as [(_ & sj & Ej & _)|(Dj & Oj)]; [discriminate|]. eauto.
  Qed.
  Lemma inv_destroy : forall h hs w k s v, Inv h hs w -> nth_error hs k = Some (Some s) -> load h s = Ok v ->
    exists h', free h s = Ok h' /\ Inv h' (lset hs k None) (lset w k None).
  Proof.
    intros h hs w k s v I N L. destruct (free_local h s v (mkH PNull 0 []) L) as (h' & F & T & _); [discriminate|]. exists h'. split; [auto|].
    pose proof (inv_set _ _ _ k s v h' (mkH PNull 0 []) (mkS LNull 0 []) I N L T eq_refl) as I1.
    assert (Lk : k < length hs) by (apply nth_error_Some; congruence).
    pose proof (inv_gone _ _ _ k (mkH PNull 0 []) I1 (lset_nth_eq _ _ _ Lk) ltac:(discriminate)) as I2. rewrite !lset_twice in I2. exact I2.
  Qed.
  (* string j hands its block to string k, which has none *)
  Lemma inv_move : forall h hs w k j s rhs s' v' vj, Inv h hs w -> k <> j -> nth_error hs k = Some (Some s) -> (forall b, hp s <> PBlk b) ->
    nth_error hs j = Some (Some rhs) -> hp s' = hp rhs -> load h s' = Ok v' -> load h (mkH PNull (hsz rhs) (hun rhs)) = Ok vj ->
    Inv h (lset (lset hs k (Some s')) j (Some (mkH PNull (hsz rhs) (hun rhs)))) (lset (lset w k (Some v')) j (Some vj)).
  Proof.
    intros h hs w k j s rhs s' v' vj (Ln & S & C & U) D N P Nj E L Lj.
    assert (Lk : k < length hs) by (apply nth_error_Some; congruence). assert (Lj2 : j < length hs) by (apply nth_error_Some; congruence).
    split; [now rewrite !lset_length|]. split; [|split].
    - intros i x y Nx Ny. apply lset_cases in Nx. apply lset_cases in Ny.
      destruct Nx as [(-> & -> & _)|(D1 & Nx)]; destruct Ny as [(D2 & -> & _)|(D2 & Ny)]; try congruence; try exact Lj.
      apply lset_cases in Nx. apply lset_cases in Ny.
      destruct Nx as [(-> & -> & _)|(D3 & Nx)]; destruct Ny as [(D4 & -> & _)|(D4 & Ny)]; try congruence; try exact L; eauto.
    - intros b B. destruct (C b B) as (i & si & Ni & Q). destruct (Nat.eq_dec i j) as [->|Nij].
      + exists k, s'. split; [|rewrite Nj in Ni; congruence]. rewrite lset_nth_neq by auto. now apply lset_nth_eq.
      + exists i, si. split; [|exact Q]. rewrite !lset_nth_neq; auto. intros ->. rewrite N in Ni. injection Ni as <-. destruct (P b Q).
    - assert (X : forall i b, owns (lset (lset hs k (Some s')) j (Some (mkH PNull (hsz rhs) (hun rhs)))) i b ->
                  i <> j /\ (i = k /\ owns hs j b \/ i <> k /\ owns hs i b)).
      { intros i b O. apply owns_lset in O. destruct O as [(_ & si & Ei & Pi)|(Dj & O)]; [injection Ei as <-; discriminate|]. split; [auto|].
        apply owns_lset in O. destruct O as [(-> & si & Ei & Pi)|(Dk & O)]; [|auto]. left. split; [auto|]. injection Ei as <-. exists rhs. split; [auto|]. congruence. }
      intros a c b Oa Oc. apply X in Oa. apply X in Oc. destruct Oa as (Ja & [(-> & Oa)|(Ka & Oa)]); destruct Oc as (Jc & [(-> & Oc)|(Kc & Oc)]); auto.
      + destruct Jc. eapply U; eauto.
      + destruct Ja. eapply U; eauto.
      + eapply U; eauto.
  Qed.
  Lemma hgets_ok : forall h hs k s, nth_error hs k = Some (Some s) -> hgets (h, hs) k = Ok s.
  Proof. intros h hs k s N. unfold hgets. cbn. now rewrite N. Qed.
  Lemma gets_ok : forall w k s, gets w k = Ok s -> nth_error w k = Some (Some s).
  Proof. intros w k s H. unfold gets in H. destruct (nth_error w k) as [[|]|]; try discriminate. congruence. Qed.

  (* move assignment, including from itself *)
  Lemma move_assign_sim : forall h hs w k j w' r, Inv h hs w -> wstep sc w (MoveAssign k j) = Ok (w', r) ->
    exists h' hs', hmove_assign (h, hs) k j = Ok (h', hs') /\ Inv h' hs' w' /\ r = RUnit.
  Proof.
    intros h hs w k j w' r I E. cbn [wstep] in E. apply obind in E. destruct E as (v & Ev & E). apply obind in E. destruct E as (vr & Evr & E).
    destruct (inv_get _ _ _ _ _ I Ev) as (s & Ns & L & Lk). destruct (inv_get _ _ _ _ _ I Evr) as (rhs & Nr & Lr & Lj).
    unfold hmove_assign. rewrite (hgets_ok _ _ _ _ Ns). cbn [bind fst snd].
    (* after the first part: string k is inline and owns nothing *)
    set (u1 := if is_short v then un v else write_cap 0 (un v)).
    assert (S1 : exists h1, (if hshort s then @Ok hworld (h, hs) else let! h0 := delete h (hp s) in @Ok hworld (h0, lset hs k (Some (mkH PSbo (hsz s) (write_cap 0 (hun s))))))
                  = @Ok hworld (h1, lset hs k (Some (mkH PSbo (hsz s) u1))) /\ Inv h1 (lset hs k (Some (mkH PSbo (hsz s) u1))) (lset w k (Some (mkS LSbo (hsz s) u1)))
                  /\ (k <> j -> load h1 rhs = Ok vr)).
    { destruct (load_facts _ _ _ L) as (_ & Us & Sh & _). subst u1. rewrite <- Sh, <- Us. destruct (hshort s) eqn:Es.
      - exists h. unfold hshort in Es. destruct (hp s) eqn:Ep; try discriminate.
        assert (Some (mkH PSbo (hsz s) (hun s)) = Some s) as -> by (destruct s; cbn in *; now rewrite Ep).
        rewrite (lset_same _ hs k _ Ns). split; [auto|]. split; [|auto].
        assert (lset w k (Some (mkS LSbo (hsz s) (hun s))) = w) as ->; [|exact I].
        apply lset_same. apply gets_ok in Ev. rewrite Ev. unfold load in L. rewrite Ep in L. congruence.
      - destruct (free_local h s v (mkH PSbo (hsz s) (write_cap 0 (hun s))) L) as (h1 & F & T & _); [discriminate|].
        unfold free in F. rewrite Es in F. rewrite F. cbn [bind]. exists h1. split; [auto|]. split.
        + eapply inv_set; eauto.
        + intros D. eapply frame; [exact T|exact Lr|]. apply (inv_apart h hs w k j); auto. }
    destruct S1 as (h1 & Eh1 & I1 & Lr1). match goal with |- context [bind (if hshort s then ?p else ?q) _] => rewrite (Eh1 : (if hshort s then p else q) = _) end. cbn [bind fst snd]. destruct (Nat.eqb_spec k j) as [<-|D].
    - injection E as <- <-. rewrite (hgets_ok h1 _ k (mkH PSbo (hsz s) u1)) by (apply lset_nth_eq; auto). cbn [bind hshort hp hsz hun].
      eexists _, _. split; [reflexivity|]. split; [|auto]. rewrite lset_twice.
      destruct (load_facts _ _ _ L) as (Zs & Us & Sh & _). replace (self_move_assign v) with (mkS LSbo (hsz s) u1); [exact I1|].
      unfold self_move_assign. subst u1. rewrite Zs. destruct (is_short v) eqn:Iv; [|reflexivity]. unfold is_short in Iv. destruct v as [[| |] n u]; cbn in *; try discriminate; reflexivity.
    - rewrite (hgets_ok h1 _ j rhs) by (rewrite lset_nth_neq; auto). cbn [bind].
      rewrite (hgets_ok h1 _ k (mkH PSbo (hsz s) u1)) by (apply lset_nth_eq; auto). cbn [bind hun].
      apply obind in E. destruct E as ([v1 v2] & E1 & E). injection E as <- <-. specialize (Lr1 D). unfold move_assign in E1.
      destruct (load_facts _ _ _ Lr1) as (Zr & Ur & Sr & _). rewrite Sr, Ur, Zr. destruct (is_short vr) eqn:Ir.
      + injection E1 as <- <-. eexists _, _. split; [reflexivity|]. split; [|auto].
        assert (X : load h1 (mkH PSbo (hsz s) u1) = Ok (mkS LSbo (hsz s) u1)) by reflexivity.
        pose proof (inv_set _ _ _ k _ _ h1 (mkH PSbo (ssz vr) (un vr)) (mkS LSbo (ssz vr) (un vr)) I1 (lset_nth_eq _ _ _ Lk) X (local_refl _ _ _ eq_refl) eq_refl) as I2.
        rewrite !lset_twice in *. rewrite (lset_same _ (lset w k _) j); [exact I2|]. rewrite lset_nth_neq by auto. now apply gets_ok.
      + apply obind in E1. destruct E1 as (c & Ec & E1). injection E1 as <- <-. rewrite Ec. cbn [bind]. eexists _, _. split; [reflexivity|]. split; [|auto].
        assert (X : load h1 (mkH (hp rhs) (ssz vr) (write_cap c u1)) = Ok (mkS (loc vr) (ssz vr) (write_cap c u1))).
        { unfold load in *. cbn. destruct (hp rhs).
          - injection Lr1 as <-. reflexivity.
          - apply obind in Lr1. destruct Lr1 as (y & -> & Lr1). injection Lr1 as <-. reflexivity.
          - injection Lr1 as <-. reflexivity. }
        pose proof (inv_move h1 _ _ k j (mkH PSbo (hsz s) u1) rhs (mkH (hp rhs) (ssz vr) (write_cap c u1)) _ (mkS LNull (hsz rhs) (hun rhs)) I1 D
           (lset_nth_eq _ _ _ Lk) ltac:(discriminate) ltac:(rewrite lset_nth_neq; auto) eq_refl X eq_refl) as I2.
        rewrite !lset_twice, Zr, Ur in I2. rewrite !lset_twice. exact I2.
  Qed.
  Lemma move_new_sim : forall h hs w k w' r, Inv h hs w -> wstep sc w (MoveNew k) = Ok (w', r) ->
    exists h' hs', hmove_new sc (h, hs) k = Ok (h', hs') /\ Inv h' hs' w' /\ r = RUnit.
  Proof.
    intros h hs w k w' r I E. cbn [wstep] in E. apply obind in E. destruct E as (v & Ev & E). apply obind in E. destruct E as ([v1 v2] & E1 & E).
    destruct (inv_get _ _ _ _ _ I Ev) as (s & Ns & L & Lk). injection E as <- <-. unfold hmove_new. rewrite (hgets_ok _ _ _ _ Ns). cbn [bind fst snd].
    unfold move_ctor in E1. destruct (load_facts _ _ _ L) as (Zs & Us & Sh & _). rewrite Zs, Us, Sh. destruct (is_short v) eqn:Is.
    - injection E1 as <- <-. eexists _, _. split; [reflexivity|]. split; [|auto]. rewrite (lset_same _ w k) by (now apply gets_ok).
      apply inv_app; auto. discriminate.
    - apply obind in E1. destruct E1 as (c & Ec & E1). injection E1 as <- <-. rewrite Ec. cbn [bind]. eexists _, _. split; [reflexivity|]. split; [|auto].
      pose proof (inv_app h hs w (mkH PNull 0 []) _ I eq_refl ltac:(discriminate)) as I1. assert (D : length hs <> k) by lia.
      assert (X : load h (mkH (hp s) (ssz v) (write_cap c (zeros sc))) = Ok (mkS (loc v) (ssz v) (write_cap c (zeros sc)))).
      { unfold load in *. cbn. destruct (hp s).
        - injection L as <-. reflexivity.
        - apply obind in L. destruct L as (y & -> & L). injection L as <-. reflexivity.
        - injection L as <-. reflexivity. }
      pose proof (inv_move h _ _ (length hs) k (mkH PNull 0 []) s (mkH (hp s) (ssz v) (write_cap c (zeros sc))) _ (mkS LNull (hsz s) (hun s)) I1 D
         (nth_app_new _ _ _) ltac:(discriminate) ltac:(rewrite nth_error_app1; auto) eq_refl X eq_refl) as I2.
      destruct I as (Ln & _). rewrite lset_app_new in I2. rewrite Ln, lset_app_new, Zs, Us in I2. rewrite !lset_app1 in I2 by lia. exact I2.
  Qed.

  (* every step of the model without heap is a step here *)
  Lemma wstep_sim : forall h hs w o w' r, Inv h hs w -> wstep sc w o = Ok (w', r) ->
    exists h' hs', hwstep sc (h, hs) (HW o) = Ok ((h', hs'), r) /\ Inv h' hs' w'.
  Proof.
    intros h hs w o w' r I E.
    assert (A : forall H V, Sim h (hinit sc) H V -> added w V = Ok (w', r) -> exists h' hs', hadded (h, hs) H = Ok ((h', hs'), r) /\ Inv h' hs' w').
    { intros H V Sm EV. unfold added in EV. apply obind in EV. destruct EV as (x & EV & E2). injection E2 as <- <-.
      destruct (Sm x EV) as (h' & s' & -> & L' & T). cbn [hadded bind snd]. eexists _, _. split; [reflexivity|]. apply (inv_add h hs w (hinit sc)); auto. }
    destruct o; cbn [hwstep].
    - cbn [wstep] in E. apply obind in E. destruct E as (v & Ev & E). apply obind in E. destruct E as ([v1 r1] & E1 & E). injection E as <- <-.
      destruct (inv_get _ _ _ _ _ I Ev) as (s & Ns & L & Lk). rewrite (hgets_ok _ _ _ _ Ns). cbn [bind fst snd].
      destruct (step_sim h s v o v1 r1 L E1) as (h' & s' & -> & L' & T). cbn [bind]. eexists _, _. split; [reflexivity|]. eapply inv_set; eauto.
    - apply (A _ (Ok (sinit sc))); auto. apply Sim_ret. reflexivity.
    - apply (A _ (of_chars sc l)); auto. apply of_chars_sim.
    - apply (A _ (filled sc n c)); auto. apply resize_sim. reflexivity.
    - cbn [wstep] in E. apply obind in E. destruct E as (v & Ev & E). destruct (inv_get _ _ _ _ _ I Ev) as (s & Ns & L & Lk). rewrite (hgets_ok _ _ _ _ Ns). cbn [bind fst].
      eapply A; [|exact E]. now apply copy_sim.
    - destruct (move_new_sim _ _ _ _ _ _ I E) as (h' & hs' & -> & I' & ->). cbn [bind]. eauto.
    - cbn [wstep] in E. apply obind in E. destruct E as (v & Ev & E). apply obind in E. destruct E as (vr & Evr & E).
      destruct (inv_get _ _ _ _ _ I Ev) as (s & Ns & L & Lk). destruct (inv_get _ _ _ _ _ I Evr) as (rhs & Nr & Lr & Lj).
      rewrite (hgets_ok _ _ _ _ Ns). cbn [bind]. rewrite (hgets_ok _ _ _ _ Nr). cbn [bind fst snd]. destruct (Nat.eqb_spec k j) as [->|D].
      + injection E as <- <-. eauto.
      + apply obind in E. destruct E as (v1 & E1 & E). injection E as <- <-.
        destruct (copy_assign_sim h s v rhs vr L Lr (inv_apart _ _ _ _ _ _ _ I D Ns Nr) v1 E1) as (h' & s' & -> & L' & T). cbn [bind].
        eexists _, _. split; [reflexivity|]. eapply inv_set; eauto.
    - destruct (move_assign_sim _ _ _ _ _ _ _ I E) as (h' & hs' & -> & I' & ->). cbn [bind]. eauto.
    - cbn [wstep] in E. apply obind in E. destruct E as (v & Ev & E). injection E as <- <-. destruct (inv_get _ _ _ _ _ I Ev) as (s & Ns & L & Lk).
      unfold hdestroy_at. rewrite (hgets_ok _ _ _ _ Ns). cbn [bind fst snd hdestroy]. unfold hdestroy. destruct (inv_destroy _ _ _ _ _ _ I Ns L) as (h' & -> & I'). cbn [bind]. eauto.
    - cbn [wstep] in E. apply obind in E. destruct E as (v & Ev & E). destruct (inv_get _ _ _ _ _ I Ev) as (s & Ns & L & Lk). rewrite (hgets_ok _ _ _ _ Ns). cbn [bind fst].
      eapply A; [|exact E]. now apply mapped_sim.
    - cbn [wstep] in E. apply obind in E. destruct E as (v & Ev & E). destruct (inv_get _ _ _ _ _ I Ev) as (s & Ns & L & Lk). rewrite (hgets_ok _ _ _ _ Ns). cbn [bind fst].
      eapply A; [|exact E]. now apply capitalized_sim.
    - cbn [wstep] in E. apply obind in E. destruct E as (v & Ev & E). destruct (inv_get _ _ _ _ _ I Ev) as (s & Ns & L & Lk). rewrite (hgets_ok _ _ _ _ Ns). cbn [bind fst].
      eapply A; [|exact E]. now apply replaced_sim.
    - cbn [wstep] in E. apply obind in E. destruct E as (v & Ev & E). destruct (inv_get _ _ _ _ _ I Ev) as (s & Ns & L & Lk). rewrite (hgets_ok _ _ _ _ Ns). cbn [bind fst].
      apply obind in E. destruct E as (c & Ec & E). unfold hreplaced_all. rewrite Ec. cbn [bind]. destruct (load_facts _ _ _ L) as (-> & _).
      destruct (ssz v <? N.of_nat (length old))%N; (eapply A; [|exact E]).
      + now apply copy_sim.
      + apply replaced_loop_sim; auto using apart_init.
    - cbn [wstep] in E. apply obind in E. destruct E as (v & Ev & E). destruct (inv_get _ _ _ _ _ I Ev) as (s & Ns & L & Lk). rewrite (hgets_ok _ _ _ _ Ns). cbn [bind fst].
      eapply A; [|exact E]. now apply concat_sim.
  Qed.
  Lemma wrun_sim : forall os h hs w w' rs, Inv h hs w -> wrun sc w os = Ok (w', rs) ->
    exists h' hs', hwrun sc (h, hs) (map HW os) = Ok ((h', hs'), rs) /\ Inv h' hs' w'.
  Proof.
    induction os as [|o os IH]; intros h hs w w' rs I E; cbn [map hwrun wrun] in *.
    - injection E as <- <-. eauto.
    - apply obind in E. destruct E as ([w1 r] & E1 & E). apply obind in E. destruct E as ([w2 rs2] & E2 & E). injection E as <- <-.
      destruct (wstep_sim _ _ _ _ _ _ I E1) as (h1 & hs1 & -> & I1). cbn [bind]. destruct (IH _ _ _ _ _ I1 E2) as (h2 & hs2 & -> & I2). cbn [bind]. eauto.
  Qed.
  Lemma inv_empty : Inv [] [] [].
  Proof.
    split; [reflexivity|]. split; [intros [|k] x y H; discriminate|]. split; [intros [|b] (x & B); discriminate|]. intros [|k] j b (s & N & _); discriminate.
  Qed.

  (* ---- against ideal strings ---- *)
  Hypothesis Hsc : (7 <= sc < 2 ^ 60)%N.
  Lemma view_chars : forall h s v l t o n, load h s = Ok v -> rep sc v l t -> (o + n <= len l)%N ->
    exists c, hbuf h s = Ok c /\ bread c o n = Ok (map Some (piece o n l)) /\ len (piece o n l) = n.
  Proof.
    intros h s v l t o n L R B. destruct (load_facts _ _ _ L) as (_ & _ & _ & Bu & _). destruct (rep_open sc Hsc v l t R) as (c & x & rest & Eb & _).
    rewrite Bu, Eb. eexists. split; [reflexivity|].
    assert (Ln : len (piece o n l) = n) by (unfold piece, len in *; rewrite firstn_length, skipn_length; lia). split; [|exact Ln].
    destruct (own_split sc Hsc l o n B) as (p & q & E & Lp). fold (piece o n l) in E. rewrite E at 1. rewrite !map_app, <- !app_assoc.
    apply bread_mid; rewrite map_length; unfold len in *; lia.
  Qed.
  Lemma ival : forall i k l t, iget i k = Some (l, t) -> nth_error i k = Some (Val l t).
  Proof. intros i k l t H. unfold iget in H. destruct (nth_error i k) as [[| |]|]; try discriminate. congruence. Qed.
  Lemma on_append : forall i k l i' r, iwstep i (On k (Append l)) = Some (i', r) -> exists lk t, nth_error i k = Some (Val lk t) /\
    (len (lk ++ l) < 2 ^ 60)%N /\ i' = iset i k (Val (lk ++ l) true) /\ r = RUnit.
  Proof.
    intros i k l i' r H. cbn [iwstep ideal] in H. destruct (nth_error i k) as [[| |lk t]|] eqn:N; try discriminate.
    destruct (fits (lk ++ l) true) as [y|] eqn:F; [|discriminate]. apply fits_some in F. destruct F as (B & ->). injection H as <- <-. eauto 8.
  Qed.
  Lemma on_replace : forall i k pos cnt l i' r, iwstep i (On k (Replace pos cnt l)) = Some (i', r) -> exists lk t, nth_error i k = Some (Val lk t) /\
    (pos + cnt <= len lk)%N /\ (len (splice pos cnt lk l) < 2 ^ 60)%N /\ i' = iset i k (Val (splice pos cnt lk l) t) /\ r = RUnit.
  Proof.
    intros i k pos cnt l i' r H. cbn [iwstep ideal] in H. destruct (nth_error i k) as [[| |lk t]|] eqn:N; try discriminate.
    destruct (N.leb_spec (pos + cnt) (len lk)); [|discriminate].
    destruct (fits (splice pos cnt lk l) t) as [y|] eqn:F; [|discriminate]. apply fits_some in F. destruct F as (B & ->). injection H as <- <-. eauto 10.
  Qed.
  Lemma viewed_some : forall i j o n f y, viewed i j o n f = Some y -> exists l t, iget i j = Some (l, t) /\ (o + n <= len l)%N /\ f (piece o n l) = Some y.
  Proof.
    intros i j o n f y H. apply from_some in H. destruct H as (l & t & G & H). destruct (N.leb_spec (o + n) (len l)); [|discriminate]. eauto.
  Qed.
  Lemma lset_snoc_last : forall T (l : list T) x y, firstn (length l) (lset (l ++ [x]) (length l) y) = l.
  Proof. intros. rewrite lset_app_new. apply firstn_at. reflexivity. Qed.
  Lemma firstn_inv : forall h hs w x, Inv h (hs ++ [None]) (w ++ [x]) -> Inv h hs w.
  Proof.
    intros h hs w x (Ln & S & C & U). rewrite !app_length in Ln. cbn in Ln. split; [lia|]. split; [|split].
    - intros k a b Na Nb. apply (S k); rewrite nth_error_app1; auto; apply nth_error_Some; congruence.
    - intros b B. destruct (C b B) as (k & s & N & P). apply nth_snoc in N. destruct N as [N|(_ & E)]; [|discriminate]. exists k, s. auto.
    - assert (X : forall k b, owns hs k b -> owns (hs ++ [None]) k b).
      { intros k b (s & N & P). exists s. split; [|exact P]. rewrite nth_error_app1; auto. apply nth_error_Some. congruence. }
      intros k j b A B. apply (U k j b); auto.
  Qed.
  Lemma istep_sim : forall h hs w i o i' r, Inv h hs w -> wrep sc w i -> ihstep i o = Some (i', r) ->
    exists h' hs' w', hwstep sc (h, hs) o = Ok ((h', hs'), r) /\ Inv h' hs' w' /\ wrep sc w' i'.
  Proof.
    intros h hs w i o i' r I R E. destruct o as [o|k j o n|k pos cnt j o n|k j o n]; cbn [ihstep] in E.
    - destruct (wstep_rep sc Hsc _ _ _ _ _ R E) as (w' & W & R'). destruct (wstep_sim _ _ _ _ _ _ I W) as (h' & hs' & H & I'). eauto 6.
    - apply viewed_some in E. destruct E as (l & t & G & B & E). apply on_append in E. destruct E as (lk & tk & Nk & Bk & -> & ->).
      assert (Gk : iget i k = Some (lk, tk)) by (unfold iget; now rewrite Nk).
      destruct (wrep_val sc _ _ _ _ _ R G) as (vj & Ej & Rj & Bj). destruct (wrep_val sc _ _ _ _ _ R Gk) as (v & Ev & Rv & Bv).
      destruct (inv_get _ _ _ _ _ I Ej) as (x & Nx & Lx & _). destruct (inv_get _ _ _ _ _ I Ev) as (s & Ns & L & Lk).
      destruct (view_chars h x vj l t o n Lx Rj B) as (c & Bc & Br & Ln).
      assert (X : exists g, same_arg h (harg_of k j x o n) g /\ arg_is lk g (piece o n l)).
      { unfold harg_of. destruct (Nat.eqb_spec k j) as [->|D].
        - exists (SOwn o n). split; [cbn; auto|]. rewrite Gk in G. injection G as -> ->. cbn. auto.
        - exists (SVal (piece o n l)). split; [|reflexivity]. cbn. split; [symmetry; exact Ln|]. exists c. split; [exact Bc|]. exact Br. }
      destruct X as (g & X1 & X2). destruct (append_rep sc Hsc v lk tk g _ Rv X2 Bk) as (v' & A & Rv').
      destruct (append_sim h s v (harg_of k j x o n) g L X1 v' A) as (h' & s' & H & L' & T).
      exists h', (lset hs k (Some s')), (lset w k (Some v')). cbn [hwstep]. rewrite (hgets_ok _ _ _ _ Ns). cbn [bind]. rewrite (hgets_ok _ _ _ _ Nx). cbn [bind fst snd].
      rewrite H. cbn [bind]. split; [reflexivity|]. split; [eapply inv_set; eauto|]. apply wrep_set; auto. cbn. auto.
    - destruct (Nat.eqb_spec k j) as [|D]; [discriminate|]. apply viewed_some in E. destruct E as (l & t & G & B & E).
      apply on_replace in E. destruct E as (lk & tk & Nk & Pk & Bk & -> & ->).
      assert (Gk : iget i k = Some (lk, tk)) by (unfold iget; now rewrite Nk).
      destruct (wrep_val sc _ _ _ _ _ R G) as (vj & Ej & Rj & Bj). destruct (wrep_val sc _ _ _ _ _ R Gk) as (v & Ev & Rv & Bv).
      destruct (inv_get _ _ _ _ _ I Ej) as (x & Nx & Lx & _). destruct (inv_get _ _ _ _ _ I Ev) as (s & Ns & L & Lk).
      destruct (view_chars h x vj l t o n Lx Rj B) as (c & Bc & Br & Ln).
      destruct (replace_rep sc Hsc v lk tk pos cnt (piece o n l) Rv Bv Pk Bk) as (v' & A & Rv').
      assert (X1 : same_arg h (harg_of k j x o n) (SVal (piece o n l))).
      { unfold harg_of. destruct (Nat.eqb_spec k j); [easy|]. cbn. split; [symmetry; exact Ln|]. exists c. split; [exact Bc|]. exact Br. }
      destruct (replace_sim h s v pos cnt _ _ L X1 v' A) as (h' & s' & H & L' & T).
      exists h', (lset hs k (Some s')), (lset w k (Some v')). cbn [hwstep]. rewrite (hgets_ok _ _ _ _ Ns). cbn [bind]. rewrite (hgets_ok _ _ _ _ Nx). cbn [bind fst snd].
      rewrite H. cbn [bind]. split; [reflexivity|]. split; [eapply inv_set; eauto|]. apply wrep_set; auto. cbn. auto.
    - destruct (ilive i k) eqn:Lv; [|discriminate]. apply viewed_some in E. destruct E as (l & t & G & B & E). apply guard_some in E. destruct E as (Sz & E). injection E as <- <-.
      destruct (wrep_val sc _ _ _ _ _ R G) as (vj & Ej & Rj & Bj). destruct (wrep_live sc _ _ _ R Lv) as (v & Ev & Uv).
      destruct (inv_get _ _ _ _ _ I Ej) as (x & Nx & Lx & _).
      destruct (view_chars h x vj l t o n Lx Rj B) as (c & Bc & Br & Ln).
      cbn [hwstep]. rewrite (hgets_ok _ _ _ _ Nx). cbn [bind fst snd]. rewrite Bc. cbn [bind]. rewrite Br. cbn [bind]. rewrite chars_some. cbn [bind].
      unfold ok_size in Sz. apply N.ltb_lt in Sz.
      destruct (of_chars_rep sc Hsc (piece o n l) Sz) as (vt & At & Rt). destruct (of_chars_sim h (piece o n l) vt At) as (h1 & st & -> & Lt & Tt). cbn [bind].
      pose proof (inv_add h hs w (hinit sc) h1 st vt I eq_refl Tt Lt) as I1. pose proof I as (Lhw & _).
      assert (Ek : k < length w). { apply gets_ok in Ev. apply nth_error_Some. congruence. }
      destruct (move_assign_rep sc Hsc v vt _ _ Rt Uv) as (v1 & v2 & M & R1 & U2).
      assert (W : wstep sc (w ++ [Some vt]) (MoveAssign k (length hs)) = Ok (lset (lset (w ++ [Some vt]) k (Some v1)) (length hs) (Some v2), RUnit)).
      { cbn [wstep]. unfold gets at 1. rewrite nth_error_app1 by auto. apply gets_ok in Ev. rewrite Ev. cbn [bind]. unfold gets. rewrite Lhw, nth_app_new. cbn [bind].
        destruct (Nat.eqb_spec k (length w)); [lia|]. rewrite M. reflexivity. }
      destruct (move_assign_sim _ _ _ _ _ _ _ I1 W) as (h2 & hs2 & -> & I2 & _). cbn [bind].
      assert (Gm : gets (lset (lset (w ++ [Some vt]) k (Some v1)) (length hs) (Some v2)) (length hs) = Ok v2).
      { unfold gets. rewrite lset_nth_eq; [reflexivity|]. rewrite lset_length, app_length. cbn. lia. }
      destruct (inv_get _ _ _ _ _ I2 Gm) as (s2 & N2 & L2 & _). unfold hdestroy_at. rewrite (hgets_ok _ _ _ _ N2). cbn [bind fst snd]. unfold hdestroy.
      destruct (inv_destroy _ _ _ _ _ _ I2 N2 L2) as (h3 & -> & I3). cbn [bind fst snd].
      rewrite lset_twice in I3. rewrite (lset_app1 w) in I3 by auto.
      replace (length hs) with (length (lset w k (Some v1))) in I3 by (rewrite lset_length; lia). rewrite lset_app_new in I3.
      exists h3, (firstn (length hs) (lset hs2 (length hs) None)), (lset w k (Some v1)). split; [reflexivity|]. split.
      + pose proof I3 as (L3 & _). rewrite lset_length in L3.
        assert (X : exists z, lset hs2 (length (lset w k (Some v1))) None = z ++ [None] /\ length z = length hs).
        { rewrite lset_length in *. rewrite app_length in L3. cbn in L3. rewrite lset_length in L3. exists (firstn (length w) hs2). rewrite firstn_length. split; [|lia].

          assert (hs2 = firstn (length w) hs2 ++ skipn (length w) hs2) as E3 by (symmetry; apply firstn_skipn).
          assert (length (skipn (length w) hs2) = 1) as L4 by (rewrite skipn_length; lia). destruct (skipn (length w) hs2) as [|y [|]]; try discriminate.
          rewrite E3 at 1. replace (length w) with (length (firstn (length w) hs2)) at 2 by (rewrite firstn_length; lia). apply lset_app_new. }
        destruct X as (z & Xz & Lz). replace (length hs) with (length (lset w k (Some v1))) at 2 by (rewrite lset_length; lia).
        rewrite Xz in *. rewrite firstn_at by auto. eapply firstn_inv; eauto.
      + apply wrep_set; auto. cbn. auto.
  Qed.
  Lemma irun_sim : forall os h hs w i i' rs, Inv h hs w -> wrep sc w i -> ihrun i os = Some (i', rs) ->
    exists h' hs' w', hwrun sc (h, hs) os = Ok ((h', hs'), rs) /\ Inv h' hs' w' /\ wrep sc w' i'.
  Proof.
    induction os as [|o os IH]; intros h hs w i i' rs I R E; cbn [ihrun hwrun] in *.
    - injection E as <- <-. eauto 6.
    - destruct (ihstep i o) as [[i1 r]|] eqn:E1; [|discriminate]. destruct (ihrun i1 os) as [[i2 rs2]|] eqn:E2; [|discriminate]. injection E as <- <-.
      destruct (istep_sim _ _ _ _ _ _ _ I R E1) as (h1 & hs1 & w1 & -> & I1 & R1). cbn [bind].
      destruct (IH _ _ _ _ _ _ I1 R1 E2) as (h2 & hs2 & w2 & -> & I2 & R2). cbn [bind]. eauto 6.
  Qed.
  Lemma rep_hagrees : forall h hs w i, Inv h hs w -> wrep sc w i -> Forall2 (hagrees sc h) hs i.
  Proof.
    intros h hs w i (Ln & S & _) R. revert hs Ln S. induction R as [|y x w i R1 R IH]; intros hs Ln S; destruct hs as [|a hs]; try discriminate; constructor.
    - specialize (S 0 a y eq_refl eq_refl). destruct x as [| |l t]; cbn in *.
      + destruct y; [easy|]. destruct a; [destruct S|reflexivity].
      + destruct y; [|easy]. destruct a; [discriminate|destruct S].
      + destruct y as [v|]; [|easy]. destruct a as [s|]; [|destruct S]. destruct R1 as (R1 & _). cbn in S.
        destruct (load_facts _ _ _ S) as (Z & _ & _ & Bu & Ca). destruct (rep_open sc Hsc v l t R1) as (c & x & rest & Eb & Ec & Es & Cc & _ & Hx & _).
        exists s, (map Some l ++ x :: rest), c. split; [auto|]. split; [congruence|]. split; [rewrite Ca; exact Ec|]. split; [unfold len; lia|]. split; [rewrite Bu; exact Eb|].
        split; [rewrite app_length, map_length; cbn [length]; lia|]. split; [apply firstn_at; now rewrite map_length|].
        intros Ht. rewrite (Hx Ht). apply nth_mid. now rewrite map_length.
    - apply IH; [cbn in Ln; lia|]. intros k p q Np Nq. apply (S (Datatypes.S k)); auto.
  Qed.
End P.

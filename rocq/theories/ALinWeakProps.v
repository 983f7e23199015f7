(* Theorems about atomic_linear_allocator under release/acquire memory (C137). *)
From Coq Require Import NArith ZArith List Lia Bool Arith.
Import ListNotations.
From Verif Require Import Base BitsModel BitsSpec BitsProofs AllocModel AllocSpec AllocProofs AllocProps ALinModel ALinSpec ALinProofs ALinProps
  ALinWeakModel ALinWeakProofs.
Open Scope N_scope.

(* ================= C137 ================= *)

(* the values are those of the sequentially consistent model: C47 applies *)
Theorem C137_blocks : forall o n b len w, 0 < b -> b + len < 2 ^ 64 -> wexec o n b len w ->
  exec b len (base w) /\
  (forall k q, returned (base w) k q -> within b (b + len) q /\ well_aligned q) /\
  (forall i j q r, returned (base w) i q -> returned (base w) j r -> i <> j -> apart q r).
Proof.
  intros o n b len w Hb Hl H. destruct (step_shape o n b len Hb Hl w H) as (S & _). split; [auto|]. apply C47_blocks_partial; auto.
Qed.

Lemma owned : forall o n b len w k c, 0 < b -> b + len < 2 ^ 64 -> wexec o n b len w -> nth_error (calls (base w)) k = Some c ->
  exists t, nth_error (owner w) k = Some t /\ (t < n)%nat.
Proof.
  intros o n b len w k c Hb Hl H Hk. destruct (step_shape o n b len Hb Hl w H) as (_ & S2 & S3 & _).
  destruct (nth_error (owner w) k) as [t|] eqn:E; [eauto|]. apply nth_error_None in E.
  assert (k < length (calls (base w)))%nat by (apply nth_error_Some; congruence). lia.
Qed.

(* a call fails only where it also fails without any concern about memory orders; blocks can be used by their owners and
   their sizes can be asked *)
Theorem C137_no_data_race : forall n b len w, 0 < b -> b + len < 2 ^ 64 -> wexec code n b len w ->
  (forall k, w_finish n w k = UB -> finish (base w) k = UB) /\
  (forall k q x v, returned (base w) k q -> holds q x -> exists w', w_use n w k x v = Ok w') /\
  (forall k q, returned (base w) k q -> exists w', w_size n w k = Ok (w', Some (size q))).
Proof.
  intros n b len w Hb Hl H. pose proof (step_shape code n b len Hb Hl w H) as S. pose proof S as (S1 & S2 & S3 & S4).
  pose proof (wexec_inv code n b len Hb Hl eq_refl eq_refl w H) as (I1 & I2 & I3).
  pose proof (inv_exec b len Hb Hl _ S1) as (_ & _ & _ & F & _). rewrite Forall_forall in F. split; [|split].
  - intros k U. unfold w_finish in U. unfold aget in U at 1. destruct (nth_error (calls (base w)) k) as [c|] eqn:E1.
    2: { unfold finish, aget. rewrite E1. reflexivity. }
    destruct (owned _ _ _ _ _ _ _ Hb Hl H E1) as (t & E2 & Ht). unfold aget in U. rewrite E2 in U. cbn [bind] in U.
    destruct (header_in n b len Hb Hl w k c S E1) as (L1 & L2).
    assert (A : accesses n true (header (base w) c) 8 t w <> UB).
    { apply accesses_ok; auto. intros y Y1 Y2. eapply I1; eauto. unfold holds. change (N.of_nat 8) with 8 in Y2. lia. }
    destruct (accesses_did n true 8 _ t w Ht A) as (w1 & E & D). rewrite E in U. cbn [bind] in U.
    destruct D as (D1 & _). rewrite D1 in U. destruct (finish (base w) k); cbn [bind] in U; congruence.
  - intros k q x v (c & p & Hk & Hc & ->) Hx. destruct (owned _ _ _ _ _ _ _ Hb Hl H Hk) as (t & E2 & Ht).
    destruct (F c (nth_error_In _ _ Hk)) as (_ & _ & P). rewrite Hc in P. destruct P as (_ & P1 & P2 & _).
    assert (C : cover n w (vw w t) x). { eapply I1; eauto. unfold holds in *. cbn [addr size] in Hx. lia. }
    unfold w_use, aget. rewrite E2. cbn [bind]. destruct v as [v|].
    + destruct (access_did n true x t w Ht (access_ok n true x t w Ht S4 C)) as (w1 & E & _). rewrite E. cbn [bind]. eauto.
    + destruct (access_did n false x t w Ht (access_ok n false x t w Ht S4 C)) as (w1 & E & _). eauto.
  - intros k q R. pose proof (C47_size b len (base w) k q Hb Hl S1 R) as G. destruct R as (c & p & Hk & Hc & ->).
    destruct (owned _ _ _ _ _ _ _ Hb Hl H Hk) as (t & E2 & Ht).
    destruct (F c (nth_error_In _ _ Hk)) as (_ & _ & P). rewrite Hc in P. destruct P as (_ & P1 & P2 & P3 & _).
    unfold w_size, aget. rewrite Hk, E2. cbn [bind]. rewrite Hc. cbn [addr size] in *.
    assert (P1' := P1). unfold region in P1'. cbn [addr] in P1'. rewrite wsub_ge by lia.
    assert (A : accesses n false (p - 8) 8 t w <> UB).
    { apply accesses_ok; auto. intros y Y1 Y2. eapply I1; eauto. unfold holds. change (N.of_nat 8) with 8 in Y2. lia. }
    destruct (accesses_did n false 8 _ t w Ht A) as (w1 & E & D). rewrite E. cbn [bind]. destruct D as (D1 & _). rewrite D1, G. cbn [bind]. eauto.
Qed.

(* what a data race is: a write must be ordered after all accesses of the other threads, a read after their writes *)
Theorem C137_race : forall n t x w, (t < n)%nat ->
  (access n true x t w = UB <-> exists u, (u < n)%nat /\ (vw w t x u < acc w x u)%nat) /\
  (access n false x t w = UB <-> exists u, (u < n)%nat /\ (vw w t x u < lw w x u)%nat).
Proof.
  assert (A : forall n wr t x w, access n wr x t w = UB <-> ordered n wr w (vw w t) x = false).
  { intros n wr t x w. unfold access. destruct (ordered n wr w (vw w t) x); cbn [defined bind]; split; congruence. }
  assert (B : forall n (f : nat -> bool), forallb f (seq 0 n) = false <-> exists u, (u < n)%nat /\ f u = false).
  { intros n f. split.
    - intro H. destruct (existsb (fun u => negb (f u)) (seq 0 n)) eqn:E.
      + apply existsb_exists in E. destruct E as (u & Hu & E). apply in_seq in Hu. exists u. split; [lia|]. destruct (f u); [discriminate|auto].
      + exfalso. assert (T : forallb f (seq 0 n) = true); [|congruence]. apply forallb_forall. intros u Hu.
        destruct (f u) eqn:Fu; [auto|]. assert (X : existsb (fun u => negb (f u)) (seq 0 n) = true); [|congruence].
        apply existsb_exists. exists u. rewrite Fu. auto.
    - intros (u & Hu & E). destruct (forallb f (seq 0 n)) eqn:T; [|auto]. rewrite forallb_forall in T. specialize (T u). rewrite T in E; [discriminate|]. apply in_seq. lia. }
  intros n t x w Ht. rewrite !A. unfold ordered. rewrite !B. split; split; intros (u & Hu & E); exists u; split; auto; try apply Nat.leb_gt; auto;
    apply Nat.leb_gt in E; auto.
Qed.

(* whatever happens before reset happens before every call of alloc that sees the reset: the view of the caller of reset is
   left with _offset, nothing else changes it, and the owner of every call since then has seen it *)
Theorem C137_reset_orders : forall n b len w, 0 < b -> b + len < 2 ^ 64 -> wexec code n b len w ->
  (forall t, mv (w_reset code w t) = vw w t) /\
  (forall t s a w', w_start code w t s a = Ok w' -> mv w' = mv w /\ vle (mv w) (vw w' t)) /\
  (forall k t, nth_error (owner w) k = Some t -> vle (mv w) (vw w t)).
Proof.
  intros n b len w Hb Hl H. pose proof (wexec_inv code n b len Hb Hl eq_refl eq_refl w H) as (I1 & I2 & I3).
  split; [reflexivity|]. split; [|exact I3]. intros t s a w' E. unfold w_start in E. apply bind_Ok in E. destruct E as (s' & _ & E).
  match type of E with Ok ?z = _ => assert (w' = z) by congruence end. subst w'. cbn [mv vw acquire code]. split; [auto|]. rewrite updn_eq. apply vle_join_r.
Qed.

(* ---------- threads that are ordered after everything ---------- *)
Lemma cu_start : forall o n w t s a w', caught_up n w t -> w_start o w t s a = Ok w' -> caught_up n w' t.
Proof.
  intros o n w t s a w' C E x u Hu. specialize (C x u Hu). unfold w_start in E. apply bind_Ok in E. destruct E as (s' & _ & E).
  match type of E with Ok ?z = _ => assert (w' = z) by congruence end. subst w'. cbn [acc vw]. rewrite updn_eq.
  destruct (acquire o); [|auto]. unfold join. lia.
Qed.
Lemma cu_did : forall n t x y w w', did n t x y w w' -> caught_up n w t -> caught_up n w' t.
Proof. intros n t x y w w' (_ & _ & _ & _ & _ & D & _) C z. apply D. exact (C z). Qed.
Lemma cu_finish : forall n w k t w', (t < n)%nat -> nth_error (owner w) k = Some t -> caught_up n w t -> w_finish n w k = Ok w' ->
  caught_up n w' t /\ owner w' = owner w.
Proof.
  intros n w k t w' Ht Ho C H. unfold w_finish in H. apply bind_Ok in H. destruct H as (c & _ & H).
  unfold aget in H. rewrite Ho in H. cbn [bind] in H. apply bind_Ok in H. destruct H as (w1 & E & H). apply bind_Ok in H. destruct H as (s & _ & H).
  assert (w' = set_base w1 s) by congruence. subst w'.
  destruct (accesses_did n true 8 (header (base w) c) t w Ht) as (w2 & E' & D); [congruence|]. assert (w2 = w1) by congruence. subst w2.
  split; [|apply D]. exact (cu_did _ _ _ _ _ _ D C).
Qed.

(* a single thread can do everything that is possible without concern about memory orders *)
Theorem C137_includes_sc : forall b len st, 0 < b -> b + len < 2 ^ 64 -> exec b len st -> exists w, wexec code 1 b len w /\ base w = st.
Proof.
  intros b len st Hb Hl H. enough (exists w, wexec code 1 b len w /\ base w = st /\ caught_up 1 w 0 /\ forall k t, nth_error (owner w) k = Some t -> t = 0%nat)
    as (w & W & B & _) by eauto.
  induction H as [m|st s a st' X (w & W & B & C & O) Ha Hw H|st k st' X (w & W & B & C & O) H|st k q x v X (w & W & B & C & O) Hr Hh Hv|st X (w & W & B & C & O) Hq].
  - exists (w_init b len m). split; [constructor|]. split; [reflexivity|]. split; [intros x u _; cbn; unfold zero; lia|]. intros [|]; discriminate.
  - assert (E : exists w', w_start code w 0 s a = Ok w' /\ base w' = st' /\ owner w' = 0%nat :: owner w).
    { unfold w_start. rewrite B, H. cbn [bind]. eexists. split; [reflexivity|]. split; reflexivity. }
    destruct E as (w' & E & B' & O'). exists w'. split; [eapply we_start; eauto; rewrite B; auto|]. split; [auto|].
    split; [eapply cu_start; eauto|]. rewrite O'. intros [|k] t Hk; cbn in Hk; [congruence|eauto].
  - pose proof (step_shape code 1 b len Hb Hl w W) as S.
    assert (K : exists c, nth_error (calls (base w)) k = Some c).
    { rewrite B. unfold finish, aget in H. destruct (nth_error (calls st) k); [eauto|discriminate]. }
    destruct K as (c & Hk). destruct (owned _ _ _ _ _ _ _ Hb Hl W Hk) as (t & E2 & Ht). assert (t = 0%nat) by eauto. subst t.
    assert (A : accesses 1 true (header (base w) c) 8 0 w <> UB). { apply accesses_ok; [auto|apply S|]. intros y _ _. exact (C y). }
    destruct (accesses_did 1 true 8 _ 0 w Ht A) as (w1 & E & D). pose proof D as (D1 & _).
    assert (Ef : w_finish 1 w k = Ok (set_base w1 st')).
    { unfold w_finish, aget. rewrite Hk, E2. cbn [bind]. rewrite E. cbn [bind]. rewrite D1, B, H. reflexivity. }
    exists (set_base w1 st'). split; [eapply we_finish; eauto|]. split; [reflexivity|].
    destruct (cu_finish _ _ _ _ _ Ht E2 C Ef) as (C' & O'). split; [auto|]. rewrite O'. auto.
  - pose proof (step_shape code 1 b len Hb Hl w W) as S. pose proof Hr as (c & p & Hk & Hc & _). rewrite <- B in Hk.
    destruct (owned _ _ _ _ _ _ _ Hb Hl W Hk) as (t & E2 & Ht). assert (t = 0%nat) by eauto. subst t.
    assert (A : access 1 true x 0 w <> UB). { apply access_ok; [auto|apply S|exact (C x)]. }
    destruct (access_did 1 true x 0 w Ht A) as (w1 & E & D). pose proof D as (D1 & D2 & _).
    assert (Ef : w_use 1 w k x (Some v) = Ok (set_base w1 (mkst (begin_ st) (end_ st) (off st) (upd (mem st) x v) (calls st)))).
    { unfold w_use, aget. rewrite E2. cbn [bind]. rewrite E. cbn [bind]. rewrite D1, B. reflexivity. }
    eexists. split; [eapply (we_use _ _ _ _ w k q x (Some v)); eauto; rewrite B; auto|]. split; [reflexivity|].
    split; [exact (cu_did _ _ _ _ _ _ D C)|]. cbn [set_base owner]. rewrite D2. auto.
  - exists (w_reset code w 0). split; [eapply we_reset; eauto; rewrite B; auto|]. split; [cbn; rewrite B; reflexivity|].
    split; [exact C|]. intros [|]; discriminate.
Qed.

(* ---------- a block that is used again by another thread ---------- *)
Definition dw : wstate := w_init 4096 64 (fun _ => 0).
Section Reuse.
  Variable o : orders.
  Definition r1 := get dw (w_start o dw 0 5 1).
  Definition r2 := get dw (w_finish 2 r1 0).
  Definition r3 := w_reset o r2 0.
  Definition r4 := get dw (w_start o r3 1 8 1).
End Reuse.
Definition is_UB {A} (x : outcome A) : bool := match x with UB => true | _ => false end.
Lemma is_UB_eq : forall A (x : outcome A), is_UB x = true -> x = UB. Proof. intros A []; cbn; congruence. Qed.

Lemma cu_init : caught_up 2 dw 0. Proof. intros x u _. cbn. unfold zero. lia. Qed.
Lemma reuse_exec : forall o, wexec o 2 4096 64 (r4 o) /\ caught_up 2 (r2 o) 0.
Proof.
  intro o.
  assert (E1 : w_start o dw 0 5 1 = Ok (r1 o)) by (unfold r1; apply ok_get; destruct o as [[] []]; vm_compute; reflexivity).
  assert (X1 : wexec o 2 4096 64 (r1 o)).
  { eapply (we_start _ _ _ _ dw 0 5 1); [constructor|lia|right; exists 0; split; [lia|reflexivity]|vm_compute; reflexivity|exact E1]. }
  assert (E2 : w_finish 2 (r1 o) 0 = Ok (r2 o)) by (unfold r2; apply ok_get; destruct o as [[] []]; vm_compute; reflexivity).
  assert (X2 : wexec o 2 4096 64 (r2 o)) by (eapply we_finish; eauto).
  assert (C1 : caught_up 2 (r1 o) 0) by (eapply cu_start; [exact cu_init|exact E1]).
  assert (C2 : caught_up 2 (r2 o) 0) by (apply (cu_finish 2 (r1 o) 0 0 (r2 o)); auto; destruct o as [[] []]; vm_compute; reflexivity).
  split; [|exact C2].
  assert (X3 : wexec o 2 4096 64 (r3 o)).
  { unfold r3. apply (we_reset o 2 4096 64 (r2 o) 0); [exact X2|lia| |exact C2]. intros c Hc. assert (L : forallb (fun c => match cres c with None => false | _ => true end) (calls (base (r2 o))) = true)
      by (destruct o as [[] []]; vm_compute; reflexivity).
    rewrite forallb_forall in L. specialize (L c Hc). destruct (cres c); congruence. }
  eapply (we_start _ _ _ _ (r3 o) 1 8 1); [exact X3|lia|right; exists 0; split; [lia|reflexivity]|destruct o as [[] []]; vm_compute; reflexivity|].
  unfold r4; apply ok_get; destruct o as [[] []]; vm_compute; reflexivity.
Qed.

Lemma race_needs : forall o, is_UB (finish (base (r4 o)) 0) = false /\ (acquire o && release o = false -> is_UB (w_finish 2 (r4 o) 0) = true).
Proof. intros [[] []]; (split; [vm_compute; reflexivity|]); cbn [acquire release andb]; intro E; (discriminate E || (vm_compute; reflexivity)). Qed.

(* both orders are needed, and they suffice *)
Definition no_race (o : orders) : Prop :=
  forall n b len w k, 0 < b -> b + len < 2 ^ 64 -> wexec o n b len w -> w_finish n w k = UB -> finish (base w) k = UB.
Theorem C137_orders_exact : forall o, no_race o <-> acquire o = true /\ release o = true.
Proof.
  intro o. split.
  - intro H. destruct (reuse_exec o) as (X & _). pose proof (race_needs o) as (V & W).
    assert (B : 4096 + 64 < 2 ^ 64) by reflexivity. destruct (acquire o && release o) eqn:E; [apply andb_prop; exact E|]. exfalso.
    specialize (W eq_refl). apply is_UB_eq in W. revert V X W. generalize (r4 o). intros w V X W.
    specialize (H 2%nat 4096 64 w 0%nat eq_refl B X W). rewrite H in V. discriminate V.
  - destruct o as [a r]. cbn. intros (-> & ->) n b len w k Hb Hl X. apply (C137_no_data_race n b len w Hb Hl X).
Qed.

(* non-vacuity: with the orders of the code the second thread completes its call and gets the same byte that the first used *)
Example C137_reuse : wexec code 2 4096 64 (r4 code) /\
  (exists w, w_finish 2 (r4 code) 0 = Ok w /\ returned (base w) 0 (mkb 4104 8 1)) /\ returned (base (r2 code)) 0 (mkb 4104 5 1).
Proof.
  split; [apply reuse_exec|]. split.
  - exists (get dw (w_finish 2 (r4 code) 0)). split; [apply ok_get; vm_compute; reflexivity|].
    do 2 eexists. split; [vm_compute; reflexivity|]. split; reflexivity.
  - do 2 eexists. split; [vm_compute; reflexivity|]. split; reflexivity.
Qed.
(* a thread that resets without being ordered after the users of the blocks is not protected: thread 1 resets, and its next
   call races with the store of thread 0 *)
Example C137_reset_needs_order : ~ caught_up 2 (r2 code) 1 /\
  w_finish 2 (get dw (w_start code (w_reset code (r2 code) 1) 1 8 1)) 0 = UB.
Proof.
  split; [|apply is_UB_eq; vm_compute; reflexivity]. intro C. specialize (C 4096 0%nat ltac:(lia)).
  assert (E : (acc (r2 code) 4096%N 0 <=? vw (r2 code) 1 4096%N 0)%nat = false) by (vm_compute; reflexivity).
  apply Nat.leb_gt in E. lia.
Qed.
(* a block given away is used by the new owner; the old one is still ordered before *)
Example C137_give :
  is_ok (let! w := w_give (r2 code) 0 1 in let! w := w_use 2 w 0 4104 (Some 7) in w_size 2 w 0) = true /\
  is_UB (access 2 false 4096 1 (r2 code)) = true.
Proof. split; vm_compute; reflexivity. Qed.

(* two threads may read the same byte, but not read and write it *)
Example C137_readers :
  is_ok (let! w := access 2 false 4110 0 dw in access 2 false 4110 1 w) = true /\
  is_UB (let! w := access 2 false 4110 0 dw in access 2 true 4110 1 w) = true /\
  is_UB (let! w := access 2 true 4110 0 dw in access 2 false 4110 1 w) = true /\
  is_ok (let! w := access 2 false 4110 0 dw in access 2 true 4110 1 (w_sync w 0 1)) = true.
Proof. repeat split; vm_compute; reflexivity. Qed.

Print Assumptions C137_no_data_race.
Print Assumptions C137_orders_exact.
Print Assumptions C137_includes_sc.

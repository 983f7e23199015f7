(* Theorems about atomic_pool_allocator under release/acquire memory (C141). *)
From Coq Require Import NArith List Lia Bool Arith Permutation.
Import ListNotations.
From Verif Require Import Base AllocSpec AllocProps PoolModel PoolSpec PoolProofs PoolWeakModel PoolWeakProofs.
Open Scope N_scope.

(* the addresses of the blocks: at least one, different, not null *)
Definition usable (blocks : list N) : Prop := blocks <> [] /\ NoDup blocks /\ ~ In 0 blocks.

(* no step of a call and no use of a block by the thread it belongs to is a data race or an access through null *)
Definition race_free (o : orders) (one : bool) (blocks : list N) (threads : nat) : Prop :=
  forall w own, wexec o one blocks threads w own ->
    (forall t pick, pcs w t <> Idle -> w_step o threads w t pick <> UB) /\
    (forall x t write, In (x, t) own -> pcs w t = Idle -> exists w', w_use threads w t x write = Ok w').

(* ================= C141 ================= *)
(* If the calls of alloc are ordered one after the other, then whatever the calls of free do meanwhile nothing races.  Only two
   of the orders are needed.  Full statement: overlapping allocs; refuted below. *)
Theorem C141_no_data_race_partial : forall o blocks threads, usable blocks -> a_load o = true -> f_cas o = true ->
  race_free o true blocks threads.
Proof.
  intros o blocks threads (U1 & U2 & U3) O1 O2 w own H. pose proof (good_exec o blocks threads U2 U3 O1 O2 _ _ U1 H) as (L & lp & n & C & I). split.
  - intros t pick P E. pose proof (i_pc _ _ _ _ _ _ _ I t) as Q. unfold at_pc in Q. unfold w_step in E. destruct (pcs w t); try congruence.
    + destruct (load (a_load o) w t pick) as [[? ?]|]; discriminate.
    + destruct Q as (_ & Q1 & Q2). pose proof (inv_nz _ U3 _ _ _ _ _ _ _ I Q1) as NZ.
      destruct (N.eqb_spec acquired 0) as [|_]; [congruence|]. cbn [negb defined bind] in E.
      destruct (access_ok blocks threads _ _ _ _ _ _ _ _ false I Q2) as (w' & A). rewrite A in E. discriminate.
    + destruct ((fst (newest w) =? acquired) && _); discriminate.
    + destruct (load (f_load o) w t pick) as [[? ?]|]; discriminate.
    + destruct (access_ok blocks threads _ _ _ _ _ _ _ _ true I (i_own _ _ _ _ _ _ _ I _ _ Q)) as (w' & A). rewrite A in E. discriminate.
    + destruct ((fst (newest w) =? expected) && _); discriminate.
  - intros x t write Hx P. unfold w_use. rewrite P.
    destruct write as [v|]; [destruct (access_ok blocks threads _ _ _ _ _ _ _ _ true I (i_own _ _ _ _ _ _ _ I _ _ Hx)) as (w' & A)
                            |destruct (access_ok blocks threads _ _ _ _ _ _ _ _ false I (i_own _ _ _ _ _ _ _ I _ _ Hx)) as (w' & A)];
      rewrite A; cbn; eauto.
Qed.

(* no block belongs to two threads *)
Theorem C141_one_owner_partial : forall o blocks threads w own, usable blocks -> a_load o = true -> f_cas o = true ->
  wexec o true blocks threads w own -> NoDup (map fst own) /\ incl (map fst own) blocks.
Proof.
  intros o blocks threads w own (U1 & U2 & U3) O1 O2 H. pose proof (good_exec o blocks threads U2 U3 O1 O2 _ _ U1 H) as (L & lp & n & C & I).
  split.
  - eapply nodup_r, (inv_nodup _ U2); eauto.
  - intros x Hx. eapply Permutation_in; [apply (i_perm _ _ _ _ _ _ _ I)|]. apply in_or_app. auto.
Qed.

(* a thread that gets a block is ordered after everything that was ever done with it *)
Theorem C141_handed_on_partial : forall o blocks threads w own t pick w' x, usable blocks -> a_load o = true -> f_cas o = true ->
  wexec o true blocks threads w own -> w_step o threads w t pick = Ok (w', Got x) ->
  In x blocks /\ ~ In x (map fst own) /\ forall u, (acc w' x u <= va (vw w' t) x u)%nat.
Proof.
  intros o blocks threads w own t pick w' x (U1 & U2 & U3) O1 O2 H E.
  pose proof (good_exec o blocks threads U2 U3 O1 O2 _ _ U1 (wx_got _ _ _ _ _ _ _ _ _ _ H E)) as (L & lp & n & C & I).
  split; [|split].
  - eapply Permutation_in; [apply (i_perm _ _ _ _ _ _ _ I)|]. apply in_or_app. cbn. auto.
  - pose proof (nodup_r _ _ (inv_nodup _ U2 _ _ _ _ _ _ I)) as N. cbn in N. inversion N; auto.
  - apply (i_own _ _ _ _ _ _ _ I x t). cbn. auto.
Qed.

(* No block is lost: an alloc that reads the newest value passes the check for a full pool exactly if some block belongs to
   nobody, and then returns a block if it runs alone. *)
Theorem C141_nothing_lost_partial : forall o blocks threads w own t, usable blocks -> a_load o = true -> f_cas o = true ->
  wexec o true blocks threads w own -> pcs w t = Idle ->
  (w_alloc o w t None = Contract <-> Permutation (map fst own) blocks) /\ w_alloc o w t None <> UB.
Proof.
  intros o blocks threads w own t (U1 & U2 & U3) O1 O2 H P. pose proof (good_exec o blocks threads U2 U3 O1 O2 _ _ U1 H) as (L & lp & n & C & I).
  unfold w_alloc, load. rewrite P. pose proof (i_len _ _ _ _ _ _ _ I) as Ln. rewrite Ln. replace (S n - 1)%nat with n by lia.
  destruct (Nat.leb_spec (vh (vw w t)) n) as [_|X]; [|pose proof (i_vw _ _ _ _ _ _ _ I t); lia].
  destruct (i_hist _ _ _ _ _ _ _ I n) as (m & M1 & _); [pose proof (i_lp _ _ _ _ _ _ _ I); lia|]. rewrite M1, Nat.sub_diag. cbn [skipn].
  pose proof (i_perm _ _ _ _ _ _ _ I) as PM. destruct L as [|x L].
  - cbn. split; [split; auto|discriminate].
  - pose proof (inv_nz _ U3 _ _ _ _ _ _ x I (or_introl eq_refl)). cbn [hd]. destruct (N.eqb_spec x 0); [congruence|]. split; [|discriminate]. split; [discriminate|].
    intro Q. apply Permutation_length in Q. apply Permutation_length in PM. rewrite app_length in PM. cbn in PM. lia.
Qed.
Theorem C141_alloc_returns_partial : forall o blocks threads w own t, usable blocks -> a_load o = true -> f_cas o = true ->
  wexec o true blocks threads w own -> pcs w t = ALoad ->
  exists w1 w2 w3 x, w_step o threads w t None = Ok (w1, Nothing) /\ w_step o threads w1 t None = Ok (w2, Nothing) /\
    w_step o threads w2 t None = Ok (w3, Got x) /\ pcs w3 t = Idle.
Proof.
  intros o blocks threads w own t U O1 O2 H P. pose proof U as (U1 & U2 & U3).
  pose proof (good_exec o blocks threads U2 U3 O1 O2 _ _ U1 H) as (L & lp & n & C & I).
  assert (NW : nth_error (hist w) n = Some (newest w)).
  { pose proof (last_nth _ (hist w) (0, zero)) as E. pose proof (i_len _ _ _ _ _ _ _ I) as Ln. rewrite Ln in E. replace (S n - 1)%nat with n in E by lia.
    apply E. intro X. rewrite X in Ln. discriminate. }
  assert (S1 : exists w1, w_step o threads w t None = Ok (w1, Nothing) /\ pcs w1 t = ANext (fst (newest w)) /\ hist w1 = hist w).
  { unfold w_step. rewrite P. unfold load. rewrite (i_len _ _ _ _ _ _ _ I). replace (S n - 1)%nat with n by lia.
    destruct (Nat.leb_spec (vh (vw w t)) n) as [_|X]; [|pose proof (i_vw _ _ _ _ _ _ _ I t); lia]. rewrite NW. destruct (newest w) as [x m].
    eexists. split; [reflexivity|]. cbn. rewrite updn_eq. auto. }
  destruct S1 as (w1 & E1 & P1 & H1). pose proof (wx_step _ _ _ _ _ _ _ _ _ H E1) as X1.
  assert (S2 : exists w2, w_step o threads w1 t None = Ok (w2, Nothing) /\ pcs w2 t = ACas (fst (newest w)) (link w1 (fst (newest w))) /\ hist w2 = hist w).
  { destruct (C141_no_data_race_partial o blocks threads U O1 O2 _ _ X1) as (R & _). specialize (R t None ltac:(congruence)). revert R.
    unfold w_step. rewrite P1. destruct (negb _); cbn [defined bind]; [|congruence]. destruct (access threads false (fst (newest w)) t w1) as [w2| | |] eqn:A.
    2,4: unfold access in A; destruct (ordered _ _ _ _ _); discriminate. 2: cbn; congruence.
    intros _. destruct (access_same _ _ _ _ _ _ A) as (A1 & A2 & A3 & _). cbn [bind]. eexists. split; [reflexivity|]. cbn. rewrite updn_eq, A1, A2. auto. }
  destruct S2 as (w2 & E2 & P2 & H2).
  assert (N2 : newest w2 = newest w) by (unfold newest; rewrite H2; auto).
  exists w1, w2. do 2 eexists. split; [exact E1|]. split; [exact E2|]. unfold w_step. rewrite P2, N2, N.eqb_refl. cbn [andb].
  split; [reflexivity|]. cbn. apply updn_eq.
Qed.

(* the blocks of a buffer are usable *)
Theorem C141_blocks : forall b len bk, sane b len bk -> usable (nodes b len bk) /\ forall x, In x (nodes b len bk) <-> is_block b len bk x.
Proof.
  intros b len bk S. split; [|apply in_nodes; auto]. split; [|split].
  - intro E. pose proof (nodes_length b len bk) as X. rewrite E in X. cbn in X. destruct S as (S1 & S2 & S3 & S4 & S5 & S6).
    assert (1 <= len / bk) by (apply N.div_le_lower_bound; lia). unfold cnt in X. lia.
  - apply nodes_nodup; auto.
  - intro H. apply nodes_in in H; auto. destruct S. lia.
Qed.

(* ---------- schedules ---------- *)
Fixpoint take (x : N) (t : nat) (own : list (N * nat)) : option (list (N * nat) * list (N * nat)) :=
  match own with
  | [] => None
  | (y, u) :: l => if (y =? x) && (u =? t)%nat then Some ([], l) else match take x t l with Some (a, b) => Some ((y, u) :: a, b) | None => None end
  end.
Lemma take_split : forall x t own a b, take x t own = Some (a, b) -> own = a ++ (x, t) :: b.
Proof.
  induction own as [|[y u] l IH]; intros a b H; cbn in H; [discriminate|]. destruct (N.eqb_spec y x) as [->|]; cbn [andb] in H.
  - destruct (Nat.eqb_spec u t) as [->|]; [injection H as <- <-; auto|]. destruct (take x t l) as [[a' b']|]; [|discriminate].
    injection H as <- <-. cbn. f_equal. auto.
  - destruct (take x t l) as [[a' b']|]; [|discriminate]. injection H as <- <-. cbn. f_equal. auto.
Qed.
Inductive ev := Step (t : nat) | Free (t : nat) (x : N) | Use (t : nat) (x : N) (write : option N) | Sync (u t : nat).
Fixpoint run (o : orders) (threads : nat) (l : list ev) (w : wstate) (own : list (N * nat)) : outcome (wstate * list (N * nat)) :=
  match l with
  | [] => Ok (w, own)
  | Step t :: l =>
      let! (w, e) := w_step o threads w t None in
      match e with
      | Nothing => run o threads l w own
      | Got x => run o threads l w ((x, t) :: own)
      | Gone x => match take x t own with Some (a, b) => run o threads l w (a ++ b) | None => UB end
      end
  | Free t x :: l => match take x t own with Some _ => let! w := w_free w t x in run o threads l w own | None => UB end
  | Use t x wr :: l => match take x t own with Some _ => let! w := w_use threads w t x wr in run o threads l w own | None => UB end
  | Sync u t :: l => run o threads l (w_sync w u t) own
  end.
Lemma take_in : forall x t own ab, take x t own = Some ab -> In (x, t) own.
Proof. intros x t own [a b] H. apply take_split in H. subst. apply in_or_app. cbn. auto. Qed.
Lemma run_exec : forall o one blocks threads l w own w' own', wexec o one blocks threads w own -> run o threads l w own = Ok (w', own') ->
  wexec o one blocks threads w' own'.
Proof.
  induction l as [|e l IH]; intros w own w' own' X H; cbn [run] in H; [injection H as <- <-; auto|]. destruct e.
  - apply bind_Ok in H. destruct H as ((w1 & e) & E & H). destruct e.
    + eapply IH; [|exact H]. eapply wx_step; eauto.
    + eapply IH; [|exact H]. eapply wx_got; eauto.
    + destruct (take x t own) as [[a b]|] eqn:T; [|discriminate]. apply take_split in T. subst own. eapply IH; [|exact H]. eapply wx_gone; eauto.
  - destruct (take x t own) eqn:T; [|discriminate]. apply take_in in T. apply bind_Ok in H. destruct H as (w1 & E & H).
    eapply IH; [|exact H]. eapply wx_free; eauto.
  - destruct (take x t own) eqn:T; [|discriminate]. apply take_in in T. apply bind_Ok in H. destruct H as (w1 & E & H).
    eapply IH; [|exact H]. eapply wx_use; eauto.
  - eapply IH; [|exact H]. apply wx_sync. auto.
Qed.

(* Two allocs that overlap race, whatever the orders: both read the head; the first one gets the block and its owner writes to
   it, the second one reads the next pointer there.  If the second one has read it before, the write of the owner is the race.
   No free is involved. *)
Definition begin (o : orders) (w : wstate) (t : nat) : wstate := get w (w_alloc o w t None).
Definition rest (o : orders) (l : list ev) (w : wstate) (own : list (N * nat)) : wstate * list (N * nat) := get (w, own) (run o 2 l w own).
Definition both (o : orders) : wstate := begin o (begin o (w_init [8]) 0) 1.
Definition late_read (o : orders) := rest o [Step 1; Step 0; Step 0; Step 0; Use 0 8 (Some 7)] (both o) [].
Definition late_write (o : orders) := rest o [Step 1; Step 1; Step 0; Step 0; Step 0] (both o) [].
Lemma both_exec : forall o, wexec o false [8] 2 (both o) [].
Proof.
  intro o. assert (H0 : wexec o false [8] 2 (begin o (w_init [8]) 0) []).
  { apply (wx_alloc _ _ _ _ (w_init [8]) [] 0%nat None); [apply wx_init|lia|discriminate|]. unfold begin. apply ok_get. destruct o as [[] [] [] [] []]; vm_compute; reflexivity. }
  unfold both. apply (wx_alloc _ _ _ _ (begin o (w_init [8]) 0) [] 1%nat None); [exact H0|lia|discriminate|].
  unfold begin at 2. apply ok_get. destruct o as [[] [] [] [] []]; vm_compute; reflexivity.
Qed.
Theorem C141_overlap_refuted : forall o,
  (exists w own, wexec o false [8] 2 w own /\ own = [(8, 0%nat)] /\ pcs w 1%nat = ANext 8 /\ w_step o 2 w 1 None = UB) /\
  (exists w own, wexec o false [8] 2 w own /\ own = [(8, 0%nat)] /\ pcs w 0%nat = Idle /\ w_use 2 w 0 8 (Some 7) = UB).
Proof.
  intro o. pose proof (both_exec o) as B. split.
  - exists (fst (late_read o)), (snd (late_read o)). split.
    + eapply (run_exec o false [8] 2 _ (both o) []); [exact B|]. rewrite <- surjective_pairing. unfold late_read, rest. apply ok_get.
      destruct o as [[] [] [] [] []]; vm_compute; reflexivity.
    + destruct o as [[] [] [] [] []]; vm_compute; auto.
  - exists (fst (late_write o)), (snd (late_write o)). split.
    + eapply (run_exec o false [8] 2 _ (both o) []); [exact B|]. rewrite <- surjective_pairing. unfold late_write, rest. apply ok_get.
      destruct o as [[] [] [] [] []]; vm_compute; reflexivity.
    + destruct o as [[] [] [] [] []]; vm_compute; auto.
Qed.

(* Thread 0 gets block 8; thread 1, ordered after that, begins an alloc; thread 0 frees the block meanwhile; thread 1 reads the
   next pointer that the free has written.  Exactly when that is a race. *)
Definition first_in (o : orders) := rest o [Step 0; Step 0] (begin o (w_init [8; 16]) 0) [].
Definition first_got (o : orders) : wstate * event := get (fst (first_in o), Nothing) (w_step o 2 (fst (first_in o)) 0 None).
Definition second_in (o : orders) : wstate := begin o (w_sync (fst (first_got o)) 0 1) 1.
Definition freed (o : orders) := rest o [Free 0 8; Step 0; Step 0; Step 0; Step 1] (second_in o) [(8, 0%nat)].
Lemma got_av : forall o threads w t pick w' x, w_step o threads w t pick = Ok (w', Got x) -> av w' = vw w' t.
Proof.
  intros o threads w t pick w' x E. unfold w_step in E. destruct (pcs w t); try discriminate.
  1,4: destruct (load _ w t pick) as [[? ?]|]; discriminate.
  1: { apply bind_Ok in E. destruct E as (? & _ & E). apply bind_Ok in E. destruct E as (? & _ & E). discriminate. }
  2: { apply bind_Ok in E. destruct E as (? & _ & E). discriminate. }
  2: destruct ((fst (newest w) =? expected) && _); discriminate.
  destruct ((fst (newest w) =? acquired) && _); [|discriminate]. injection E as <- _. cbn. rewrite updn_eq. reflexivity.
Qed.
Theorem C141_race : forall o, exists w own, wexec o true [8; 16] 2 w own /\ own = [] /\ pcs w 1%nat = ANext 8 /\
  (w_step o 2 w 1 None = UB <-> a_load o = false \/ f_cas o = false).
Proof.
  intro o. exists (fst (freed o)), (snd (freed o)).
  assert (H0 : wexec o true [8; 16] 2 (begin o (w_init [8; 16]) 0) []).
  { apply (wx_alloc _ _ _ _ (w_init [8; 16]) [] 0%nat None); [apply wx_init|lia| |].
    - intros _. split; [reflexivity|]. split; [cbn; lia|]. intros; cbn; lia.
    - unfold begin. apply ok_get. destruct o as [[] [] [] [] []]; vm_compute; reflexivity. }
  assert (H1 : wexec o true [8; 16] 2 (fst (first_in o)) []).
  { eapply (run_exec _ _ _ _ [Step 0; Step 0]); [exact H0|]. unfold first_in, rest. apply ok_pair; destruct o as [[] [] [] [] []]; vm_compute; reflexivity. }
  assert (G : w_step o 2 (fst (first_in o)) 0 None = Ok (fst (first_got o), Got 8)).
  { unfold first_got. apply ok_pair; destruct o as [[] [] [] [] []]; vm_compute; reflexivity. }
  pose proof (wx_got _ _ _ _ _ _ _ _ _ _ H1 G) as H1'. pose proof (got_av _ _ _ _ _ _ _ G) as AV.
  assert (ID : forall u, allocating (pcs (fst (first_got o)) u) = false).
  { intros [|[|u]]; destruct o as [[] [] [] [] []]; vm_compute; reflexivity. }
  assert (H2 : wexec o true [8; 16] 2 (second_in o) [(8, 0%nat)]).
  { apply (wx_alloc _ _ _ _ (w_sync (fst (first_got o)) 0 1) [(8, 0%nat)] 1%nat None); [apply wx_sync; exact H1'|lia| |].
    - intros _. revert ID AV. generalize (fst (first_got o)). intros w ID AV. split; [exact ID|].
      unfold w_sync. cbn [av vw set_view]. rewrite updn_eq, AV. apply vle_join_r.
    - unfold second_in, begin. apply ok_get. destruct o as [[] [] [] [] []]; vm_compute; reflexivity. }
  split; [|split; [|split]].
  - eapply run_exec; [exact H2|]. rewrite <- surjective_pairing. unfold freed, rest. apply ok_get.
    destruct o as [[] [] [] [] []]; vm_compute; reflexivity.
  - destruct o as [[] [] [] [] []]; vm_compute; reflexivity.
  - destruct o as [[] [] [] [] []]; vm_compute; reflexivity.
  - destruct o as [[] [] [] [] []]; vm_compute; split; auto; try discriminate; intros [|]; discriminate.
Qed.
(* acquire on the load of alloc and release on the compare-exchange of free are exactly what is needed *)
Theorem C141_orders_exact : forall o,
  (forall blocks threads, usable blocks -> race_free o true blocks threads) <-> a_load o = true /\ f_cas o = true.
Proof.
  intro o. split; [|intros (A & B) blocks threads U; apply C141_no_data_race_partial; auto]. intro R.
  destruct (C141_race o) as (w & own & H & _ & P & X).
  assert (U : usable [8; 16]). { split; [discriminate|]. split; [repeat constructor; cbn; intuition discriminate|]. cbn. intuition discriminate. }
  destruct (R _ _ U _ _ H) as (S & _). specialize (S 1%nat None ltac:(congruence)).
  destruct (a_load o); [|exfalso; apply S, X; auto]. destruct (f_cas o); [auto|exfalso; apply S, X; auto].
Qed.

(* non-vacuity: the execution of C141_race goes on; thread 1 gets the freed block and uses it *)
Definition again := rest code [Step 1; Step 1; Use 1 8 (Some 5); Use 1 8 None] (fst (freed code)) (snd (freed code)).
Example C141_ex : fst (newest (fst again)) = 16 /\ snd again = [(8, 1%nat)] /\ link (fst again) 8 = 5.
Proof. vm_compute. auto. Qed.
Example C141_ex_runs : exists r, run code 2 [Step 1; Step 1; Use 1 8 (Some 5); Use 1 8 None] (fst (freed code)) (snd (freed code)) = Ok r.
Proof. exists again. unfold again, rest. apply ok_get. vm_compute. reflexivity. Qed.
(* an alloc that is not ordered after a free may report a full pool although the free has returned *)
Definition one_used := rest code [Step 0; Step 0; Step 0; Free 0 8; Step 0; Step 0; Step 0] (begin code (w_init [8]) 0) [].
Example C141_stale_full : snd one_used = [] /\ pcs (fst one_used) 1%nat = Idle /\ w_alloc code (fst one_used) 1 (Some 1%nat) = Contract /\
  (exists w, w_alloc code (fst one_used) 1 None = Ok w) /\ (exists r, run code 2 [Step 0; Step 0; Step 0; Free 0 8; Step 0; Step 0; Step 0] (begin code (w_init [8]) 0) [] = Ok r).
Proof.
  split; [vm_compute; reflexivity|]. split; [vm_compute; reflexivity|]. split; [vm_compute; reflexivity|]. split.
  - exists (begin code (fst one_used) 1). unfold begin. apply ok_get. vm_compute. reflexivity.
  - exists one_used. unfold one_used, rest. apply ok_get. vm_compute. reflexivity.
Qed.

Print Assumptions C141_no_data_race_partial.
Print Assumptions C141_nothing_lost_partial.
Print Assumptions C141_alloc_returns_partial.
Print Assumptions C141_overlap_refuted.
Print Assumptions C141_orders_exact.
Print Assumptions C141_blocks.

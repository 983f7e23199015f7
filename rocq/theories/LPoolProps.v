(* Theorems about atomic_linked_pool (C50, C51, C52). *)
From Coq Require Import NArith ZArith List Lia Bool Arith Permutation.
Import ListNotations.
From Verif Require Import Base LPoolModel LPoolSpec LPoolProofs.
Open Scope N_scope.

Definition sane (extra size : nat) : Prop := (1 <= extra)%nat /\ (2 <= size)%nat /\ N.of_nat size <= 65535.

(* ================= C50 one owner at a time ================= *)

(* In every execution by any number of threads no slot is owned twice.
   Full statement: without the hypothesis (fresh = true) that no acquire sleeps through 2^32 changes of
   the head; refuted below. *)
Theorem C50_one_owner_partial : forall extra size threads st v, sane extra size -> exec extra size threads true st v ->
  NoDup (map slot (own v)) /\ Forall (fun h => (slot h < size)%nat) (own v).
Proof.
  intros extra size threads st v (S1 & S2 & S3) H. apply exec_inv in H; auto. split.
  - destruct H as (_ & _ & _ & _ & _ & (l & L) & _). apply linv_nodup in L. apply NoDup_app_r in L. eapply NoDup_app_l; eauto.
  - apply Forall_forall. intros h Hh. eapply own_lt; eauto.
Qed.

Lemma flat_count : forall l, length (flat_map rnode l) = count releasing l.
Proof. unfold count. induction l as [|c t IH]; [auto|]. cbn. rewrite app_length, IH. destruct c; auto. Qed.

(* Released slots become available again: an acquire finds a slot whenever fewer slots than the pool size
   are owned or being released, and otherwise reports that the pool is full. *)
Theorem C50_acquire_iff : forall extra size threads st v k, sane extra size -> exec extra size threads true st v ->
  nth_error (thr st) k = Some Idle ->
  ((length (own v) + count releasing (thr st) < size)%nat -> exists st', start_acquire st k = Ok st') /\
  ((length (own v) + count releasing (thr st) >= size)%nat -> start_acquire st k = Contract).
Proof.
  intros extra size threads st v k (S1 & S2 & S3) H Hk. apply exec_inv in H; auto. pose proof H as H0.
  destruct H as (_ & _ & _ & _ & _ & (l & F & P) & _).
  pose proof (Permutation_length P) as PL. rewrite !app_length, map_length, seq_length, flat_count in PL.
  unfold start_acquire, aget. rewrite Hk. cbn [bind]. rewrite (candidate_exact size st v k l H0 (conj F P)).
  split; intro X; destruct l; cbn in PL; try lia; eauto.
Qed.

(* A pending acquire only has to retry if the head changed after it looked at it (or spuriously): some
   other thread made progress. *)
Theorem C50_retry_only_if_raced : forall extra size threads st v k i ver nx m, sane extra size ->
  exec extra size threads true st v -> nth_error (thr st) k = Some (QCas i ver nx) -> nth_error (mark v) k = Some m ->
  chg v = m -> exists st' h, step st k false = Ok (st', Some h) /\ slot h = i.
Proof.
  intros extra size threads st v k i ver nx m (S1 & S2 & S3) H Hk Hm E. apply exec_inv in H; auto.
  destruct H as (I1 & I2 & I3 & I4 & (G1 & _) & (l & F & P) & I7).
  pose proof (I7 _ _ _ Hk Hm) as X. cbn [pc_ok] in X. destruct X as (X1 & X2 & X3 & X4). destruct (X4 E) as (X5 & X6).
  unfold step, aget. rewrite Hk. cbn [bind]. rewrite X5. cbn [idx_eqb]. rewrite Nat.eqb_refl.
  replace (hver st =? ver) with true by (symmetry; apply N.eqb_eq; congruence). cbn [andb negb].
  cbn [with_thr with_head psize gen]. rewrite I1. destruct (Nat.ltb_spec i size); [|lia]. cbn [contract bind].
  destruct (nth_error (gen st) i) as [g|] eqn:Hg; [|apply nth_error_None in Hg; lia]. cbn [bind].
  do 2 eexists. split; [reflexivity|]. apply pack_slot. lia.
Qed.

(* No step accesses the free list or the generations outside their arrays (here with the free list one
   element larger than allocated, see C52). *)
Theorem C50_never_faults : forall extra size threads st v k c sp, sane extra size ->
  exec extra size threads true st v -> nth_error (thr st) k = Some c -> c <> Idle -> step st k sp <> UB.
Proof.
  intros extra size threads st v k c sp (S1 & S2 & S3) H Hk Hc. apply exec_inv in H; auto.
  destruct H as (I1 & I2 & I3 & I4 & (G1 & _) & (l & F & P) & I7).
  assert (exists m, nth_error (mark v) k = Some m) as (m & Hm).
  { assert (k < length (thr st))%nat by (apply nth_error_Some; congruence).
    destruct (nth_error (mark v) k) eqn:Z; [eauto|]. apply nth_error_None in Z. lia. }
  pose proof (I7 _ _ _ Hk Hm) as X. unfold step, aget. rewrite Hk. cbn [bind].
  destruct c as [|i ver|i ver nx|i|i h ver|i h ver]; [congruence| | |discriminate| |].
  - cbn [pc_ok] in X. destruct X as (X1 & _).
    destruct (nth_error (fl st) i) eqn:E; [discriminate|]. apply nth_error_None in E. lia.
  - cbn [pc_ok] in X. destruct X as (X1 & _). destruct (_ && _ && _).
    + cbn [with_thr with_head psize gen]. rewrite I1. destruct (Nat.ltb_spec i size); [|lia]. cbn [contract bind].
      destruct (nth_error (gen st) i) eqn:E; [discriminate|]. apply nth_error_None in E. lia.
    + unfold candidate. destruct (hidx st); discriminate.
  - assert (Hi : (i < size)%nat).
    { eapply (linv_lt extra size S1 S2 S3 st v l); [exact (conj F P)|]. rewrite !in_app_iff. right. right. eapply in_rnode; [exact Hk|left; auto]. }
    rewrite aset_Ok by lia. discriminate.
  - destruct (_ && _ && _); discriminate.
Qed.

(* releasing an owned handle always passes the checks *)
Theorem C50_release_owned : forall extra size threads st v k h, sane extra size -> exec extra size threads true st v ->
  nth_error (thr st) k = Some Idle -> In h (own v) -> exists st', start_release st k h = Ok st'.
Proof.
  intros extra size threads st v k h (S1 & S2 & S3) H Hk Hh. apply exec_inv in H; auto.
  pose proof (own_lt extra size S1 S2 S3 _ _ _ H Hh) as Hs. pose proof H as (I1 & I2 & I3 & I4 & (G1 & G2 & G3 & G4 & G5) & _).
  destruct (G4 h Hh) as (A1 & A2). unfold start_release, aget. rewrite Hk. cbn [bind].
  rewrite (read_owned extra size S1 S2 S3 _ _ _ H A1 Hs), A2, N.eqb_refl. cbn [bind]. rewrite A2. cbn [bind]. rewrite aset_Ok by lia.
  eexists. reflexivity.
Qed.

(* ================= C51 stale handles ================= *)

(* handles in use are alive and denote their slot *)
Theorem C51_owned_alive : forall extra size threads st v h, sane extra size -> exec extra size threads true st v ->
  In h (own v) -> is_alive st h = Ok true /\ get_index st h = Ok (slot h).
Proof.
  intros extra size threads st v h (S1 & S2 & S3) H Hh. apply exec_inv in H; auto.
  pose proof (own_lt extra size S1 S2 S3 _ _ _ H Hh) as Hs. pose proof H as (I1 & I2 & I3 & I4 & (G1 & G2 & G3 & G4 & G5) & _).
  destruct (G4 h Hh) as (A1 & A2). split.
  - unfold is_alive. destruct (N.eqb_spec h 0) as [->|]; [unfold h_ipo in A1; cbn in A1; lia|]. cbn [negb contract bind].
    rewrite A1. destruct (N.eqb_spec (N.of_nat (slot h + 1)) 0); [lia|]. cbn [negb defined bind].
    replace (N.to_nat (N.of_nat (slot h + 1) - 1)) with (slot h) by lia. unfold aget. rewrite A2. cbn [bind].
    rewrite N.eqb_refl. reflexivity.
  - unfold get_index. rewrite (read_owned extra size S1 S2 S3 _ _ _ H A1 Hs), A2, N.eqb_refl. reflexivity.
Qed.

Lemma gen_window : forall c c', 1 <= c <= c' -> ((c - 1) mod 2 ^ 13 =? c' mod 2 ^ 13) = ((c' + 1 - c) mod 2 ^ 13 =? 0).
Proof.
  intros c c' H. change (2 ^ 13) with 8192.
  pose proof (N.div_mod (c - 1) 8192 ltac:(discriminate)) as A. pose proof (N.div_mod c' 8192 ltac:(discriminate)) as B.
  pose proof (N.div_mod (c' + 1 - c) 8192 ltac:(discriminate)) as D.
  pose proof (N.mod_lt (c - 1) 8192 ltac:(discriminate)). pose proof (N.mod_lt c' 8192 ltac:(discriminate)).
  pose proof (N.mod_lt (c' + 1 - c) 8192 ltac:(discriminate)).
  set (a := (c - 1) mod 8192) in *. set (b := c' mod 8192) in *. set (d := (c' + 1 - c) mod 8192) in *.
  set (qa := (c - 1) / 8192) in *. set (qb := c' / 8192) in *. set (qd := (c' + 1 - c) / 8192) in *. clearbody a b d qa qb qd.
  destruct (N.eqb_spec a b), (N.eqb_spec d 0); auto; exfalso; lia.
Qed.

(* Exactly when a released handle is reported alive: if the number of releases of its slot from its own
   release on is a multiple of 8192. *)
Theorem C51_stale_exact : forall extra size threads st v h c c', sane extra size -> exec extra size threads true st v ->
  In (h, c) (dead v) -> nth_error (rel v) (slot h) = Some c' ->
  is_alive st h = Ok ((c' + 1 - c) mod 2 ^ 13 =? 0) /\
  get_index st h = (if (c' + 1 - c) mod 2 ^ 13 =? 0 then Ok (slot h) else Contract).
Proof.
  intros extra size threads st v h c c' (S1 & S2 & S3) H Hh Hc. apply exec_inv in H; auto.
  pose proof H as (I1 & I2 & I3 & I4 & (G1 & G2 & G3 & G4 & G5) & _).
  destruct (G5 h c Hh) as (A1 & c2 & A2 & A3 & A4). assert (c2 = c') by congruence. subst c2.
  assert (Hs : (slot h < size)%nat) by (rewrite <- G2; apply nth_error_Some; congruence).
  destruct (nth_error (gen st) (slot h)) as [g|] eqn:Hg; [|apply nth_error_None in Hg; lia].
  pose proof (G3 _ _ _ Hg Hc) as E. split.
  - unfold is_alive. destruct (N.eqb_spec h 0) as [->|]; [unfold h_ipo in A1; cbn in A1; lia|]. cbn [negb contract bind].
    rewrite A1. destruct (N.eqb_spec (N.of_nat (slot h + 1)) 0); [lia|]. cbn [negb defined bind].
    replace (N.to_nat (N.of_nat (slot h + 1) - 1)) with (slot h) by lia. unfold aget. rewrite Hg. cbn [bind].
    rewrite A4, E, gen_window by auto. reflexivity.
  - unfold get_index. rewrite (read_owned extra size S1 S2 S3 _ _ _ H A1 Hs), Hg, A4, E, gen_window by auto. reflexivity.
Qed.

(* So a released handle is never reported alive, and using it is detected, while its slot has been
   released less than 8192 times since the handle was acquired.
   Full statement: without this bound; refuted below. *)
Theorem C51_stale_detected_partial : forall extra size threads st v h c c', sane extra size ->
  exec extra size threads true st v -> In (h, c) (dead v) -> nth_error (rel v) (slot h) = Some c' ->
  c' + 1 - c < 8192 -> is_alive st h = Ok false /\ get_index st h = Contract.
Proof.
  intros extra size threads st v h c c' S H Hh Hc Hw. destruct (C51_stale_exact _ _ _ _ _ _ _ _ S H Hh Hc) as (E1 & E2).
  destruct S as (S1 & S2 & S3). apply exec_inv in H; auto. destruct H as (_ & _ & _ & _ & (_ & _ & _ & _ & G5) & _).
  destruct (G5 h c Hh) as (A1 & c2 & A2 & A3 & A4). assert (c2 = c') by congruence. subst c2.
  change (2 ^ 13) with 8192 in *. rewrite N.mod_small in E1, E2 by auto.
  destruct (N.eqb_spec (c' + 1 - c) 0); [lia|]. auto.
Qed.

(* ---- running programs ---- *)
Definition in_time_b (v : view) (st : state) (k : nat) : bool :=
  match nth_error (thr st) k with
  | Some (QCas _ _ _) => match nth_error (mark v) k with Some m => chg v <? m + 2 ^ 32 | None => false end
  | _ => true
  end.
Lemma in_time_b_ok : forall v st k, in_time_b v st k = true -> in_time v st k.
Proof.
  intros v st k. unfold in_time_b, in_time. destruct (nth_error (thr st) k) as [[]|]; auto.
  destruct (nth_error (mark v) k); [|discriminate]. intro H. apply N.ltb_lt in H. eauto.
Qed.

Inductive ev := EQ (k : nat) | ER (k : nat) (at_ : nat) | ES (k : nat).   (* ER: release the at_-th owned handle *)
Definition do1 (e : ev) (s : state * view) : option (state * view) :=
  let (st, v) := s in
  match e with
  | EQ k => match start_acquire st k with Ok st' => Some (st', observe v st st' k None) | _ => None end
  | ER k n => match nth_error (own v) n with
              | Some h => match start_release st k h, nth_error (rel v) (slot h) with
                          | Ok st', Some c => Some (st', mkv (firstn n (own v) ++ skipn (S n) (own v)) ((h, c + 1) :: dead v)
                                                       (chg v) (mark v) (lset (rel v) (slot h) (c + 1)))
                          | _, _ => None end
              | None => None end
  | ES k => if in_time_b v st k then
              match step st k false with Ok (st', r) => Some (st', observe v st st' k r) | _ => None end
            else None
  end.
Fixpoint run (l : list ev) (s : state * view) : option (state * view) :=
  match l with [] => Some s | e :: l => match do1 e s with Some s => run l s | None => None end end.

Lemma own_split : forall (l : list N) n h, nth_error l n = Some h -> l = firstn n l ++ h :: skipn (S n) l.
Proof. induction l as [|x l IH]; intros [|n] h H; cbn in *; try discriminate; [congruence|]. f_equal. auto. Qed.

Lemma do1_exec : forall extra size threads fresh e st v st' v', exec extra size threads fresh st v ->
  do1 e (st, v) = Some (st', v') -> exec extra size threads fresh st' v'.
Proof.
  intros extra size threads fresh e st v st' v' X H. destruct e as [k|k n|k]; cbn [do1] in H.
  - destruct (start_acquire st k) eqn:E; try discriminate. injection H as <- <-. eapply x_acquire; eauto.
  - destruct (nth_error (own v) n) as [h|] eqn:Hn; [|discriminate].
    destruct (start_release st k h) eqn:E; try discriminate. destruct (nth_error (rel v) (slot h)) as [c|] eqn:Hc; [|discriminate].
    injection H as <- <-. eapply x_release; eauto.
    apply own_split. auto.
  - destruct (in_time_b v st k) eqn:T; [|discriminate]. destruct (step st k false) as [[st1 r]| | |] eqn:E; try discriminate.
    injection H as <- <-. eapply x_step; eauto. intros _. apply in_time_b_ok. auto.
Qed.

Lemma run_exec : forall extra size threads fresh l st v st' v', exec extra size threads fresh st v ->
  run l (st, v) = Some (st', v') -> exec extra size threads fresh st' v'.
Proof.
  induction l as [|e l IH]; intros st v st' v' X H; cbn [run] in H.
  - injection H as <- <-. auto.
  - destruct (do1 e (st, v)) as [[st1 v1]|] eqn:E; [|discriminate]. eapply IH; [|exact H]. eapply do1_exec; eauto.
Qed.

Definition start_state (extra size threads : nat) : state :=
  match initialize extra size threads with Ok st => st | _ => mks 0 None 0 [] [] [] end.
Definition v0 (size threads : nat) : view := mkv [] [] 1 (repeat 0 threads) (repeat 0 size).

(* ---- refutation of C51: acquire and release one slot 8192 times ---- *)
Definition cycle : list ev := [EQ 0; ES 0; ES 0; ER 0 0; ES 0; ES 0; ES 0].
Fixpoint cycles (n : nat) : list ev := match n with O => [] | S n => cycle ++ cycles n end.
Definition first_handle : N := pack 0 0.
Definition wrap_check (o : option (state * view)) : bool :=
  match o with
  | Some (st, v) => match own v with [] => true | _ => false end
      && match is_alive st first_handle with Ok x => x | _ => false end
      && match get_index st first_handle with Ok 0%nat => true | _ => false end
      && existsb (fun p => (fst p =? first_handle) && (snd p =? 1)) (dead v)
  | None => false
  end.
Lemma wrap_witness : forall l, wrap_check (run l (start_state 1 2 1, v0 2 1)) = true ->
  exists st v, exec 1 2 1 true st v /\ In (first_handle, 1) (dead v) /\ own v = [] /\
  is_alive st first_handle = Ok true /\ get_index st first_handle = Ok 0%nat.
Proof.
  intros l A. destruct (run l (start_state 1 2 1, v0 2 1)) as [[st v]|] eqn:E; [|discriminate]. cbn [wrap_check] in A. exists st, v.
  apply andb_true_iff in A. destruct A as (A & A4). apply andb_true_iff in A. destruct A as (A & A3).
  apply andb_true_iff in A. destruct A as (A1 & A2).
  split; [|split; [|split; [|split]]].
  - eapply run_exec; [|exact E]. apply x_init. reflexivity.
  - apply existsb_exists in A4. destruct A4 as ((h, c) & Hin & P). cbn [fst snd] in P. apply andb_true_iff in P. destruct P as (P1 & P2).
    apply N.eqb_eq in P1, P2. subst. auto.
  - destruct (own v); [auto|discriminate].
  - destruct (is_alive st first_handle) as [[]| | |]; try discriminate. auto.
  - destruct (get_index st first_handle) as [[|]| | |]; try discriminate. auto.
Qed.

(* The handle of the first acquire was released in the first round, and after 8192 rounds (nothing is
   owned) it is reported alive again. *)
Theorem C51_wrap_refuted : exists st v, exec 1 2 1 true st v /\ In (first_handle, 1) (dead v) /\ own v = [] /\
  is_alive st first_handle = Ok true /\ get_index st first_handle = Ok 0%nat.
Proof.
  apply (wrap_witness (cycles (N.to_nat 8192))). vm_compute. reflexivity.
Qed.

(* ---- refutation of C50: the version counter wraps after 2^32 changes ---- *)
(* Thread 0 has read head 0 (version 1) and its successor 1.  Thread 1 takes 0, 1 and 2, gives back 0, and
   then takes and gives back 0 another 2^31 - 2 times: the head is again index 0, version 1.  The
   compare-exchange of thread 0 succeeds and makes slot 1, which is owned, the head. *)
Definition prefix : list ev :=
  [EQ 0; ES 0; EQ 1; ES 1; ES 1; EQ 1; ES 1; ES 1; EQ 1; ES 1; ES 1; ER 1 2; ES 1; ES 1; ES 1].
Definition wst (ver g : N) : state :=
  mks 4 (Some 0%nat) ver [Some 3%nat; Some 2%nat; Some 3%nat; None] [g; 0; 0; 0] [QCas 0 1 (Some 1%nat); Idle].
Definition held : list N := [pack 2 0; pack 1 0].

Lemma wst_prefix : exists v, exec 1 4 2 false (wst 5 1) v /\ own v = held /\ nth_error (rel v) 0 = Some 1.
Proof.
  destruct (run prefix (start_state 1 4 2, v0 4 2)) as [[st v]|] eqn:E; [|vm_compute in E; discriminate].
  pose proof E as E0. vm_compute in E. injection E as E1 E2. exists v.
  split; [|split; [rewrite <- E2; reflexivity|rewrite <- E2; reflexivity]].
  replace (wst 5 1) with st by (rewrite <- E1; reflexivity).
  eapply run_exec; [|exact E0]. apply x_init. reflexivity.
Qed.

Lemma wst_round : forall ver g v c, exec 1 4 2 false (wst ver g) v -> own v = held -> nth_error (rel v) 0 = Some c ->
  g < 2 ^ 13 -> ver < 2 ^ 32 ->
  exists v' c', exec 1 4 2 false (wst (wadd 32 (wadd 32 ver 1) 1) (wadd 13 g 1)) v' /\ own v' = held /\ nth_error (rel v') 0 = Some c'.
Proof.
  intros ver g v c X Ho Hr Hg Hv.
  (* acquire *)
  pose (s1 := mks 4 (Some 0%nat) ver [Some 3%nat; Some 2%nat; Some 3%nat; None] [g; 0; 0; 0] [QCas 0 1 (Some 1%nat); QNext 0 ver]).
  pose (s2 := mks 4 (Some 0%nat) ver [Some 3%nat; Some 2%nat; Some 3%nat; None] [g; 0; 0; 0] [QCas 0 1 (Some 1%nat); QCas 0 ver (Some 3%nat)]).
  pose (s3 := mks 4 (Some 3%nat) (wadd 32 ver 1) [Some 3%nat; Some 2%nat; Some 3%nat; None] [g; 0; 0; 0] [QCas 0 1 (Some 1%nat); Idle]).
  assert (E1 : start_acquire (wst ver g) 1 = Ok s1) by reflexivity.
  assert (E2 : step s1 1 false = Ok (s2, None)) by reflexivity.
  assert (E3 : step s2 1 false = Ok (s3, Some (pack 0 g))).
  { unfold step, s2. cbn [aget thr nth_error bind hidx hver idx_eqb Nat.eqb]. rewrite N.eqb_refl. reflexivity. }
  pose proof (x_acquire _ _ _ _ _ _ _ _ X E1) as X1. cbv beta in X1. set (v1 := observe v (wst ver g) s1 1 None) in *.
  pose proof (x_step _ _ _ false _ _ _ _ _ _ X1 ltac:(discriminate) E2) as X2. set (v2 := observe v1 s1 s2 1 None) in *.
  pose proof (x_step _ _ _ false _ _ _ _ _ _ X2 ltac:(discriminate) E3) as X3. set (v3 := observe v2 s2 s3 1 (Some (pack 0 g))) in *.
  assert (O3 : own v3 = pack 0 g :: held) by (change (own v3) with (pack 0 g :: own v); congruence).
  assert (R3 : nth_error (rel v3) 0 = Some c) by exact Hr.
  clearbody v3. clear X2 X1 X v2 v1.
  (* release *)
  pose (g' := wadd 13 g 1). pose (w := wadd 32 ver 1).
  pose (s4 := mks 4 (Some 3%nat) w [Some 3%nat; Some 2%nat; Some 3%nat; None] [g'; 0; 0; 0] [QCas 0 1 (Some 1%nat); RLoad 0]).
  pose (s5 := mks 4 (Some 3%nat) w [Some 3%nat; Some 2%nat; Some 3%nat; None] [g'; 0; 0; 0] [QCas 0 1 (Some 1%nat); RStore 0 (Some 3%nat) w]).
  pose (s6 := mks 4 (Some 3%nat) w [Some 3%nat; Some 2%nat; Some 3%nat; None] [g'; 0; 0; 0] [QCas 0 1 (Some 1%nat); RCas 0 (Some 3%nat) w]).
  assert (B : N.of_nat 0 < 65535) by reflexivity.
  assert (E4 : start_release s3 1 (pack 0 g) = Ok s4).
  { unfold start_release, s3. cbn [aget thr nth_error bind]. unfold read_handle_index.
    destruct (N.eqb_spec (pack 0 g) 0) as [Z|_]; [exfalso; exact (pack_nz 0 g B Z)|]. cbn [negb contract bind].
    rewrite (pack_ipo 0 g B), (pack_gen 0 g B). cbn [psize gen]. rewrite (N.mod_small g) by auto.
    change (wsub 32 (N.of_nat (0 + 1)) 1) with 0. change (0 <? N.of_nat 4) with true. cbn [contract bind].
    change (N.to_nat 0) with 0%nat. cbn [aget nth_error bind]. rewrite N.eqb_refl. reflexivity. }
  assert (Sl : slot (pack 0 g) = 0%nat) by (apply pack_slot; auto).
  pose proof (x_release _ _ _ _ s3 v3 1 (pack 0 g) [] held s4 c X3 O3 E4 ltac:(rewrite Sl; exact R3)) as X4.
  rewrite Sl in X4. set (v4 := mkv _ _ _ _ _) in X4.
  assert (O4 : own v4 = held) by reflexivity.
  assert (R4 : nth_error (rel v4) 0 = Some (c + 1)).
  { unfold v4. cbn [rel]. apply lset_nth_eq. apply nth_error_Some. congruence. }
  clearbody v4.
  assert (E5 : step s4 1 false = Ok (s5, None)) by reflexivity.
  assert (E6 : step s5 1 false = Ok (s6, None)) by reflexivity.
  assert (E7 : step s6 1 false = Ok (wst (wadd 32 w 1) g', None)).
  { unfold step, s6. cbn [aget thr nth_error bind hidx hver idx_eqb Nat.eqb]. rewrite N.eqb_refl. reflexivity. }
  pose proof (x_step _ _ _ false _ _ _ _ _ _ X4 ltac:(discriminate) E5) as X5.
  pose proof (x_step _ _ _ false _ _ _ _ _ _ X5 ltac:(discriminate) E6) as X6.
  pose proof (x_step _ _ _ false _ _ _ _ _ _ X6 ltac:(discriminate) E7) as X7.
  do 2 eexists. split; [exact X7|]. split; [exact O4|exact R4].
Qed.

Lemma wst_rounds : forall n, exists v c g, exec 1 4 2 false (wst ((5 + 2 * N.of_nat n) mod 2 ^ 32) g) v /\ own v = held /\
  nth_error (rel v) 0 = Some c /\ g < 2 ^ 13.
Proof.
  induction n as [|n IH].
  - destruct wst_prefix as (v & X & O & R). exists v, 1, 1. split; [exact X|]. split; [auto|]. split; [auto|]. reflexivity.
  - destruct IH as (v & c & g & X & O & R & G).
    assert (Hv : (5 + 2 * N.of_nat n) mod 2 ^ 32 < 2 ^ 32) by (apply N.mod_lt; cbv; discriminate).
    destruct (wst_round _ _ _ _ X O R G Hv) as (v' & c' & X' & O' & R').
    exists v', c', (wadd 13 g 1). split; [|split; [auto|split; [auto|apply wrap_lt]]].
    rewrite !wver in X'. replace (5 + 2 * N.of_nat (S n)) with (5 + 2 * N.of_nat n + 1 + 1) by lia. exact X'.
Qed.

Theorem C50_version_wrap_refuted : exists st v, exec 1 4 2 false st v /\ ~ NoDup (map slot (own v)).
Proof.
  assert (exists n, N.of_nat n = 2 ^ 31 - 2) as (n & Hn) by (eexists; apply N2Nat.id).
  destruct (wst_rounds n) as (v & c & g & X & O & _ & G). rewrite Hn in X. clear Hn n.
  change ((5 + 2 * (2 ^ 31 - 2)) mod 2 ^ 32) with 1 in X.
  assert (B : N.of_nat 0 < 65535) by reflexivity.
  pose (s1 := mks 4 (Some 1%nat) 2 [Some 3%nat; Some 2%nat; Some 3%nat; None] [g; 0; 0; 0] [Idle; Idle]).
  assert (E1 : step (wst 1 g) 0 false = Ok (s1, Some (pack 0 g))) by reflexivity.
  pose proof (x_step _ _ _ false _ _ _ _ _ _ X ltac:(discriminate) E1) as X1.
  set (v1 := observe v (wst 1 g) s1 0 (Some (pack 0 g))) in X1.
  assert (O1 : own v1 = pack 0 g :: held) by (change (own v1) with (pack 0 g :: own v); congruence).
  clearbody v1. clear X v O c.
  pose (s2 := mks 4 (Some 1%nat) 2 [Some 3%nat; Some 2%nat; Some 3%nat; None] [g; 0; 0; 0] [QNext 1 2; Idle]).
  pose (s3 := mks 4 (Some 1%nat) 2 [Some 3%nat; Some 2%nat; Some 3%nat; None] [g; 0; 0; 0] [QCas 1 2 (Some 2%nat); Idle]).
  pose (s4 := mks 4 (Some 2%nat) 3 [Some 3%nat; Some 2%nat; Some 3%nat; None] [g; 0; 0; 0] [Idle; Idle]).
  assert (E2 : start_acquire s1 0 = Ok s2) by reflexivity.
  assert (E3 : step s2 0 false = Ok (s3, None)) by reflexivity.
  assert (E4 : step s3 0 false = Ok (s4, Some (pack 1 0))) by reflexivity.
  pose proof (x_acquire _ _ _ _ _ _ _ _ X1 E2) as X2.
  pose proof (x_step _ _ _ false _ _ _ _ _ _ X2 ltac:(discriminate) E3) as X3.
  pose proof (x_step _ _ _ false _ _ _ _ _ _ X3 ltac:(discriminate) E4) as X4.
  eexists. eexists. split; [exact X4|].
  match goal with |- ~ NoDup (map slot (own ?w)) => change (own w) with (pack 1 0 :: own v1) end.
  rewrite O1. cbn [map held]. intro N. inversion N as [|? ? H _]. apply H. right. right. left. reflexivity.
Qed.

(* ================= C52 initialize ================= *)

(* initialize as written writes behind the free list array, for every pool size *)
Theorem C52_overrun_refuted : forall size threads, (2 <= size)%nat -> N.of_nat size <= 65535 ->
  initialize 0 size threads = UB.
Proof.
  intros size threads H1 H2. unfold initialize.
  destruct (N.leb_spec (N.of_nat size) (2 ^ 16 - 1)) as [|X]; [|change (2 ^ 16) with 65536 in X; lia].
  destruct (Nat.ltb_spec 1 size); [|lia]. cbn [contract bind]. rewrite Nat.add_0_r.
  assert (G : forall todo i a, (i + todo = length a)%nat -> exists a', link_loop todo i a = Ok a' /\ length a' = length a).
  { induction todo as [|todo IH]; intros i a Hi; cbn [link_loop]; [eauto|].
    rewrite aset_Ok by lia. cbn [bind]. destruct (IH (i + 1)%nat (lset a i (Some (i + 1)%nat))) as (a' & E & L);
      [rewrite lset_length; lia|]. rewrite lset_length in L. eauto. }
  destruct (G (size - 1)%nat 0%nat (repeat None (size - 1))) as (a & E & L); [rewrite repeat_length; lia|].
  rewrite repeat_length in L. rewrite E. cbn [bind]. unfold aset. rewrite L. rewrite Nat.ltb_irrefl. reflexivity.
Qed.

(* With one more element (sizeof(int32_t) * _pool_size) all writes are inside, and the list links all slots
   in order. *)
Theorem C52_one_more_suffices_partial : forall size threads, (2 <= size)%nat -> N.of_nat size <= 65535 ->
  exists st, initialize 1 size threads = Ok st /\ fchain (fl st) (hidx st) (seq 0 size) /\ length (fl st) = size.
Proof.
  intros size threads H1 H2. destruct (initialize_ok 1 size threads (le_n 1) H1 H2) as (a & E & L & F).
  eexists. split; [exact E|]. split; [exact F|]. cbn [fl].
  (* the array has exactly size elements *)
  unfold initialize in E. destruct (N.leb_spec (N.of_nat size) (2 ^ 16 - 1)) as [|X]; [|change (2 ^ 16) with 65536 in X; lia].
  destruct (Nat.ltb_spec 1 size); [|lia]. cbn [contract bind] in E.
  destruct (link_loop_ok 1 size (le_n 1) H1 H2 (size - 1) 0 (repeat None (size - 1 + 1))) as (a' & E' & L' & _); [rewrite repeat_length; lia|].
  rewrite repeat_length in L'. rewrite E' in E. cbn [bind] in E. rewrite aset_Ok in E by lia. cbn [bind] in E.
  assert (a = lset a' (size - 1) None) by congruence. subst a. rewrite lset_length. lia.
Qed.

(* too small or too large pools are rejected *)
Theorem C52_rejects : forall extra size threads, (size <= 1)%nat \/ 65535 < N.of_nat size ->
  initialize extra size threads = Contract.
Proof.
  intros extra size threads H. unfold initialize.
  destruct (N.leb_spec (N.of_nat size) (2 ^ 16 - 1)) as [X|X]; [|reflexivity]. change (2 ^ 16 - 1) with 65535 in X.
  destruct (Nat.ltb_spec 1 size); [lia|reflexivity].
Qed.

(* non-vacuity: two threads, overlapping acquires and a release *)
Definition sample : list ev := [EQ 0; EQ 1; ES 0; ES 1; ES 1; ES 0; ES 0; ES 0; ER 1 1; ES 1; EQ 0; ES 0; ES 1; ES 1].
Example C50_ex : exists st v, exec 1 3 2 true st v /\ length (own v) = 1%nat /\ length (dead v) = 1%nat.
Proof.
  destruct (run sample (start_state 1 3 2, v0 3 2)) as [[st v]|] eqn:E; [|vm_compute in E; discriminate].
  exists st, v. split; [eapply run_exec; [|exact E]; apply x_init; reflexivity|].
  vm_compute in E. injection E as _ <-. split; reflexivity.
Qed.
Example C51_ex : exists st v h c c', exec 1 3 2 true st v /\ In (h, c) (dead v) /\ nth_error (rel v) (slot h) = Some c' /\ c' + 1 - c < 8192.
Proof.
  destruct (run sample (start_state 1 3 2, v0 3 2)) as [[st v]|] eqn:E; [|vm_compute in E; discriminate].
  pose proof E as E0. vm_compute in E. injection E as _ Ev.
  exists st, v. rewrite <- Ev. do 3 eexists. split; [rewrite Ev; eapply run_exec; [|exact E0]; apply x_init; reflexivity|].
  cbn [dead]. split; [left; reflexivity|]. split; [reflexivity|reflexivity].
Qed.

Print Assumptions C50_one_owner_partial.
Print Assumptions C50_acquire_iff.
Print Assumptions C50_retry_only_if_raced.
Print Assumptions C50_never_faults.
Print Assumptions C50_release_owned.
Print Assumptions C51_owned_alive.
Print Assumptions C51_stale_exact.
Print Assumptions C51_stale_detected_partial.
Print Assumptions C51_wrap_refuted.
Print Assumptions C50_version_wrap_refuted.
Print Assumptions C52_overrun_refuted.
Print Assumptions C52_one_more_suffices_partial.
Print Assumptions C52_rejects.

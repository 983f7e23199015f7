(* Theorems about atomic_pool_allocator (C48, C49, C90). *)
From Coq Require Import NArith ZArith List Lia Bool Arith Permutation.
Import ListNotations.
From Verif Require Import Base BitsModel BitsSpec BitsProofs AllocModel AllocSpec AllocProofs AllocProps
  PoolModel PoolSpec PoolProofs.
Open Scope N_scope.

Definition as_block (bk q : N) : block := mkb q bk 1.

Lemma owned_good : forall b len bk, sane b len bk -> forall l own rest p, linv b len bk p l (own ++ rest) ->
  NoDup own /\ Forall (is_block b len bk) own /\ good_blocks b (b + len) (map (as_block bk) own).
Proof.
  intros b len bk S l own rest p I. pose proof (linv_nodup _ _ _ S _ _ _ I) as ND.
  assert (N : NoDup own).
  { revert ND. clear. induction l as [|c t IH]; cbn; intro N; [|inversion N; auto].
    induction own as [|o u IHo]; [constructor|]. cbn in N. inversion N; subst. constructor; auto.
    intro. apply H1. apply in_or_app; auto. }
  assert (B : forall q, In q own -> In q (nodes b len bk)).
  { intros q Hq. eapply linv_in; [exact I|]. rewrite !in_app_iff. auto. }
  split; [auto|]. split.
  - apply Forall_forall. intros q Hq. apply in_nodes; auto.
  - clear I ND. split; [|split].
    + apply Forall_map, Forall_forall. intros q Hq. specialize (B q Hq). apply nodes_in in B; auto.
    + apply Forall_map, Forall_forall. intros q Hq. exists q. cbn. lia.
    + induction own as [|o u IH]; cbn; [auto|]. inversion N; subst. split.
      * apply Forall_map, Forall_forall. intros q Hq x (X1 & X2). unfold holds, as_block in *. cbn in *.
        assert (D : o <> q) by congruence.
        destruct (nodes_apart b len bk S o q (B o (or_introl eq_refl)) (B q (or_intror Hq)) D); lia.
      * apply IH; auto. intros; apply B; right; auto.
Qed.

(* ================= C48 one thread ================= *)

(* The owned blocks are distinct blocks of the pool: inside the buffer and pairwise disjoint. *)
Theorem C48_blocks : forall b len bk p own, sane b len bk -> hist b len bk p own ->
  NoDup own /\ Forall (is_block b len bk) own /\ good_blocks b (b + len) (map (as_block bk) own).
Proof.
  intros b len bk p own S H. apply hist_inv in H; auto. destruct H as (l & I).
  rewrite <- (app_nil_r own) in I. eapply owned_good; eauto.
Qed.

(* alloc succeeds as long as fewer blocks than the capacity are owned, with a block nobody owns; the
   block is aligned if buffer and block size are *)
Theorem C48_alloc_succeeds : forall b len bk p own s k, sane b len bk -> hist b len bk p own ->
  N.of_nat (length own) < len / bk -> s <= bk -> k < 64 -> (2 ^ k | b) -> (2 ^ k | bk) ->
  exists p' q, Seq.alloc p s (2 ^ k) = Ok (p', q) /\ ~ In q own /\ is_block b len bk q /\ (2 ^ k | q).
Proof.
  intros b len bk p own s k S H Hc Hs Hk Db Dk. apply hist_inv in H; auto. destruct H as (l & I).
  pose proof (linv_count _ _ _ _ _ _ I) as LC.
  destruct l as [|a t]; [unfold cnt in LC; cbn in LC; lia|].
  rewrite (alloc_exact b len bk S _ _ _ _ _ _ I). destruct (N.leb_spec s bk); [|lia].
  destruct (first_nz _ _ _ S _ _ _ _ I) as (_ & Hz & Hn). pose proof (nodes_in b len bk S _ Hn) as B.
  assert (Da : (2 ^ k | a)).
  { apply in_nodes in Hn; auto. destruct Hn as (i & _ & ->). apply N.divide_add_r; [auto|]. apply N.divide_mul_r. auto. }
  assert (E : is_aligned a (2 ^ k) = true).
  { apply is_aligned_spec; auto. unfold is_word. destruct S as (_ & ? & _). lia. }
  rewrite E. do 2 eexists. split; [reflexivity|]. split; [|split; [apply in_nodes; auto|auto]].
  intro Ho. apply (linv_not_in _ _ _ S _ _ _ _ I Ho). left; auto.
Qed.

(* asking for more than the capacity is detected *)
Theorem C48_alloc_full : forall b len bk p own s a, sane b len bk -> hist b len bk p own ->
  N.of_nat (length own) = len / bk -> Seq.alloc p s a = Contract.
Proof.
  intros b len bk p own s a S H Hc. apply hist_inv in H; auto. destruct H as (l & I).
  pose proof (linv_count _ _ _ _ _ _ I) as LC.
  destruct l as [|c t]; [eapply alloc_full; eauto|]. unfold cnt in LC. cbn in LC. lia.
Qed.

(* freeing an owned block always succeeds, and alloc returns it next *)
Theorem C48_free : forall b len bk p own q s, sane b len bk -> hist b len bk p own -> In q own ->
  exists p', Seq.free p q = Ok p' /\ (s <= bk -> exists p'', Seq.alloc p' s 1 = Ok (p'', q)).
Proof.
  intros b len bk p own q s S H Hq. pose proof H as H0. apply hist_inv in H; auto. destruct H as (l & I).
  pose proof (free_exact b len bk S _ _ _ _ I Hq) as E. eexists. split; [exact E|]. intro Hs.
  apply in_split in Hq. destruct Hq as (o1 & o2 & ->).
  assert (I2 : linv b len bk (mkp b len bk q (store (mem p) q 8 (first p))) (q :: l) (o1 ++ o2)).
  { assert (Hin : In q (o1 ++ q :: o2)) by (apply in_or_app; right; left; auto).
    assert (Hn' : In q (nodes b len bk)) by (eapply linv_in; [exact I|apply in_or_app; auto]).
    pose proof (first_lt b len bk S _ _ _ I) as Hf.
    apply (linv_push b len bk (mkp b len bk (first p) (store (mem p) q 8 (first p)))).
    - eapply linv_perm; [eapply linv_store; eauto|]. apply Permutation_sym. apply Permutation_middle.
    - cbn [mem first]. apply (store_same b len bk S); auto. }
  rewrite (alloc_exact b len bk S _ _ _ _ _ _ I2). destruct (N.leb_spec s bk); [|lia].
  replace (is_aligned q 1) with true; [eauto|]. symmetry. unfold is_aligned. change (wsub 64 1 1) with 0. rewrite N.land_0_r. reflexivity.
Qed.

(* neither call changes a byte of a block that is owned before and after *)
Theorem C48_contents : forall b len bk p own q x, sane b len bk -> hist b len bk p own -> In q own -> q <= x < q + bk ->
  (forall s a p' r, Seq.alloc p s a = Ok (p', r) -> mem p' x = mem p x) /\
  (forall r p', In r own -> r <> q -> Seq.free p r = Ok p' -> mem p' x = mem p x).
Proof.
  intros b len bk p own q x S H Hq Hx. apply hist_inv in H; auto. destruct H as (l & I).
  assert (Hn : forall r, In r own -> In r (nodes b len bk)) by (intros; eapply linv_in; [exact I|apply in_or_app; auto]).
  split.
  - intros s a p' r E. destruct l as [|c t].
    + rewrite (alloc_full _ _ _ _ _ _ _ I) in E. discriminate.
    + rewrite (alloc_exact b len bk S _ _ _ _ _ _ I) in E. destruct (s <=? bk); [|discriminate].
      destruct (is_aligned c a); [|discriminate]. assert (p' = set_first p (load (mem p) c 8)) by congruence. subst. reflexivity.
  - intros r p' Hr Hne E. rewrite (free_exact b len bk S _ _ _ _ I Hr) in E.
    match type of E with Ok ?y = _ => assert (p' = y) by congruence end. subst p'. cbn [mem].
    pose proof (nodes_apart b len bk S r q (Hn _ Hr) (Hn _ Hq) Hne) as D.
    pose proof (nodes_in b len bk S _ (Hn _ Hr)) as B1. pose proof (nodes_in b len bk S _ (Hn _ Hq)) as B2.
    destruct S as (_ & S2 & _ & S4 & _). apply store_other; lia.
Qed.

(* get_node_index numbers the blocks 0, 1, 2, ... *)
Theorem C48_index : forall b len bk p own i, sane b len bk -> hist b len bk p own -> i < len / bk ->
  get_node_index p (b + i * bk) = Ok i.
Proof.
  intros b len bk p own i S H Hi. apply hist_inv in H; auto. destruct H as (l & (F & _)).
  unfold get_node_index, get_node_offset_bytes. rewrite (check_node b len bk S) by (auto; apply in_nodes; auto; exists i; auto).
  destruct F as (B & L & K). cbn [bind]. rewrite B, K. replace (b + i * bk - b) with (i * bk) by lia.
  destruct S as (_ & _ & _ & S4 & _). rewrite N.div_mul by lia. reflexivity.
Qed.

(* initialize succeeds on every sensible buffer (fuel: number of blocks) *)
Theorem C48_initialize : forall b len bk m, sane b len bk -> exists p, initialize (N.to_nat (len / bk)) b len bk m = Ok p.
Proof. intros. eapply initialize_ok; eauto. Qed.
(* blocks too small for the free list link, or larger than the buffer, are rejected *)
Theorem C48_initialize_contract : forall fuel b len bk m, bk < 8 \/ len < bk -> initialize fuel b len bk m = Contract.
Proof.
  intros fuel b len bk m H. unfold initialize. destruct (N.leb_spec 8 bk); cbn [contract bind]; auto.
  destruct (N.leb_spec bk len); cbn [contract bind]; auto. lia.
Qed.

(* ================= C49 many threads ================= *)

(* No block has two owners, if alloc calls do not overlap each other (one = true; any number of frees
   overlap them) or allocs do not overlap frees (one = false).
   Full statement: every execution (anyexec); refuted below. *)
Theorem C49_one_owner_partial : forall b len bk one roomy st own, sane b len bk -> exec b len bk one roomy st own ->
  NoDup own /\ Forall (is_block b len bk) own /\ good_blocks b (b + len) (map (as_block bk) own).
Proof.
  intros b len bk one roomy st own S H. apply exec_cinv in H; auto. destruct H as (l & I & _). eapply owned_good; eauto.
Qed.

(* No call touches memory outside the buffer, if also (for overlapping allocs) the clients together never
   ask for more than the capacity. *)
Theorem C49_never_faults_partial : forall b len bk one roomy st own k c sp, sane b len bk -> exec b len bk one roomy st own ->
  one = true \/ roomy = true -> nth_error (Con.thr st) k = Some c -> c <> Con.Idle -> Con.step st k sp <> UB.
Proof.
  intros b len bk one roomy st own k c sp S H M Hk Hc. apply exec_cinv in H; auto. destruct H as (l & I & F & _).
  rewrite Forall_forall in F. pose proof (nth_error_In _ _ Hk) as Hin. specialize (F c Hin).
  pose proof I as (Fi & _ & _). unfold Con.step, aget. rewrite Hk. cbn [bind].
  destruct c as [|al|al a|al a nx|n|n e|n e]; [congruence|discriminate| | |discriminate| |].
  - cbn [pc_ok] in F. destruct F as (F1 & F2 & F3).
    assert (Hn : In a (nodes b len bk)).
    { destruct M as [M | M]; [eapply linv_in; [exact I|apply in_or_app; auto]|]. destruct F3 as [Z|]; [exact (False_ind _ (F2 M Z))|auto]. }
    rewrite (rd_node b len bk S) by auto. discriminate.
  - destruct (_ && _); [|discriminate]. destruct (is_aligned a al); discriminate.
  - assert (Hn : In n (nodes b len bk)).
    { eapply linv_in; [exact I|]. apply in_or_app. right. apply in_or_app. right. eapply fnode_in; [exact Hin|left; auto]. }
    rewrite (wr_node b len bk S) by auto. discriminate.
  - destruct (_ && _); discriminate.
Qed.

(* No block is lost: whenever owned blocks and frees in flight are fewer than the capacity, a new alloc
   passes the check that the pool is not full. *)
Theorem C49_nothing_lost_partial : forall b len bk one roomy st own s a, sane b len bk -> exec b len bk one roomy st own ->
  N.of_nat (length own + count freeing (Con.thr st)) < len / bk -> s <= bk -> exists st', Con.start_alloc st s a = Ok st'.
Proof.
  intros b len bk one roomy st own s a S H Hc Hs. apply exec_cinv in H; auto. destruct H as (l & I & _).
  pose proof (linv_count _ _ _ _ _ _ I) as LC. rewrite app_length in LC.
  assert (FL : length (flat_map fnode (Con.thr st)) = count freeing (Con.thr st)).
  { unfold count. generalize (Con.thr st). clear. induction l as [|c t IH]; [auto|]. cbn. rewrite app_length, IH. destruct c; auto. }
  destruct l as [|c t]; [unfold cnt in LC; cbn in LC; lia|].
  destruct (first_nz _ _ _ S _ _ _ _ I) as (E & Hz & _). destruct I as ((_ & _ & K) & _).
  unfold Con.start_alloc, is_full. rewrite E, K. destruct (N.eqb_spec c 0); [congruence|]. destruct (N.leb_spec s bk); [|lia].
  eexists. reflexivity.
Qed.

(* ---- running a schedule ---- *)
Inductive ev := EA (s a : N) | EF (q : N) | ES (k : nat).
Fixpoint take (q : N) (own : list N) : option (list N * list N) :=
  match own with
  | [] => None
  | x :: t => if x =? q then Some ([], t) else match take q t with Some (u, v) => Some (x :: u, v) | None => None end
  end.
Fixpoint run (l : list ev) (st : Con.state) (own : list N) : outcome (Con.state * list N) :=
  match l with
  | [] => Ok (st, own)
  | EA s a :: l => let! st := Con.start_alloc st s a in run l st own
  | EF q :: l => match take q own with
                 | Some (u, v) => let! st := Con.start_free st q in run l st (u ++ v)
                 | None => UB
                 end
  | ES k :: l => let! r := Con.step st k false in
                 run l (fst r) (match snd r with Some q => q :: own | None => own end)
  end.

Lemma take_split : forall q own u v, take q own = Some (u, v) -> own = u ++ q :: v.
Proof.
  induction own as [|x t IH]; intros u v H; cbn in H; [discriminate|].
  destruct (N.eqb_spec x q) as [->|]; [injection H as <- <-; auto|].
  destruct (take q t) as [[u' v']|]; [|discriminate]. injection H as <- <-. cbn. f_equal. auto.
Qed.

Lemma run_any : forall b len bk l st own st' own', anyexec b len bk st own -> run l st own = Ok (st', own') ->
  anyexec b len bk st' own'.
Proof.
  induction l as [|e l IH]; intros st own st' own' X H; cbn [run] in H.
  - assert (st' = st) by congruence. assert (own' = own) by congruence. subst; auto.
  - destruct e as [s a|q|k].
    + destruct (Con.start_alloc st s a) eqn:E; try discriminate. cbn [bind] in H. eapply IH; [|exact H]. eapply y_alloc; eauto.
    + destruct (take q own) as [[u v]|] eqn:T; [|discriminate]. apply take_split in T. subst own.
      destruct (Con.start_free st q) eqn:E; try discriminate. cbn [bind] in H. eapply IH; [|exact H]. eapply y_free; eauto.
    + destruct (Con.step st k false) as [[st1 [q|]]| | |] eqn:E; try discriminate; cbn [bind fst snd] in H.
      * eapply IH; [|exact H]. eapply y_return; eauto.
      * eapply IH; [|exact H]. eapply y_step; eauto.
Qed.

(* a pool of three blocks of 8 bytes *)
Definition pool0 := get (mkp 0 0 0 0 (fun _ => 0)) (initialize 3 4096 24 8 (fun _ => 0)).
Lemma pool0_init : initialize 3 4096 24 8 (fun _ => 0) = Ok pool0.
Proof. apply ok_get. vm_compute. reflexivity. Qed.

(* The ABA problem: call 1 has read the head A and its successor B; meanwhile another thread allocates A
   and B and frees A; the compare-exchange of call 1 succeeds and makes B, which is owned, the head.  The
   next alloc hands out B a second time. *)
Definition aba : list ev :=
  [EA 8 8; ES 0; ES 0;
   EA 8 8; ES 0; ES 0; ES 0;
   EA 8 8; ES 0; ES 0; ES 0;
   EF 4096; ES 0; ES 0; ES 0;
   ES 3;
   EA 8 8; ES 0; ES 0; ES 0].
Definition aba_end := get (Con.mks pool0 [], []) (run aba (Con.mks pool0 []) []).
Theorem C49_aba_refuted : exists st own, anyexec 4096 24 8 st own /\ own = [4104; 4096; 4104] /\ ~ NoDup own.
Proof.
  exists (fst aba_end), [4104; 4096; 4104]. split; [|split; [reflexivity|]].
  - apply (run_any 4096 24 8 aba (Con.mks pool0 []) []); [eapply y_init; apply pool0_init|].
    apply ok_pair; vm_compute; reflexivity.
  - intro N. inversion N as [|? ? H _]. apply H. right. left. reflexivity.
Qed.

(* Two threads race for the last block: both pass the check that the pool is not full, the slower one
   then reads through a null pointer. *)
Definition race : list ev := [EA 8 8; EA 8 8; ES 0; ES 0; ES 0; ES 1].
Definition pool1 := get (mkp 0 0 0 0 (fun _ => 0)) (initialize 1 4096 8 8 (fun _ => 0)).
Definition race_end := get (Con.mks pool1 [], []) (run race (Con.mks pool1 []) []).
Theorem C49_null_read_refuted : exists st own k, anyexec 4096 8 8 st own /\
  nth_error (Con.thr st) k = Some (Con.ANext 8 0) /\ Con.step st k false = UB.
Proof.
  exists (fst race_end), [4096], 1%nat. split; [|split; vm_compute; reflexivity].
  apply (run_any 4096 8 8 race (Con.mks pool1 []) []).
  - eapply (y_init _ _ _ 1 (fun _ => 0)). apply ok_get. vm_compute. reflexivity.
  - apply ok_pair; vm_compute; reflexivity.
Qed.

(* ================= C90 foreign pointers and very large pools ================= *)

(* Exactly which pointers free and get_node_offset_bytes accept: the blocks, and one address behind
   the last block.  Full statement: only the blocks; refuted below. *)
Theorem C90_check_partial : forall b len bk p own q, sane b len bk -> hist b len bk p own ->
  (check_ptr p q = Ok tt <-> is_block b len bk q \/ q = b + len / bk * bk) /\
  (check_ptr p q = Ok tt \/ check_ptr p q = Contract).
Proof.
  intros b len bk p own q S H. apply hist_inv in H; auto. destruct H as (l & ((B & L & K) & _)).
  pose proof S as (S1 & S2 & S3 & S4 & S5 & S6).
  unfold check_ptr. rewrite B, L, K.
  assert (Hd : bk * (len / bk) <= len) by (apply N.mul_div_le; lia).
  destruct (N.leb_spec b q).
  - destruct (N.leb_spec (q - b) len).
    + cbn [andb contract bind]. destruct (N.eqb_spec ((q - b) mod bk) 0) as [E|E]; cbn [contract].
      * split; [|auto]. split; [intros _|auto]. apply N.mod_divide in E; [|lia]. destruct E as (i & E).
        assert (Hi : i <= len / bk). { apply N.div_le_lower_bound; lia. }
        unfold is_block. clear Hd S6. set (n := len / bk) in *. clearbody n.
        destruct (N.eq_dec i n) as [->|]; [right; lia|]. left. exists i. split; lia.
      * split; [|auto]. split; [discriminate|]. intros [(i & Hi & ->) | ->]; exfalso; apply E.
        -- replace (b + i * bk - b) with (i * bk) by lia. apply N.mod_mul. lia.
        -- replace (b + len / bk * bk - b) with (len / bk * bk) by lia. apply N.mod_mul. lia.
    + cbn [andb contract bind]. split; [|auto]. split; [discriminate|]. intros [(i & Hi & ->) | ->]; exfalso; [|lia].
      assert (i * bk <= len / bk * bk) by (apply N.mul_le_mono_r; lia). lia.
  - cbn [andb contract bind]. split; [|auto]. split; [discriminate|]. intros [(i & Hi & ->) | ->]; exfalso; clear Hd S6; [set (z := i * bk) in *|set (z := len / bk * bk) in *]; clearbody z; lia.
Qed.

(* freeing the address one past the buffer is accepted and writes outside the buffer *)
Theorem C90_free_past_end_refuted : hist 4096 24 8 pool0 [] /\ ~ is_block 4096 24 8 4120 /\
  check_ptr pool0 4120 = Ok tt /\ Seq.free pool0 4120 = UB.
Proof.
  split; [eapply h_init; apply pool0_init|]. split; [|split; vm_compute; reflexivity].
  intros (i & Hi & E). change (24 / 8) with 3 in Hi. lia.
Qed.

(* a buffer of 47 bytes: the incomplete block behind the second one of 16 is accepted by free and handed out *)
Definition pool31 := get (mkp 0 0 0 0 (fun _ => 0)) (initialize 3 4096 47 16 (fun _ => 0)).
Definition pool31f := get (mkp 0 0 0 0 (fun _ => 0)) (Seq.free pool31 4128).
Theorem C90_incomplete_block_refuted : hist 4096 47 16 pool31 [] /\ ~ is_block 4096 47 16 4128 /\
  Seq.free pool31 4128 = Ok pool31f /\ exists p', Seq.alloc pool31f 16 16 = Ok (p', 4128) /\ 4096 + 47 < 4128 + 16.
Proof.
  split; [eapply (h_init _ _ _ 3 (fun _ => 0)); apply ok_get; vm_compute; reflexivity|].
  split; [intros (i & Hi & E); change (47 / 16) with 2 in Hi; lia|].
  split; [apply ok_get; vm_compute; reflexivity|].
  exists (fst (get (pool31, 0) (Seq.alloc pool31f 16 16))). split; [|lia].
  apply ok_pair; vm_compute; reflexivity.
Qed.

(* the linking loop counts in 32 bits: with more than 2^32 blocks it never ends *)
Theorem C90_initialize_diverges_refuted : forall b len bk m fuel,
  0 < b -> b + len < 2 ^ 64 -> 8 <= bk -> bk <= len -> 2 ^ 32 < len / bk -> initialize fuel b len bk m = OutOfFuel.
Proof.
  intros b len bk m fuel Hb Hl H8 Hk Hn. unfold initialize.
  destruct (N.leb_spec 8 bk); [|lia]. destruct (N.leb_spec bk len); [|lia]. cbn [contract bind].
  assert (G : forall fuel p i, begin_ p = b -> bytes_ p = len -> blk p = bk -> i < 2 ^ 32 ->
    link_loop fuel p (len / bk) i = OutOfFuel).
  { assert (Hd : bk * (len / bk) <= len) by (apply N.mul_div_le; lia).
    assert (Hc : len / bk < 2 ^ 64). { assert (1 * (len / bk) <= bk * (len / bk)) by (apply N.mul_le_mono_r; lia). lia. }
    set (n := len / bk) in *. clearbody n.
    clear fuel. induction fuel as [|fuel IH]; intros p i B L K Hi; cbn [link_loop]; rewrite (wsub_ge 64 n 1) by lia;
      (destruct (N.ltb_spec i (n - 1)); [|lia]); [reflexivity|].
    assert (Hm : (i + 1) * bk <= bk * n). { rewrite (N.mul_comm bk n). apply N.mul_le_mono_r. lia. }
    rewrite B, K. unfold wr, inside. rewrite B, L.
    assert (A : wadd 64 b (wmul 64 i bk) = b + i * bk).
    { unfold wmul. rewrite (wrap_small 64 (i * bk)) by lia. apply wadd_small. lia. }
    rewrite A. destruct (N.leb_spec b (b + i * bk)); [|lia]. destruct (N.leb_spec (b + i * bk + 8) (b + len)); [|lia].
    cbn [andb defined bind]. apply IH; cbn [begin_ bytes_ blk]; auto.
    unfold wadd. apply wrap_lt. }
  rewrite G by (auto; lia). reflexivity.
Qed.

(* non-vacuity *)
Definition q1 := get (pool0, 0) (Seq.alloc pool0 8 8).
Definition q2 := get (pool0, 0) (Seq.alloc (fst q1) 5 1).
Definition q3 := get pool0 (Seq.free (fst q2) 4096).
Example C48_ex : sane 4096 24 8 /\ hist 4096 24 8 (fst q2) [4104; 4096] /\ hist 4096 24 8 q3 [4104].
Proof.
  assert (S : sane 4096 24 8) by (unfold sane; repeat split; vm_compute; congruence).
  assert (H0 : hist 4096 24 8 pool0 []) by (eapply h_init; apply pool0_init).
  assert (H1 : hist 4096 24 8 (fst q1) [4096]) by (eapply h_alloc; [exact H0|apply ok_pair; vm_compute; reflexivity]).
  assert (H2 : hist 4096 24 8 (fst q2) [4104; 4096]) by (eapply h_alloc; [exact H1|apply ok_pair; vm_compute; reflexivity]).
  split; [auto|]. split; [auto|].
  eapply (h_free 4096 24 8 (fst q2) [4104] 4096 []); [exact H2|]. apply ok_get. vm_compute. reflexivity.
Qed.

Example C49_ex : exists st own, exec 4096 24 8 true true st own /\ own = [4096].
Proof.
  pose (s1 := get (Con.mks pool0 []) (Con.start_alloc (Con.mks pool0 []) 8 8)).
  pose (s2 := get (s1, None) (Con.step s1 0 false)). pose (s3 := get (s1, None) (Con.step (fst s2) 0 false)).
  pose (s4 := get (s1, None) (Con.step (fst s3) 0 false)).
  exists (fst s4), [4096]. split; [|reflexivity].
  eapply (x_return _ _ _ _ _ (fst s3) [] 0 false).
  - eapply (x_step _ _ _ _ _ (fst s2) [] 0 false).
    + eapply (x_step _ _ _ _ _ s1 [] 0 false).
      * eapply (x_alloc _ _ _ _ _ (Con.mks pool0 []) [] 8 8); [eapply x_init; apply pool0_init|constructor|vm_compute; reflexivity|].
        apply ok_get. vm_compute. reflexivity.
      * apply ok_pair; vm_compute; reflexivity.
    + apply ok_pair; vm_compute; reflexivity.
  - apply ok_pair; vm_compute; reflexivity.
Qed.

Print Assumptions C48_blocks.
Print Assumptions C48_alloc_succeeds.
Print Assumptions C48_alloc_full.
Print Assumptions C48_free.
Print Assumptions C48_contents.
Print Assumptions C48_index.
Print Assumptions C48_initialize.
Print Assumptions C48_initialize_contract.
Print Assumptions C49_one_owner_partial.
Print Assumptions C49_never_faults_partial.
Print Assumptions C49_nothing_lost_partial.
Print Assumptions C49_aba_refuted.
Print Assumptions C49_null_read_refuted.
Print Assumptions C90_check_partial.
Print Assumptions C90_free_past_end_refuted.
Print Assumptions C90_incomplete_block_refuted.
Print Assumptions C90_initialize_diverges_refuted.

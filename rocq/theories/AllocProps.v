(* Theorems about linear_allocator (C43), stack_allocator (C44) and align_up_with_header (C45). *)
From Coq Require Import NArith ZArith List Lia Bool Arith.
Import ListNotations.
From Verif Require Import Base BitsModel BitsSpec AllocModel AllocSpec AllocProofs.
Open Scope N_scope.

(* ================= C43 linear_allocator ================= *)

(* Every block handed out since the last reset lies in the buffer, is aligned as requested and
   shares no byte with any other. *)
Theorem C43_blocks : forall b len st l, 0 < b -> b + len < 2 ^ 64 -> lin_hist b len st l ->
  good_blocks b (b + len) l.
Proof.
  intros b len st l Hb Hl H. apply lin_hist_inv in H; auto.
  eapply good_grow; [|eapply lin_inv_good; eauto]. apply H.
Qed.

(* alloc succeeds exactly if the request fits behind the blocks handed out so far; otherwise the
   assertion fires. *)
Theorem C43_alloc_succeeds_iff_fits : forall b len st l s a, 0 < b -> b + len < 2 ^ 64 ->
  lin_hist b len st l -> a = 0 \/ pow2 a -> no_wrap (Lin.head st) (N.max a 1) s ->
  (fits (b + len) (Lin.head st) (N.max a 1) s -> exists st' p, Lin.alloc st s a = Ok (st', p)) /\
  (~ fits (b + len) (Lin.head st) (N.max a 1) s -> Lin.alloc st s a = Contract).
Proof.
  intros b len st l s a Hb Hl H Ha (p & Hm & Hp). apply lin_hist_inv in H; auto.
  rewrite (lin_alloc_exact b len Hb Hl st l s a p H Ha Hm ltac:(lia)).
  destruct (N.leb_spec (p + s) (b + len)) as [L|G]; split; intro F; eauto.
  - exfalso. apply F. exists p. auto.
  - exfalso. destruct F as (q & Hq & Hq'). rewrite (lma_unique _ _ _ _ Hm Hq) in G. lia.
Qed.

(* get_allocation_size answers for the most recent block, with the requested size, and a size it
   reports is never wrong.  It reports no size for older blocks. *)
Theorem C43_size_of_latest : forall b len st q l, 0 < b -> b + len < 2 ^ 64 ->
  lin_hist b len st (q :: l) -> Lin.get_allocation_size st (addr q) = Some (size q).
Proof. intros. eapply lin_size_spec; eauto. Qed.

Theorem C43_size_sound : forall b len st l p n, 0 < b -> b + len < 2 ^ 64 ->
  lin_hist b len st l -> Lin.get_allocation_size st p = Some n ->
  exists q t, l = q :: t /\ addr q = p /\ size q = n.
Proof. intros. eapply lin_size_sound; eauto. Qed.

(* realloc of the latest block leaves it in place (the allocator never writes to the buffer, so the
   contents are kept) and succeeds exactly if the new size fits. *)
Theorem C43_realloc_in_place : forall b len st q l n a, 0 < b -> b + len < 2 ^ 64 ->
  lin_hist b len st (q :: l) -> addr q + n < 2 ^ 64 ->
  (addr q + n <= b + len -> exists st', Lin.realloc st (addr q) n a = Ok (st', addr q)) /\
  (b + len < addr q + n -> Lin.realloc st (addr q) n a = Contract).
Proof.
  intros b len st q l n a Hb Hl H Hn. rewrite (lin_realloc_latest b len Hb Hl st q l n a H Hn).
  destruct (N.leb_spec (addr q + n) (b + len)); split; intro; eauto; lia.
Qed.

(* realloc of an older block is rejected, unless it is empty and shares the address of the latest *)
Theorem C43_realloc_older_rejected : forall b len st q l p n a, 0 < b -> b + len < 2 ^ 64 ->
  lin_hist b len st (q :: l) -> p <> 0 -> p <> addr q -> Lin.realloc st p n a = Contract.
Proof.
  intros b len st q l p n a Hb Hl H Hp Hq. apply lin_hist_inv in H; auto.
  destruct H as (_ & _ & _ & _ & L & _). unfold Lin.realloc.
  destruct (N.eqb_spec p 0); [contradiction|]. cbn [negb]. rewrite L.
  destruct (N.eqb_spec p (addr q)); [contradiction|reflexivity].
Qed.

Theorem C43_sizes : forall b len st l, 0 < b -> b + len < 2 ^ 64 -> lin_hist b len st l ->
  Lin.allocated_size st + Lin.remaining_size st = Lin.max_size st /\ Lin.max_size st = len.
Proof. intros. eapply lin_sizes; eauto. Qed.

(* Refuted for the alignment passed to realloc: it is ignored, so the returned block need not have it. *)
Theorem C43_realloc_alignment_refuted : exists b len st q l st' p,
  0 < b /\ b + len < 2 ^ 64 /\ lin_hist b len st (q :: l) /\
  Lin.realloc st (addr q) 16 64 = Ok (st', p) /\ ~ (64 | p).
Proof.
  exists 4096, 1024.
  eexists. eexists. eexists. eexists. eexists.
  split; [lia|]. split; [lia|]. split.
  - eapply lh_alloc with (s := 8) (a := 8).
    + eapply lh_alloc with (s := 8) (a := 8).
      * apply lh_init.
      * right. exists 3. split; [lia|reflexivity].
      * exists 4096. split; [|vm_compute; discriminate].
        split; [exists 512; reflexivity|]. split; [vm_compute; discriminate|]. cbn. auto.
      * vm_compute. reflexivity.
    + right. exists 3. split; [lia|reflexivity].
    + exists 4104. split; [|vm_compute; discriminate].
      split; [exists 513; reflexivity|]. split; [vm_compute; discriminate|]. cbn. auto.
    + vm_compute. reflexivity.
  - split; [vm_compute; reflexivity|]. intros (c & Hc). lia.
Qed.

(* The no-wrap hypothesis is needed: a size near 2^64 passes the bounds check and yields a block
   that leaves the buffer. *)
Example C43_wrap_escapes :
  exists st', Lin.alloc (Lin.init 4096 64) (2 ^ 64 - 32) 1 = Ok (st', 4096)
    /\ ~ within 4096 (4096 + 64) (mkb 4096 (2 ^ 64 - 32) 1).
Proof. eexists. split; [vm_compute; reflexivity|]. intros (_ & H). cbn in H. lia. Qed.

Example C43_ex : exists st1 st2,
  Lin.alloc (Lin.init 4097 100) 5 1 = Ok (st1, 4097) /\ Lin.alloc st1 16 16 = Ok (st2, 4112)
  /\ Lin.get_allocation_size st2 4112 = Some 16 /\ Lin.get_allocation_size st2 4097 = None
  /\ Lin.alloc st2 70 1 = Contract /\ Lin.alloc (Lin.reset st2) 100 1 <> Contract.
Proof.
  do 2 eexists. split; [vm_compute; reflexivity|]. split; [vm_compute; reflexivity|].
  split; [vm_compute; reflexivity|]. split; [vm_compute; reflexivity|]. split; [vm_compute; reflexivity|].
  vm_compute. discriminate.
Qed.

(* ================= C45 align_up_with_header ================= *)

(* The result is the smallest multiple of the alignment that leaves room for the header. *)
Theorem C45_tightest : forall head a hs, pow2 a -> head + hs + a <= 2 ^ 64 ->
  let r := align_up_with_header head a hs in
  (a | r) /\ head + hs <= r /\ r < head + hs + a /\ (forall m, (a | m) -> head + hs <= m -> r <= m).
Proof.
  intros head a hs Hp H. destruct (pow2_pos' _ Hp) as (Ha & _).
  destruct (lma_exists a (head + hs) Ha) as (p & Hm). pose proof (lma_lt _ _ _ Ha Hm) as L.
  cbv zeta. rewrite (awh_exact head a hs p) by (auto; lia).
  destruct Hm as (D & Hge & M). auto.
Qed.

Example C45_ex : align_up_with_header 4096 16 8 = 4112 /\ align_up_with_header 4104 16 8 = 4112
  /\ align_up_with_header 4105 16 8 = 4128 /\ align_up_with_header 4097 4 8 = 4108
  /\ align_up_with_header 4096 1 8 = 4104.
Proof. vm_compute. repeat split. Qed.

(* ================= C44 stack_allocator ================= *)

Theorem C44_blocks : forall b len st l, 0 < b -> b + len < 2 ^ 64 -> stk_hist b len st l ->
  good_blocks b (b + len) (map fst l).
Proof.
  intros b len st l Hb Hl H. apply stk_hist_chain in H; auto.
  eapply good_grow; [|eapply chain_good; eauto]. apply (chain_basic b len Hb Hl _ _ _ H).
Qed.

(* alloc succeeds exactly if the block and its 8-byte header fit *)
Theorem C44_alloc_succeeds_iff_fits : forall b len st l s a, 0 < b -> b + len < 2 ^ 64 -> len < 2 ^ 34 - 8 ->
  stk_hist b len st l -> pow2 a -> no_wrap (Stk.head (Stk.fields st) + 8) a s ->
  (fits (b + len) (Stk.head (Stk.fields st) + 8) a s -> exists st' p, Stk.alloc st s a = Ok (st', p)) /\
  (~ fits (b + len) (Stk.head (Stk.fields st) + 8) a s -> Stk.alloc st s a = Contract).
Proof.
  intros b len st l s a Hb Hl Hlen H Ha (p & Hm & Hp). apply stk_hist_chain in H; auto.
  pose proof (chain_room b len _ _ _ Hb Hl H) as R. pose proof (chain_basic b len Hb Hl _ _ _ H) as (_ & _ & B1 & B2).
  pose proof (chain_id b len Hb Hl _ _ _ H) as (Hid & _).
  rewrite (stk_alloc_exact b len Hb Hl st l s a p H Ha Hm ltac:(lia)) by lia.
  destruct (N.leb_spec (p + s) (b + len)) as [L|G]; split; intro F; eauto.
  - exfalso. apply F. exists p. auto.
  - exfalso. destruct F as (q & Hq & Hq'). rewrite (lma_unique _ _ _ _ Hm Hq) in G. lia.
Qed.

(* Freeing the most recent block succeeds and restores the allocator to the state it had before the
   allocation, whatever happened in between (writes into live blocks, nested allocations, realloc). *)
Theorem C44_free_restores : forall b len st q c l, 0 < b -> b + len < 2 ^ 64 ->
  stk_hist b len st ((q, c) :: l) -> Stk.free st (addr q) = Ok (Stk.mkst c (Stk.mem st)).
Proof. intros. eapply stk_free_exact; eauto. eapply stk_hist_chain; eauto. Qed.

(* Freeing or reallocating any older live block is detected. *)
Theorem C44_free_older_detected : forall b len st q c l r d, 0 < b -> b + len < 2 ^ 64 ->
  stk_hist b len st ((q, c) :: l) -> In (r, d) l -> Stk.free st (addr r) = Contract.
Proof. intros. eapply stk_free_older; eauto. eapply stk_hist_chain; eauto. Qed.

Theorem C44_realloc_older_detected : forall b len st q c l r d n a, 0 < b -> b + len < 2 ^ 64 ->
  stk_hist b len st ((q, c) :: l) -> In (r, d) l -> Stk.realloc st (addr r) n a = Contract.
Proof. intros. eapply stk_realloc_older; eauto. eapply stk_hist_chain; eauto. Qed.

(* Freeing the same block twice in a row is detected. *)
Theorem C44_double_free_detected : forall b len st q c l st', 0 < b -> b + len < 2 ^ 64 ->
  stk_hist b len st ((q, c) :: l) -> Stk.free st (addr q) = Ok st' -> Stk.free st' (addr q) = Contract.
Proof. intros. eapply stk_double_free; eauto. eapply stk_hist_chain; eauto. Qed.

(* realloc of the most recent block keeps address and memory, and succeeds exactly if it fits *)
Theorem C44_realloc_in_place : forall b len st q c l n a, 0 < b -> b + len < 2 ^ 64 ->
  stk_hist b len st ((q, c) :: l) -> 0 < n -> addr q + n < 2 ^ 64 ->
  (addr q + n <= b + len -> exists st', Stk.realloc st (addr q) n a = Ok (st', addr q) /\ Stk.mem st' = Stk.mem st) /\
  (b + len < addr q + n -> Stk.realloc st (addr q) n a = Contract).
Proof.
  intros b len st q c l n a Hb Hl H Hn Hw. apply stk_hist_chain in H; auto.
  rewrite (stk_realloc_exact b len Hb Hl st q c l n a H Hn Hw).
  destruct (N.leb_spec (addr q + n) (b + len)); split; intro; try lia; eauto.
Qed.

(* Refuted: a stale pointer (freed earlier, its header not yet overwritten) is accepted, and the
   free releases a different, live block. *)
Definition stk0 := Stk.init 4096 1024 (fun _ => 0).
Definition get {A} (d : A) (o : outcome A) : A := match o with Ok x => x | _ => d end.
Definition is_ok {A} (o : outcome A) : bool := match o with Ok _ => true | _ => false end.
Lemma ok_get : forall A (d : A) o, is_ok o = true -> o = Ok (get d o).
Proof. intros A d [] H; try discriminate; reflexivity. Qed.
Lemma ok_pair : forall A B (d : A * B) o y, is_ok o = true -> snd (get d o) = y -> o = Ok (fst (get d o), y).
Proof. intros A B d o y H <-. rewrite <- surjective_pairing. apply ok_get. auto. Qed.

Definition stk1 := get (stk0, 0) (Stk.alloc stk0 8 8).
Definition stk2 := get (stk0, 0) (Stk.alloc (fst stk1) 8 8).
Definition stk3 := get stk0 (Stk.free (fst stk2) (snd stk2)).
Definition stk4 := get (stk0, 0) (Stk.alloc stk3 8 64).

Lemma stk4_hist : stk_hist 4096 1024 (fst stk4)
  [(mkb 4160 8 64, Stk.fields stk3); (mkb 4104 8 8, Stk.fields stk0)].
Proof.
  apply sh_alloc with (st := stk3).
  - apply sh_free with (st := fst stk2) (q := mkb 4120 8 8) (c := Stk.fields (fst stk1)); [|apply ok_get; vm_compute; reflexivity].
    apply sh_alloc with (st := fst stk1).
    + apply sh_alloc with (st := stk0).
      * apply sh_init. intro. lia.
      * exists 3. split; [lia|reflexivity].
      * lia.
      * exists 4104. split; [|vm_compute; discriminate].
        split; [exists 513; reflexivity|]. split; [vm_compute; discriminate|]. cbn. auto.
      * apply ok_pair; vm_compute; reflexivity.
    + exists 3. split; [lia|reflexivity].
    + lia.
    + exists 4120. split; [|vm_compute; discriminate].
      split; [exists 515; reflexivity|]. split; [vm_compute; discriminate|]. cbn. auto.
    + apply ok_pair; vm_compute; reflexivity.
  - exists 6. split; [lia|reflexivity].
  - lia.
  - exists 4160. split; [|vm_compute; discriminate].
    split; [exists 65; reflexivity|]. split; [vm_compute; discriminate|]. intros m (c & ->) Hm.
    assert (H : 4120 <= c * 64) by exact Hm. lia.
  - apply ok_pair; vm_compute; reflexivity.
Qed.

Theorem C44_stale_free_refuted : exists b len st l p st',
  0 < b /\ b + len < 2 ^ 64 /\ stk_hist b len st l /\ p <> 0 /\
  (forall q c, In (q, c) l -> addr q <> p) /\
  Stk.free st p = Ok st' /\ Stk.last_id (Stk.fields st') = 1%Z /\ length l = 2%nat.
Proof.
  exists 4096, 1024, (fst stk4). eexists. exists 4120, (get stk0 (Stk.free (fst stk4) 4120)).
  split; [lia|]. split; [lia|]. split; [exact stk4_hist|].
  split; [lia|]. split.
  - intros q c [E|[E|[]]]; apply (f_equal fst) in E; cbn [fst] in E; subst q; cbn [addr]; lia.
  - split; [apply ok_get; vm_compute; reflexivity|]. split; vm_compute; reflexivity.
Qed.

(* Refuted for alignments above 2^32: the padding is stored in 32 bits, so free does not restore
   the previous head. *)
Definition stk5 := get (stk0, 0) (Stk.alloc (Stk.init 4096 (2 ^ 34) (fun _ => 0)) 8 (2 ^ 33)).
Theorem C44_large_alignment_refuted : exists b len a st1 p st2,
  0 < b /\ b + len < 2 ^ 64 /\ pow2 a /\
  Stk.alloc (Stk.init b len (fun _ => 0)) 8 a = Ok (st1, p) /\ Stk.free st1 p = Ok st2 /\
  Stk.fields st2 <> Stk.fields (Stk.init b len (fun _ => 0)).
Proof.
  exists 4096, (2 ^ 34), (2 ^ 33), (fst stk5), (snd stk5), (get stk0 (Stk.free (fst stk5) (snd stk5))).
  split; [lia|]. split; [vm_compute; reflexivity|]. split; [exists 33; split; [lia|reflexivity]|].
  split; [apply ok_pair; [vm_compute; reflexivity|reflexivity]|].
  split; [apply ok_get; vm_compute; reflexivity|]. vm_compute. discriminate.
Qed.

Example C44_ex :
  snd stk1 = 4104 /\ snd stk2 = 4120 /\ Stk.fields stk3 = Stk.fields (fst stk1)
  /\ Stk.free (fst stk2) (snd stk1) = Contract /\ snd stk4 = 4160
  /\ is_ok (Stk.free (fst stk4) (snd stk4)) = true.
Proof. repeat split; vm_compute; reflexivity. Qed.

Print Assumptions C43_blocks.
Print Assumptions C43_alloc_succeeds_iff_fits.
Print Assumptions C43_size_of_latest.
Print Assumptions C43_size_sound.
Print Assumptions C43_realloc_in_place.
Print Assumptions C43_realloc_older_rejected.
Print Assumptions C43_sizes.
Print Assumptions C43_realloc_alignment_refuted.
Print Assumptions C45_tightest.
Print Assumptions C44_blocks.
Print Assumptions C44_alloc_succeeds_iff_fits.
Print Assumptions C44_free_restores.
Print Assumptions C44_free_older_detected.
Print Assumptions C44_realloc_older_detected.
Print Assumptions C44_double_free_detected.
Print Assumptions C44_realloc_in_place.
Print Assumptions C44_stale_free_refuted.
Print Assumptions C44_large_alignment_refuted.

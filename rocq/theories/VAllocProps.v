(* Theorems about virtual_linear_allocator (C46) and virtual_stack_allocator (C89). *)
From Coq Require Import NArith ZArith List Lia Bool Arith.
Import ListNotations.
From Verif Require Import Base BitsModel BitsSpec AllocModel AllocSpec AllocProofs AllocProps
  VAllocModel VAllocSpec VAllocProofs.
Open Scope N_scope.

(* ================= C46 virtual_linear_allocator ================= *)

(* Every block handed out since the last reset lies in the reservation, is aligned as requested,
   shares no byte with any other and consists of committed memory. *)
Theorem C46_blocks_committed : forall b max ch st l, sane_reservation b max ch -> vlin_hist b max ch st l ->
  good_blocks b (b + max) l /\ Forall (committed (VLin.mem st)) l.
Proof.
  intros b max ch st l S H. apply vlin_hist_inv in H; auto.
  destruct H as (B & E & Ch & R & I1 & I2 & A & C & La). split.
  - eapply good_grow; [|exact (lchain_good b _ _ _ C)]. lia.
  - apply Forall_forall. intros q Hq x (X1 & X2).
    pose proof (lchain_below b _ _ _ _ C Hq). apply A; lia.
Qed.

(* get_allocation_size knows every block *)
Theorem C46_size : forall b max ch st l q, sane_reservation b max ch -> vlin_hist b max ch st l -> In q l ->
  VLin.get_allocation_size st (addr q) = Ok (Some (size q)).
Proof. intros b max ch st l q S H HI. eapply vlin_size; eauto. apply vlin_hist_inv; auto. Qed.

(* Exactly when a request succeeds: it fits in what is committed already, or the reservation has room
   for the request rounded up to chunks behind the committed part.  The full claim would be
   "whenever p + s <= b + max", which is refuted below. *)
Theorem C46_alloc_succeeds_iff_partial : forall b max ch st l s a p r,
  sane_reservation b max ch -> vlin_hist b max ch st l -> sane_request s a ->
  least_multiple_above a (VLin.cur st + 8) p -> least_multiple_above ch (p + s - VLin.cur st) r ->
  (p + s <= VLin.pe st \/ VLin.pe st + r <= b + max -> exists st', VLin.alloc st s a = Ok (st', p)) /\
  (~ (p + s <= VLin.pe st \/ VLin.pe st + r <= b + max) -> VLin.alloc st s a = Contract).
Proof.
  intros b max ch st l s a p r S H Hr Hm Hrr. apply vlin_hist_inv in H; auto.
  destruct (vlin_alloc b max ch S st l s a p H Hr Hm) as (Hps & Hge & K).
  destruct H as (B & E & Ch & R & I1 & I2 & A & C & La). pose proof S as (Hb & _ & _ & Ht & Hc & Hc').
  pose proof (lchain_ge b _ _ _ C) as Hcur.
  destruct (grow_exact b max Hb Ht (VLin.mem st) (VLin.cur st) (VLin.pe st) ch (p + s - VLin.cur st) r R Hc Hc'
              Hcur I1 I2 ltac:(lia) Hrr) as (G1 & G2 & G3).
  replace (VLin.cur st + (p + s - VLin.cur st)) with (p + s) in * by lia.
  split; intro F.
  - destruct K as [(v' & pe' & _ & -> & _)|(G & _)]; [eauto|]. exfalso.
    destruct (N.le_gt_cases (p + s) (VLin.pe st)) as [L|L].
    + rewrite (G1 L) in G. discriminate.
    + destruct F as [F|F]; [lia|]. destruct (G2 L F) as (w & Ew & _). congruence.
  - destruct K as [(v' & pe' & G & _)|(_ & G)]; [|auto]. exfalso.
    rewrite G3 in G by lia. discriminate.
Qed.

(* A request never makes the allocator touch memory it has not committed: alloc does not fault. *)
Theorem C46_alloc_never_faults : forall b max ch st l s a, sane_reservation b max ch -> vlin_hist b max ch st l ->
  sane_request s a -> VLin.alloc st s a <> UB.
Proof.
  intros b max ch st l s a S H Hr. apply vlin_hist_inv in H; auto.
  destruct (lma_exists a (VLin.cur st + 8) (proj1 (pow2_pos' _ (proj1 Hr)))) as (p & Hm).
  destruct (vlin_alloc b max ch S st l s a p H Hr Hm) as (_ & _ & [(v' & pe' & _ & -> & _)|(_ & ->)]); discriminate.
Qed.

(* realloc of the latest block happens in place and keeps its bytes; it either succeeds or asserts *)
Theorem C46_realloc_latest_keeps : forall b max ch st q l n a, sane_reservation b max ch ->
  vlin_hist b max ch st (q :: l) -> n <= 2 ^ 60 ->
  VLin.realloc st (addr q) n a = Contract \/
  exists st', VLin.realloc st (addr q) n a = Ok (st', addr q) /\
    forall i, addr q + i < 2 ^ 64 -> byt (VLin.mem st') (addr q + i) = byt (VLin.mem st) (addr q + i).
Proof.
  intros b max ch st q l n a S H Hn. apply vlin_hist_inv in H; auto.
  destruct (vlin_realloc_latest b max ch S st q l n a H Hn) as [(v' & pe' & E & _)|E]; [right|left; auto].
  rewrite E. eexists. split; [reflexivity|]. intros i Hi. cbn [VLin.mem byt].
  destruct H as (B & _ & _ & _ & I1 & I2 & _ & C & _). destruct S as (Hb & _ & _ & Ht & _).
  pose proof (lchain_ge b _ _ _ C). cbn [lchain] in C. destruct C as (T & _ & _ & _ & top' & H1 & _).
  apply store_other; lia.
Qed.

(* realloc of any older block returns a new block with the common prefix and leaves all old bytes alone *)
Theorem C46_realloc_older_copies : forall b max ch st r l q n a, sane_reservation b max ch ->
  vlin_hist b max ch st (r :: l) -> In q l -> 0 < n -> sane_request n a ->
  VLin.realloc st (addr q) n a = Contract \/
  exists st' p, VLin.realloc st (addr q) n a = Ok (st', p) /\
    (forall i, i < N.min (size q) n -> byt (VLin.mem st') (p + i) = byt (VLin.mem st) (addr q + i)) /\
    (forall x, x < VLin.cur st -> byt (VLin.mem st') x = byt (VLin.mem st) x).
Proof.
  intros b max ch st r l q n a S H HI Hn Hr. apply vlin_hist_inv in H; auto.
  destruct (vlin_realloc_other b max ch S st r l q n a H HI Hn Hr) as [E|(st' & p & E & _ & X)]; [left; auto|right].
  exists st', p. auto.
Qed.

(* ---- refutations ---- *)
Definition zmem : bytes := fun _ => 0.
Definition vdummy : VLin.state := VLin.mkst 0 0 0 0 0 0 (reserve 0 0 zmem).

Lemma sane_ex : forall b max ch, 0 < b -> (4096 | b) -> 0 < max -> b + max <= 2 ^ 62 -> pow2 ch -> ch <= 2 ^ 61 ->
  sane_reservation b max ch.
Proof. unfold sane_reservation. auto 12. Qed.

(* Refuted: with 128 KiB reserved and 64 KiB chunks, a second request of 70000 bytes fails although
   only 40008 bytes are in use. *)
Definition vl0 := get vdummy (VLin.initialize 1048576 131072 65536 zmem).
Definition vl1 := get (vdummy, 0) (VLin.alloc vl0 40000 8).
Lemma vl1_hist : vlin_hist 1048576 131072 65536 (fst vl1) [mkb 1048584 40000 8].
Proof.
  apply vl_alloc with (st := vl0).
  - apply vl_init with zmem; [intro; reflexivity|]. apply ok_get. vm_compute. reflexivity.
  - split; [exists 3; split; reflexivity|]. split; vm_compute; discriminate.
  - apply ok_pair; vm_compute; reflexivity.
Qed.
Theorem C46_fits_but_fails_refuted : exists b max ch st l s a,
  sane_reservation b max ch /\ vlin_hist b max ch st l /\ sane_request s a /\
  fits (b + max) (VLin.cur st + 8) a s /\ VLin.alloc st s a = Contract.
Proof.
  exists 1048576, 131072, 65536, (fst vl1). eexists. exists 70000, 8.
  split; [apply sane_ex; try (vm_compute; auto; discriminate)|].
  { exists 256. reflexivity. }
  { exists 16. split; reflexivity. }
  split; [exact vl1_hist|]. split.
  { split; [exists 3; split; reflexivity|]. split; vm_compute; discriminate. }
  split.
  - exists 1088592. split; [|vm_compute; discriminate].
    split; [exists 136074; reflexivity|]. split; [vm_compute; discriminate|].
    intros m (c & ->) Hm. assert (E : VLin.cur (fst vl1) = 1088584) by (vm_compute; reflexivity).
    rewrite E in Hm. lia.
  - vm_compute. reflexivity.
Qed.

(* Refuted for sizes near 2^64: the required size wraps to zero, nothing is committed, and the block
   returned leaves the reservation. *)
Theorem C46_wrap_refuted : exists b max ch st l s a st' p,
  sane_reservation b max ch /\ vlin_hist b max ch st l /\ VLin.alloc st s a = Ok (st', p) /\
  ~ within b (b + max) (mkb p s a).
Proof.
  exists 1048576, 131072, 65536, (fst vl1). eexists. exists (2 ^ 64 - 8), 8.
  exists (fst (get (vdummy, 0) (VLin.alloc (fst vl1) (2 ^ 64 - 8) 8))), 1088592.
  split; [apply sane_ex; try (vm_compute; auto; discriminate)|].
  { exists 256. reflexivity. }
  { exists 16. split; reflexivity. }
  split; [exact vl1_hist|]. split; [apply ok_pair; vm_compute; reflexivity|].
  intros (_ & H). cbn [addr size] in H. lia.
Qed.

(* Refuted for chunks smaller than a page: decommit_idle_memory takes away the page of a live block. *)
Definition vd0 := get vdummy (VLin.initialize 1048576 16384 1024 zmem).
Definition vd1 := get (vdummy, 0) (VLin.alloc vd0 3000 8).
Definition vd2 := get (vdummy, 0) (VLin.alloc (fst (VLin.reset (fst vd1))) 100 8).
Theorem C46_decommit_small_chunk_refuted : exists b max ch st l q st' n,
  sane_reservation b max ch /\ vlin_hist b max ch st l /\ In q l /\
  VLin.decommit_idle_memory st = Ok (st', n) /\ ~ committed (VLin.mem st') q.
Proof.
  exists 1048576, 16384, 1024, (fst vd2), [mkb 1048584 100 8], (mkb 1048584 100 8).
  exists (fst (get (vdummy, 0) (VLin.decommit_idle_memory (fst vd2)))), 2048.
  split; [apply sane_ex; try (vm_compute; auto; discriminate)|].
  { exists 256. reflexivity. }
  { exists 10. split; reflexivity. }
  split.
  { apply vl_alloc with (st := fst (VLin.reset (fst vd1))).
    - apply vl_reset with (l := [mkb 1048584 3000 8]). apply vl_alloc with (st := vd0).
      + apply vl_init with zmem; [intro; reflexivity|]. apply ok_get. vm_compute. reflexivity.
      + split; [exists 3; split; reflexivity|]. split; vm_compute; discriminate.
      + apply ok_pair; vm_compute; reflexivity.
    - split; [exists 3; split; reflexivity|]. split; vm_compute; discriminate.
    - apply ok_pair; vm_compute; reflexivity. }
  split; [left; reflexivity|].
  split; [apply ok_pair; vm_compute; reflexivity|].
  intro H. specialize (H 1048584 ltac:(split; vm_compute; [discriminate|reflexivity])).
  vm_compute in H. discriminate.
Qed.

(* Refuted: decommit_idle_memory "returns amount of bytes decommitted", but reports almost 2^64 when
   the reservation does not start at a multiple of the chunk size. *)
Definition vn0 := get vdummy (VLin.initialize 69632 131072 65536 zmem).
Definition vn1 := get (vdummy, 0) (VLin.alloc vn0 65000 8).
Theorem C46_decommit_count_refuted : exists b max ch st l st' n,
  sane_reservation b max ch /\ vlin_hist b max ch st l /\
  VLin.decommit_idle_memory st = Ok (st', n) /\ VLin.pe st' = VLin.pe st /\ n = 2 ^ 64 - 61440.
Proof.
  exists 69632, 131072, 65536, (fst vn1), [mkb 69640 65000 8].
  exists (fst (get (vdummy, 0) (VLin.decommit_idle_memory (fst vn1)))), (2 ^ 64 - 61440).
  split; [apply sane_ex; try (vm_compute; auto; discriminate)|].
  { exists 17. reflexivity. }
  { exists 16. split; reflexivity. }
  split.
  { apply vl_alloc with (st := vn0).
    - apply vl_init with zmem; [intro; reflexivity|]. apply ok_get. vm_compute. reflexivity.
    - split; [exists 3; split; reflexivity|]. split; vm_compute; discriminate.
    - apply ok_pair; vm_compute; reflexivity. }
  split; [apply ok_pair; vm_compute; reflexivity|]. split; vm_compute; reflexivity.
Qed.

Example C46_ex :
  snd vl1 = 1048584 /\ VLin.allocated_size (fst vl1) = 40008 /\ VLin.physical_size (fst vl1) = 65536
  /\ VLin.virtual_size (fst vl1) = 131072
  /\ snd (get (vdummy, 0) (VLin.alloc (fst vl1) 100 64)) = 1088640
  /\ VLin.get_allocation_size (fst vl1) 1048584 = Ok (Some 40000).
Proof. repeat split; vm_compute; reflexivity. Qed.

(* ================= C89 virtual_stack_allocator ================= *)

Theorem C89_blocks_committed : forall b max ch st l, sane_reservation b max ch -> vstk_hist b max ch st l ->
  good_blocks b (b + max) (map fst l) /\ Forall (committed (VStk.mem st)) (map fst l).
Proof.
  intros b max ch st l S H. apply vstk_hist_inv in H; auto.
  destruct H as (Ch & R & I1 & I2 & A & C). pose proof S as (Hb & _ & _ & Ht & _).
  assert (Ht' : b + max < 2 ^ 64) by (assert (2 ^ 62 < 2 ^ 64) by reflexivity; lia). split.
  - eapply good_grow; [|exact (chain_good b max Hb Ht' _ _ _ C)]. lia.
  - apply Forall_forall. intros q Hq x (X1 & X2). apply in_map_iff in Hq. destruct Hq as ((q' & c) & <- & HI).
    pose proof (chain_below b max Hb Ht' _ _ _ _ _ C HI). cbn [fst] in *. apply A; lia.
Qed.

(* Freeing the most recent block restores the fields as they were before its allocation; memory stays
   committed. *)
Theorem C89_free_restores : forall b max ch st q c l, sane_reservation b max ch ->
  vstk_hist b max ch st ((q, c) :: l) ->
  VStk.free st (addr q) = Ok (VStk.mkst c (VStk.pe st) (VStk.chunk st) (VStk.mem st)).
Proof. intros b max ch st q c l S H. eapply vstk_free; eauto. eapply vstk_hist_inv; eauto. Qed.

Theorem C89_free_older_detected : forall b max ch st q c l r d, sane_reservation b max ch ->
  vstk_hist b max ch st ((q, c) :: l) -> In (r, d) l -> VStk.free st (addr r) = Contract.
Proof. intros. eapply vstk_free_older; eauto. eapply vstk_hist_inv; eauto. Qed.

(* is_latest_allocation answers correctly for every live block *)
Theorem C89_is_latest : forall b max ch st l q c k, sane_reservation b max ch -> vstk_hist b max ch st l ->
  nth_error l k = Some (q, c) -> VStk.is_latest_allocation st (addr q) = Ok (k =? 0)%nat.
Proof. intros. eapply vstk_is_latest; eauto. eapply vstk_hist_inv; eauto. Qed.

(* realloc of the most recent block happens in place and keeps all bytes *)
Theorem C89_realloc_in_place : forall b max ch st q c l n a, sane_reservation b max ch ->
  vstk_hist b max ch st ((q, c) :: l) -> 0 < n -> n <= 2 ^ 60 ->
  VStk.realloc st (addr q) n a = Contract \/
  exists st', VStk.realloc st (addr q) n a = Ok (st', addr q) /\ byt (VStk.mem st') = byt (VStk.mem st).
Proof.
  intros b max ch st q c l n a S H Hn Hn'.
  destruct (vstk_realloc b max ch S st q c l n a (vstk_hist_inv b max ch S _ _ H) Hn Hn') as [E|(st' & E & _ & X)]; eauto.
Qed.

(* the allocator faults only if 2^31 - 1 blocks are live *)
Theorem C89_alloc_never_faults : forall b max ch st l s a, sane_reservation b max ch -> vstk_hist b max ch st l ->
  sane_request s a -> a <= 2 ^ 31 -> N.of_nat (length l) < 2 ^ 31 - 1 -> VStk.alloc st s a <> UB.
Proof.
  intros b max ch st l s a S H Hr Ha Hlen. pose proof (vstk_hist_inv b max ch S _ _ H) as I.
  destruct (vstk_alloc b max ch S st l s a I Hr Ha) as [->|[(_ & E)|(st' & p & -> & _)]]; try discriminate.
  exfalso. destruct I as (_ & _ & _ & _ & _ & C). pose proof S as (Hb & _ & _ & Ht & _).
  assert (Ht' : b + max < 2 ^ 64) by (assert (2 ^ 62 < 2 ^ 64) by reflexivity; lia).
  pose proof (chain_id b max Hb Ht' _ _ _ C). lia.
Qed.

Definition vsdummy : VStk.state := VStk.mkst (Stk.mkctl 0 0 0 0) 0 0 (reserve 0 0 zmem).
Definition vs0 := get vsdummy (VStk.initialize 1048576 131072 65536 zmem).
Definition vs1 := get (vsdummy, 0) (VStk.alloc vs0 40000 8).
Definition vs2 := get (vsdummy, 0) (VStk.alloc (fst vs1) 100 64).
Lemma vs2_hist : vstk_hist 1048576 131072 65536 (fst vs2)
  [(mkb 1088640 100 64, VStk.fields (fst vs1)); (mkb 1048584 40000 8, VStk.fields vs0)].
Proof.
  apply vs_alloc with (st := fst vs1).
  - apply vs_alloc with (st := vs0).
    + apply vs_init with zmem; [intro; reflexivity|]. apply ok_get. vm_compute. reflexivity.
    + split; [exists 3; split; reflexivity|]. split; vm_compute; discriminate.
    + vm_compute. discriminate.
    + apply ok_pair; vm_compute; reflexivity.
  - split; [exists 6; split; reflexivity|]. split; vm_compute; discriminate.
  - vm_compute. discriminate.
  - apply ok_pair; vm_compute; reflexivity.
Qed.
Example C89_ex :
  VStk.fields (get vsdummy (VStk.free (fst vs2) 1088640)) = VStk.fields (fst vs1)
  /\ VStk.free (fst vs2) 1048584 = Contract
  /\ VStk.is_latest_allocation (fst vs2) 1088640 = Ok true
  /\ VStk.is_latest_allocation (fst vs2) 1048584 = Ok false.
Proof. repeat split; vm_compute; reflexivity. Qed.

Print Assumptions C46_blocks_committed.
Print Assumptions C46_size.
Print Assumptions C46_alloc_succeeds_iff_partial.
Print Assumptions C46_alloc_never_faults.
Print Assumptions C46_realloc_latest_keeps.
Print Assumptions C46_realloc_older_copies.
Print Assumptions C46_fits_but_fails_refuted.
Print Assumptions C46_wrap_refuted.
Print Assumptions C46_decommit_small_chunk_refuted.
Print Assumptions C46_decommit_count_refuted.
Print Assumptions C89_blocks_committed.
Print Assumptions C89_free_restores.
Print Assumptions C89_free_older_detected.
Print Assumptions C89_is_latest.
Print Assumptions C89_realloc_in_place.
Print Assumptions C89_alloc_never_faults.

(* C65: size classes of the two level segregated fit allocator. *)
From Coq Require Import NArith List Bool Lia.
From Verif Require Import Base TlsfModel TlsfMapSpec TlsfMapProofs.
Import ListNotations.
Open Scope N_scope.

(* every size belongs to exactly one class, the one whose interval contains it *)
Theorem C65_classes_are_intervals : forall s fl sl, sl < 32 ->
  (mapping_insert s = (fl, sl) <-> class_lo fl sl <= s /\ s < class_hi fl sl).
Proof.
  intros s fl sl H. split.
  - intro E. pose proof (mapping_interval s) as M. rewrite E in M. tauto.
  - intros [A B]. apply class_unique; auto.
Qed.
Example C65_class_example :
  mapping_insert 1000 = (2, 30) /\ class_lo 2 30 = 992 /\ class_hi 2 30 = 1008.
Proof. repeat split. Qed.

(* below 2^32 the class lies in the tables; the second level index always does *)
Theorem C65_index_in_tables : forall s, s < 2 ^ 32 -> in_tables (mapping_insert s).
Proof. exact mapping_in. Qed.
Theorem C65_second_index : forall s, snd (mapping_insert s) < 32.
Proof.
  intro s. pose proof (mapping_interval s) as M. destruct (mapping_insert s). cbn. tauto.
Qed.
Example C65_index_example : mapping_insert (2 ^ 32 - 8) = (24, 31) /\ mapping_insert 24 = (0, 3).
Proof. split; reflexivity. Qed.

(* the size 2^32, which tlsf_add_pool lets pass (it tests for more than block_size_max), is filed
   behind the end of the tables: adding such a pool is undefined behaviour in every state *)
Theorem C65_pool_of_max_size_refuted : forall t addr w,
  addr mod 8 = 0 -> 8 <= addr -> mem t addr = Some w ->
  fst (mapping_insert (2 ^ 32)) = 25 /\ tlsf_add_pool t addr (2 ^ 32 + 16) = UB.
Proof.
  intros t addr w A P M. split; [reflexivity|].
  unfold tlsf_add_pool. change (align_down (wsub 64 (2 ^ 32 + 16) (2 * block_header_overhead)) ALIGN_SIZE) with (@Ok N (2 ^ 32)).
  cbn [bind]. unfold ALIGN_SIZE. rewrite A. change (negb (0 =? 0)) with false. cbv iota.
  change ((2 ^ 32 <? block_size_min) || (block_size_max <? 2 ^ 32)) with false. cbv iota zeta.
  unfold block_header_overhead.
  assert (E : f_size (addr - 8) = addr) by (unfold f_size; lia).
  unfold block_set_size, block_set_free, block_set_prev_used, block_insert, block_size. rewrite E.
  unfold rd, wr. rewrite M. cbn [bind]. unfold upd.
  repeat (progress (rewrite ?N.eqb_refl; cbn [bind mem set_mem])).
  set (v := N.ldiff (N.ldiff (N.lor (N.lor (2 ^ 32) (N.land w 3)) 1) 2) 3).
  assert (V : v = 2 ^ 32).
  { unfold v. apply N.bits_inj. intro i. rewrite !N.ldiff_spec, !N.lor_spec, N.land_spec.
    destruct (N.ltb_spec i 2) as [L|L].
    - assert (i = 0 \/ i = 1) as [-> | ->] by lia.
      + change (N.testbit 3 0) with true. change (N.testbit (2 ^ 32) 0) with false. cbn [negb]. rewrite andb_false_r. reflexivity.
      + change (N.testbit 3 1) with true. change (N.testbit (2 ^ 32) 1) with false. cbn [negb]. rewrite andb_false_r. reflexivity.
    - assert (T3 : N.testbit 3 i = false).
      { destruct (N.testbit 3 i) eqn:B; auto. assert (i < 2) by (apply (small_bit 3 2 i); [reflexivity|auto]). lia. }
      assert (T2 : N.testbit 2 i = false).
      { destruct (N.testbit 2 i) eqn:B; auto. assert (i < 2) by (apply (small_bit 2 2 i); [reflexivity|auto]). lia. }
      assert (T1 : N.testbit 1 i = false).
      { destruct (N.testbit 1 i) eqn:B; auto. assert (i < 2) by (apply (small_bit 1 2 i); [reflexivity|auto]). lia. }
      rewrite T3, T2, T1. cbn [negb]. rewrite !andb_true_r, andb_false_r, !orb_false_r. reflexivity. }
  rewrite V. reflexivity.
Qed.
(* one word less and the pool is accepted *)
Example C65_pool_of_max_size_witness :
  exists t p, tlsf_create (fun _ => Some 0) 8 = Ok t /\ tlsf_add_pool t 8192 (2 ^ 32 + 16) = UB /\
              match tlsf_add_pool t 8192 (2 ^ 32 + 15) with Ok (_, Some q) => q = p | _ => False end.
Proof. do 2 eexists. repeat split; vm_compute; reflexivity. Qed.

(* good fit: for every request the classes at and above the class searched hold only blocks that are
   large enough. Requests come out of adjust_request_size. *)
Theorem C65_good_fit : forall size align r b,
  adjust_request_size size align = Ok r -> r mod 8 = 0 ->
  class_le (mapping_search r) (mapping_insert b) -> r <= b.
Proof.
  intros size align r b E Al C. assert (L : r < 2 ^ 32 \/ r = 24 \/ r = 0).
  { unfold adjust_request_size in E. destruct (size =? 0); [inversion E; auto|].
    apply bind_Ok in E as (a & _ & E). inversion E. unfold block_size_max, block_size_min.
    destruct (N.ltb_spec a (2 ^ 32)); lia. }
  apply (good_fit r b); auto; destruct L as [L|[->| ->]]; lia.
Qed.
Example C65_good_fit_example :
  adjust_request_size 1000 8 = Ok 1000 /\ mapping_search 1000 = (2, 31) /\ mapping_insert 1000 = (2, 30) /\
  mapping_insert 1008 = (2, 31).
Proof. repeat split. Qed.
(* the multiple of 8 is needed: a raw request of 9 bytes would accept a block of 8 *)
Example C65_good_fit_needs_rounding : class_le (mapping_search 9) (mapping_insert 8) /\ 8 < 9.
Proof. split; [right; split; [reflexivity|cbn; lia]|lia]. Qed.

(* the price: a block that is larger than the request by a thirty-second is always eligible, and for
   requests below 256 bytes any block that is large enough *)
Theorem C65_at_most_a_32nd_lost : forall r b, r < 2 ^ 33 ->
  (r < 256 /\ r <= b) \/ r + r / 32 <= b -> class_le (mapping_search r) (mapping_insert b).
Proof.
  intros r b H [[A B]|A]; [apply found_small|apply found_if_bigger]; auto.
Qed.
Example C65_lost_example : mapping_insert 1000 = (2, 30) /\ mapping_search 1000 = (2, 31) /\
  class_le (mapping_search 1000) (mapping_insert (1000 + 1000 / 32)).
Proof. repeat split. left. reflexivity. Qed.

(* search_suitable_block returns the smallest non-empty class that is at least the one asked for, and
   null exactly if all of those are empty *)
Theorem C65_search_finds_smallest : forall t fl sl, bitmaps_ok t -> fl < 25 -> sl < 32 ->
  match search_suitable_block t fl sl with
  | Ok None => forall c, in_tables c -> class_le (fl, sl) c -> ~ marked t c
  | Ok (Some (b, fl', sl')) =>
      in_tables (fl', sl') /\ class_le (fl, sl) (fl', sl') /\ marked t (fl', sl') /\ b = hds t fl' sl' /\
      forall c, in_tables c -> class_le (fl, sl) c -> marked t c -> class_le (fl', sl') c
  | _ => False
  end.
Proof. exact search_spec. Qed.
Example C65_search_example :
  let t := mkT (fun _ => None) 8 (2 ^ 3) (fun i => if i =? 3 then 2 ^ 7 + 2 ^ 9 else 0) (fun i j => 100 * i + j) in
  bitmaps_ok t /\ search_suitable_block t 1 30 = Ok (Some (307, 3, 7)) /\
  search_suitable_block t 3 8 = Ok (Some (309, 3, 9)) /\ search_suitable_block t 3 10 = Ok None.
Proof.
  split; [|repeat split; reflexivity]. split; [reflexivity|]. intros fl H. cbn [flb slb].
  destruct (N.eqb_spec fl 3) as [->|N].
  - split; [reflexivity|]. split; [discriminate|reflexivity].
  - split; [reflexivity|]. rewrite N.pow2_bits_false by auto. split; congruence.
Qed.

(* requests above 2^32 - 2^26 leave the tables after rounding up and are refused, even if a block
   of exactly that size is free *)
Theorem C65_largest_requests_refused : forall t r, 2 ^ 32 - 2 ^ 26 < r -> r < 2 ^ 32 ->
  block_locate_free t r = Ok (t, None).
Proof.
  intros t r A B. unfold block_locate_free.
  destruct (N.eqb_spec r 0); [lia|]. rewrite mapping_search_eq by lia. unfold rounded.
  destruct (N.leb_spec 256 r); [|lia].
  assert (E : N.log2 r = 31).
  { apply N.log2_unique; [lia|]. split; [|exact B]. lia. }
  rewrite E. change (2 ^ (31 - 5)) with (2 ^ 26).
  set (s := r + (2 ^ 26 - 1)). assert (2 ^ 32 <= s) by (unfold s; lia). assert (s < 2 ^ 33) by (unfold s; lia).
  assert (Es : N.log2 s = 32) by (apply N.log2_unique; [lia|split; [auto|exact H1]]).
  rewrite mapping_big by lia. rewrite Es. reflexivity.
Qed.
Example C65_refused_example :
  mapping_search (2 ^ 32 - 2 ^ 26 + 8) = (25, 0) /\ mapping_insert (2 ^ 32 - 2 ^ 26 + 8) = (24, 31).
Proof. split; reflexivity. Qed.

Print Assumptions C65_classes_are_intervals.
Print Assumptions C65_index_in_tables.
Print Assumptions C65_second_index.
Print Assumptions C65_pool_of_max_size_refuted.
Print Assumptions C65_good_fit.
Print Assumptions C65_at_most_a_32nd_lost.
Print Assumptions C65_search_finds_smallest.
Print Assumptions C65_largest_requests_refused.

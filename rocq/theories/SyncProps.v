(* Theorems about allocators behind a lock (C124). *)
From Coq Require Import NArith Arith List Bool Lia.
From Verif Require Import Base SpinModel SpinProofs AllocModel AllocSpec AllocProofs AllocProps VAllocModel VAllocSpec VAllocProofs VAllocProps
  TlsfModel TlsfProps TlsfAllocModel SyncModel SyncSpec SyncProofs.
Import ListNotations.

(* Any number of threads calling in any interleaving: the calls took effect one after the other, each between its start and its end,
   with the results of the sequential object and its state; a run fails only as a call of one thread alone fails, so there are no
   data races.  For every object and every set P of calls. *)
Theorem C124_linearizable : forall S C R (body : C -> S -> outcome (S * R)) (P : C -> Prop) threads s0 es,
  Forall locked es -> Forall (calls P) es ->
  match run body (init threads s0) es with
  | Ok y => exists l, sequential body s0 l (ob y) /\ explains l (hist y) /\ forall e, In e l -> P (ecall e)
  | o => fails_alone body P s0 o
  end.
Proof.
  intros S C R body P threads s0 es F G. destruct (run_ok body P threads s0 es (init threads s0) [] (init_ok body P threads s0) F G) as [(y & l & E & O)|E].
  - rewrite E. exists l. split; [apply O|]. split; [eapply ok_explains; exact O|]. intros e He.
    destruct (o_lin _ _ _ _ _ _ O e He) as (_ & k & Hi). eapply o_P; eauto.
  - destruct (run body (init threads s0) es) eqn:R0; auto. destruct E as (l & s & c & _ & _ & _ & []).
Qed.

(* a waiting call can always be completed by its own thread alone when no other thread is inside *)
Theorem C124_completes : forall S C R (body : C -> S -> outcome (S * R)) threads s0 es y k id c s r,
  Forall locked es -> run body (init threads s0) es = Ok y ->
  nth_error (ts y) k = Some (Waiting id c) ->
  (forall j t, nth_error (ts y) j = Some t -> t = Idle \/ exists i d, t = Waiting i d) ->
  body c (ob y) = Ok (s, r) ->
  exists es' y', Forall (by_thread k) es' /\ run body y es' = Ok y' /\ ob y' = s /\ In (Ret id r) (hist y') /\ nth_error (ts y') k = Some Idle.
Proof.
  intros S C R body threads s0 es y k id c s r F E Hk NB EB.
  assert (G : Forall (calls (fun _ : C => True)) es) by (apply Forall_forall; intros [] _; exact Logic.I).
  destruct (run_ok body _ threads s0 es (init threads s0) [] (init_ok body _ threads s0) F G) as [(y' & l & E' & O)|(l & s' & c' & _ & _ & _ & X)].
  - assert (y' = y) by congruence. subst y'. destruct (complete body _ threads s0 y l k id c s r O Hk NB EB) as (es' & y' & X1 & _ & X2 & X3). exists es', y'. auto.
  - rewrite E in X. contradiction.
Qed.

(* the blocks of a synced_virtual_linear_allocator *)
Definition blk (e : entry vcall vres) : block :=
  match ecall e, eres e with VAlloc n a, VN p => mkb p n a | _, _ => mkb 0 0 0 end.
Lemma seq_blocks : forall b max ch l st bl s', vlin_hist b max ch st bl -> (forall e, In e l -> sane_alloc (ecall e)) ->
  sequential vbody (Some st) l s' -> exists st', s' = Some st' /\ vlin_hist b max ch st' (rev (map blk l) ++ bl).
Proof.
  induction l as [|e l IH]; intros st bl s' H P SQ; cbn [sequential] in SQ.
  - subst s'. exists st. auto.
  - destruct SQ as (s1 & E & SQ). pose proof (P e (or_introl eq_refl)) as Pe. destruct e as [id c r]. cbn [ecall eres] in *.
    destruct c; cbn [sane_alloc] in Pe; try contradiction. cbn [vbody] in E.
    destruct (VLin.alloc st n align) as [[st1 p]| | |] eqn:EA; cbn [bind] in E; try discriminate. injection E as <- <-.
    destruct (IH st1 (mkb p n align :: bl) s') as (st' & -> & H'); auto.
    + apply vl_alloc with (st := st); auto.
    + intros e He. apply P. right. exact He.
    + exists st'. split; [reflexivity|]. cbn [map rev]. rewrite <- app_assoc. exact H'.
Qed.
Lemma apart_sym : forall p q, apart p q -> apart q p.
Proof. intros p q H x (A & B). apply (H x). auto. Qed.
Lemma all_apart_rev : forall l, all_apart l -> forall i j p q, nth_error l i = Some p -> nth_error l j = Some q -> i <> j -> apart p q.
Proof.
  induction l as [|x l IH]; intros H i j p q Hi Hj D; [destruct i; discriminate|]. destruct H as (H1 & H2). rewrite Forall_forall in H1.
  destruct i as [|i], j as [|j]; cbn in Hi, Hj; try contradiction.
  - injection Hi as ->. apply H1. eapply nth_error_In; eauto.
  - injection Hj as ->. apply apart_sym, H1. eapply nth_error_In; eauto.
  - eapply IH; eauto.
Qed.
Lemma all_apart_map : forall T (f : T -> block) l, all_apart (map f l) -> forall x y, In x l -> In y l -> x <> y -> apart (f x) (f y).
Proof.
  intros T f l H x y Hx Hy D. apply In_nth_error in Hx, Hy. destruct Hx as (i & Hi), Hy as (j & Hj).
  apply (all_apart_rev _ H i j); [apply map_nth_error; exact Hi|apply map_nth_error; exact Hj|congruence].
Qed.

Theorem C124_virtual_blocks : forall b max ch m st0 threads es, sane_reservation b max ch -> (forall x, m x < 256)%N ->
  VLin.initialize b max ch m = Ok st0 -> Forall locked es -> Forall (calls sane_alloc) es ->
  run vbody (init threads (Some st0)) es = Contract \/
  exists y st, run vbody (init threads (Some st0)) es = Ok y /\ ob y = Some st /\
    (forall id k n a r, In (Inv id k (VAlloc n a)) (hist y) -> In (Ret id r) (hist y) ->
       exists p, r = VN p /\ within b (b + max) (mkb p n a) /\ well_aligned (mkb p n a) /\ committed (VLin.mem st) (mkb p n a)) /\
    (forall id k n a p id' k' n' a' p', In (Inv id k (VAlloc n a)) (hist y) -> In (Ret id (VN p)) (hist y) ->
       In (Inv id' k' (VAlloc n' a')) (hist y) -> In (Ret id' (VN p')) (hist y) -> id <> id' -> apart (mkb p n a) (mkb p' n' a')).
Proof.
  intros b max ch m st0 threads es HS Hm E0 F G. pose proof (C124_linearizable _ _ _ vbody sane_alloc threads (Some st0) es F G) as L.
  assert (H0 : vlin_hist b max ch st0 []) by (eapply vl_init; eauto).
  destruct (run vbody (init threads (Some st0)) es) as [y| | |] eqn:ER.
  - right. destruct L as (l & SQ & X & PL). destruct (seq_blocks b max ch l st0 [] _ H0 PL SQ) as (st & Eo & H). exists y, st.
    split; [reflexivity|]. split; [exact Eo|]. rewrite app_nil_r in H. destruct (C46_blocks_committed b max ch st _ HS H) as ((B1 & B2 & B3) & B4).
    rewrite <- map_rev in B1, B2, B3, B4. rewrite Forall_forall in B1, B2, B4.
    assert (K : forall id k n a r, In (Inv id k (VAlloc n a)) (hist y) -> In (Ret id r) (hist y) ->
      exists p, r = VN p /\ In (mke id (VAlloc n a) (VN p)) (rev l)).
    { intros id k n a r Hi Hr. destruct (x_returned _ _ X id r Hr) as (c & Hc). destruct (x_called _ _ X _ Hc) as (k' & Hi'). cbn [eid ecall] in Hi'.
      destruct (x_calls _ _ X _ _ _ _ _ Hi Hi') as (_ & <-).
      destruct r as [p|]; [exists p; split; [reflexivity|]; apply in_rev; rewrite rev_involutive; exact Hc|]. exfalso.
      clear -SQ Hc. revert SQ. generalize (Some st0). induction l as [|e l IH]; intros s SQ; [destruct Hc|]. cbn [sequential] in SQ. destruct SQ as (s1 & E & SQ).
      destruct Hc as [->|Hc]; [|eauto]. cbn [ecall eres vbody] in E. destruct s; [|discriminate]. destruct (VLin.alloc s n a) as [[]| | |]; discriminate. }
    split.
    + intros id k n a r Hi Hr. destruct (K id k n a r Hi Hr) as (p & -> & He). exists p. split; [reflexivity|].
      pose proof (in_map blk _ _ He) as Hb. change (blk (mke id (VAlloc n a) (VN p))) with (mkb p n a) in Hb. auto.
    + intros id k n a p id' k' n' a' p' Hi Hr Hi' Hr' D. destruct (K _ _ _ _ _ Hi Hr) as (q & Eq & He), (K _ _ _ _ _ Hi' Hr') as (q' & Eq' & He').
      injection Eq as <-. injection Eq' as <-. apply (all_apart_map _ blk _ B3 _ _ He He'). congruence.
  - left. reflexivity.
  - exfalso. destruct L as (l & s & c & SQ & PL & Pc & E). destruct (seq_blocks b max ch l st0 [] _ H0 PL SQ) as (st & -> & H).
    destruct c; cbn [sane_alloc] in Pc; try contradiction. cbn [vbody] in E.
    destruct (VLin.alloc st n align) as [[]| | |] eqn:EA; cbn [bind] in E; try discriminate. eapply C46_alloc_never_faults; eauto.
  - exfalso. destruct L as (l & s & c & SQ & PL & Pc & E). destruct (seq_blocks b max ch l st0 [] _ H0 PL SQ) as (st & -> & H).
    destruct c; cbn [sane_alloc] in Pc; try contradiction. cbn [vbody] in E. apply vlin_hist_inv in H; auto.
    destruct (lma_exists align (VLin.cur st + 8) (proj1 (pow2_pos' _ (proj1 Pc)))) as (p & Hp).
    destruct (vlin_alloc b max ch HS st _ n align p H Pc Hp) as (_ & _ & [(v' & pe' & _ & EA & _)|(_ & EA)]); rewrite EA in E; discriminate.
Qed.

(* Refuted: initialize takes no lock.  A thread that initializes and one that allocates after it race. *)
Theorem C124_initialize_refuted : exists m addr bytes n a y,
  run tbody (init 2 None) [tevent 1 (TInitialize m addr bytes); tevent 0 (TAlloc n a); ETick 0 false] = Ok y /\
  run tbody y [EBegin 0] = UB.
Proof.
  exists zeros, 1024%N, (control_size + 4096)%N, 16%N, 8%N.
  exists (get (init 2 None) (run tbody (init 2 None) [tevent 1 (TInitialize zeros 1024 (control_size + 4096)); tevent 0 (TAlloc 16 8); ETick 0 false])).
  split; [apply ok_get|]; vm_compute; reflexivity.
Qed.
(* Refuted: get_backing lets a thread read the fields without the lock, which races with a locked call of another thread. *)
Theorem C124_peek_refuted : exists b max ch m y,
  run vbody (init 2 None) [vevent 0 (VInitialize b max ch m); vevent 0 (VAlloc 16 8); ETick 0 false; EBegin 0; EFinish 0; EReturn 0] = Ok y /\
  run vbody y [vevent 1 VPeek] = UB.
Proof.
  exists 1048576%N, 131072%N, 65536%N, zmem.
  exists (get (init 2 None) (run vbody (init 2 None) [vevent 0 (VInitialize 1048576 131072 65536 zmem); vevent 0 (VAlloc 16 8); ETick 0 false; EBegin 0; EFinish 0; EReturn 0])).
  split; [apply ok_get|]; vm_compute; reflexivity.
Qed.
(* Refuted: the backing allocator knows the size of every block, the synced one of none: get_allocation_size is not forwarded. *)
Theorem C124_size_refuted : forall b max ch st l q, sane_reservation b max ch -> vlin_hist b max ch st l -> In q l ->
  VLin.get_allocation_size st (addr q) = Ok (Some (size q)) /\ v_get_allocation_size (Some st) (addr q) = None.
Proof. intros b max ch st l q HS H Hq. split; [eapply C46_size; eauto|reflexivity]. Qed.
Example C124_size_ex : exists b max ch st l q, sane_reservation b max ch /\ vlin_hist b max ch st l /\ In q l.
Proof.
  exists 1048576%N, 131072%N, 65536%N, (fst vl1), [mkb 1048584 40000 8], (mkb 1048584 40000 8). split; [|split; [exact vl1_hist|left; reflexivity]].
  apply sane_ex; try (vm_compute; reflexivity); try (vm_compute; discriminate).
  - exists 256%N. reflexivity.
  - exists 16%N. split; reflexivity.
Qed.

(* two threads whose calls overlap: the second one waits, both get their blocks *)
Definition ex_events : list (ev vcall) :=
  [vevent 0 (VAlloc 16 8); vevent 1 (VAlloc 32 16); ETick 1 false; ETick 0 false; EBegin 1; ETick 0 true; EFinish 1; ETick 0 false; EReturn 1;
   ETick 0 false; EBegin 0; EFinish 0; EReturn 0].
Example C124_ex : match run vbody (init 2 (Some vl0)) ex_events with
  | Ok y => hist y = [Inv 0 0 (VAlloc 16 8); Inv 1 1 (VAlloc 32 16); Ret 1 (VN 1048592); Ret 0 (VN 1048632)]
  | _ => False end.
Proof. vm_compute. reflexivity. Qed.
Example C124_ex_conditions : Forall locked ex_events /\ Forall (calls sane_alloc) ex_events /\ VLin.initialize 1048576 131072 65536 zmem = Ok vl0 /\ forall x, (zmem x < 256)%N.
Proof.
  split; [repeat constructor|]. split.
  - repeat constructor; cbn; try (vm_compute; discriminate); [exists 3%N|exists 4%N]; split; reflexivity.
  - split; [apply ok_get; vm_compute; reflexivity|intro; reflexivity].
Qed.
(* a waiting thread as C124_completes asks for *)
Example C124_completes_ex : match run vbody (init 2 (Some vl0)) [vevent 0 (VAlloc 16 8); vevent 1 (VAlloc 32 16)] with
  | Ok y => ts y = [Waiting 0 (VAlloc 16 8); Waiting 1 (VAlloc 32 16)] | _ => False end.
Proof. vm_compute. reflexivity. Qed.
(* a call that fails alone fails in a run *)
Example C124_fails_ex : run vbody (init 2 None) [vevent 0 (VAlloc 16 8); ETick 0 false; EBegin 0; EFinish 0] = Contract.
Proof. vm_compute. reflexivity. Qed.

(* one call of a thread that meets nobody *)
Definition alone {C} (k : nat) (c : C) : list (ev C) := [ECall k c; ETick k false; EBegin k; EFinish k; EReturn k].
Definition results {C R} (h : list (event C R)) : list R := flat_map (fun e => match e with Ret _ r => [r] | _ => [] end) h.
Definition tl0 := get None (a_initialize None zeros 1024 (control_size + 4096)).
Definition tl_events := alone 0 (TAlloc 16 8) ++ alone 1 (TAlloc 32 8) ++ alone 1 (TSize (Some 7568)) ++ alone 0 (TRealloc (Some 7568) 64 8)
  ++ alone 0 (TValidate 100) ++ alone 1 (TFree (Some 7600)) ++ alone 0 (TAlloc 56 8) ++ alone 1 TDestroy.
Definition vl_events := alone 0 (VAlloc 16 8) ++ alone 1 (VAlloc 32 8) ++ alone 1 (VRealloc 1048584 48 8) ++ alone 0 VReset ++ alone 1 VDecommit ++ alone 0 VDestroy.
Example C124_tlsf_ex : match run tbody (init 2 tl0) tl_events with
  Ok y => results (hist y) = [TP (Some 7568); TP (Some 7600); TN (Some 24); TP (Some 7640); TB true; TU; TP (Some 7568); TU]%N /\ (if ob y then false else true) = true | _ => False end.
Proof. vm_compute. split; reflexivity. Qed.
Example C124_virtual_ex : match run vbody (init 2 (Some vl0)) vl_events with
  Ok y => results (hist y) = [VN 1048584; VN 1048608; VN 1048648; VN 120; VN 65536; VU]%N /\ (if ob y then false else true) = true | _ => False end.
Proof. vm_compute. split; reflexivity. Qed.

Print Assumptions C124_linearizable.
Print Assumptions C124_completes.
Print Assumptions C124_virtual_blocks.
Print Assumptions C124_initialize_refuted.
Print Assumptions C124_peek_refuted.
Print Assumptions C124_size_refuted.

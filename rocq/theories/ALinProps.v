(* Theorems about atomic_linear_allocator (C47). *)
From Coq Require Import NArith ZArith List Lia Bool Arith.
Import ListNotations.
From Verif Require Import Base BitsModel BitsSpec AllocModel AllocSpec AllocProofs AllocProps ALinModel ALinSpec ALinProofs.
Open Scope N_scope.

(* ================= C47 ================= *)

(* In every execution by any number of threads, whatever the interleaving: a returned block lies in
   the buffer, is aligned as requested and shares no byte with the block of any other call.
   Full statement: without the hypothesis (inside exec) that the sum of all requests stays below
   2^64; that is refuted below. *)
Theorem C47_blocks_partial : forall b len st, 0 < b -> b + len < 2 ^ 64 -> exec b len st ->
  (forall k q, returned st k q -> within b (b + len) q /\ well_aligned q) /\
  (forall i j q r, returned st i q -> returned st j r -> i <> j -> apart q r).
Proof.
  intros b len st Hb Hl H. apply inv_exec in H; auto. destruct H as (B & E & O & F & A).
  rewrite Forall_forall in F. split.
  - intros k q (c & p & Hk & Hc & ->). destruct (F c (nth_error_In _ _ Hk)) as (C1 & C2 & C3). rewrite Hc in C3.
    destruct C3 as (C3 & C4 & C5 & C6 & C7). unfold within, well_aligned, region in *. cbn in *. split; [lia|auto].
  - intros i j q r (c & p & Hk & Hc & ->) (d & p' & Hj & Hd & ->) Hne.
    destruct (F c (nth_error_In _ _ Hk)) as (C1 & C2 & C3). rewrite Hc in C3. destruct C3 as (_ & C4 & C5 & _ & _).
    destruct (F d (nth_error_In _ _ Hj)) as (D1 & D2 & D3). rewrite Hd in D3. destruct D3 as (_ & D4 & D5 & _ & _).
    assert (Ap : apart (region b c) (region b d)).
    { eapply (all_apart_nth _ i j _ _ A); [apply map_nth_error; eauto|apply map_nth_error; eauto|auto]. }
    intros x (X1 & X2). apply (Ap x). unfold holds, region in *. cbn [addr size] in *. lia.
Qed.

(* get_allocation_size knows every returned block, while other calls are in flight and after any
   client writes into blocks *)
Theorem C47_size : forall b len st k q, 0 < b -> b + len < 2 ^ 64 -> exec b len st -> returned st k q ->
  get_allocation_size st (addr q) = Ok (Some (size q)).
Proof.
  intros b len st k q Hb Hl H (c & p & Hk & Hc & ->). apply inv_exec in H; auto. destruct H as (B & E & O & F & A).
  rewrite Forall_forall in F. destruct (F c (nth_error_In _ _ Hk)) as (C1 & C2 & C3). rewrite Hc in C3.
  destruct C3 as (C3 & C4 & C5 & C6 & C7). unfold region in *. cbn [addr size] in *.
  unfold get_allocation_size. destruct (N.eqb_spec p 0); [lia|]. rewrite wsub_ge by lia. rewrite B, E.
  destruct (N.leb_spec b (p - 8)); [|lia]. destruct (N.leb_spec (p - 8 + 8) (b + len)); [|lia].
  cbn [andb defined bind]. rewrite C7. reflexivity.
Qed.

(* When a call completes: with success exactly when the least aligned address behind its header is
   followed by enough room; it never disturbs another call. *)
Theorem C47_completes_iff : forall b len st k c p, 0 < b -> b + len < 2 ^ 64 -> exec b len st ->
  nth_error (calls st) k = Some c -> cres c = None ->
  least_multiple_above (calign c) (b + cstart c + 8) p ->
  (p + csize c <= b + len ->
     exists st', finish st k = Ok st' /\ returned st' k (mkb p (csize c) (calign c)) /\
       forall j q, j <> k -> (returned st' j q <-> returned st j q)) /\
  (~ p + csize c <= b + len -> finish st k = Contract \/ finish st k = UB).
Proof.
  intros b len st k c p Hb Hl H Hk Hc Hm. apply inv_exec in H; auto.
  rewrite (finish_exact b len Hb Hl st k c p H Hk Hc Hm).
  split; intro L.
  - destruct (N.leb_spec p (b + len)); [|lia]. destruct (N.leb_spec (p + csize c) (b + len)); [|lia].
    eexists. split; [reflexivity|]. split.
    + exists (mkcall (csize c) (calign c) (cstart c) (Some p)), p. cbn [calls].
      split; [apply lset_nth_eq; apply nth_error_Some; congruence|]. cbn. auto.
    + intros j q Hne. unfold returned. cbn [calls]. rewrite lset_nth_neq by auto. tauto.
  - destruct (N.leb_spec p (b + len)); [|auto]. destruct (N.leb_spec (p + csize c) (b + len)); [lia|auto].
Qed.

(* a request whose worst case fits always succeeds *)
Theorem C47_enough_room : forall b len st k c, 0 < b -> b + len < 2 ^ 64 -> exec b len st ->
  nth_error (calls st) k = Some c -> cres c = None ->
  cstart c + csize c + (calign c - 1) + 8 <= len -> exists st', finish st k = Ok st'.
Proof.
  intros b len st k c Hb Hl H Hk Hc Hr.
  pose proof H as H'. apply inv_exec in H'; auto. destruct H' as (B & E & O & F & A).
  rewrite Forall_forall in F. destruct (F c (nth_error_In _ _ Hk)) as (C1 & _).
  destruct (pow2_pos' _ C1) as (Ha0 & _).
  destruct (lma_exists (calign c) (b + cstart c + 8) Ha0) as (p & Hm).
  pose proof (lma_lt _ _ _ Ha0 Hm) as L.
  destruct (proj1 (C47_completes_iff b len st k c p Hb Hl H Hk Hc Hm)) as (st' & E' & _); [lia|eauto].
Qed.

(* after a reset the whole buffer is available again: any request that fits an empty buffer succeeds *)
Theorem C47_reset_recovers : forall b len st s a, 0 < b -> b + len < 2 ^ 64 -> exec b len st ->
  (forall c, In c (calls st) -> cres c <> None) -> a = 0 \/ pow2 a -> b + s + N.max a 1 + 8 < 2 ^ 64 -> s + (N.max a 1 - 1) + 8 <= len ->
  exists st1 st2, start (reset st) s a = Ok st1 /\ finish st1 0 = Ok st2.
Proof.
  intros b len st s a Hb Hl H Hq Ha Hw Hr. pose proof (ex_reset b len st H Hq) as H1. pose proof H as H'. apply inv_exec in H'; auto. destruct H' as (B & _).
  assert (S : exists st1, start (reset st) s a = Ok st1 /\ calls st1 = [mkcall s (N.max a 1) 0 None]).
  { unfold start. cbn [reset begin_ off calls]. destruct (N.eqb_spec (begin_ st) 0); [lia|]. cbn. eauto. }
  destruct S as (st1 & S & C1).
  assert (H2 : exec b len st1) by (eapply ex_start; eauto; cbn [reset off]; lia).
  destruct (C47_enough_room b len st1 0 (mkcall s (N.max a 1) 0 None) Hb Hl H2) as (st2 & F); [rewrite C1; auto|auto|cbn; lia|]. eauto.
Qed.


(* ---- refutations ---- *)
Definition st0 := init 4096 64 (fun _ => 0).
Definition go (o : outcome state) : state := get st0 o.

(* One thread, one request of nearly 2^64 bytes: the total wraps to 0, both checks pass, and the next
   request gets the same address. *)
Definition w1 := go (finish (go (start st0 (2 ^ 64 - 8) 1)) 0).
Definition w2 := go (finish (go (start w1 8 1)) 0).
Theorem C47_size_wrap_refuted : exists st1 st2 st3,
  start st0 (2 ^ 64 - 8) 1 = Ok st1 /\ finish st1 0 = Ok w1 /\ start w1 8 1 = Ok st2 /\ finish st2 0 = Ok st3 /\
  returned st3 1 (mkb 4104 (2 ^ 64 - 8) 1) /\ returned st3 0 (mkb 4104 8 1) /\
  ~ within 4096 (4096 + 64) (mkb 4104 (2 ^ 64 - 8) 1).
Proof.
  exists (go (start st0 (2 ^ 64 - 8) 1)), (go (start w1 8 1)), w2.
  split; [apply ok_get; vm_compute; reflexivity|]. split; [apply ok_get; vm_compute; reflexivity|].
  split; [apply ok_get; vm_compute; reflexivity|]. split; [apply ok_get; vm_compute; reflexivity|].
  split; [do 2 eexists; split; [vm_compute; reflexivity|]; split; [reflexivity|reflexivity]|].
  split; [do 2 eexists; split; [vm_compute; reflexivity|]; split; [reflexivity|reflexivity]|].
  intros (_ & H). cbn in H. lia.
Qed.

(* Threads: two calls that will fail their check are in flight; together they wrap the offset to 0, so
   a third thread gets the block that was handed out first. *)
Definition t1 := go (finish (go (start st0 8 1)) 0).
Definition t2 := go (start t1 (2 ^ 63) 1).
Definition t3 := go (start t2 (2 ^ 63 - 32) 1).
Definition t4 := go (start t3 8 1).
Definition t5 := go (finish t4 0).
Theorem C47_offset_wrap_refuted :
  start t1 (2 ^ 63) 1 = Ok t2 /\ start t2 (2 ^ 63 - 32) 1 = Ok t3 /\ start t3 8 1 = Ok t4 /\ finish t4 0 = Ok t5 /\
  returned t5 3 (mkb 4104 8 1) /\ returned t5 0 (mkb 4104 8 1).
Proof.
  split; [apply ok_get; vm_compute; reflexivity|]. split; [apply ok_get; vm_compute; reflexivity|].
  split; [apply ok_get; vm_compute; reflexivity|]. split; [apply ok_get; vm_compute; reflexivity|].
  split; (do 2 eexists; split; [vm_compute; reflexivity|]; split; [reflexivity|reflexivity]).
Qed.

(* A request that does not fit writes its header behind the buffer before it is rejected. *)
Definition u1 := go (finish (go (start (init 4096 16 (fun _ => 0)) 8 1)) 0).
Theorem C47_overcommit_writes_outside_refuted : exists st2, start u1 8 1 = Ok st2 /\ finish st2 0 = UB.
Proof. exists (go (start u1 8 1)). split; [apply ok_get; vm_compute; reflexivity|vm_compute; reflexivity]. Qed.

(* non-vacuity: two calls overlap in time, the second completes first *)
Definition e1 := go (start st0 5 1).
Definition e2 := go (start e1 16 16).
Definition e3 := go (finish e2 0).
Definition e4 := go (finish e3 1).
Example C47_ex : exec 4096 64 e4 /\ returned e4 1 (mkb 4104 5 1) /\ returned e4 0 (mkb 4128 16 16).
Proof.
  split.
  - assert (E0 : exec 4096 64 st0) by constructor.
    assert (E1 : exec 4096 64 e1).
    { eapply (ex_start _ _ st0 5 1); [auto|right; exists 0; split; [lia|reflexivity]|vm_compute; reflexivity|].
      apply ok_get. vm_compute. reflexivity. }
    assert (E2 : exec 4096 64 e2).
    { eapply (ex_start _ _ e1 16 16); [auto|right; exists 4; split; [lia|reflexivity]|vm_compute; reflexivity|].
      apply ok_get. vm_compute. reflexivity. }
    assert (E3 : exec 4096 64 e3) by (eapply (ex_finish _ _ e2 0); [auto|apply ok_get; vm_compute; reflexivity]).
    eapply (ex_finish _ _ e3 1); [auto|apply ok_get; vm_compute; reflexivity].
  - split; (do 2 eexists; split; [vm_compute; reflexivity|]; split; [reflexivity|reflexivity]).
Qed.

Print Assumptions C47_blocks_partial.
Print Assumptions C47_size.
Print Assumptions C47_completes_iff.
Print Assumptions C47_enough_room.
Print Assumptions C47_reset_recovers.
Print Assumptions C47_size_wrap_refuted.
Print Assumptions C47_offset_wrap_refuted.
Print Assumptions C47_overcommit_writes_outside_refuted.

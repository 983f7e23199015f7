(* C98: the allocator interface of tlsf_allocator on reachable heaps. *)
From Coq Require Import NArith List Bool Lia.
From Verif Require Import Base TlsfModel TlsfAllocModel TlsfMapProofs TlsfListProofs TlsfPhysProofs TlsfProofs TlsfOpProofs TlsfPoolProofs TlsfSpec TlsfHistProofs TlsfProps.
Import ListNotations.
Open Scope N_scope.

Lemma reached_step : forall m addr w o w', reached m addr w -> op_ok m o -> step w o = Ok w' -> reached m addr w'.
Proof.
  intros m addr w o w' (Z & D1 & D2 & t & l & E & F & R) O S. split; [auto|]. split; [auto|]. split; [auto|].
  exists t, (l ++ [o]). split; [auto|]. split; [apply Forall_app; auto|]. rewrite run_app, R. cbn. rewrite S. reflexivity.
Qed.

(* initialize on an aligned buffer with room for the tables and a pool: one empty pool behind the tables *)
Theorem C98_initialize : forall m addr bytes, addr mod 8 = 0 -> addr <> 0 -> addr + bytes <= 2 ^ 63 ->
  control_size + 40 <= bytes -> bytes < control_size + 2 ^ 32 + 16 -> region m addr bytes ->
  exists t, a_initialize None m addr bytes = Ok (Some t) /\
    reached m addr (mkW t [] [(addr + control_size, bytes - control_size)]).
Proof.
  intros m addr bytes A Z B L1 L2 R. change control_size with 6536 in *.
  assert (D : forall d, d mod 8 = 0 -> d < 6536 -> m (addr + d) <> None).
  { intros d M Ld. apply R; [apply mod8_add; auto|lia|lia]. }
  pose proof (D 16 eq_refl eq_refl) as D1. pose proof (D 24 eq_refl eq_refl) as D2.
  destruct (C66_create m addr Z D1 D2) as [t E].
  assert (Nt : nul t = addr). { destruct (create_ok m addr Z D1 D2) as (t' & E' & N' & _). congruence. }
  set (o := OAddPool (addr + 6536) (bytes - 6536)).
  assert (O : op_ok m o).
  { cbn. split; [lia|]. split; [lia|]. split; [left; lia|]. intros x X1 X2 X3. apply R; auto; lia. }
  assert (R0 : reached m addr (mkW t [] [])). { split; [auto|]. split; [auto|]. split; [auto|]. exists t, []. split; [auto|]. split; [constructor|reflexivity]. }
  destruct (create_ok m addr Z D1 D2) as (t' & E' & N' & Dm & G & C & _). assert (t' = t) by congruence. subst t'.
  destruct (add_pool_ok t [] (addr + 6536) (bytes - 6536) G C) as (t2 & pb & E2 & _).
  { split; [apply mod8_add; auto|]. split; [lia|]. split; [lia|]. split; [lia|]. split; [lia|].
    intros x X1 X2 X3. eapply same_dom_some; [exact Dm|]. apply R; auto; lia. }
  { left. change control_size with 6536. lia. }
  { intros a l []. }
  exists t2. split.
  - unfold a_initialize, tlsf_create_with_pool, ALIGN_SIZE. change control_size with 6536.
    cbn [contract bind]. destruct (N.ltb_spec 6536 bytes); [|lia]. rewrite A. cbn [contract bind N.eqb].
    rewrite E. cbn [bind]. rewrite wsub_ge by lia. rewrite E2. reflexivity.
  - apply (reached_step m _ _ o _ R0 O). unfold o. cbn [step heap pools live]. unfold apart_b.
    destruct (N.leb_spec (nul t + control_size) (addr + 6536)) as [_|H]; [|change control_size with 6536 in H; lia].
    rewrite orb_true_r. cbn [forallb andb]. rewrite E2. reflexivity.
Qed.
Example C98_initialize_example : a_initialize None zeros 1024 (control_size + 8) <> Contract /\
  match a_initialize None zeros 1024 (control_size + 4096) with Ok (Some t) => nul t = 1024 | _ => False end.
Proof. split; vm_compute; [discriminate|reflexivity]. Qed.

(* alloc either behaves as the aligned request of the client or stops in an assertion, the latter only for
   empty requests and if no stretch without live buffers is large enough *)
Theorem C98_alloc : forall m addr w k n, reached m addr w -> n + 8 <= 2 ^ 64 -> k <= 62 ->
  (exists t p, a_alloc (Some (heap w)) n (2 ^ k) = Ok (Some t, p) /\
     step w (OAlign k n) = Ok (mkW t (mkB p n (2 ^ k) (fun _ => None) :: live w) (pools w)) /\ p mod 2 ^ k = 0 /\
     reached m addr (mkW t (mkB p n (2 ^ k) (fun _ => None) :: live w) (pools w))) \/
  (a_alloc (Some (heap w)) n (2 ^ k) = Contract /\
     (n = 0 \/ 2 ^ 32 <= need_aligned k n \/ ~ gap w (8 + need_aligned k n + need_aligned k n / 32))).
Proof.
  intros m addr w k n R B K. pose proof (reached_inv _ _ _ R) as W. pose proof W as (D0 & P & G & C & _).
  unfold a_alloc. destruct (N.ltb_spec 0 n) as [L|L]; cbn [contract bind]; [|right; split; [reflexivity|left; lia]].
  destruct (memalign_ok _ _ k n G C B K) as [(Em & H)|(t & P' & b & q & Em & _ & _ & _ & Al & _)].
  - right. rewrite Em. split; [reflexivity|]. destruct H as [H|[H|H]]; [auto|auto|]. right.
    destruct (N.lt_ge_cases (need_aligned k n) (2 ^ 32)) as [Lt|]; [|auto]. right. intro Gp.
    destruct (C97_aligned_gap_is_usable m addr w k n R ltac:(lia) K Lt Gp) as (w' & b & E & Lv & _).
    cbn [step] in E. rewrite Em in E. inv E. cbn [live] in Lv.
    assert (X : length (live w) = length (b :: live w)) by (rewrite <- Lv; reflexivity). cbn in X. lia.
  - left. rewrite Em. exists t, (b + 16). split; [reflexivity|].
    assert (E : step w (OAlign k n) = Ok (mkW t (mkB (b + 16) n (2 ^ k) (fun _ => None) :: live w) (pools w))).
    { cbn [step]. rewrite Em. reflexivity. }
    split; [exact E|]. split; [exact Al|]. apply (reached_step m addr w (OAlign k n)); cbn; auto.
Qed.
(* free of a live buffer, and of null *)
Theorem C98_free : forall m addr w i b, reached m addr w -> nth_error (live w) i = Some b ->
  exists t, a_free (Some (heap w)) (Some (ptr b)) = Ok (Some t) /\ reached m addr (mkW t (drop_nth i (live w)) (pools w)).
Proof.
  intros m addr w i b R Hb. destruct (step_inv m w (OFree i) (reached_inv _ _ _ R) I) as (w' & E & W').
  pose proof (reached_step m addr w (OFree i) w' R I E) as R'. cbn [step] in E. rewrite Hb in E. unfold a_free.
  destruct (tlsf_free (heap w) (ptr b)) as [t| | |]; cbn [bind] in *; try discriminate. inv E. eauto.
Qed.
Theorem C98_free_null : forall s, a_free s None = Ok s.
Proof. reflexivity. Qed.
(* the heap validation passes in every reachable state and the reported size covers the request *)
Theorem C98_validate : forall m addr w, reached m addr w ->
  exists f0, forall fuel, (f0 <= fuel)%nat -> a_validate_heap fuel (Some (heap w)) = Ok true.
Proof.
  intros m addr w R. destruct (C66_check_passes m addr w R) as [f0 H]. exists f0. intros fuel L. unfold a_validate_heap.
  rewrite (proj1 (H fuel L)). reflexivity.
Qed.
Theorem C98_allocation_size : forall m addr w b, reached m addr w -> In b (live w) ->
  exists s, a_get_allocation_size (Some (heap w)) (Some (ptr b)) = Ok (Some s) /\ size b <= s.
Proof.
  intros m addr w b R Hb. destruct (C66_reported_size m addr w b R Hb) as (s & E & L & _). exists s. split; [|auto].
  cbn. rewrite E. reflexivity.
Qed.
Example C98_example :
  (let! s := a_initialize None zeros 1024 (control_size + 4096) in
   let! (s, p) := a_alloc s 10 256 in let! (s, q) := a_alloc s 200 8 in let! n := a_get_allocation_size s (Some p) in
   let! s := a_free s (Some p) in let! b := a_validate_heap 10 s in let! (s, r) := a_alloc s 20 16 in
   Ok (p, q, n, b, r)) = Ok (7680, 7712, Some 24, true, 7568) /\
  (let! s := a_initialize None zeros 1024 (control_size + 4096) in a_alloc s 0 8) = Contract.
Proof. split; vm_compute; reflexivity. Qed.

(* realloc ignores the alignment *)
Theorem C98_realloc_alignment_refuted : exists p r,
  (let! s := a_initialize None zeros 1024 (control_size + 4096) in
   let! (s, p) := a_alloc s 10 256 in let! (s, _) := a_alloc s 200 8 in let! (s, r) := a_realloc s (Some p) 500 256 in
   Ok (p, r)) = Ok (p, Some r) /\ p mod 256 = 0 /\ r mod 256 <> 0.
Proof. exists 7680, 7920. split; [vm_compute; reflexivity|]. split; [reflexivity|discriminate]. Qed.
(* initialize takes a buffer without room for a pool: it reports success, but every request fails *)
Theorem C98_initialize_without_pool_refuted : forall m addr bytes n k, addr mod 8 = 0 -> addr <> 0 ->
  m (addr + 16) <> None -> m (addr + 24) <> None ->
  control_size < bytes -> bytes < control_size + 40 -> n + 8 <= 2 ^ 64 -> k <= 62 ->
  exists t, a_initialize None m addr bytes = Ok (Some t) /\ a_alloc (Some t) n (2 ^ k) = Contract.
Proof.
  intros m addr bytes n k A Z D1 D2 L1 L2 B K. change control_size with 6536 in *.
  destruct (create_ok m addr Z D1 D2) as (t & E & N' & Dm & G & C & _). exists t. split.
  - unfold a_initialize, tlsf_create_with_pool, ALIGN_SIZE. change control_size with 6536.
    cbn [contract bind]. destruct (N.ltb_spec 6536 bytes); [|lia]. rewrite A. cbn [contract bind N.eqb].
    rewrite E. cbn [bind]. rewrite wsub_ge by lia.
    unfold tlsf_add_pool, ALIGN_SIZE, block_header_overhead, block_size_min, block_size_max. change (2 * 8) with 16.
    rewrite align_down8 by apply wsub_bound. cbn [bind].
    destruct (N.eqb_spec ((addr + 6536) mod 8) 0) as [_|H']; [|exfalso; apply H', mod8_add; auto]. cbn [negb].
    destruct (N.lt_ge_cases (bytes - 6536) 16) as [L'|L'].
    + rewrite wsub_lt by lia.
      assert (H' : (2 ^ 64 - 16) / 8 <= (2 ^ 64 + (bytes - 6536) - 16) / 8) by (apply N.div_le_mono; lia).
      change ((2 ^ 64 - 16) / 8) with (2 ^ 61 - 2) in *.
      destruct (N.ltb_spec (2 ^ 32) (8 * ((2 ^ 64 + (bytes - 6536) - 16) / 8))) as [|Hc]; [rewrite orb_true_r; reflexivity|].
      exfalso. set (q := (2 ^ 64 + (bytes - 6536) - 16) / 8) in *. clearbody q. change (2 ^ 61) with 2305843009213693952 in H'.
      change (2 ^ 32) with 4294967296 in Hc. lia.
    + rewrite wsub_ge by lia. assert (H' : (bytes - 6536 - 16) / 8 < 3) by (apply N.div_lt_upper_bound; lia).
      destruct (N.ltb_spec (8 * ((bytes - 6536 - 16) / 8)) 24); [reflexivity|]. lia.
  - unfold a_alloc. destruct (N.ltb_spec 0 n); cbn [contract bind]; [|reflexivity].
    destruct (memalign_ok _ _ k n G C B K) as [(Em & _)|(t' & P' & b & q & Em & (_ & _ & Sk & _) & _ & _ & _ & [Ad _] & _)]; [rewrite Em; reflexivity|].
    exfalso. destruct P' as [|x P']; [|discriminate]. destruct (Ad b q) as [_ X]. apply X. auto.
Qed.
Example C98_without_pool_example : (let! s := a_initialize None zeros 1024 (control_size + 39) in a_alloc s 1 8) = Contract.
Proof. vm_compute. reflexivity. Qed.

Print Assumptions C98_initialize.
Print Assumptions C98_alloc.
Print Assumptions C98_free.
Print Assumptions C98_free_null.
Print Assumptions C98_validate.
Print Assumptions C98_allocation_size.
Print Assumptions C98_realloc_alignment_refuted.
Print Assumptions C98_initialize_without_pool_refuted.

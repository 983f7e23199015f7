(* Histories of the two level segregated fit allocator: C66, C95, C96, C97, C98. *)
From Coq Require Import NArith Arith List Bool Lia.
From Verif Require Import Base TlsfModel TlsfAllocModel TlsfMapSpec TlsfMapProofs TlsfListProofs TlsfPhysProofs
  TlsfProofs TlsfOpProofs TlsfRealProofs TlsfPoolProofs TlsfSpec TlsfHistProofs.
Import ListNotations.
Open Scope N_scope.

(* a world that some client reached on memory m, control structure at addr *)
Definition reached (m : memory) (addr : N) (w : world) : Prop :=
  addr <> 0 /\ m (addr + 16) <> None /\ m (addr + 24) <> None /\
  exists t l, tlsf_create m addr = Ok t /\ Forall (op_ok m) l /\ run (mkW t [] []) l = Ok w.
Lemma reached_inv : forall m addr w, reached m addr w -> WInv m w.
Proof.
  intros m addr w (Z & D1 & D2 & t & l & E & F & R). pose proof (start_inv _ _ _ Z D1 D2 E) as W.
  destruct (run_inv m l _ W F) as (w' & E' & W'). congruence.
Qed.

(* 64 KiB of zeroed memory for the examples, control structure at 1024, a pool of 4096 bytes at 8192 *)
Definition zeros : memory := fun x => if x <? 65536 then Some 0 else None.
Definition play (l : list op) : outcome world :=
  let! t := tlsf_create zeros 1024 in run (mkW t [] []) (OAddPool 8192 4096 :: l).
Definition view (o : outcome world) : option (list (N * N * N)) :=
  match o with Ok w => Some (map (fun b => (ptr b, size b, align b)) (live w)) | _ => None end.

(* ---- C66 ---- *)
(* no history fails an assertion or touches memory outside the pools (m need not be defined elsewhere),
   and afterwards live buffers are disjoint, inside a pool, aligned, and hold what was stored *)
Theorem C66_every_history_safe : forall m addr t l, addr <> 0 -> m (addr + 16) <> None -> m (addr + 24) <> None ->
  tlsf_create m addr = Ok t -> Forall (op_ok m) l ->
  exists w, run (mkW t [] []) l = Ok w /\ safe w.
Proof.
  intros m addr t l Z D1 D2 E F. destruct (run_inv m l _ (start_inv _ _ _ Z D1 D2 E) F) as (w & E' & W).
  exists w. split; [auto|]. eapply inv_safe; eauto.
Qed.
Example C66_history_example :
  view (play [OMalloc 100; OMalloc 1; OAlign 8 10; OFree 1; OMalloc 24; OFree 2; OFree 0; OFree 0; OMalloc 3900]) =
  Some [(8200, 3900, 8)].
Proof. vm_compute. reflexivity. Qed.
Example C66_history_example_live :
  view (play [OMalloc 100; OMalloc 1; OAlign 8 10]) = Some [(8448, 10, 256); (8312, 1, 8); (8200, 100, 8)].
Proof. vm_compute. reflexivity. Qed.

(* creation itself succeeds *)
Theorem C66_create : forall m addr, addr <> 0 -> m (addr + 16) <> None -> m (addr + 24) <> None ->
  exists t, tlsf_create m addr = Ok t.
Proof. intros m addr Z D1 D2. destruct (create_ok m addr Z D1 D2) as (t & E & _). eauto. Qed.

(* the integrity checks of the library pass in every reachable state *)
Theorem C66_check_passes : forall m addr w, reached m addr w ->
  exists f0, forall fuel, (f0 <= fuel)%nat -> tlsf_check fuel (heap w) = Ok tt /\
    forall p, In p (pools w) -> tlsf_check_pool fuel (heap w) (fst p) = Ok tt.
Proof.
  intros m addr w R. destruct (reached_inv _ _ _ R) as (D0 & P & G & C & Sk & Pl & _).
  destruct (check_ok _ _ G C) as [f0 H0].
  assert (B : exists f1, forall a l, In (a, l) P -> (length l < f1)%nat).
  { clear. induction P as [|[a l] P [f1 IH]]; [exists O; intros a l []|].
    exists (S (Nat.max f1 (length l))). intros a' l' [E|H]; [inv E; lia|]. specialize (IH _ _ H). lia. }
  destruct B as [f1 H1]. exists (Nat.max f0 f1). intros fuel L. split; [apply H0; lia|].
  intros p Hp. assert (H : In (pool_of p) (skel P)) by (rewrite Sk; apply in_map; auto).
  unfold skel in H. apply in_map_iff in H. destruct H as ([a l] & E & H). unfold pool_of in E. inv E. cbn in *.
  destruct (Pl p Hp) as [P8 _]. replace (fst p) with (fst p - 8 + 8) by lia.
  apply check_pool_ok with (P := P) (l := l); auto. specialize (H1 _ _ H). lia.
Qed.
Example C66_check_example :
  (let! w := play [OMalloc 100; OMalloc 1; OAlign 8 10; OFree 1] in tlsf_check 10 (heap w)) = Ok tt /\
  (let! w := play [OMalloc 100; OMalloc 1; OAlign 8 10; OFree 1] in tlsf_check_pool 10 (heap w) 8192) = Ok tt.
Proof. split; vm_compute; reflexivity. Qed.

(* the size reported for a live buffer covers the request and exceeds it by less than 63 bytes *)
Theorem C66_reported_size : forall m addr w b, reached m addr w -> In b (live w) ->
  exists s, tlsf_block_size (heap w) (ptr b) = Ok s /\ size b <= s /\ s < rounded_up (size b) + 32.
Proof.
  intros m addr w b R Hb. destruct (reached_inv _ _ _ R) as (D0 & P & G & C & Sk & Pl & Nd & Bk & Cv).
  destruct (Bk b Hb) as (B1 & _ & (s & U & B4 & B5) & _). exists s. split; [|auto].
  unfold tlsf_block_size, block_from_ptr, block_start_offset.
  destruct (open_block _ _ _ _ U) as (zl & za & zL & zR & zr & EP & Eb). rewrite Eb.
  assert (I : Inv (heap w) zl za zL [(s, false)] zR zr) by (apply good_inv_used; rewrite <- EP; auto).
  destruct (inv_word _ _ _ _ _ _ _ _ I) as (W & M4 & M8 & S1 & S2). apply (p_size _ _ _ _ _ W); auto.
Qed.
Example C66_size_example :
  (let! w := play [OMalloc 100; OMalloc 1] in
   let! a := tlsf_block_size (heap w) 8200 in let! b := tlsf_block_size (heap w) 8312 in Ok (a, b)) = Ok (104, 24).
Proof. vm_compute. reflexivity. Qed.

(* sizes next to 2^64 wrap in align_up: the request succeeds with a block of 24 bytes *)
Theorem C66_huge_malloc_refuted : exists w b, play [OMalloc (2 ^ 64 - 1); OMalloc 50] = Ok w /\
  In b (live w) /\ size b = 2 ^ 64 - 1 /\ tlsf_block_size (heap w) (ptr b) = Ok 24 /\ ~ safe w.
Proof.
  assert (H : (let! w := play [OMalloc (2 ^ 64 - 1); OMalloc 50] in
     let! s := tlsf_block_size (heap w) 8200 in Ok (map (fun b => (ptr b, size b)) (live w), s)) =
     Ok ([(8232, 50); (8200, 2 ^ 64 - 1)], 24)) by (vm_compute; reflexivity).
  destruct (play [OMalloc (2 ^ 64 - 1); OMalloc 50]) as [w| | |]; cbn [bind] in H; try discriminate.
  assert (V : map (fun b => (ptr b, size b)) (live w) = [(8232, 50); (8200, 2 ^ 64 - 1)] /\ tlsf_block_size (heap w) 8200 = Ok 24).
  { destruct (tlsf_block_size (heap w) 8200); cbn [bind] in H; try discriminate. injection H as H1 H2. split; [exact H1|rewrite H2; reflexivity]. }
  destruct V as [V1 V2]. destruct (live w) as [|b [|c [|]]] eqn:L; cbn in V1; try discriminate. injection V1 as X1 X2 X3 X4.
  exists w, c. split; [auto|]. split; [rewrite L; right; left; auto|]. split; [exact X4|]. split; [rewrite X3; auto|].
  intros [F _]. rewrite L in F. inversion F as [|? ? Fa]; subst. rewrite Forall_forall in Fa.
  specialize (Fa c (or_introl eq_refl)). unfold disjoint in Fa. rewrite X1, X2, X3, X4 in Fa. clear - Fa.
  change (2 ^ 64 - 1) with 18446744073709551615 in Fa. lia.
Qed.
(* an alignment of 2^63 wraps as well: the buffer is not aligned *)
Theorem C66_huge_alignment_refuted : view (play [OAlign 63 10]) = Some [(8200, 10, 2 ^ 63)] /\ 8200 mod 2 ^ 63 <> 0.
Proof. split; [vm_compute; reflexivity|discriminate]. Qed.

(* ---- C95: contents ---- *)
(* a byte stored into a live buffer is still there after any history of operations on other buffers,
   on the pools, or on other offsets; realloc keeps it as long as the offset stays in range *)
Theorem C95_stored_bytes_persist : forall m addr w b j v, reached m addr w -> In b (live w) -> j < size b ->
  data b j = Some v -> byte (mem (heap w)) (ptr b + j) = Some v.
Proof.
  intros m addr w b j v R Hb Hj Hd. destruct (inv_safe _ _ (reached_inv _ _ _ R)) as [_ H].
  apply (H b Hb); auto.
Qed.
(* data is what the client stored: only stores change it, the first store shows up at once *)
Theorem C95_store_recorded : forall m addr w i j v b, reached m addr w -> nth_error (live w) i = Some b ->
  j < size b -> v < 256 -> exists w', step w (OWrite i j v) = Ok w' /\
    exists b', nth_error (live w') i = Some b' /\ ptr b' = ptr b /\ size b' = size b /\ data b' j = Some v /\
      (forall x, x <> j -> data b' x = data b x) /\ byte (mem (heap w')) (ptr b + j) = Some v.
Proof.
  intros m addr w i j v b R Hb Hj Hv. pose proof (reached_inv _ _ _ R) as W.
  destruct (step_inv m w (OWrite i j v) W I) as (w' & E & W'). exists w'. split; [auto|].
  cbn [step] in E. rewrite Hb in E. destruct (N.ltb_spec j (size b)); [|lia]. destruct (N.ltb_spec v 256); [|lia]. cbn [andb] in E.
  destruct (store_byte (mem (heap w)) (ptr b + j) v) as [m'| | |] eqn:Es; cbn [bind] in E; try discriminate. inv E.
  set (b' := mkB (ptr b) (size b) (align b) (fun x => if x =? j then Some v else data b x)).
  assert (Hn : nth_error (set_nth i b' (live w)) i = Some b').
  { clear - Hb. revert i Hb. induction (live w) as [|c l IH]; intros [|i] H; cbn in *; try discriminate; auto. }
  exists b'. split; [exact Hn|]. split; [reflexivity|]. split; [reflexivity|].
  assert (Dj : data b' j = Some v) by (cbn; rewrite N.eqb_refl; reflexivity). split; [exact Dj|]. split.
  - intros x X. cbn. destruct (N.eqb_spec x j); congruence.
  - destruct (inv_safe _ _ W') as [_ Sf]. apply (Sf b' (nth_error_In _ _ Hn)); auto.
Qed.
Example C95_example :
  (let! w := play [OMalloc 100; OWrite 0 99 7; OMalloc 50; OWrite 0 0 9; ORealloc 1 1000; OFree 0; OMalloc 40] in
   Ok (map (fun b => (ptr b, byte (mem (heap w)) (ptr b + 99))) (live w))) = Ok [(8200, Some 0); (8376, Some 7)].
Proof. vm_compute. reflexivity. Qed.

(* ---- C96: realloc ---- *)
Theorem C96_realloc : forall m addr w i b n, reached m addr w -> nth_error (live w) i = Some b -> n <> 0 -> n + 8 <= 2 ^ 32 ->
  (step w (ORealloc i n) = Ok w /\ size b < n) \/
  (exists p t, tlsf_realloc (heap w) (Some (ptr b)) n = Ok (t, Some p) /\
     (forall j, j < size b -> j < n -> byte (mem t) (p + j) = byte (mem (heap w)) (ptr b + j)) /\
     exists w', step w (ORealloc i n) = Ok w' /\ heap w' = t /\ safe w').
Proof.
  intros m addr w i b n R Hb Z B. pose proof (reached_inv _ _ _ R) as W0.
  destruct (step_inv m w (ORealloc i n) W0 B) as (w' & Es & W').
  pose proof W0 as (D0 & P & G & C & Sk & Pl & Nd & Bk & Cv).
  destruct (Bk b (nth_error_In _ _ Hb)) as (B1 & _ & (s & U & B4 & B5) & _).
  destruct (realloc_ok _ _ _ _ n G C U Z B) as [(E & Ls & _)|(t' & P' & b' & s' & E & Fo & _ & _ & _ & By)];
    replace (ptr b - 16 + 16) with (ptr b) in * by lia.
  - left. split; [|lia]. cbn [step]. rewrite Hb, E. cbn [bind]. destruct (N.eqb_spec n 0); [congruence|]. destruct w; reflexivity.
  - right. exists (b' + 16), t'. split; [auto|]. split; [intros j J1 J2; apply By; lia|].
    exists w'. split; [auto|]. split; [|eapply inv_safe; eauto].
    cbn [step] in Es. rewrite Hb, E in Es. cbn [bind] in Es. inv Es. reflexivity.
Qed.
(* shrinking always succeeds *)
Theorem C96_shrink : forall m addr w i b n, reached m addr w -> nth_error (live w) i = Some b -> n <> 0 -> n <= size b -> n + 8 <= 2 ^ 32 ->
  exists w' b', step w (ORealloc i n) = Ok w' /\ nth_error (live w') i = Some b' /\ size b' = n /\
    forall j, j < n -> data b' j = data b j.
Proof.
  intros m addr w i b n R Hb Z L B. destruct (C96_realloc _ _ _ _ _ _ R Hb Z B) as [[_ H]|(p & t & E & _ & w' & Es & _)]; [lia|].
  exists w'. cbn [step] in *. rewrite Hb, E in *. cbn [bind] in Es. inv Es. cbn [live].
  set (b' := mkB p n 8 (fun j => if j <? size b then data b j else None)). exists b'. split; [reflexivity|]. split; [|split; [reflexivity|]].
  - clear - Hb. revert i Hb. induction (live w) as [|c l IH]; intros [|i] H; cbn in *; try discriminate; auto.
  - intros j J. cbn. destruct (N.ltb_spec j (size b)); [reflexivity|lia].
Qed.
(* realloc to zero bytes is free *)
Theorem C96_zero_frees : forall w i, step w (ORealloc i 0) = step w (OFree i).
Proof.
  intros w i. cbn [step]. destruct (nth_error (live w) i) as [b|]; [|reflexivity]. unfold tlsf_realloc. cbn [N.eqb].
  destruct (tlsf_free (heap w) (ptr b)); reflexivity.
Qed.
Example C96_example : view (play [OMalloc 100; OMalloc 10; ORealloc 1 500; ORealloc 0 300; ORealloc 1 20; ORealloc 0 0; ORealloc 0 5000]) =
  Some [(8344, 20, 8)].
Proof. vm_compute. reflexivity. Qed.
(* a request of 2^32 bytes is "adjusted" to zero, which realloc takes for a block that is large enough: it
   trims the block to nothing, overwrites the stored bytes and reports success; the next buffer overlaps *)
Theorem C96_too_large_refuted :
  view (play [OMalloc 100; OWrite 0 0 77; ORealloc 0 (2 ^ 32); OMalloc 50]) = Some [(8208, 50, 8); (8200, 2 ^ 32, 8)] /\
  (let! w := play [OMalloc 100; OWrite 0 0 77] in Ok (byte (mem (heap w)) 8200)) = Ok (Some 77) /\
  (let! w := play [OMalloc 100; OWrite 0 0 77; ORealloc 0 (2 ^ 32)] in Ok (byte (mem (heap w)) 8200)) <> Ok (Some 77).
Proof. split; [vm_compute; reflexivity|]. split; [vm_compute; reflexivity|vm_compute; discriminate]. Qed.

(* ---- C97: no external fragmentation beyond what live buffers cause ---- *)
Definition need (n : N) : N := rounded_up n + rounded_up n / 32.
Theorem C97_gap_is_usable : forall m addr w n, reached m addr w -> n <> 0 -> n + 7 < 2 ^ 32 -> gap w (8 + need n) ->
  exists w' b, step w (OMalloc n) = Ok w' /\ live w' = b :: live w /\ size b = n /\ safe w'.
Proof.
  intros m addr w n R Z B Gp. pose proof (reached_inv _ _ _ R) as W.
  destruct (step_inv m w (OMalloc n) W) as (w' & E & W'); [cbn; lia|].
  destruct (gap_free m w (8 + need n) W ltac:(lia) Gp) as (P & G & C & z & s & Hf & Ls).
  exists w'. cbn [step] in *.
  destruct (malloc_ok _ _ n G C ltac:(lia)) as [(Em & [H|[H|H]])|(t' & P' & b & q & Em & _)]; [congruence|lia| |].
  - specialize (H z s Hf). unfold need, rounded_up in Ls. exfalso. lia.
  - rewrite Em in *. cbn [bind] in *. inv E. eexists. split; [reflexivity|]. split; [reflexivity|]. split; [reflexivity|]. eapply inv_safe; eauto.
Qed.
(* the same for aligned requests *)
Definition need_aligned (k n : N) : N := rounded_up n + 2 * 2 ^ k + 32.
Theorem C97_aligned_gap_is_usable : forall m addr w k n, reached m addr w -> n <> 0 -> k <= 62 -> need_aligned k n < 2 ^ 32 ->
  gap w (8 + need_aligned k n + need_aligned k n / 32) ->
  exists w' b, step w (OAlign k n) = Ok w' /\ live w' = b :: live w /\ size b = n /\ ptr b mod 2 ^ k = 0 /\ safe w'.
Proof.
  intros m addr w k n R Z K B Gp. pose proof (reached_inv _ _ _ R) as W.
  assert (Bn : n + 8 <= 2 ^ 64) by (unfold need_aligned, rounded_up in B; generalize dependent (2 ^ k); intros; lia).
  destruct (step_inv m w (OAlign k n) W) as (w' & E & W'); [cbn; auto|].
  destruct (gap_free m w (8 + need_aligned k n + need_aligned k n / 32) W ltac:(generalize (need_aligned k n) (need_aligned k n / 32); intros; lia) Gp) as (P & G & C & z & s & Hf & Ls).
  exists w'. cbn [step] in *.
  destruct (memalign_ok _ _ k n G C Bn K) as [(Em & [H|[H|H]])|(t' & P' & b & q & Em & _ & _ & _ & Al & _)]; [congruence|unfold need_aligned, rounded_up in B; generalize dependent (2 ^ k); intros; lia| |].
  - specialize (H z s Hf). exfalso. unfold need_aligned, rounded_up in Ls.
    set (u := (N.max (n + 7) 24 + 2 * 2 ^ k + 32)) in *. clearbody u. lia.
  - rewrite Em in *. cbn [bind] in *. inv E. eexists. split; [reflexivity|]. split; [reflexivity|]. split; [reflexivity|]. split; [exact Al|]. eapply inv_safe; eauto.
Qed.
(* once everything is freed a pool is as good as new, whatever happened before *)
Theorem C97_all_freed : forall m addr w p n, reached m addr w -> live w = [] -> In p (pools w) ->
  n <> 0 -> n + 7 < 2 ^ 32 -> need n + 23 <= snd p ->
  exists w' b, step w (OMalloc n) = Ok w' /\ live w' = [b] /\ size b = n /\ safe w'.
Proof.
  intros m addr w p n R L Hp Z B H. rewrite <- L. apply C97_gap_is_usable with (m := m) (addr := addr); auto.
  exists p, (fst p). split; [auto|]. split; [lia|]. split; [lia|]. rewrite L. intros b [].
Qed.
(* and an unused pool can be taken away *)
Theorem C97_unused_pool_removable : forall m addr w i p, reached m addr w -> nth_error (pools w) i = Some p ->
  (forall b, In b (live w) -> ~ inside b p) ->
  exists t, tlsf_remove_pool (heap w) (fst p) = Ok t /\
    step w (ORemovePool i) = Ok (mkW t (live w) (drop_nth i (pools w))) /\ safe (mkW t (live w) (drop_nth i (pools w))).
Proof.
  intros m addr w i p R Hp Un. pose proof (reached_inv _ _ _ R) as W.
  destruct (step_inv m w (ORemovePool i) W I) as (w' & E & W').
  assert (U : unused w p = true).
  { unfold unused. apply forallb_forall. intros b Hb. destruct (N.ltb_spec (ptr b) (fst p)) as [|L1]; [reflexivity|].
    destruct (N.leb_spec (fst p + snd p) (ptr b)) as [|L2]; [reflexivity|]. exfalso. apply (Un b Hb). split; [auto|].
    (* the block of b starts in p, hence lies in p *)
    destruct W as (D0 & P & G & C & Sk & Pl & Nd & Bk & Cv). pose proof G as (S & Ge & _).
    destruct (Bk b Hb) as (B1 & _ & (s & U & B4 & _) & _). apply all_in in U. destruct U as (a & l & Ha & Ht).
    pose proof (trip_bound _ _ _ _ _ Ht) as Tb.
    destruct (skel_pools _ _ Sk _ _ Ha) as (q & Hq & Ea & El). destruct (Pl q Hq) as [Q8 Q40]. destruct (pool_len_le (snd q) ltac:(lia)).
    assert (Hk : exists k, In (fst p - 8, k) P /\ len k = pool_len (snd p)).
    { assert (H1 : In (pool_of p) (skel P)) by (rewrite Sk; apply in_map; eapply nth_error_In; eauto). unfold skel in H1.
      apply in_map_iff in H1. destruct H1 as ([a' k] & E1 & H1). unfold pool_of in E1. inv E1. exists k. cbn in *. auto. }
    destruct Hk as (k & Hk & Ek). destruct (Pl p (nth_error_In _ _ Hp)) as [P8 P40]. destruct (pool_len_le (snd p) ltac:(lia)).
    destruct (pools_apart P (proj2 Ge) _ _ _ _ Ha Hk) as [Eq|Ap].
    - inv Eq. lia.
    - unfold apart in Ap. cbn [fst snd] in Ap. pose proof (all_size P _ _ _ S (proj2 (all_in P _ _ _) (ex_intro _ a (ex_intro _ l (conj Ha Ht))))). lia. }
  cbn [step] in E. rewrite Hp, U in E. destruct (tlsf_remove_pool (heap w) (fst p)) as [t| | |] eqn:Er; cbn [bind] in E; try discriminate.
  inv E. exists t. split; [reflexivity|]. split; [cbn [step]; rewrite Hp, U, Er; reflexivity|]. eapply inv_safe; eauto.
Qed.
Example C97_example : view (play [OMalloc 900; OMalloc 900; OMalloc 900; OMalloc 900; OMalloc 3900; OFree 3; OFree 1; OFree 0; OFree 0; OMalloc 3900]) =
  Some [(8200, 3900, 8)].
Proof. vm_compute. reflexivity. Qed.

Print Assumptions C66_every_history_safe.
Print Assumptions C66_create.
Print Assumptions C66_check_passes.
Print Assumptions C66_reported_size.
Print Assumptions C66_huge_malloc_refuted.
Print Assumptions C66_huge_alignment_refuted.
Print Assumptions C95_stored_bytes_persist.
Print Assumptions C95_store_recorded.
Print Assumptions C96_realloc.
Print Assumptions C96_shrink.
Print Assumptions C96_zero_frees.
Print Assumptions C96_too_large_refuted.
Print Assumptions C97_gap_is_usable.
Print Assumptions C97_aligned_gap_is_usable.
Print Assumptions C97_all_freed.
Print Assumptions C97_unused_pool_removable.

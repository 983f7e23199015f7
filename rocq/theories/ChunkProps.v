(* Properties C41, C42, C87. *)
From Coq Require Import NArith ZArith List Lia Bool Arith.
Import ListNotations.
From Verif Require Import Base ChunkModel ChunkSpec ChunkProofs.
Open Scope N_scope.

Lemma init_inv : forall A, @inv A init [].
Proof. intro A. left. repeat split; reflexivity. Qed.

(* ---- C41 ---- *)

(* For every history of pushes and chunk size changes (positive sizes whose byte count fits 64 bits):
   no call is undefined or refused, size() is the number of pushes, chunks() yields all pushed elements
   in order, and every reference returned by a push still reads its element at the end of the history;
   references are pairwise different.
   Missing for the full claim: for_each_chunk (C41_for_each_refuted, C41_for_each_partial), chunk sizes
   whose byte count wraps (C41_chunk_bytes_refuted). resize and clear do not exist in the class. *)
Theorem C41_chunks_partial : forall A sz (os : list (cop A)),
  0 < sz -> 1024 * sz < 2 ^ 64 -> Forall (size_ok sz) os -> N.of_nat (length (pushed os)) < 2 ^ 64 ->
  exists b rs, crun sz init os = Ok (b, rs) /\
    size b = N.of_nat (length (pushed os)) /\
    (exists cs, chunks b = Ok cs /\ concat cs = pushed os) /\
    Forall2 (fun r v => deref b r = Ok v) rs (pushed os) /\ NoDup rs.
Proof.
  intros A sz os Hs H1 Ho Hl.
  destruct (crun_inv sz Hs os init [] (init_inv A) eq_refl H1 Ho Hl) as (b & rs & E & I & F & D & _).
  exists b, rs. split; [exact E|]. split; [apply (size_spec sz Hs); assumption|].
  split; [apply (chunks_spec sz Hs); exact I|]. split; assumption.
Qed.

(* set_chunk_size(0) is refused. *)
Theorem C41_zero_chunk : forall A (b : buf A), set_chunk_size b 0 = Contract.
Proof. reflexivity. Qed.

(* for_each_chunk with one chunk size c throughout: it visits exactly the pushed elements in order,
   unless their number is a multiple of c; then the last c elements are skipped. *)
Theorem C41_for_each_partial : forall A sz c (vs : list A),
  0 < sz -> 0 < c -> c * sz < 2 ^ 64 -> 1024 * sz < 2 ^ 64 -> N.of_nat (length vs) < 2 ^ 64 ->
  exists b rs cs, crun sz init (SetSize c :: map Push vs) = Ok (b, rs) /\ for_each_chunk b = Ok cs /\
    concat cs = if N.of_nat (length vs) mod c =? 0 then firstn (length vs - N.to_nat c) vs else vs.
Proof.
  intros A sz c vs Hs Hc Hb H1 Hl.
  assert (P : forall ws : list A, pushed (map Push ws) = ws) by (induction ws; cbn; congruence).
  assert (Forall (size_ok sz) (SetSize c :: map Push vs)) as Ho.
  { constructor; [split; assumption|]. apply Forall_forall. intros o Hin.
    apply in_map_iff in Hin. destruct Hin as (v & <- & _). exact Logic.I. }
  destruct (crun_inv sz Hs (SetSize c :: map Push vs) init [] (init_inv A) eq_refl H1 Ho
              ltac:(cbn; rewrite P; exact Hl)) as (b & rs & E & I & _).
  pose proof E as E0. cbn [crun] in E0. unfold set_chunk_size in E0. apply N.ltb_lt in Hc. rewrite Hc in E0.
  cbn [contract bind] in E0. apply N.ltb_lt in Hc.
  assert (inv_c c b) as K.
  { refine (crun_inv_c sz Hs vs _ [] c b rs _ _ Hc Hb Hl E0).
    - left. repeat split; reflexivity.
    - split; [reflexivity|]. split; [constructor|]. intros hs lb Q. destruct hs; discriminate. }
  cbn [pushed app] in I. rewrite P in I.
  destruct (for_each_spec sz Hs b vs c I K Hc) as (cs & F1 & F2). exists b, rs, cs. auto.
Qed.

(* Two pushes with chunk size 2: for_each_chunk visits nothing. *)
Theorem C41_for_each_refuted : exists (os : list (cop N)) b rs,
  crun 8 init os = Ok (b, rs) /\ Forall (size_ok 8) os /\ pushed os = [10; 11] /\ for_each_chunk b = Ok [].
Proof.
  exists [SetSize 2; Push 10; Push 11]. eexists. eexists. split; [vm_compute; reflexivity|].
  split; [repeat constructor; vm_compute; reflexivity|]. split; reflexivity.
Qed.

(* A chunk size whose byte count is a multiple of 2^64 allocates nothing; the next push writes outside. *)
Theorem C41_chunk_bytes_refuted : crun 4 init [SetSize (2 ^ 62); Push 7] = @UB (buf N * _).
Proof. reflexivity. Qed.

Example C41_ex : exists b rs,
  crun 8 init [SetSize 2; Push 10; Push 11; SetSize 3; Push 12; Push 13; Push 14; Push 15] = Ok (b, rs)
  /\ chunks b = Ok [[10; 11]; [12; 13; 14]; [15]] /\ for_each_chunk b = Ok [[10; 11]; [12; 13; 14]; [15]]
  /\ size b = 6 /\ rs = [(0%nat, 0); (0%nat, 1); (1%nat, 0); (1%nat, 1); (1%nat, 2); (2%nat, 0)].
Proof.
  eexists. eexists. split; [vm_compute; reflexivity|]. split; [vm_compute; reflexivity|].
  split; [vm_compute; reflexivity|]. split; vm_compute; reflexivity.
Qed.
Example C41_ex_empty : chunks (@init N) = Ok [] /\ for_each_chunk (@init N) = Ok [].
Proof. split; reflexivity. Qed.

(* ---- C87: destruction ---- *)

(* every block is freed exactly once *)
Theorem C87_blocks_partial : forall A sz (os : list (cop A)),
  0 < sz -> 1024 * sz < 2 ^ 64 -> Forall (size_ok sz) os -> N.of_nat (length (pushed os)) < 2 ^ 64 ->
  exists b rs, crun sz init os = Ok (b, rs) /\ NoDup (fst (dtor b)) /\
    forall k, In k (fst (dtor b)) <-> (k < length (heap b))%nat.
Proof.
  intros A sz os Hs H1 Ho Hl.
  destruct (crun_inv sz Hs os init [] (init_inv A) eq_refl H1 Ho Hl) as (b & rs & E & I & _).
  exists b, rs. split; [exact E|]. unfold dtor. cbn [fst].
  destruct I as [(I1 & I2 & I3 & _)|(hs & lb & I1 & I2 & I3 & _)].
  - rewrite I1, I2, I3. cbn. split; [constructor|]. intro k. lia.
  - rewrite I1, I2, I3. cbn [cbegin]. rewrite dtor_own. split.
    + cbn [app]. constructor; [|apply seq_NoDup]. rewrite in_seq. lia.
    + intro k. cbn [app In]. rewrite in_seq, app_length. cbn. lia.
Qed.
(* no element destructor runs *)
Theorem C87_elements_refuted : exists (os : list (cop N)) b rs,
  crun 8 init os = Ok (b, rs) /\ pushed os = [10; 11] /\ snd (dtor b) = [].
Proof.
  exists [Push 10; Push 11]. eexists. eexists. split; [vm_compute; reflexivity|]. split; reflexivity.
Qed.
Example C87_ex : exists b rs, crun 8 init [SetSize 1; Push 10; Push 11; Push 12] = Ok (b, rs) /\ dtor b = ([2; 0; 1]%nat, []).
Proof. eexists. eexists. split; [vm_compute; reflexivity|]. reflexivity. Qed.

(* ---- C42 ---- *)

(* For every history: the operations are refused exactly when an element is added before any range
   exists, and otherwise size, every index and iteration agree with the ideal list of lists, as long
   as the number of elements fits the index type (w bits; always for the default size_t).
   Missing for the full claim: narrower index types with more elements (C42_narrow_refuted). *)
Theorem C42_ranges_partial : forall A w (os : list (fop A)),
  total os < 2 ^ w -> starts os < 2 ^ 64 ->
  match lrun [] os with
  | Some l => exists f, frun w finit os = Ok f /\ fsize f = N.of_nat (length l) /\
      (forall i, findex f i = match nth_error l (N.to_nat i) with Some x => Ok x | None => Contract end) /\
      franges f = Ok l
  | None => frun w finit os = Contract
  end.
Proof.
  intros A w os Ht Hs.
  assert (L : forall (os : list (fop A)) l l', lrun l os = Some l' -> (length l' <= length l + length os)%nat).
  { clear. induction os as [|o os IH]; intros l l' H; cbn [lrun] in H; [injection H as <-; cbn; lia|].
    destruct (lstep l o) as [l1|] eqn:E; [|discriminate]. apply IH in H.
    assert (length l1 <= S (length l))%nat; [|cbn [length]; lia].
    assert (Q : forall vs, add_last l vs = Some l1 -> length l1 = length l).
    { intros vs Q. unfold add_last in Q. destruct (rev l) as [|x r] eqn:R; [discriminate|].
      injection Q as <-. rewrite <- (rev_length l), R, app_length, rev_length. cbn. lia. }
    destruct o; cbn [lstep] in E.
    - injection E as <-. rewrite app_length. cbn. lia.
    - apply Q in E. lia.
    - apply Q in E. lia.
    - injection E as <-. cbn. lia. }
  pose proof (frun_spec w os finit [] (conj eq_refl eq_refl) Ht) as H.
  destruct (lrun [] os) as [l|] eqn:E; [|exact H].
  apply L in E. cbn [length Nat.add] in E. unfold starts in Hs.
  destruct H as (f & F & I). exists f. split; [exact F|]. split; [apply finv_size; exact I|].
  split; [|apply franges_spec; exact I]. intro i. apply findex_spec; [exact I|lia].
Qed.

(* An 8-bit index type: after 256 elements the second range starts at 0, so the first one is empty. *)
Theorem C42_narrow_refuted : exists (os : list (fop N)) l f,
  lrun [] os = Some l /\ frun 8 finit os = Ok f /\
  nth_error l 0 <> Some [] /\ findex f 0 = Ok [] /\ franges f <> Ok l.
Proof.
  exists [Start; PushElems (repeat 7 (N.to_nat 256)); Start]. eexists. eexists.
  split; [vm_compute; reflexivity|]. split; [vm_compute; reflexivity|].
  split; [discriminate|]. split; [vm_compute; reflexivity|]. vm_compute. discriminate.
Qed.

Example C42_ex : exists f,
  frun 64 finit [Start; PushElem 1; PushElems [2; 3]; Start; Start; PushElem 4] = Ok f
  /\ lrun [] [Start; PushElem 1; PushElems [2; 3]; Start; Start; PushElem 4] = Some [[1; 2; 3]; []; [4]]
  /\ findex f 0 = Ok [1; 2; 3] /\ findex f 1 = Ok [] /\ findex f 3 = Contract /\ franges f = Ok [[1; 2; 3]; []; [4]].
Proof. eexists. split; [vm_compute; reflexivity|]. repeat (split; [vm_compute; reflexivity|]). vm_compute. reflexivity. Qed.
Example C42_ex_refused : frun 64 finit [Start; FClear; PushElem 1] = Contract.
Proof. reflexivity. Qed.

Print Assumptions C41_chunks_partial.
Print Assumptions C41_zero_chunk.
Print Assumptions C41_for_each_partial.
Print Assumptions C41_for_each_refuted.
Print Assumptions C41_chunk_bytes_refuted.
Print Assumptions C87_blocks_partial.
Print Assumptions C87_elements_refuted.
Print Assumptions C42_ranges_partial.
Print Assumptions C42_narrow_refuted.

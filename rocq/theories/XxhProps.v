(* Properties of XXH32 and XXH64: one-shot, streaming and the canonical representation. *)
From Coq Require Import NArith Arith List Lia Bool.
From Verif Require Import Base XxhModel XxhSpec XxhProofs.
Import ListNotations.
Open Scope N_scope.

(* what a client feeds: chunks, None is a null pointer *)
Fixpoint feed32 (st : state32) (cs : list (option (list N))) : outcome (list errorcode * state32) :=
  match cs with
  | [] => Ok ([], st)
  | c :: cs => let! (e, st) := XXH32_update st c in let! (es, st) := feed32 st cs in Ok (e :: es, st)
  end.
Fixpoint feed64 (st : state64) (cs : list (option (list N))) : outcome (list errorcode * state64) :=
  match cs with
  | [] => Ok ([], st)
  | c :: cs => let! (e, st) := XXH64_update st c in let! (es, st) := feed64 st cs in Ok (e :: es, st)
  end.
(* the bytes that were fed, and the results the client must see *)
Definition fed (cs : list (option (list N))) : list N := concat (map (fun c => match c with Some b => b | None => [] end) cs).
Definition codes (cs : list (option (list N))) : list errorcode := map (fun c => match c with Some _ => XXH_OK | None => XXH_ERROR end) cs.

(* ---- XXH32 ---- *)
Theorem C99_oneshot : forall reroll seed bs, XXH32 reroll bs (length bs) seed = Ok (xxh32 seed bs).
Proof. exact XXH32_ok. Qed.
Example C99_empty : forall re, XXH32 re [] 0 0 = Ok 0x02CC5D05.
Proof. intros []; reflexivity. Qed.
Example C99_abc : forall re, XXH32 re [97; 98; 99] 3 0 = Ok 0x32D153FF.
Proof. intros []; vm_compute; reflexivity. Qed.

Lemma feed32_ok : forall cs seed D st, inv32 seed D st ->
  exists st', feed32 st cs = Ok (codes cs, st') /\ inv32 seed (D ++ fed cs) st'.
Proof.
  induction cs as [|[b|] cs IH]; intros seed D st I.
  - exists st. cbn. rewrite app_nil_r. auto.
  - destruct (update32_ok seed D st b I) as (s1 & E1 & I1). destruct (IH _ _ _ I1) as (s2 & E2 & I2).
    exists s2. cbn [feed32]. rewrite E1. cbn [bind]. rewrite E2. split; [reflexivity|].
    unfold fed in *. cbn [map concat]. now rewrite app_assoc.
  - destruct (IH _ _ _ I) as (s2 & E2 & I2). exists s2. cbn [feed32]. cbn [XXH32_update bind]. rewrite E2. auto.
Qed.
(* any chunks, any null pointers in between, digests at any time: always the one-shot hash of the bytes so far *)
Theorem C99_streaming : forall reroll reroll' seed cs, exists st,
  feed32 (XXH32_reset seed) cs = Ok (codes cs, st)
  /\ XXH32_digest reroll st = XXH32 reroll' (fed cs) (length (fed cs)) seed
  /\ XXH32_digest reroll st = Ok (xxh32 seed (fed cs)).
Proof.
  intros re re' seed cs. destruct (feed32_ok cs seed [] _ (inv32_reset seed)) as (st & E & I). exists st.
  split; auto. cbn in I. rewrite (digest32_ok re seed _ st I), XXH32_ok. auto.
Qed.
Theorem C99_chunking_irrelevant : forall reroll seed cs cs' st st',
  feed32 (XXH32_reset seed) cs = Ok (codes cs, st) -> feed32 (XXH32_reset seed) cs' = Ok (codes cs', st') ->
  fed cs = fed cs' -> XXH32_digest reroll st = XXH32_digest reroll st'.
Proof.
  intros re seed cs cs' st st' E E' F.
  destruct (C99_streaming re re seed cs) as (s & A & _ & B). destruct (C99_streaming re re seed cs') as (s' & A' & _ & B').
  rewrite A in E. rewrite A' in E'. injection E as <-. injection E' as <-. rewrite B, B', F. reflexivity.
Qed.
Theorem C99_null : forall st, XXH32_update st None = Ok (XXH_ERROR, st).
Proof. reflexivity. Qed.
Example C99_streaming_example :
  (let! (es, st) := feed32 (XXH32_reset 7) [Some [1; 2; 3]; None; Some (repeat 9 40); Some []; Some [4]] in
   let! d := XXH32_digest false st in Ok (es, d))
  = Ok ([XXH_OK; XXH_ERROR; XXH_OK; XXH_OK; XXH_OK], xxh32 7 ([1; 2; 3] ++ repeat 9 40 ++ [4])).
Proof. vm_compute. reflexivity. Qed.

(* ---- XXH64 ---- *)
Theorem C100_oneshot : forall reroll seed bs, XXH64 reroll bs (length bs) seed = Ok (xxh64 seed bs).
Proof. exact XXH64_ok. Qed.
Example C100_empty : forall re, XXH64 re [] 0 0 = Ok 0xEF46DB3751D8E999.
Proof. intros []; vm_compute; reflexivity. Qed.
Example C100_abc : forall re, XXH64 re [97; 98; 99] 3 0 = Ok 0x44BC2CF5AD770999.
Proof. intros []; vm_compute; reflexivity. Qed.
Lemma feed64_ok : forall cs seed D st, inv64 seed D st ->
  exists st', feed64 st cs = Ok (codes cs, st') /\ inv64 seed (D ++ fed cs) st'.
Proof.
  induction cs as [|[b|] cs IH]; intros seed D st I.
  - exists st. cbn. rewrite app_nil_r. auto.
  - destruct (update64_ok seed D st b I) as (s1 & E1 & I1). destruct (IH _ _ _ I1) as (s2 & E2 & I2).
    exists s2. cbn [feed64]. rewrite E1. cbn [bind]. rewrite E2. split; [reflexivity|].
    unfold fed in *. cbn [map concat]. now rewrite app_assoc.
  - destruct (IH _ _ _ I) as (s2 & E2 & I2). exists s2. cbn [feed64]. cbn [XXH64_update bind]. rewrite E2. auto.
Qed.
(* a size_t bounds every buffer; 2^64 bytes in total are out of reach *)
Theorem C100_streaming : forall reroll reroll' seed cs, N.of_nat (length (fed cs)) < 2 ^ 64 -> exists st,
  feed64 (XXH64_reset seed) cs = Ok (codes cs, st)
  /\ XXH64_digest reroll st = XXH64 reroll' (fed cs) (length (fed cs)) seed
  /\ XXH64_digest reroll st = Ok (xxh64 seed (fed cs)).
Proof.
  intros re re' seed cs L. destruct (feed64_ok cs seed [] _ (inv64_reset seed)) as (st & E & I). exists st.
  split; auto. cbn in I. rewrite (digest64_ok re seed _ st L I), XXH64_ok. auto.
Qed.
Theorem C100_null : forall st, XXH64_update st None = Ok (XXH_ERROR, st).
Proof. reflexivity. Qed.
Example C100_streaming_example :
  (let! (es, st) := feed64 (XXH64_reset 7) [Some [1; 2; 3]; None; Some (repeat 9 40); Some []; Some [4]] in
   let! d := XXH64_digest false st in Ok (es, d))
  = Ok ([XXH_OK; XXH_ERROR; XXH_OK; XXH_OK; XXH_OK], xxh64 7 ([1; 2; 3] ++ repeat 9 40 ++ [4])).
Proof. vm_compute. reflexivity. Qed.

(* ---- canonical representation ---- *)
Lemma bytes_are_bytes : forall n x, Forall is_byte (bytesLE n x).
Proof. induction n; intro x; constructor; auto. apply N.mod_lt. discriminate. Qed.
Lemma bytes_length : forall n x, length (bytesLE n x) = n.
Proof. induction n; intro; cbn; auto. Qed.
Lemma le_bytes : forall n x, x < 256 ^ N.of_nat n -> le (bytesLE n x) = x.
Proof.
  induction n; intros x H.
  - cbn in *. lia.
  - cbn [bytesLE le]. rewrite IHn.
    + rewrite N.add_comm. symmetry. apply N.div_mod. discriminate.
    + apply N.div_lt_upper_bound; [discriminate|]. rewrite Nat2N.inj_succ, N.pow_succ_r' in H. lia.
Qed.
Lemma bytes_le : forall bs, Forall is_byte bs -> bytesLE (length bs) (le bs) = bs.
Proof.
  induction bs as [|b bs IH]; intros F; auto. inversion F as [|? ? Hb Hbs]; subst. cbn [length bytesLE le]. unfold is_byte in Hb.
  rewrite (N.mul_comm 256), N.mod_add, N.div_add, N.mod_small, N.div_small, N.add_0_l, IH by (auto; discriminate). reflexivity.
Qed.
Lemma le_lt : forall bs, Forall is_byte bs -> le bs < 256 ^ N.of_nat (length bs).
Proof.
  induction 1 as [|b bs Hb _ IH]; cbn [le length]; [reflexivity|]. rewrite Nat2N.inj_succ, N.pow_succ_r'. unfold is_byte in Hb. lia.
Qed.
Lemma land_byte : forall y j, N.land y (N.shiftl 255 j) = (N.shiftr y j mod 256) * 2 ^ j.
Proof.
  intros. rewrite <- N.shiftl_mul_pow2. change 256 with (2 ^ 8). rewrite <- N.land_ones. change (N.ones 8) with 255.
  apply N.bits_inj. intro n. rewrite N.land_spec. destruct (N.lt_ge_cases n j).
  - rewrite !N.shiftl_spec_low by auto. apply andb_false_r.
  - rewrite !N.shiftl_spec_high' by auto. rewrite N.land_spec, N.shiftr_spec'. replace (n - j + j) with n by lia. reflexivity.
Qed.
Lemma land_up : forall x k j, k <= j -> N.land (N.shiftl x k) (N.shiftl 255 j) = (x / 2 ^ (j - k) mod 256) * 2 ^ j.
Proof. intros. rewrite land_byte, N.shiftr_shiftl_r by auto. now rewrite N.shiftr_div_pow2. Qed.
Lemma land_down : forall x k j, N.land (N.shiftr x k) (N.shiftl 255 j) = (x / 2 ^ (k + j) mod 256) * 2 ^ j.
Proof. intros. rewrite land_byte, N.shiftr_shiftr, N.shiftr_div_pow2. reflexivity. Qed.
Lemma lor_byte : forall a b r, b < 256 -> N.lor (a * 2 ^ (r + 8)) (b * 2 ^ r) = (a * 256 + b) * 2 ^ r.
Proof.
  intros a b r H. rewrite !N.pow_add_r. change (2 ^ 8) with 256.
  replace (a * (2 ^ r * 256)) with ((a * 2 ^ 8) * 2 ^ r) by (change (2 ^ 8) with 256; lia).
  rewrite <- !(N.shiftl_mul_pow2 _ r), <- N.shiftl_lor. rewrite lor_add by exact H. reflexivity.
Qed.
Lemma byte_lt : forall x k, x / 2 ^ k mod 256 < 256.
Proof. intros. apply N.mod_lt. discriminate. Qed.
Lemma lor_b : forall a b r s, s = r + 8 -> b < 256 -> N.lor (a * 2 ^ s) (b * 2 ^ r) = (a * 256 + b) * 2 ^ r.
Proof. intros; subst. now apply lor_byte. Qed.
Ltac joinb r s := rewrite (lor_b _ _ r s) by (reflexivity || apply byte_lt).
Lemma swap32_rev : forall x, swap32 x = le (rev (bytesLE 4 x)).
Proof.
  intro x. unfold swap32.
  change 0xff000000 with (N.shiftl 255 24). change 0x00ff0000 with (N.shiftl 255 16).
  change 0x0000ff00 with (N.shiftl 255 8). change 0x000000ff with (N.shiftl 255 0).
  rewrite !land_up, !land_down by lia. joinb 16 24. joinb 8 16. joinb 0 8.
  cbn [bytesLE rev app le]. rewrite !N.div_div by discriminate.
  change (2 ^ (24 - 24)) with 1. change (2 ^ (16 - 8)) with 256. change (2 ^ (8 + 8)) with (256 * 256).
  change (2 ^ (24 + 0)) with (256 * (256 * 256)). change (2 ^ 0) with 1. rewrite N.div_1_r. ring.
Qed.
Lemma swap64_rev : forall x, swap64 x = le (rev (bytesLE 8 x)).
Proof.
  intro x. unfold swap64.
  change 0xff00000000000000 with (N.shiftl 255 56). change 0x00ff000000000000 with (N.shiftl 255 48).
  change 0x0000ff0000000000 with (N.shiftl 255 40). change 0x000000ff00000000 with (N.shiftl 255 32).
  change 0x00000000ff000000 with (N.shiftl 255 24). change 0x0000000000ff0000 with (N.shiftl 255 16).
  change 0x000000000000ff00 with (N.shiftl 255 8). change 0x00000000000000ff with (N.shiftl 255 0).
  rewrite !land_up, !land_down by lia. joinb 48 56. joinb 40 48. joinb 32 40. joinb 24 32. joinb 16 24. joinb 8 16. joinb 0 8.
  cbn [bytesLE rev app le]. rewrite !N.div_div by discriminate.
  change (2 ^ (56 - 56)) with 1. change (2 ^ (48 - 40)) with 256. change (2 ^ (40 - 24)) with (256 * 256).
  change (2 ^ (32 - 8)) with (256 * (256 * 256)). change (2 ^ (8 + 24)) with (256 * (256 * (256 * 256))).
  change (2 ^ (24 + 16)) with (256 * (256 * (256 * (256 * 256)))). change (2 ^ (40 + 8)) with (256 * (256 * (256 * (256 * (256 * 256))))).
  change (2 ^ (56 + 0)) with (256 * (256 * (256 * (256 * (256 * (256 * 256)))))). change (2 ^ 0) with 1. rewrite N.div_1_r. ring.
Qed.
Lemma bytes_swap : forall n x, bytesLE n (le (rev (bytesLE n x))) = rev (bytesLE n x).
Proof.
  intros. rewrite <- (bytes_length n x) at 1. rewrite <- rev_length. apply bytes_le.
  apply Forall_rev, bytes_are_bytes.
Qed.
(* the canonical form has 4 (8) bytes, the most significant byte first *)
Theorem C101_canonical_big_endian : forall h,
  (h < 2 ^ 32 -> be (XXH32_canonicalFromHash h) = h) /\ length (XXH32_canonicalFromHash h) = 4%nat /\ Forall is_byte (XXH32_canonicalFromHash h)
  /\ (h < 2 ^ 64 -> be (XXH64_canonicalFromHash h) = h) /\ length (XXH64_canonicalFromHash h) = 8%nat /\ Forall is_byte (XXH64_canonicalFromHash h).
Proof.
  intro h. unfold XXH32_canonicalFromHash, XXH64_canonicalFromHash, be.
  rewrite swap32_rev, swap64_rev, !bytes_swap, !rev_involutive, !rev_length, !bytes_length.
  repeat split; auto using Forall_rev, bytes_are_bytes; intro; apply le_bytes; assumption.
Qed.
(* reading any 4 (8) bytes gives the number with these big endian digits *)
Theorem C101_read_big_endian : forall bs more, Forall is_byte bs ->
  (length bs = 4%nat -> XXH32_hashFromCanonical (bs ++ more) = Ok (be bs))
  /\ (length bs = 8%nat -> XXH64_hashFromCanonical (bs ++ more) = Ok (be bs)).
Proof.
  intros bs more F. unfold XXH32_hashFromCanonical, XXH64_hashFromCanonical, readBE64, be.
  split; intro L; [rewrite readLE32_ok by (rewrite app_length; lia)|rewrite readLE64_ok by (rewrite app_length; lia)];
    cbn [bind skipn]; rewrite firstn_app, L, Nat.sub_diag, <- L, firstn_all; cbn [firstn]; rewrite app_nil_r;
    [rewrite swap32_rev, <- L|rewrite swap64_rev, <- L]; now rewrite bytes_le.
Qed.
Theorem C101_round_trip : forall h,
  (h < 2 ^ 32 -> XXH32_hashFromCanonical (XXH32_canonicalFromHash h) = Ok h)
  /\ (h < 2 ^ 64 -> XXH64_hashFromCanonical (XXH64_canonicalFromHash h) = Ok h).
Proof.
  intro h. destruct (C101_canonical_big_endian h) as (B & L & F & B' & L' & F').
  destruct (C101_read_big_endian _ [] F) as [R _]. destruct (C101_read_big_endian _ [] F') as [_ R'].
  rewrite !app_nil_r in *. split; intro H; [rewrite R, B|rewrite R', B']; auto.
Qed.
Theorem C101_canonical_unique : forall bs, Forall is_byte bs ->
  (length bs = 4%nat -> exists h, XXH32_hashFromCanonical bs = Ok h /\ XXH32_canonicalFromHash h = bs)
  /\ (length bs = 8%nat -> exists h, XXH64_hashFromCanonical bs = Ok h /\ XXH64_canonicalFromHash h = bs).
Proof.
  intros bs F. destruct (C101_read_big_endian bs [] F) as [R R']. rewrite app_nil_r in *.
  split; intro L; exists (be bs); (split; [auto|]); unfold XXH32_canonicalFromHash, XXH64_canonicalFromHash, be;
    [rewrite swap32_rev|rewrite swap64_rev]; rewrite bytes_swap, <- L, <- (rev_length bs), bytes_le by (apply Forall_rev; auto);
    apply rev_involutive.
Qed.
(* the object of 4 (8) bytes must be there *)
Theorem C101_short_undefined : forall bs, ((length bs < 4)%nat -> XXH32_hashFromCanonical bs = UB)
  /\ ((length bs < 8)%nat -> XXH64_hashFromCanonical bs = UB).
Proof.
  intro bs. split; intro L; do 8 (destruct bs as [|? bs]; [try reflexivity; cbn in L; lia|]); cbn in L; lia.
Qed.
Example C101_example : XXH32_canonicalFromHash 0x32D153FF = [0x32; 0xD1; 0x53; 0xFF]
  /\ XXH64_canonicalFromHash 0x44BC2CF5AD770999 = [0x44; 0xBC; 0x2C; 0xF5; 0xAD; 0x77; 0x09; 0x99].
Proof. split; vm_compute; reflexivity. Qed.

Print Assumptions C99_oneshot.
Print Assumptions C99_streaming.
Print Assumptions C99_chunking_irrelevant.
Print Assumptions C99_null.
Print Assumptions C100_oneshot.
Print Assumptions C100_streaming.
Print Assumptions C100_null.
Print Assumptions C101_canonical_big_endian.
Print Assumptions C101_read_big_endian.
Print Assumptions C101_round_trip.
Print Assumptions C101_canonical_unique.
Print Assumptions C101_short_undefined.

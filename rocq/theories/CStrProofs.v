(* Proofs about temporary c strings. *)
From Coq Require Import NArith List Bool Arith Lia Permutation.
From Verif Require Import Base AArrModel AArrSpec AArrProofs CStrModel CStrSpec.
Import ListNotations.
Open Scope N_scope.

Lemma upto0_id : forall s, ~ In 0 s -> upto0 s = s.
Proof.
  induction s as [|c s IH]; intros H; [reflexivity|]. cbn. destruct (N.eqb_spec c 0) as [->|]; [destruct H; left; reflexivity|]. f_equal. apply IH. intros I. apply H. right. exact I.
Qed.
Lemma upto0_cut : forall a b, ~ In 0 a -> upto0 (a ++ 0 :: b) = a.
Proof.
  induction a as [|c a IH]; intros b H; [reflexivity|]. cbn. destruct (N.eqb_spec c 0) as [->|]; [destruct H; left; reflexivity|]. f_equal. apply IH. intros I. apply H. right. exact I.
Qed.
Lemma stored_read : forall s b o h fuel, stored b o s h -> (length s < fuel)%nat -> c_string fuel b o h = Ok (upto0 s).
Proof.
  induction s as [|c s IH]; intros b o h fuel (k & Hb & L & B) F; (destruct fuel as [|fuel]; [cbn in F; lia|]); cbn [c_string].
  - rewrite (load_ok b o 1 h k Hb) by (cbn in *; lia). cbn [bind seq map]. specialize (B 0%nat (Nat.le_refl _)). cbn in B. cbn [N.of_nat]. rewrite B. reflexivity.
  - cbn [length] in L, F. rewrite (load_ok b o 1 h k Hb) by (cbn in *; lia). cbn [bind seq map]. pose proof (B 0%nat ltac:(lia)) as B0. cbn [N.of_nat nth] in B0. cbn [N.of_nat]. rewrite B0.
    cbn [upto0]. destruct (N.eqb_spec c 0); [reflexivity|]. rewrite (IH b (o + 1) h fuel); [reflexivity| |lia].
    exists k. split; [exact Hb|]. split; [lia|]. intros i Hi. specialize (B (S i) ltac:(cbn; lia)). cbn [nth] in B. rewrite <- B. f_equal. lia.
Qed.
(* storing characters and a zero behind them *)
Lemma fill_ok : forall b o s h k, blk h b = Some k -> o + N.of_nat (length s) + 1 <= bsize k ->
  exists h1 h2 k2, store b o (map Some s) h = Ok h1 /\ store b (o + N.of_nat (length s)) [Some 0] h1 = Ok h2 /\ at_ b k2 h h2 /\ objs h2 = objs h /\
    base k2 = base k /\ bsize k2 = bsize k /\ stored b o s h2 /\ (forall i, i < o \/ o + N.of_nat (length s) + 1 <= i -> byte k2 i = byte k i).
Proof.
  intros b o s h k Hb L. destruct (store_ok b o (map Some s) h k Hb) as (h1 & k1 & E1 & A1 & O1 & B1 & Z1 & F1 & V1); [rewrite map_length; lia|]. rewrite map_length in F1, V1.
  destruct (store_ok b (o + N.of_nat (length s)) [Some 0] h1 k1) as (h2 & k2 & E2 & A2 & O2 & B2 & Z2 & F2 & V2); [apply A1|rewrite Z1; change (N.of_nat (length [Some 0])) with 1; lia|]. change (N.of_nat (length [Some 0])) with 1 in F2, V2.
  exists h1, h2, k2. split; [exact E1|]. split; [exact E2|]. split; [eapply at_trans; eassumption|]. split; [congruence|]. split; [congruence|]. split; [congruence|]. split.
  - exists k2. split; [apply A2|]. split; [rewrite Z2, Z1; exact L|]. intros i Hi. destruct (Nat.eq_dec i (length s)) as [->|Ni].
    + specialize (V2 0 ltac:(lia)). rewrite N.add_0_r in V2. rewrite V2. cbn [N.to_nat nth]. f_equal. symmetry. apply nth_overflow. lia.
    + rewrite F2 by lia. rewrite V1 by lia. rewrite Nat2N.id. rewrite (nth_indep _ None (Some 0)) by (rewrite map_length; lia). apply map_nth.
  - intros i Hi. rewrite F2 by lia. apply F1. lia.
Qed.

Lemma new_fuel : forall place f g n h, new_array place f char_t n h = new_array place g char_t n h.
Proof. reflexivity. Qed.
Lemma delete_fuel : forall f g p h, delete_array f byte_t p h = delete_array g byte_t p h.
Proof. reflexivity. Qed.
Lemma char_ok : type_ok char_t.
Proof. unfold type_ok. cbn. repeat split; lia. Qed.

Lemma of_view_ok : forall place s h, suitable place -> N.of_nat (length s) + 10 < 2 ^ 64 ->
  exists h' k, of_view (Some place) (Some s) h = Ok (mkC (Some (next h, 9)) true, h') /\ added h h' k /\ objs h' = objs h /\
    bsize k = N.of_nat (length s) + 10 /\ counted k (N.of_nat (length s) + 1) /\ stored (next h) 9 s h'.
Proof.
  intros place s h Su Sz. unfold of_view, init_from_allocator, vsize. cbn [chars]. unfold wadd. rewrite wrap_small by lia.
  rewrite (new_fuel place 0 (N.to_nat (N.of_nat (length s) + 1))).
  destruct (new_array_ok place (N.to_nat (N.of_nat (length s) + 1)) char_t (N.of_nat (length s) + 1) h) as (h1 & k & E & A & Bz & Cn & _ & _).
  { exact char_ok. } { intros h' s' a Ha. apply Su. exact Ha. } { intros s'. apply Su. reflexivity. } { unfold fits. cbn [sz char_t]. change (get_array_padding 1) with 9. lia. } { left. reflexivity. } { lia. }
  assert (objs h1 = objs h) as O1.
  { clear - E. unfold new_array in E. cbn [sz al trivial_ctor char_t] in E. unfold alloc in E. cbn [bind] in E. unfold store_size in E. destruct (aligned _ _ _ _); [|discriminate]. cbn [defined bind] in E.
    unfold store in E. destruct (blk _ _); [|discriminate]. destruct (_ <=? _); [|discriminate]. cbn [bind] in E. unfold zero in E. destruct (blk _ _); [|discriminate]. destruct (_ <=? _); [|discriminate]. cbn [bind] in E. injection E as <-. reflexivity. }
  cbn [sz char_t] in *. change (get_array_padding 1) with 9 in *. rewrite E. cbn [bind fst snd copy_in].
  destruct (fill_ok (next h) 9 s h1 k) as (h2 & h3 & k3 & E2 & E3 & A3 & O3 & B3 & Z3 & S3 & F3); [apply A|lia|]. rewrite E2. cbn [bind]. rewrite E3. cbn [bind].
  exists h3, k3. split; [reflexivity|]. split; [eapply added_at; eassumption|]. split; [congruence|]. split; [lia|]. split; [|exact S3].
  eapply counted_ext; [exact B3|exact Z3| |exact Cn]. intros i Hi. apply F3. lia.
Qed.
Lemma destroy_ok : forall b h k n, blk h b = Some k -> counted k n -> exists h', destroy (mkC (Some (b, 9)) true) h = Ok h' /\ removed h h' b /\ objs h' = objs h.
Proof.
  intros b h k n Hb Cn. unfold destroy. cbn [data owns]. rewrite (delete_fuel 0 (N.to_nat n)).
  destruct (delete_array_ok (N.to_nat n) byte_t b n h k (objs h)) as (h' & E & R & P); [exact char_ok|exact Hb|exact Cn|left; reflexivity|lia|reflexivity|].
  cbn [sz byte_t] in E. change (get_array_padding 1) with 9 in E. exists h'. split; [exact E|]. split; [exact R|].
  clear - E. unfold delete_array in E. cbn [sz trivial_dtor byte_t] in E. change (get_array_padding 1 <=? 9) with true in E. cbn [defined bind] in E.
  destruct (load_size b _ h); try discriminate. cbn [bind free] in E. destruct (blk h b); [|discriminate]. destruct (_ =? 0); [|discriminate]. injection E as <-. reflexivity.
Qed.
Lemma of_buffer_ok : forall b o bsz place s h k, blk h b = Some k -> o + bsz <= bsize k -> N.of_nat (length s) < bsz ->
  exists h' k', of_buffer b o bsz place (Some s) h = Ok (mkC (Some (b, o)) false, h') /\ at_ b k' h h' /\ objs h' = objs h /\ base k' = base k /\ bsize k' = bsize k /\
    stored b o s h' /\ (forall i, i < o \/ o + N.of_nat (length s) + 1 <= i -> byte k' i = byte k i).
Proof.
  intros b o bsz place s h k Hb L F. unfold of_buffer, vsize. cbn [chars copy_in]. apply N.ltb_lt in F. rewrite F. apply N.ltb_lt in F.
  destruct (fill_ok b o s h k Hb) as (h1 & h2 & k2 & E1 & E2 & R); [lia|]. rewrite E1. cbn [bind contract]. rewrite E2. cbn [bind]. exists h2, k2. split; [reflexivity|exact R].
Qed.
Lemma print_ok : forall place s h fuel, suitable place -> N.of_nat (length s) + 10 < 2 ^ 64 -> fresh h -> (length s < fuel)%nat ->
  exists h', print place fuel (Some s) h = Ok (upto0 s, h') /\ (forall j, blk h' j = blk h j) /\ objs h' = objs h.
Proof.
  intros place s h fuel Su Sz Fr F. destruct (of_view_ok place s h Su Sz) as (h1 & k & E & A & O & Z & Cn & St). unfold print. rewrite E. cbn [bind]. unfold read. cbn [data].
  rewrite (stored_read _ _ _ _ _ St F). cbn [bind]. destruct (destroy_ok (next h) h1 k _ ltac:(apply A) Cn) as (h2 & E2 & R & O2). rewrite E2. cbn [bind]. exists h2. split; [reflexivity|].
  split; [|congruence]. intros j. destruct R as (_ & R1 & R2). destruct A as (_ & _ & A2). destruct (Nat.eq_dec j (next h)) as [->|N]; [rewrite R1; symmetry; apply Fr; lia|]. rewrite R2, A2 by exact N. reflexivity.
Qed.

From Coq Require Import NArith List Bool Arith Lia Permutation.
From Verif Require Import Base AArrModel AArrSpec.
Import ListNotations.
Open Scope N_scope.

(* ---- padding ---- *)
Lemma padding_ok : forall e, 0 < e -> 8 <= get_array_padding e /\ get_array_padding e mod e = 0 /\ get_array_padding e <= e + 8.
Proof.
  intros e H. unfold get_array_padding. destruct (8 <=? e) eqn:E.
  - apply N.leb_le in E. rewrite N.mod_same by lia. lia.
  - apply N.leb_gt in E. pose proof (N.div_mod 8 e ltac:(lia)) as D. pose proof (N.mod_lt 8 e ltac:(lia)) as L.
    rewrite (N.mul_comm e (1 + 8 / e)), N.mod_mul by lia. rewrite N.mul_add_distr_r, N.mul_1_l. rewrite N.mul_comm in D. revert D L.
    generalize (8 / e * e) (8 mod e). intros. lia.
Qed.
Lemma mod_mod_divides : forall a m d, 0 < m -> 0 < d -> m mod d = 0 -> a mod m = 0 -> a mod d = 0.
Proof.
  intros a m d Hm Hd H1 H2. apply N.mod_divide in H1; [|lia]. apply N.mod_divide in H2; [|lia]. apply N.mod_divide; [lia|]. eapply N.divide_trans; eauto.
Qed.
Lemma mod_add0 : forall a b d, 0 < d -> a mod d = 0 -> b mod d = 0 -> (a + b) mod d = 0.
Proof. intros a b d H A B. rewrite N.add_mod by lia. rewrite A, B, N.add_0_r. now rewrite N.mod_0_l by lia. Qed.
Lemma mul_mod0 : forall i s d, 0 < d -> s mod d = 0 -> (i * s) mod d = 0.
Proof. intros i s d H A. rewrite N.mul_mod by lia. rewrite A, N.mul_0_r. now rewrite N.mod_0_l by lia. Qed.

(* ---- little endian ---- *)
Lemma le_roundtrip : forall k x, x < 256 ^ N.of_nat k -> le_value (map Some (le_bytes k x)) = Ok x.
Proof.
  induction k as [|k IH]; intros x H; cbn [le_bytes map le_value]; [cbn in H; f_equal; lia|].
  rewrite Nat2N.inj_succ, N.pow_succ_r' in H. rewrite IH by (apply N.div_lt_upper_bound; lia). cbn [bind]. f_equal. rewrite N.add_comm. symmetry. apply N.div_mod. lia.
Qed.
Lemma le_bytes_length : forall k x, length (le_bytes k x) = k.
Proof. induction k; intros; cbn; auto. Qed.

(* ---- heap ---- *)
(* h' differs from h in block b only, which is k' *)
Definition at_ (b : nat) (k' : block) (h h' : heap) : Prop :=
  next h' = next h /\ blk h' b = Some k' /\ forall j, j <> b -> blk h' j = blk h j.
Lemma upd_same : forall f i x, upd f i x i = x.
Proof. intros. unfold upd. now rewrite Nat.eqb_refl. Qed.
Lemma upd_other : forall f i j x, j <> i -> upd f i x j = f j.
Proof. intros. unfold upd. apply Nat.eqb_neq in H. now rewrite H. Qed.
Lemma store_ok : forall b o bs h k, blk h b = Some k -> o + N.of_nat (length bs) <= bsize k ->
  exists h' k', store b o bs h = Ok h' /\ at_ b k' h h' /\ objs h' = objs h /\ base k' = base k /\ bsize k' = bsize k /\
    (forall i, i < o \/ o + N.of_nat (length bs) <= i -> byte k' i = byte k i) /\
    (forall r, r < N.of_nat (length bs) -> byte k' (o + r) = nth (N.to_nat r) bs None).
Proof.
  intros b o bs h k Hb L. unfold store. rewrite Hb. apply N.leb_le in L. rewrite L. eexists _, _. split; [reflexivity|].
  split; [split; [reflexivity|split; [cbn; apply upd_same|intros; cbn; now apply upd_other]]|]. cbn. repeat split; intros.
  - destruct (o <=? i) eqn:E1; auto. destruct (i <? o + N.of_nat (length bs)) eqn:E2; auto. apply N.leb_le in E1. apply N.ltb_lt in E2. lia.
  - replace (o <=? o + r) with true by (symmetry; apply N.leb_le; lia). replace (o + r <? o + N.of_nat (length bs)) with true by (symmetry; apply N.ltb_lt; lia).
    cbn. f_equal. lia.
Qed.
Lemma store_oob : forall b o bs h k, blk h b = Some k -> bsize k < o + N.of_nat (length bs) -> store b o bs h = UB.
Proof. intros b o bs h k Hb L. unfold store. rewrite Hb. apply N.leb_gt in L. now rewrite L. Qed.
Lemma zero_ok : forall b o len h k, blk h b = Some k -> o + len <= bsize k ->
  exists h' k', zero b o len h = Ok h' /\ at_ b k' h h' /\ objs h' = objs h /\ base k' = base k /\ bsize k' = bsize k /\
    (forall i, i < o \/ o + len <= i -> byte k' i = byte k i) /\ (forall r, r < len -> byte k' (o + r) = Some 0).
Proof.
  intros b o len h k Hb L. unfold zero. rewrite Hb. apply N.leb_le in L. rewrite L. eexists _, _. split; [reflexivity|].
  split; [split; [reflexivity|split; [cbn; apply upd_same|intros; cbn; now apply upd_other]]|]. cbn. repeat split; intros.
  - destruct (o <=? i) eqn:E1; auto. destruct (i <? o + len) eqn:E2; auto. apply N.leb_le in E1. apply N.ltb_lt in E2. lia.
  - replace (o <=? o + r) with true by (symmetry; apply N.leb_le; lia). replace (o + r <? o + len) with true by (symmetry; apply N.ltb_lt; lia). reflexivity.
Qed.
Lemma load_ok : forall b o len h k, blk h b = Some k -> o + N.of_nat len <= bsize k -> load b o len h = Ok (map (fun i => byte k (o + N.of_nat i)) (seq 0 len)).
Proof. intros b o len h k Hb L. unfold load. rewrite Hb. apply N.leb_le in L. now rewrite L. Qed.
Lemma at_trans : forall b k1 k2 h1 h2 h3, at_ b k1 h1 h2 -> at_ b k2 h2 h3 -> at_ b k2 h1 h3.
Proof. intros b k1 k2 h1 h2 h3 [A [B C]] [D [E F]]. split; [congruence|split; auto]. intros j Hj. rewrite F, C; auto. Qed.
Lemma aligned_ok : forall b o a h k, blk h b = Some k -> aligned b o a h = ((base k + o) mod a =? 0).
Proof. intros. unfold aligned. now rewrite H. Qed.

Definition needs (T : ty) (l : list ptr) : list ptr := if trivial_dtor T then [] else l.

Lemma construct_ok : forall T b o h k, length (rep T) = N.to_nat (sz T) -> blk h b = Some k -> o + sz T <= bsize k -> (base k + o) mod al T = 0 ->
  exists h' k', construct T b o h = Ok h' /\ at_ b k' h h' /\ objs h' = needs T [(b, o)] ++ objs h /\ base k' = base k /\ bsize k' = bsize k /\
    (forall i, i < o \/ o + sz T <= i -> byte k' i = byte k i) /\ (forall r, r < sz T -> byte k' (o + r) = nth (N.to_nat r) (rep T) None).
Proof.
  intros T b o h k R Hb L A. unfold construct. rewrite (aligned_ok _ _ _ _ _ Hb), A. cbn [N.eqb defined bind].
  assert (E : N.of_nat (length (rep T)) = sz T) by lia.
  destruct (store_ok b o (rep T) h k Hb ltac:(rewrite E; auto)) as [h' [k' [H1 [[N1 [B1 O1]] [H3 [H4 [H5 [H6 H7]]]]]]]]. rewrite H1. cbn [bind].
  rewrite E in *. eexists _, k'. split; [reflexivity|]. unfold needs. cbn [next blk objs]. repeat split; auto. rewrite H3. now destruct (trivial_dtor T).
Qed.

(* elements i, i+1, ... n-1, as left by the loop *)
Definition elems_from (T : ty) (b : nat) (o : N) (i m : nat) : list ptr := map (fun i => (b, o + N.of_nat i * sz T)) (seq i m).

Lemma construct_loop_ok : forall m fuel T b o i n h k, type_ok T -> n < 2 ^ 32 -> N.of_nat m = n - i -> i <= n -> (m <= fuel)%nat ->
  blk h b = Some k -> o + n * sz T <= bsize k -> (base k + o) mod al T = 0 ->
  exists h' k', construct_loop fuel T b o i n h = Ok h' /\ at_ b k' h h' /\ Permutation (objs h') (needs T (elems_from T b o (N.to_nat i) m) ++ objs h) /\
    base k' = base k /\ bsize k' = bsize k /\ (forall x, x < o + i * sz T \/ o + n * sz T <= x -> byte k' x = byte k x) /\
    (forall j r, i <= j -> j < n -> r < sz T -> byte k' (o + j * sz T + r) = nth (N.to_nat r) (rep T) None).
Proof.
  induction m as [|m IH]; intros fuel T b o i n h k Ty Hn Em Hi Hf Hb L A.
  - destruct fuel; cbn [construct_loop]; replace (i <? n) with false by (symmetry; apply N.ltb_ge; lia); exists h, k;
      (split; [reflexivity|split; [split; auto|split; [unfold needs, elems_from; destruct (trivial_dtor T); cbn; auto|split; [auto|split; [auto|split; [auto|intros; lia]]]]]]).
  - destruct fuel as [|fuel]; [lia|]. cbn [construct_loop]. replace (i <? n) with true by (symmetry; apply N.ltb_lt; lia).
    destruct Ty as [T1 [T2 [T3 [T4 T5]]]].
    destruct (construct_ok T b (o + i * sz T) h k T4 Hb) as [h1 [k1 [C1 [C2 [C3 [C4 [C5 [C6 C7]]]]]]]].
    { assert (i + 1 <= n) by lia. nia. }
    { rewrite N.add_assoc. apply mod_add0; auto. apply mul_mod0; auto. }
    rewrite C1. cbn [bind]. unfold wadd. rewrite wrap_small by lia.
    destruct (IH fuel T b o (i + 1) n h1 k1) as [h2 [k2 [D1 [D2 [D3 [D4 [D5 [D6 D7]]]]]]]]; try lia.
    { repeat split; auto. } { apply C2. } { rewrite C4. auto. }
    exists h2, k2. rewrite D1. split; [reflexivity|]. split; [eapply at_trans; eauto|]. split; [|split; [congruence|split; [congruence|split]]].
    + rewrite D3, C3. replace (N.to_nat (i + 1)) with (S (N.to_nat i)) by lia. unfold needs, elems_from. destruct (trivial_dtor T); [reflexivity|].
      cbn [seq map app]. rewrite N2Nat.id. rewrite <- Permutation_middle. reflexivity.
    + intros x Hx. rewrite D6 by nia. apply C6. nia.
    + intros j r J1 J2 R. destruct (N.eq_dec j i) as [->|Nj]; [|apply D7; lia].
      rewrite D6 by nia. apply C7. auto.
Qed.

Lemma construct_loop_inf : forall fuel T b o i n h k, type_ok T -> 2 ^ 32 <= n -> i < 2 ^ 32 -> blk h b = Some k -> o + n * sz T <= bsize k -> (base k + o) mod al T = 0 ->
  construct_loop fuel T b o i n h = OutOfFuel.
Proof.
  induction fuel as [|fuel IH]; intros T b o i n h k Ty Hn Hi Hb L A; cbn [construct_loop]; replace (i <? n) with true by (symmetry; apply N.ltb_lt; lia); [reflexivity|].
  pose proof Ty as [T1 [T2 [T3 [T4 T5]]]].
  destruct (construct_ok T b (o + i * sz T) h k T4 Hb) as [h1 [k1 [C1 [C2 [C3 [C4 [C5 [C6 C7]]]]]]]].
  { assert (i + 1 <= n) by lia. nia. }
  { rewrite N.add_assoc. apply mod_add0; auto. apply mul_mod0; auto. }
  rewrite C1. cbn [bind]. eapply IH with (k := k1); eauto.
  - unfold wadd, wrap. apply N.mod_lt. lia.
  - apply C2.
  - congruence.
  - now rewrite C4.
Qed.

Lemma remove1_perm : forall p l rest, Permutation l (p :: rest) -> exists l', remove1 p l = Some l' /\ Permutation l' rest.
Proof.
  assert (Eq : forall p q, ptr_eqb p q = true <-> p = q).
  { intros [a x] [b y]. unfold ptr_eqb. cbn. rewrite andb_true_iff, Nat.eqb_eq, N.eqb_eq. split; [intros []; congruence|intros H; inversion H; auto]. }
  intros p l. induction l as [|q l IH]; intros rest P; [apply Permutation_nil in P; discriminate|]. cbn [remove1].
  destruct (ptr_eqb p q) eqn:E.
  - apply Eq in E. subst. exists l. split; auto. now apply Permutation_cons_inv in P.
  - assert (I : In q (p :: rest)) by (eapply Permutation_in; [exact P|left; auto]). destruct I as [I|I]; [subst; assert (ptr_eqb q q = true) by (now apply Eq); congruence|].
    apply in_split in I. destruct I as [r1 [r2 ->]].
    destruct (IH (r1 ++ r2)) as [l' [R P']].
    { apply Permutation_cons_inv with q. rewrite P. change (p :: r1 ++ q :: r2) with ((p :: r1) ++ q :: r2). now rewrite <- Permutation_middle. }
    rewrite R. exists (q :: l'). split; auto. rewrite P'. apply Permutation_middle.
Qed.

Lemma destroy_loop_ok : forall m fuel T b o i n h rest, n < 2 ^ 32 -> N.of_nat m = n - i -> i <= n -> (m <= fuel)%nat ->
  Permutation (objs h) (elems_from T b o (N.to_nat i) m ++ rest) ->
  exists h', destroy_loop fuel T b o i n h = Ok h' /\ blk h' = blk h /\ next h' = next h /\ Permutation (objs h') rest.
Proof.
  induction m as [|m IH]; intros fuel T b o i n h rest Hn Em Hi Hf P.
  - exists h. destruct fuel; cbn [destroy_loop]; replace (i <? n) with false by (symmetry; apply N.ltb_ge; lia); auto.
  - destruct fuel as [|fuel]; [lia|]. cbn [destroy_loop]. replace (i <? n) with true by (symmetry; apply N.ltb_lt; lia).
    unfold destroy. cbn [elems_from seq map app] in P. rewrite N2Nat.id in P. destruct (remove1_perm _ _ _ P) as [l' [R P']]. rewrite R. cbn [bind].
    unfold wadd. rewrite wrap_small by lia. apply IH with (h := mkH (blk h) (next h) l') (T := T) (b := b) (o := o) (fuel := fuel); auto; try lia.
    replace (N.to_nat (i + 1)) with (S (N.to_nat i)) by lia. exact P'.
Qed.
Lemma elems_elems_from : forall T b o n, elems T b o n = elems_from T b o 0 (N.to_nat n).
Proof. reflexivity. Qed.

(* ---- the functions ---- *)
Definition added (h h' : heap) (k : block) : Prop := next h' = S (next h) /\ blk h' (next h) = Some k /\ forall j, j <> next h -> blk h' j = blk h j.
Lemma alloc_added : forall place s a h h', alloc place s a h = Ok (next h, h') -> added h h' (mkB (place h s a) s (fun _ => None)) /\ objs h' = objs h.
Proof. intros place s a h h' H. injection H as <-. cbn. split; auto. split; [reflexivity|split; [apply upd_same|intros; now apply upd_other]]. Qed.
Lemma added_at : forall h h1 h2 k1 k2, added h h1 k1 -> at_ (next h) k2 h1 h2 -> added h h2 k2.
Proof. intros h h1 h2 k1 k2 [A [B C]] [D [E F]]. split; [congruence|split; auto]. intros j Hj. rewrite F, C; auto. Qed.

(* count written at the front of the block *)
Definition counted (k : block) (n : N) : Prop := le_value (map (fun i => byte k (N.of_nat i)) (seq 0 8)) = Ok n /\ base k mod 8 = 0 /\ 8 <= bsize k.
Lemma counted_ext : forall k k' n, base k' = base k -> bsize k' = bsize k -> (forall i, i < 8 -> byte k' i = byte k i) -> counted k n -> counted k' n.
Proof.
  intros k k' n A B C [D [E F]]. unfold counted. rewrite A, B. split; auto. rewrite <- D. f_equal. apply map_ext_in. intros i Hi. apply in_seq in Hi. apply C. lia.
Qed.

Lemma store_size_ok : forall b n h k, blk h b = Some k -> base k mod 8 = 0 -> 8 <= bsize k -> n < 2 ^ 64 ->
  exists h' k', store_size b 0 n h = Ok h' /\ at_ b k' h h' /\ objs h' = objs h /\ base k' = base k /\ bsize k' = bsize k /\ counted k' n /\ (forall i, 8 <= i -> byte k' i = byte k i).
Proof.
  intros b n h k Hb A S Hn. unfold store_size. rewrite (aligned_ok _ _ _ _ _ Hb), N.add_0_r, A. cbn [N.eqb defined bind].
  assert (L : length (map Some (le_bytes 8 n)) = 8%nat) by now rewrite map_length, le_bytes_length.
  destruct (store_ok b 0 (map Some (le_bytes 8 n)) h k Hb) as [h' [k' [H1 [H2 [H3 [H4 [H5 [H6 H7]]]]]]]]; [rewrite L; lia|]. rewrite L in *.
  exists h', k'. rewrite H1. split; [reflexivity|]. split; [exact H2|]. split; [exact H3|]. split; [exact H4|]. split; [exact H5|].
  split; [|intros; apply H6; lia]. split; [|split; congruence].
  rewrite <- (le_roundtrip 8 n) by exact Hn. f_equal.
  assert (E : forall l : list (option N), length l = 8%nat -> (forall r, r < 8 -> byte k' r = nth (N.to_nat r) l None) -> map (fun i => byte k' (N.of_nat i)) (seq 0 8) = l).
  { intros l Ll Hr. apply nth_ext with (d := None) (d' := None); [now rewrite map_length, seq_length|]. intros j Hj. rewrite map_length, seq_length in Hj.
    rewrite nth_indep with (d' := byte k' (N.of_nat 0)) by (now rewrite map_length, seq_length). rewrite map_nth with (f := fun i => byte k' (N.of_nat i)). rewrite seq_nth by auto.
    rewrite Hr by lia. f_equal. lia. }
  apply E; auto.
Qed.

Definition fits (T : ty) (n : N) : Prop := sz T * n + get_array_padding (sz T) < 2 ^ 64.

Lemma new_array_ok : forall place fuel T n h, type_ok T -> conforming place -> (forall s, place h s (al T) mod 8 = 0) -> fits T n -> (trivial_ctor T = true \/ n < 2 ^ 32) -> (N.to_nat n <= fuel)%nat ->
  let p := get_array_padding (sz T) in
  exists h' k, new_array place fuel T n h = Ok ((next h, p), h') /\ added h h' k /\ bsize k = p + n * sz T /\ counted k n /\ holds T p n k /\
    Permutation (objs h') (needs T (elems T (next h) p n) ++ objs h).
Proof.
  intros place fuel T n h Ty Cf P8 Ft Hn Hf p. pose proof Ty as [T1 [T2 [T3 [T4 T5]]]]. destruct (padding_ok (sz T) T1) as [Pd1 [Pd2 Pd3]]. fold p in Pd1, Pd2, Pd3.
  unfold fits in Ft. fold p in Ft. unfold new_array. fold p. unfold wmul, wadd. rewrite (wrap_small _ (sz T * n)) by lia. rewrite wrap_small by lia.
  destruct (alloc place (sz T * n + p) (al T) h) as [[b h1]| | |] eqn:EA; try discriminate. assert (b = next h) by (injection EA; auto). subst b.
  apply alloc_added in EA. destruct EA as [Ad O1]. cbn [bind]. set (k0 := mkB (place h (sz T * n + p) (al T)) (sz T * n + p) (fun _ => None)) in *.
  destruct (store_size_ok (next h) n h1 k0) as [h2 [k1 [S1 [S2 [S3 [S4 [S5 [S6 S7]]]]]]]]; [apply Ad|apply P8|cbn; lia|nia|].
  rewrite S1. cbn [bind]. pose proof (added_at _ _ _ _ _ Ad S2) as Ad2.
  assert (Al : (base k1 + p) mod al T = 0).
  { apply mod_add0; auto; [rewrite S4; cbn; apply Cf; auto|]. eapply mod_mod_divides; [| |exact T3|]; auto. }
  cbn in S4, S5. destruct (trivial_ctor T) eqn:Tc.
  - destruct (zero_ok (next h) p (sz T * n) h2 k1) as [h3 [k2 [Z1 [Z2 [Z3 [Z4 [Z5 [Z6 Z7]]]]]]]]; [apply S2|rewrite S5; lia|]. rewrite Z1. cbn [bind].
    exists h3, k2. split; [reflexivity|]. split; [eapply added_at; eauto|]. split; [rewrite Z5, S5; lia|]. split; [|split].
    + eapply counted_ext; [..|exact S6]; auto. intros i Hi. apply Z6. lia.
    + split; [rewrite Z5, S5; lia|]. split; [now rewrite Z4|]. intros i r Hi Hr. unfold init_byte. rewrite Tc. rewrite <- N.add_assoc. apply Z7. nia.
    + unfold needs. rewrite (T5 eq_refl). rewrite Z3, S3, O1. reflexivity.
  - destruct Hn as [Hn|Hn]; [discriminate|].
    destruct (construct_loop_ok (N.to_nat n) fuel T (next h) p 0 n h2 k1) as [h3 [k2 [Z1 [Z2 [Z3 [Z4 [Z5 [Z6 Z7]]]]]]]]; auto; try lia; [apply S2|].
    rewrite Z1. cbn [bind]. exists h3, k2. split; [reflexivity|]. split; [eapply added_at; eauto|]. split; [rewrite Z5, S5; lia|]. split; [|split].
    + eapply counted_ext; [..|exact S6]; auto. intros i Hi. apply Z6. lia.
    + split; [rewrite Z5, S5; lia|]. split; [now rewrite Z4|]. intros i r Hi Hr. unfold init_byte. rewrite Tc. apply Z7; lia.
    + rewrite Z3, S3, O1. reflexivity.
Qed.

Lemma new_array_inf : forall place fuel T n h, type_ok T -> conforming place -> (forall s, place h s (al T) mod 8 = 0) -> fits T n -> trivial_ctor T = false -> 2 ^ 32 <= n ->
  new_array place fuel T n h = OutOfFuel.
Proof.
  intros place fuel T n h Ty Cf P8 Ft Tc Hn. pose proof Ty as [T1 [T2 [T3 [T4 T5]]]]. set (p := get_array_padding (sz T)). destruct (padding_ok (sz T) T1) as [Pd1 [Pd2 Pd3]]. fold p in Pd1, Pd2, Pd3.
  unfold fits in Ft. fold p in Ft. unfold new_array. fold p. unfold wmul, wadd. rewrite (wrap_small _ (sz T * n)) by lia. rewrite wrap_small by lia.
  destruct (alloc place (sz T * n + p) (al T) h) as [[b h1]| | |] eqn:EA; try discriminate. assert (b = next h) by (injection EA; auto). subst b.
  apply alloc_added in EA. destruct EA as [Ad O1]. cbn [bind]. set (k0 := mkB (place h (sz T * n + p) (al T)) (sz T * n + p) (fun _ => None)) in *.
  destruct (store_size_ok (next h) n h1 k0) as [h2 [k1 [S1 [S2 [S3 [S4 [S5 [S6 S7]]]]]]]]; [apply Ad|apply P8|cbn; lia|nia|].
  rewrite S1. cbn [bind]. rewrite Tc. erewrite construct_loop_inf with (k := k1); auto; [lia|apply S2|rewrite S5; cbn; lia|].
  apply mod_add0; auto; [rewrite S4; cbn; apply Cf; auto|]. eapply mod_mod_divides; [| |exact T3|]; auto.
Qed.

Definition removed (h h' : heap) (b : nat) : Prop := next h' = next h /\ blk h' b = None /\ forall j, j <> b -> blk h' j = blk h j.

Lemma delete_array_ok : forall fuel T b n h k rest, type_ok T -> blk h b = Some k -> counted k n -> (trivial_dtor T = true \/ n < 2 ^ 32) -> (N.to_nat n <= fuel)%nat ->
  let p := get_array_padding (sz T) in
  Permutation (objs h) (needs T (elems T b p n) ++ rest) ->
  exists h', delete_array fuel T (Some (b, p)) h = Ok h' /\ removed h h' b /\ Permutation (objs h') rest.
Proof.
  intros fuel T b n h k rest Ty Hb [C1 [C2 C3]] Hn Hf p P. unfold delete_array. fold p. rewrite N.leb_refl, N.sub_diag. cbn [defined bind].
  unfold load_size. rewrite (aligned_ok _ _ _ _ _ Hb), N.add_0_r, C2. cbn [N.eqb defined bind]. rewrite (load_ok b 0 8 h k Hb) by (cbn; lia). cbn [bind].
  change (map (fun i : nat => byte k (0 + N.of_nat i)) (seq 0 8)) with (map (fun i : nat => byte k (N.of_nat i)) (seq 0 8)). rewrite C1. cbn [bind].
  unfold needs in P. destruct (trivial_dtor T) eqn:E.
  - cbn [bind free]. rewrite Hb. cbn [N.eqb]. eexists. split; [reflexivity|]. split; [split; [reflexivity|split; [apply upd_same|intros; now apply upd_other]]|exact P].
  - destruct Hn as [Hn|Hn]; [discriminate|].
    destruct (destroy_loop_ok (N.to_nat n) fuel T b p 0 n h rest) as [h' [D1 [D2 [D3 D4]]]]; auto; try lia. rewrite D1. cbn [bind free]. rewrite D2, Hb. cbn [N.eqb].
    eexists. split; [reflexivity|]. rewrite <- D2. split; [split; [exact D3|split; [apply upd_same|intros; cbn; rewrite upd_other by auto; now rewrite D2]]|exact D4].
Qed.

(* what a program may do with the array: change the bytes of the elements *)
Definition touched (b : nat) (p : N) (h h' : heap) : Prop :=
  next h' = next h /\ objs h' = objs h /\ (forall j, j <> b -> blk h' j = blk h j) /\
  forall k, blk h b = Some k -> exists k', blk h' b = Some k' /\ base k' = base k /\ bsize k' = bsize k /\ forall i, i < p -> byte k' i = byte k i.

Lemma roundtrip : forall place fuel T n h, type_ok T -> conforming place -> (forall s, place h s (al T) mod 8 = 0) -> fits T n -> (trivial_ctor T = true \/ n < 2 ^ 32) -> (N.to_nat n <= fuel)%nat ->
  fresh h ->
  exists ptr h1, new_array place fuel T n h = Ok (ptr, h1) /\
    forall h2, touched (fst ptr) (snd ptr) h1 h2 ->
    exists h3, delete_array fuel T (Some ptr) h2 = Ok h3 /\ (forall j, blk h3 j = blk h j) /\ Permutation (objs h3) (objs h).
Proof.
  intros place fuel T n h Ty Cf P8 Ft Hn Hf Fr. destruct (new_array_ok place fuel T n h) as [h1 [k [N1 [N2 [N3 [N4 [N5 N6]]]]]]]; auto.
  eexists _, h1. split; [exact N1|]. cbn [fst snd]. intros h2 [U1 [U2 [U3 U4]]]. destruct (U4 k) as [k' [K1 [K2 [K3 K4]]]]; [apply N2|].
  assert (Pd : 8 <= get_array_padding (sz T)) by (apply padding_ok, Ty).
  destruct (delete_array_ok fuel T (next h) n h2 k' (objs h)) as [h3 [D1 [D2 D3]]]; auto.
  - eapply counted_ext; [..|exact N4]; auto. intros; apply K4; lia.
  - destruct Hn; auto. left. apply Ty. auto.
  - now rewrite U2.
  - exists h3. split; auto. split; auto. intros j. destruct D2 as [_ [D2 D4]]. destruct (Nat.eq_dec j (next h)) as [->|Nj]; [rewrite D2; symmetry; apply Fr; lia|].
    rewrite D4, U3 by auto. apply N2. auto.
Qed.

Lemma new_array_sized_ok : forall place fuel T n h, type_ok T -> conforming place -> sz T * n < 2 ^ 64 -> (trivial_ctor T = true \/ n < 2 ^ 32) -> (N.to_nat n <= fuel)%nat ->
  exists h' k, new_array_sized place fuel T n h = Ok ((next h, 0), h') /\ added h h' k /\ bsize k = n * sz T /\ holds T 0 n k /\
    Permutation (objs h') (needs T (elems T (next h) 0 n) ++ objs h).
Proof.
  intros place fuel T n h Ty Cf Ft Hn Hf. pose proof Ty as [T1 [T2 [T3 [T4 T5]]]]. unfold new_array_sized, wmul. rewrite wrap_small by lia.
  destruct (alloc place (sz T * n) (al T) h) as [[b h1]| | |] eqn:EA; try discriminate. assert (b = next h) by (injection EA; auto). subst b.
  apply alloc_added in EA. destruct EA as [Ad O1]. cbn [bind]. set (k0 := mkB (place h (sz T * n) (al T)) (sz T * n) (fun _ => None)) in *.
  assert (Al : (base k0 + 0) mod al T = 0) by (rewrite N.add_0_r; apply Cf; auto).
  destruct (trivial_ctor T) eqn:Tc.
  - destruct (zero_ok (next h) 0 (sz T * n) h1 k0) as [h3 [k2 [Z1 [Z2 [Z3 [Z4 [Z5 [Z6 Z7]]]]]]]]; [apply Ad|cbn; lia|]. rewrite Z1. cbn [bind].
    exists h3, k2. split; [reflexivity|]. split; [eapply added_at; eauto|]. split; [rewrite Z5; cbn; lia|]. split.
    + split; [rewrite Z5; cbn; lia|]. split; [now rewrite Z4|]. intros i r Hi Hr. unfold init_byte. rewrite Tc. rewrite <- N.add_assoc. apply Z7. nia.
    + unfold needs. rewrite (T5 eq_refl). rewrite Z3, O1. reflexivity.
  - destruct Hn as [Hn|Hn]; [discriminate|].
    destruct (construct_loop_ok (N.to_nat n) fuel T (next h) 0 0 n h1 k0) as [h3 [k2 [Z1 [Z2 [Z3 [Z4 [Z5 [Z6 Z7]]]]]]]]; auto; try lia; [apply Ad|cbn; lia|].
    rewrite Z1. cbn [bind]. exists h3, k2. split; [reflexivity|]. split; [eapply added_at; eauto|]. split; [rewrite Z5; cbn; lia|]. split.
    + split; [rewrite Z5; cbn; lia|]. split; [now rewrite Z4|]. intros i r Hi Hr. unfold init_byte. rewrite Tc. apply Z7; lia.
    + rewrite Z3, O1. reflexivity.
Qed.
Lemma delete_array_sized_ok : forall fuel T b n h k rest, blk h b = Some k -> (trivial_dtor T = true \/ n < 2 ^ 32) -> (N.to_nat n <= fuel)%nat ->
  Permutation (objs h) (needs T (elems T b 0 n) ++ rest) ->
  exists h', delete_array_sized fuel T (Some (b, 0)) n h = Ok h' /\ removed h h' b /\ Permutation (objs h') rest.
Proof.
  intros fuel T b n h k rest Hb Hn Hf P. unfold delete_array_sized. unfold needs in P. destruct (trivial_dtor T) eqn:E.
  - cbn [bind free]. rewrite Hb. cbn [N.eqb]. eexists. split; [reflexivity|]. split; [split; [reflexivity|split; [apply upd_same|intros; now apply upd_other]]|exact P].
  - destruct Hn as [Hn|Hn]; [discriminate|].
    destruct (destroy_loop_ok (N.to_nat n) fuel T b 0 0 n h rest) as [h' [D1 [D2 [D3 D4]]]]; auto; try lia. rewrite D1. cbn [bind free]. rewrite D2, Hb. cbn [N.eqb].
    eexists. split; [reflexivity|]. rewrite <- D2. split; [split; [exact D3|split; [apply upd_same|intros; cbn; rewrite upd_other by auto; now rewrite D2]]|exact D4].
Qed.

(* ---- new_t, delete_t ---- *)
Lemma new_t_ok : forall place T h, type_ok T -> conforming place -> exists h' k, new_t place T h = Ok ((next h, 0), h') /\ added h h' k /\ bsize k = sz T /\ base k mod al T = 0 /\
  (forall r, r < sz T -> byte k r = nth (N.to_nat r) (rep T) None) /\ objs h' = needs T [(next h, 0)] ++ objs h.
Proof.
  intros place T h Ty Cf. pose proof Ty as [T1 [T2 [T3 [T4 T5]]]]. unfold new_t.
  destruct (alloc place (sz T) (al T) h) as [[b h1]| | |] eqn:EA; try discriminate. assert (b = next h) by (injection EA; auto). subst b.
  apply alloc_added in EA. destruct EA as [Ad O1]. cbn [bind]. set (k0 := mkB (place h (sz T) (al T)) (sz T) (fun _ => None)) in *.
  destruct (construct_ok T (next h) 0 h1 k0 T4) as [h2 [k1 [C1 [C2 [C3 [C4 [C5 [C6 C7]]]]]]]]; [apply Ad|cbn; lia|rewrite N.add_0_r; apply Cf; auto|].
  rewrite C1. cbn [bind]. exists h2, k1. split; [reflexivity|]. split; [eapply added_at; eauto|]. split; [rewrite C5; reflexivity|]. split; [rewrite C4; apply Cf; auto|]. split; [exact C7|].
  now rewrite C3, O1.
Qed.
Lemma delete_t_ok : forall T b h k rest, blk h b = Some k -> Permutation (objs h) (needs T [(b, 0)] ++ rest) -> exists h', delete_t T (Some (b, 0)) h = Ok h' /\ removed h h' b /\ Permutation (objs h') rest.
Proof.
  intros T b h k rest Hb P. unfold delete_t. unfold needs in P. destruct (trivial_dtor T).
  - cbn [bind free]. rewrite Hb. cbn [N.eqb]. eexists. split; [reflexivity|]. split; [split; [reflexivity|split; [apply upd_same|intros; now apply upd_other]]|exact P].
  - unfold destroy. destruct (remove1_perm _ _ _ P) as [l' [R P']]. rewrite R. cbn [bind free blk]. rewrite Hb. cbn [N.eqb].
    eexists. split; [reflexivity|]. split; [split; [reflexivity|split; [apply upd_same|intros; cbn; now apply upd_other]]|exact P'].
Qed.

(* ---- string copy ---- *)
Lemma string_copy_ok : forall place s h, N.of_nat (length s) + 1 < 2 ^ 64 -> exists h' k, alloc_string_copy place s h = Ok ((next h, 0), h') /\ added h h' k /\ objs h' = objs h /\
  bsize k = N.of_nat (length s) + 1 /\ forall i, (i <= length s)%nat -> byte k (N.of_nat i) = Some (nth i s 0).
Proof.
  intros place s h H. unfold alloc_string_copy, wadd. rewrite wrap_small by lia.
  destruct (alloc place (N.of_nat (length s) + 1) 1 h) as [[b h1]| | |] eqn:EA; try discriminate. assert (b = next h) by (injection EA; auto). subst b.
  apply alloc_added in EA. destruct EA as [Ad O1]. cbn [bind]. set (k0 := mkB (place h (N.of_nat (length s) + 1) 1) (N.of_nat (length s) + 1) (fun _ => None)) in *.
  assert (E : exists h2 k1, (if 0 <? N.of_nat (length s) then store (next h) 0 (map Some s) h1 else Ok h1) = Ok h2 /\ added h h2 k1 /\ objs h2 = objs h /\ bsize k1 = bsize k0 /\
     forall i, (i < length s)%nat -> byte k1 (N.of_nat i) = Some (nth i s 0)).
  { destruct (0 <? N.of_nat (length s)) eqn:E0.
    - destruct (store_ok (next h) 0 (map Some s) h1 k0) as [h2 [k1 [S1 [S2 [S3 [S4 [S5 [S6 S7]]]]]]]]; [apply Ad|rewrite map_length; cbn; lia|].
      exists h2, k1. rewrite S1. split; [reflexivity|]. split; [eapply added_at; eauto|]. split; [congruence|]. split; auto. intros i Hi. rewrite map_length in S7.
      specialize (S7 (N.of_nat i) ltac:(lia)). cbn [N.add] in S7. rewrite S7, Nat2N.id. rewrite nth_indep with (d' := Some 0) by (rewrite map_length; lia). now rewrite map_nth.
    - apply N.ltb_ge in E0. exists h1, k0. split; [reflexivity|]. split; [exact Ad|]. split; [exact O1|]. split; auto. intros; lia. }
  destruct E as [h2 [k1 [E1 [E2 [E3 [E4 E5]]]]]]. rewrite E1. cbn [bind].
  destruct (store_ok (next h) (N.of_nat (length s)) [Some 0] h2 k1) as [h3 [k2 [S1 [S2 [S3 [S4 [S5 [S6 S7]]]]]]]]; [apply E2|rewrite E4; cbn; lia|]. rewrite S1. cbn [bind].
  exists h3, k2. split; [reflexivity|]. split; [eapply added_at; eauto|]. split; [congruence|]. split; [rewrite S5, E4; reflexivity|]. intros i Hi.
  destruct (Nat.eq_dec i (length s)) as [->|Ni].
  - rewrite nth_overflow by lia. rewrite <- (N.add_0_r (N.of_nat (length s))). rewrite S7 by (cbn; lia). reflexivity.
  - rewrite S6 by lia. apply E5. lia.
Qed.
Lemma data_copy_ok : forall place T d h, conforming place -> 0 < al T -> N.of_nat (length d) < 2 ^ 64 -> exists h' k, alloc_data_copy place T (Some d) h = Ok ((next h, 0), h') /\ added h h' k /\ objs h' = objs h /\
  bsize k = N.of_nat (length d) /\ base k mod al T = 0 /\ forall i, (i < length d)%nat -> byte k (N.of_nat i) = nth i d None.
Proof.
  intros place T d h Cf Ha H. unfold alloc_data_copy.
  destruct (alloc place (N.of_nat (length d)) (al T) h) as [[b h1]| | |] eqn:EA; try discriminate. assert (b = next h) by (injection EA; auto). subst b.
  apply alloc_added in EA. destruct EA as [Ad O1]. cbn [bind]. set (k0 := mkB (place h (N.of_nat (length d)) (al T)) (N.of_nat (length d)) (fun _ => None)) in *.
  destruct (store_ok (next h) 0 d h1 k0) as [h2 [k1 [S1 [S2 [S3 [S4 [S5 [S6 S7]]]]]]]]; [apply Ad|cbn; lia|]. rewrite S1. cbn [bind].
  exists h2, k1. split; [reflexivity|]. split; [eapply added_at; eauto|]. split; [congruence|]. split; [rewrite S5; reflexivity|]. split; [rewrite S4; apply Cf; auto|].
  intros i Hi. specialize (S7 (N.of_nat i) ltac:(lia)). cbn [N.add] in S7. now rewrite S7, Nat2N.id.
Qed.

(* ---- realloc ---- *)
Lemma copy_ok : forall d s len h kd ks, d <> s -> blk h d = Some kd -> blk h s = Some ks -> len <= bsize kd -> len <= bsize ks ->
  exists h' k', copy d 0 s 0 len h = Ok h' /\ at_ d k' h h' /\ objs h' = objs h /\ base k' = base kd /\ bsize k' = bsize kd /\ forall i, i < len -> byte k' i = byte ks i.
Proof.
  intros d s len h kd ks Nd Hd Hs L1 L2. unfold copy. rewrite Hd, Hs. rewrite !N.add_0_l. apply N.leb_le in L1, L2. rewrite L1, L2. cbn [andb]. eexists _, _. split; [reflexivity|].
  split; [split; [reflexivity|split; [apply upd_same|intros; cbn; now apply upd_other]]|]. cbn. repeat split. intros i Hi.
  replace (0 <=? i) with true by (symmetry; apply N.leb_le; lia). apply N.ltb_lt in Hi. rewrite Hi. cbn. f_equal. lia.
Qed.

Lemma realloc_ok : forall place gs b h k ns al, fresh h -> blk h b = Some k -> (forall h', blk h' b = Some k -> gs h' (b, 0) = Some (bsize k)) -> 0 < ns ->
  exists h' k', realloc place gs (Some (b, 0)) ns al h = Ok (Some (next h, 0), h') /\ next h' = S (next h) /\ blk h' (next h) = Some k' /\ blk h' b = None /\
    (forall j, j <> b -> j <> next h -> blk h' j = blk h j) /\ objs h' = objs h /\ bsize k' = ns /\ base k' = place h ns al /\
    forall i, i < N.min (bsize k) ns -> byte k' i = byte k i.
Proof.
  intros place gs b h k ns al_ Fr Hb Gs Hn. unfold realloc. apply N.ltb_lt in Hn. rewrite Hn.
  destruct (alloc place ns al_ h) as [[b' h1]| | |] eqn:EA; try discriminate. assert (b' = next h) by (injection EA; auto). subst b'.
  apply alloc_added in EA. destruct EA as [[A1 [A2 A3]] O1]. cbn [bind].
  assert (Nb : next h <> b). { intros E. rewrite <- E in Hb. rewrite Fr in Hb by lia. discriminate. }
  assert (Hb1 : blk h1 b = Some k) by (rewrite A3; auto). rewrite (Gs h1 Hb1).
  destruct (copy_ok (next h) b (N.min (bsize k) ns) h1 _ k Nb A2 Hb1) as [h2 [k2 [C1 [[C2 [C3 C4]] [C5 [C6 [C7 C8]]]]]]]; [cbn; lia|lia|]. rewrite C1. cbn [bind free].
  rewrite C4 by auto. rewrite Hb1. cbn [N.eqb bind]. eexists _, k2. split; [reflexivity|]. cbn [next blk objs]. split; [congruence|]. split; [rewrite upd_other by auto; auto|].
  split; [apply upd_same|]. split; [intros j J1 J2; rewrite upd_other by auto; rewrite C4, A3; auto|]. split; [congruence|]. split; [rewrite C7; reflexivity|]. split; [rewrite C6; reflexivity|exact C8].
Qed.
Lemma realloc_null : forall place gs ns al h, realloc place gs None ns al h = (if 0 <? ns then let! (b, h) := alloc place ns al h in Ok (Some (b, 0), h) else Ok (None, h)).
Proof. intros. unfold realloc. destruct (0 <? ns); reflexivity. Qed.
Lemma realloc_zero : forall place gs b k al h, blk h b = Some k -> exists h', realloc place gs (Some (b, 0)) 0 al h = Ok (None, h') /\ removed h h' b /\ objs h' = objs h.
Proof. intros. unfold realloc. cbn [N.ltb N.compare bind free]. rewrite H. cbn [N.eqb bind]. eexists. split; [reflexivity|]. split; auto. split; [reflexivity|split; [apply upd_same|intros; now apply upd_other]]. Qed.

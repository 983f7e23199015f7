(* Property C144: keys that are equal are found in sets and maps. *)
From Coq Require Import NArith ZArith List Bool Arith Lia Permutation.
From Verif Require Import Base HashModel HashSpec HashProofs SetModel SetSpec BucketProofs SetProofs SetProps KeysModel KeysProofs.
From Verif Require MapModel.
Import ListNotations.
Open Scope N_scope.

(* the key types that have a hash of their own or are compared by their bytes; fl: with floating point numbers *)
Inductive hashed (fl : bool) : key -> Prop :=
| h_word : hashed fl kword
| h_int t : (0 <= bits t)%Z -> hashed fl (kint t)
| h_bytes : hashed fl kbytes
| h_float f : fl = true -> hashed fl (kfloat f)
| h_str : hashed fl kstr
| h_seq k : hashed fl k -> hashed fl (kseq k)
| h_opt k : hashed fl k -> hashed fl (kopt k)
| h_pair a b : hashed fl a -> hashed fl b -> hashed fl (kpair a b)
| h_tuple l : all_hashed fl l -> hashed fl (ktuple l)
with all_hashed (fl : bool) : list key -> Prop :=
| h_nil : all_hashed fl []
| h_cons k l : hashed fl k -> all_hashed fl l -> all_hashed fl (k :: l).
Scheme hashed_m := Minimality for hashed Sort Prop with all_hashed_m := Minimality for all_hashed Sort Prop.

Theorem C144_equal_hashes : forall fl k, hashed fl k ->
  (forall a b, keq k a b = true -> khash k a = khash k b) /\
  (forall a b, keq k a b = true -> keq k b a = true) /\
  (forall a b c, keq k a b = true -> keq k b c = true -> keq k a c = true) /\
  (fl = false -> forall a, keq k a a = true).
Proof.
  intros fl. apply (hashed_m fl (fun k => (forall a b, keq k a b = true -> khash k a = khash k b) /\
    (forall a b, keq k a b = true -> keq k b a = true) /\ (forall a b c, keq k a b = true -> keq k b c = true -> keq k a c = true) /\
    (fl = false -> forall a, keq k a a = true))
    (fun l => (forall a b, tup_eq l a b = true -> tup_hashes l a = tup_hashes l b) /\
    (forall a b, tup_eq l a b = true -> tup_eq l b a = true) /\ (forall a b c, tup_eq l a b = true -> tup_eq l b c = true -> tup_eq l a c = true) /\
    (fl = false -> forall a, tup_eq l a a = true))).
  - cbn [keq khash kword kval]. split; [intros a b E; apply N.eqb_eq in E; exact E|]. split; [intros a b; rewrite N.eqb_sym; auto|]. split; [intros a b c E F; apply N.eqb_eq in E; apply N.eqb_eq in F; apply N.eqb_eq; congruence|]. intros _ a. apply N.eqb_refl.
  - intros t B. destruct (kint_lawful t B) as [R S T H]. cbn. repeat split; eauto.
  - cbn. split; [intros a b E; apply list_eqb_eq in E; congruence|]. split; [apply list_eq_sym; intros *; rewrite !N.eqb_eq; congruence|].
    split; [apply list_eq_trans; intros *; rewrite !N.eqb_eq; congruence|]. intros _ a. apply list_eq_refl. apply N.eqb_refl.
  - intros f F. cbn. unfold float_eq, hash_ieee. split; [|split; [|split]].
    + intros a b. destruct (is_nan f a), (is_nan f b); cbn [orb]; try discriminate. destruct (is_zero f a) eqn:Za; [intros ->; reflexivity|]. rewrite N.eqb_eq. intros ->. rewrite Za. reflexivity.
    + intros a b. destruct (is_nan f a), (is_nan f b); cbn [orb]; try discriminate. destruct (is_zero f a) eqn:Za; [intros ->; reflexivity|]. rewrite N.eqb_eq. intros ->. rewrite Za. apply N.eqb_refl.
    + intros a b c. destruct (is_nan f a), (is_nan f b), (is_nan f c); cbn [orb]; try discriminate. destruct (is_zero f a) eqn:Za; [intros ->; auto|]. rewrite N.eqb_eq. intros ->. rewrite Za. auto.
    + congruence.
  - cbn. split; [intros a b E; apply list_eqb_eq in E; congruence|]. split; [apply list_eq_sym; intros *; rewrite !N.eqb_eq; congruence|].
    split; [apply list_eq_trans; intros *; rewrite !N.eqb_eq; congruence|]. intros _ a. apply list_eq_refl. apply N.eqb_refl.
  - intros k _ (H & S & T & R). cbn. split; [apply hash_seq_eq; exact H|]. split; [apply list_eq_sym; exact S|]. split; [apply list_eq_trans; exact T|]. intros F. apply list_eq_refl. apply R. exact F.
  - intros k _ (H & S & T & R). cbn. split; [|split; [|split]].
    + intros [x|] [y|]; cbn; try discriminate; auto.
    + intros [x|] [y|]; cbn; try discriminate; auto.
    + intros [x|] [y|] [z|]; cbn; try discriminate; eauto.
    + intros F [x|]; cbn; auto.
  - intros a b _ (H & S & T & R) _ (H' & S' & T' & R'). cbn. split; [|split; [|split]].
    + intros [x1 x2] [y1 y2]; cbn. intros E. apply andb_prop in E as [E1 E2]. rewrite (H _ _ E1), (H' _ _ E2). reflexivity.
    + intros [x1 x2] [y1 y2]; cbn. intros E. apply andb_prop in E as [E1 E2]. rewrite (S _ _ E1), (S' _ _ E2). reflexivity.
    + intros [x1 x2] [y1 y2] [z1 z2]; cbn. intros E F. apply andb_prop in E as [E1 E2]. apply andb_prop in F as [F1 F2]. rewrite (T _ _ _ E1 F1), (T' _ _ _ E2 F2). reflexivity.
    + intros F [x1 x2]; cbn. rewrite (R F), (R' F). reflexivity.
  - intros l _ (H & S & T & R). cbn. split; [intros a b E; rewrite (H _ _ E); reflexivity|]. auto.
  - cbn. auto.
  - intros k l _ (H & S & T & R) _ (H' & S' & T' & R'). cbn. split; [|split; [|split]].
    + intros [x1 x2] [y1 y2]; cbn. intros E. apply andb_prop in E as [E1 E2]. rewrite (H _ _ E1), (H' _ _ E2). reflexivity.
    + intros [x1 x2] [y1 y2]; cbn. intros E. apply andb_prop in E as [E1 E2]. rewrite (S _ _ E1), (S' _ _ E2). reflexivity.
    + intros [x1 x2] [y1 y2] [z1 z2]; cbn. intros E F. apply andb_prop in E as [E1 E2]. apply andb_prop in F as [F1 F2]. rewrite (T _ _ _ E1 F1), (T' _ _ _ E2 F2). reflexivity.
    + intros F [x1 x2]; cbn. rewrite (R F), (R' F). reflexivity.
Qed.
Print Assumptions C144_equal_hashes.

(* so sets of these types are sets (C18), without floating point numbers *)
Theorem C144_sets : forall k, hashed false k -> forall os l results, N.of_nat (length os) < 2 ^ 62 -> ideal_run (keq k) [] os = Some (l, results) ->
  exists s, run (khash k) (keq k) init os = Ok (s, results) /\ size s = N.of_nat (length l) /\
    forall v, contains (khash k) (keq k) s v = Ok (existsb (fun e => keq k e v) l).
Proof.
  intros k H os l results B I. destruct (C144_equal_hashes false k H) as (E & S & T & R). assert (equiv_hash (keq k) (khash k)) as EH by (constructor; auto; exact (R eq_refl)).
  pose proof (C18_history (kval k) (khash k) (keq k) EH os B) as P. rewrite I in P. destruct P as (s & A & Z & _ & C). exists s. auto.
Qed.
Print Assumptions C144_sets.
Example C144_types : hashed false (kpair (kopt (kint (mkI 32 true))) (kseq (ktuple [kstr; kbytes; kword]))) /\
  keq (kpair (kfloat ieee_float) kstr) (0, [97]) (2 ^ 31, [97]) = true /\
  khash (kpair (kfloat ieee_float) kstr) (0, [97]) = khash (kpair (kfloat ieee_float) kstr) (2 ^ 31, [97]).
Proof. split; [repeat constructor; cbn; lia|]. split; vm_compute; reflexivity. Qed.

(* not a number: every add adds, nothing is found or removed *)
Theorem C144_nan_refuted : forall f v, is_nan f v = true -> keq (kfloat f) v v = false /\
  (forall s b, contains (khash (kfloat f)) (keq (kfloat f)) s v = Ok b -> b = false) /\
  (forall s s' b, add (khash (kfloat f)) (keq (kfloat f)) s (Val v) = Ok (s', b) -> b = true) /\
  (forall s s' b, remove (khash (kfloat f)) (keq (kfloat f)) s v = Ok (s', b) -> b = false).
Proof.
  intros f v N. assert (forall e, float_eq f e v = false) as X by (intros e; unfold float_eq; rewrite N, orb_true_r; reflexivity).
  assert (forall l, existsb (fun e => float_eq f e v) l = false) as Y by (induction l as [|e l IH]; cbn; [reflexivity|]; rewrite X, IH; reflexivity).
  cbn. split; [apply X|]. split; [|split].
  - intros s b. unfold contains. destruct (ssize s =? 0); [congruence|]. destruct (get_location _ _ _); cbn [bind]; try discriminate. destruct (aget _ _); cbn [bind]; try discriminate. rewrite Y. congruence.
  - intros s s' b. unfold add. destruct (if nbuckets s <=? ssize s then _ else _) as [[s1 v1]| | |] eqn:E; cbn [bind]; try discriminate.
    assert (v1 = v) as ->. { destruct (nbuckets s <=? ssize s); [destruct (reserve_ _ _ _); cbn in E; congruence|]. cbn in E. congruence. }
    destruct (get_location _ _ _); cbn [bind]; try discriminate. destruct (aget _ _); cbn [bind]; try discriminate. rewrite Y. destruct (aset _ _ _); cbn [bind]; congruence.
  - assert (forall l rest prev i r b, remove_loop (float_eq f) l prev i rest v = Ok (r, b) -> b = false) as Z.
    { intros l. induction rest as [|e rest IH]; intros prev i r b; cbn; [congruence|]. rewrite X. apply IH. }
    intros s s' b. unfold remove. destruct (ssize s =? 0); [congruence|]. destruct (get_location _ _ _); cbn [bind]; try discriminate. destruct (aget _ _) as [[|e l]| | |]; cbn [bind]; try discriminate; [congruence|].
    rewrite X. destruct (remove_loop _ _ _ _ _ _) as [[r c]| | |] eqn:E; cbn [bind]; try discriminate. rewrite (Z _ _ _ _ _ _ E). congruence.
Qed.
Print Assumptions C144_nan_refuted.
Example C144_nan : is_nan ieee_float 0x7fc00000 = true /\ exists s, run (khash (kfloat ieee_float)) (keq (kfloat ieee_float)) init [Add 0x7fc00000; Add 0x7fc00000; Contains 0x7fc00000; Remove 0x7fc00000] = Ok (s, [true; true; false; false]) /\ size s = 2.
Proof. split; [reflexivity|]. eexists. split; vm_compute; reflexivity. Qed.

(* string_view: equal texts have equal hashes only at the same address, and sets do not find them *)
Lemma word_le : forall n v, word_of (le n v) = v mod 256 ^ N.of_nat n.
Proof.
  induction n as [|n IH]; intros v; [cbn; rewrite N.mod_1_r; reflexivity|]. cbn [le word_of]. rewrite IH, Nat2N.inj_succ, N.pow_succ_r'. rewrite N.mod_mul_r; [reflexivity|lia|apply N.pow_nonzero; lia].
Qed.
Lemma view_hash : forall v, khash kview v = hash_combine2 (hash_combine2 0 (vaddr v mod 2 ^ 64)) (N.of_nat (length (vtext v)) mod 2 ^ 64).
Proof.
  intros v. cbn [khash kview]. unfold hash_bytes. rewrite app_length. change (length (le 8 (vaddr v)) + length (le 8 (N.of_nat (length (vtext v)))))%nat with 16%nat.
  change ((16 <=? 8)%nat) with false. cbv zeta. change (16 / 8)%nat with 2%nat. change (0 <? 16 - 2 * 8)%nat with false. cbv iota.
  change (words 2 (le 8 (vaddr v) ++ le 8 (N.of_nat (length (vtext v))))) with [word_of (le 8 (vaddr v)); word_of (le 8 (N.of_nat (length (vtext v))))].
  rewrite !word_le. reflexivity.
Qed.
Theorem C144_view_refuted :
  (forall a b, vaddr a < 2 ^ 64 -> vaddr b < 2 ^ 64 -> vaddr a <> vaddr b -> length (vtext a) = length (vtext b) -> khash kview a <> khash kview b) /\
  let a := mkView 0x1000 [97; 98] in let b := mkView 0x2001 [97; 98] in
  keq kview a b = true /\ exists s, run (khash kview) (keq kview) init [Add a; Contains a; Contains b; Add b; Remove a; Remove a] = Ok (s, [true; true; false; true; true; false]) /\ size s = 1.
Proof.
  split.
  - intros a b A B Ne L E. rewrite !view_hash, L in E. rewrite (N.mod_small (vaddr a)), (N.mod_small (vaddr b)) in E by assumption. apply Ne.
    apply (proj1 (proj2 (hc2_bij_r 0))); [exact A|exact B|]. revert E. apply (proj1 (proj2 (hc2_bij_l _))); apply hc2_word.
  - cbv zeta. split; [reflexivity|]. eexists. split; vm_compute; reflexivity.
Qed.
Print Assumptions C144_view_refuted.

(* values of more than eight bytes are read as words: undefined at other addresses, such as those of neighbours in an array *)
Theorem C144_words_partial : forall addr bs, (length bs <= 8)%nat \/ addr mod 8 = 0 -> hash_at addr bs = Ok (khash kbytes bs).
Proof.
  intros addr bs H. unfold hash_at. cbn [khash kbytes]. destruct (Nat.leb_spec (length bs) 8) as [L|L].
  - unfold hash_bytes. apply Nat.leb_le in L. rewrite L. reflexivity.
  - destruct H as [H|H]; [lia|]. rewrite H. reflexivity.
Qed.
Theorem C144_words_refuted : forall addr x y, length x = 12%nat -> length y = 12%nat -> hash_at addr x = UB \/ hash_at (addr + 12) y = UB.
Proof.
  intros addr x y X Y. unfold hash_at. rewrite X, Y. cbn [Nat.leb]. destruct (N.eqb_spec (addr mod 8) 0) as [E|E]; [right|left; reflexivity].
  assert ((addr + 12) mod 8 = 4) as ->; [|reflexivity]. rewrite N.add_mod, E by lia. reflexivity.
Qed.

Lemma filter_le : forall {A} (f : A -> bool) l, (length (filter f l) <= length l)%nat.
Proof. intros A f. induction l as [|x l IH]; cbn; [lia|]. destruct (f x); cbn; lia. Qed.
(* lookups with other integer types find exactly what is equal *)
Theorem C144_int_lookup : forall t u, (0 <= bits t)%Z -> forall os l bs, N.of_nat (length os) < 2 ^ 62 -> ideal_run (int_eq t t) [] os = Some (l, bs) ->
  exists s, run (int_hash t) (int_eq t t) init os = Ok (s, bs) /\
    (forall y, contains2 (int_hash t) (conv_to t) (int_eq t u) s y = Ok (existsb (fun x => int_eq t u x y) l)) /\
    ((forall v, In (Add v) os -> conv_to t v = v) -> forall y, exists s',
       remove2 (int_hash t) (conv_to t) (int_eq t u) s y = Ok (s', existsb (fun x => int_eq t u x y) l) /\
       forall x, conv_to t x = x -> contains (int_hash t) (int_eq t t) s' x = Ok (existsb (Z.eqb x) l && negb (int_eq t u x y))).
Proof.
  intros t u B os l bs Lt I. pose proof (kint_lawful t B) as EH.
  pose proof (run_spec (int_hash t) (int_eq t t) EH os init [] (init_rep _ _) ltac:(cbn [length]; lia)) as P. rewrite I in P. destruct P as (s & E & R).
  exists s. split; [exact E|]. split.
  - intros y. apply (contains2_spec (int_hash t) (int_eq t t)); [exact R|]. intros e He. apply (int_eq_hash t u); assumption.
  - intros V y. assert (Forall (fun v => conv_to t v = v) l) as Fv by exact (ideal_run_forall _ _ os [] l bs I (Forall_nil _) V). rewrite Forall_forall in Fv.
    assert (forall x z, conv_to t x = x -> conv_to t z = z -> int_eq t t x z = (x =? z)%Z) as Id.
    { intros x z Hx Hz. apply eq_true_iff_eq. rewrite Z.eqb_eq. split; [|intros ->; apply (eq_refl_ _ _ EH)]. intros J. exact (conv_val t x z Hx Hz (int_eq_mod t t x z B J)). }
    assert (forall x, conv_to t x = x -> existsb (fun e => int_eq t t e x) l = existsb (Z.eqb x) l) as Mx.
    { intros x Hx. apply eq_true_iff_eq. rewrite !existsb_exists. split; intros (e & J & K); exists e; (split; [exact J|]); rewrite Id in * by auto; rewrite Z.eqb_sym; exact K. }
    destruct (existsb (fun x => int_eq t u x y) l) eqn:X.
    + apply existsb_exists in X as (x0 & J & K). pose proof (Fv x0 J) as V0.
      assert (forall e, conv_to t e = e -> int_eq t u e y = int_eq t t e x0) as Pe.
      { intros e He. rewrite Id by auto. apply eq_true_iff_eq. rewrite Z.eqb_eq. split; [|intros ->; exact K]. intros Q. apply (conv_val t e x0 He V0). rewrite (int_eq_mod t u e y B Q), (int_eq_mod t u x0 y B K). reflexivity. }
      assert (remove2 (int_hash t) (conv_to t) (int_eq t u) s y = remove (int_hash t) (int_eq t t) s x0) as Er.
      { unfold remove2. apply remove_ext; [symmetry; apply (int_eq_hash t u); assumption|]. intros e Je. apply Pe. apply Fv. destruct R as [[Pm _] _]. exact (Permutation_in e Pm Je). }
      assert (N.of_nat (length l) < 2 ^ 62) as Ll.
      { assert (forall os l l' bs, ideal_run (int_eq t t) l os = Some (l', bs) -> (length l' <= length l + length os)%nat) as Len.
        { clear. induction os as [|o os IH]; intros l l' bs E; cbn in E; [injection E as <- _; cbn; lia|]. destruct (ideal_step _ l o) as [[l1 b]|] eqn:St; [|discriminate]. destruct (ideal_run _ l1 os) as [[l2 bs2]|] eqn:R; [|discriminate]. injection E as <- _.
          pose proof (IH _ _ _ R) as Q. assert (length l1 <= S (length l))%nat; [|cbn [length]; lia].
          destruct o as [v|v|v| |n]; cbn in St; [destruct (SetSpec.mem _ _ _)| | | |destruct n, l]; try discriminate; injection St as <- _; cbn [length]; try lia. pose proof (filter_le (fun e => negb (int_eq t t e v)) l). lia. }
        pose proof (Len os [] l bs I) as Q. cbn in Q. lia. }
      destruct (remove_spec (int_hash t) (int_eq t t) EH s l x0 R Ll) as (s' & E' & R').
      exists s'. rewrite Er, E'. split.
      * f_equal. f_equal. apply existsb_exists. exists x0. split; [exact J|apply (eq_refl_ _ _ EH)].
      * intros x Hx. rewrite (contains_spec (int_hash t) (int_eq t t) EH s' _ x R'). f_equal. rewrite (Pe x Hx). rewrite Id by auto. unfold SetSpec.mem.
        apply eq_true_iff_eq. rewrite andb_true_iff, !existsb_exists. split.
        -- intros (e & Je & Ke). apply filter_In in Je as [Je Ne]. pose proof (Fv e Je) as Ve. rewrite Id in Ke, Ne by auto. apply Z.eqb_eq in Ke. subst e. split; [exists x; split; [exact Je|apply Z.eqb_refl]|exact Ne].
        -- intros [(e & Je & Ke) Ne]. apply Z.eqb_eq in Ke. subst e. exists x. split; [|apply (eq_refl_ _ _ EH)]. apply filter_In. split; [exact Je|]. rewrite Id by auto. exact Ne.
    + exists s. split; [apply (remove2_none (int_hash t) (int_eq t t)) with (l := l); assumption|]. intros x Hx. rewrite (contains_spec (int_hash t) (int_eq t t) EH s l x R). f_equal. unfold SetSpec.mem. rewrite (Mx x Hx).
      destruct (existsb (Z.eqb x) l) eqn:Y; [|reflexivity]. apply existsb_exists in Y as (e & J & K). apply Z.eqb_eq in K. subst e. cbn [andb].
      destruct (int_eq t u x y) eqn:Q; [|reflexivity]. exfalso. assert (existsb (fun x => int_eq t u x y) l = true) as Z1 by (apply existsb_exists; eauto). congruence.
Qed.
Print Assumptions C144_int_lookup.
Example C144_int : let i32 := mkI 32 true in let u32 := mkI 32 false in let i64 := mkI 64 true in
  int_eq u32 i32 (2 ^ 32 - 1) (-1) = true /\ int_eq i64 u32 (-1) (2 ^ 32 - 1) = false /\ int_eq i32 i64 3 (2 ^ 32 + 3) = false /\
  exists s, run (int_hash u32) (int_eq u32 u32) init [Add (2 ^ 32 - 1)%Z; Add 3%Z] = Ok (s, [true; true]) /\
    contains2 (int_hash u32) (conv_to u32) (int_eq u32 i32) s (-1)%Z = Ok true /\ contains2 (int_hash u32) (conv_to u32) (int_eq u32 i64) s (-1)%Z = Ok false.
Proof. cbv zeta. split; [reflexivity|]. split; [reflexivity|]. split; [reflexivity|]. eexists. split; [vm_compute; reflexivity|]. split; vm_compute; reflexivity. Qed.

(* strings are found by views and literals, which are converted to strings *)
Theorem C144_string_lookup : forall os l bs, N.of_nat (length os) < 2 ^ 62 -> ideal_run (keq kstr) [] os = Some (l, bs) ->
  exists s, run (khash kstr) (keq kstr) init os = Ok (s, bs) /\
    forall v, contains2 (khash kstr) vtext (fun e v => list_eq N.eqb e (vtext v)) s v = Ok (existsb (fun e => list_eq N.eqb e (vtext v)) l).
Proof.
  intros os l bs Lt I. destruct (C144_equal_hashes false kstr (h_str false)) as (E & S & T & R). assert (equiv_hash (keq kstr) (khash kstr)) as EH by (constructor; auto; exact (R eq_refl)).
  pose proof (run_spec (khash kstr) (keq kstr) EH os init [] (init_rep _ _) ltac:(cbn [length]; lia)) as P. rewrite I in P. destruct P as (s & X & Rp).
  exists s. split; [exact X|]. intros v. apply (contains2_spec (khash kstr) (keq kstr) vtext (fun e v => list_eq N.eqb e (vtext v)) s l v Rp). intros e He. apply list_eqb_eq in He. rewrite He. reflexivity.
Qed.
Example C144_string : exists s, run (khash kstr) (keq kstr) init [Add [97; 98]] = Ok (s, [true]) /\
  contains2 (khash kstr) vtext (fun e v => list_eq N.eqb e (vtext v)) s (mkView 0x2001 [97; 98]) = Ok true.
Proof. eexists. split; vm_compute; reflexivity. Qed.

(* a float is equal to an integer of the set, but is not found *)
Theorem C144_float_lookup_refuted : let t := mkI 64 true in exists s, run (int_hash t) (int_eq t t) init [Add 16777217%Z] = Ok (s, [true]) /\
  float_int_eq 16777217 16777216 = true /\ contains2 (int_hash t) (conv_to t) float_int_eq s 16777216%Z = Ok false.
Proof. eexists. split; [vm_compute; reflexivity|]. split; vm_compute; reflexivity. Qed.

(* operator[] of maps with other integer types: as with the key type itself if the value does not change by conversion *)
Theorem C144_index_partial : forall V t u (dflt : V) m y, (0 <= bits t)%Z -> (forall e, In e (concat (MapModel.entries m)) -> conv_to t (MapModel.ekey e) = MapModel.ekey e) ->
  int_eq t u (conv_to t y) y = true ->
  index2 (int_hash t) (conv_to t) (int_eq t u) dflt m y = MapModel.index (int_hash t) (int_eq t t) dflt m (conv_to t y).
Proof.
  intros V t u dflt m0 y B Hv0 K. unfold index2, MapModel.index, MapModel.find_or_insert. destruct (MapModel.make_room (int_hash t) m0) as [m| | |] eqn:Mr; cbn [bind]; auto.
  assert (forall e, In e (concat (MapModel.entries m)) -> conv_to t (MapModel.ekey e) = MapModel.ekey e) as Hv by (intros e J; apply Hv0; exact (make_room_In _ _ _ Mr e J)). destruct (MapModel.get_location _ _ _) as [i| | |]; cbn [bind]; auto.
  destruct (aget (MapModel.entries m) _) as [l| | |] eqn:E; cbn [bind]; auto. apply aget_Ok in E.
  assert (forall e, In e l -> int_eq t u (MapModel.ekey e) y = MapModel.hit (int_eq t t) (conv_to t y) e) as Pe.
  { intros e J. assert (conv_to t (MapModel.ekey e) = MapModel.ekey e) as Ve by (apply Hv, in_concat; exists l; split; [exact (nth_error_In _ _ E)|exact J]). unfold MapModel.hit. apply eq_true_iff_eq. split; intros Q.
    - assert (MapModel.ekey e = conv_to t y) as ->; [|apply (eq_refl_ _ _ (kint_lawful t B))]. apply (conv_val t _ _ Ve (conv_conv t y B)). rewrite (int_eq_mod t u _ y B Q), conv_mod by lia. reflexivity.
    - assert (MapModel.ekey e = conv_to t y) as ->; [|exact K]. exact (conv_val t _ _ Ve (conv_conv t y B) (int_eq_mod t t _ _ B Q)). }
  assert (find (fun e => int_eq t u (MapModel.ekey e) y) l = find (MapModel.hit (int_eq t t) (conv_to t y)) l) as Fe.
  { clear E. induction l as [|e l IH]; [reflexivity|]. cbn [find]. rewrite (Pe e (or_introl eq_refl)). destruct (MapModel.hit _ _ e); [reflexivity|]. apply IH. intros x J. apply Pe. right. exact J. }
  rewrite Fe. reflexivity.
Qed.
(* otherwise every use adds an entry with the same key *)
Theorem C144_index_refuted : let t := mkI 32 true in let u := mkI 64 true in let ix := index2 (int_hash t) (conv_to t) (int_eq t u) 0 in
  exists m1 m2 p1 p2, ix MapModel.init (2 ^ 32 + 3)%Z = Ok (m1, p1) /\ ix m1 (2 ^ 32 + 3)%Z = Ok (m2, p2) /\ p1 <> p2 /\ MapModel.size m2 = 2 /\
    map MapModel.ekey (concat (MapModel.entries m2)) = [3%Z; 3%Z].
Proof. do 4 eexists. split; [vm_compute; reflexivity|]. split; [vm_compute; reflexivity|]. split; [discriminate|]. split; vm_compute; reflexivity. Qed.
Example C144_index : let t := mkI 32 true in let u := mkI 64 true in
  index2 (int_hash t) (conv_to t) (int_eq t u) 0 (MapModel.mkMap [[]; []; []; []] 0 0) (-3)%Z = MapModel.index (int_hash t) (int_eq t t) 0 (MapModel.mkMap [[]; []; []; []] 0 0) (-3)%Z /\
  int_eq t u (conv_to t (-3)) (-3) = true.
Proof. split; vm_compute; reflexivity. Qed.

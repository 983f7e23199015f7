(* Theorems about hash functions (C64, C92, C93). *)
From Coq Require Import NArith List Bool Arith Lia.
From Verif Require Import Base HashModel HashSpec HashProofs.
From Verif Require SetModel.
Import ListNotations.
Open Scope N_scope.

(* for every number of arguments: as a function of any one of them, hash_combine is a bijection of the words *)
Theorem C64_combine_bijective : forall before after, word_bijection (fun x => hash_combine (before ++ x :: after)).
Proof. exact combine_bij. Qed.
(* the hash of a vector, array or string depends on the hashes of the elements only, and on each of them *)
Theorem C64_sequence : forall T U (h : T -> N) (g : U -> N) l k, map h l = map g k -> hash_seq h l = hash_seq g k.
Proof. intros T U h g l k E. rewrite !hash_seq_map. now rewrite E. Qed.
Theorem C64_sequence_each : forall T (h : T -> N) l1 x y l2, word (h x) -> word (h y) ->
  (hash_seq h (l1 ++ x :: l2) = hash_seq h (l1 ++ y :: l2) <-> h x = h y).
Proof.
  intros T h l1 x y l2 Hx Hy. split; [now apply hash_seq_one|]. intro E. apply C64_sequence. rewrite !map_app. cbn. now rewrite E.
Qed.
Theorem C64_string_each : forall s1 c d s2, byte c -> byte d -> hash_string (s1 ++ c :: s2) = hash_string (s1 ++ d :: s2) -> c = d.
Proof.
  intros s1 c d s2 Hc Hd E. apply char_word_inj; auto. apply (hash_seq_one N char_word s1 c d s2); auto using char_word_word.
Qed.
(* plain values: equal bytes give equal hashes (a function of the bytes), one changed byte changes the hash, and up to
   8 bytes different values have different hashes *)
Theorem C64_bytes_each : forall l1 x y l2, Forall byte (l1 ++ x :: l2) -> byte y ->
  hash_bytes (l1 ++ x :: l2) = hash_bytes (l1 ++ y :: l2) -> x = y.
Proof. exact hash_bytes_one. Qed.
Theorem C64_bytes_small : forall a b, Forall byte a -> Forall byte b -> length a = length b -> (length a <= 8)%nat -> hash_bytes a = hash_bytes b -> a = b.
Proof.
  intros a b Fa Fb L L8 E. unfold hash_bytes in E. rewrite <- L, (proj2 (Nat.leb_le _ _) L8) in E. now apply word_of_inj.
Qed.
Theorem C64_bytes_word : forall bs, Forall byte bs -> word (hash_bytes bs).
Proof. exact hash_bytes_word. Qed.
(* float and double: the hashes agree exactly if the numbers are equal (so +0 and -0 agree) or both are NaN *)
Theorem C64_floating_point : forall f a b, f = ieee_float \/ f = ieee_double -> a < 2 ^ width f -> b < 2 ^ width f ->
  (hash_ieee f a = hash_ieee f b <->
   ieee_equal (width f) (mant f) a b \/ (not_a_number (width f) (mant f) a /\ not_a_number (width f) (mant f) b)).
Proof. exact hash_ieee_iff. Qed.

(* C92.  stringhash hashes the characters in front of the terminator *)
Theorem C92_stringhash : forall s behind, ~ In 0 s -> stringhash (Some (s ++ 0 :: behind)) = Ok (hash_combine (hash_combine [] :: map char_word s)).
Proof. exact stringhash_eq. Qed.
(* stringhash_n agrees with it on the first n characters if n > 0 and a further character can be read, or the terminator
   comes first.  Full statement: for all n and without the further character; refuted below. *)
Theorem C92_prefix_partial : forall s c behind n, ~ In 0 s -> (0 < n)%nat -> length s = n \/ c = 0 /\ (length s <= n)%nat ->
  stringhash_n (Some (s ++ c :: behind)) n = stringhash (Some (s ++ [0])).
Proof.
  intros s c behind n H P L. rewrite stringhash_eq by auto. unfold stringhash_n. destruct (Nat.eqb_spec n 0); [lia|].
  rewrite stringhash_n_loop_eq by auto. now rewrite combine_fold.
Qed.
Theorem C92_overread_refuted : forall s, ~ In 0 s -> s <> [] -> stringhash_n (Some s) (length s) = UB.
Proof.
  intros s H NE. unfold stringhash_n. destruct (Nat.eqb_spec (length s) 0) as [E|E]; [destruct s; [contradiction|discriminate]|]. now apply stringhash_n_over.
Qed.
Theorem C92_empty_refuted : forall m, exists h, stringhash (Some [0]) = Ok h /\ stringhash_n (Some m) 0 <> Ok h.
Proof. intro m. exists (hash_combine []). split; [reflexivity|discriminate]. Qed.

(* C93.  In a set with 2^k buckets values whose hashes differ in the last k bits are in different buckets: 2^k consecutive
   integers fill 2^k buckets *)
Theorem C93_integers_partial : forall T (h : T -> N) es u v k, length es = (2 ^ k)%nat -> (k <= 64)%nat -> word (h u) -> word (h v) ->
  SetModel.get_location h es u = SetModel.get_location h es v -> h u mod 2 ^ N.of_nat k = h v mod 2 ^ N.of_nat k.
Proof.
  intros T h es u v k L K Hu Hv E. rewrite !(set_bucket T h es _ k) in E by auto. injection E as E. apply mod_inj in E; auto. lia.
Qed.
(* all positive integers below 2^j, as doubles, are in one bucket as long as there are at most 2^(53-j) buckets: with a
   million of them any set that add makes has one chain *)
Theorem C93_doubles_refuted : forall (es : list (list N)) j k m n, length es = (2 ^ k)%nat -> N.of_nat k <= 53 - j -> j <= 53 ->
  0 < m -> m < 2 ^ j -> 0 < n -> n < 2 ^ j ->
  SetModel.get_location (hash_ieee ieee_double) es (double_of m) = SetModel.get_location (hash_ieee ieee_double) es (double_of n).
Proof.
  intros es j k m n L K J Hm Lm Hn Ln. assert (J53 : 2 ^ j <= 2 ^ 53) by (apply N.pow_le_mono_r; [discriminate|auto]).
  destruct (double_of_low j m Hm Lm J) as (q & Q & Bq). destruct (double_of_low j n Hn Ln J) as (r & R & Br).
  assert (B63 : 2 ^ 63 < 2 ^ 64) by reflexivity.
  rewrite !(set_bucket _ _ es _ k); try lia; auto; try (rewrite double_hash by lia; unfold word; lia).
  rewrite !double_hash by lia. f_equal.
  assert (E : forall d, d * 2 ^ (53 - j) = d * 2 ^ (53 - j - N.of_nat k) * 2 ^ N.of_nat k).
  { intro d. rewrite <- N.mul_assoc, <- N.pow_add_r. do 2 f_equal. lia. }
  assert (P : 2 ^ N.of_nat k <> 0) by (apply N.pow_nonzero; discriminate).
  assert (Z : forall d, (d * 2 ^ (53 - j) * M + C) mod 2 ^ N.of_nat k = C mod 2 ^ N.of_nat k).
  { intro d. rewrite E. rewrite N.add_comm. replace (d * 2 ^ (53 - j - N.of_nat k) * 2 ^ N.of_nat k * M) with (d * 2 ^ (53 - j - N.of_nat k) * M * 2 ^ N.of_nat k) by lia. now apply N.mod_add. }
  rewrite Q, R, !Z. reflexivity.
Qed.

Example C64_ex : hash_combine [1; 2; 3] = 7705477541990093472 /\ hash_combine [1; 3; 2] <> hash_combine [1; 2; 3] /\ hash_combine [] = 0x2a5114b5c6133408.
Proof. vm_compute. split; [reflexivity|split; [discriminate|reflexivity]]. Qed.
Example C64_ex_bytes : hash_bytes [1; 0; 0; 0] = 1 /\ hash_bytes [1; 0; 0; 0; 0; 0; 0; 0; 2; 0; 0; 0] = hash_combine [hash_combine [0; 1]; 2].
Proof. vm_compute. auto. Qed.
(* 1.0, -0.0 and 0.0, two NaNs *)
Example C64_ex_double : hash_ieee ieee_double 0x3ff0000000000000 = 0x3ff0000000000000 /\ hash_ieee ieee_double (2 ^ 63) = hash_ieee ieee_double 0 /\
  hash_ieee ieee_double 0x7ff8000000000000 = hash_ieee ieee_double 0xfff8000000000001 /\ double_of 1 = 0x3ff0000000000000 /\ double_of 3 = 0x4008000000000000.
Proof. vm_compute. auto. Qed.
Example C92_ex : stringhash (Some [97; 98; 0; 5]) = Ok (hash_combine [hash_combine []; 97; 98]) /\ stringhash_n (Some [97; 98; 99]) 2 = stringhash (Some [97; 98; 0]) /\
  stringhash_n (Some [97; 98; 99]) 3 = UB.
Proof. vm_compute. auto. Qed.
Example C93_ex : map (SetModel.get_location (fun x => x) (repeat [] 4)) [0; 1; 2; 3] = [Ok 3; Ok 0; Ok 1; Ok 2] /\
  map (fun n => SetModel.get_location (hash_ieee ieee_double) (repeat [] 4) (double_of n)) [1; 2; 3; 4; 1000; 1000000] = repeat (Ok 3) 6.
Proof. vm_compute. auto. Qed.

Print Assumptions C64_combine_bijective.
Print Assumptions C64_sequence.
Print Assumptions C64_sequence_each.
Print Assumptions C64_string_each.
Print Assumptions C64_bytes_each.
Print Assumptions C64_bytes_small.
Print Assumptions C64_bytes_word.
Print Assumptions C64_floating_point.
Print Assumptions C92_stringhash.
Print Assumptions C92_prefix_partial.
Print Assumptions C92_overread_refuted.
Print Assumptions C92_empty_refuted.
Print Assumptions C93_integers_partial.
Print Assumptions C93_doubles_refuted.

(* Theorems about the utilities of cc::allocator (C71). *)
From Coq Require Import NArith List Bool Arith Lia Permutation.
From Verif Require Import Base AArrModel AArrSpec AArrProofs.
Import ListNotations.
Open Scope N_scope.

(* room for the count, and a whole number of elements *)
Theorem C71_padding : forall e, 0 < e -> 8 <= get_array_padding e /\ get_array_padding e mod e = 0 /\ get_array_padding e <= e + 8.
Proof. exact padding_ok. Qed.

(* new_array: one new block of exactly the right size, the count in front, n aligned and initialized elements that do not
   overlap it; nothing else changes.  Holds if the size does not overflow, the address suits a size_t and, for a type with a
   constructor, n is below 2^32. *)
Theorem C71_new_array_partial : forall place fuel T n h, type_ok T -> conforming place -> (forall s, place h s (al T) mod 8 = 0) -> fits T n ->
  (trivial_ctor T = true \/ n < 2 ^ 32) -> (N.to_nat n <= fuel)%nat ->
  let p := get_array_padding (sz T) in
  exists h' k, new_array place fuel T n h = Ok ((next h, p), h') /\ added h h' k /\ bsize k = p + n * sz T /\ counted k n /\ holds T p n k /\
    Permutation (objs h') (needs T (elems T (next h) p n) ++ objs h).
Proof. exact new_array_ok. Qed.
(* delete_array of any array with that count destroys exactly its elements and frees exactly its block *)
Theorem C71_delete_array_partial : forall fuel T b n h k rest, type_ok T -> blk h b = Some k -> counted k n -> (trivial_dtor T = true \/ n < 2 ^ 32) -> (N.to_nat n <= fuel)%nat ->
  let p := get_array_padding (sz T) in
  Permutation (objs h) (needs T (elems T b p n) ++ rest) ->
  exists h', delete_array fuel T (Some (b, p)) h = Ok h' /\ removed h h' b /\ Permutation (objs h') rest.
Proof. exact delete_array_ok. Qed.
(* so that creating, using in any way, and deleting an array leaves the heap as it was *)
Theorem C71_roundtrip_partial : forall place fuel T n h, type_ok T -> conforming place -> (forall s, place h s (al T) mod 8 = 0) -> fits T n ->
  (trivial_ctor T = true \/ n < 2 ^ 32) -> (N.to_nat n <= fuel)%nat -> fresh h ->
  exists ptr h1, new_array place fuel T n h = Ok (ptr, h1) /\
    forall h2, touched (fst ptr) (snd ptr) h1 h2 ->
    exists h3, delete_array fuel T (Some ptr) h2 = Ok h3 /\ (forall j, blk h3 j = blk h j) /\ Permutation (objs h3) (objs h).
Proof. exact roundtrip. Qed.
Theorem C71_new_array_sized_partial : forall place fuel T n h, type_ok T -> conforming place -> sz T * n < 2 ^ 64 -> (trivial_ctor T = true \/ n < 2 ^ 32) -> (N.to_nat n <= fuel)%nat ->
  exists h' k, new_array_sized place fuel T n h = Ok ((next h, 0), h') /\ added h h' k /\ bsize k = n * sz T /\ holds T 0 n k /\
    Permutation (objs h') (needs T (elems T (next h) 0 n) ++ objs h).
Proof. exact new_array_sized_ok. Qed.
Theorem C71_delete_array_sized_partial : forall fuel T b n h k rest, blk h b = Some k -> (trivial_dtor T = true \/ n < 2 ^ 32) -> (N.to_nat n <= fuel)%nat ->
  Permutation (objs h) (needs T (elems T b 0 n) ++ rest) ->
  exists h', delete_array_sized fuel T (Some (b, 0)) n h = Ok h' /\ removed h h' b /\ Permutation (objs h') rest.
Proof. exact delete_array_sized_ok. Qed.
Theorem C71_new_t : forall place T h, type_ok T -> conforming place -> exists h' k, new_t place T h = Ok ((next h, 0), h') /\ added h h' k /\ bsize k = sz T /\ base k mod al T = 0 /\
  (forall r, r < sz T -> byte k r = nth (N.to_nat r) (rep T) None) /\ objs h' = needs T [(next h, 0)] ++ objs h.
Proof. exact new_t_ok. Qed.
Theorem C71_delete_t : forall T b h k rest, blk h b = Some k -> Permutation (objs h) (needs T [(b, 0)] ++ rest) ->
  exists h', delete_t T (Some (b, 0)) h = Ok h' /\ removed h h' b /\ Permutation (objs h') rest.
Proof. exact delete_t_ok. Qed.
(* deleting null does nothing *)
Theorem C71_delete_null : forall fuel T n h, delete_t T None h = Ok h /\ delete_array fuel T None h = Ok h /\ delete_array_sized fuel T None n h = Ok h.
Proof. repeat split. Qed.

(* copies *)
Theorem C71_string_copy_partial : forall place s h, N.of_nat (length s) + 1 < 2 ^ 64 -> exists h' k, alloc_string_copy place s h = Ok ((next h, 0), h') /\ added h h' k /\ objs h' = objs h /\
  bsize k = N.of_nat (length s) + 1 /\ forall i, (i <= length s)%nat -> byte k (N.of_nat i) = Some (nth i s 0).
Proof. exact string_copy_ok. Qed.
Theorem C71_data_copy_partial : forall place T d h, conforming place -> 0 < al T -> N.of_nat (length d) < 2 ^ 64 -> exists h' k, alloc_data_copy place T (Some d) h = Ok ((next h, 0), h') /\ added h h' k /\ objs h' = objs h /\
  bsize k = N.of_nat (length d) /\ base k mod al T = 0 /\ forall i, (i < length d)%nat -> byte k (N.of_nat i) = nth i d None.
Proof. exact data_copy_ok. Qed.

(* the default realloc: the common prefix is kept, the old block is freed *)
Theorem C71_realloc : forall place gs b h k ns al, fresh h -> blk h b = Some k -> (forall h', blk h' b = Some k -> gs h' (b, 0) = Some (bsize k)) -> 0 < ns ->
  exists h' k', realloc place gs (Some (b, 0)) ns al h = Ok (Some (next h, 0), h') /\ next h' = S (next h) /\ blk h' (next h) = Some k' /\ blk h' b = None /\
    (forall j, j <> b -> j <> next h -> blk h' j = blk h j) /\ objs h' = objs h /\ bsize k' = ns /\ base k' = place h ns al /\
    forall i, i < N.min (bsize k) ns -> byte k' i = byte k i.
Proof. exact realloc_ok. Qed.
Theorem C71_realloc_null : forall place gs ns al h, realloc place gs None ns al h = (if 0 <? ns then let! (b, h) := alloc place ns al h in Ok (Some (b, 0), h) else Ok (None, h)).
Proof. exact realloc_null. Qed.
Theorem C71_realloc_zero : forall place gs b k al h, blk h b = Some k -> exists h', realloc place gs (Some (b, 0)) 0 al h = Ok (None, h') /\ removed h h' b /\ objs h' = objs h.
Proof. exact realloc_zero. Qed.
(* an allocator that does not know its sizes cannot use it *)
Theorem C71_realloc_contract : forall place gs p ns al h, (forall h p, gs h p = None) -> 0 < ns -> realloc place gs (Some p) ns al h = Contract.
Proof. intros place gs [b o] ns al_ h G Hn. unfold realloc. apply N.ltb_lt in Hn. rewrite Hn. cbn [alloc bind]. now rewrite G. Qed.

(* the loop counter has 32 bits: with 2^32 or more elements the constructors never end, however much memory there is *)
Theorem C71_new_array_hangs_refuted : forall place T n h, type_ok T -> conforming place -> (forall s, place h s (al T) mod 8 = 0) -> fits T n ->
  trivial_ctor T = false -> 2 ^ 32 <= n -> forall fuel, new_array place fuel T n h = OutOfFuel.
Proof. intros; now apply new_array_inf. Qed.

Definition place16 : policy := fun h _ _ => 4096 * (1 + N.of_nat (next h)).
Definition empty_heap : heap := mkH (fun _ => None) 0 [].
Definition u64 : ty := mkT 8 8 true true (repeat (Some 0) 8).
Definition chr : ty := mkT 1 1 true true [Some 0].
(* the size computation wraps around: an "array" of 2^61 elements in a block of 8 bytes *)
Theorem C71_overflow_refuted : exists h' k, new_array place16 0 u64 (2 ^ 61) empty_heap = Ok ((0%nat, 8), h') /\ blk h' 0 = Some k /\ bsize k = 8.
Proof. eexists _, _. split; [vm_compute; reflexivity|]. split; [cbn; reflexivity|]. vm_compute. reflexivity. Qed.
Theorem C71_overflow_ub_refuted : new_array place16 0 u64 (2 ^ 61 - 1) empty_heap = UB.
Proof. vm_compute. reflexivity. Qed.
(* the count is written to memory requested with the alignment of T only *)
Theorem C71_misaligned_refuted : exists place, conforming place /\ forall n, 0 < n -> n < 2 ^ 32 -> new_array place 0 chr n empty_heap = UB.
Proof.
  exists (fun _ _ a => a * 4097). split.
  - intros h s a Ha. rewrite N.mul_comm. apply N.mod_mul. lia.
  - intros n H1 H2. reflexivity.
Qed.
(* memcpy from nullptr *)
Theorem C71_empty_span_refuted : forall place T h, alloc_data_copy place T None h = UB.
Proof. reflexivity. Qed.

(* a type with constructor and destructor, three of them *)
Definition obj3 : ty := mkT 3 1 false false [Some 7; Some 8; Some 9].
Example C71_ex : type_ok obj3 /\ get_array_padding 3 = 9 /\ fits obj3 3 /\
  match new_array place16 3 obj3 3 empty_heap with
  | Ok (p, h1) => p = (0%nat, 9) /\ length (objs h1) = 3%nat /\ load 0 9 9 h1 = Ok [Some 7; Some 8; Some 9; Some 7; Some 8; Some 9; Some 7; Some 8; Some 9] /\ load_size 0 0 h1 = Ok 3 /\
      match delete_array 3 obj3 (Some p) h1 with Ok h2 => objs h2 = [] /\ blk h2 0 = None | _ => False end
  | _ => False
  end.
Proof. vm_compute. repeat split; auto; discriminate. Qed.

Print Assumptions C71_padding.
Print Assumptions C71_new_array_partial.
Print Assumptions C71_delete_array_partial.
Print Assumptions C71_roundtrip_partial.
Print Assumptions C71_new_array_sized_partial.
Print Assumptions C71_delete_array_sized_partial.
Print Assumptions C71_new_t.
Print Assumptions C71_delete_t.
Print Assumptions C71_delete_null.
Print Assumptions C71_string_copy_partial.
Print Assumptions C71_data_copy_partial.
Print Assumptions C71_realloc.
Print Assumptions C71_realloc_null.
Print Assumptions C71_realloc_zero.
Print Assumptions C71_realloc_contract.
Print Assumptions C71_new_array_hangs_refuted.
Print Assumptions C71_overflow_refuted.
Print Assumptions C71_overflow_ub_refuted.
Print Assumptions C71_misaligned_refuted.
Print Assumptions C71_empty_span_refuted.

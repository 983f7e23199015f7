(* Model of src/clean-core/hash_combine.hh, hash.hh, stringhash.hh and the hash functions of the containers. *)
From Coq Require Import NArith Arith List.
From Verif Require Import Base.
Import ListNotations.
Open Scope N_scope.

(* hash_combine.hh:7 *)
Definition hash_combine0 : N := 0x2a5114b5c6133408.
(* hash_combine.hh:8 *)
Definition hash_combine1 (a : N) : N := a.
(* hash_combine.hh:9 *)
Definition hash_combine2 (a b : N) : N := wadd 64 (wadd 64 (wmul 64 a 6364136223846793005) b) 0xda3e39cb94b95bdb.
(* hash_combine.hh:11-18: the fold expression runs left to right *)
Definition hash_combine3 (a b c : N) (rest : list N) : N :=
  let h := hash_combine2 a b in
  let h := hash_combine2 h c in
  fold_left (fun h r => hash_combine2 h r) rest h.
(* overload selection by argument count *)
Definition hash_combine (args : list N) : N :=
  match args with
  | [] => hash_combine0
  | [a] => hash_combine1 a
  | [a; b] => hash_combine2 a b
  | a :: b :: c :: rest => hash_combine3 a b c rest
  end.


(* ---- hash functions built from it ---- *)

(* little-endian word of the bytes: memcpy into a zeroed uint64_t *)
Fixpoint word_of (bs : list N) : N := match bs with [] => 0 | b :: bs => b + 256 * word_of bs end.
(* hash.hh:22-50 hash<T> of the object representation of a trivially copyable value without padding;
   wcnt full words, then the rest, both by position *)
Fixpoint words (wcnt : nat) (bs : list N) : list N :=
  match wcnt with O => [] | S k => word_of (firstn 8 bs) :: words k (skipn 8 bs) end.
Definition hash_bytes (bs : list N) : N :=
  if (length bs <=? 8)%nat then word_of bs
  else
    let wcnt := (length bs / 8)%nat in
    let rest_size := (length bs - wcnt * 8)%nat in
    let r := fold_left hash_combine2 (words wcnt bs) 0 in
    if (0 <? rest_size)%nat then hash_combine2 r (word_of (skipn (wcnt * 8) bs)) else r.

(* vector.hh:149-158, array.hh:275-284, alloc_vector.hh:127-136, vector_ex.hh:117-126, with hash<T>{} as h *)
Definition hash_seq {T} (h : T -> N) (l : list T) : N := fold_left (fun r v => hash_combine2 r (h v)) l 0.
(* sbo_string.hh:789-799: char is signed and converted to uint64_t *)
Definition char_word (c : N) : N := if c <? 128 then c else 2 ^ 64 - 256 + c.
Definition hash_string (s : list N) : N := fold_left (fun r c => hash_combine2 r (char_word c)) s 0.
(* pair.hh:33-39, tuple.hh:95-99, hash.hh:82-88 make_hash: hash_combine of the hashes of the parts *)
Definition hash_parts (hs : list N) : N := hash_combine hs.
(* optional.hh:373-383 *)
Definition hash_optional {T} (h : T -> N) (o : option T) : N :=
  match o with Some v => h v | None => 0x7132ae00db5bc3bb end.

(* hash.hh:99-137: the bits of a float (32) or double (64); value == 0 and value != value by IEEE 754 *)
Record ieee := mkIeee { width : N; mant : N; nan_hash : N }.
Definition ieee_float : ieee := mkIeee 32 23 0xFFFFFFFFFFFF1234.
Definition ieee_double : ieee := mkIeee 64 52 0xFFFFFFFFFFFF5678.
Definition magnitude (f : ieee) (bits : N) : N := bits mod 2 ^ (width f - 1).
Definition is_zero (f : ieee) (bits : N) : bool := magnitude f bits =? 0.
Definition inf (f : ieee) : N := 2 ^ (width f - 1) - 2 ^ mant f.
Definition is_nan (f : ieee) (bits : N) : bool := inf f <? magnitude f bits.
Definition hash_ieee (f : ieee) (bits : N) : N :=
  if is_zero f bits then 0 else if is_nan f bits then nan_hash f else bits.

(* stringhash.hh:7-19: a pointer is null or points to bytes, the last of which is the terminator *)
Fixpoint stringhash_loop (m : list N) (h : N) : outcome N :=
  match m with
  | [] => UB
  | c :: m => if c =? 0 then Ok h else stringhash_loop m (hash_combine2 h (char_word c))
  end.
Definition stringhash (s : option (list N)) : outcome N :=
  match s with None => Ok 0 | Some m => stringhash_loop m (hash_combine []) end.
(* stringhash.hh:21-34: reads *s before n is compared *)
Fixpoint stringhash_n_loop (m : list N) (n : nat) (h : N) : outcome N :=
  match m with
  | [] => UB
  | c :: m => if c =? 0 then Ok h
              else match n with O => Ok h | S n => stringhash_n_loop m n (hash_combine2 h (char_word c)) end
  end.
Definition stringhash_n (s : option (list N)) (n : nat) : outcome N :=
  match s with
  | None => Ok 0
  | Some m => if (n =? 0)%nat then Ok 0 else stringhash_n_loop m n (hash_combine [])
  end.

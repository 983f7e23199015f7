(* Model of the key types of set and map (src/clean-core/hash.hh, equal_to.hh, fwd.hh 64-67): the == and the cc::hash of each
   type, and lookups with values of other types (set.hh, map.hh). Tables and their operations are those of SetModel.v and
   MapModel.v. *)
From Coq Require Import NArith ZArith List Bool Arith.
From Verif Require Import Base HashModel SetModel.
From Verif Require MapModel.
Import ListNotations.
Open Scope N_scope.

(* a type with equal_to<void> (equal_to.hh:18-26) and hash<T> *)
Record key := mkKey { kval : Type; keq : kval -> kval -> bool; khash : kval -> N }.

Fixpoint list_eq {A} (eq : A -> A -> bool) (a b : list A) : bool :=
  match a, b with
  | [], [] => true
  | x :: a, y :: b => eq x y && list_eq eq a b
  | _, _ => false
  end.

(* bools, characters, enums and pointers: the value (hash.hh:25-29) *)
Definition kword : key := mkKey N N.eqb (fun v => v).
(* structs without padding whose == compares all members (hash.hh:22-53) *)
Definition kbytes : key := mkKey (list N) (list_eq N.eqb) hash_bytes.
(* hash.hh:99-137; == of IEEE 754 *)
Definition float_eq (f : ieee) (a b : N) : bool :=
  if is_nan f a || is_nan f b then false else if is_zero f a then is_zero f b else a =? b.
Definition kfloat (f : ieee) : key := mkKey N (float_eq f) (hash_ieee f).
(* sbo_string.hh:788-799 *)
Definition kstr : key := mkKey (list N) (list_eq N.eqb) hash_string.
(* vector.hh:148-158, array.hh:274-284, alloc_vector.hh:126-136, vector_ex.hh:116-126 *)
Definition kseq (k : key) : key := mkKey (list (kval k)) (list_eq (keq k)) (hash_seq (khash k)).
(* optional.hh:317-323, 373-383 *)
Definition opt_eq {A} (eq : A -> A -> bool) (a b : option A) : bool :=
  match a, b with Some x, Some y => eq x y | None, None => true | _, _ => false end.
Definition kopt (k : key) : key := mkKey (option (kval k)) (opt_eq (keq k)) (hash_optional (khash k)).
(* pair.hh:19-39 *)
Definition kpair (a b : key) : key :=
  mkKey (kval a * kval b) (fun x y => keq a (fst x) (fst y) && keq b (snd x) (snd y)) (fun x => hash_parts [khash a (fst x); khash b (snd x)]).
(* tuple.hh:78-99, 111-136 *)
Fixpoint tup (l : list key) : Type := match l with [] => unit | k :: l => (kval k * tup l)%type end.
Fixpoint tup_eq (l : list key) : tup l -> tup l -> bool :=
  match l with [] => fun _ _ => true | k :: l => fun x y => keq k (fst x) (fst y) && tup_eq l (snd x) (snd y) end.
Fixpoint tup_hashes (l : list key) : tup l -> list N :=
  match l with [] => fun _ => [] | k :: l => fun x => khash k (fst x) :: tup_hashes l (snd x) end.
Definition ktuple (l : list key) : key := mkKey (tup l) (tup_eq l) (fun x => hash_parts (tup_hashes l x)).

(* string_view.hh:313-321, 361-363: == compares the texts. There is no hash<string_view>; string_view is trivially copyable and
   has unique representations, so the default hash takes the bytes of the pointer and the size (hash.hh:22-53). *)
Record view := mkView { vaddr : N; vtext : list N }.
Fixpoint le (n : nat) (v : N) : list N := match n with O => [] | S n => v mod 256 :: le n (v / 256) end.
Definition kview : key :=
  mkKey view (fun a b => list_eq N.eqb (vtext a) (vtext b)) (fun v => hash_bytes (le 8 (vaddr v) ++ le 8 (N.of_nat (length (vtext v))))).

(* hash.hh:22-53 for a value at an address: values of more than eight bytes are read as uint64_t through a pointer *)
Definition hash_at (addr : N) (bs : list N) : outcome N :=
  if (length bs <=? 8)%nat then Ok (word_of bs) else let! _ := defined (addr mod 8 =? 0) in Ok (hash_bytes bs).

(* Lookups with a value of another type: HashT is hash<T>, so the value is converted to be hashed; EqualT compares the element
   with the value itself. set.hh:24-35 contains, 87-122 remove *)
Definition contains2 {T U} (hash : T -> N) (conv : U -> T) (eq2 : T -> U -> bool) (s : set T) (u : U) : outcome bool :=
  contains hash (fun e _ => eq2 e u) s (conv u).
Definition remove2 {T U} (hash : T -> N) (conv : U -> T) (eq2 : T -> U -> bool) (s : set T) (u : U) : outcome (set T * bool) :=
  remove hash (fun e _ => eq2 e u) s (conv u).
(* map.hh:110-127 operator[] *)
Definition index2 {K V U} (hash : K -> N) (conv : U -> K) (eq2 : K -> U -> bool) (dflt : V) (m : MapModel.map K V) (u : U) : outcome (MapModel.map K V * nat) :=
  let! m := MapModel.make_room hash m in
  let! idx := MapModel.get_location hash (MapModel.entries m) (conv u) in
  let! l := aget (MapModel.entries m) (N.to_nat idx) in
  match find (fun e => eq2 (MapModel.ekey e) u) l with
  | Some e => Ok (m, MapModel.eid e)
  | None =>
      let! es := aset (MapModel.entries m) (N.to_nat idx) (MapModel.mkE (MapModel.fresh m) (conv u) dflt :: l) in
      Ok (MapModel.mkMap es (wadd 64 (MapModel.msize m) 1) (S (MapModel.fresh m)), MapModel.fresh m)
  end.

(* integers; == after the usual arithmetic conversions of C++ (int has 32 bits) *)
Open Scope Z_scope.
Record ity := mkI { bits : Z; sgn : bool }.
Definition conv_to (t : ity) (z : Z) : Z := let m := z mod 2 ^ bits t in if sgn t && (2 ^ (bits t - 1) <=? m) then m - 2 ^ bits t else m.
Definition promote (t : ity) : ity := if bits t <? 32 then mkI 32 true else t.
Definition common (a b : ity) : ity :=
  let a := promote a in let b := promote b in
  if Bool.eqb (sgn a) (sgn b) then (if bits a <? bits b then b else a)
  else let s := if sgn a then a else b in let u := if sgn a then b else a in if bits s <=? bits u then u else s.
Definition int_eq (a b : ity) (x y : Z) : bool := conv_to (common a b) x =? conv_to (common a b) y.
(* hash.hh:25-29 *)
Definition int_hash (t : ity) (x : Z) : N := Z.to_N (x mod 2 ^ bits t).
Definition kint (t : ity) : key := mkKey Z (int_eq t t) (int_hash t).

(* int64_t against float: the integer is rounded to 24 bits, ties to even; a float is given as the integer that it denotes *)
Definition to_float (x : Z) : Z :=
  let e := Z.max 0 (Z.log2 x + 1 - 24) in let q := x / 2 ^ e in let r := x mod 2 ^ e in
  (if (2 ^ e <? 2 * r) || ((2 * r =? 2 ^ e) && Z.odd q && (0 <? e)) then q + 1 else q) * 2 ^ e.
Definition float_int_eq (x f : Z) : bool := to_float x =? f.

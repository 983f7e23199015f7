(* Model of src/clean-core/experimental/disjoint_set.hh.

   Elements are C++ ints used as indices; they are nat here.  A negative int becomes an index >= 2^63 and so fails the
   bounds contract of cc::vector like every index >= size does. *)
From Coq Require Import NArith Arith List Bool.
From Verif Require Import Base.
Import ListNotations.

(* disjoint_set.hh:107-111 entry *)
Record entry := mkEn { parent : nat; esize : nat }.
(* disjoint_set.hh:113-115 *)
Record dset := mkDS { entries : list entry; partition_count : N }.
(* disjoint_set.hh:21 *)
Definition empty_ds : dset := mkDS [] 0.

(* cc::vector operator[]: contract i < size *)
Definition at_ (d : dset) (i : nat) : outcome entry :=
  match nth_error (entries d) i with Some e => Ok e | None => Contract end.
Definition set_entry (d : dset) (i : nat) (e : entry) : dset := mkDS (lset (entries d) i e) (partition_count d).

Definition number_of_elements (d : dset) : nat := length (entries d).
Definition number_of_partitions (d : dset) : N := partition_count d.

(* disjoint_set.hh:31-42 init: the loop counter is an int and the bound int(size) (two's complement conversion),
   so for size >= 2^31 not all entries are set; cc::vector::resize value-initialises new entries *)
Definition init_count (size : N) : nat := let s := wrap 32 size in if (s <? 2 ^ 31)%N then N.to_nat s else 0.
Definition init (d : dset) (size : N) : dset :=
  let n := N.to_nat size in
  let old := firstn n (entries d) ++ repeat (mkEn 0 0) (n - length (entries d)) in
  let k := Nat.min (init_count size) n in
  mkDS (map (fun i => mkEn i 1) (seq 0 k) ++ skipn k old) size.

(* disjoint_set.hh:63-69 get_representative; f bounds the depth of the recursion.  The theorems show that 31 nested calls
   always suffice. *)
Fixpoint get_rep (f : nat) (d : dset) (e : nat) : outcome (dset * nat) :=
  match f with
  | O => OutOfFuel
  | S f =>
      let! ee := at_ d e in
      if parent ee =? e then Ok (d, parent ee)
      else
        let! (d, r) := get_rep f d (parent ee) in
        let! ee := at_ d e in
        Ok (set_entry d e (mkEn r (esize ee)), r)
  end.
Definition get_representative (d : dset) (e : nat) : outcome (dset * nat) := get_rep 31 d e.

(* disjoint_set.hh:45 *)
Definition size_of_set_by_element (d : dset) (e : nat) : outcome (dset * nat) :=
  let! (d, r) := get_representative d e in let! ee := at_ d r in Ok (d, esize ee).
(* disjoint_set.hh:56 *)
Definition is_representative (d : dset) (e : nat) : outcome (dset * bool) :=
  let! (d, r) := get_representative d e in Ok (d, r =? e).
(* disjoint_set.hh:49-53 *)
Definition size_of_set_by_representative (d : dset) (e : nat) : outcome (dset * nat) :=
  let! (d, b) := is_representative d e in
  let! _ := contract b in
  let! ee := at_ d e in Ok (d, esize ee).
(* disjoint_set.hh:59 *)
Definition are_in_same_set (d : dset) (e0 e1 : nat) : outcome (dset * bool) :=
  let! (d, r0) := get_representative d e0 in
  let! (d, r1) := get_representative d e1 in
  Ok (d, r0 =? r1).
(* disjoint_set.hh:75 *)
Definition get_parent (d : dset) (e : nat) : outcome nat := let! ee := at_ d e in Ok (parent ee).

(* disjoint_set.hh:99-101; the int addition overflows (UB) at 2^31 *)
Definition link (d : dset) (e0 e1 : nat) : outcome (dset * bool) :=
  let! y := at_ d e1 in
  let d := set_entry d e1 (mkEn e0 (esize y)) in
  let! x := at_ d e0 in
  let! y := at_ d e1 in
  let! _ := defined (N.of_nat (esize x + esize y) <? 2 ^ 31)%N in
  let d := set_entry d e0 (mkEn (parent x) (esize x + esize y)) in
  Ok (mkDS (entries d) (wsub 64 (partition_count d) 1), true).
(* disjoint_set.hh:88-104 *)
Definition merge_sets_by_representative (d : dset) (e0 e1 : nat) : outcome (dset * bool) :=
  let! (d, b0) := is_representative d e0 in
  let! _ := contract b0 in
  let! (d, b1) := is_representative d e1 in
  let! _ := contract b1 in
  if e0 =? e1 then Ok (d, false)
  else
    let! x := at_ d e0 in
    let! y := at_ d e1 in
    if esize x <? esize y then link d e1 e0 else link d e0 e1.
(* disjoint_set.hh:79-84 *)
Definition merge_sets_by_element (d : dset) (e0 e1 : nat) : outcome (dset * bool) :=
  let! (d, r0) := get_representative d e0 in
  let! (d, r1) := get_representative d e1 in
  merge_sets_by_representative d r0 r1.

Inductive op :=
| Rep (e : nat) | IsRep (e : nat) | SizeByElement (e : nat) | SizeByRep (e : nat) | Same (a b : nat)
| MergeByElement (a b : nat) | MergeByRep (a b : nat) | Partitions | Elements.
Inductive res := RElem (n : nat) | RBool (b : bool) | RNum (n : N).
Definition step (d : dset) (o : op) : outcome (dset * res) :=
  match o with
  | Rep e => let! (d, r) := get_representative d e in Ok (d, RElem r)
  | IsRep e => let! (d, b) := is_representative d e in Ok (d, RBool b)
  | SizeByElement e => let! (d, n) := size_of_set_by_element d e in Ok (d, RElem n)
  | SizeByRep e => let! (d, n) := size_of_set_by_representative d e in Ok (d, RElem n)
  | Same a b => let! (d, x) := are_in_same_set d a b in Ok (d, RBool x)
  | MergeByElement a b => let! (d, x) := merge_sets_by_element d a b in Ok (d, RBool x)
  | MergeByRep a b => let! (d, x) := merge_sets_by_representative d a b in Ok (d, RBool x)
  | Partitions => Ok (d, RNum (number_of_partitions d))
  | Elements => Ok (d, RNum (N.of_nat (number_of_elements d)))
  end.
Fixpoint run (d : dset) (os : list op) : outcome (dset * list res) :=
  match os with
  | [] => Ok (d, [])
  | o :: t => let! (d, r) := step d o in let! (d, rs) := run d t in Ok (d, r :: rs)
  end.

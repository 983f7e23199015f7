(* Model of cc::span (src/clean-core/span.hh), cc::strided_span (src/clean-core/strided_span.hh),
   cc::clamped_span and cc::wrapped_span (src/clean-core/experimental/).

   A span looks into one allocation, a list of elements: the data pointer is an element index.
   A strided_span computes byte addresses, so its memory maps a 64-bit address to the object that
   lives there. Simplifications: an address that is only formed and not read is not an error (the
   C++ standard forbids forming some of them); pointer arithmetic is arithmetic modulo 2^64, as on
   the supported machines. *)
From Coq Require Import NArith ZArith List Lia Bool Arith.
Import ListNotations.
From Verif Require Import Base.
Open Scope N_scope.

(* ---- span ---- *)

(* span.hh 190-192: _data, _size *)
Record span := mkspan { off : N; size : N }.

Section Span.
  Context {A : Type}.
  Variable eqb : A -> A -> bool.

  (* _data[i], an unchecked element access; outside the allocation it is undefined *)
  Definition rd (m : list A) (i : N) : outcome A := aget m (N.to_nat i).
  Definition wr (m : list A) (i : N) (x : A) : outcome (list A) := aset m (N.to_nat i) x.

  (* span.hh 61-65 *)
  Definition index (m : list A) (s : span) (i : N) : outcome A :=
    let! _ := contract (i <? size s) in rd m (off s + i).
  (* span.hh 67-71 *)
  Definition front (m : list A) (s : span) : outcome A :=
    let! _ := contract (0 <? size s) in rd m (off s).
  (* span.hh 72-76 *)
  Definition back (m : list A) (s : span) : outcome A :=
    let! _ := contract (0 <? size s) in rd m (off s + (size s - 1)).

  (* for (auto& e : s), by the pointers begin() and end(), span.hh 53-54 *)
  Fixpoint iter (n : nat) (m : list A) (i : N) : outcome (list A) :=
    match n with
    | O => Ok []
    | S n => let! x := rd m i in let! r := iter n m (i + 1) in Ok (x :: r)
    end.
  Definition contents (m : list A) (s : span) : outcome (list A) :=
    iter (N.to_nat (size s)) m (off s).

  (* span.hh 121-131 *)
  Fixpoint eq_loop (n : nat) (m : list A) (i j : N) : outcome bool :=
    match n with
    | O => Ok true
    | S n =>
        let! x := rd m i in let! y := rd m j in
        if eqb x y then eq_loop n m (i + 1) (j + 1) else Ok false
    end.
  Definition equals_content (m : list A) (s r : span) : outcome bool :=
    if size s =? size r then eq_loop (N.to_nat (size s)) m (off s) (off r) else Ok false.

  (* the two ranges share no element: the precondition of std::memcpy *)
  Definition apart (n i j : N) : bool := (i + n <=? j) || (j + n <=? i).

  (* the element-wise copy loop, span.hh 151-153 and 180-183 *)
  Fixpoint copy_loop (n : nat) (m : list A) (i j : N) : outcome (list A) :=
    match n with
    | O => Ok m
    | S n => let! x := rd m j in let! m := wr m i x in copy_loop n m (i + 1) (j + 1)
    end.
  (* memcpy of n > 0 elements, span.hh 147-148 and 173-176 *)
  Definition memcpy (n : N) (m : list A) (i j : N) : outcome (list A) :=
    if n =? 0 then Ok m else
    let! _ := defined (apart n i j) in copy_loop (N.to_nat n) m i j.

  (* span.hh 141-156; copy_to (159-164) calls it on the target *)
  Definition copy_from (triv : bool) (m : list A) (s src : span) : outcome (list A) :=
    let! _ := contract (size src =? size s) in
    if triv then memcpy (size s) m (off s) (off src)
    else copy_loop (N.to_nat (size s)) m (off s) (off src).

  (* span.hh 168-187; returns the memory and the return value *)
  Definition fill_from (triv : bool) (m : list A) (s src : span) : outcome (list A * N) :=
    let n := N.min (size src) (size s) in
    let! m := if triv then memcpy n m (off s) (off src)
              else copy_loop (N.to_nat n) m (off s) (off src) in
    Ok (m, size src).

  (* experimental/clamped_span.hh 21-25 with clamp of utility.hh 38-41; int64_t(size() - 1) *)
  Definition sint (v : N) : Z :=
    if v <? 2 ^ 63 then Z.of_N v else (Z.of_N v - 2 ^ 64)%Z.
  Definition clamp (v lo hi : Z) : Z := if (v <? lo)%Z then lo else if (hi <? v)%Z then hi else v.
  (* data()[z] with a signed index *)
  Definition rdz (m : list A) (s : span) (z : Z) : outcome A :=
    let! _ := defined (0 <=? Z.of_N (off s) + z)%Z in rd m (Z.to_N (Z.of_N (off s) + z)).
  Definition clamped_index (m : list A) (s : span) (i : Z) : outcome A :=
    let! _ := contract (0 <? size s) in
    rdz m s (clamp i 0 (sint (size s - 1))).

  (* experimental/wrapped_span.hh 22-29; % truncates towards zero *)
  Definition wrapped_index (m : list A) (s : span) (i : Z) : outcome A :=
    let! _ := contract (0 <? size s) in
    let i := Z.rem i (sint (size s)) in
    let i := if (i <? 0)%Z then (i + sint (size s))%Z else i in
    rdz m s i.
End Span.

(* span.hh 80-84 *)
Definition first (s : span) (n : N) : outcome span :=
  let! _ := contract (n <=? size s) in Ok (mkspan (off s) n).
(* span.hh 85-89 *)
Definition last (s : span) (n : N) : outcome span :=
  let! _ := contract (n <=? size s) in Ok (mkspan (off s + (size s - n)) n).
(* span.hh 90-94; offset + count is computed in size_t *)
Definition subspan2 (s : span) (o c : N) : outcome span :=
  let! _ := contract ((o <=? size s) && (wadd 64 o c <=? size s)) in Ok (mkspan (off s + o) c).
(* span.hh 95-99 *)
Definition subspan1 (s : span) (o : N) : outcome span :=
  let! _ := contract (o <=? size s) in Ok (mkspan (off s + o) (size s - o)).

(* span.hh 101-106: as_bytes; a span<T> into an allocation of bytes starts at byte off *)
Definition as_bytes (sizeof_t : N) (s : span) : span := mkspan (off s) (wmul 64 (size s) sizeof_t).
(* span.hh 108-117 *)
Definition reinterpret_as (sizeof_t sizeof_u : N) (s : span) : outcome span :=
  let! _ := contract (wmul 64 (size s) sizeof_t mod sizeof_u =? 0) in
  Ok (mkspan (off s) (wmul 64 (size s) sizeof_t / sizeof_u)).

(* ---- strided_span ---- *)

(* strided_span.hh 137-139: _data (a byte address), _size, _stride (int64_t, in bytes) *)
Record sspan := mkss { sdata : N; ssize : N; stride : Z }.

(* an int64_t operand converted to size_t *)
Definition u64 (z : Z) : N := Z.to_N (z mod 2 ^ 64).

Section Strided.
  Context {A : Type}.
  (* the objects of the element type, by address *)
  Variable mem : N -> option A.

  Definition load (a : N) : outcome A := match mem a with Some x => Ok x | None => UB end.

  (* _data + _stride * i: _stride is converted to size_t, the product wraps *)
  Definition at_ (s : sspan) (i : N) : N := wadd 64 (sdata s) (wmul 64 (u64 (stride s)) i).

  (* strided_span.hh 60-64 *)
  Definition sindex (s : sspan) (i : N) : outcome A :=
    let! _ := contract (i <? ssize s) in load (at_ s i).
  (* strided_span.hh 66-70 *)
  Definition sfront (s : sspan) : outcome A :=
    let! _ := contract (0 <? ssize s) in load (sdata s).
  (* strided_span.hh 71-75 *)
  Definition sback (s : sspan) : outcome A :=
    let! _ := contract (0 <? ssize s) in load (at_ s (ssize s - 1)).

  (* strided_span.hh 111-134: the iterator counts size down; the loop stops at size 0 *)
  Fixpoint swalk (fuel : nat) (ptr n : N) (st : Z) : outcome (list A) :=
    if 0 <? n then
      match fuel with
      | O => OutOfFuel
      | S fuel =>
          let! _ := contract (negb (ptr =? 0)) in
          let! x := load ptr in
          let! r := swalk fuel (wadd 64 ptr (u64 st)) (n - 1) st in
          Ok (x :: r)
      end
    else Ok [].
  Definition swalk_all (s : sspan) : outcome (list A) :=
    swalk (S (N.to_nat (ssize s))) (sdata s) (ssize s) (stride s).
End Strided.

(* strided_span.hh 79-83 *)
Definition sfirst (s : sspan) (n : N) : outcome sspan :=
  let! _ := contract (n <=? ssize s) in Ok (mkss (sdata s) n (stride s)).
(* strided_span.hh 84-88 *)
Definition slast (s : sspan) (n : N) : outcome sspan :=
  let! _ := contract (n <=? ssize s) in Ok (mkss (at_ s (ssize s - n)) n (stride s)).
(* strided_span.hh 89-93 *)
Definition ssub2 (s : sspan) (o c : N) : outcome sspan :=
  let! _ := contract ((o <=? ssize s) && (wadd 64 o c <=? ssize s)) in
  Ok (mkss (at_ s o) c (stride s)).
(* strided_span.hh 94-98 *)
Definition ssub1 (s : sspan) (o : N) : outcome sspan :=
  let! _ := contract (o <=? ssize s) in Ok (mkss (at_ s o) (ssize s - o) (stride s)).
(* strided_span.hh 99; size - 1 wraps for the empty span; negating the least int64_t is undefined *)
Definition sreversed (s : sspan) : outcome sspan :=
  let! _ := defined (negb (stride s =? - 2 ^ 63)%Z) in
  Ok (mkss (at_ s (wsub 64 (ssize s) 1)) (ssize s) (- stride s)).
(* strided_span.hh 102-107: the member lies d bytes into the element *)
Definition sproject (s : sspan) (d : N) : sspan := mkss (wadd 64 (sdata s) d) (ssize s) (stride s).

(* a chain of slicing calls on a strided span, and on a span *)
Inductive slice := SFirst (n : N) | SLast (n : N) | SSub (o c : N) | SFrom (o : N) | SRev.

Definition sslice (s : sspan) (o : slice) : outcome sspan :=
  match o with
  | SFirst n => sfirst s n
  | SLast n => slast s n
  | SSub o c => ssub2 s o c
  | SFrom o => ssub1 s o
  | SRev => sreversed s
  end.
Fixpoint sslices (s : sspan) (l : list slice) : outcome sspan :=
  match l with [] => Ok s | o :: l => let! s := sslice s o in sslices s l end.

(* a span has no reversed *)
Definition cslice (s : span) (o : slice) : outcome span :=
  match o with
  | SFirst n => first s n
  | SLast n => last s n
  | SSub o c => subspan2 s o c
  | SFrom o => subspan1 s o
  | SRev => Contract
  end.
Fixpoint cslices (s : span) (l : list slice) : outcome span :=
  match l with [] => Ok s | o :: l => let! s := cslice s o in cslices s l end.

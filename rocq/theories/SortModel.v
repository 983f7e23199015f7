(* Model of src/clean-core/sort.hh.
   The "virtual" sequence is a list; index i of the code is position i of the list.  Every access is
   checked against the window [lo, hi) handed to the top level call, so an access outside the range
   to be sorted is reported as UB.  Indices are integers (Z); int64_t overflow of start + size is not
   modelled (ranges are in memory, hence shorter than 2^63) but the casts from size_t and the sums of
   overlaps_range are.
   The comparison is a total function on elements.  The *_by variants compare key(a) with key(b), the
   *_multi variants act on tuples of elements: both are instances of the element type and comparison. *)
From Coq Require Import ZArith List Bool.
From Verif Require Import Base.
Import ListNotations.
Open Scope Z_scope.

Section Sort.
  Context {A : Type}.
  Variable less : A -> A -> bool.        (* compare(a, b): a < b *)
  Variables lo hi : Z.                   (* window of legal indices *)

  (* get(i): sort.hh:333-339 values_access (341-346 values_key_access) *)
  Definition get (a : list A) (i : Z) : outcome A :=
    if (lo <=? i) && (i <? hi) then aget a (Z.to_nat i) else UB.

  Definition put (a : list A) (i : Z) (x : A) : outcome (list A) :=
    if (lo <=? i) && (i <? hi) then aset a (Z.to_nat i) x else UB.

  (* swap(i, j): sort.hh:348-354 values_swap, cc::swap *)
  Definition swap (a : list A) (i j : Z) : outcome (list A) :=
    let! x := get a i in
    let! y := get a j in
    let! a := put a i y in
    put a j x.

  Definition cmp (a : list A) (i j : Z) : outcome bool :=
    let! x := get a i in
    let! y := get a j in
    Ok (less x y).

  (* sort.hh:158-165 sort2 *)
  Definition sort2 (a : list A) (ia ib : Z) : outcome (list A) :=
    let! c := cmp a ib ia in
    if c then swap a ia ib else Ok a.

  (* sort.hh:167-173 sort3 *)
  Definition sort3 (a : list A) (ia ib ic : Z) : outcome (list A) :=
    let! a := sort2 a ia ib in
    let! a := sort2 a ib ic in
    sort2 a ia ib.

  (* sort.hh:209-213 inner loop of small_sort *)
  Fixpoint sink (fuel : nat) (a : list A) (start j : Z) : outcome (list A) :=
    match fuel with
    | O => OutOfFuel
    | S fuel =>
        if start <? j then
          let! c := cmp a (j - 1) j in
          if c then Ok a
          else let! a := swap a (j - 1) j in sink fuel a start (j - 1)
        else Ok a
    end.

  (* sort.hh:206-214 outer loop *)
  Fixpoint insertion (fuel : nat) (a : list A) (start i end_ : Z) : outcome (list A) :=
    match fuel with
    | O => OutOfFuel
    | S fuel =>
        if i <? end_ then
          let! a := sink (S (length a)) a start i in
          insertion fuel a start (i + 1) end_
        else Ok a
    end.

  (* sort.hh:184-215 small_sort *)
  Definition small_sort (a : list A) (start size : Z) : outcome (list A) :=
    if size <=? 1 then Ok a
    else if size =? 2 then sort2 a start (start + 1)
    else if size =? 3 then sort3 a start (start + 1) (start + 2)
    else insertion (S (length a)) a start (start + 1) (start + size).

  (* sort.hh:231,259: while (compare(get(++first), pivot)); pivot is a reference to the element at start *)
  Fixpoint scan_up (fuel : nat) (a : list A) (start first : Z) : outcome Z :=
    match fuel with
    | O => OutOfFuel
    | S fuel =>
        let first := first + 1 in
        let! c := cmp a first start in
        if c then scan_up fuel a start first else Ok first
    end.

  (* sort.hh:244,263: while (!compare(get(--last), pivot)) *)
  Fixpoint scan_down (fuel : nat) (a : list A) (start last : Z) : outcome Z :=
    match fuel with
    | O => OutOfFuel
    | S fuel =>
        let last := last - 1 in
        let! c := cmp a last start in
        if c then Ok last else scan_down fuel a start last
    end.

  (* sort.hh:239: while (first < last && !compare(get(--last), pivot)) *)
  Fixpoint scan_down_guarded (fuel : nat) (a : list A) (start first last : Z) : outcome Z :=
    match fuel with
    | O => OutOfFuel
    | S fuel =>
        if first <? last then
          let last := last - 1 in
          let! c := cmp a last start in
          if c then Ok last else scan_down_guarded fuel a start first last
        else Ok last
    end.

  (* sort.hh:256-267 *)
  Fixpoint part_loop (fuel : nat) (a : list A) (start first last : Z) : outcome (list A * Z) :=
    match fuel with
    | O => OutOfFuel
    | S fuel =>
        if first <? last then
          let! a := swap a first last in
          let! first := scan_up (S (length a)) a start first in
          let! last := scan_down (S (length a)) a start last in
          part_loop fuel a start first last
        else Ok (a, first)
    end.

  (* sort.hh:221-272 partition_right (the was_already_partitioned out-parameter is never used) *)
  Definition partition_right (a : list A) (start size : Z) : outcome (list A * Z) :=
    let n := S (length a) in
    let! first := scan_up n a start start in
    let! last := (if first - 1 =? start then scan_down_guarded n a start first (start + size)
                  else scan_down n a start (start + size)) in
    let! (a, first) := part_loop n a start first last in
    let pivot_pos := first - 1 in
    let! a := swap a pivot_pos start in
    Ok (a, pivot_pos).

  (* sort.hh:288-303 pivot selection *)
  Definition choose_pivot (a : list A) (start size : Z) : outcome (list A) :=
    let end_ := start + size in
    let half := Z.shiftr size 1 in
    if 128 <? size then
      let! a := sort3 a start (start + half) (end_ - 1) in
      let! a := sort3 a (start + 1) (start + (half - 1)) (end_ - 2) in
      let! a := sort3 a (start + 2) (start + (half + 1)) (end_ - 3) in
      let! a := sort3 a (start + (half - 1)) (start + half) (start + (half + 1)) in
      swap a start (start + half)
    else sort3 a (start + half) start (end_ - 1).

  (* select(start, size) *)
  Variable select : Z -> Z -> outcome bool.

  (* sort.hh:274-322 sort_ex_impl *)
  Fixpoint sort_ex_impl (fuel : nat) (a : list A) (start size : Z) : outcome (list A) :=
    match fuel with
    | O => OutOfFuel
    | S fuel =>
        if size <=? 16 then small_sort a start size
        else
          let end_ := start + size in
          let! a := choose_pivot a start size in
          let! (a, pivot_pos) := partition_right a start size in
          let start_left := start in
          let size_left := pivot_pos - start_left in
          let start_right := pivot_pos + 1 in
          let size_right := end_ - start_right in
          let! sl := select start_left size_left in
          let! a := (if sl then sort_ex_impl fuel a start_left size_left else Ok a) in
          let! sr := select start_right size_right in
          if sr then sort_ex_impl fuel a start_right size_right else Ok a
    end.
End Sort.

(* sort.hh:372-376 sort_ex; the window is exactly the range that is passed in *)
Definition sort_ex {A} (less : A -> A -> bool) (a : list A) (start size : Z)
  (select : Z -> Z -> outcome bool) : outcome (list A) :=
  sort_ex_impl less start (start + size) select (S (Z.to_nat size)) a start size.

(* static_cast of size_t to int64_t *)
Definition to_i64 (x : Z) : Z := if x <? 2 ^ 63 then x else x - 2 ^ 64.
Definition i64 (x : Z) : outcome Z := if (- 2 ^ 63 <=? x) && (x <? 2 ^ 63) then Ok x else UB.

(* sort.hh:356-361 index_in_range *)
Definition index_in_range (idx : Z) (start size : Z) : outcome bool :=
  Ok ((start <=? idx) && (idx <? start + size)).
(* sort.hh:362-368 overlaps_range; idx + count is a signed addition, evaluated first *)
Definition overlaps_range (idx count : Z) (start size : Z) : outcome bool :=
  let! e := i64 (idx + count) in
  Ok ((start <=? e) && (idx <=? start + size)).

(* sort.hh:415-425 sort, 481-491 quickselect, 504-514 quickselect_range *)
Definition sort {A} (less : A -> A -> bool) (a : list A) : outcome (list A) :=
  sort_ex less a 0 (Z.of_nat (length a)) (fun _ _ => Ok true).
Definition quickselect {A} (less : A -> A -> bool) (a : list A) (idx : Z) : outcome (list A) :=
  sort_ex less a 0 (Z.of_nat (length a)) (index_in_range (to_i64 idx)).
Definition quickselect_range {A} (less : A -> A -> bool) (a : list A) (idx count : Z) : outcome (list A) :=
  sort_ex less a 0 (Z.of_nat (length a)) (overlaps_range (to_i64 idx) (to_i64 count)).

Section Partition.
  Context {A : Type}.
  Variable is_right : A -> bool.
  Variables lo hi : Z.

  (* sort.hh:386-387 *)
  Fixpoint skip_left (fuel : nat) (a : list A) (first end_ : Z) : outcome Z :=
    match fuel with
    | O => OutOfFuel
    | S fuel =>
        if first <? end_ then
          let! x := get lo hi a first in
          if is_right x then Ok first else skip_left fuel a (first + 1) end_
        else Ok first
    end.
  (* sort.hh:388-389 *)
  Fixpoint skip_right (fuel : nat) (a : list A) (start last : Z) : outcome Z :=
    match fuel with
    | O => OutOfFuel
    | S fuel =>
        if start <? last then
          let! x := get lo hi a last in
          if is_right x then skip_right fuel a start (last - 1) else Ok last
        else Ok last
    end.
  (* sort.hh:384-398 *)
  Fixpoint partition_loop (fuel : nat) (a : list A) (start end_ first last : Z) : outcome (list A * Z) :=
    match fuel with
    | O => OutOfFuel
    | S fuel =>
        let! first := skip_left (S (length a)) a first end_ in
        let! last := skip_right (S (length a)) a start last in
        if last <=? first then Ok (a, first)
        else
          let! a := swap lo hi a first last in
          partition_loop fuel a start end_ (first + 1) (last - 1)
    end.
End Partition.

(* sort.hh:378-401 partition_ex *)
Definition partition_ex {A} (is_right : A -> bool) (a : list A) (start size : Z) : outcome (list A * Z) :=
  partition_loop is_right start (start + size) (S (length a)) a start (start + size) start (start + size - 1).

(* sort.hh:403-411 partition_by *)
Definition partition_by {A} (is_right : A -> bool) (a : list A) : outcome (list A * Z) :=
  partition_ex is_right a 0 (Z.of_nat (length a)).

(* sort.hh:527-535 is_sorted_ex (loop from start + 1) *)
Fixpoint is_sorted_loop {A} (less : A -> A -> bool) (lo hi : Z) (fuel : nat) (a : list A) (i end_ : Z)
  : outcome bool :=
  match fuel with
  | O => OutOfFuel
  | S fuel =>
      if i <? end_ then
        let! c := cmp less lo hi a i (i - 1) in
        if c then Ok false else is_sorted_loop less lo hi fuel a (i + 1) end_
      else Ok true
  end.
Definition is_sorted_ex {A} (less : A -> A -> bool) (a : list A) (start size : Z) : outcome bool :=
  is_sorted_loop less start (start + size) (S (length a)) a (start + 1) (start + size).
(* sort.hh:551-559 is_strictly_sorted_ex *)
Fixpoint is_strictly_sorted_loop {A} (less : A -> A -> bool) (lo hi : Z) (fuel : nat) (a : list A) (i end_ : Z)
  : outcome bool :=
  match fuel with
  | O => OutOfFuel
  | S fuel =>
      if i <? end_ then
        let! c := cmp less lo hi a (i - 1) i in
        if c then is_strictly_sorted_loop less lo hi fuel a (i + 1) end_ else Ok false
      else Ok true
  end.
Definition is_strictly_sorted_ex {A} (less : A -> A -> bool) (a : list A) (start size : Z) : outcome bool :=
  is_strictly_sorted_loop less start (start + size) (S (length a)) a (start + 1) (start + size).

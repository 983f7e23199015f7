(* Model of src/clean-core/sort.hh with the number of comparisons.
   The functions are those of SortModel.v, statement by statement, and return next to the result how
   often compare (is_right for partition_ex) was called; sort_ex_impl also returns how deep its calls
   nest.  SortCostProps.C132_same and C132_partition_same state that the results are those of SortModel.v. *)
From Coq Require Import ZArith List Bool.
From Verif Require Import Base SortModel.
Import ListNotations.
Open Scope Z_scope.

(* a computation with the number of calls it made *)
Definition counted X := outcome (X * Z).
Definition bindc {X Y} (m : counted X) (k : X -> counted Y) : counted Y :=
  let! (x, c) := m in
  let! (y, d) := k x in
  Ok (y, c + d).
Definition free {X} (m : outcome X) : counted X := let! x := m in Ok (x, 0).
Notation "'letc' x := m 'in' k" := (bindc m (fun x => k)) (at level 200, x name, m at level 100, k at level 200).

Section Sort.
  Context {A : Type}.
  Variable less : A -> A -> bool.
  Variables lo hi : Z.

  (* one call of compare *)
  Definition cmp_c (a : list A) (i j : Z) : counted bool := let! b := cmp less lo hi a i j in Ok (b, 1).

  (* sort.hh:158-165 *)
  Definition sort2_c (a : list A) (ia ib : Z) : counted (list A) :=
    letc c := cmp_c a ib ia in
    if c then free (swap lo hi a ia ib) else free (Ok a).

  (* sort.hh:167-173 *)
  Definition sort3_c (a : list A) (ia ib ic : Z) : counted (list A) :=
    letc a := sort2_c a ia ib in
    letc a := sort2_c a ib ic in
    sort2_c a ia ib.

  (* sort.hh:209-213 *)
  Fixpoint sink_c (fuel : nat) (a : list A) (start j : Z) : counted (list A) :=
    match fuel with
    | O => OutOfFuel
    | S fuel =>
        if start <? j then
          letc c := cmp_c a (j - 1) j in
          if c then free (Ok a)
          else letc a := free (swap lo hi a (j - 1) j) in sink_c fuel a start (j - 1)
        else free (Ok a)
    end.

  (* sort.hh:206-214 *)
  Fixpoint insertion_c (fuel : nat) (a : list A) (start i end_ : Z) : counted (list A) :=
    match fuel with
    | O => OutOfFuel
    | S fuel =>
        if i <? end_ then
          letc a := sink_c (S (length a)) a start i in
          insertion_c fuel a start (i + 1) end_
        else free (Ok a)
    end.

  (* sort.hh:184-215 *)
  Definition small_sort_c (a : list A) (start size : Z) : counted (list A) :=
    if size <=? 1 then free (Ok a)
    else if size =? 2 then sort2_c a start (start + 1)
    else if size =? 3 then sort3_c a start (start + 1) (start + 2)
    else insertion_c (S (length a)) a start (start + 1) (start + size).

  (* sort.hh:231,259 *)
  Fixpoint scan_up_c (fuel : nat) (a : list A) (start first : Z) : counted Z :=
    match fuel with
    | O => OutOfFuel
    | S fuel =>
        letc c := cmp_c a (first + 1) start in
        if c then scan_up_c fuel a start (first + 1) else free (Ok (first + 1))
    end.

  (* sort.hh:244,263 *)
  Fixpoint scan_down_c (fuel : nat) (a : list A) (start last : Z) : counted Z :=
    match fuel with
    | O => OutOfFuel
    | S fuel =>
        letc c := cmp_c a (last - 1) start in
        if c then free (Ok (last - 1)) else scan_down_c fuel a start (last - 1)
    end.

  (* sort.hh:239 *)
  Fixpoint scan_down_guarded_c (fuel : nat) (a : list A) (start first last : Z) : counted Z :=
    match fuel with
    | O => OutOfFuel
    | S fuel =>
        if first <? last then
          letc c := cmp_c a (last - 1) start in
          if c then free (Ok (last - 1)) else scan_down_guarded_c fuel a start first (last - 1)
        else free (Ok last)
    end.

  (* sort.hh:256-267 *)
  Fixpoint part_loop_c (fuel : nat) (a : list A) (start first last : Z) : counted (list A * Z) :=
    match fuel with
    | O => OutOfFuel
    | S fuel =>
        if first <? last then
          letc a := free (swap lo hi a first last) in
          letc first := scan_up_c (S (length a)) a start first in
          letc last := scan_down_c (S (length a)) a start last in
          part_loop_c fuel a start first last
        else free (Ok (a, first))
    end.

  (* sort.hh:221-272 *)
  Definition partition_right_c (a : list A) (start size : Z) : counted (list A * Z) :=
    let n := S (length a) in
    letc first := scan_up_c n a start start in
    letc last := (if first - 1 =? start then scan_down_guarded_c n a start first (start + size)
                  else scan_down_c n a start (start + size)) in
    letc r := part_loop_c n a start first last in
    let pivot_pos := snd r - 1 in
    letc a := free (swap lo hi (fst r) pivot_pos start) in
    free (Ok (a, pivot_pos)).

  (* sort.hh:288-303 *)
  Definition choose_pivot_c (a : list A) (start size : Z) : counted (list A) :=
    let end_ := start + size in
    let half := Z.shiftr size 1 in
    if 128 <? size then
      letc a := sort3_c a start (start + half) (end_ - 1) in
      letc a := sort3_c a (start + 1) (start + (half - 1)) (end_ - 2) in
      letc a := sort3_c a (start + 2) (start + (half + 1)) (end_ - 3) in
      letc a := sort3_c a (start + (half - 1)) (start + half) (start + (half + 1)) in
      free (swap lo hi a start (start + half))
    else sort3_c a (start + half) start (end_ - 1).

  Variable select : Z -> Z -> outcome bool.

  (* sort.hh:274-322; result, comparisons, nesting depth of the calls of sort_ex_impl *)
  Fixpoint sort_ex_impl_c (fuel : nat) (a : list A) (start size : Z) : outcome (list A * Z * Z) :=
    match fuel with
    | O => OutOfFuel
    | S fuel =>
        if size <=? 16 then let! (a, c) := small_sort_c a start size in Ok (a, c, 1)
        else
          let end_ := start + size in
          let! (a, c1) := choose_pivot_c a start size in
          let! (r, c2) := partition_right_c a start size in
          let a := fst r in
          let pivot_pos := snd r in
          let start_left := start in
          let size_left := pivot_pos - start_left in
          let start_right := pivot_pos + 1 in
          let size_right := end_ - start_right in
          let! sl := select start_left size_left in
          let! (l, d1) := (if sl then sort_ex_impl_c fuel a start_left size_left else Ok ((a, 0), 0)) in
          let! sr := select start_right size_right in
          let! (r, d2) := (if sr then sort_ex_impl_c fuel (fst l) start_right size_right else Ok ((fst l, 0), 0)) in
          Ok (fst r, c1 + c2 + snd l + snd r, 1 + Z.max d1 d2)
    end.
End Sort.

(* sort.hh:372-376 *)
Definition sort_ex_c {A} (less : A -> A -> bool) (a : list A) (start size : Z)
  (select : Z -> Z -> outcome bool) : outcome (list A * Z * Z) :=
  sort_ex_impl_c less start (start + size) select (S (Z.to_nat size)) a start size.

(* sort.hh:415-425, 481-491, 504-514 *)
Definition sort_c {A} (less : A -> A -> bool) (a : list A) : outcome (list A * Z * Z) :=
  sort_ex_c less a 0 (Z.of_nat (length a)) (fun _ _ => Ok true).
Definition quickselect_c {A} (less : A -> A -> bool) (a : list A) (idx : Z) : outcome (list A * Z * Z) :=
  sort_ex_c less a 0 (Z.of_nat (length a)) (index_in_range (to_i64 idx)).
Definition quickselect_range_c {A} (less : A -> A -> bool) (a : list A) (idx count : Z) : outcome (list A * Z * Z) :=
  sort_ex_c less a 0 (Z.of_nat (length a)) (overlaps_range (to_i64 idx) (to_i64 count)).

Section Partition.
  Context {A : Type}.
  Variable is_right : A -> bool.
  Variables lo hi : Z.

  (* sort.hh:386-387 *)
  Fixpoint skip_left_c (fuel : nat) (a : list A) (first end_ : Z) : counted Z :=
    match fuel with
    | O => OutOfFuel
    | S fuel =>
        if first <? end_ then
          letc x := (let! x := get lo hi a first in Ok (x, 1)) in
          if is_right x then free (Ok first) else skip_left_c fuel a (first + 1) end_
        else free (Ok first)
    end.
  (* sort.hh:388-389 *)
  Fixpoint skip_right_c (fuel : nat) (a : list A) (start last : Z) : counted Z :=
    match fuel with
    | O => OutOfFuel
    | S fuel =>
        if start <? last then
          letc x := (let! x := get lo hi a last in Ok (x, 1)) in
          if is_right x then skip_right_c fuel a start (last - 1) else free (Ok last)
        else free (Ok last)
    end.
  (* sort.hh:384-398 *)
  Fixpoint partition_loop_c (fuel : nat) (a : list A) (start end_ first last : Z) : counted (list A * Z) :=
    match fuel with
    | O => OutOfFuel
    | S fuel =>
        letc first := skip_left_c (S (length a)) a first end_ in
        letc last := skip_right_c (S (length a)) a start last in
        if last <=? first then free (Ok (a, first))
        else
          letc a := free (swap lo hi a first last) in
          partition_loop_c fuel a start end_ (first + 1) (last - 1)
    end.
End Partition.

(* sort.hh:378-401 *)
Definition partition_ex_c {A} (is_right : A -> bool) (a : list A) (start size : Z) : counted (list A * Z) :=
  partition_loop_c is_right start (start + size) (S (length a)) a start (start + size) start (start + size - 1).

(* sort.hh:527-535 *)
Fixpoint is_sorted_loop_c {A} (less : A -> A -> bool) (lo hi : Z) (fuel : nat) (a : list A) (i end_ : Z) : counted bool :=
  match fuel with
  | O => OutOfFuel
  | S fuel =>
      if i <? end_ then
        letc c := cmp_c less lo hi a i (i - 1) in
        if c then free (Ok false) else is_sorted_loop_c less lo hi fuel a (i + 1) end_
      else free (Ok true)
  end.
Definition is_sorted_ex_c {A} (less : A -> A -> bool) (a : list A) (start size : Z) : counted bool :=
  is_sorted_loop_c less start (start + size) (S (length a)) a (start + 1) (start + size).

(* Model of src/clean-core/sort.hh as it is written: sort_ex_impl takes get, compare and swap from its
   caller and knows nothing else about the sequence.  SortModel.v fixes them to one list; here they act
   on a state St, which for sort_multi and sort_multi_by holds several ranges.
   fuel_n bounds the inner loops, as S (length a) does in SortModel.v.
   Ranges hold elements of one type V (an element type that is the union of all of them) and are named
   by their position in the state, so that one range can be passed twice. *)
From Coq Require Import ZArith List Bool.
From Verif Require Import Base SortModel.
Import ListNotations.
Open Scope Z_scope.

Section Generic.
  Context {St T : Type}.
  Variable getf : St -> Z -> outcome T.
  Variable less : T -> T -> bool.
  Variable swapf : St -> Z -> Z -> outcome St.
  Variable fuel_n : nat.

  Definition cmpf (s : St) (i j : Z) : outcome bool :=
    let! x := getf s i in
    let! y := getf s j in
    Ok (less x y).

  (* sort.hh:158-165 sort2 *)
  Definition sort2f (s : St) (ia ib : Z) : outcome St :=
    let! c := cmpf s ib ia in
    if c then swapf s ia ib else Ok s.

  (* sort.hh:167-173 sort3 *)
  Definition sort3f (s : St) (ia ib ic : Z) : outcome St :=
    let! s := sort2f s ia ib in
    let! s := sort2f s ib ic in
    sort2f s ia ib.

  (* sort.hh:209-213 *)
  Fixpoint sinkf (fuel : nat) (s : St) (start j : Z) : outcome St :=
    match fuel with
    | O => OutOfFuel
    | S fuel =>
        if start <? j then
          let! c := cmpf s (j - 1) j in
          if c then Ok s
          else let! s := swapf s (j - 1) j in sinkf fuel s start (j - 1)
        else Ok s
    end.

  (* sort.hh:206-214 *)
  Fixpoint insertionf (fuel : nat) (s : St) (start i end_ : Z) : outcome St :=
    match fuel with
    | O => OutOfFuel
    | S fuel =>
        if i <? end_ then
          let! s := sinkf fuel_n s start i in
          insertionf fuel s start (i + 1) end_
        else Ok s
    end.

  (* sort.hh:184-215 small_sort *)
  Definition small_sortf (s : St) (start size : Z) : outcome St :=
    if size <=? 1 then Ok s
    else if size =? 2 then sort2f s start (start + 1)
    else if size =? 3 then sort3f s start (start + 1) (start + 2)
    else insertionf fuel_n s start (start + 1) (start + size).

  (* sort.hh:231,259 *)
  Fixpoint scan_upf (fuel : nat) (s : St) (start first : Z) : outcome Z :=
    match fuel with
    | O => OutOfFuel
    | S fuel =>
        let! c := cmpf s (first + 1) start in
        if c then scan_upf fuel s start (first + 1) else Ok (first + 1)
    end.

  (* sort.hh:244,263 *)
  Fixpoint scan_downf (fuel : nat) (s : St) (start last : Z) : outcome Z :=
    match fuel with
    | O => OutOfFuel
    | S fuel =>
        let! c := cmpf s (last - 1) start in
        if c then Ok (last - 1) else scan_downf fuel s start (last - 1)
    end.

  (* sort.hh:239 *)
  Fixpoint scan_down_guardedf (fuel : nat) (s : St) (start first last : Z) : outcome Z :=
    match fuel with
    | O => OutOfFuel
    | S fuel =>
        if first <? last then
          let! c := cmpf s (last - 1) start in
          if c then Ok (last - 1) else scan_down_guardedf fuel s start first (last - 1)
        else Ok last
    end.

  (* sort.hh:256-267 *)
  Fixpoint part_loopf (fuel : nat) (s : St) (start first last : Z) : outcome (St * Z) :=
    match fuel with
    | O => OutOfFuel
    | S fuel =>
        if first <? last then
          let! s := swapf s first last in
          let! first := scan_upf fuel_n s start first in
          let! last := scan_downf fuel_n s start last in
          part_loopf fuel s start first last
        else Ok (s, first)
    end.

  (* sort.hh:221-272 partition_right *)
  Definition partition_rightf (s : St) (start size : Z) : outcome (St * Z) :=
    let! first := scan_upf fuel_n s start start in
    let! last := (if first - 1 =? start then scan_down_guardedf fuel_n s start first (start + size)
                  else scan_downf fuel_n s start (start + size)) in
    let! (s, first) := part_loopf fuel_n s start first last in
    let pivot_pos := first - 1 in
    let! s := swapf s pivot_pos start in
    Ok (s, pivot_pos).

  (* sort.hh:288-303 *)
  Definition choose_pivotf (s : St) (start size : Z) : outcome St :=
    let end_ := start + size in
    let half := Z.shiftr size 1 in
    if 128 <? size then
      let! s := sort3f s start (start + half) (end_ - 1) in
      let! s := sort3f s (start + 1) (start + (half - 1)) (end_ - 2) in
      let! s := sort3f s (start + 2) (start + (half + 1)) (end_ - 3) in
      let! s := sort3f s (start + (half - 1)) (start + half) (start + (half + 1)) in
      swapf s start (start + half)
    else sort3f s (start + half) start (end_ - 1).

  Variable select : Z -> Z -> outcome bool.

  (* sort.hh:274-322 sort_ex_impl *)
  Fixpoint sort_ex_implf (fuel : nat) (s : St) (start size : Z) : outcome St :=
    match fuel with
    | O => OutOfFuel
    | S fuel =>
        if size <=? 16 then small_sortf s start size
        else
          let end_ := start + size in
          let! s := choose_pivotf s start size in
          let! (s, pivot_pos) := partition_rightf s start size in
          let start_left := start in
          let size_left := pivot_pos - start_left in
          let start_right := pivot_pos + 1 in
          let size_right := end_ - start_right in
          let! sl := select start_left size_left in
          let! s := (if sl then sort_ex_implf fuel s start_left size_left else Ok s) in
          let! sr := select start_right size_right in
          if sr then sort_ex_implf fuel s start_right size_right else Ok s
    end.
  (* sort.hh:372-376 sort_ex *)
  Definition sort_exf (s : St) (start size : Z) : outcome St := sort_ex_implf (S (Z.to_nat size)) s start size.
End Generic.

(* ---- several ranges ---- *)
Section Multi.
  Context {V : Type}.
  (* the ranges in memory; an argument names one of them *)
  Definition mem := list (list V).
  Definition range (m : mem) (r : nat) : list V := nth r m [].

  (* range[i], outside the range is UB *)
  Definition at_z (l : list V) (i : Z) : outcome V := if (0 <=? i) then aget l (Z.to_nat i) else UB.
  (* swap(range[a], range[b]) *)
  Definition swap_range (m : mem) (r : nat) (a b : Z) : outcome mem :=
    let! x := at_z (range m r) a in
    let! y := at_z (range m r) b in
    Ok (lset m r (lset (lset (range m r) (Z.to_nat a) y) (Z.to_nat b) x)).
  (* (swap(values[a], values[b]), ...) *)
  Fixpoint swap_all (m : mem) (rs : list nat) (a b : Z) : outcome mem :=
    match rs with
    | [] => Ok m
    | r :: rs => let! m := swap_range m r a b in swap_all m rs a b
    end.

  (* sort.hh:449-466 sort_multi *)
  Definition sort_multi (less : V -> V -> bool) (m : mem) (keys : nat) (values : list nat) : outcome mem :=
    let size := length (range m keys) in
    let! _ := contract (forallb (fun r => Nat.eqb (length (range m r)) size) values) in
    sort_exf (fun m i => at_z (range m keys) i) less
      (fun m a b => let! m := swap_range m keys a b in swap_all m values a b)
      (S size) (fun _ _ => Ok true) m 0 (Z.of_nat size).

  (* key(values[i]...) *)
  Fixpoint row (m : mem) (rs : list nat) (i : Z) : outcome (list V) :=
    match rs with
    | [] => Ok []
    | r :: rs => let! x := at_z (range m r) i in let! xs := row m rs i in Ok (x :: xs)
    end.

  (* sort.hh:467-482 sort_multi_by; size is the size of the last range (comma), at least one range *)
  Definition sort_multi_by {K} (key : list V -> K) (less : K -> K -> bool) (m : mem) (values : list nat) : outcome mem :=
    let size := length (range m (last values O)) in
    let! _ := contract (forallb (fun r => Nat.eqb (length (range m r)) size) values) in
    sort_exf (fun m i => let! xs := row m values i in Ok (key xs)) less
      (fun m a b => swap_all m values a b)
      (S size) (fun _ _ => Ok true) m 0 (Z.of_nat size).
End Multi.

(* sort.hh:437-446 sort_descending, sort_by_descending: greater(a, b) is b < a *)
Definition sort_descending {A} (less : A -> A -> bool) (l : list A) : outcome (list A) := sort (fun a b => less b a) l.
Definition sort_by_descending {A K} (key : A -> K) (less : K -> K -> bool) (l : list A) : outcome (list A) :=
  sort (fun a b => less (key b) (key a)) l.

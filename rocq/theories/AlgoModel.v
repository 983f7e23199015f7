(* Model of src/clean-core/algorithms.hh (copy, fill, are_ranges_equal, are_ranges_unequal) on the cursors of
   src/clean-core/cursor.hh, and of src/clean-core/any_of.hh. copy and fill work on ranges of one array of objects, so that
   ranges and the value may overlap; an address is an index into the array, null is None. *)
From Coq Require Import Arith List Bool.
From Verif Require Import Base.
Import ListNotations.

Section Algo.
  Context {A : Type}.
  (* cursor.hh 41-60: iterator_cursor over pointers *)
  Record cursor := mkc { ccurr : option nat; cend : option nat }.
  Definition same (a b : option nat) : bool :=
    match a, b with Some a, Some b => Nat.eqb a b | None, None => true | _, _ => false end.
  Definition is_valid (c : cursor) : bool := negb (same (ccurr c) (cend c)).
  Definition get (c : cursor) : outcome nat :=
    match ccurr c with None => Contract | Some p => let! _ := contract (is_valid c) in Ok p end.
  Definition advance (c : cursor) : outcome cursor :=
    let! _ := contract (is_valid c) in
    match ccurr c with Some p => Ok (mkc (Some (S p)) (cend c)) | None => UB end.
  (* a range: its data pointer and its size; cursor.hh 64-70 *)
  Record range := mkr { rdata : option nat; rsize : nat }.
  Definition to_cursor (r : range) : cursor := mkc (rdata r) (option_map (fun p => p + rsize r) (rdata r)).

  (* algorithms.hh 8-19 *)
  Fixpoint copy_loop (fuel : nat) (m : list A) (from to : cursor) : outcome (list A) :=
    match fuel with
    | O => OutOfFuel
    | S fuel =>
        if is_valid from
        then
          let! _ := contract (is_valid to) in
          let! p := get from in let! x := aget m p in
          let! q := get to in let! m := aset m q x in
          let! to := advance to in let! from := advance from in
          copy_loop fuel m from to
        else Ok m
    end.
  Definition copy (m : list A) (from to : range) : outcome (list A) := copy_loop (S (rsize from)) m (to_cursor from) (to_cursor to).

  (* algorithms.hh 21-30; the value is an object of the array (inl) or somewhere else (inr) *)
  Fixpoint fill_loop (fuel : nat) (m : list A) (c : cursor) (v : nat + A) : outcome (list A) :=
    match fuel with
    | O => OutOfFuel
    | S fuel =>
        if is_valid c
        then
          let! q := get c in
          let! x := match v with inl p => aget m p | inr x => Ok x end in
          let! m := aset m q x in
          let! c := advance c in
          fill_loop fuel m c v
        else Ok m
    end.
  Definition fill (m : list A) (r : range) (v : nat + A) : outcome (list A) := fill_loop (S (rsize r)) m (to_cursor r) v.

  (* algorithms.hh 32-67: any ranges, with their sizes as the containers report them; neq is operator!= *)
  Context {B : Type} (neq : A -> B -> bool).
  Fixpoint differ (a : list A) (b : list B) : outcome bool :=
    match a with
    | [] => Ok false
    | x :: a => match b with
                | [] => Contract (* the cursor of b is at its end: get asserts *)
                | y :: b => if neq x y then Ok true else differ a b
                end
    end.
  Definition are_ranges_equal (a : list A) (b : list B) : outcome bool :=
    if Nat.eqb (length a) (length b) then let! d := differ a b in Ok (negb d) else Ok false.
  Definition are_ranges_unequal (a : list A) (b : list B) : outcome bool :=
    if Nat.eqb (length a) (length b) then differ a b else Ok true.

  (* any_of.hh 19-50, eq is operator==; the variadic form tests its arguments in turn *)
  Context (eq : A -> B -> bool).
  Fixpoint any_of_test (r : list B) (lhs : A) : bool :=
    match r with [] => false | x :: r => if eq lhs x then true else any_of_test r lhs end.
  Definition equals_any_of (lhs : A) (r : list B) : bool := any_of_test r lhs.
  Definition differs_any_of (lhs : A) (r : list B) : bool := negb (any_of_test r lhs).
  Fixpoint fold_or (l : list bool) : bool := match l with [] => false | [b] => b | b :: r => b || fold_or r end.
  Definition any_of_values_test (a b : B) (rest : list B) (lhs : A) : bool :=
    if eq lhs a then true else if eq lhs b then true else fold_or (map (eq lhs) rest).
End Algo.

(* What string search, splitting, trimming and ordering mean, on plain lists of characters. *)
From Coq Require Import NArith ZArith List Bool Arith.
From Verif Require Import StrModel.
Import ListNotations.
Open Scope nat_scope.

(* the characters a view shows, and views that lie inside their block *)
Definition contents (v : view) : list N := firstn (N.to_nat (vsize v)) (skipn (N.to_nat (off v)) (mem v)).
Definition valid (v : view) : Prop := (off v + vsize v <= N.of_nat (length (mem v)))%N /\ (N.of_nat (length (mem v)) < 2 ^ 63)%N.

(* s occurs in l at position i *)
Definition occurs (s l : list N) (i : nat) : Prop := exists a b, l = a ++ s ++ b /\ length a = i.
(* the same, up to an equivalence of characters *)
Definition occurs_by (cmp : N -> N -> bool) (s l : list N) (i : nat) : Prop :=
  exists a m b, l = a ++ m ++ b /\ length a = i /\ Forall2 (fun x y => cmp x y = true) m s.

(* characters equal up to ASCII case *)
Inductive same_letter : N -> N -> Prop :=
| same_char c : same_letter c c
| same_up c : (65 <= c <= 90)%N -> same_letter c (c + 32)
| same_down c : (65 <= c <= 90)%N -> same_letter (c + 32) c.

(* lexicographic order of sequences *)
Definition lex {A} (lt : A -> A -> Prop) (a b : list A) : Prop :=
  (exists p x y s t, a = p ++ x :: s /\ b = p ++ y :: t /\ lt x y) \/ (exists y t, b = a ++ y :: t).

(* joining with a separator *)
Fixpoint join (sep : N) (ps : list (list N)) : list N :=
  match ps with
  | [] => []
  | [p] => p
  | p :: ps => p ++ sep :: join sep ps
  end.
(* the same when separators are any characters: ps joined by the characters seps, one less than pieces *)
Fixpoint interleave (ps : list (list N)) (seps : list N) : list N :=
  match ps, seps with
  | [], _ => []
  | p :: _, [] => p
  | p :: ps, c :: cs => p ++ c :: interleave ps cs
  end.

(* the longest prefix all of whose characters satisfy p, and the rest *)
Definition trimmed_start (p : N -> bool) (l r : list N) : Prop :=
  exists d, l = d ++ r /\ forallb p d = true /\ (forall x t, r = x :: t -> p x = false).
Definition trimmed_end (p : N -> bool) (l r : list N) : Prop :=
  exists d, l = r ++ d /\ forallb p d = true /\ (forall x t, r = t ++ [x] -> p x = false).

(* What readers of an error message see. *)
From Coq Require Import Ascii String Arith List Bool.
From Verif Require Import Base ErrMsgModel.
Import ListNotations.

Fixpoint join (ls : list text) : text := match ls with [] => [] | [l] => l | l :: ls => l ++ nl :: join ls end.
(* the lines of a string *)
Definition lines_of (str : text) (ls : list text) : Prop := ls <> [] /\ join ls = str /\ Forall (fun l => ~ In nl l) ls.

(* an error in a line: columns a <= x < b are marked *)
Record mark := mkmark { ma : nat; mb : nat; mmsg : text }.
(* targets that lie in one line, the line break at its end included *)
Definition single (str : text) (b e : nat) : Prop := b <= e <= length str /\ forall i, b <= i -> S i < e -> nth_error str i <> Some nl.
(* the errors that begin in the line of the given size at offset p; empty targets take one column *)
Definition marks_of (p size : nat) (errors : list (nat * nat * text)) : list mark :=
  flat_map (fun '(b, e, m) => if (p <=? b) && (b <=? p + size) then [mkmark (b - p) (if b =? e then S (b - p) else e - p) m] else []) errors.

Definition at_ (rows : list text) (y x : nat) : option ascii := match nth_error rows y with Some r => nth_error r x | None => None end.
(* rows of marker and text, and the column of the text *)
Record place := mkplace { prow : nat; trow : nat; tcol : nat }.
Definition apart (a b a' b' : nat) : Prop := b <= a' \/ b' <= a.
(* the rows below a line show its errors: every target is marked, its text stands below the marker and begins under it,
   nothing is covered, markers in a row do not touch, and there is nothing else except for connecting lines *)
Definition shows (ms : list mark) (rows : list text) : Prop :=
  exists ps, length ps = length ms /\
  (ms = [] -> rows = []) /\
  (forall i m p, nth_error ms i = Some m -> nth_error ps i = Some p ->
     prow p < trow p /\ ma m <= tcol p < mb m /\
     (forall x, ma m <= x < mb m -> at_ rows (prow p) x = Some "^"%char) /\
     (forall k c, nth_error (list_ascii_of_string "* " ++ mmsg m) k = Some c -> at_ rows (trow p) (tcol p + k) = Some c)) /\
  (forall i j m p m' p', i <> j -> nth_error ms i = Some m -> nth_error ps i = Some p -> nth_error ms j = Some m' -> nth_error ps j = Some p' ->
     trow p <> prow p' /\
     (prow p = prow p' -> apart (ma m) (S (mb m)) (ma m') (S (mb m'))) /\
     (trow p = trow p' -> apart (tcol p) (tcol p + 2 + length (mmsg m)) (tcol p') (tcol p' + 2 + length (mmsg m')))) /\
  (forall y x c, at_ rows y x = Some c -> c = " "%char \/ c = "|"%char \/
     exists i m p, nth_error ms i = Some m /\ nth_error ps i = Some p /\
       ((y = prow p /\ ma m <= x < mb m) \/ (y = trow p /\ tcol p <= x < tcol p + 2 + length (mmsg m)))).
(* the lines with the rows below them *)
Fixpoint shown (p : nat) (ls : list text) (errors : list (nat * nat * text)) (out : list text) : Prop :=
  match ls with
  | [] => out = []
  | l :: ls => exists rows rest, shows (marks_of p (length l) errors) rows /\ shown (p + length l + 1) ls errors rest /\
      out = (list_ascii_of_string "> " ++ l) :: map (app (list_ascii_of_string "  ")) rows ++ rest
  end.
Definition with_message (out message : text) : text := match message with [] => out | _ => out ++ nl :: message end.
(* the lines with the offsets they begin at *)
Fixpoint starts (p : nat) (ls : list text) : list (nat * text) :=
  match ls with [] => [] | l :: ls => (p, l) :: starts (p + length l + 1) ls end.

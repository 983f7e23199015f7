(* Sets of enumerators. *)
From Coq Require Import NArith List Bool String Sorting.Sorted.
From Verif Require Import Base FlagModel.
Import ListNotations.
Open Scope N_scope.

Fixpoint member (x : expr) (e : N) : Prop :=
  match x with
  | FNone => False
  | FMake f fs => In e (f :: fs)
  | FOr a b => member a e \/ member b e
  | FOrE a f => member a e \/ e = f
  | FAnd a b => member a e /\ member b e
  | FAndE a f => member a e /\ e = f
  end.
Fixpoint enumerators (x : expr) : list N :=
  match x with
  | FNone => []
  | FMake f fs => f :: fs
  | FOr a b | FAnd a b => enumerators a ++ enumerators b
  | FOrE a f | FAndE a f => f :: enumerators a
  end.
(* the value represents the set of enumerators *)
Definition represents (w v : N) (s : N -> Prop) : Prop := v < 2 ^ w /\ forall e, N.testbit v e = true <-> s e.
(* the members of s, each once, in ascending order *)
Definition lists (l : list N) (s : N -> Prop) : Prop := StronglySorted N.lt l /\ forall e, In e l <-> s e.
Fixpoint join (l : list string) : string :=
  match l with [] => "" | [a] => a | a :: l => a ++ ", " ++ join l end%string.
Definition braced (l : list string) : string := ("{" ++ join l ++ "}")%string.
(* what an int shifted by e can represent *)
Definition fits (w e : N) : Prop := e < w /\ (w <= 32 \/ e < 31).

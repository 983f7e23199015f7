(* What the buffers mean. *)
From Coq Require Import NArith List.
Import ListNotations.
From Verif Require Import ChunkModel.
Open Scope N_scope.

(* the values pushed by a history, in order *)
Fixpoint pushed {A} (os : list (cop A)) : list A :=
  match os with [] => [] | Push v :: os => v :: pushed os | SetSize _ :: os => pushed os end.

(* a chunk size that is positive and whose byte count can be represented *)
Definition size_ok {A} (sz : N) (o : cop A) : Prop :=
  match o with Push _ => True | SetSize n => 0 < n /\ n * sz < 2 ^ 64 end.

(* the ideal list of lists; None: an element is added without any range *)
Definition add_last {A} (l : list (list A)) (vs : list A) : option (list (list A)) :=
  match rev l with [] => None | x :: r => Some (rev r ++ [x ++ vs]) end.
Definition lstep {A} (l : list (list A)) (o : fop A) : option (list (list A)) :=
  match o with
  | Start => Some (l ++ [[]])
  | PushElem v => add_last l [v]
  | PushElems vs => add_last l vs
  | FClear => Some []
  end.
Fixpoint lrun {A} (l : list (list A)) (os : list (fop A)) : option (list (list A)) :=
  match os with [] => Some l | o :: os => match lstep l o with Some l => lrun l os | None => None end end.

(* how many elements a history adds at most *)
Definition fadds {A} (o : fop A) : N :=
  match o with PushElem _ => 1 | PushElems vs => N.of_nat (length vs) | _ => 0 end.
Definition total {A} (os : list (fop A)) : N := fold_right N.add 0 (map fadds os).
Definition starts {A} (os : list (fop A)) : N := N.of_nat (length os).

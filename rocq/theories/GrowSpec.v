(* What growing a container costs.  A trace lists, for every state a container went through, how many elements it held and
   its capacity (the number of buckets of a set or map).  An operation that changes the capacity gets new storage and takes
   every element it finds there along; that is the cost counted here. *)
From Coq Require Import NArith List.
From Verif Require Import Base.
From Verif Require VecModel SStrModel SboModel SetModel MapModel.
Import ListNotations.
Open Scope N_scope.

(* elements taken along, and how often storage was replaced *)
Fixpoint moved (l : list (N * N)) : N :=
  match l with
  | (n, c) :: (((_, c') :: _) as t) => (if c =? c' then 0 else n) + moved t
  | _ => 0
  end.
Fixpoint grown (l : list (N * N)) : N :=
  match l with
  | (_, c) :: (((_, c') :: _) as t) => (if c =? c' then 0 else 1) + grown t
  | _ => 0
  end.

(* all states of a history, the first one included *)
Fixpoint trace {S O R} (step : S -> O -> outcome (S * R)) (s : S) (os : list O) : outcome (list S) :=
  match os with
  | [] => Ok [s]
  | o :: os => let! (s', _) := step s o in let! t := trace step s' os in Ok (s :: t)
  end.

(* sizes an operation of a vector or map asks for; ranges whose end does not wrap *)
Definition vasks {A} (o : VecModel.op A) : N := match o with VecModel.Reserve n | VecModel.Resize n _ => n | _ => 0 end.
Definition vno_wrap {A} (o : VecModel.op A) : Prop := match o with VecModel.RemoveRange i n => i + n < 2 ^ 64 | _ => True end.
Definition masks {K V} (o : MapModel.op K V) : N := match o with MapModel.Reserve n => n | _ => 0 end.
(* set operations without reserve, which rehashes every time *)
Definition set_op {T} (o : SetModel.op T) : Prop := match o with SetModel.Reserve _ => False | _ => True end.
(* string operations that grow only through the doubling code, or not at all *)
Definition appends (o : SboModel.op) : Prop :=
  match o with
  | SboModel.PushBack _ | SboModel.Append _ | SboModel.AppendOwn _ _ | SboModel.PopBack
  | SboModel.Get _ | SboModel.SetAt _ _ | SboModel.Front | SboModel.Back | SboModel.Size => True
  | SboModel.Replace pos cnt _ => pos + cnt < 2 ^ 64
  | SboModel.Insert pos _ => pos < 2 ^ 64
  | _ => False
  end.
(* histories of one string_stream *)
Inductive sop := Write (sv : list N) | WriteChar (c : N) | Room (n : N) | Restart.
Definition sstep (x : SStrModel.stream * SStrModel.heap) (o : sop) : outcome ((SStrModel.stream * SStrModel.heap) * unit) :=
  let (s, h) := x in
  let! x := (match o with
             | Write sv => SStrModel.append s sv h
             | WriteChar c => SStrModel.put s c h
             | Room n => SStrModel.reserve s n h
             | Restart => Ok (SStrModel.clear s, h)
             end) in Ok (x, tt).
Definition room_most (r : N) (o : sop) : Prop := match o with Room n => n <= r | _ => True end.

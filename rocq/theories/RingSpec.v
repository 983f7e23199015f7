(* Ideal unbounded deque. *)
From Coq Require Import NArith List.
From Verif Require Import RingModel.
Import ListNotations.

(* None: the call violates its precondition (pop on an empty deque, index out of range) *)
Definition ideal_step {A} (l : list A) (o : op A) : option (list A * option A) :=
  match o with
  | PushBack v => Some (l ++ [v], None)
  | PushFront v => Some (v :: l, None)
  | PushBackOf i => match nth_error l (N.to_nat i) with Some v => Some (l ++ [v], None) | None => None end
  | PushFrontOf i => match nth_error l (N.to_nat i) with Some v => Some (v :: l, None) | None => None end
  | PopFront => match l with v :: t => Some (t, Some v) | [] => None end
  | PopBack => match rev l with v :: t => Some (rev t, Some v) | [] => None end
  | Clear => Some ([], None)
  end.

Fixpoint ideal_run {A} (l : list A) (os : list (op A)) : option (list A * list A) :=
  match os with
  | [] => Some (l, [])
  | o :: t =>
      match ideal_step l o with
      | None => None
      | Some (l, v) =>
          match ideal_run l t with
          | None => None
          | Some (l, vs) => Some (l, match v with Some v => v :: vs | None => vs end)
          end
      end
  end.

(* Ideal pool of sequences. *)
From Coq Require Import List Arith.
From Verif Require Import Base FListModel.
Import ListNotations.

Definition upd {B} (l : list B) (j : nat) (x : B) : list B := firstn j l ++ x :: skipn (S j) l.
Definition remove_at {B} (l : list B) (i : nat) : list B := firstn i l ++ skipn (S i) l.

(* results other than Ok are the documented precondition violations of the call:
   naming a list that does not exist or dereferencing / advancing the end iterator is UB,
   pop on an empty list or erasing after the last element is a contract violation *)
Definition ideal_step {A} (ls : list (list A)) (o : op A) : outcome (list (list A) * option A) :=
  match o with
  | New => Ok (ls ++ [[]], None)
  | NewCopy j => match nth_error ls j with Some l => Ok (ls ++ [l], None) | None => UB end
  | NewMove j => match nth_error ls j with Some l => Ok (upd ls j [] ++ [l], None) | None => UB end
  | EmplaceFront j v => match nth_error ls j with Some l => Ok (upd ls j (v :: l), None) | None => UB end
  | PushOf j k i =>
      match nth_error ls j, nth_error ls k with
      | Some l, Some m => match nth_error m i with Some v => Ok (upd ls j (v :: l), None) | None => UB end
      | _, _ => UB
      end
  | PopFront j =>
      match nth_error ls j with
      | Some (v :: t) => Ok (upd ls j t, Some v)
      | Some [] => Contract
      | None => UB
      end
  | EraseAfter j i =>
      match nth_error ls j with
      | Some l => if S i <? length l then Ok (upd ls j (remove_at l (S i)), None)
                  else if S i =? length l then Contract else UB
      | None => UB
      end
  | Clear j => match nth_error ls j with Some _ => Ok (upd ls j [], None) | None => UB end
  | CopyAssign j k =>
      match nth_error ls j, nth_error ls k with
      | Some _, Some m => Ok (upd ls j m, None)
      | _, _ => UB
      end
  | MoveAssign j k =>
      match nth_error ls j, nth_error ls k with
      | Some _, Some m => Ok (upd (upd ls j m) k [], None)
      | _, _ => UB
      end
  end.

Fixpoint ideal_run {A} (ls : list (list A)) (os : list (op A)) : outcome (list (list A) * list A) :=
  match os with
  | [] => Ok (ls, [])
  | o :: t =>
      let! (ls, v) := ideal_step ls o in
      let! (ls, vs) := ideal_run ls t in
      Ok (ls, match v with Some v => v :: vs | None => vs end)
  end.

Definition not_self {A} (o : op A) : Prop :=
  match o with CopyAssign j k | MoveAssign j k => j <> k | _ => True end.

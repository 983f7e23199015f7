(* Ideal bounded sequences: the ideal sequences of VecSpec, where in addition every result must fit. *)
From Coq Require Import NArith Arith List Bool.
From Verif Require Import VecModel VecSpec CappedModel.
Import ListNotations.
Open Scope nat_scope.

Definition unbounded {A} (o : cop A) : op A :=
  match o with
  | CPushBack x => PushBack x | CPushBackOf i => PushBackOf i | CPopBack => PopBack | CClear => Clear | CResize n x => Resize n x
  | CRemoveAt i => RemoveAt i | CRemoveAtUnordered i => RemoveAtUnordered i | CGet i => Get i | CSetAt i x => SetAt i x
  | CFront => Front | CBack => Back | CSize => Size | CContains p => Contains p
  end.
Definition unbounded_w {A} (o : cwop A) : wop A :=
  match o with
  | COn k o => On k (unbounded o) | CNew => New | CNewSized n x => NewSized n x | CNewFrom vs => NewFrom vs
  | CCopyNew k => CopyNew k | CCopyAssign k j => CopyAssign k j | CDestroy k => Destroy k
  end.
Definition fits {A} (n : nat) (iw : iworld A) : bool :=
  forallb (fun ol => match ol with Some l => length l <=? n | None => true end) iw.
Definition bounded_step {A} (n : nat) (iw : iworld A) (o : cwop A) : option (iworld A * res A) :=
  match iworld_step iw (unbounded_w o) with
  | Some (iw', r) => if fits n iw' then Some (iw', r) else None
  | None => None
  end.
Fixpoint bounded_run {A} (n : nat) (iw : iworld A) (os : list (cwop A)) : option (iworld A * list (res A)) :=
  match os with
  | [] => Some (iw, [])
  | o :: os =>
      match bounded_step n iw o with
      | None => None
      | Some (iw, r) => match bounded_run n iw os with None => None | Some (iw, rs) => Some (iw, r :: rs) end
      end
  end.
Fixpoint bounded_wf {A} (n : nat) (iw : iworld A) (os : list (cwop A)) : Prop :=
  match os with
  | [] => True
  | o :: os => wf_op iw (unbounded_w o) /\ match bounded_step n iw o with None => True | Some (iw, _) => bounded_wf n iw os end
  end.

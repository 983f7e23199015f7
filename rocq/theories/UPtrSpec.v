(* Ideal single ownership: ideal ownership (SPtrSpec.v) without copies. *)
From Coq Require Import Arith List Bool.
From Verif Require Import Base SPtrModel SPtrSpec UPtrModel.
Import ListNotations.

Definition shared_op (o : uop) : op :=
  match o with
  | UNew => New | UMake n => Make n | UNewMove e => NewMove e | UMoveAssign e f => MoveAssign e f
  | UReset e => SetNull e | UDestroy v => Destroy v | UNonNull e => IsValid e | UEqual e f => Equal e f
  end.
Definition ucell_of (x : option (list (option nat))) : ucell := match x with Some fs => ULive fs | None => UFreed end.
(* exactly the objects alive in the graph are alive, all others have been freed *)
Definition urepresents (st : ustate) (g : graph) : Prop :=
  uvars st = gvars g /\ uheap st = map ucell_of (gheap g).

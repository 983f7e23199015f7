(* Ideal string streams: variables that hold sequences of characters. *)
From Coq Require Import NArith List Bool.
From Verif Require Import Base SStrModel.
Import ListNotations.
Open Scope N_scope.

Definition ideal := list (option (list N)).
Definition get (v : ideal) (i : nat) : option (list N) := match nth_error v i with Some x => x | None => None end.
Definition free (v : ideal) (i : nat) : bool := match nth_error v i with Some None => true | _ => false end.
Definition on (v : ideal) (i : nat) (f : list N -> list N) : option ideal := option_map (fun l => lset v i (Some (f l))) (get v i).
(* None: the operation is not applicable *)
Definition sstep (v : ideal) (o : op) : option ideal :=
  match o with
  | New i => if free v i then Some (lset v i (Some [])) else None
  | Append i sv => on v i (fun l => l ++ sv)
  | Put i c => on v i (fun l => l ++ [c])
  | Reserve i _ => on v i (fun l => l)
  | Clear i => on v i (fun _ => [])
  | CopyCtor i j => if free v i then option_map (fun r => lset v i (Some r)) (get v j) else None
  | MoveCtor i j => if free v i then option_map (fun r => lset (lset v i (Some r)) j (Some [])) (get v j) else None
  | CopyAssign i j => match get v j with Some r => on v i (fun _ => r) | None => None end
  | MoveAssign i j => match get v j with
                      | Some r => if Nat.eqb i j then Some v else option_map (fun v => lset v j (Some [])) (on v i (fun _ => r))
                      | None => None
                      end
  | Destroy i => option_map (fun _ => lset v i None) (get v i)
  end.
Fixpoint srun (v : ideal) (ops : list op) : option ideal :=
  match ops with [] => Some v | o :: ops => match sstep v o with Some v => srun v ops | None => None end end.
(* operations of the theorem: no move to itself; a view is shorter than 2^63 characters, as all objects are *)
Definition supported (o : op) : Prop :=
  match o with
  | MoveAssign i j => i <> j
  | Append _ sv => N.of_nat (length sv) < 2 ^ 63
  | _ => True
  end.

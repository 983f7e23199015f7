(* Value semantics of arrays: a store of ideal sequences. *)
From Coq Require Import NArith Arith List Bool.
From Verif Require Import ArrModel.
Import ListNotations.
Open Scope N_scope.

Definition store A := list (option (list A)).
Fixpoint put {T} (l : list T) (i : nat) (x : T) : list T :=
  match l, i with [], _ => [] | _ :: l, O => x :: l | y :: l, S i => y :: put l i x end.
Definition sget {A} (s : store A) (k : nat) : option (list A) :=
  match nth_error s k with Some (Some l) => Some l | _ => None end.

(* outer None: the operation names an array that does not exist; inner None: the operation is refused *)
Definition ideal {A} (eqb : A -> A -> bool) (dflt : A) (s : store A) (o : op A) : option (option (store A * res A)) :=
  let on k (f : list A -> option (store A * res A)) := match sget s k with Some l => Some (f l) | None => None end in
  let ret s := Some (Some (s, RUnit)) in
  let list_eqb := (fix list_eqb (a b : list A) :=
    match a, b with [], [] => true | x :: a, y :: b => eqb x y && list_eqb a b | _, _ => false end) in
  match o with
  | New => ret (s ++ [Some []])
  | NewSized n => ret (s ++ [Some (repeat dflt (N.to_nat n))])
  | Filled n x => ret (s ++ [Some (repeat x (N.to_nat n))])
  | NewFrom vs => ret (s ++ [Some vs])
  | CopyNew j => on j (fun l => Some (s ++ [Some l], RUnit))
  | MoveNew j => on j (fun l => Some (put s j (Some []) ++ [Some l], RUnit))
  | Resize k n (Val x) => on k (fun _ => Some (put s k (Some (repeat x (N.to_nat n))), RUnit))
  | Resize k n (Elem j i) =>
      match sget s k, sget s j with
      | Some _, Some l => match nth_error l (N.to_nat i) with
                          | Some x => Some (Some (put s k (Some (repeat x (N.to_nat n))), RUnit))
                          | None => None
                          end
      | _, _ => None
      end
  | CopyAssign k j => match sget s k, sget s j with Some _, Some l => ret (put s k (Some l)) | _, _ => None end
  | MoveAssign k j => match sget s k, sget s j with Some _, Some l => ret (put (put s k (Some l)) j (Some [])) | _, _ => None end
  | Destroy k => on k (fun _ => Some (put s k None, RUnit))
  | Get k i => on k (fun l => match nth_error l (N.to_nat i) with Some x => Some (s, RVal x) | None => None end)
  | Set_ k i x => on k (fun l => if i <? N.of_nat (length l) then Some (put s k (Some (put l (N.to_nat i) x)), RUnit) else None)
  | Eq k j => match sget s k, sget s j with Some a, Some b => Some (Some (s, RB (list_eqb a b))) | _, _ => None end
  | Ne k j => match sget s k, sget s j with Some a, Some b => Some (Some (s, RB (negb (list_eqb a b)))) | _, _ => None end
  | Size k => on k (fun l => Some (s, RN (N.of_nat (length l))))
  end.
Fixpoint irun {A} (eqb : A -> A -> bool) (dflt : A) (s : store A) (os : list (op A)) : option (option (store A * list (res A))) :=
  match os with
  | [] => Some (Some (s, []))
  | o :: os =>
      match ideal eqb dflt s o with
      | None => None
      | Some None => Some None
      | Some (Some (s, r)) =>
          match irun eqb dflt s os with Some (Some (s, rs)) => Some (Some (s, r :: rs)) | x => x end
      end
  end.

(* requested sizes whose byte count fits 64 bits *)
Definition fits {A} (sz : N) (o : op A) : Prop :=
  match o with
  | NewSized n | Filled n _ | Resize _ n _ => n * sz < 2 ^ 64
  | NewFrom vs => N.of_nat (length vs) * sz < 2 ^ 64
  | _ => True
  end.
(* resize is not given a reference to an element of the same array *)
Definition no_self {A} (o : op A) : Prop := match o with Resize k _ (Elem j _) => k <> j | _ => True end.

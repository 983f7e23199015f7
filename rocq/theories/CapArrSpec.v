(* What users of cc::capped_array see: a store of sequences of at most cap elements. *)
From Coq Require Import NArith Arith List Bool.
From Verif Require Import CapArrModel.
Import ListNotations.
Open Scope N_scope.

Definition store A := list (option (list A)).
Fixpoint put {T} (l : list T) (i : nat) (x : T) : list T :=
  match l, i with [], _ => [] | _ :: l, O => x :: l | y :: l, S i => y :: put l i x end.
Definition sget {A} (s : store A) (k : nat) : option (list A) :=
  match nth_error s k with Some (Some l) => Some l | _ => None end.
Definition argval {A} (s : store A) (x : arg A) : option A :=
  match x with
  | Val x => Some x
  | Elem j i => match sget s j with Some l => nth_error l (N.to_nat i) | None => None end
  end.

(* outer None: the operation names an array or element that does not exist; inner None: the operation is refused.
   uninitialized is specified for no elements only *)
Definition ideal {A} (dflt : A) (cap : N) (s : store A) (o : op A) : option (option (store A * res A)) :=
  let on k (f : list A -> option (option (store A * res A))) := match sget s k with Some l => f l | None => None end in
  let ret s := Some (Some (s, RUnit)) in
  let new l := ret (s ++ [Some l]) in
  let check n (r : option (option (store A * res A))) := if n <=? cap then r else Some None in
  match o with
  | New => new []
  | NewSized n => check n (new (repeat dflt (N.to_nat n)))
  | NewFrom vs => check (N.of_nat (length vs)) (new vs)
  | Uninit n => check n (if n =? 0 then new [] else None)
  | Filled n x => check n (match argval s x with Some x => new (repeat x (N.to_nat n)) | None => None end)
  | Emplace k n x => on k (fun _ => check n (match argval s x with Some x => ret (put s k (Some (repeat x (N.to_nat n)))) | None => None end))
  | CopyNew j => on j (fun l => new l)
  | MoveNew j => on j (fun l => ret (put s j (Some []) ++ [Some l]))
  | CopyAssign k j => on k (fun _ => on j (fun l => ret (put s k (Some l))))
  | MoveAssign k j => on k (fun _ => on j (fun l => ret (put (put s k (Some l)) j (Some []))))
  | Destroy k => on k (fun _ => ret (put s k None))
  | Get k i => on k (fun l => match nth_error l (N.to_nat i) with Some x => Some (Some (s, RVal x)) | None => Some None end)
  | Set_ k i x => on k (fun l => match nth_error l (N.to_nat i) with
                                 | Some _ => ret (put s k (Some (put l (N.to_nat i) x)))
                                 | None => Some None
                                 end)
  | Size k => on k (fun l => Some (Some (s, RN (N.of_nat (length l)))))
  end.
(* elements moved from by the operation *)
Definition moved {A} (s : store A) (o : op A) : N :=
  match o with MoveNew j | MoveAssign _ j => match sget s j with Some l => N.of_nat (length l) | None => 0 end | _ => 0 end.
(* results and the number of elements moved from *)
Fixpoint irun {A} (dflt : A) (cap : N) (s : store A) (os : list (op A)) : option (option (store A * list (res A) * N)) :=
  match os with
  | [] => Some (Some (s, [], 0))
  | o :: os =>
      match ideal dflt cap s o with
      | None => None
      | Some None => Some None
      | Some (Some (s', r)) =>
          match irun dflt cap s' os with Some (Some (s2, rs, n)) => Some (Some (s2, r :: rs, moved s o + n)) | x => x end
      end
  end.
(* number of elements of the existing arrays *)
Fixpoint population {A} (s : store A) : N :=
  match s with [] => 0 | Some l :: s => N.of_nat (length l) + population s | None :: s => population s end.
(* emplace is not given a reference to an element of the same array *)
Definition no_self {A} (o : op A) : Prop := match o with Emplace k _ (Elem j _) => k <> j | _ => True end.

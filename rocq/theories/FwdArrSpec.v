(* What users of cc::fwd_array see: a store of sequences. An element without a value is None. *)
From Coq Require Import NArith Arith List Bool.
From Verif Require Import FwdArrModel.
Import ListNotations.
Open Scope N_scope.

Definition store A := list (option (list (option A))).
Fixpoint put {T} (l : list T) (i : nat) (x : T) : list T :=
  match l, i with [], _ => [] | _ :: l, O => x :: l | y :: l, S i => y :: put l i x end.
Definition sget {A} (s : store A) (k : nat) : option (list (option A)) :=
  match nth_error s k with Some (Some l) => Some l | _ => None end.
Definition argval {A} (s : store A) (x : arg A) : option A :=
  match x with
  | Val x => Some x
  | Elem j i => match sget s j with
                | Some l => match nth_error l (N.to_nat i) with Some (Some v) => Some v | _ => None end
                | None => None
                end
  end.

(* outer None: the operation names an array that does not exist, or reads an element that has no value;
   inner None: the operation is refused *)
Definition ideal {A} (dflt : A) (tc : bool) (s : store A) (o : op A) : option (option (store A * res A)) :=
  let on k (f : list (option A) -> option (option (store A * res A))) := match sget s k with Some l => f l | None => None end in
  let ret s := Some (Some (s, RUnit)) in
  let new l := ret (s ++ [Some l]) in
  match o with
  | New => new []
  | NewSized n => new (repeat (Some dflt) (N.to_nat n))
  | Uninit n => new (repeat (if tc then None else Some dflt) (N.to_nat n))
  | Filled n x => match argval s x with Some x => new (repeat (Some x) (N.to_nat n)) | None => None end
  | NewFrom vs => new (map Some vs)
  | MoveNew j => on j (fun l => ret (put s j (Some []) ++ [Some l]))
  | MoveAssign k j => on k (fun _ => on j (fun l => ret (put (put s k (Some l)) j (Some []))))
  | Destroy k => on k (fun _ => ret (put s k None))
  | Get k i => on k (fun l => match nth_error l (N.to_nat i) with
                              | Some (Some x) => Some (Some (s, RVal x))
                              | Some None => None
                              | None => Some None
                              end)
  | Set_ k i x => on k (fun l => match nth_error l (N.to_nat i) with
                                 | Some _ => ret (put s k (Some (put l (N.to_nat i) (Some x))))
                                 | None => Some None
                                 end)
  | Size k => on k (fun l => Some (Some (s, RN (N.of_nat (length l)))))
  end.
Fixpoint irun {A} (dflt : A) (tc : bool) (s : store A) (os : list (op A)) : option (option (store A * list (res A))) :=
  match os with
  | [] => Some (Some (s, []))
  | o :: os =>
      match ideal dflt tc s o with
      | None => None
      | Some None => Some None
      | Some (Some (s, r)) =>
          match irun dflt tc s os with Some (Some (s, rs)) => Some (Some (s, r :: rs)) | x => x end
      end
  end.
(* number of elements of the existing arrays *)
Fixpoint population {A} (s : store A) : N :=
  match s with [] => 0 | Some l :: s => N.of_nat (length l) + population s | None :: s => population s end.
(* elements passed to the constructors from a list or a span *)
Fixpoint listed {A} (os : list (op A)) : N :=
  match os with [] => 0 | NewFrom vs :: os => N.of_nat (length vs) + listed os | _ :: os => listed os end.

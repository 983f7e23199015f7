(* What users of cc::alloc_array see: a store of sequences, each with its allocator. An element without a value
   (not initialised) is None. *)
From Coq Require Import NArith Arith List Bool.
From Verif Require Import AllocArrModel.
Import ListNotations.
Open Scope N_scope.

Definition seq A : Type := nat * list (option A).
Definition store A := list (option (seq A)).
Fixpoint put {T} (l : list T) (i : nat) (x : T) : list T :=
  match l, i with [], _ => [] | _ :: l, O => x :: l | y :: l, S i => y :: put l i x end.
Definition sget {A} (s : store A) (k : nat) : option (seq A) :=
  match nth_error s k with Some (Some l) => Some l | _ => None end.
(* the value of an argument: None if it refers to nothing *)
Definition argval {A} (s : store A) (x : arg A) : option A :=
  match x with
  | Val x => Some x
  | Elem j i => match sget s j with
                | Some (_, l) => match nth_error l (N.to_nat i) with Some (Some v) => Some v | _ => None end
                | None => None
                end
  end.
(* element by element from the front, up to the first difference; None if a compared element has no value *)
Fixpoint same {A} (eqb : A -> A -> bool) (a b : list (option A)) : option bool :=
  match a, b with
  | [], [] => Some true
  | Some x :: a, Some y :: b => if eqb x y then same eqb a b else Some false
  | _ :: _, _ :: _ => None
  | _, _ => Some false
  end.

(* outer None: the operation names an array that does not exist, or reads an element that has no value;
   inner None: the operation is refused *)
Definition ideal {A} (eqb : A -> A -> bool) (sz : N) (dflt : A) (tc : bool) (s : store A) (o : op A) : option (option (store A * res A)) :=
  let on k (f : nat -> list (option A) -> option (option (store A * res A))) :=
    match sget s k with Some (m, l) => f m l | None => None end in
  let ret s := Some (Some (s, RUnit)) in
  let new m l := match m with Some m => ret (s ++ [Some (m, l)]) | None => Some None end in
  let fresh n := repeat (if tc then None else Some dflt) (N.to_nat n) in
  let fill n x := repeat (Some x) (N.to_nat n) in
  let compare k j := match sget s k, sget s j with
                     | Some (_, a), Some (_, b) => if Nat.eqb (length a) (length b) then same eqb a b else Some false
                     | _, _ => None
                     end in
  match o with
  | New m => new m []
  | NewSized n m => new m (fresh n)
  | Uninit n m => new m (repeat None (N.to_nat n))
  | Filled n x m => match argval s x with Some x => new m (fill n x) | None => None end
  | NewFrom vs m => new m (map Some vs)
  | MoveNew j => on j (fun m l => ret (put s j (Some (0%nat, [])) ++ [Some (m, l)]))
  | MoveAssign k j => on k (fun _ _ => on j (fun m l => ret (put (put s k (Some (m, l))) j (Some (0%nat, [])))))
  | Destroy k => on k (fun _ _ => ret (put s k None))
  | Reset k m n => on k (fun _ _ => match m with Some m => ret (put s k (Some (m, fresh n))) | None => Some None end)
  | ResetVal k m n x =>
      on k (fun _ _ => match argval s x with
                       | Some x => match m with Some m => ret (put s k (Some (m, fill n x))) | None => Some None end
                       | None => None
                       end)
  | Resize k n x => on k (fun m _ => match argval s x with Some x => ret (put s k (Some (m, fill n x))) | None => None end)
  | Get k i => on k (fun _ l => match nth_error l (N.to_nat i) with
                                | Some (Some x) => Some (Some (s, RVal x))
                                | Some None => None
                                | None => Some None
                                end)
  | Set_ k i x => on k (fun m l => match nth_error l (N.to_nat i) with
                                   | Some v => match v, tc with
                                               | None, false => None
                                               | _, _ => ret (put s k (Some (m, put l (N.to_nat i) (Some x))))
                                               end
                                   | None => Some None
                                   end)
  | Eq k j => match compare k j with Some b => Some (Some (s, RB b)) | None => None end
  | Ne k j => match compare k j with Some b => Some (Some (s, RB (negb b))) | None => None end
  | Size k => on k (fun _ l => Some (Some (s, RN (N.of_nat (length l)))))
  | Bytes k => on k (fun _ l => Some (Some (s, RN (N.of_nat (length l) * sz))))
  | Allocator k => on k (fun m _ => Some (Some (s, RN (N.of_nat m))))
  end.
Fixpoint irun {A} (eqb : A -> A -> bool) (sz : N) (dflt : A) (tc : bool) (s : store A) (os : list (op A)) : option (option (store A * list (res A))) :=
  match os with
  | [] => Some (Some (s, []))
  | o :: os =>
      match ideal eqb sz dflt tc s o with
      | None => None
      | Some None => Some None
      | Some (Some (s, r)) =>
          match irun eqb sz dflt tc s os with Some (Some (s, rs)) => Some (Some (s, r :: rs)) | x => x end
      end
  end.

(* requested sizes whose byte count fits 64 bits *)
Definition fits {A} (sz : N) (o : op A) : Prop :=
  match o with
  | NewSized n _ | Uninit n _ | Filled n _ _ | Reset _ _ n | ResetVal _ _ n _ | Resize _ n _ => n * sz < 2 ^ 64
  | NewFrom vs _ => N.of_nat (length vs) * sz < 2 ^ 64
  | _ => True
  end.
(* reset and resize are not given a reference to an element of the same array *)
Definition no_self {A} (o : op A) : Prop :=
  match o with Resize k _ (Elem j _) | ResetVal k _ _ (Elem j _) => k <> j | _ => True end.
(* uninitialized is used for types without a destructor only *)
Definition uninit_ok {A} (td : bool) (o : op A) : Prop := match o with Uninit n _ => td = true \/ n = 0 | _ => True end.

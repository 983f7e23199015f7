(* Ideal sequences and stores of sequences. *)
From Coq Require Import NArith Arith List Bool.
From Verif Require Import VecModel.
Import ListNotations.
Open Scope nat_scope.

Fixpoint replace_at {A} (l : list A) (i : nat) (x : A) : list A :=
  match l, i with
  | [], _ => []
  | _ :: l, O => x :: l
  | y :: l, S i => y :: replace_at l i x
  end.
Fixpoint remove_first_match {A} (p : A -> bool) (l : list A) : list A :=
  match l with [] => [] | x :: l => if p x then l else x :: remove_first_match p l end.
Fixpoint first_match {A} (p : A -> bool) (l : list A) : option nat :=
  match l with [] => None | x :: l => if p x then Some 0 else option_map S (first_match p l) end.
(* element i is replaced by the last one, the last one dropped *)
Definition unordered_remove {A} (l : list A) (i : nat) : list A :=
  match rev l with [] => [] | x :: _ => removelast (replace_at l i x) end.

(* None: the call violates its precondition *)
Definition ideal {A} (l : list A) (o : op A) : option (list A * res A) :=
  match o with
  | PushBack x => Some (l ++ [x], RUnit)
  | PushBackOf i => match nth_error l (N.to_nat i) with Some x => Some (l ++ [x], RUnit) | None => None end
  | PushRange vs => Some (l ++ vs, RUnit)
  | InsertRange i vs =>
      if N.to_nat i <=? length l then Some (firstn (N.to_nat i) l ++ vs ++ skipn (N.to_nat i) l, RUnit) else None
  | PopBack => match l with [] => None | _ => Some (removelast l, RUnit) end
  | GetPop => match rev l with [] => None | x :: _ => Some (removelast l, RVal x) end
  | Reserve _ => Some (l, RUnit)
  | Resize n x => Some (firstn (N.to_nat n) l ++ repeat x (N.to_nat n - length l), RUnit)
  | Clear => Some ([], RUnit)
  | RemoveAll p => Some (filter (fun x => negb (p x)) l, RN (N.of_nat (length (filter p l))))
  | RemoveFirst p => Some (remove_first_match p l, RB (existsb p l))
  | RemoveFirstUnordered p =>
      Some (match first_match p l with Some i => unordered_remove l i | None => l end, RB (existsb p l))
  | RemoveRange i n =>
      if (n =? 0)%N then Some (l, RUnit)
      else if N.to_nat i + N.to_nat n <=? length l
           then Some (firstn (N.to_nat i) l ++ skipn (N.to_nat i + N.to_nat n) l, RUnit) else None
  | RemoveAt i =>
      if N.to_nat i <? length l then Some (firstn (N.to_nat i) l ++ skipn (S (N.to_nat i)) l, RUnit) else None
  | RemoveAtUnordered i => if N.to_nat i <? length l then Some (unordered_remove l (N.to_nat i), RUnit) else None
  | Get i => match nth_error l (N.to_nat i) with Some x => Some (l, RVal x) | None => None end
  | SetAt i x => if N.to_nat i <? length l then Some (replace_at l (N.to_nat i) x, RUnit) else None
  | Front => match l with [] => None | x :: _ => Some (l, RVal x) end
  | Back => match rev l with [] => None | x :: _ => Some (l, RVal x) end
  | Size => Some (l, RN (N.of_nat (length l)))
  | Contains p => Some (l, RB (existsb p l))
  end.

(* a store of sequences; the outer None is a violated precondition.  A history that names a destroyed or missing
   sequence is not well formed. *)
Definition iworld A := list (option (list A)).
Definition named {A} (w : iworld A) (k : nat) : Prop := exists l, nth_error w k = Some (Some l).
Definition wf_op {A} (w : iworld A) (o : wop A) : Prop :=
  match o with
  | On k _ | CopyNew k | MoveNew k | Destroy k => named w k
  | CopyAssign k j | MoveAssign k j => named w k /\ named w j
  | New | NewSized _ _ | NewFrom _ => True
  end.
Definition iget {A} (w : iworld A) (k : nat) : list A := match nth_error w k with Some (Some l) => l | _ => [] end.
Definition iworld_step {A} (w : iworld A) (o : wop A) : option (iworld A * res A) :=
  match o with
  | On k o => match ideal (iget w k) o with Some (l, r) => Some (replace_at w k (Some l), r) | None => None end
  | New => Some (w ++ [Some []], RUnit)
  | NewSized n x => Some (w ++ [Some (repeat x (N.to_nat n))], RUnit)
  | NewFrom vs => Some (w ++ [Some vs], RUnit)
  | CopyNew k => Some (w ++ [Some (iget w k)], RUnit)
  | MoveNew k => Some (replace_at w k (Some []) ++ [Some (iget w k)], RUnit)
  | CopyAssign k j => Some (replace_at w k (Some (iget w j)), RUnit)
  | MoveAssign k j => Some (replace_at (replace_at w k (Some (iget w j))) j (Some []), RUnit)
  | Destroy k => Some (replace_at w k None, RUnit)
  end.
Fixpoint iworld_run {A} (w : iworld A) (os : list (wop A)) : option (iworld A * list (res A)) :=
  match os with
  | [] => Some (w, [])
  | o :: os =>
      match iworld_step w o with
      | None => None
      | Some (w, r) => match iworld_run w os with None => None | Some (w, rs) => Some (w, r :: rs) end
      end
  end.
Fixpoint wf {A} (w : iworld A) (os : list (wop A)) : Prop :=
  match os with
  | [] => True
  | o :: os => wf_op w o /\ match iworld_step w o with None => True | Some (w, _) => wf w os end
  end.

(* size limits: how many elements an operation adds, and the sizes it asks for *)
Definition adds {A} (o : op A) : N :=
  match o with PushBack _ | PushBackOf _ => 1%N | PushRange vs | InsertRange _ vs => N.of_nat (length vs) | _ => 0%N end.
Definition wadds {A} (o : wop A) : N := match o with On _ o => adds o | _ => 0%N end.
Definition asks {A} (o : wop A) : N :=
  match o with
  | On _ (Reserve n) | On _ (Resize n _) | NewSized n _ => n
  | NewFrom vs => N.of_nat (length vs)
  | _ => 0%N
  end.
(* size_t arguments of remove_range whose sum does not wrap *)
Definition no_wrap {A} (o : wop A) : Prop := match o with On _ (RemoveRange i n) => (i + n < 2 ^ 64)%N | _ => True end.
Definition small {A} (os : list (wop A)) : Prop :=
  (fold_right N.add 0%N (map wadds os) <= 2 ^ 47)%N /\ Forall (fun o => (asks o <= 2 ^ 47)%N /\ no_wrap o) os.

(* Ideal finite set: a list of pairwise inequivalent elements. *)
From Coq Require Import NArith List Bool.
From Verif Require Import SetModel.
Import ListNotations.

Section S.
  Context {T : Type} (eqb : T -> T -> bool).
  Definition mem (v : T) (l : list T) : bool := existsb (fun e => eqb e v) l.
  (* None: precondition violated (reserve(0) on a non-empty set) *)
  Definition ideal_step (l : list T) (o : op T) : option (list T * bool) :=
    match o with
    | Add v => if mem v l then Some (l, false) else Some (v :: l, true)
    | Remove v => Some (filter (fun e => negb (eqb e v)) l, mem v l)
    | Contains v => Some (l, mem v l)
    | Clear => Some ([], false)
    | Reserve n => match n, l with N0, _ :: _ => None | _, _ => Some (l, false) end
    end.
  Fixpoint ideal_run (l : list T) (os : list (op T)) : option (list T * list bool) :=
    match os with
    | [] => Some (l, [])
    | o :: t =>
        match ideal_step l o with
        | None => None
        | Some (l, b) => match ideal_run l t with None => None | Some (l, bs) => Some (l, b :: bs) end
        end
    end.
  Record equiv_hash (hash : T -> N) : Prop := {
    eq_refl_ : forall x, eqb x x = true;
    eq_sym_ : forall x y, eqb x y = true -> eqb y x = true;
    eq_trans_ : forall x y z, eqb x y = true -> eqb y z = true -> eqb x z = true;
    eq_hash_ : forall x y, eqb x y = true -> hash x = hash y }.
End S.

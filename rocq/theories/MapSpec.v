(* Ideal finite map: association list with pairwise inequivalent keys. *)
From Coq Require Import NArith List Bool.
From Verif Require Import MapModel.
Import ListNotations.

Section S.
  Context {K V : Type} (eqb : K -> K -> bool) (dflt : V).
  Definition lookup (k : K) (l : list (K * V)) : option V :=
    match find (fun e => eqb (fst e) k) l with Some e => Some (snd e) | None => None end.
  (* change the value of an existing key *)
  Definition replace (k : K) (v : V) (l : list (K * V)) : list (K * V) :=
    List.map (fun e => if eqb (fst e) k then (fst e, v) else e) l.
  Definition put (k : K) (v : V) (l : list (K * V)) : list (K * V) :=
    match lookup k l with Some _ => replace k v l | None => (k, v) :: l end.
  Definition is_some {X} (o : option X) : bool := match o with Some _ => true | None => false end.
  Definition ideal_step (l : list (K * V)) (o : op K V) : list (K * V) * res V :=
    match o with
    | Assign k v => (put k v l, RNone)
    | Index k => match lookup k l with Some v => (l, RVal v) | None => ((k, dflt) :: l, RVal dflt) end
    | GetOrCreate k v => match lookup k l with Some w => (l, RVal w) | None => ((k, v) :: l, RVal v) end
    | RemoveKey k => (filter (fun e => negb (eqb (fst e) k)) l, RBool (is_some (lookup k l)))
    | Contains k => (l, RBool (is_some (lookup k l)))
    | Clear => ([], RNone)
    | Reserve _ => (l, RNone)
    end.
  Fixpoint ideal_run (l : list (K * V)) (os : list (op K V)) : list (K * V) * list (res V) :=
    match os with
    | [] => (l, [])
    | o :: t => let (l, r) := ideal_step l o in let (l, rs) := ideal_run l t in (l, r :: rs)
    end.
  Record equiv_hash (hash : K -> N) : Prop := {
    eq_refl_ : forall x, eqb x x = true;
    eq_sym_ : forall x y, eqb x y = true -> eqb y x = true;
    eq_trans_ : forall x y z, eqb x y = true -> eqb y z = true -> eqb x z = true;
    eq_hash_ : forall x y, eqb x y = true -> hash x = hash y }.
  (* sizes that reserve can pad to a power of two below 2^64 *)
  Definition reasonable (o : op K V) : Prop := match o with Reserve n => (n <= 2 ^ 62)%N | _ => True end.
End S.

(* Model of src/clean-core/less.hh and of the comparisons of pair.hh, tuple.hh and optional.hh. *)
From Coq Require Import List Bool.
Import ListNotations.

(* a component type with its operators <, == and != ; both sides of a comparison have the same type *)
Record comp := mkComp { carrier : Type; lt : carrier -> carrier -> bool; eq : carrier -> carrier -> bool; ne : carrier -> carrier -> bool }.
(* the values of a tuple-like type with these components *)
Fixpoint tup (cs : list comp) : Type := match cs with [] => unit | c :: cs => (carrier c * tup cs)%type end.

(* less.hh:65-73 cascaded_less(l0, r0, l1, r1, ...); the call without arguments does not exist *)
Fixpoint cascaded_less (cs : list comp) : tup cs -> tup cs -> bool :=
  match cs with
  | [] => fun _ _ => false
  | c :: rest => fun l r =>
      match rest with
      | [] => lt c (fst l) (fst r)
      | _ => if ne c (fst l) (fst r) then lt c (fst l) (fst r) else cascaded_less rest (snd l) (snd r)
      end
  end.

(* tuple.hh:79-85 are_equal: the fold expression is evaluated from the left; pair.hh:20-24 is the case of two components *)
Fixpoint are_equal (cs : list comp) (acc : bool) : tup cs -> tup cs -> bool :=
  match cs with
  | [] => fun _ _ => acc
  | c :: rest => fun l r => are_equal rest (acc && eq c (fst l) (fst r)) (snd l) (snd r)
  end.
Definition tuple_eq (cs : list comp) (l r : tup cs) : bool := are_equal cs true l r.
(* tuple.hh:86-91 are_not_equal; pair.hh:25-29 *)
Fixpoint are_not_equal (cs : list comp) (acc : bool) : tup cs -> tup cs -> bool :=
  match cs with
  | [] => fun _ _ => acc
  | c :: rest => fun l r => are_not_equal rest (acc || ne c (fst l) (fst r)) (snd l) (snd r)
  end.
Definition tuple_ne (cs : list comp) (l r : tup cs) : bool := are_not_equal cs false l r.

(* optional.hh:360-371 less<optional<T>> *)
Definition has_value {T} (o : option T) : bool := match o with Some _ => true | None => false end.
Definition optional_less {T} (less : T -> T -> bool) (a b : option T) : bool :=
  if negb (has_value a) && negb (has_value b) then false
  else if negb (has_value a) then true
  else if negb (has_value b) then false
  else match a, b with Some x, Some y => less x y | _, _ => false (* value() of an empty optional; not reached *) end.

(* Arrays of n booleans. *)
From Coq Require Import NArith ZArith List Bool.
From Verif Require Import Base BSetModel.
Import ListNotations.

Definition zip (f : bool -> bool -> bool) (a b : list bool) : list bool := map (fun p => f (fst p) (snd p)) (combine a b).
Definition bool_op (k : bop) : bool -> bool -> bool := match k with BOr => orb | BAnd => andb | BXor => xorb end.
(* element i of the result is element i - b, respectively i + b *)
Definition shifted (lft : bool) (n b : nat) (l : list bool) : list bool :=
  if lft then firstn n (repeat false b ++ l) else firstn n (skipn b l ++ repeat false n).
(* the number with the given binary digits, lowest first *)
Fixpoint val (l : list bool) : N := match l with [] => 0 | b :: l => N.b2n b + 2 * val l end%N.

Definition store := list (list bool).
Definition ion (w : store) (v : nat) (f : list bool -> option (list bool)) : option (store * res) :=
  match nth_error w v with Some a => match f a with Some r => Some (lset w v r, RUnit) | None => None end | None => None end.
Definition iadd (w : store) (x : option (list bool)) : option (store * res) :=
  match x with Some r => Some (w ++ [r], RUnit) | None => None end.
Definition iask (w : store) (v : nat) (f : list bool -> option res) : option (store * res) :=
  match nth_error w v with Some a => match f a with Some r => Some (w, r) | None => None end | None => None end.
Definition iask2 (w : store) (v u : nat) (f : list bool -> list bool -> res) : option (store * res) :=
  match nth_error w v, nth_error w u with Some a, Some b => Some (w, f a b) | _, _ => None end.
Definition ishift (lft : bool) (n : nat) (b : Z) (l : list bool) : option (list bool) :=
  if ((0 <=? b) && (b <? 64))%Z then Some (shifted lft n (Z.to_nat b) l) else None.
(* None: an index out of range *)
Definition at_ (n : nat) (idx : N) {A} (f : nat -> A) : option A := if (idx <? N.of_nat n)%N then Some (f (N.to_nat idx)) else None.
Definition list_eqb (a b : list bool) : bool := if list_eq_dec bool_dec a b then true else false.
Definition ideal (n : nat) (w : store) (o : op) : option (store * res) :=
  match o with
  | New => iadd w (Some (repeat false n))
  | NewData d => iadd w (Some (map (fun i => N.testbit d (N.of_nat i)) (seq 0 n)))
  | NewNot v => iadd w (option_map (map negb) (nth_error w v))
  | NewBin k v u => iadd w (match nth_error w v, nth_error w u with Some a, Some b => Some (zip (bool_op k) a b) | _, _ => None end)
  | NewShift lft v b => iadd w (match nth_error w v with Some a => ishift lft n b a | None => None end)
  | AssBin k v u => ion w v (fun a => option_map (zip (bool_op k) a) (nth_error w u))
  | AssShift lft v b => ion w v (ishift lft n b)
  | Clear v => ion w v (fun _ => Some (repeat false n))
  | Set_ v idx => ion w v (fun a => at_ n idx (fun i => lset a i true))
  | Unset v idx => ion w v (fun a => at_ n idx (fun i => lset a i false))
  | Toggle v idx => ion w v (fun a => at_ n idx (fun i => lset a i (negb (nth i a false))))
  | Size v => iask w v (fun _ => Some (RN (N.of_nat n)))
  | Any v => iask w v (fun a => Some (RB (existsb (fun b => b) a)))
  | All v => iask w v (fun a => Some (RB (forallb (fun b => b) a)))
  | IsSet v idx => iask w v (fun a => at_ n idx (fun i => RB (nth i a false)))
  | IsUnset v idx => iask w v (fun a => at_ n idx (fun i => RB (negb (nth i a false))))
  | Index v idx => iask w v (fun a => at_ n idx (fun i => RB (nth i a false)))
  | Eq v u => iask2 w v u (fun a b => RB (list_eqb a b))
  | Ne v u => iask2 w v u (fun a b => RB (negb (list_eqb a b)))
  | Representation v => iask w v (fun a => Some (RN (val a)))
  end.
Fixpoint ideal_run (n : nat) (w : store) (os : list op) : option (store * list res) :=
  match os with
  | [] => Some (w, [])
  | o :: os => match ideal n w o with
               | Some (w, r) => match ideal_run n w os with Some (w, rs) => Some (w, r :: rs) | None => None end
               | None => None end
  end.

(* what the code gets right: indices below 31; all and << for sizes below 31; no ~; construction from numbers
   without excess bits *)
Definition supported (n : nat) (o : op) : bool :=
  match o with
  | NewNot _ => false
  | NewData d => (d <? 2 ^ N.of_nat n)%N
  | NewShift true _ _ | AssShift true _ _ | All _ => Nat.ltb n 31
  | Set_ _ i | Unset _ i | Toggle _ i | IsSet _ i | IsUnset _ i | Index _ i => (i <? 31)%N
  | _ => true
  end.

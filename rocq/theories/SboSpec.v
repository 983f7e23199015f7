(* The ideal string: a list of characters, and per string whether a terminator behind it is promised. *)
From Coq Require Import NArith Arith List Bool.
From Verif Require Import SboModel.
Import ListNotations.
Open Scope N_scope.

Definition len (l : list N) : N := N.of_nat (length l).
(* sizes up to which allocation is assumed to succeed *)
Definition ok_size (n : N) : bool := n <? 2 ^ 60.

Fixpoint drop_while (p : N -> bool) (l : list N) : list N :=
  match l with [] => [] | c :: t => if p c then drop_while p t else l end.
Definition drop_while_end (p : N -> bool) (l : list N) : list N := rev (drop_while p (rev l)).
Definition lower (c : N) : N := if (65 <=? c) && (c <=? 90) then c + 32 else c.
Definition upper (c : N) : N := if (97 <=? c) && (c <=? 122) then c - 32 else c.
Definition capital (l : list N) : list N := match l with [] => [] | c :: t => upper c :: map lower t end.
Definition list_eqb (a b : list N) : bool := if list_eq_dec N.eq_dec a b then true else false.
Definition prefixb (s l : list N) : bool := list_eqb s (firstn (length s) l).
Definition suffixb (s l : list N) : bool := prefixb (rev s) (rev l).
(* leftmost non-overlapping replacement; the fuel is an upper bound of the length *)
Fixpoint subst (fuel : nat) (old new l : list N) : list N :=
  match fuel, l with
  | S fuel, c :: t =>
      if prefixb old l then new ++ subst fuel old new (skipn (length old) l) else c :: subst fuel old new t
  | _, _ => l
  end.
Definition splice (pos cnt : N) (l r : list N) : list N :=
  firstn (N.to_nat pos) l ++ r ++ skipn (N.to_nat pos + N.to_nat cnt) l.

(* None: the request is not allowed (violates a contract, or is too large) *)
Definition guard {A} (b : bool) (x : A) : option A := if b then Some x else None.
Definition fits (l : list N) (t : bool) : option (list N * bool * res) := guard (ok_size (len l)) (l, t, RUnit).
(* (characters, terminator promised) -> operation -> the same afterwards and the result *)
Definition ideal (l : list N) (t : bool) (o : op) : option (list N * bool * res) :=
  match o with
  | PushBack c => fits (l ++ [c]) true
  | Append r => fits (l ++ r) true
  | AppendOwn o n =>
      if o + n <=? len l then fits (l ++ firstn (N.to_nat n) (skipn (N.to_nat o) l)) true else None
  | PopBack => guard (negb (len l =? 0)) (removelast l, true, RUnit)
  | Resize n c =>
      guard (ok_size n) (firstn (N.to_nat n) l ++ repeat c (N.to_nat n - length l), true, RUnit)
  | Reserve n => guard (ok_size n) (l, t, RUnit)
  | Clear => Some ([], true, RUnit)
  | ShrinkToFit => Some (l, t, RUnit)
  | Fill c (Some n) => guard (ok_size n) (repeat c (N.to_nat n), true, RUnit)
  | Fill c None => Some (repeat c (length l), t, RUnit)
  | Capitalize => Some (capital l, t, RUnit)
  | ReplaceChar a b => Some (map (fun c => if c =? a then b else c) l, t, RUnit)
  | RemovePrefix n => guard (n <=? len l) (skipn (N.to_nat n) l, t && (n =? 0), RUnit)
  | RemovePrefixStr s => guard (prefixb s l) (skipn (length s) l, t && (len s =? 0), RUnit)
  | RemoveSuffix n => guard (n <=? len l) (firstn (length l - N.to_nat n) l, t && (n =? 0), RUnit)
  | RemoveSuffixStr s => guard (suffixb s l) (firstn (length l - length s) l, t && (len s =? 0), RUnit)
  | TrimStart p => Some (drop_while p l, t, RUnit)
  | TrimEnd p => Some (drop_while_end p l, true, RUnit)
  | Trim p => Some (drop_while_end p (drop_while p l), true, RUnit)
  | PadStart n c => guard (ok_size n) (repeat c (N.to_nat n - length l) ++ l, t, RUnit)
  | PadEnd n c => guard (ok_size n) (l ++ repeat c (N.to_nat n - length l), t, RUnit)
  | Replace pos cnt r => if pos + cnt <=? len l then fits (splice pos cnt l r) t else None
  | Insert pos r => if pos <=? len l then fits (splice pos 0 l r) t else None
  | ReplaceAll old new => if len old =? 0 then None else fits (subst (length l) old new l) t
  | Get i => guard (i <? len l) (l, t, RC (nth (N.to_nat i) l 0))
  | SetAt i c => guard (i <? len l) (firstn (N.to_nat i) l ++ [c] ++ skipn (N.to_nat i + 1) l, t, RUnit)
  | Front => guard (negb (len l =? 0)) (l, t, RC (hd 0 l))
  | Back => guard (negb (len l =? 0)) (l, t, RC (last l 0))
  | Size => Some (l, t, RC (len l))
  end.

(* a store of ideal strings: a string is destroyed, moved from (its value is unspecified) or has a value *)
Inductive istr := Dead | Moved | Val (l : list N) (t : bool).
Definition iget (w : list istr) (k : nat) : option (list N * bool) :=
  match nth_error w k with Some (Val l t) => Some (l, t) | _ => None end.
Definition ilive (w : list istr) (k : nat) : bool :=
  match nth_error w k with Some (Val _ _) | Some Moved => true | _ => false end.
Fixpoint iset (w : list istr) (k : nat) (x : istr) : list istr :=
  match w, k with [], _ => [] | _ :: w, O => x :: w | y :: w, S k => y :: iset w k x end.
Definition inew (w : list istr) (l : list N) (t : bool) : option (list istr * res) :=
  guard (ok_size (len l)) (w ++ [Val l t], RUnit).
Definition from (w : list istr) (k : nat) (f : list N -> bool -> option (list istr * res)) : option (list istr * res) :=
  match iget w k with Some (l, t) => f l t | None => None end.
Definition iwstep (w : list istr) (o : wop) : option (list istr * res) :=
  match o with
  | On k o =>
      match nth_error w k, o with
      | Some Moved, Clear => Some (iset w k (Val [] true), RUnit)
      | Some (Val l t), _ =>
          match ideal l t o with Some (l, t, r) => Some (iset w k (Val l t), r) | None => None end
      | _, _ => None
      end
  | New => inew w [] true
  | NewFrom l => inew w l true
  | NewFilled n c => if ok_size n then inew w (repeat c (N.to_nat n)) true else None
  | CopyNew k => from w k (fun l t => inew w l t)
  | MoveNew k => from w k (fun l t => inew (iset w k Moved) l t)
  | CopyAssign k j =>
      if ilive w k then from w j (fun l t => Some (iset w k (Val l t), RUnit)) else None
  | MoveAssign k j => (* self-move is not covered *)
      if ilive w k && negb (k =? j)%nat then from w j (fun l t => Some (iset (iset w k (Val l t)) j Moved, RUnit)) else None
  | Destroy k => if ilive w k then Some (iset w k Dead, RUnit) else None
  | NewMapped f k => from w k (fun l _ => inew w (map f l) true)
  | NewCapitalized k => from w k (fun l _ => inew w (capital l) true)
  | NewReplaced k pos cnt r => from w k (fun l _ => if pos + cnt <=? len l then inew w (splice pos cnt l r) true else None)
  | NewReplacedAll k old new =>
      from w k (fun l t => if len old =? 0 then None else inew w (subst (length l) old new l) (t || (len old <=? len l)))
  | NewConcat r k => from w k (fun l _ => inew w (r ++ l) true)
  end.
Fixpoint iwrun (w : list istr) (os : list wop) : option (list istr * list res) :=
  match os with
  | [] => Some (w, [])
  | o :: os =>
      match iwstep w o with
      | Some (w, r) => match iwrun w os with Some (w, rs) => Some (w, r :: rs) | None => None end
      | None => None
      end
  end.

(* what a store of strings shows for an ideal store *)
Definition shows (sc : N) (s : sbo) (l : list N) (t : bool) : Prop :=
  contents s = Base.Ok l /\ ssz s = len l /\
  (exists c, capacity sc s = Base.Ok c /\ len l <= c) /\
  (t = true -> exists b, buffer s = Base.Ok b /\ nth_error b (length l) = Some (Some 0)).
Definition agrees (sc : N) (x : option sbo) (i : istr) : Prop :=
  match i with
  | Dead => x = None
  | Moved => x <> None
  | Val l t => exists s, x = Some s /\ shows sc s l t
  end.

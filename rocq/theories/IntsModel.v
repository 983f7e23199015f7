(* Model of the integer helpers of src/clean-core/utility.hh (min, max, clamp, int_div_ceil, int_ceil_to_multiple) and of
   the index ranges of src/clean-core/detail/srange.hh and src/clean-core/indices_of.hh, for every integer type.
   Integers are Z; an integer type is its signedness and its number of bits. *)
From Coq Require Import ZArith List Bool.
From Verif Require Import Base.
Import ListNotations.
Open Scope Z_scope.

Record itype := mkt { signed : bool; bits : Z }.
Definition imin (t : itype) : Z := if signed t then - 2 ^ (bits t - 1) else 0.
Definition imax (t : itype) : Z := if signed t then 2 ^ (bits t - 1) - 1 else 2 ^ bits t - 1.
Definition in_type (t : itype) (x : Z) : bool := (imin t <=? x) && (x <=? imax t).
(* integral promotion, int has 32 bits *)
Definition promoted (t : itype) : itype := if bits t <? 32 then mkt true 32 else t.
(* conversion of any integer: modulo 2^bits *)
Definition convert (t : itype) (x : Z) : Z :=
  let r := x mod 2 ^ bits t in if signed t && (2 ^ (bits t - 1) <=? r) then r - 2 ^ bits t else r.
(* the result x of an arithmetic operation in type t: signed overflow is undefined *)
Definition arith (t : itype) (x : Z) : outcome Z := if signed t then (if in_type t x then Ok x else UB) else Ok (x mod 2 ^ bits t).
Definition iadd t a b := arith t (a + b).
Definition isub t a b := arith t (a - b).
Definition imul t a b := arith t (a * b).
Definition idiv t a b := if b =? 0 then UB else arith t (Z.quot a b).

(* utility.hh 61-67 *)
Definition int_div_ceil (t : itype) (nom denom : Z) : outcome Z :=
  let p := promoted t in
  let! _ := contract ((0 <? nom) && (0 <? denom)) in
  let! x := isub p nom 1 in let! x := idiv p x denom in let! x := iadd p 1 x in Ok (convert t x).
(* utility.hh 69-74 *)
Definition int_ceil_to_multiple (t : itype) (val multiple : Z) : outcome Z :=
  let p := promoted t in
  let! x := iadd p val multiple in let! x := isub p x 1 in let! x := idiv p x multiple in let! x := imul p x multiple in Ok (convert t x).

Section Order.
  Context {T : Type} (ltb : T -> T -> bool).
  (* utility.hh 25-29 *)
  Definition max (a b : T) : T := if ltb a b then b else a.
  (* utility.hh 31-35 *)
  Definition min (a b : T) : T := if ltb a b then a else b.
  (* utility.hh 37-42 *)
  Definition clamp (v lo hi : T) : outcome T :=
    let! _ := contract (negb (ltb hi lo)) in Ok (if ltb v lo then lo else if ltb hi v then hi else v).
End Order.

(* ---- srange.hh ---- *)
(* ++x and --x: x = T(x + 1) computed in the promoted type *)
Definition incr (t : itype) (x : Z) : outcome Z := let! y := iadd (promoted t) x 1 in Ok (convert t y).
Definition decr (t : itype) (x : Z) : outcome Z := let! y := isub (promoted t) x 1 in Ok (convert t y).
Record range := mkr { rbegin : Z; rend : Z }.
(* range-based for over irange (srange.hh 27-35, 56-63): the values passed to the body *)
Fixpoint iterate (fuel : nat) (t : itype) (i e : Z) : outcome (list Z) :=
  match fuel with
  | O => OutOfFuel
  | S fuel => if i =? e then Ok [] else let! j := incr t i in let! r := iterate fuel t j e in Ok (i :: r)
  end.
(* srange.hh 37-45, 105-112 *)
Fixpoint iterate_rev (fuel : nat) (t : itype) (i e : Z) : outcome (list Z) :=
  match fuel with
  | O => OutOfFuel
  | S fuel => if i =? e then Ok [] else let! j := decr t i in let! r := iterate_rev fuel t j e in Ok (i :: r)
  end.
(* srange.hh 65-74 *)
Definition skip_first (t : itype) (r : range) : outcome range :=
  if rbegin r =? rend r then Ok r else let! b := incr t (rbegin r) in Ok (mkr b (rend r)).
(* srange.hh 75-84 *)
Definition skip_last (t : itype) (r : range) : outcome range :=
  if rbegin r =? rend r then Ok r else let! e := decr t (rend r) in Ok (mkr (rbegin r) e).
(* srange.hh 86-94; v + 1 has the promoted type; for types smaller than int the braces do not compile *)
Definition cap (t : itype) (r : range) (v : Z) : outcome range :=
  if rend r <=? v then Ok r
  else if v <? rbegin r then Ok (mkr 0 0)
  else let! e := iadd (promoted t) v 1 in Ok (mkr (rbegin r) (convert t e)).
(* srange.hh 96-103 *)
Definition reversed (t : itype) (r : range) : outcome range :=
  let! b := decr t (rend r) in let! e := decr t (rbegin r) in Ok (mkr b e).
(* srange.hh 114-121 *)
Definition rev_reversed (t : itype) (r : range) : outcome range :=
  let! b := incr t (rend r) in let! e := incr t (rbegin r) in Ok (mkr b e).
(* indices_of.hh 27-40, for a size or an integer n *)
Definition indices_of (n : Z) : range := mkr 0 n.

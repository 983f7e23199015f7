(* cc::flags<EnumT, Bits> (src/clean-core/flags.hh): w is the width of storage_t, 8, 16, 32 or 64
   (detail/compact_size_t.hh 60-62); enumerators are their numbers, non-negative. *)
From Coq Require Import NArith List Bool String.
From Verif Require Import Base BitsModel.
Import ListNotations.
Local Open Scope list_scope.
Open Scope N_scope.

(* 47 storage_t(1 << storage_t(e)): the shift is done in int; undefined from 32 on, negative for 31 *)
Definition stored (w e : N) : outcome N :=
  let e := wrap w e in
  if e <? 31 then Ok (wrap w (2 ^ e)) else if e =? 31 then Ok (wrap w (2 ^ 64 - 2 ^ 31)) else UB.
(* 76 *)
Fixpoint or_all (w acc : N) (es : list N) : outcome N :=
  match es with [] => Ok acc | e :: es => let! m := stored w e in or_all w (N.lor acc m) es end.

(* expressions *)
Inductive expr :=
| FNone                            (* 71, 72 *)
| FMake (e : N) (es : list N)      (* 73-77, 15-21 operator| of two enumerators, make_flags 167-174 *)
| FOr (a b : expr)                 (* 111-114, 120-124, 76 with flags arguments *)
| FOrE (a : expr) (e : N)          (* 107-110, 115-119, 161-165 *)
| FAnd (a b : expr)                (* 92-95, 101-105 *)
| FAndE (a : expr) (e : N).        (* 96-100 *)
Fixpoint eval (w : N) (x : expr) : outcome N :=
  match x with
  | FNone => Ok 0
  | FMake e es => let! m := stored w e in or_all w m es
  | FOr a b => let! x := eval w a in let! y := eval w b in Ok (N.lor x y)
  | FOrE a e => let! x := eval w a in let! m := stored w e in Ok (N.lor x m)
  | FAnd a b => let! x := eval w a in let! y := eval w b in Ok (N.land x y)
  | FAndE a e => let! x := eval w a in let! m := stored w e in Ok (N.land x m)
  end.

(* 54, 88-91 *)
Definition has (w v e : N) : outcome bool := let! m := stored w e in Ok (negb (N.land v m =? 0)).
(* 55, 56, 57 *)
Definition has_any (v : N) : bool := negb (v =? 0).
Definition has_all_of (v f : N) : bool := N.land v f =? f.
Definition has_any_of (v f : N) : bool := negb (N.land v f =? 0).
(* 59-64 *)
Definition is_single (v : N) : bool := popcount v =? 1.
Definition single (w v : N) : outcome N := let! _ := contract (is_single v) in Ok (count_trailing_zeros w v).
(* 130, 132 *)
Definition eq (v f : N) : bool := v =? f.
Definition eq_enum (w v e : N) : outcome bool := let! m := stored w e in Ok (v =? m).

(* 183-215 iteration.  212: value & (1 << curr_idx); the int is converted to the promoted type of value *)
Definition iter_bit (w i : N) : outcome N :=
  if i <? 31 then Ok (2 ^ i) else if i =? 31 then Ok (wrap (promoted w) (2 ^ 64 - 2 ^ 31)) else UB.
(* 211-213, after ++curr_idx *)
Fixpoint skip (fuel : nat) (w v curr last : N) : outcome N :=
  match fuel with
  | O => OutOfFuel
  | S fuel => if curr <? last then
                let! m := iter_bit w curr in
                if N.land v m =? 0 then skip fuel w v (curr + 1) last else Ok curr
              else Ok curr
  end.
(* for (auto e : f) with 204, 206 *)
Fixpoint loop (fuel : nat) (w v curr last : N) : outcome (list N) :=
  match fuel with
  | O => OutOfFuel
  | S fuel => if curr =? last then Ok []
              else let! next := skip (S (N.to_nat w)) w v (curr + 1) last in
                   let! es := loop fuel w v next last in Ok (curr :: es)
  end.
(* 190-203 *)
Definition iterate (w v : N) : outcome (list N) :=
  if v =? 0 then loop (S (N.to_nat w)) w v 0 0
  else loop (S (N.to_nat w)) w v (count_trailing_zeros w v) (w - count_leading_zeros w v).

(* 142-159 to_string; bits is the template argument Bits *)
Open Scope string_scope.
Fixpoint print (name : N -> string) (w v : N) (first : bool) (s : string) (is : list nat) : outcome string :=
  match is with
  | [] => Ok (s ++ "}")
  | i :: is => let! b := has w v (N.of_nat i) in
               if b then print name w v false ((if first then s else s ++ ", ") ++ name (N.of_nat i)) is
               else print name w v first s is
  end.
Definition to_string (name : N -> string) (w bits v : N) : outcome string := print name w v true "{" (seq 0 (N.to_nat bits)).

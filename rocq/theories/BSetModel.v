(* cc::bitset<N> (src/clean-core/bitset.hh). *)
From Coq Require Import NArith ZArith List Bool.
From Verif Require Import Base.
Import ListNotations.
Open Scope N_scope.

(* the int expression 1 << idx converted to size_t: undefined from 32 on, negative for 31 *)
Definition int_bit (idx : N) : outcome N :=
  if idx <? 31 then Ok (2 ^ idx) else if idx =? 31 then Ok (2 ^ 64 - 2 ^ 31) else UB.
(* 113 data_mask = (1 << N) - 1; from 31 on this is not a constant expression, using it does not compile *)
Definition data_mask (n : N) : outcome N := if n <? 31 then Ok (2 ^ n - 1) else UB.

(* 27, 46: shift counts outside [0, 64) are undefined *)
Definition shl (n a : N) (b : Z) : outcome N :=
  let! m := data_mask n in
  let! _ := defined ((0 <=? b)%Z && (b <? 64)%Z) in
  Ok (N.land (wrap 64 (N.shiftl a (Z.to_N b))) m).
(* 28, 51 *)
Definition shr (a : N) (b : Z) : outcome N :=
  let! _ := defined ((0 <=? b)%Z && (b <? 64)%Z) in Ok (N.shiftr a (Z.to_N b)).
(* 68-72, 83-87 *)
Definition is_set (n a idx : N) : outcome bool :=
  let! _ := contract (idx <? n) in let! m := int_bit idx in Ok (negb (N.land a m =? 0)).
(* 73-77 *)
Definition is_unset (n a idx : N) : outcome bool :=
  let! _ := contract (idx <? n) in let! m := int_bit idx in Ok (N.land a m =? 0).
(* 93-97; unset 98-102: ~ of an int, then converted, is ~ of the converted value; toggle 103-107 *)
Definition set_ (n a idx : N) : outcome N :=
  let! _ := contract (idx <? n) in let! m := int_bit idx in Ok (N.lor a m).
Definition unset (n a idx : N) : outcome N :=
  let! _ := contract (idx <? n) in let! m := int_bit idx in Ok (N.land a (wnot 64 m)).
Definition toggle (n a idx : N) : outcome N :=
  let! _ := contract (idx <? n) in let! m := int_bit idx in Ok (N.lxor a m).
(* 65, 66 *)
Definition any (a : N) : bool := negb (a =? 0).
Definition all (n a : N) : outcome bool := let! m := data_mask n in Ok (a =? m).

(* programs over bitset variables *)
Inductive bop := BOr | BAnd | BXor.
Definition bin (k : bop) (a b : N) : N := match k with BOr => N.lor a b | BAnd => N.land a b | BXor => N.lxor a b end. (* 24-26, 30-44 *)
Definition shift (lft : bool) (n a : N) (b : Z) : outcome N := if lft then shl n a b else shr a b.
Inductive op :=
| New | NewData (d : N) | NewNot (v : nat) | NewBin (k : bop) (v u : nat) | NewShift (lft : bool) (v : nat) (b : Z)
| AssBin (k : bop) (v u : nat) | AssShift (lft : bool) (v : nat) (b : Z)
| Clear (v : nat) | Set_ (v : nat) (idx : N) | Unset (v : nat) (idx : N) | Toggle (v : nat) (idx : N)
| Size (v : nat) | Any (v : nat) | All (v : nat) | IsSet (v : nat) (idx : N) | IsUnset (v : nat) (idx : N) | Index (v : nat) (idx : N)
| Eq (v u : nat) | Ne (v u : nat) | Representation (v : nat).
Inductive res := RUnit | RB (b : bool) | RN (n : N).
Definition on (st : list N) (v : nat) (f : N -> outcome N) : outcome (list N * res) :=
  let! a := aget st v in let! r := f a in Ok (lset st v r, RUnit).
Definition add (st : list N) (x : outcome N) : outcome (list N * res) := let! r := x in Ok (st ++ [r], RUnit).
Definition step (n : N) (st : list N) (o : op) : outcome (list N * res) :=
  match o with
  | New => add st (Ok 0)                                                   (* 17 *)
  | NewData d => add st (Ok d)                                             (* 18 *)
  | NewNot v => add st (let! a := aget st v in Ok (wnot 64 a))             (* 22 *)
  | NewBin k v u => add st (let! a := aget st v in let! b := aget st u in Ok (bin k a b))
  | NewShift lft v b => add st (let! a := aget st v in shift lft n a b)
  | AssBin k v u => on st v (fun a => let! b := aget st u in Ok (bin k a b))
  | AssShift lft v b => on st v (fun a => shift lft n a b)
  | Clear v => on st v (fun _ => Ok 0)                                     (* 91 *)
  | Set_ v idx => on st v (fun a => set_ n a idx)
  | Unset v idx => on st v (fun a => unset n a idx)
  | Toggle v idx => on st v (fun a => toggle n a idx)
  | Size v => let! _ := aget st v in Ok (st, RN n)                         (* 62 *)
  | Any v => let! a := aget st v in Ok (st, RB (any a))
  | All v => let! a := aget st v in let! b := all n a in Ok (st, RB b)
  | IsSet v idx => let! a := aget st v in let! b := is_set n a idx in Ok (st, RB b)
  | IsUnset v idx => let! a := aget st v in let! b := is_unset n a idx in Ok (st, RB b)
  | Index v idx => let! a := aget st v in let! b := is_set n a idx in Ok (st, RB b)
  | Eq v u => let! a := aget st v in let! b := aget st u in Ok (st, RB (a =? b))         (* 56 *)
  | Ne v u => let! a := aget st v in let! b := aget st u in Ok (st, RB (negb (a =? b)))  (* 57 *)
  | Representation v => let! a := aget st v in Ok (st, RN a)               (* 80 *)
  end.
Fixpoint run (n : N) (st : list N) (os : list op) : outcome (list N * list res) :=
  match os with
  | [] => Ok (st, [])
  | o :: os => let! x := step n st o in let! y := run n (fst x) os in Ok (fst y, snd x :: snd y)
  end.

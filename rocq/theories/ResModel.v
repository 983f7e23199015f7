(* cc::result<Value, Error> (src/clean-core/result.hh): a world of result variables with aliasing.
   Values and errors are elements of one type A; in storage an error has tag 0 and a value tag 1. *)
From Coq Require Import Arith List Bool.
From Verif Require Import Base Tagged.
Import ListNotations.

Section Res.
  Context {A : Type}.
  (* result.hh 108-117 *)
  Record result := mkr { isv : bool; dat : tcell A }.
  Definition world := list (option result).
  Definition tag (b : bool) : nat := if b then 1 else 0.

  (* 119-125 *)
  Definition impl_dtor (w : world) (k : nat) : outcome world :=
    let! o := var w k in let! c := tkill (dat o) (tag (isv o)) in Ok (upd w k (mkr (isv o) c)).
  Definition set_isv (w : world) (k : nat) (b : bool) : outcome world :=
    let! o := var w k in Ok (upd w k (mkr b (dat o))).
  (* new (placement_new, &_storage._value) Value(v), or the same with _error *)
  Definition place (w : world) (k : nat) (b : bool) (v : A) : outcome world :=
    let! o := var w k in let! c := tplace (dat o) (tag b) v in Ok (upd w k (mkr (isv o) c)).
  Definition read (w : world) (k : nat) (b : bool) : outcome A := let! o := var w k in tread (dat o) (tag b).
  Definition take (w : world) (k : nat) (b : bool) : outcome (A * world) :=
    let! o := var w k in let! r := ttake (dat o) (tag b) in Ok (fst r, upd w k (mkr (isv o) (snd r))).

  (* 51 result() with the default error e0, 59 result(Error e), 54-58 result(Value v) *)
  Definition new_error (w : world) (e : A) : outcome world := place (add w (mkr false TRaw)) (length w) false e.
  Definition new_value (w : world) (v : A) : outcome world :=
    let! w1 := place (add w (mkr false TRaw)) (length w) true v in set_isv w1 (length w) true.
  (* 63-67 and 84-88: become a copy of variable j *)
  Definition copy_from (w : world) (k j : nat) : outcome world :=
    let! r := var w j in
    let! w := set_isv w k (isv r) in
    let! r := var w j in
    let! v := read w j (isv r) in place w k (isv r) v.
  (* 71-75 and 98-102: move from variable j *)
  Definition move_from (w : world) (k j : nat) : outcome world :=
    let! r := var w j in
    let! w := set_isv w k (isv r) in
    let! r := var w j in
    let! m := take w j (isv r) in place (snd m) k (isv r) (fst m).
  (* 61-68, 69-76 *)
  Definition new_copy (w : world) (j : nat) : outcome world := copy_from (add w (mkr false TRaw)) (length w) j.
  Definition new_move (w : world) (j : nat) : outcome world := move_from (add w (mkr false TRaw)) (length w) j.
  (* 78-92 *)
  Definition copy_assign (w : world) (k j : nat) : outcome world :=
    if negb (k =? j) then let! w := impl_dtor w k in copy_from w k j else let! _ := var w k in Ok w.
  (* 93-105 *)
  Definition move_assign (w : world) (k j : nat) : outcome world :=
    let! w := impl_dtor w k in move_from w k j.
  (* 52 *)
  Definition destroy (w : world) (k : nat) : outcome world :=
    let! w := impl_dtor w k in
    let! o := var w k in let! _ := tfree (dat o) in Ok (del w k).
  (* 26-47 value(), error(), value_or *)
  Definition value (w : world) (k : nat) : outcome A := let! o := var w k in let! _ := contract (isv o) in read w k true.
  Definition error (w : world) (k : nat) : outcome A := let! o := var w k in let! _ := contract (negb (isv o)) in read w k false.
  Definition value_or (w : world) (k : nat) (d : A) : outcome A := let! o := var w k in if isv o then read w k true else Ok d.
  (* 23-24 *)
  Variable eqA : A -> A -> bool.
  Definition is_value_v (w : world) (k : nat) (v : A) : outcome bool :=
    let! o := var w k in if isv o then let! x := read w k true in Ok (eqA x v) else Ok false.
  Definition is_error_e (w : world) (k : nat) (e : A) : outcome bool :=
    let! o := var w k in if negb (isv o) then let! x := read w k false in Ok (eqA x e) else Ok false.

  Variable e0 : A.   (* Error() *)
  Inductive op :=
  | New | NewValue (v : A) | NewError (e : A) | NewCopy (j : nat) | NewMove (j : nat)
  | CopyAssign (k j : nat) | MoveAssign (k j : nat) | Destroy (k : nat)
  | IsValue (k : nat) | IsError (k : nat) | Value (k : nat) | Error (k : nat) | ValueOr (k : nat) (d : A)
  | IsValueV (k : nat) (v : A) | IsErrorE (k : nat) (e : A).
  Inductive res := RUnit | RB (b : bool) | RV (v : A).
  Definition unit_ (o : outcome world) : outcome (world * res) := let! w := o in Ok (w, RUnit).
  Definition bool_ (w : world) (o : outcome bool) : outcome (world * res) := let! b := o in Ok (w, RB b).
  Definition val_ (w : world) (o : outcome A) : outcome (world * res) := let! v := o in Ok (w, RV v).
  Definition step (w : world) (o : op) : outcome (world * res) :=
    match o with
    | New => unit_ (new_error w e0)
    | NewValue v => unit_ (new_value w v)
    | NewError e => unit_ (new_error w e)
    | NewCopy j => unit_ (new_copy w j)
    | NewMove j => unit_ (new_move w j)
    | CopyAssign k j => unit_ (copy_assign w k j)
    | MoveAssign k j => unit_ (move_assign w k j)
    | Destroy k => unit_ (destroy w k)
    | IsValue k => bool_ w (let! o := var w k in Ok (isv o))              (* 21 *)
    | IsError k => bool_ w (let! o := var w k in Ok (negb (isv o)))       (* 22 *)
    | Value k => val_ w (value w k)
    | Error k => val_ w (error w k)
    | ValueOr k d => val_ w (value_or w k d)
    | IsValueV k v => bool_ w (is_value_v w k v)
    | IsErrorE k e => bool_ w (is_error_e w k e)
    end.
  Fixpoint run (w : world) (os : list op) : outcome (world * list res) :=
    match os with
    | [] => Ok (w, [])
    | o :: os => let! x := step w o in let! y := run (fst x) os in Ok (fst y, snd x :: snd y)
    end.
End Res.
Arguments result : clear implicits. Arguments world : clear implicits. Arguments op : clear implicits. Arguments res : clear implicits.

(* cc::capped_box<T, MaxSize> (src/clean-core/experimental/capped_box.hh) with a T that has a destructor
   (has_dtor): a world of box variables.  The dynamic type of a payload is a number.
   hm is has_move: T has a non-trivial move constructor; otherwise payloads are moved with memcpy, which
   carries the object over to the other storage and leaves none behind.
   Simplified: payloads are constructed from values from elsewhere; moves between boxes of different static
   types (123-165) are the same code as 81-121; make_capped_box returns its local variable in place (NRVO).
   get() (199) and, for trivially destructible T, emplace (174) do not compile. *)
From Coq Require Import Arith List Bool.
From Verif Require Import Base Tagged.
Import ListNotations.

Section Box.
  Context {A : Type}.
  Variable hm : bool.
  (* 18-46: _data, _dtor and _move; function pointers are the payload type they were made for *)
  Record box := mkb { dat : tcell A; dtor : option nat; mv : option nat }.
  Definition world := list (option box).

  Definition set_dat (b : box) (c : tcell A) : box := mkb c (dtor b) (mv b).
  (* if (_dtor) _dtor(_data) *)
  Definition run_dtor (b : box) : outcome box :=
    match dtor b with None => Ok b | Some t => let! c := tkill (dat b) t in Ok (set_dat b c) end.
  (* 213-225 *)
  Definition init_type (b : box) (t : nat) : box := mkb (dat b) (Some t) (if hm then Some t else None).
  (* new (placement_new, _data) U(v); _init_type<U>() *)
  Definition construct (b : box) (t : nat) (v : A) : outcome box :=
    let! c := tplace (dat b) t v in Ok (init_type (set_dat b c) t).

  (* 57-64 *)
  Definition new_val (w : world) (t : nat) (v : A) : outcome world :=
    let! b := construct (mkb TRaw None None) t v in Ok (add w b).
  (* 66-79 *)
  Definition assign_val (w : world) (k t : nat) (v : A) : outcome world :=
    let! b := var w k in let! b := run_dtor b in let! b := construct b t v in Ok (upd w k b).
  (* 83-92, 109-118: the payload and _move *)
  Definition move_data (w : world) (k j : nat) : outcome world :=
    let! s := var w j in
    if hm then
      let! w := match mv s with
                | None => Ok w
                | Some t => let! r := ttake (dat s) t in
                            let w := upd w j (set_dat s (snd r)) in
                            let! d := var w k in let! c := tplace (dat d) t (fst r) in Ok (upd w k (set_dat d c))
                end in
      let! s := var w j in let! d := var w k in
      let w := upd w k (mkb (dat d) (dtor d) (mv s)) in
      let! s := var w j in Ok (upd w j (mkb (dat s) (dtor s) None))
    else
      (* memcpy *)
      let w := upd w j (set_dat s TRaw) in
      let! d := var w k in let! _ := tfree (dat d) in Ok (upd w k (set_dat d (dat s))).
  (* 81-99 *)
  Definition new_move (w : world) (j : nat) : outcome world :=
    let k := length w in
    let! w := move_data (add w (mkb TRaw None None)) k j in
    let! s := var w j in let! d := var w k in
    let w := upd w k (mkb (dat d) (dtor s) (mv d)) in
    let! s := var w j in Ok (upd w j (mkb (dat s) None (mv s))).
  (* 100-121 *)
  Definition move_assign (w : world) (k j : nat) : outcome world :=
    let! d := var w k in let! d := run_dtor d in
    let w := upd w k d in
    let! s := var w j in
    let w := upd w k (mkb (dat d) (dtor s) (mv d)) in
    move_data w k j.
  (* 167-181 *)
  Definition emplace (w : world) (k t : nat) (v : A) : outcome world :=
    let! b := var w k in let! b := run_dtor b in let! b := construct b t v in Ok (upd w k b).
  (* 228-234 *)
  Definition make (w : world) (t : nat) (v : A) : outcome world :=
    emplace (add w (mkb TRaw None None)) (length w) t v.
  (* 186-191, then the storage goes away *)
  Definition destroy (w : world) (k : nat) : outcome world :=
    let! b := var w k in let! b := run_dtor b in let! _ := tfree (dat b) in Ok (del w k).
  (* 202-208, reading the payload *)
  Definition get (w : world) (k : nat) : outcome (nat * A) :=
    let! b := var w k in match dat b with TObj t v => Ok (t, v) | _ => UB end.

  Inductive op := NewVal (t : nat) (v : A) | Make (t : nat) (v : A) | AssignVal (k t : nat) (v : A) | NewMove (j : nat)
  | MoveAssign (k j : nat) | Emplace (k t : nat) (v : A) | Destroy (k : nat) | Get (k : nat).
  Inductive res := RUnit | RVal (t : nat) (v : A).
  Definition unit_ (o : outcome world) : outcome (world * res) := let! w := o in Ok (w, RUnit).
  Definition step (w : world) (o : op) : outcome (world * res) :=
    match o with
    | NewVal t v => unit_ (new_val w t v) | Make t v => unit_ (make w t v) | AssignVal k t v => unit_ (assign_val w k t v)
    | NewMove j => unit_ (new_move w j) | MoveAssign k j => unit_ (move_assign w k j)
    | Emplace k t v => unit_ (emplace w k t v) | Destroy k => unit_ (destroy w k)
    | Get k => let! r := get w k in Ok (w, RVal (fst r) (snd r))
    end.
  Fixpoint run (w : world) (os : list op) : outcome (world * list res) :=
    match os with
    | [] => Ok (w, [])
    | o :: os => let! x := step w o in let! y := run (fst x) os in Ok (fst y, snd x :: snd y)
    end.
End Box.
Arguments box : clear implicits. Arguments world : clear implicits. Arguments op : clear implicits. Arguments res : clear implicits.

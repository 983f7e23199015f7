(* cc::optional<T> (src/clean-core/optional.hh): a world of optional variables and all operations on them,
   with aliasing between the operands.
   Simplified: map is modelled with a function to the same type; constexpr and overloads that differ only in
   constness are merged. *)
From Coq Require Import Arith List Bool.
From Verif Require Import Base Tagged.
Import ListNotations.

Section Opt.
  Context {A : Type}.
  (* optional.hh 280-281 *)
  Record opt := mko { has : bool; dat : tcell A }.
  Definition world := list (option opt).

  (* an argument of type T: a value from elsewhere, or a reference to the value of variable j, from value() *)
  Inductive src := Ext (v : A) | Own (j : nat).

  (* value(), 155-174: the contract only *)
  Definition value_check (w : world) (k : nat) : outcome unit := let! o := var w k in contract (has o).
  Definition deref (w : world) (k : nat) : outcome A := let! o := var w k in tread (dat o) 0.
  Definition src_check (w : world) (s : src) : outcome unit := match s with Ext _ => Ok tt | Own j => value_check w j end.
  Definition src_read (w : world) (s : src) : outcome A := match s with Ext v => Ok v | Own j => deref w j end.

  (* `if (_has_value) _data.value.~T();` *)
  Definition kill_value (w : world) (k : nat) : outcome world :=
    let! o := var w k in
    if has o then let! c := tkill (dat o) 0 in Ok (upd w k (mko true c)) else Ok w.
  (* `_has_value = b` *)
  Definition set_has (w : world) (k : nat) (b : bool) : outcome world :=
    let! o := var w k in Ok (upd w k (mko b (dat o))).
  (* `new (placement_new, &_data.value) T(v)` *)
  Definition place_value (w : world) (k : nat) (v : A) : outcome world :=
    let! o := var w k in let! c := tplace (dat o) 0 v in Ok (upd w k (mko (has o) c)).
  (* move out of the value of variable k *)
  Definition take_value (w : world) (k : nat) : outcome (A * world) :=
    let! o := var w k in let! r := ttake (dat o) 0 in Ok (fst r, upd w k (mko (has o) (snd r))).

  (* 41-42 *)
  Definition new_empty (w : world) : world := add w (mko false TRaw).
  (* 44-53 *)
  Definition new_value (w : world) (s : src) : outcome world :=
    let! _ := src_check w s in
    let! v := src_read w s in
    let k := length w in
    let! w := place_value (new_empty w) k v in set_has w k true.
  (* 72-81 *)
  Definition new_move (w : world) (j : nat) : outcome world :=
    let k := length w in
    let w := new_empty w in
    let! r := var w j in
    if has r then
      let! m := take_value w j in
      let! w := place_value (snd m) k (fst m) in
      let! r := var w j in let! c := tkill (dat r) 0 in
      let! w := set_has (upd w j (mko (has r) c)) j false in
      set_has w k true
    else Ok w.
  (* 82-89 *)
  Definition new_copy (w : world) (j : nat) : outcome world :=
    let k := length w in
    let w := new_empty w in
    let! r := var w j in
    if has r then
      let! v := deref w j in
      let! w := place_value w k v in set_has w k true
    else Ok w.
  (* 91-99 *)
  Definition assign_null (w : world) (k : nat) : outcome world :=
    let! o := var w k in
    if has o then let! w := kill_value w k in set_has w k false else Ok w.
  (* 100-117 *)
  Definition move_assign (w : world) (k j : nat) : outcome world :=
    let! w := assign_null w k in          (* 102-106 *)
    let! r := var w j in
    if has r then
      let! m := take_value w j in
      let! w := place_value (snd m) k (fst m) in
      let! r := var w j in let! c := tkill (dat r) 0 in
      let! w := set_has (upd w j (mko (has r) c)) j false in
      set_has w k true
    else Ok w.
  (* 118-133 *)
  Definition copy_assign (w : world) (k j : nat) : outcome world :=
    let! w := assign_null w k in          (* 120-124 *)
    let! r := var w j in
    if negb (k =? j) && has r then
      let! v := deref w j in
      let! w := place_value w k v in set_has w k true
    else Ok w.
  (* 135-139 *)
  Definition destroy (w : world) (k : nat) : outcome world :=
    let! w := kill_value w k in
    let! o := var w k in let! _ := tfree (dat o) in Ok (del w k).
  (* 189-196 emplace, and 63-70 operator=(U&&) *)
  Definition emplace (w : world) (k : nat) (s : src) : outcome world :=
    let! _ := src_check w s in
    let! w := kill_value w k in
    let! v := src_read w s in
    let! w := place_value w k v in set_has w k true.
  (* k = t for a t of type T: through a temporary optional (44-53, 100-117, 135-139) *)
  Definition assign_t (w : world) (k : nat) (s : src) : outcome world :=
    let n := length w in
    let! w := new_value w s in
    let! w := move_assign w k n in
    let! w := destroy w n in Ok (firstn n w).
  (* 177-180 value_or *)
  Definition value_or (w : world) (k : nat) (d : A) : outcome A :=
    let! o := var w k in if has o then deref w k else Ok d.
  (* 165-169 value() && and moving from the result *)
  Definition move_value (w : world) (k : nat) : outcome (A * world) :=
    let! _ := value_check w k in take_value w k.
  (* 182-185 value_or && *)
  Definition move_value_or (w : world) (k : nat) (d : A) : outcome (A * world) :=
    let! o := var w k in if has o then take_value w k else Ok (d, w).
  (* 219-233 map: a new optional *)
  Definition new_map (w : world) (k : nat) (f : A -> A) : outcome world :=
    let! o := var w k in
    if has o then let! v := deref w k in new_value w (Ext (f v)) else Ok (new_empty w).
  (* 265-272 transform *)
  Definition transform (w : world) (k : nat) (f : A -> A) : outcome world :=
    let! o := var w k in
    if has o then let! v := deref w k in Ok (upd w k (mko (has o) (TObj 0 (f v)))) else Ok w.

  (* 306-341, 276-277: comparisons *)
  Variable eqA : A -> A -> bool.
  Definition equal (w : world) (k j : nat) : outcome bool :=
    let! a := var w k in let! b := var w j in
    if has a && has b then let! x := deref w k in let! y := deref w j in Ok (eqA x y)
    else Ok (Bool.eqb (has a) (has b)).
  Definition not_equal (w : world) (k j : nat) : outcome bool :=
    let! a := var w k in let! b := var w j in
    if has a && has b then let! x := deref w k in let! y := deref w j in Ok (negb (eqA x y))
    else Ok (negb (Bool.eqb (has a) (has b))).
  Definition equal_value (w : world) (k : nat) (v : A) : outcome bool :=
    let! a := var w k in if has a then let! x := deref w k in Ok (eqA x v) else Ok false.
  (* 359-372 less *)
  Variable ltA : A -> A -> bool.
  Definition less (w : world) (k j : nat) : outcome bool :=
    let! a := var w k in let! b := var w j in
    if negb (has a) && negb (has b) then Ok false
    else if negb (has a) then Ok true
    else if negb (has b) then Ok false
    else let! x := deref w k in let! y := deref w j in Ok (ltA x y).

  Inductive op :=
  | New | NewValue (s : src) | NewMove (j : nat) | NewCopy (j : nat) | NewMap (j : nat) (f : A -> A)
  | SetNull (k : nat) | MoveAssign (k j : nat) | CopyAssign (k j : nat) | AssignT (k : nat) (s : src)
  | Emplace (k : nat) (s : src) | Destroy (k : nat) | Transform (k : nat) (f : A -> A)
  | MoveValue (k : nat) | MoveValueOr (k : nat) (d : A)
  | HasValue (k : nat) | Value (k : nat) | ValueOr (k : nat) (d : A)
  | Equal (k j : nat) | NotEqual (k j : nat) | EqualValue (k : nat) (v : A) | Less (k j : nat).
  Inductive res := RUnit | RB (b : bool) | RV (v : A).

  Definition unit_ (o : outcome world) : outcome (world * res) := let! w := o in Ok (w, RUnit).
  Definition bool_ (w : world) (o : outcome bool) : outcome (world * res) := let! b := o in Ok (w, RB b).
  Definition val_ (w : world) (o : outcome A) : outcome (world * res) := let! v := o in Ok (w, RV v).
  Definition step (w : world) (o : op) : outcome (world * res) :=
    match o with
    | New => Ok (new_empty w, RUnit)
    | NewValue s => unit_ (new_value w s)
    | NewMove j => unit_ (new_move w j)
    | NewCopy j => unit_ (new_copy w j)
    | NewMap j f => unit_ (new_map w j f)
    | SetNull k => unit_ (assign_null w k)
    | MoveAssign k j => unit_ (move_assign w k j)
    | CopyAssign k j => unit_ (copy_assign w k j)
    | AssignT k s => unit_ (assign_t w k s)
    | Emplace k s => unit_ (emplace w k s)
    | Destroy k => unit_ (destroy w k)
    | Transform k f => unit_ (transform w k f)
    | MoveValue k => let! r := move_value w k in Ok (snd r, RV (fst r))
    | MoveValueOr k d => let! r := move_value_or w k d in Ok (snd r, RV (fst r))
    | HasValue k => bool_ w (let! o := var w k in Ok (has o))          (* 153 *)
    | Value k => val_ w (let! _ := value_check w k in deref w k)       (* 155-164 *)
    | ValueOr k d => val_ w (value_or w k d)
    | Equal k j => bool_ w (equal w k j)
    | NotEqual k j => bool_ w (not_equal w k j)
    | EqualValue k v => bool_ w (equal_value w k v)
    | Less k j => bool_ w (less w k j)
    end.
  Fixpoint run (w : world) (os : list op) : outcome (world * list res) :=
    match os with
    | [] => Ok (w, [])
    | o :: os => let! x := step w o in let! y := run (fst x) os in Ok (fst y, snd x :: snd y)
    end.
End Opt.
Arguments src : clear implicits. Arguments op : clear implicits. Arguments res : clear implicits.
Arguments opt : clear implicits. Arguments world : clear implicits.

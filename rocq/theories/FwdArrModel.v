(* Model of cc::fwd_array (src/clean-core/fwd_array.hh), an array on new[] and delete[]. The world counts the
   constructor calls and the destructor calls on elements. delete_data is set by every constructor that allocates and
   travels with the pointer, so _op is not represented. new[] succeeds. tc: is_trivially_constructible. *)
From Coq Require Import NArith Arith List Bool.
From Verif Require Import Base Cells.
Import ListNotations.
Open Scope N_scope.

Section FwdArr.
  Context {A : Type}.
  (* the value of T(); is_trivially_constructible *)
  Variable dflt : A.
  Variable tc : bool.

  Notation cells := (list (cell A)).
  Definition heap := list (option cells).
  (* _data, _size; fwd_array.hh 117-118 *)
  Record farr := mkf { fdata : option nat; fsize : N }.
  Definition null : farr := mkf None 0.
  Record world := mkw { hp : heap; objs : list (option farr); made : N; gone : N }.

  (* new T[n](): value-initialised *)
  Definition new_value (n : N) : cells := repeat (Obj dflt) (N.to_nat n).
  (* new T[n]: default-initialised, no value for types without a constructor *)
  Definition new_default (n : N) : cells := if tc then repeat Raw (N.to_nat n) else repeat (Obj dflt) (N.to_nat n).
  (* new (placement_new, &data[i]) T(v) in storage that may hold an object already: its lifetime ends without a
     destructor call. container_copy_construct_range, detail/container_impl_util.hh 30-44; for trivially copyable
     types memcpy has the same effect on the values *)
  Definition reconstruct (c : cells) (i : nat) (v : A) : outcome cells :=
    match nth_error c i with Some _ => Ok (lset c i (Obj v)) | None => UB end.
  Fixpoint copy_construct (n i : nat) (src : list A) (c : cells) : outcome cells :=
    match n with
    | O => Ok c
    | S n => let! v := aget src i in let! c := reconstruct c i v in copy_construct n (S i) src c
    end.
  (* data[i] = v; types without a constructor accept storage without a value *)
  Definition assign_elem (c : cells) (i : nat) (x : A) : outcome cells :=
    match nth_error c i with
    | Some Raw => if tc then Ok (lset c i (Obj x)) else UB
    | _ => assign c i x
    end.
  (* cc::fill, algorithms.hh 21-30 *)
  Fixpoint fill (n i : nat) (x : outcome A) (c : cells) : outcome cells :=
    match n with
    | O => Ok c
    | S n => let! v := x in let! c := assign_elem c i v in fill n (S i) x c
    end.
  (* delete[] p: one destructor call per element *)
  Definition delete_data (w : world) (p : option nat) : outcome world :=
    match p with
    | None => Ok w
    | Some b => match nth_error (hp w) b with
                | Some (Some c) => Ok (mkw (lset (hp w) b None) (objs w) (made w) (gone w + N.of_nat (length c)))
                | _ => UB
                end
    end.

  Definition cells_of (h : heap) (p : option nat) : outcome cells :=
    match p with
    | None => Ok []
    | Some b => match nth_error h b with Some (Some c) => Ok c | _ => UB end
    end.
  Definition get (w : world) (k : nat) : outcome farr := match nth_error (objs w) k with Some (Some a) => Ok a | _ => UB end.
  Definition elements (a : farr) (h : heap) (i : nat) : outcome A :=
    let! c := cells_of h (fdata a) in cread c i.
  (* a value argument: a value from elsewhere or a reference to element i of array j *)
  Inductive arg := Val (x : A) | Elem (j : nat) (i : N).
  Definition eval (w : world) (x : arg) : outcome A :=
    match x with Val x => Ok x | Elem j i => let! a := get w j in elements a (hp w) (N.to_nat i) end.
  (* a new array on a new block *)
  Definition add (w : world) (n : N) (c : cells) (calls : N) : world :=
    mkw (hp w ++ [Some c]) (objs w ++ [Some (mkf (Some (length (hp w))) n)]) (made w + calls) (gone w).

  Inductive op :=
  | New | NewSized (n : N) | Uninit (n : N) | Filled (n : N) (x : arg) | NewFrom (vs : list A) | MoveNew (j : nat)
  | MoveAssign (k j : nat) | Destroy (k : nat) | Get (k : nat) (i : N) | Set_ (k : nat) (i : N) (x : A) | Size (k : nat).
  Inductive res := RUnit | RVal (x : A) | RN (n : N).

  Definition step (w : world) (o : op) : outcome (world * res) :=
    match o with
    (* fwd_array.hh 22 *)
    | New => Ok (mkw (hp w) (objs w ++ [Some null]) (made w) (gone w), RUnit)
    (* fwd_array.hh 24-31 *)
    | NewSized n => Ok (add w n (new_value n) n, RUnit)
    (* fwd_array.hh 33-40 *)
    | Uninit n => Ok (add w n (new_default n) n, RUnit)
    (* fwd_array.hh 42-50 *)
    | Filled n x => let! c := fill (N.to_nat n) 0 (eval w x) (new_default n) in Ok (add w n c n, RUnit)
    (* fwd_array.hh 52-66: the copies are constructed over the elements made by new T[n] *)
    | NewFrom vs =>
        let n := N.of_nat (length vs) in
        let! c := copy_construct (length vs) 0 vs (new_default n) in Ok (add w n c (n + n), RUnit)
    (* fwd_array.hh 68-75 *)
    | MoveNew j => let! a := get w j in Ok (mkw (hp w) (lset (objs w) j (Some null) ++ [Some a]) (made w) (gone w), RUnit)
    (* fwd_array.hh 76-86 *)
    | MoveAssign k j =>
        let! a := get w k in
        let! w := delete_data w (fdata a) in
        let! r := get w j in
        Ok (mkw (hp w) (lset (lset (objs w) k (Some r)) j (Some null)) (made w) (gone w), RUnit)
    (* fwd_array.hh 87-91 *)
    | Destroy k =>
        let! a := get w k in
        let! w := delete_data w (fdata a) in
        Ok (mkw (hp w) (lset (objs w) k None) (made w) (gone w), RUnit)
    (* fwd_array.hh 105-114 *)
    | Get k i =>
        let! a := get w k in
        let! _ := contract (i <? fsize a) in
        let! x := elements a (hp w) (N.to_nat i) in Ok (w, RVal x)
    | Set_ k i x =>
        let! a := get w k in
        let! _ := contract (i <? fsize a) in
        let! c := cells_of (hp w) (fdata a) in
        let! c := assign_elem c (N.to_nat i) x in
        Ok (mkw (match fdata a with Some b => lset (hp w) b (Some c) | None => hp w end) (objs w) (made w) (gone w), RUnit)
    | Size k => let! a := get w k in Ok (w, RN (fsize a))
    end.
  Fixpoint run (w : world) (os : list op) : outcome (world * list res) :=
    match os with
    | [] => Ok (w, [])
    | o :: os => let! (w, r) := step w o in let! (w, rs) := run w os in Ok (w, r :: rs)
    end.
End FwdArr.
Arguments op A : clear implicits.
Arguments world A : clear implicits.
Arguments res A : clear implicits.
Arguments arg A : clear implicits.
Arguments heap A : clear implicits.

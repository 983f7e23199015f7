(* Model of cc::box, cc::poly_box, cc::fwd_box and cc::pimpl (src/clean-core/experimental/box.hh, poly_box.hh, fwd_box.hh,
   pimpl.hh). The boxed values do not own boxes themselves; move assignment between boxes of linked structures has the control
   flow of unique_ptr, see UPtrModel.v. Allocation succeeds. *)
From Coq Require Import Arith List Bool.
From Verif Require Import Base.
Import ListNotations.

(* poly_box: whether the destructor of T is virtual *)
Inductive kind := KBox | KPoly (virtual : bool) | KFwd.

Section Box.
  Context {A : Type} (kd : kind) (eqb ltb : A -> A -> bool).
  (* a heap object: its dynamic type (0: T itself) and its value *)
  Definition heap := list (option (nat * A)).
  (* _data; for fwd_box whether _deleter is set *)
  Record box := mkb { bdata : option nat; bdel : bool }.
  Record world := mkw { hp : heap; objs : list (option box) }.
  Definition null : box := mkb None false.

  (* cc::free or delete: the destructor of the static type runs if it is not virtual *)
  Definition free (h : heap) (b : nat) : outcome heap :=
    match nth_error h b with
    | Some (Some (d, _)) => let! _ := defined (match kd with KPoly false => Nat.eqb d 0 | _ => true end) in Ok (lset h b None)
    | _ => UB
    end.
  (* if (_data) ... (box.hh 36-37, 47-51, poly_box.hh 37-38; delete of null does nothing, poly_box.hh 25, 66, 75);
     if (_deleter) ... (fwd_box.hh 25-26, 38-42) *)
  Definition release (h : heap) (x : box) : outcome heap :=
    match kd with
    | KFwd => if bdel x then match bdata x with Some b => free h b | None => Ok h end else Ok h
    | _ => match bdata x with Some b => free h b | None => Ok h end
    end.
  Definition get (w : world) (k : nat) : outcome box := match nth_error (objs w) k with Some (Some x) => Ok x | _ => UB end.
  (* operator-> and operator*: box.hh 59-78, poly_box.hh 86-105, fwd_box.hh 50-69; null checks are enabled *)
  Definition deref (x : box) : outcome nat := match bdata x with Some b => Ok b | None => Contract end.
  Definition load (h : heap) (b : nat) : outcome A := match nth_error h b with Some (Some (_, x)) => Ok x | _ => UB end.
  Definition store (h : heap) (b : nat) (x : A) : outcome heap :=
    match nth_error h b with Some (Some (d, _)) => Ok (lset h b (Some (d, x))) | _ => UB end.

  (* the right hand side: a temporary, or the value in the box itself *)
  Inductive source := Val (x : A) | Own.
  Inductive op :=
  (* constructors from values and make_ functions, with the dynamic type *)
  | Make (d : nat) (x : A)
  (* assignment of a value; for poly_box also emplace *)
  | Assign (k d : nat) (s : source)
  | MoveNew (j : nat) | MoveAssign (k j : nat) | Destroy (k : nat)
  | Read (k : nat) | Write (k : nat) (x : A) | TypeOf (k : nat)
  (* the conversion operator to T& *)
  | Convert (k : nat)
  | IsNull (k : nat) | Equal (k j : nat) | Less (k j : nat).
  Inductive res := RUnit | RA (x : A) | RB (b : bool) | RN (n : nat).

  (* box and fwd_box hold objects of type T *)
  Definition typed (d : nat) : bool := match kd with KPoly _ => true | _ => Nat.eqb d 0 end.
  Definition step (w : world) (o : op) : outcome (world * res) :=
    match o with
    (* box.hh 16-17, 89-93; poly_box.hh 16-20, 116-120; fwd_box.hh 75-78, 84-88 *)
    | Make d x =>
        let! _ := defined (typed d) in
        Ok (mkw (hp w ++ [Some (d, x)]) (objs w ++ [Some (mkb (Some (length (hp w))) true)]), RUnit)
    | Assign k d s =>
        let! _ := defined (typed d) in
        let! b := get w k in
        let! own := match s with Own => let! p := deref b in Ok (Some p) | Val _ => Ok None end in
        match kd with
        (* box.hh 19-27 *)
        | KBox =>
            match bdata b with
            | None =>
                let! x := match s with Val x => Ok x | Own => UB end in
                Ok (mkw (hp w ++ [Some (d, x)]) (lset (objs w) k (Some (mkb (Some (length (hp w))) true))), RUnit)
            | Some p =>
                let! x := match s with Val x => Ok x | Own => load (hp w) p end in
                let! h := store (hp w) p x in Ok (mkw h (objs w), RUnit)
            end
        (* poly_box.hh 22-28, 62-70: deletes before it constructs *)
        | KPoly _ =>
            let! h := release (hp w) b in
            let! x := match s, own with Val x, _ => Ok x | Own, Some p => load h p | Own, None => UB end in
            Ok (mkw (h ++ [Some (d, x)]) (lset (objs w) k (Some (mkb (Some (length h)) true))), RUnit)
        (* fwd_box has no such assignment *)
        | KFwd => UB
        end
    (* box.hh 29-33, poly_box.hh 30-34, 45-50, fwd_box.hh 16-22 *)
    | MoveNew j => let! x := get w j in Ok (mkw (hp w) (lset (objs w) j (Some null) ++ [Some x]), RUnit)
    (* box.hh 34-42, poly_box.hh 35-43, 51-60, fwd_box.hh 23-33 *)
    | MoveAssign k j =>
        let! x := get w k in
        let! h := release (hp w) x in
        let! y := get w j in
        Ok (mkw h (lset (lset (objs w) k (Some y)) j (Some null)), RUnit)
    | Destroy k => let! x := get w k in let! h := release (hp w) x in Ok (mkw h (lset (objs w) k None), RUnit)
    | Read k => let! x := get w k in let! p := deref x in let! v := load (hp w) p in Ok (w, RA v)
    | Write k v => let! x := get w k in let! p := deref x in let! h := store (hp w) p v in Ok (mkw h (objs w), RUnit)
    | TypeOf k =>
        let! x := get w k in let! p := deref x in
        match nth_error (hp w) p with Some (Some (d, _)) => Ok (w, RN d) | _ => UB end
    (* box.hh 80-81, poly_box.hh 107-108, fwd_box.hh 71-72: no check *)
    | Convert k => let! x := get w k in match bdata x with Some p => let! v := load (hp w) p in Ok (w, RA v) | None => UB end
    | IsNull k => let! x := get w k in Ok (w, RB (match bdata x with Some _ => false | None => true end))
    (* box.hh 97-126 *)
    | Equal k j =>
        let! x := get w k in let! y := get w j in let! p := deref x in let! q := deref y in
        let! a := load (hp w) p in let! b := load (hp w) q in Ok (w, RB (eqb a b))
    | Less k j =>
        let! x := get w k in let! y := get w j in let! p := deref x in let! q := deref y in
        let! a := load (hp w) p in let! b := load (hp w) q in Ok (w, RB (ltb a b))
    end.
  Fixpoint run (w : world) (os : list op) : outcome (world * list res) :=
    match os with
    | [] => Ok (w, [])
    | o :: os => let! (w, r) := step w o in let! (w, rs) := run w os in Ok (w, r :: rs)
    end.
End Box.
Arguments op A : clear implicits.
Arguments res A : clear implicits.
Arguments source A : clear implicits.
Arguments world A : clear implicits.
Arguments heap A : clear implicits.

(* Model of cc::alloc_array (src/clean-core/alloc_array.hh), an array whose storage comes from a cc::allocator.
   Allocators are numbered; 0 is cc::system_allocator; a null allocator pointer is None. A heap block records the
   allocator that made it. Allocation succeeds (the allocators abort instead of returning nullptr); a request of
   zero bytes gives a block of its own. Element types are described by two flags: trivially constructible and
   trivially destructible. *)
From Coq Require Import NArith Arith List Bool.
From Verif Require Import Base Cells.
Import ListNotations.
Open Scope N_scope.

Section AArr.
  Context {A : Type}.
  Variable eqb : A -> A -> bool.
  (* sizeof(T); the value of T(); is_trivially_constructible, is_trivially_destructible *)
  Variable sz : N.
  Variable dflt : A.
  Variable tc td : bool.

  Notation cells := (list (cell A)).
  Definition block : Type := nat * cells.
  Definition heap := list (option block).
  (* _data, _size, _allocator; alloc_array.hh 206-208 *)
  Record aarr := mka { adata : option nat; asize : N; aall : nat }.

  (* alloc_array.hh 196: size * sizeof(T) bytes; the product wraps *)
  Definition alloc (h : heap) (m : nat) (n : N) : heap * nat :=
    (h ++ [Some (m, raw_storage (N.to_nat (wmul 64 n sz / sz)))], length h).
  (* access to the cells behind a pointer *)
  Definition cells_of (h : heap) (p : option nat) : outcome cells :=
    match p with
    | None => Ok []
    | Some b => match nth_error h b with Some (Some (_, c)) => Ok c | _ => UB end
    end.
  Definition put_cells (h : heap) (p : option nat) (c : cells) : heap :=
    match p with
    | None => h
    | Some b => match nth_error h b with Some (Some (m, _)) => lset h b (Some (m, c)) | _ => h end
    end.
  (* alloc_array.hh 197; freeing nullptr is allowed; a block goes back to the allocator that made it. Storage of
     types with a destructor must be empty *)
  Definition free (h : heap) (m : nat) (p : option nat) : outcome heap :=
    match p with
    | None => Ok h
    | Some b => match nth_error h b with
                | Some (Some (m', c)) =>
                    let! _ := defined (Nat.eqb m m') in
                    let! _ := (if td then Ok tt else release c) in
                    Ok (lset h b None)
                | _ => UB
                end
    end.
  (* detail/container_impl_util.hh 94-103 container_destroy_reverse *)
  Fixpoint destroy_reverse (n : nat) (c : cells) : outcome cells :=
    match n with O => Ok c | S n => let! c := destroy c n in destroy_reverse n c end.
  (* alloc_array.hh 199-203 _destroy *)
  Definition destroy_arr (h : heap) (a : aarr) : outcome heap :=
    let! c := cells_of h (adata a) in
    let! c := (if td then Ok c else destroy_reverse (N.to_nat (asize a)) c) in
    free (put_cells h (adata a) c) (aall a) (adata a).

  (* construct n elements from a source, from index i on *)
  Fixpoint construct_from (n i : nat) (src : nat -> outcome A) (c : cells) : outcome cells :=
    match n with
    | O => Ok c
    | S n => let! v := src i in let! c := construct c i v in construct_from n (S i) src c
    end.
  (* _alloc(n) and the construction of the elements, if any; the source is read after _alloc *)
  Definition build (h : heap) (m : nat) (n : N) (src : option (heap -> nat -> outcome A)) : outcome (heap * aarr) :=
    let (h, b) := alloc h m n in
    match nth_error h b with
    | Some (Some (_, c)) =>
        let! c := match src with Some src => construct_from (N.to_nat n) 0 (src h) c | None => Ok c end in
        Ok (lset h b (Some (m, c)), mka (Some b) n m)
    | _ => UB
    end.
  Definition values (vs : list A) (h : heap) (i : nat) : outcome A := aget vs i.
  Definition elements (a : aarr) (h : heap) (i : nat) : outcome A :=
    let! c := cells_of h (adata a) in cread c i.
  (* T() for types that are not trivially constructible, nothing otherwise *)
  Definition defaults : option (heap -> nat -> outcome A) := if tc then None else Some (fun _ _ => Ok dflt).

  (* ---- objects ---- *)
  Record world := mkw { hp : heap; objs : list (option aarr) }.
  Definition get (w : world) (k : nat) : outcome aarr := match nth_error (objs w) k with Some (Some a) => Ok a | _ => UB end.
  Definition add (w : world) (r : outcome (heap * aarr)) : outcome world :=
    let! (h, a) := r in Ok (mkw h (objs w ++ [Some a])).

  (* a value argument: a value from elsewhere or a reference to element i of array j *)
  Inductive arg := Val (x : A) | Elem (j : nat) (i : N).
  Definition eval (w : world) (x : arg) (h : heap) : outcome A :=
    match x with Val x => Ok x | Elem j i => let! a := get w j in elements a h (N.to_nat i) end.

  Inductive op :=
  | New (m : option nat) | NewSized (n : N) (m : option nat) | Uninit (n : N) (m : option nat)
  | Filled (n : N) (x : arg) (m : option nat) | NewFrom (vs : list A) (m : option nat) | MoveNew (j : nat)
  | MoveAssign (k j : nat) | Destroy (k : nat)
  | Reset (k : nat) (m : option nat) (n : N) | ResetVal (k : nat) (m : option nat) (n : N) (x : arg)
  | Resize (k : nat) (n : N) (x : arg)
  | Get (k : nat) (i : N) | Set_ (k : nat) (i : N) (x : A) | Eq (k j : nat) | Ne (k j : nat)
  | Size (k : nat) | Bytes (k : nat) | Allocator (k : nat).
  Inductive res := RUnit | RVal (x : A) | RB (b : bool) | RN (n : N).

  Definition null (m : nat) : aarr := mka None 0 m.
  (* alloc_array.hh 21: the allocator must not be null *)
  Definition with_allocator {B} (m : option nat) (k : nat -> outcome B) : outcome B :=
    match m with Some m => k m | None => Contract end.
  (* operator[], alloc_array.hh 160-169 *)
  Definition index (w : world) (a : aarr) (i : N) : outcome A :=
    let! _ := contract (i <? asize a) in elements a (hp w) (N.to_nat i).
  (* alloc_array.hh 170-188 *)
  Fixpoint eq_loop (n : nat) (i : N) (a rhs : N -> outcome A) : outcome bool :=
    match n with
    | O => Ok true
    | S n => let! x := a i in let! y := rhs i in
             if negb (eqb x y) then Ok false else eq_loop n (i + 1) a rhs
    end.
  Fixpoint ne_loop (n : nat) (i : N) (a rhs : N -> outcome A) : outcome bool :=
    match n with
    | O => Ok false
    | S n => let! x := a i in let! y := rhs i in
             if negb (eqb x y) then Ok true else ne_loop n (i + 1) a rhs
    end.
  (* data[i] = x; types without a constructor accept storage without an object *)
  Definition assign_elem (c : cells) (i : nat) (x : A) : outcome cells :=
    match nth_error c i with
    | Some Raw => if tc then Ok (lset c i (Obj x)) else UB
    | _ => assign c i x
    end.

  (* alloc_array.hh 97-139: destroy, check, then storage for new_size > 0 only *)
  Definition reset (w : world) (k : nat) (m : option nat) (n : N) (src : option (heap -> nat -> outcome A)) : outcome (world * res) :=
    let! a := get w k in
    let! h := destroy_arr (hp w) a in
    with_allocator m (fun m =>
      if 0 <? n
      then let! (h, a) := build h m n src in Ok (mkw h (lset (objs w) k (Some a)), RUnit)
      else Ok (mkw h (lset (objs w) k (Some (null m))), RUnit)).

  Definition step (w : world) (o : op) : outcome (world * res) :=
    match o with
    (* alloc_array.hh 19, 21 *)
    | New m => with_allocator m (fun m => Ok (mkw (hp w) (objs w ++ [Some (null m)]), RUnit))
    (* alloc_array.hh 23-35 *)
    | NewSized n m => with_allocator m (fun m => let! w := add w (build (hp w) m n defaults) in Ok (w, RUnit))
    (* alloc_array.hh 37-43 *)
    | Uninit n m => with_allocator m (fun m => let! w := add w (build (hp w) m n None) in Ok (w, RUnit))
    (* alloc_array.hh 45-53 *)
    | Filled n x m => with_allocator m (fun m => let! w := add w (build (hp w) m n (Some (fun h _ => eval w x h))) in Ok (w, RUnit))
    (* alloc_array.hh 55-65 *)
    | NewFrom vs m => with_allocator m (fun m =>
        let! w := add w (build (hp w) m (N.of_nat (length vs)) (Some (values vs))) in Ok (w, RUnit))
    (* alloc_array.hh 67-75 *)
    | MoveNew j => let! a := get w j in Ok (mkw (hp w) (lset (objs w) j (Some (null 0)) ++ [Some a]), RUnit)
    (* alloc_array.hh 76-86 *)
    | MoveAssign k j =>
        let! a := get w k in
        let! h := destroy_arr (hp w) a in
        let! r := get w j in
        Ok (mkw h (lset (lset (objs w) k (Some r)) j (Some (null 0))), RUnit)
    (* alloc_array.hh 91-95 *)
    | Destroy k => let! a := get w k in let! h := destroy_arr (hp w) a in Ok (mkw h (lset (objs w) k None), RUnit)
    | Reset k m n => reset w k m n defaults
    | ResetVal k m n x => reset w k m n (Some (fun h _ => eval w x h))
    (* alloc_array.hh 141-148 *)
    | Resize k n x =>
        let! a := get w k in
        let! h := destroy_arr (hp w) a in
        let! (h, a) := build h (aall a) n (Some (fun h _ => eval w x h)) in
        Ok (mkw h (lset (objs w) k (Some a)), RUnit)
    | Get k i => let! a := get w k in let! x := index w a i in Ok (w, RVal x)
    | Set_ k i x =>
        let! a := get w k in
        let! _ := contract (i <? asize a) in
        let! c := cells_of (hp w) (adata a) in
        let! c := assign_elem c (N.to_nat i) x in
        Ok (mkw (put_cells (hp w) (adata a) c) (objs w), RUnit)
    (* alloc_array.hh 170-178, 190 *)
    | Eq k j =>
        let! a := get w k in let! r := get w j in
        let! b := if asize a =? asize r
                  then eq_loop (N.to_nat (asize a)) 0 (fun i => elements a (hp w) (N.to_nat i)) (index w r) else Ok false in
        Ok (w, RB b)
    (* alloc_array.hh 180-188, 191 *)
    | Ne k j =>
        let! a := get w k in let! r := get w j in
        let! b := if asize a =? asize r
                  then ne_loop (N.to_nat (asize a)) 0 (fun i => elements a (hp w) (N.to_nat i)) (index w r) else Ok true in
        Ok (w, RB b)
    | Size k => let! a := get w k in Ok (w, RN (asize a))
    (* alloc_array.hh 157 *)
    | Bytes k => let! a := get w k in Ok (w, RN (wmul 64 (asize a) sz))
    | Allocator k => let! a := get w k in Ok (w, RN (N.of_nat (aall a)))
    end.
  Fixpoint run (w : world) (os : list op) : outcome (world * list res) :=
    match os with
    | [] => Ok (w, [])
    | o :: os => let! (w, r) := step w o in let! (w, rs) := run w os in Ok (w, r :: rs)
    end.
End AArr.
Arguments op A : clear implicits.
Arguments world A : clear implicits.
Arguments res A : clear implicits.
Arguments arg A : clear implicits.
Arguments heap A : clear implicits.
Arguments block A : clear implicits.

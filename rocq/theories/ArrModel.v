(* Model of cc::array (src/clean-core/array.hh): the fixed-size array<T, N> and the heap-allocated array<T>, for element
   types with non-trivial copy and destructor. Heap blocks are named by position; a freed block is None. *)
From Coq Require Import NArith Arith List Bool.
From Verif Require Import Base Cells.
Import ListNotations.
Open Scope N_scope.

(* ---- array<T, N> ---- *)
(* array.hh 34 *)
Definition fixed_empty (n : N) : bool := 0 <? n.
(* array.hh 36 *)
Definition fixed_size (n : N) : N := n.

Section Arr.
  Context {A : Type}.
  Variable eqb : A -> A -> bool.
  (* sizeof(T); the value of a default-constructed T *)
  Variable sz : N.
  Variable dflt : A.

  Notation cells := (list (cell A)).

  (* array.hh 42-51; the storage of a fixed array is the list of its N values *)
  Definition fixed_index (a : list A) (i : N) : outcome A :=
    let! _ := contract (i <? N.of_nat (length a)) in aget a (N.to_nat i).
  (* array.hh 66-75, against a span of values: the loop from index i on, n steps left *)
  Fixpoint eq_loop (n : nat) (i : N) (a rhs : N -> outcome A) : outcome bool :=
    match n with
    | O => Ok true
    | S n => let! x := a i in let! y := rhs i in
             if eqb x y then eq_loop n (i + 1) a rhs else Ok false
    end.
  Definition fixed_eq (a rhs : list A) : outcome bool :=
    if N.of_nat (length a) =? N.of_nat (length rhs)
    then eq_loop (length a) 0 (fun i => aget a (N.to_nat i)) (fixed_index rhs) else Ok false.
  (* array.hh 77-86; the element type's != is the negation of its == *)
  Fixpoint ne_loop (n : nat) (i : N) (a rhs : N -> outcome A) : outcome bool :=
    match n with
    | O => Ok false
    | S n => let! x := a i in let! y := rhs i in
             if negb (eqb x y) then Ok true else ne_loop n (i + 1) a rhs
    end.
  Definition fixed_ne (a rhs : list A) : outcome bool :=
    if N.of_nat (length a) =? N.of_nat (length rhs)
    then ne_loop (length a) 0 (fun i => aget a (N.to_nat i)) (fixed_index rhs) else Ok true.

  (* ---- array<T> ---- *)
  Definition heap := list (option cells).
  (* array.hh 249-251 *)
  Record arr := mkarr { aptr : option nat; asize : N }.
  Definition null : arr := mkarr None 0.

  (* array.hh 240: size * sizeof(T) bytes; the product wraps *)
  Definition alloc (h : heap) (n : N) : heap * nat :=
    (h ++ [Some (raw_storage (N.to_nat (wmul 64 n sz / sz)))], length h).
  (* array.hh 241; freeing nullptr is allowed *)
  Definition free (h : heap) (p : option nat) : outcome heap :=
    match p with
    | None => Ok h
    | Some b => match nth_error h b with
                | Some (Some c) => let! _ := release c in Ok (lset h b None)
                | _ => UB
                end
    end.
  (* access to the cells behind a pointer *)
  Definition cells_of (h : heap) (p : option nat) : outcome cells :=
    match p with
    | None => Ok []
    | Some b => match nth_error h b with Some (Some c) => Ok c | _ => UB end
    end.
  Definition put_cells (h : heap) (p : option nat) (c : cells) : heap :=
    match p with None => h | Some b => lset h b (Some c) end.

  (* detail/container_impl_util.hh 94-103 container_destroy_reverse *)
  Fixpoint destroy_reverse (n : nat) (c : cells) : outcome cells :=
    match n with O => Ok c | S n => let! c := destroy c n in destroy_reverse n c end.
  (* array.hh 243-247 _destroy *)
  Definition destroy_arr (h : heap) (a : arr) : outcome heap :=
    let! c := cells_of h (aptr a) in
    let! c := destroy_reverse (N.to_nat (asize a)) c in
    free (put_cells h (aptr a) c) (aptr a).

  (* detail/container_impl_util.hh 30-44 and 63-68: construct n elements from a source, from index i on *)
  Fixpoint construct_from (n i : nat) (src : nat -> outcome A) (c : cells) : outcome cells :=
    match n with
    | O => Ok c
    | S n => let! v := src i in let! c := construct c i v in construct_from n (S i) src c
    end.
  (* size, alloc and construction, the common part of the constructors; the source is read from the heap h after _alloc *)
  Definition build (h : heap) (n : N) (src : heap -> nat -> outcome A) : outcome (heap * arr) :=
    let (h, b) := alloc h n in
    match nth_error h b with
    | Some (Some c) => let! c := construct_from (N.to_nat n) 0 (src h) c in Ok (lset h b (Some c), mkarr (Some b) n)
    | _ => UB
    end.
  Definition values (vs : list A) (h : heap) (i : nat) : outcome A := aget vs i.
  Definition elements (a : arr) (h : heap) (i : nat) : outcome A :=
    let! c := cells_of h (aptr a) in cread c i.

  (* ---- objects ---- *)
  Record world := mkw { hp : heap; objs : list (option arr) }.
  Definition get (w : world) (k : nat) : outcome arr := match nth_error (objs w) k with Some (Some a) => Ok a | _ => UB end.
  Definition add (w : world) (r : outcome (heap * arr)) : outcome world :=
    let! (h, a) := r in Ok (mkw h (objs w ++ [Some a])).

  (* a value argument: a value from elsewhere or a reference to element i of array j *)
  Inductive arg := Val (x : A) | Elem (j : nat) (i : N).
  Definition eval (w : world) (x : arg) (h : heap) : outcome A :=
    match x with Val x => Ok x | Elem j i => let! a := get w j in elements a h (N.to_nat i) end.

  Inductive op :=
  | New | NewSized (n : N) | Filled (n : N) (x : A) | NewFrom (vs : list A) | CopyNew (j : nat) | MoveNew (j : nat)
  | Resize (k : nat) (n : N) (x : arg) | CopyAssign (k j : nat) | MoveAssign (k j : nat) | Destroy (k : nat)
  | Get (k : nat) (i : N) | Set_ (k : nat) (i : N) (x : A) | Eq (k j : nat) | Ne (k j : nat) | Size (k : nat).
  Inductive res := RUnit | RVal (x : A) | RB (b : bool) | RN (n : N).

  (* operator[], array.hh 208-217 *)
  Definition index (w : world) (a : arr) (i : N) : outcome A :=
    let! _ := contract (i <? asize a) in elements a (hp w) (N.to_nat i).

  Definition step (w : world) (o : op) : outcome (world * res) :=
    match o with
    (* array.hh 95 *)
    | New => Ok (mkw (hp w) (objs w ++ [Some null]), RUnit)
    (* array.hh 97-114; memset 0 for trivially constructible types is the value of T() *)
    | NewSized n => let! w := add w (build (hp w) n (fun _ _ => Ok dflt)) in Ok (w, RUnit)
    (* array.hh 125-132 *)
    | Filled n x => let! w := add w (build (hp w) n (fun _ _ => Ok x)) in Ok (w, RUnit)
    (* array.hh 142-154 *)
    | NewFrom vs => let! w := add w (build (hp w) (N.of_nat (length vs)) (values vs)) in Ok (w, RUnit)
    (* array.hh 156-161 *)
    | CopyNew j => let! a := get w j in let! w := add w (build (hp w) (asize a) (elements a)) in Ok (w, RUnit)
    (* array.hh 162-168 *)
    | MoveNew j => let! a := get w j in Ok (mkw (hp w) (lset (objs w) j (Some null) ++ [Some a]), RUnit)
    (* array.hh 134-140 *)
    | Resize k n x =>
        let! a := get w k in
        let! h := destroy_arr (hp w) a in
        let! (h, a) := build h n (fun h _ => eval w x h) in
        Ok (mkw h (lset (objs w) k (Some a)), RUnit)
    (* array.hh 169-179 *)
    | CopyAssign k j =>
        let! a := get w k in
        let! r := get w j in
        if Nat.eqb k j then Ok (w, RUnit) else
        let! h := destroy_arr (hp w) a in
        let! (h, a) := build h (asize r) (elements r) in
        Ok (mkw h (lset (objs w) k (Some a)), RUnit)
    (* array.hh 180-188 *)
    | MoveAssign k j =>
        let! a := get w k in
        let! h := destroy_arr (hp w) a in
        let! r := get w j in
        Ok (mkw h (lset (lset (objs w) k (Some r)) j (Some null)), RUnit)
    (* array.hh 189-193 *)
    | Destroy k => let! a := get w k in let! h := destroy_arr (hp w) a in Ok (mkw h (lset (objs w) k None), RUnit)
    | Get k i => let! a := get w k in let! x := index w a i in Ok (w, RVal x)
    | Set_ k i x =>
        let! a := get w k in
        let! _ := contract (i <? asize a) in
        let! c := cells_of (hp w) (aptr a) in
        let! c := assign c (N.to_nat i) x in
        Ok (mkw (put_cells (hp w) (aptr a) c) (objs w), RUnit)
    (* array.hh 219-227, 236 *)
    | Eq k j =>
        let! a := get w k in let! r := get w j in
        let! b := if asize a =? asize r
                  then eq_loop (N.to_nat (asize a)) 0 (fun i => elements a (hp w) (N.to_nat i)) (index w r) else Ok false in
        Ok (w, RB b)
    (* array.hh 229-237 *)
    | Ne k j =>
        let! a := get w k in let! r := get w j in
        let! b := if asize a =? asize r
                  then ne_loop (N.to_nat (asize a)) 0 (fun i => elements a (hp w) (N.to_nat i)) (index w r) else Ok true in
        Ok (w, RB b)
    | Size k => let! a := get w k in Ok (w, RN (asize a))
    end.
  Fixpoint run (w : world) (os : list op) : outcome (world * list res) :=
    match os with
    | [] => Ok (w, [])
    | o :: os => let! (w, r) := step w o in let! (w, rs) := run w os in Ok (w, r :: rs)
    end.
End Arr.
Arguments op A : clear implicits.
Arguments world A : clear implicits.
Arguments res A : clear implicits.
Arguments arg A : clear implicits.
Arguments heap A : clear implicits.

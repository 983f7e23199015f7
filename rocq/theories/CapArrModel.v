(* Model of cc::capped_array<T, N> (src/clean-core/capped_array.hh), N > 0, for element types with constructors and a
   destructor. The inline storage of an array is a list of N cells; the world counts constructor calls (copies and moves
   included) and destructor calls on elements. compact_size_t holds every size up to N, so sizes are not reduced.
   operator== and != are left out: their parameter capped_array<T, M> with int M is never deduced. *)
From Coq Require Import NArith Arith List Bool.
From Verif Require Import Base Cells.
Import ListNotations.
Open Scope N_scope.

Section CapArr.
  Context {A : Type}.
  (* the value of T(); N *)
  Variable dflt : A.
  Variable cap : N.

  Notation cells := (list (cell A)).
  (* _size, _u; capped_array.hh 193-194 *)
  Record carr := mkc { csize : N; cmem : cells }.
  Record world := mkw { objs : list (option carr); made : N; gone : N }.
  Definition storage : cells := repeat Raw (N.to_nat cap).
  Definition get (w : world) (k : nat) : outcome carr := match nth_error (objs w) k with Some (Some a) => Ok a | _ => UB end.
  Definition set_obj (w : world) (k : nat) (a : carr) : world := mkw (lset (objs w) k (Some a)) (made w) (gone w).
  Definition push (w : world) (a : carr) : world := mkw (objs w ++ [Some a]) (made w) (gone w).

  (* element operations on array k of the world *)
  (* read access *)
  Definition read (w : world) (k i : nat) : outcome A := let! a := get w k in cread (cmem a) i.
  (* cc::move(value[i]) as the source of a move *)
  Definition take (w : world) (k i : nat) : outcome (A * world) :=
    let! a := get w k in let! (v, c) := move_out (cmem a) i in Ok (v, set_obj w k (mkc (csize a) c)).
  (* new (placement_new, &value[i]) T(v): an object already there is forgotten *)
  Definition construct_at (w : world) (k i : nat) (v : A) : outcome world :=
    let! a := get w k in
    match nth_error (cmem a) i with
    | Some _ => Ok (mkw (lset (objs w) k (Some (mkc (csize a) (lset (cmem a) i (Obj v))))) (made w + 1) (gone w))
    | None => UB
    end.
  (* value[i] = v *)
  Definition assign_at (w : world) (k i : nat) (v : A) : outcome world :=
    let! a := get w k in let! c := assign (cmem a) i v in Ok (set_obj w k (mkc (csize a) c)).
  (* value[i].~T() *)
  Definition destroy_at (w : world) (k i : nat) : outcome world :=
    let! a := get w k in let! c := destroy (cmem a) i in
    Ok (mkw (lset (objs w) k (Some (mkc (csize a) c))) (made w) (gone w + 1)).
  Definition set_size (w : world) (k : nat) (n : N) : outcome world := let! a := get w k in Ok (set_obj w k (mkc n (cmem a))).

  (* detail/container_impl_util.hh 94-103: from index i down to to_index *)
  Fixpoint destroy_down (n to : nat) (w : world) (k : nat) : outcome world :=
    match n with
    | O => Ok w
    | S n => let! w := destroy_at w k (to + n) in destroy_down n to w k
    end.
  Definition destroy_reverse (w : world) (k : nat) (size to : N) : outcome world :=
    destroy_down (N.to_nat (size - to)) (N.to_nat to) w k.
  (* n elements from index i on, each from a source that may read the world *)
  Fixpoint construct_loop (n i : nat) (src : world -> nat -> outcome A) (w : world) (k : nat) : outcome world :=
    match n with
    | O => Ok w
    | S n => let! v := src w i in let! w := construct_at w k i v in construct_loop n (S i) src w k
    end.
  Fixpoint assign_loop (n i : nat) (src : world -> nat -> outcome A) (w : world) (k : nat) : outcome world :=
    match n with
    | O => Ok w
    | S n => let! v := src w i in let! w := assign_at w k i v in assign_loop n (S i) src w k
    end.
  (* the same with elements moved out of array j *)
  Fixpoint move_construct_loop (n i : nat) (w : world) (k j : nat) : outcome world :=
    match n with
    | O => Ok w
    | S n => let! (v, w) := take w j i in let! w := construct_at w k i v in move_construct_loop n (S i) w k j
    end.
  Fixpoint move_assign_loop (n i : nat) (w : world) (k j : nat) : outcome world :=
    match n with
    | O => Ok w
    | S n => let! (v, w) := take w j i in let! w := assign_at w k i v in move_assign_loop n (S i) w k j
    end.

  (* a value argument: a value from elsewhere or a reference to element i of array j *)
  Inductive arg := Val (x : A) | Elem (j : nat) (i : N).
  Definition eval (x : arg) (w : world) : outcome A :=
    match x with Val x => Ok x | Elem j i => read w j (N.to_nat i) end.

  Inductive op :=
  | New | NewSized (n : N) | NewFrom (vs : list A) | Uninit (n : N) | Filled (n : N) (x : arg)
  | Emplace (k : nat) (n : N) (x : arg) | CopyNew (j : nat) | MoveNew (j : nat) | CopyAssign (k j : nat) | MoveAssign (k j : nat)
  | Destroy (k : nat) | Get (k : nat) (i : N) | Set_ (k : nat) (i : N) (x : A) | Size (k : nat).
  Inductive res := RUnit | RVal (x : A) | RN (n : N).

  (* a new array of size n whose elements are constructed from a source *)
  Definition build (w : world) (n : N) (src : world -> nat -> outcome A) : outcome world :=
    construct_loop (N.to_nat n) 0 src (push w (mkc n storage)) (length (objs w)).

  Definition step (w : world) (o : op) : outcome (world * res) :=
    match o with
    (* capped_array.hh 52 *)
    | New => Ok (push w (mkc 0 storage), RUnit)
    (* capped_array.hh 54-66, 76 *)
    | NewSized n => let! _ := contract (n <=? cap) in let! w := build w n (fun _ _ => Ok dflt) in Ok (w, RUnit)
    (* capped_array.hh 68-74 *)
    | NewFrom vs =>
        let n := N.of_nat (length vs) in
        let! _ := contract (n <=? cap) in let! w := build w n (fun _ i => aget vs i) in Ok (w, RUnit)
    (* capped_array.hh 78-85 *)
    | Uninit n => let! _ := contract (n <=? cap) in Ok (push w (mkc n storage), RUnit)
    (* capped_array.hh 87-95 *)
    | Filled n x => let! _ := contract (n <=? cap) in let! w := build w n (fun w _ => eval x w) in Ok (w, RUnit)
    (* capped_array.hh 97-108 *)
    | Emplace k n x =>
        let! a := get w k in
        let! _ := contract (n <=? cap) in
        let! w := destroy_reverse w k (csize a) 0 in
        let! w := set_size w k n in
        let! w := construct_loop (N.to_nat n) 0 (fun w _ => eval x w) w k in Ok (w, RUnit)
    (* capped_array.hh 110-113 *)
    | CopyNew j =>
        let! a := get w j in
        let! w := build w (csize a) (fun w i => read w j i) in Ok (w, RUnit)
    (* capped_array.hh 114-118 *)
    | MoveNew j =>
        let! a := get w j in
        let! w := move_construct_loop (N.to_nat (csize a)) 0 (push w (mkc (csize a) storage)) (length (objs w)) j in
        let! w := set_size w j 0 in Ok (w, RUnit)
    (* capped_array.hh 120-138 *)
    | CopyAssign k j =>
        let! a := get w k in let! r := get w j in
        let common := if csize a <? csize r then csize a else csize r in
        let! w := destroy_reverse w k (csize a) (csize r) in
        let! w := set_size w k (csize r) in
        let! w := assign_loop (N.to_nat common) 0 (fun w i => read w j i) w k in
        let! w := construct_loop (N.to_nat (csize r - common)) (N.to_nat common) (fun w i => read w j i) w k in Ok (w, RUnit)
    (* capped_array.hh 139-159 *)
    | MoveAssign k j =>
        let! a := get w k in let! r := get w j in
        let common := if csize a <? csize r then csize a else csize r in
        let! w := destroy_reverse w k (csize a) (csize r) in
        let! w := set_size w k (csize r) in
        let! w := move_assign_loop (N.to_nat common) 0 w k j in
        let! w := move_construct_loop (N.to_nat (csize r - common)) (N.to_nat common) w k j in
        let! w := set_size w j 0 in Ok (w, RUnit)
    (* capped_array.hh 161; the storage disappears with the array *)
    | Destroy k =>
        let! a := get w k in
        let! w := destroy_reverse w k (csize a) 0 in
        Ok (mkw (lset (objs w) k None) (made w) (gone w), RUnit)
    (* capped_array.hh 37-47 *)
    | Get k i => let! a := get w k in let! _ := contract (i <? csize a) in let! x := read w k (N.to_nat i) in Ok (w, RVal x)
    | Set_ k i x => let! a := get w k in let! _ := contract (i <? csize a) in let! w := assign_at w k (N.to_nat i) x in Ok (w, RUnit)
    | Size k => let! a := get w k in Ok (w, RN (csize a))
    end.
  Fixpoint run (w : world) (os : list op) : outcome (world * list res) :=
    match os with
    | [] => Ok (w, [])
    | o :: os => let! (w, r) := step w o in let! (w, rs) := run w os in Ok (w, r :: rs)
    end.
End CapArr.
Arguments op A : clear implicits.
Arguments world A : clear implicits.
Arguments res A : clear implicits.
Arguments arg A : clear implicits.

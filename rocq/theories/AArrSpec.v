(* What new_array and delete_array have to do. *)
From Coq Require Import NArith List.
From Verif Require Import Base AArrModel.
Import ListNotations.
Open Scope N_scope.

(* a C++ type: sizeof is a positive multiple of the alignment, T() fills the object; a type with a non-trivial destructor is
   not trivially constructible *)
Definition type_ok (T : ty) : Prop :=
  0 < sz T /\ 0 < al T /\ sz T mod al T = 0 /\ length (rep T) = N.to_nat (sz T) /\ (trivial_ctor T = true -> trivial_dtor T = true).
(* an allocator that returns aligned memory *)
Definition conforming (place : policy) : Prop := forall h size align, 0 < align -> place h size align mod align = 0.
(* alloc numbers blocks consecutively *)
Definition fresh (h : heap) : Prop := forall b, (next h <= b)%nat -> blk h b = None.

(* the elements of an array of n at b, o *)
Definition elems (T : ty) (b : nat) (o : N) (n : N) : list ptr := map (fun i => (b, o + N.of_nat i * sz T)) (seq 0 (N.to_nat n)).
(* the bytes of a new element: value initialized *)
Definition init_byte (T : ty) (r : N) : option N := if trivial_ctor T then Some 0 else nth (N.to_nat r) (rep T) None.
(* block b holds the n new elements at offset o *)
Definition holds (T : ty) (o n : N) (k : block) : Prop :=
  o + n * sz T <= bsize k /\ (base k + o) mod al T = 0 /\
  forall i r, i < n -> r < sz T -> byte k (o + i * sz T + r) = init_byte T r.

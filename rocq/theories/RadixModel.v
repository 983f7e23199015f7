(* Model of radix_sort in src/clean-core/atomic_linked_pool.cc.  Arrays are lists of 32-bit words, accesses are checked;
   the size_t counters never exceed n and are natural numbers.  The two arrays do not overlap (__restrict). *)
From Coq Require Import NArith List Bool Arith.
From Verif Require Import Base.
Import ListNotations.
Open Scope N_scope.

(* (x >> shift) & 0xff *)
Definition key (shift x : N) : nat := N.to_nat (N.land (N.shiftr x shift) 0xff).
(* 11-12: i runs from i to n, r = n - i iterations are left *)
Fixpoint count_loop (src : list N) (shift : N) (r i : nat) (index : list nat) : outcome (list nat) :=
  match r with
  | O => Ok index
  | S r => let! x := aget src i in
           let! c := aget index (key shift x) in
           let! index := aset index (key shift x) (S c) in
           count_loop src shift r (S i) index
  end.
(* 13-18 *)
Fixpoint prefix_loop (r i next : nat) (index : list nat) : outcome (list nat) :=
  match r with
  | O => Ok index
  | S r => let! count := aget index i in
           let! index := aset index i next in
           prefix_loop r (S i) (next + count) index
  end.
(* 19-20 *)
Fixpoint place_loop (src : list N) (shift : N) (r i : nat) (index : list nat) (dst : list N) : outcome (list N) :=
  match r with
  | O => Ok dst
  | S r => let! x := aget src i in
           let! c := aget index (key shift x) in
           let! index := aset index (key shift x) (S c) in
           let! dst := aset dst c x in
           place_loop src shift r (S i) index dst
  end.
(* 8-21 radix_sort_pass *)
Definition pass (src dst : list N) (n : nat) (shift : N) : outcome (list N) :=
  let! index := count_loop src shift n 0 (repeat 0%nat 256) in
  let! index := prefix_loop 256 0 0 index in
  place_loop src shift n 0 index dst.
(* 28-34 radix_sort: final contents of both arrays *)
Definition radix_sort (a temp : list N) (n : nat) : outcome (list N * list N) :=
  let! temp := pass a temp n 0 in
  let! a := pass temp a n 8 in
  let! temp := pass a temp n 16 in
  let! a := pass temp a n 24 in
  Ok (a, temp).

(* Model of src/clean-core/intrinsics.hh (gcc / clang branches): the atomic operations on a cell of w bits (w = 8, 16, 32, 64;
   pointers are 64 bit patterns), cpuid tests, the time stamp, and the Newton steps of the inverse square root.
   The builtins __sync_fetch_and_add, __sync_fetch_and_or, __sync_val_compare_and_swap and __atomic_exchange are single
   indivisible steps in one total order (trusted), so an execution of any number of threads is a sequence of operations.
   Floating point is modelled without rounding: every float is a rational. *)
From Coq Require Import NArith QArith List Bool.
From Verif Require Import Base.
Import ListNotations.
Open Scope N_scope.

Inductive op :=
| Cas (comparand exchange : N)   (* intrin_cas, intrin_cas_pointer: lines 32-57 *)
| Swap (value : N)               (* intrin_atomic_swap, _pointer: lines 59-90 *)
| Add (value : N)                (* intrin_atomic_add: lines 92-126 *)
| Or (value : N).                (* intrin_atomic_or: lines 128-162 *)

(* one step: the returned value and the new contents *)
Definition step (w : N) (o : op) (cell : N) : N * N :=
  match o with
  | Cas c x => (cell, if cell =? c then x else cell)
  | Swap x => (cell, x)
  | Add x => (cell, wadd w cell x)
  | Or x => (cell, N.lor cell x)
  end.
(* operations of all threads, in the order in which they happen *)
Fixpoint run (w : N) (os : list op) (cell : N) : list N * N :=
  match os with
  | [] => ([], cell)
  | o :: os => let '(r, cell) := step w o cell in let '(rs, cell) := run w os cell in (r :: rs, cell)
  end.

(* lines 21-30, gcc *)
Definition rdtsc (hi lo : N) : N := N.lor (wrap 64 (N.shiftl hi 32)) lo.

(* lines 251-262: __get_cpuid fills the four registers if the processor knows the leaf; otherwise info is not initialized *)
Definition test_cpuid_register (cpu : N -> option (list N)) (level : N) (register_index : nat) (bit_index : N) : outcome bool :=
  match cpu level with
  | Some info => let! r := aget info register_index in let! _ := defined (bit_index <? 32) in Ok (negb (N.shiftr r bit_index =? 0))
  | None => UB
  end.
(* lines 264-269 *)
Definition test_cpu_support_lzcnt cpu := test_cpuid_register cpu 0x80000001 2 5.
Definition test_cpu_support_popcount cpu := test_cpuid_register cpu 0x1 2 23.

(* lines 205-249: x_0 is the approximation _mm_rsqrt_ss computes *)
Definition newton (x x_0 : Q) : Q :=
  (let x_half := x * (1 # 2) in
   let x_1 := x_0 * x_0 in
   let x_1 := (1 # 2) - x_half * x_1 in
   x_0 + x_0 * x_1)%Q.
Definition rsqrt_nr1 (x x_0 : Q) : Q := newton x x_0.
Definition rsqrt_nr2 (x x_0 : Q) : Q :=
  (let x_half := x * (1 # 2) in
   let x_1 := x_0 * x_0 in
   let x_1 := (1 # 2) - x_half * x_1 in
   let x_1 := x_0 + x_0 * x_1 in
   let x_2 := x_1 * x_1 in
   let x_2 := (1 # 2) - x_half * x_2 in
   x_1 + x_1 * x_2)%Q.

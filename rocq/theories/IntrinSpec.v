(* What shared counters, flags and cells promise, for every order in which the operations of the threads happen. *)
From Coq Require Import NArith QArith Qabs List Bool.
From Verif Require Import IntrinModel.
Import ListNotations.
Open Scope N_scope.

Definition adds (vs : list N) : list op := map Add vs.
Definition swaps (vs : list N) : list op := map Swap vs.
Definition ors (vs : list N) : list op := map Or vs.
Definition sum (vs : list N) : N := fold_right N.add 0 vs.
Definition has_bit (b : N) (v : N) : bool := N.testbit v b.
(* operation and result: the operation set the bit, and it was clear before *)
Definition first_setter (b : N) (vr : N * N) : bool := N.testbit (fst vr) b && negb (N.testbit (snd vr) b).
(* what is left of the relative error: 1 - x y^2 is 0 for the inverse square root y of x *)
Definition residual (x y : Q) : Q := (1 - x * (y * y))%Q.

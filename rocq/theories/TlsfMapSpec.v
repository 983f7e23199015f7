(* What the size classes of the two level segregated fit allocator are: class (fl, sl) holds the sizes
   of one interval, and classes are ordered first by fl and then by sl. *)
From Coq Require Import NArith Bool.
From Verif Require Import TlsfModel.
Open Scope N_scope.

(* the smallest size of class (fl, sl), and the first size beyond it *)
Definition class_lo (fl sl : N) : N := if fl =? 0 then 8 * sl else (32 + sl) * 2 ^ (fl + 2).
Definition class_hi (fl sl : N) : N := if fl =? 0 then 8 * (sl + 1) else (32 + sl + 1) * 2 ^ (fl + 2).

Definition class_le (c d : N * N) : Prop :=
  fst c < fst d \/ (fst c = fst d /\ snd c <= snd d).

(* class (fl, sl) lies in the tables of the control structure *)
Definition in_tables (c : N * N) : Prop := fst c < 25 /\ snd c < 32.

(* the two level bitmap of a state: which classes are marked non-empty *)
Definition marked (t : tlsf) (c : N * N) : Prop := N.testbit (slb t (fst c)) (snd c) = true.

(* the bitmaps are 25 and 32 bits wide and the first level summarises the second level *)
Definition bitmaps_ok (t : tlsf) : Prop :=
  flb t < 2 ^ 25 /\
  forall fl, fl < 25 -> slb t fl < 2 ^ 32 /\ (N.testbit (flb t) fl = true <-> slb t fl <> 0).

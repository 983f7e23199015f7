(* UTF-8 and what a conversion stores. *)
From Coq Require Import NArith ZArith List Bool.
From Verif Require Import Base.
Import ListNotations.
Open Scope N_scope.

(* the code points that are characters: no surrogates, at most 10FFFF *)
Definition scalar (c : N) : Prop := c <= 0xD7FF \/ 0xE000 <= c <= 0x10FFFF.
(* the bytes of a character: leading byte and groups of six bits, shortest form *)
Inductive utf8 : N -> list N -> Prop :=
| u1 c : c <= 0x7F -> utf8 c [c]
| u2 c x y : c = x * 64 + y -> y < 64 -> 0x80 <= c <= 0x7FF -> utf8 c [192 + x; 128 + y]
| u3 c x y z : c = x * 4096 + y * 64 + z -> y < 64 -> z < 64 -> 0x800 <= c <= 0xFFFF -> scalar c -> utf8 c [224 + x; 128 + y; 128 + z]
| u4 c x y z w : c = x * 262144 + y * 4096 + z * 64 + w -> y < 64 -> z < 64 -> w < 64 -> 0x10000 <= c <= 0x10FFFF ->
    utf8 c [240 + x; 128 + y; 128 + z; 128 + w].
(* characters other than the terminator, and their bytes *)
Inductive text : list N -> list N -> Prop :=
| t_nil : text [] []
| t_cons c cb p bs : c <> 0 -> utf8 c cb -> text p bs -> text (c :: p) (cb ++ bs).

(* out replaces the start of dst *)
Definition over (out dst : list N) : list N := out ++ skipn (length out) dst.

(* Wide to narrow: characters p are read, their bytes bs are stored, at most lim, and the conversion ends at the terminator,
   which is stored, or at a character that no longer fits, or at a code that is no character. *)
Definition narrowed (lim : nat) (src dst dst' : list N) (r : Z) : Prop :=
  exists p q bs, src = p ++ q /\ text p bs /\ (length bs <= lim)%nat /\
    ((exists q', q = 0 :: q' /\ (length bs < lim)%nat /\ dst' = over (bs ++ [0]) dst /\ r = Z.of_nat (length bs)) \/
     (length bs = lim /\ dst' = over bs dst /\ r = Z.of_nat (length bs)) \/
     (exists c q' cb, q = c :: q' /\ c <> 0 /\ utf8 c cb /\ (lim < length bs + length cb)%nat /\ dst' = over bs dst /\ r = Z.of_nat (length bs)) \/
     (exists c q', q = c :: q' /\ ~ scalar c /\ (length bs < lim)%nat /\ dst' = over bs dst /\ r = (-1)%Z)).
(* narrow to wide *)
Definition widened (lim : nat) (src dst dst' : list N) (r : Z) : Prop :=
  exists p q bs, src = bs ++ q /\ text p bs /\ (length p <= lim)%nat /\
    ((exists q', q = 0 :: q' /\ (length p < lim)%nat /\ dst' = over (p ++ [0]) dst /\ r = Z.of_nat (length p)) \/
     (length p = lim /\ dst' = over p dst /\ r = Z.of_nat (length p)) \/
     ((length p < lim)%nat /\ (forall c cb q', utf8 c cb -> q <> cb ++ q') /\ dst' = over p dst /\ r = (-1)%Z)).

(* FIPS 180-4, SHA-1 (sections 2.2.2, 4.1.1, 4.2.1, 5.1.1, 5.2.1, 5.3.1, 6.1.2) for messages that are
   byte sequences.  Shares nothing with the model. *)
From Coq Require Import NArith Arith List.
Import ListNotations.
Open Scope N_scope.

Definition M32 : N := 2 ^ 32.
Definition plus32 (a b : N) : N := (a + b) mod M32.
Definition NOT (x : N) : N := M32 - 1 - x.
(* 2.2.2 rotate left *)
Definition ROTL (n x : N) : N := (x * 2 ^ n) mod M32 + x / 2 ^ (32 - n).

(* 4.1.1 *)
Definition Ch (x y z : N) : N := N.lxor (N.land x y) (N.land (NOT x) z).
Definition Parity (x y z : N) : N := N.lxor x (N.lxor y z).
Definition Maj (x y z : N) : N := N.lxor (N.land x y) (N.lxor (N.land x z) (N.land y z)).
Definition f (t : nat) : N -> N -> N -> N :=
  if (t <? 20)%nat then Ch else if (t <? 40)%nat then Parity else if (t <? 60)%nat then Maj else Parity.
(* 4.2.1 *)
Definition K (t : nat) : N :=
  if (t <? 20)%nat then 0x5a827999 else if (t <? 40)%nat then 0x6ed9eba1
  else if (t <? 60)%nat then 0x8f1bbcdc else 0xca62c1d6.

(* big endian *)
Fixpoint be_bytes (n : nat) (v : N) : list N :=
  match n with O => [] | S m => be_bytes m (v / 256) ++ [v mod 256] end.
Definition be_word (bs : list N) : N := fold_left (fun acc b => acc * 256 + b) bs 0.

(* 5.1.1: append 1, then k zero bits with l + 1 + k = 448 mod 512, then the 64-bit length *)
Definition pad_zeros (len : nat) : nat := ((55 + 64 - len mod 64) mod 64)%nat.
Definition pad (m : list N) : list N :=
  m ++ [0x80] ++ repeat 0 (pad_zeros (length m)) ++ be_bytes 8 (8 * N.of_nat (length m)).

(* 6.1.2 step 1: message schedule; the list W_0 .. W_{15+n} *)
Fixpoint schedule (n : nat) (m16 : list N) : list N :=
  match n with
  | O => m16
  | S n' =>
      let w := schedule n' m16 in
      let t := (16 + n')%nat in
      w ++ [ROTL 1 (N.lxor (N.lxor (nth (t - 3) w 0) (nth (t - 8) w 0))
                           (N.lxor (nth (t - 14) w 0) (nth (t - 16) w 0)))]
  end.

Definition block_words (blk : list N) : list N :=
  map (fun i => be_word (firstn 4 (skipn (4 * i) blk))) (seq 0 16).

Definition state : Type := (N * N * N * N * N)%type.

(* 6.1.2 step 3 *)
Definition round (W : list N) (t : nat) (s : state) : state :=
  let '(a, b, c, d, e) := s in
  let T := plus32 (plus32 (plus32 (plus32 (ROTL 5 a) (f t b c d)) e) (K t)) (nth t W 0) in
  (T, a, ROTL 30 b, c, d).

Fixpoint rounds (n : nat) (W : list N) (s : state) : state :=
  match n with O => s | S n' => round W n' (rounds n' W s) end.

(* 6.1.2 *)
Definition compress (h : state) (blk : list N) : state :=
  let W := schedule 64 (block_words blk) in
  let '(h0, h1, h2, h3, h4) := h in
  let '(a, b, c, d, e) := rounds 80 W h in
  (plus32 a h0, plus32 b h1, plus32 c h2, plus32 d h3, plus32 e h4).

(* process n 512-bit blocks *)
Fixpoint process (n : nat) (h : state) (bytes : list N) : state :=
  match n with
  | O => h
  | S n' => process n' (compress h (firstn 64 bytes)) (skipn 64 bytes)
  end.

(* 5.3.1 *)
Definition H0 : state := (0x67452301, 0xefcdab89, 0x98badcfe, 0x10325476, 0xc3d2e1f0).

Definition SHA1 (m : list N) : list N :=
  let p := pad m in
  let '(a, b, c, d, e) := process (length p / 64) H0 p in
  flat_map (be_bytes 4) [a; b; c; d; e].

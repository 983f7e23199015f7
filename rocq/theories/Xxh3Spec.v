(* Reference semantics of XXH3 (64 and 128 bits) as pure functions of the bytes: sums over pieces of the input for up
   to 240 bytes, a pass over stripes of 64 bytes for more. *)
From Coq Require Import NArith Arith List.
From Verif Require Import XxhSpec.
Import ListNotations.
Open Scope N_scope.

Definition at8 (bs : list N) (p : nat) : N := nth p bs 0.
Definition at32 (bs : list N) (p : nat) : N := le (firstn 4 (skipn p bs)).
Definition at64 (bs : list N) (p : nat) : N := le (firstn 8 (skipn p bs)).
Fixpoint digits (n : nat) (x : N) : list N := match n with O => [] | S k => x mod 256 :: digits k (x / 256) end.
(* the number with the bytes in reverse order *)
Definition flip (n : nat) (x : N) : N := be (digits n x).
Definition plus (a b : N) : N := (a + b) mod 2 ^ 64.
Definition minus (a b : N) : N := (a + (2 ^ 64 - b)) mod 2 ^ 64.
Definition times (a b : N) : N := (a * b) mod 2 ^ 64.
Definition sum (l : list N) : N := fold_right N.add 0 l.
(* low half xor high half of the 128 bit product *)
Definition fold64 (a b : N) : N := N.lxor ((a * b) mod 2 ^ 64) (a * b / 2 ^ 64).
Definition avalanche (x : N) : N := mix (times (mix x 37) 0x165667919E3779F9) 32.
Definition scatter (x : N) : N := times x 0x9FB21C651E98DF25.
(* the low half of the seed, bytes reversed, goes onto the high half *)
Definition spread (seed : N) : N := N.lxor seed (flip 4 (seed mod 2 ^ 32) * 2 ^ 32).
Definition size (bs : list N) : N := N.of_nat (length bs).

(* ---- 64 bits, up to 240 bytes ---- *)
Definition first_mid_last (bs : list N) : N :=
  at8 bs (length bs - 1) + 2 ^ 8 * size bs + 2 ^ 16 * at8 bs 0 + 2 ^ 24 * at8 bs (length bs / 2).
Definition mix16 (sec : list N) (seed : N) (bs : list N) (p s : nat) : N :=
  fold64 (N.lxor (at64 bs p) (plus (at64 sec s) seed)) (N.lxor (at64 bs (p + 8)) (minus (at64 sec (s + 8)) seed)).
Definition short64 (sec : list N) (seed : N) (bs : list N) : N :=
  let n := length bs in
  if (n =? 0)%nat then avalanche (N.lxor (plus q1 seed) (N.lxor (at64 sec 56) (at64 sec 64)))
  else if (n <=? 3)%nat then
    avalanche (times (N.lxor (first_mid_last bs) (plus (N.lxor (at32 sec 0) (at32 sec 4)) seed)) q1)
  else if (n <=? 8)%nat then
    let x := N.lxor (at32 bs (n - 4) + 2 ^ 32 * at32 bs 0) (minus (N.lxor (at64 sec 8) (at64 sec 16)) (spread seed)) in
    let x := scatter (N.lxor x (N.lxor (rot 64 x 49) (rot 64 x 24))) in
    mix (scatter (N.lxor x (plus (x / 2 ^ 35) (size bs)))) 28
  else if (n <=? 16)%nat then
    let lo := N.lxor (at64 bs 0) (plus (N.lxor (at64 sec 24) (at64 sec 32)) seed) in
    let hi := N.lxor (at64 bs (n - 8)) (minus (N.lxor (at64 sec 40) (at64 sec 48)) seed) in
    avalanche ((size bs + flip 8 lo + hi + fold64 lo hi) mod 2 ^ 64)
  else if (n <=? 128)%nat then
    (* 16 bytes from the front and from the back until they meet *)
    let pieces := seq 0 (S ((n - 1) / 32)) in
    avalanche ((size bs * q1 + sum (map (fun i => mix16 sec seed bs (16 * i) (32 * i)
                                              + mix16 sec seed bs (n - 16 * (i + 1)) (32 * i + 16)) pieces)) mod 2 ^ 64)
  else
    let a := avalanche ((size bs * q1 + sum (map (fun i => mix16 sec seed bs (16 * i) (16 * i)) (seq 0 8))) mod 2 ^ 64) in
    let b := sum (map (fun i => mix16 sec seed bs (16 * i) (16 * (i - 8) + 3)) (seq 8 (n / 16 - 8))) in
    avalanche ((a + b + mix16 sec seed bs (n - 16) 119) mod 2 ^ 64).

(* ---- more than 240 bytes ---- *)
Definition start_acc : list N := [p3; q1; q2; q3; q4; p2; q5; p1].
(* each 64 bit lane of the accumulator takes a lane of the stripe (its neighbour's if swap) and a product *)
Definition partner (swap : bool) (i : nat) : nat := if swap then (if Nat.even i then S i else i - 1)%nat else i.
Definition soak (swap : bool) (key : list N) (a st : list N) : list N :=
  map (fun i => let x := N.lxor (at64 st (8 * i)) (at64 key (8 * i)) in
                (nth i a 0 + at64 st (8 * partner swap i) + (x mod 2 ^ 32) * (x / 2 ^ 32)) mod 2 ^ 64) (seq 0 8).
Definition scramble (key : list N) (a : list N) : list N :=
  map (fun i => times (N.lxor (mix (nth i a 0) 47) (at64 key (8 * i))) p1) (seq 0 8).
(* a block has as many stripes as the secret has positions 8 bytes apart; the accumulator is scrambled after each block *)
Definition per_block (sec : list N) : nat := ((length sec - 64) / 8)%nat.
Definition step (swap : bool) (sec : list N) (s : list N * nat) (st : list N) : list N * nat :=
  let (a, j) := s in
  let a := soak swap (skipn (8 * j) sec) a st in
  if (S j =? per_block sec)%nat then (scramble (skipn (length sec - 64) sec) a, 0%nat) else (a, S j).
Definition passes (swap : bool) (sec bs : list N) : list N * nat := over_stripes 64 (step swap sec) (start_acc, 0%nat) bs.
Definition long_acc (swap : bool) (sec bs : list N) : list N :=
  let a := fst (passes swap sec bs) in
  if (length bs mod 64 =? 0)%nat then a
  else soak swap (skipn (length sec - 71) sec) a (skipn (length bs - 64) bs).
Definition join3 (key a : list N) (start : N) : N :=
  avalanche ((start + sum (map (fun i => fold64 (N.lxor (nth (2 * i) a 0) (at64 key (16 * i)))
                                               (N.lxor (nth (2 * i + 1) a 0) (at64 key (16 * i + 8)))) (seq 0 4))) mod 2 ^ 64).
Definition long64 (sec bs : list N) : N := join3 (skipn 11 sec) (long_acc false sec bs) (times (size bs) q1).

(* ---- 128 bits: (low, high) ---- *)
Definition mix32 (sec : list N) (seed : N) (bs : list N) (a : N * N) (p p' s : nat) : N * N :=
  (N.lxor (plus (fst a) (mix16 sec seed bs p s)) (plus (at64 bs p') (at64 bs (p' + 8))),
   N.lxor (plus (snd a) (mix16 sec seed bs p' (s + 16))) (plus (at64 bs p) (at64 bs (p + 8)))).
Definition finish (n seed : N) (a : N * N) : N * N :=
  (avalanche (plus (fst a) (snd a)),
   minus 0 (avalanche ((fst a * q1 + snd a * q4 + minus n seed * q2) mod 2 ^ 64))).
Definition short128 (sec : list N) (seed : N) (bs : list N) : N * N :=
  let n := length bs in
  if (n =? 0)%nat then
    (avalanche (N.lxor (plus q1 seed) (N.lxor (at64 sec 64) (at64 sec 72))),
     avalanche (N.lxor (minus q2 seed) (N.lxor (at64 sec 80) (at64 sec 88))))
  else if (n <=? 3)%nat then
    let l := first_mid_last bs in
    (avalanche (times (N.lxor l (plus (N.lxor (at32 sec 0) (at32 sec 4)) seed)) q1),
     avalanche (times (N.lxor (rot 32 (flip 4 l) 13) (minus (N.lxor (at32 sec 8) (at32 sec 12)) seed)) q5))
  else if (n <=? 8)%nat then
    let x := N.lxor (at32 bs 0 + 2 ^ 32 * at32 bs (n - 4)) (plus (N.lxor (at64 sec 16) (at64 sec 24)) (spread seed)) in
    let m := x * (q1 + 4 * size bs) in
    let high := (m / 2 ^ 64 + 2 * (m mod 2 ^ 64)) mod 2 ^ 64 in
    (mix (scatter (mix (N.lxor (m mod 2 ^ 64) (high / 2 ^ 3)) 35)) 28, avalanche high)
  else if (n <=? 16)%nat then
    let hi := N.lxor (at64 bs (n - 8)) (plus (N.lxor (at64 sec 48) (at64 sec 56)) seed) in
    let m := N.lxor (N.lxor (at64 bs 0) (at64 bs (n - 8))) (minus (N.lxor (at64 sec 32) (at64 sec 40)) seed) * q1 in
    let low := (m + 2 ^ 54 * (size bs - 1)) mod 2 ^ 64 in
    let high := (m / 2 ^ 64 + (hi / 2 ^ 32) * 2 ^ 32 + (hi mod 2 ^ 32) * p2) mod 2 ^ 64 in
    let h := (N.lxor low (flip 8 high) + high * 2 ^ 64) * q2 in
    (avalanche (h mod 2 ^ 64), avalanche (h / 2 ^ 64 mod 2 ^ 64))
  else if (n <=? 128)%nat then
    finish (size bs) seed
      (fold_left (fun a i => mix32 sec seed bs a (16 * i) (n - 16 * (i + 1)) (32 * i)) (rev (seq 0 (S ((n - 1) / 32)))) (times (size bs) q1, 0))
  else
    let a := fold_left (fun a i => mix32 sec seed bs a (32 * i) (32 * i + 16) (32 * i)) (seq 0 4) (times (size bs) q1, 0) in
    let a := (avalanche (fst a), avalanche (snd a)) in
    let a := fold_left (fun a i => mix32 sec seed bs a (32 * i) (32 * i + 16) (32 * (i - 4) + 3)) (seq 4 (n / 32 - 4)) a in
    finish (size bs) seed (mix32 sec (minus 0 seed) bs a (n - 16) (n - 32) 103).
Definition long128 (sec bs : list N) : N * N :=
  let a := long_acc true sec bs in
  (join3 (skipn 11 sec) a (times (size bs) q1),
   join3 (skipn (length sec - 75) sec) a (2 ^ 64 - 1 - times (size bs) q2)).

(* ---- the hashes ---- *)
(* the secret for a seed: the seed is added to the even words and subtracted from the odd words *)
Definition derive (seed : N) (sec : list N) : list N :=
  flat_map (fun i => digits 8 (plus (at64 sec (16 * i)) seed) ++ digits 8 (minus (at64 sec (16 * i + 8)) seed)) (seq 0 (length sec / 16)).
Definition xxh3_64_secret (sec bs : list N) : N := if (length bs <=? 240)%nat then short64 sec 0 bs else long64 sec bs.
Definition xxh3_128_secret (sec bs : list N) : N * N := if (length bs <=? 240)%nat then short128 sec 0 bs else long128 sec bs.
Definition xxh3_64 (sec : list N) (seed : N) (bs : list N) : N :=
  if (length bs <=? 240)%nat then short64 sec seed bs else long64 (derive seed sec) bs.
Definition xxh3_128 (sec : list N) (seed : N) (bs : list N) : N * N :=
  if (length bs <=? 240)%nat then short128 sec seed bs else long128 (derive seed sec) bs.

(* Model of src/clean-core/detail/xxHash/xxh3.hh: XXH3 with 64 and 128 bits, one-shot and streaming, and of
   src/clean-core/hash.xxh3.cc.  Buffers as in XxhModel.v; a secret is the list of its bytes.
   XXH_PREFETCH has no effect.  Of the assertions, those on null pointers and on the alignment of acc are left out.
   NEON and VSX code is not modelled. *)
From Coq Require Import NArith ZArith Arith List Bool.
From Verif Require Import Base XxhModel.
Import ListNotations.
Open Scope N_scope.

(* for (i = from; i < from + n; i++) a = f(i, a) *)
Fixpoint for_up {A} (n from : nat) (f : nat -> A -> outcome A) (a : A) : outcome A :=
  match n with O => Ok a | S k => let! a := f from a in for_up k (S from) f a end.

(* the build: vector code or scalar code, __uint128_t or not, 64 bit pointers or not, DEBUGLEVEL >= 1 or not (xxhash.hh:890-899) *)
Record build := mkBuild { vector : bool; int128 : bool; ptr64 : bool; debug : bool }.
Definition XXH_ASSERT (c : build) (b : bool) : outcome unit := if debug c then contract b else Ok tt.

(* xxhash.hh:524, 560-561; xxh3.hh:448, 834, 842-843, 893-894, 1418, 1470 *)
Definition XXH3_SECRET_SIZE_MIN : nat := 136.
Definition XXH_SECRET_DEFAULT_SIZE : nat := 192.
Definition XXH3_INTERNALBUFFER_SIZE : nat := 256.
Definition XXH3_MIDSIZE_MAX : nat := 240.
Definition XXH3_MIDSIZE_STARTOFFSET : nat := 3.
Definition XXH3_MIDSIZE_LASTOFFSET : nat := 17.
Definition STRIPE_LEN : nat := 64.
Definition XXH_SECRET_CONSUME_RATE : nat := 8.
Definition XXH_SECRET_LASTACC_START : nat := 7.
Definition XXH_SECRET_MERGEACCS_START : nat := 11.

(* xxh3.hh:456-467 *)
Definition kSecret : list N := [
  0xb8; 0xfe; 0x6c; 0x39; 0x23; 0xa4; 0x4b; 0xbe; 0x7c; 0x01; 0x81; 0x2c; 0xf7; 0x21; 0xad; 0x1c; 0xde; 0xd4; 0x6d; 0xe9; 0x83; 0x90;
  0x97; 0xdb; 0x72; 0x40; 0xa4; 0xa4; 0xb7; 0xb3; 0x67; 0x1f; 0xcb; 0x79; 0xe6; 0x4e; 0xcc; 0xc0; 0xe5; 0x78; 0x82; 0x5a; 0xd0; 0x7d;
  0xcc; 0xff; 0x72; 0x21; 0xb8; 0x08; 0x46; 0x74; 0xf7; 0x43; 0x24; 0x8e; 0xe0; 0x35; 0x90; 0xe6; 0x81; 0x3a; 0x26; 0x4c; 0x3c; 0x28;
  0x52; 0xbb; 0x91; 0xc3; 0x00; 0xcb; 0x88; 0xd0; 0x65; 0x8b; 0x1b; 0x53; 0x2e; 0xa3; 0x71; 0x64; 0x48; 0x97; 0xa2; 0x0d; 0xf9; 0x4e;
  0x38; 0x19; 0xef; 0x46; 0xa9; 0xde; 0xac; 0xd8; 0xa8; 0xfa; 0x76; 0x3f; 0xe3; 0x9c; 0x34; 0x3f; 0xf9; 0xdc; 0xbb; 0xc7; 0xc7; 0x0b;
  0x4f; 0x1d; 0x8a; 0x51; 0xe0; 0x4b; 0xcd; 0xb4; 0x59; 0x31; 0xc8; 0x9f; 0x7e; 0xc9; 0xd9; 0x78; 0x73; 0x64;
  0xea; 0xc5; 0xac; 0x83; 0x34; 0xd3; 0xeb; 0xc3; 0xc5; 0x81; 0xa0; 0xff; 0xfa; 0x13; 0x63; 0xeb; 0x17; 0x0d; 0xdd; 0x51; 0xb7; 0xf0;
  0xda; 0x49; 0xd3; 0x16; 0x55; 0x26; 0x29; 0xd4; 0x68; 0x9e; 0x2b; 0x16; 0xbe; 0x58; 0x7d; 0x47; 0xa1; 0xfc; 0x8f; 0xf8; 0xb8; 0xd1;
  0x7a; 0xd0; 0x31; 0xce; 0x45; 0xcb; 0x3a; 0x8f; 0x95; 0x16; 0x04; 0x28; 0xaf; 0xd7; 0xfb; 0xca; 0xbb; 0x4b; 0x40; 0x7e ].

(* ---- multiplication ---- *)
(* xxh3.hh:496 *)
Definition mult32to64 (x y : N) : N := wmul 64 (wrap 32 x) (wrap 32 y).
(* xxh3.hh:523-527, 541-546 (the versions with a double width product); (low64, high64) *)
Definition mult64to128_wide (lhs rhs : N) : N * N :=
  let product := wmul 128 lhs rhs in (wrap 64 product, wrap 64 (N.shiftr product 64)).
(* xxh3.hh:593-606 (the portable version) *)
Definition mult64to128_portable (lhs rhs : N) : N * N :=
  let lo_lo := mult32to64 (N.land lhs 0xFFFFFFFF) (N.land rhs 0xFFFFFFFF) in
  let hi_lo := mult32to64 (N.shiftr lhs 32) (N.land rhs 0xFFFFFFFF) in
  let lo_hi := mult32to64 (N.land lhs 0xFFFFFFFF) (N.shiftr rhs 32) in
  let hi_hi := mult32to64 (N.shiftr lhs 32) (N.shiftr rhs 32) in
  let cross := wadd 64 (wadd 64 (N.shiftr lo_lo 32) (N.land hi_lo 0xFFFFFFFF)) lo_hi in
  let upper := wadd 64 (wadd 64 (N.shiftr hi_lo 32) (N.shiftr cross 32)) hi_hi in
  let lower := N.lor (wrap 64 (N.shiftl cross 32)) (N.land lo_lo 0xFFFFFFFF) in
  (lower, upper).
(* xxh3.hh:504-608 *)
Definition mult64to128 (c : build) (lhs rhs : N) : N * N :=
  if int128 c then mult64to128_wide lhs rhs else mult64to128_portable lhs rhs.
(* xxh3.hh:616-620 *)
Definition mul128_fold64 (c : build) (lhs rhs : N) : N := let (lo, hi) := mult64to128 c lhs rhs in N.lxor lo hi.
(* xxh3.hh:634-640 *)
Definition XXH3_avalanche (h64 : N) : N :=
  let h64 := xorshift h64 37 in
  let h64 := wmul 64 h64 0x165667919E3779F9 in
  xorshift h64 32.

(* ---- 64 bits, short inputs ---- *)
(* xxh3.hh:676-696 *)
Definition len_1to3_64b (c : build) (input : list N) (len : nat) (secret : list N) (seed : N) : outcome N :=
  let! _ := XXH_ASSERT c ((1 <=? len)%nat && (len <=? 3)%nat) in
  let! c1 := read8 input 0 in
  let! c2 := read8 input (len / 2) in
  let! c3 := read8 input (len - 1) in
  let combined := N.lor (N.lor (N.lor (N.shiftl c1 16) (N.shiftl c2 24)) (N.shiftl c3 0)) (N.shiftl (N.of_nat len) 8) in
  let! s0 := readLE32 secret 0 in let! s1 := readLE32 secret 4 in
  let bitflip := wadd 64 (N.lxor s0 s1) seed in
  let keyed := N.lxor combined bitflip in
  let mixed := wmul 64 keyed PRIME64_1 in
  Ok (XXH3_avalanche mixed).
(* xxh3.hh:703, 1951 *)
Definition spread_seed (seed : N) : N := N.lxor seed (wrap 64 (N.shiftl (swap32 (wrap 32 seed)) 32)).
(* xxh3.hh:698-717 *)
Definition len_4to8_64b (c : build) (input : list N) (len : nat) (secret : list N) (seed : N) : outcome N :=
  let! _ := XXH_ASSERT c ((4 <=? len)%nat && (len <? 8)%nat) in
  let seed := spread_seed seed in
  let! input1 := readLE32 input 0 in
  let! input2 := readLE32 input (len - 4) in
  let! s0 := readLE64 secret 8 in let! s1 := readLE64 secret 16 in
  let bitflip := wsub 64 (N.lxor s0 s1) seed in
  let input64 := wadd 64 input2 (wrap 64 (N.shiftl input1 32)) in
  let x := N.lxor input64 bitflip in
  let x := N.lxor x (N.lxor (rotl 64 x 49) (rotl 64 x 24)) in
  let x := wmul 64 x 0x9FB21C651E98DF25 in
  let x := N.lxor x (wadd 64 (N.shiftr x 35) (N.of_nat len)) in
  let x := wmul 64 x 0x9FB21C651E98DF25 in
  Ok (xorshift x 28).
(* xxh3.hh:719-732 *)
Definition len_9to16_64b (c : build) (input : list N) (len : nat) (secret : list N) (seed : N) : outcome N :=
  let! _ := XXH_ASSERT c ((8 <=? len)%nat && (len <=? 16)%nat) in
  let! s0 := readLE64 secret 24 in let! s1 := readLE64 secret 32 in
  let bitflip1 := wadd 64 (N.lxor s0 s1) seed in
  let! s2 := readLE64 secret 40 in let! s3 := readLE64 secret 48 in
  let bitflip2 := wsub 64 (N.lxor s2 s3) seed in
  let! i0 := readLE64 input 0 in
  let input_lo := N.lxor i0 bitflip1 in
  let! i1 := readLE64 input (len - 8) in
  let input_hi := N.lxor i1 bitflip2 in
  let acc := wadd 64 (wadd 64 (wadd 64 (N.of_nat len) (swap64 input_lo)) input_hi) (mul128_fold64 c input_lo input_hi) in
  Ok (XXH3_avalanche acc).
(* xxh3.hh:734-746 *)
Definition len_0to16_64b (c : build) (input : list N) (len : nat) (secret : list N) (seed : N) : outcome N :=
  let! _ := XXH_ASSERT c ((len <=? 16)%nat) in
  if (8 <? len)%nat then len_9to16_64b c input len secret seed
  else if (4 <=? len)%nat then len_4to8_64b c input len secret seed
  else if (0 <? len)%nat then len_1to3_64b c input len secret seed
  else
    let! s0 := readLE64 secret 56 in let! s1 := readLE64 secret 64 in
    Ok (XXH3_avalanche (N.lxor (wadd 64 PRIME64_1 seed) (N.lxor s0 s1))).
(* xxh3.hh:774-801 *)
Definition mix16B (c : build) (input : list N) (p : nat) (secret : list N) (s : nat) (seed64 : N) : outcome N :=
  let! input_lo := readLE64 input p in
  let! input_hi := readLE64 input (p + 8) in
  let! s0 := readLE64 secret s in let! s1 := readLE64 secret (s + 8) in
  Ok (mul128_fold64 c (N.lxor input_lo (wadd 64 s0 seed64)) (N.lxor input_hi (wsub 64 s1 seed64))).
(* acc += XXH3_mix16B(...) *)
Definition add_mix (c : build) (input : list N) (secret : list N) (seed : N) (p s : nat) (acc : N) : outcome N :=
  let! m := mix16B c input p secret s seed in Ok (wadd 64 acc m).
(* xxh3.hh:804-832 *)
Definition len_17to128_64b (c : build) (input : list N) (len : nat) (secret : list N) (seed : N) : outcome N :=
  let! _ := XXH_ASSERT c ((XXH3_SECRET_SIZE_MIN <=? length secret)%nat) in
  let! _ := XXH_ASSERT c ((16 <? len)%nat && (len <=? 128)%nat) in
  let mixin := add_mix c input secret seed in
  let acc := wmul 64 (N.of_nat len) PRIME64_1 in
  let! acc :=
    (if (32 <? len)%nat then
       let! acc :=
         (if (64 <? len)%nat then
            let! acc :=
              (if (96 <? len)%nat then
                 let! acc := mixin 48 96 acc in
                 mixin (len - 64) 112 acc
               else Ok acc) in
            let! acc := mixin 32 64 acc in
            mixin (len - 48) 80 acc
          else Ok acc)%nat in
       let! acc := mixin 16 32 acc in
       mixin (len - 32) 48 acc
     else Ok acc)%nat in
  let! acc := mixin 0%nat 0%nat acc in
  let! acc := mixin (len - 16)%nat 16%nat acc in
  Ok (XXH3_avalanche acc).
(* xxh3.hh:836-888 *)
Definition len_129to240_64b (c : build) (input : list N) (len : nat) (secret : list N) (seed : N) : outcome N :=
  let! _ := XXH_ASSERT c ((XXH3_SECRET_SIZE_MIN <=? length secret)%nat) in
  let! _ := XXH_ASSERT c ((128 <? len)%nat && (len <=? XXH3_MIDSIZE_MAX)%nat) in
  let mixin := add_mix c input secret seed in
  let acc := wmul 64 (N.of_nat len) PRIME64_1 in
  let nbRounds := (len / 16)%nat in
  let! acc := for_up 8 0 (fun i acc => mixin (16 * i)%nat (16 * i)%nat acc) acc in
  let acc := XXH3_avalanche acc in
  let! _ := XXH_ASSERT c (8 <=? nbRounds)%nat in
  let! acc := for_up (nbRounds - 8) 8 (fun i acc => mixin (16 * i)%nat (16 * (i - 8) + XXH3_MIDSIZE_STARTOFFSET)%nat acc) acc in
  let! acc := mixin (len - 16)%nat (XXH3_SECRET_SIZE_MIN - XXH3_MIDSIZE_LASTOFFSET)%nat acc in
  Ok (XXH3_avalanche acc).

(* ---- long inputs ---- *)
(* XXH3_accumulate_512 and XXH3_scrambleAcc have scalar code and AVX512, AVX2 and SSE2 code.  All instructions of the
   latter act on each 128 bit part of a vector on its own, so they are one and the same function of the four parts. *)
(* XXH3_accWidth_e *)
Inductive width := acc_64bits | acc_128bits.

(* xxh3.hh:1131-1145 *)
Definition accumulate_lane (input : list N) (p : nat) (secret : list N) (s : nat) (w : width) (i : nat) (xacc : list N) : outcome (list N) :=
  let! data_val := readLE64 input (p + 8 * i) in
  let! key := readLE64 secret (s + i * 8) in
  let data_key := N.lxor data_val key in
  let! xacc :=
    match w with
    | acc_64bits => let! a := aget xacc i in aset xacc i (wadd 64 a data_val)
    | acc_128bits => let! a := aget xacc (Nat.lxor i 1) in aset xacc (Nat.lxor i 1) (wadd 64 a data_val)
    end in
  let! a := aget xacc i in
  aset xacc i (wadd 64 a (mult32to64 (N.land data_key 0xFFFFFFFF) (N.shiftr data_key 32))).
(* 128 bit vectors as two 64 bit words, low word first *)
Definition vec := (N * N)%type.
Definition vxor (a b : vec) : vec := (N.lxor (fst a) (fst b), N.lxor (snd a) (snd b)).
Definition vadd (a b : vec) : vec := (wadd 64 (fst a) (fst b), wadd 64 (snd a) (snd b)).
(* _mm_mul_epu32 *)
Definition vmul32 (a b : vec) : vec := (wrap 32 (fst a) * wrap 32 (fst b), wrap 32 (snd a) * wrap 32 (snd b)).
Definition vshr (a : vec) (k : N) : vec := (N.shiftr (fst a) k, N.shiftr (snd a) k).
Definition vshl (a : vec) (k : N) : vec := (wrap 64 (N.shiftl (fst a) k), wrap 64 (N.shiftl (snd a) k)).
(* _mm_shuffle_epi32(a, _MM_SHUFFLE(d, c, b, a)): lane 0 of the result is lane a, lane 1 is lane b, ... *)
Definition lane32 (v : vec) (i : nat) : N :=
  match i with O => wrap 32 (fst v) | 1%nat => N.shiftr (fst v) 32 | 2%nat => wrap 32 (snd v) | _ => N.shiftr (snd v) 32 end.
Definition shuffle (v : vec) (d c b a : nat) : vec :=
  (lane32 v a + 2 ^ 32 * lane32 v b, lane32 v c + 2 ^ 32 * lane32 v d).
Definition set1 (x : N) : vec := (x + 2 ^ 32 * x, x + 2 ^ 32 * x).
Definition vload (b : list N) (p : nat) : outcome vec := let! l := readLE64 b p in let! h := readLE64 b (p + 8) in Ok (l, h).
Definition vget (xacc : list N) (i : nat) : outcome vec := let! l := aget xacc (2 * i) in let! h := aget xacc (2 * i + 1) in Ok (l, h).
Definition vset (xacc : list N) (i : nat) (v : vec) : outcome (list N) :=
  let! xacc := aset xacc (2 * i) (fst v) in aset xacc (2 * i + 1) (snd v).
(* xxh3.hh:1018-1046; also 933-959, 973-1001 *)
Definition accumulate_part (input : list N) (p : nat) (secret : list N) (s : nat) (w : width) (i : nat) (xacc : list N) : outcome (list N) :=
  let! data_vec := vload input (p + 16 * i) in
  let! key_vec := vload secret (s + 16 * i) in
  let data_key := vxor data_vec key_vec in
  let data_key_lo := shuffle data_key 0 3 0 1 in
  let product := vmul32 data_key data_key_lo in
  let! acc := vget xacc i in
  let sum := match w with
             | acc_128bits => let data_swap := shuffle data_vec 1 0 3 2 in vadd acc data_swap
             | acc_64bits => vadd acc data_vec
             end in
  vset xacc i (vadd product sum).
Definition accumulate_512 (c : build) (w : width) (acc : list N) (input : list N) (p : nat) (secret : list N) (s : nat) : outcome (list N) :=
  if vector c then for_up 4 0 (accumulate_part input p secret s w) acc
  else for_up 8 0 (accumulate_lane input p secret s w) acc.
(* xxh3.hh:1343-1351 *)
Definition scramble_lane (secret : list N) (s : nat) (i : nat) (xacc : list N) : outcome (list N) :=
  let! key64 := readLE64 secret (s + 8 * i) in
  let! acc64 := aget xacc i in
  let acc64 := xorshift acc64 47 in
  let acc64 := N.lxor acc64 key64 in
  let acc64 := wmul 64 acc64 PRIME32_1 in
  aset xacc i acc64.
(* xxh3.hh:1234-1249; also 1178-1192, 1206-1220 *)
Definition scramble_part (secret : list N) (s : nat) (i : nat) (xacc : list N) : outcome (list N) :=
  let prime32 := set1 PRIME32_1 in
  let! acc_vec := vget xacc i in
  let shifted := vshr acc_vec 47 in
  let data_vec := vxor acc_vec shifted in
  let! key_vec := vload secret (s + 16 * i) in
  let data_key := vxor data_vec key_vec in
  let data_key_hi := shuffle data_key 0 3 0 1 in
  let prod_lo := vmul32 data_key prime32 in
  let prod_hi := vmul32 data_key_hi prime32 in
  vset xacc i (vadd prod_lo (vshl prod_hi 32)).
Definition scrambleAcc (c : build) (acc : list N) (secret : list N) (s : nat) : outcome (list N) :=
  if vector c then for_up 4 0 (scramble_part secret s) acc
  else for_up 8 0 (scramble_lane secret s) acc.
(* xxh3.hh:1371-1387 *)
Definition accumulate (c : build) (w : width) (acc : list N) (input : list N) (p : nat) (secret : list N) (s nbStripes : nat) : outcome (list N) :=
  for_up nbStripes 0 (fun n acc => accumulate_512 c w acc input (p + n * STRIPE_LEN) secret (s + n * XXH_SECRET_CONSUME_RATE)) acc.
(* xxh3.hh:1389-1422; secretSize is the length of secret *)
Definition hashLong_internal_loop (c : build) (w : width) (acc : list N) (input : list N) (len : nat) (secret : list N) : outcome (list N) :=
  let secretSize := length secret in
  let nb_rounds := ((secretSize - STRIPE_LEN) / XXH_SECRET_CONSUME_RATE)%nat in
  let block_len := (STRIPE_LEN * nb_rounds)%nat in
  let! _ := defined (0 <? block_len)%nat in
  let nb_blocks := (len / block_len)%nat in
  let! _ := XXH_ASSERT c (XXH3_SECRET_SIZE_MIN <=? secretSize)%nat in
  let! acc := for_up nb_blocks 0 (fun n acc =>
      let! acc := accumulate c w acc input (n * block_len) secret 0 nb_rounds in
      scrambleAcc c acc secret (secretSize - STRIPE_LEN)) acc in
  let! _ := XXH_ASSERT c (STRIPE_LEN <? len)%nat in
  let nbStripes := ((len - block_len * nb_blocks) / STRIPE_LEN)%nat in
  let! _ := XXH_ASSERT c (nbStripes <=? secretSize / XXH_SECRET_CONSUME_RATE)%nat in
  let! acc := accumulate c w acc input (nb_blocks * block_len) secret 0 nbStripes in
  if (0 <? len mod STRIPE_LEN)%nat then
    accumulate_512 c w acc input (len - STRIPE_LEN) secret (secretSize - STRIPE_LEN - XXH_SECRET_LASTACC_START)
  else Ok acc.
(* xxh3.hh:1424-1427 *)
Definition mix2Accs (c : build) (acc : list N) (i : nat) (secret : list N) (s : nat) : outcome N :=
  let! a0 := aget acc i in let! a1 := aget acc (i + 1) in
  let! s0 := readLE64 secret s in let! s1 := readLE64 secret (s + 8) in
  Ok (mul128_fold64 c (N.lxor a0 s0) (N.lxor a1 s1)).
(* xxh3.hh:1429-1454 *)
Definition mergeAccs (c : build) (acc : list N) (secret : list N) (s : nat) (start : N) : outcome N :=
  let! result64 := for_up 4 0 (fun i r => let! m := mix2Accs c acc (2 * i) secret (s + 16 * i) in Ok (wadd 64 r m)) start in
  Ok (XXH3_avalanche result64).
(* xxh3.hh:1456-1459 *)
Definition XXH3_INIT_ACC : list N := [PRIME32_3; PRIME64_1; PRIME64_2; PRIME64_3; PRIME64_4; PRIME32_2; PRIME64_5; PRIME32_1].
(* xxh3.hh:1461-1473 *)
Definition hashLong_64b_internal (c : build) (input : list N) (len : nat) (secret : list N) : outcome N :=
  let! acc := hashLong_internal_loop c acc_64bits XXH3_INIT_ACC input len secret in
  let! _ := XXH_ASSERT c ((64 + XXH_SECRET_MERGEACCS_START <=? length secret)%nat) in
  mergeAccs c acc secret XXH_SECRET_MERGEACCS_START (wmul 64 (N.of_nat len) PRIME64_1).
(* xxh3.hh:1485-1546 *)
Definition initCustomSecret (customSecret : list N) (seed64 : N) : outcome (list N) :=
  for_up (XXH_SECRET_DEFAULT_SIZE / 16) 0 (fun i d =>
    let! k0 := readLE64 kSecret (16 * i) in
    let lo := wadd 64 k0 seed64 in
    let! k1 := readLE64 kSecret (16 * i + 8) in
    let hi := wsub 64 k1 seed64 in
    let! d := copy d (16 * i) (bytesLE 8 lo) 0 8 in
    copy d (16 * i + 8) (bytesLE 8 hi) 0 8) customSecret.
(* xxh3.hh:1578-1585; the local array starts with indeterminate bytes g *)
Definition hashLong_64b_withSeed (c : build) (g : list N) (input : list N) (len : nat) (seed : N) : outcome N :=
  if seed =? 0 then hashLong_64b_internal c input len kSecret
  else let! secret := initCustomSecret g seed in hashLong_64b_internal c input len secret.
(* xxh3.hh:1589-1598 *)
Definition XXH3_64bits (c : build) (input : list N) (len : nat) : outcome N :=
  if (len <=? 16)%nat then len_0to16_64b c input len kSecret 0
  else if (len <=? 128)%nat then len_17to128_64b c input len kSecret 0
  else if (len <=? XXH3_MIDSIZE_MAX)%nat then len_129to240_64b c input len kSecret 0
  else hashLong_64b_internal c input len kSecret.
(* xxh3.hh:1600-1616 *)
Definition XXH3_64bits_withSecret (c : build) (input : list N) (len : nat) (secret : list N) : outcome N :=
  let! _ := XXH_ASSERT c ((XXH3_SECRET_SIZE_MIN <=? length secret)%nat) in
  if (len <=? 16)%nat then len_0to16_64b c input len secret 0
  else if (len <=? 128)%nat then len_17to128_64b c input len secret 0
  else if (len <=? XXH3_MIDSIZE_MAX)%nat then len_129to240_64b c input len secret 0
  else hashLong_64b_internal c input len secret.
(* xxh3.hh:1618-1627 *)
Definition XXH3_64bits_withSeed (c : build) (g : list N) (input : list N) (len : nat) (seed : N) : outcome N :=
  if (len <=? 16)%nat then len_0to16_64b c input len kSecret seed
  else if (len <=? 128)%nat then len_17to128_64b c input len kSecret seed
  else if (len <=? XXH3_MIDSIZE_MAX)%nat then len_129to240_64b c input len kSecret seed
  else hashLong_64b_withSeed c g input len seed.
(* hash.xxh3.cc:5 *)
Definition make_hash_xxh3 (c : build) (g : list N) (data : list N) (seed : N) : outcome N :=
  XXH3_64bits_withSeed c g data (length data) seed.

(* ---- 128 bits ---- *)
Definition h128 := (N * N)%type. (* low64, high64 *)
(* xxh3.hh:1916-1944 *)
Definition len_1to3_128b (c : build) (input : list N) (len : nat) (secret : list N) (seed : N) : outcome h128 :=
  let! _ := XXH_ASSERT c ((1 <=? len)%nat && (len <=? 3)%nat) in
  let! c1 := read8 input 0 in
  let! c2 := read8 input (len / 2) in
  let! c3 := read8 input (len - 1) in
  let combinedl := N.lor (N.lor (N.lor (N.shiftl c1 16) (N.shiftl c2 24)) (N.shiftl c3 0)) (N.shiftl (N.of_nat len) 8) in
  let combinedh := rotl 32 (swap32 combinedl) 13 in
  let! s0 := readLE32 secret 0 in let! s1 := readLE32 secret 4 in
  let bitflipl := wadd 64 (N.lxor s0 s1) seed in
  let! s2 := readLE32 secret 8 in let! s3 := readLE32 secret 12 in
  let bitfliph := wsub 64 (N.lxor s2 s3) seed in
  let keyed_lo := N.lxor combinedl bitflipl in
  let keyed_hi := N.lxor combinedh bitfliph in
  let mixedl := wmul 64 keyed_lo PRIME64_1 in
  let mixedh := wmul 64 keyed_hi PRIME64_5 in
  Ok (XXH3_avalanche mixedl, XXH3_avalanche mixedh).
(* xxh3.hh:1946-1971 *)
Definition len_4to8_128b (c : build) (input : list N) (len : nat) (secret : list N) (seed : N) : outcome h128 :=
  let! _ := XXH_ASSERT c ((4 <=? len)%nat && (len <=? 8)%nat) in
  let seed := spread_seed seed in
  let! input_lo := readLE32 input 0 in
  let! input_hi := readLE32 input (len - 4) in
  let input_64 := wadd 64 input_lo (wrap 64 (N.shiftl input_hi 32)) in
  let! s0 := readLE64 secret 16 in let! s1 := readLE64 secret 24 in
  let bitflip := wadd 64 (N.lxor s0 s1) seed in
  let keyed := N.lxor input_64 bitflip in
  let (low, high) := mult64to128 c keyed (wadd 64 PRIME64_1 (N.shiftl (N.of_nat len) 2)) in
  let high := wadd 64 high (wrap 64 (N.shiftl low 1)) in
  let low := N.lxor low (N.shiftr high 3) in
  let low := xorshift low 35 in
  let low := wmul 64 low 0x9FB21C651E98DF25 in
  let low := xorshift low 28 in
  Ok (low, XXH3_avalanche high).
(* xxh3.hh:1973-2047 *)
Definition len_9to16_128b (c : build) (input : list N) (len : nat) (secret : list N) (seed : N) : outcome h128 :=
  let! _ := XXH_ASSERT c ((9 <=? len)%nat && (len <=? 16)%nat) in
  let! s0 := readLE64 secret 32 in let! s1 := readLE64 secret 40 in
  let bitflipl := wsub 64 (N.lxor s0 s1) seed in
  let! s2 := readLE64 secret 48 in let! s3 := readLE64 secret 56 in
  let bitfliph := wadd 64 (N.lxor s2 s3) seed in
  let! input_lo := readLE64 input 0 in
  let! input_hi := readLE64 input (len - 8) in
  let (low, high) := mult64to128 c (N.lxor (N.lxor input_lo input_hi) bitflipl) PRIME64_1 in
  let low := wadd 64 low (wrap 64 (N.shiftl (N.of_nat (len - 1)) 54)) in
  let input_hi := N.lxor input_hi bitfliph in
  let high :=
    if ptr64 c then wadd 64 high (wadd 64 input_hi (mult32to64 (wrap 32 input_hi) (PRIME32_2 - 1)))
    else wadd 64 high (wadd 64 (N.land input_hi 0xFFFFFFFF00000000) (mult32to64 (wrap 32 input_hi) PRIME32_2)) in
  let low := N.lxor low (swap64 high) in
  let (l, h) := mult64to128 c low PRIME64_2 in
  let h := wadd 64 h (wmul 64 high PRIME64_2) in
  Ok (XXH3_avalanche l, XXH3_avalanche h).
(* xxh3.hh:2052-2071 *)
Definition len_0to16_128b (c : build) (input : list N) (len : nat) (secret : list N) (seed : N) : outcome h128 :=
  let! _ := XXH_ASSERT c ((len <=? 16)%nat) in
  if (8 <? len)%nat then len_9to16_128b c input len secret seed
  else if (4 <=? len)%nat then len_4to8_128b c input len secret seed
  else if (0 <? len)%nat then len_1to3_128b c input len secret seed
  else
    let! s0 := readLE64 secret 64 in let! s1 := readLE64 secret 72 in
    let! s2 := readLE64 secret 80 in let! s3 := readLE64 secret 88 in
    Ok (XXH3_avalanche (N.lxor (wadd 64 PRIME64_1 seed) (N.lxor s0 s1)),
        XXH3_avalanche (N.lxor (wsub 64 PRIME64_2 seed) (N.lxor s2 s3))).
(* xxh3.hh:2076-2083 *)
Definition mix32B (c : build) (input : list N) (secret : list N) (seed : N) (p1 p2 s : nat) (acc : h128) : outcome h128 :=
  let (low, high) := acc in
  let! m := mix16B c input p1 secret s seed in
  let low := wadd 64 low m in
  let! a := readLE64 input p2 in let! b := readLE64 input (p2 + 8) in
  let low := N.lxor low (wadd 64 a b) in
  let! m := mix16B c input p2 secret (s + 16) seed in
  let high := wadd 64 high m in
  let! a := readLE64 input p1 in let! b := readLE64 input (p1 + 8) in
  let high := N.lxor high (wadd 64 a b) in
  Ok (low, high).
(* xxh3.hh:2107-2114, 2145-2152 *)
Definition finish_128b (len : nat) (seed : N) (acc : h128) : h128 :=
  let (low, high) := acc in
  let l := wadd 64 low high in
  let h := wadd 64 (wadd 64 (wmul 64 low PRIME64_1) (wmul 64 high PRIME64_4)) (wmul 64 (wsub 64 (N.of_nat len) seed) PRIME64_2) in
  (XXH3_avalanche l, wsub 64 0 (XXH3_avalanche h)).
(* xxh3.hh:2086-2118 *)
Definition len_17to128_128b (c : build) (input : list N) (len : nat) (secret : list N) (seed : N) : outcome h128 :=
  let! _ := XXH_ASSERT c ((XXH3_SECRET_SIZE_MIN <=? length secret)%nat) in
  let! _ := XXH_ASSERT c ((16 <? len)%nat && (len <=? 128)%nat) in
  let mixin := mix32B c input secret seed in
  let acc := (wmul 64 (N.of_nat len) PRIME64_1, 0) in
  let! acc :=
    (if (32 <? len)%nat then
       let! acc :=
         (if (64 <? len)%nat then
            let! acc := (if (96 <? len)%nat then mixin 48 (len - 64) 96 acc else Ok acc) in
            mixin 32 (len - 48) 64 acc
          else Ok acc)%nat in
       mixin 16 (len - 32) 32 acc
     else Ok acc)%nat in
  let! acc := mixin 0%nat (len - 16)%nat 0%nat acc in
  Ok (finish_128b len seed acc).
(* xxh3.hh:2120-2155 *)
Definition len_129to240_128b (c : build) (input : list N) (len : nat) (secret : list N) (seed : N) : outcome h128 :=
  let! _ := XXH_ASSERT c ((XXH3_SECRET_SIZE_MIN <=? length secret)%nat) in
  let! _ := XXH_ASSERT c ((128 <? len)%nat && (len <=? XXH3_MIDSIZE_MAX)%nat) in
  let nbRounds := (len / 32)%nat in
  let acc := (wmul 64 (N.of_nat len) PRIME64_1, 0) in
  let! acc := for_up 4 0 (fun i acc => mix32B c input secret seed (32 * i)%nat (32 * i + 16)%nat (32 * i)%nat acc) acc in
  let acc := (XXH3_avalanche (fst acc), XXH3_avalanche (snd acc)) in
  let! _ := XXH_ASSERT c (4 <=? nbRounds)%nat in
  let! acc := for_up (nbRounds - 4) 4 (fun i acc =>
    mix32B c input secret seed (32 * i)%nat (32 * i + 16)%nat (XXH3_MIDSIZE_STARTOFFSET + 32 * (i - 4))%nat acc) acc in
  let! acc := mix32B c input secret (wsub 64 0 seed) (len - 16)%nat (len - 32)%nat
                (XXH3_SECRET_SIZE_MIN - XXH3_MIDSIZE_LASTOFFSET - 16)%nat acc in
  Ok (finish_128b len seed acc).
(* xxh3.hh:2157-2172 *)
Definition hashLong_128b_internal (c : build) (input : list N) (len : nat) (secret : list N) : outcome h128 :=
  let! acc := hashLong_internal_loop c acc_128bits XXH3_INIT_ACC input len secret in
  let! _ := XXH_ASSERT c ((64 + XXH_SECRET_MERGEACCS_START <=? length secret)%nat) in
  let! low := mergeAccs c acc secret XXH_SECRET_MERGEACCS_START (wmul 64 (N.of_nat len) PRIME64_1) in
  let! high := mergeAccs c acc secret (length secret - 64 - XXH_SECRET_MERGEACCS_START) (wnot 64 (wmul 64 (N.of_nat len) PRIME64_2)) in
  Ok (low, high).
(* xxh3.hh:2196-2203 *)
Definition hashLong_128b_withSeed (c : build) (g : list N) (input : list N) (len : nat) (seed : N) : outcome h128 :=
  if seed =? 0 then hashLong_128b_internal c input len kSecret
  else let! secret := initCustomSecret g seed in hashLong_128b_internal c input len secret.
(* xxh3.hh:2206-2215 *)
Definition XXH3_128bits (c : build) (input : list N) (len : nat) : outcome h128 :=
  if (len <=? 16)%nat then len_0to16_128b c input len kSecret 0
  else if (len <=? 128)%nat then len_17to128_128b c input len kSecret 0
  else if (len <=? XXH3_MIDSIZE_MAX)%nat then len_129to240_128b c input len kSecret 0
  else hashLong_128b_internal c input len kSecret.
(* xxh3.hh:2217-2233 *)
Definition XXH3_128bits_withSecret (c : build) (input : list N) (len : nat) (secret : list N) : outcome h128 :=
  let! _ := XXH_ASSERT c ((XXH3_SECRET_SIZE_MIN <=? length secret)%nat) in
  if (len <=? 16)%nat then len_0to16_128b c input len secret 0
  else if (len <=? 128)%nat then len_17to128_128b c input len secret 0
  else if (len <=? XXH3_MIDSIZE_MAX)%nat then len_129to240_128b c input len secret 0
  else hashLong_128b_internal c input len secret.
(* xxh3.hh:2235-2244 *)
Definition XXH3_128bits_withSeed (c : build) (g : list N) (input : list N) (len : nat) (seed : N) : outcome h128 :=
  if (len <=? 16)%nat then len_0to16_128b c input len kSecret seed
  else if (len <=? 128)%nat then len_17to128_128b c input len kSecret seed
  else if (len <=? XXH3_MIDSIZE_MAX)%nat then len_129to240_128b c input len kSecret seed
  else hashLong_128b_withSeed c g input len seed.

(* ---- streaming ---- *)
(* where the secret pointer of a state points: the default secret, memory of the user, or the customSecret member
   of the state object with the given number *)
Inductive secret_ptr := DefaultSecret | UserSecret (bytes : list N) | MemberSecret (id : nat).
(* xxhash.hh:562-581 *)
Record state3 := mkState3 {
  acc : list N; customSecret : list N; buffer : list N; bufferedSize : nat; nbStripesPerBlock : nat;
  nbStripesSoFar : nat; secretLimit : nat; totalLen : N; seed3 : N; secret3 : secret_ptr }.
(* xxh3.hh:1709-1727; memset makes the buffers zero *)
Definition reset_internal (c : build) (seed : N) (sp : secret_ptr) (secretSize : nat) : outcome state3 :=
  let! _ := XXH_ASSERT c (XXH3_SECRET_SIZE_MIN <=? secretSize)%nat in
  let limit := N.to_nat (wrap 32 (wsub 64 (N.of_nat secretSize) (N.of_nat STRIPE_LEN))) in
  Ok (mkState3 XXH3_INIT_ACC (repeat 0 XXH_SECRET_DEFAULT_SIZE) (repeat 0 XXH3_INTERNALBUFFER_SIZE) 0
        (limit / XXH_SECRET_CONSUME_RATE) 0 limit 0 seed sp).
(* xxh3.hh:1729-1735, 2261-2267 *)
Definition XXH3_reset (c : build) : outcome state3 := reset_internal c 0 DefaultSecret XXH_SECRET_DEFAULT_SIZE.
(* xxh3.hh:1737-1747, 2269-2279; for a secret that is not null *)
Definition XXH3_reset_withSecret (c : build) (secret : list N) : outcome (errorcode * state3) :=
  let! st := reset_internal c 0 (UserSecret secret) (length secret) in
  Ok (if (length secret <? XXH3_SECRET_SIZE_MIN)%nat then XXH_ERROR else XXH_OK, st).
(* xxh3.hh:1749-1757, 2281-2289; self is the number of the state object *)
Definition XXH3_reset_withSeed (c : build) (self : nat) (seed : N) : outcome state3 :=
  let! st := reset_internal c seed DefaultSecret XXH_SECRET_DEFAULT_SIZE in
  let! cs := initCustomSecret (customSecret st) seed in
  Ok (mkState3 (acc st) cs (buffer st) (bufferedSize st) (nbStripesPerBlock st) (nbStripesSoFar st) (secretLimit st)
        (totalLen st) (seed3 st) (MemberSecret self)).

(* xxh3.hh:1759-1783; returns acc and *nbStripesSoFarPtr *)
Definition consumeStripes (c : build) (w : width) (acc : list N) (soFar perBlock : nat) (input : list N) (p totalStripes : nat)
    (secret : list N) (limit : nat) : outcome (list N * nat) :=
  let! _ := XXH_ASSERT c (soFar <? perBlock)%nat in
  if (perBlock - soFar <=? totalStripes)%nat then
    let nbStripes := (perBlock - soFar)%nat in
    let! acc := accumulate c w acc input p secret (soFar * XXH_SECRET_CONSUME_RATE) nbStripes in
    let! acc := scrambleAcc c acc secret limit in
    let! acc := accumulate c w acc input (p + nbStripes * STRIPE_LEN) secret 0 (totalStripes - nbStripes) in
    Ok (acc, (totalStripes - nbStripes)%nat)
  else
    let! acc := accumulate c w acc input p secret (soFar * XXH_SECRET_CONSUME_RATE) totalStripes in
    Ok (acc, (soFar + totalStripes)%nat).

Definition INTERNALBUFFER_STRIPES : nat := (XXH3_INTERNALBUFFER_SIZE / STRIPE_LEN)%nat.
(* xxh3.hh:1829-1836: do { consume; input += 256; } while (input <= limit) *)
Fixpoint update_loop3 (fuel : nat) (c : build) (w : width) (b : list N) (p limit : nat) (secret : list N) (slimit perBlock : nat)
    (s : list N * nat) : outcome (list N * nat * nat) :=
  match fuel with
  | O => OutOfFuel
  | S k =>
      let! s := consumeStripes c w (fst s) (snd s) perBlock b p INTERNALBUFFER_STRIPES secret slimit in
      let p := (p + XXH3_INTERNALBUFFER_SIZE)%nat in
      if (p <=? limit)%nat then update_loop3 k c w b p limit secret slimit perBlock s else Ok (s, p)
  end.
(* xxh3.hh:1788-1847; secret are the bytes the secret pointer points to; input None is the null pointer *)
Definition XXH3_update (c : build) (w : width) (secret : list N) (st : state3) (input : option (list N)) : outcome (errorcode * state3) :=
  match input with
  | None => Ok (XXH_ERROR, st)
  | Some b =>
      let len := length b in
      let bEnd := len in
      let total := wadd 64 (totalLen st) (N.of_nat len) in
      if (bufferedSize st + len <=? XXH3_INTERNALBUFFER_SIZE)%nat then
        let! buf := copy (buffer st) (bufferedSize st) b 0 len in
        Ok (XXH_OK, mkState3 (acc st) (customSecret st) buf (bufferedSize st + len) (nbStripesPerBlock st) (nbStripesSoFar st)
                      (secretLimit st) total (seed3 st) (secret3 st))
      else
        let! (buf, s, p, bs) :=
          (if (0 <? bufferedSize st)%nat then
             let loadSize := (XXH3_INTERNALBUFFER_SIZE - bufferedSize st)%nat in
             let! buf := copy (buffer st) (bufferedSize st) b 0 loadSize in
             let! s := consumeStripes c w (acc st) (nbStripesSoFar st) (nbStripesPerBlock st) buf 0 INTERNALBUFFER_STRIPES secret (secretLimit st) in
             Ok (buf, s, loadSize, 0%nat)
           else Ok (buffer st, (acc st, nbStripesSoFar st), 0%nat, bufferedSize st)) in
        let! (s, p) :=
          (if (p + XXH3_INTERNALBUFFER_SIZE <=? bEnd)%nat
           then update_loop3 len c w b p (bEnd - XXH3_INTERNALBUFFER_SIZE) secret (secretLimit st) (nbStripesPerBlock st) s
           else Ok (s, p)) in
        let! (buf, bs) :=
          (if (p <? bEnd)%nat then let! buf := copy buf 0 b p (bEnd - p) in Ok (buf, (bEnd - p)%nat) else Ok (buf, bs)) in
        Ok (XXH_OK, mkState3 (fst s) (customSecret st) buf bs (nbStripesPerBlock st) (snd s) (secretLimit st) total (seed3 st) (secret3 st))
  end.
(* xxh3.hh:1855-1883; g are the indeterminate bytes of the local array lastStripe *)
Definition digest_long (c : build) (w : width) (secret : list N) (g : list N) (st : state3) : outcome (list N) :=
  let last := (secretLimit st - XXH_SECRET_LASTACC_START)%nat in
  if (STRIPE_LEN <=? bufferedSize st)%nat then
    let totalNbStripes := (bufferedSize st / STRIPE_LEN)%nat in
    let! (a, _) := consumeStripes c w (acc st) (nbStripesSoFar st) (nbStripesPerBlock st) (buffer st) 0 totalNbStripes secret (secretLimit st) in
    if (0 <? bufferedSize st mod STRIPE_LEN)%nat then
      accumulate_512 c w a (buffer st) (bufferedSize st - STRIPE_LEN) secret last
    else Ok a
  else if (0 <? bufferedSize st)%nat then
    let catchupSize := (STRIPE_LEN - bufferedSize st)%nat in
    let! ls := copy g 0 (buffer st) (XXH3_INTERNALBUFFER_SIZE - catchupSize) catchupSize in
    let! ls := copy ls catchupSize (buffer st) 0 (bufferedSize st) in
    accumulate_512 c w (acc st) ls 0 secret last
  else Ok (acc st).
(* xxh3.hh:1885-1897; g1, g2 are the indeterminate bytes of local arrays *)
Definition XXH3_64bits_digest (c : build) (secret : list N) (g1 g2 : list N) (st : state3) : outcome N :=
  if (N.of_nat XXH3_MIDSIZE_MAX <? totalLen st) then
    let! a := digest_long c acc_64bits secret g1 st in
    mergeAccs c a secret XXH_SECRET_MERGEACCS_START (wmul 64 (totalLen st) PRIME64_1)
  else if negb (seed3 st =? 0) then XXH3_64bits_withSeed c g2 (buffer st) (N.to_nat (totalLen st)) (seed3 st)
  else XXH3_64bits_withSecret c (buffer st) (N.to_nat (totalLen st)) (firstn (secretLimit st + STRIPE_LEN) secret).
(* xxh3.hh:2296-2314 *)
Definition XXH3_128bits_digest (c : build) (secret : list N) (g1 g2 : list N) (st : state3) : outcome h128 :=
  if (N.of_nat XXH3_MIDSIZE_MAX <? totalLen st) then
    let! a := digest_long c acc_128bits secret g1 st in
    let! _ := XXH_ASSERT c (64 + XXH_SECRET_MERGEACCS_START <=? secretLimit st + STRIPE_LEN)%nat in
    let! low := mergeAccs c a secret XXH_SECRET_MERGEACCS_START (wmul 64 (totalLen st) PRIME64_1) in
    let! high := mergeAccs c a secret (secretLimit st + STRIPE_LEN - 64 - XXH_SECRET_MERGEACCS_START) (wnot 64 (wmul 64 (totalLen st) PRIME64_2)) in
    Ok (low, high)
  else if negb (seed3 st =? 0) then XXH3_128bits_withSeed c g2 (buffer st) (N.to_nat (totalLen st)) (seed3 st)
  else XXH3_128bits_withSecret c (buffer st) (N.to_nat (totalLen st)) (firstn (secretLimit st + STRIPE_LEN) secret).

(* ---- state objects ---- *)
(* a state object is freed, uninitialised, or holds a state; objects are numbered *)
Inductive slot := Freed | Raw | Live (st : state3).
Definition world := list slot.
Definition live (w : world) (i : nat) : outcome state3 := match nth_error w i with Some (Live st) => Ok st | _ => UB end.
Definition exists_ (w : world) (i : nat) : outcome unit := match nth_error w i with Some Raw => Ok tt | Some (Live _) => Ok tt | _ => UB end.
(* the bytes behind a secret pointer *)
Definition resolve (w : world) (sp : secret_ptr) : outcome (list N) :=
  match sp with
  | DefaultSecret => Ok kSecret
  | UserSecret bytes => Ok bytes
  | MemberSecret i => let! st := live w i in Ok (customSecret st)
  end.
Inductive call :=
| Create                                   (* XXH3_createState *)
| Free (i : nat)                           (* XXH3_freeState *)
| CopyState (dst src : nat)                (* XXH3_copyState *)
| Reset (i : nat)                          (* XXH3_64bits_reset, XXH3_128bits_reset *)
| ResetSeed (i : nat) (seed : N)           (* XXH3_64bits_reset_withSeed, XXH3_128bits_reset_withSeed *)
| ResetSecret (i : nat) (secret : list N)  (* XXH3_64bits_reset_withSecret, XXH3_128bits_reset_withSecret *)
| Update (i : nat) (b : list N).           (* XXH3_64bits_update, XXH3_128bits_update with a non-null pointer *)
(* xxh3.hh:1699-1707 and the functions above *)
Definition exec (c : build) (wd : width) (w : world) (x : call) : outcome world :=
  match x with
  | Create => Ok (w ++ [Raw])
  | Free i => let! _ := exists_ w i in Ok (lset w i Freed)
  | CopyState d s => let! _ := exists_ w d in let! st := live w s in Ok (lset w d (Live st))
  | Reset i => let! _ := exists_ w i in let! st := XXH3_reset c in Ok (lset w i (Live st))
  | ResetSeed i sd => let! _ := exists_ w i in let! st := XXH3_reset_withSeed c i sd in Ok (lset w i (Live st))
  | ResetSecret i s => let! _ := exists_ w i in let! (_, st) := XXH3_reset_withSecret c s in Ok (lset w i (Live st))
  | Update i b =>
      let! st := live w i in
      let! sec := resolve w (secret3 st) in
      let! (_, st) := XXH3_update c wd sec st (Some b) in
      Ok (lset w i (Live st))
  end.
Fixpoint exec_all (c : build) (wd : width) (w : world) (xs : list call) : outcome world :=
  match xs with [] => Ok w | x :: xs => let! w := exec c wd w x in exec_all c wd w xs end.
Definition digest64 (c : build) (w : world) (g1 g2 : list N) (i : nat) : outcome N :=
  let! st := live w i in let! sec := resolve w (secret3 st) in XXH3_64bits_digest c sec g1 g2 st.
Definition digest128 (c : build) (w : world) (g1 g2 : list N) (i : nat) : outcome h128 :=
  let! st := live w i in let! sec := resolve w (secret3 st) in XXH3_128bits_digest c sec g1 g2 st.

(* ---- utilities ---- *)
(* xxh3.hh:2322-2326: memcmp of the 16 bytes *)
Definition XXH128_isEqual (a b : h128) : bool :=
  forallb (fun xy => fst xy =? snd xy)
    (combine (bytesLE 8 (fst a) ++ bytesLE 8 (snd a)) (bytesLE 8 (fst b) ++ bytesLE 8 (snd b))).
(* xxh3.hh:2332-2341 *)
Definition XXH128_cmp (h1 h2 : h128) : Z :=
  let b2z (b : bool) : Z := if b then 1%Z else 0%Z in
  let hcmp := (b2z (snd h2 <? snd h1)%N - b2z (snd h1 <? snd h2)%N)%Z in
  if negb (hcmp =? 0)%Z then hcmp
  else (b2z (fst h2 <? fst h1)%N - b2z (fst h1 <? fst h2)%N)%Z.
(* xxh3.hh:2345-2355 *)
Definition XXH128_canonicalFromHash (h : h128) : list N := bytesLE 8 (swap64 (snd h)) ++ bytesLE 8 (swap64 (fst h)).
(* xxh3.hh:2357-2363 *)
Definition XXH128_hashFromCanonical (src : list N) : outcome h128 :=
  let! h := readBE64 src 0 in let! l := readBE64 src 8 in Ok (l, h).
(* xxh3.hh:1655-1697: base is the address malloc returned; the aligned address and the byte stored in front of it *)
Definition alignedMalloc (base s align : N) : N * N :=
  let offset := align - N.land base (align - 1) in
  let ptr := wadd 64 base offset in
  (ptr, wrap 8 offset).
Definition alignedFree (ptr offset_byte : N) : N := wsub 64 ptr offset_byte.

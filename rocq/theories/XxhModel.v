(* Model of src/clean-core/detail/xxHash/xxhash.hh: XXH32 and XXH64, one-shot and streaming.
   A buffer is the list of its bytes; a pointer into it is an offset; a read or a copy outside of it is UB.
   Pointers are compared as offsets (bEnd - 16 may lie in front of the buffer, p + 32 behind it: flat addresses).
   XXH_ASSERT is off (DEBUGLEVEL 0); the _align variants read the same value and are not distinguished. *)
From Coq Require Import NArith Arith List.
From Verif Require Import Base.
Import ListNotations.
Open Scope N_scope.

(* ---- words: xxhash.hh:1028-1029 ---- *)
Definition rotl (w x r : N) : N := N.lor (wrap w (N.shiftl x r)) (N.shiftr x (w - r)).
Definition xorshift (x s : N) : N := N.lxor x (N.shiftr x s).

(* ---- memory: xxhash.hh:1060-1075, 1584-1601 (the byte shift versions) ---- *)
Definition read8 (b : list N) (p : nat) : outcome N := aget b p.
Definition readLE32 (b : list N) (p : nat) : outcome N :=
  let! b0 := aget b p in let! b1 := aget b (p + 1) in let! b2 := aget b (p + 2) in let! b3 := aget b (p + 3) in
  Ok (b0 + 2 ^ 8 * b1 + 2 ^ 16 * b2 + 2 ^ 24 * b3).
Definition readLE64 (b : list N) (p : nat) : outcome N :=
  let! lo := readLE32 b p in let! hi := readLE32 b (p + 4) in Ok (lo + 2 ^ 32 * hi).
(* memcpy *)
Definition copy (dst : list N) (d : nat) (src : list N) (s n : nat) : outcome (list N) :=
  if ((d + n <=? length dst) && (s + n <=? length src))%nat%bool
  then Ok (firstn d dst ++ firstn n (skipn s src) ++ skipn (d + n) dst) else UB.

(* xxhash.hh: XXH_errorcode *)
Inductive errorcode := XXH_OK | XXH_ERROR.

(* ---- a switch whose cases fall through, as its text: labels, statements, return ---- *)
Inductive line (A : Type) := Case (l : nat) | Do (f : A -> outcome A) | Ret.
Arguments Case {A} l. Arguments Do {A} f. Arguments Ret {A}.
Fixpoint fall {A} (t : list (line A)) (a : A) : outcome A :=
  match t with
  | [] => Ok a
  | Case _ :: t => fall t a
  | Do f :: t => let! a := f a in fall t a
  | Ret :: _ => Ok a
  end.
Fixpoint switch {A} (v : nat) (t : list (line A)) (a : A) : outcome A :=
  match t with
  | [] => Ok a
  | Case l :: t => if (l =? v)%nat then fall t a else switch v t a
  | _ :: t => switch v t a
  end.

(* ---- XXH32 ---- *)
(* xxhash.hh:1100-1104 *)
Definition PRIME32_1 : N := 0x9E3779B1.
Definition PRIME32_2 : N := 0x85EBCA77.
Definition PRIME32_3 : N := 0xC2B2AE3D.
Definition PRIME32_4 : N := 0x27D4EB2F.
Definition PRIME32_5 : N := 0x165667B1.

(* xxhash.hh:1106-1160 *)
Definition XXH32_round (acc input : N) : N :=
  let acc := wadd 32 acc (wmul 32 input PRIME32_2) in
  let acc := rotl 32 acc 13 in
  wmul 32 acc PRIME32_1.
(* xxhash.hh:1163-1171 *)
Definition XXH32_avalanche (h32 : N) : N :=
  let h32 := xorshift h32 15 in
  let h32 := wmul 32 h32 PRIME32_2 in
  let h32 := xorshift h32 13 in
  let h32 := wmul 32 h32 PRIME32_3 in
  xorshift h32 16.
(* xxhash.hh:1177-1190; the state is (h32, ptr) *)
Definition PROCESS1 (b : list N) (s : N * nat) : outcome (N * nat) :=
  let (h32, ptr) := s in
  let! c := read8 b ptr in
  let h32 := wadd 32 h32 (wmul 32 c PRIME32_5) in
  Ok (wmul 32 (rotl 32 h32 11) PRIME32_1, (ptr + 1)%nat).
Definition PROCESS4 (b : list N) (s : N * nat) : outcome (N * nat) :=
  let (h32, ptr) := s in
  let! c := readLE32 b ptr in
  let h32 := wadd 32 h32 (wmul 32 c PRIME32_3) in
  Ok (wmul 32 (rotl 32 h32 17) PRIME32_4, (ptr + 4)%nat).
(* while (len >= n) { f; len -= n; } returns the state and the remaining len *)
Fixpoint while_ge {A} (fuel n len : nat) (f : A -> outcome A) (a : A) : outcome (A * nat) :=
  if (n <=? len)%nat then
    match fuel with
    | O => OutOfFuel
    | S k => let! a := f a in while_ge k n (len - n) f a
    end
  else Ok (a, len).
(* xxhash.hh:1192-1207 *)
Definition XXH32_finalize_rerolled (b : list N) (h32 : N) (ptr len : nat) : outcome N :=
  let len := (len mod 16)%nat in
  let! (s, len) := while_ge len 4 len (PROCESS4 b) (h32, ptr) in
  let! (s, _) := while_ge len 1 len (PROCESS1 b) s in
  Ok (XXH32_avalanche (fst s)).
(* xxhash.hh:1208-1268 *)
Definition XXH32_switch (b : list N) : list (line (N * nat)) :=
  [ Case 12; Do (PROCESS4 b); Case 8; Do (PROCESS4 b); Case 4; Do (PROCESS4 b); Ret;
    Case 13; Do (PROCESS4 b); Case 9; Do (PROCESS4 b); Case 5; Do (PROCESS4 b); Do (PROCESS1 b); Ret;
    Case 14; Do (PROCESS4 b); Case 10; Do (PROCESS4 b); Case 6; Do (PROCESS4 b); Do (PROCESS1 b); Do (PROCESS1 b); Ret;
    Case 15; Do (PROCESS4 b); Case 11; Do (PROCESS4 b); Case 7; Do (PROCESS4 b); Case 3; Do (PROCESS1 b); Case 2; Do (PROCESS1 b);
    Case 1; Do (PROCESS1 b); Case 0; Ret ].
Definition XXH32_finalize_unrolled (b : list N) (h32 : N) (ptr len : nat) : outcome N :=
  let! s := switch (len mod 16) (XXH32_switch b) (h32, ptr) in
  Ok (XXH32_avalanche (fst s)).
(* xxhash.hh:1192: XXH_REROLL *)
Definition XXH32_finalize (reroll : bool) (b : list N) (h32 : N) (ptr len : nat) : outcome N :=
  if reroll then XXH32_finalize_rerolled b h32 ptr len else XXH32_finalize_unrolled b h32 ptr len.

(* four lanes *)
Definition lanes := (N * N * N * N)%type.
Definition round4_32 (b : list N) (v : lanes) (p : nat) : outcome lanes :=
  let '(v1, v2, v3, v4) := v in
  let! w := readLE32 b p in let v1 := XXH32_round v1 w in
  let! w := readLE32 b (p + 4) in let v2 := XXH32_round v2 w in
  let! w := readLE32 b (p + 8) in let v3 := XXH32_round v3 w in
  let! w := readLE32 b (p + 12) in let v4 := XXH32_round v4 w in
  Ok (v1, v2, v3, v4).
(* do { four rounds; } while (input < limit) *)
Fixpoint loop32 (fuel : nat) (b : list N) (input limit : nat) (v : lanes) : outcome (lanes * nat) :=
  match fuel with
  | O => OutOfFuel
  | S k =>
      let! v := round4_32 b v input in
      let input := (input + 16)%nat in
      if (input <? limit)%nat then loop32 k b input limit v else Ok (v, input)
  end.
Definition start32 (seed : N) : lanes :=
  (wadd 32 (wadd 32 seed PRIME32_1) PRIME32_2, wadd 32 seed PRIME32_2, wadd 32 seed 0, wsub 32 seed PRIME32_1).
Definition converge32 (v : lanes) : N :=
  let '(v1, v2, v3, v4) := v in
  wadd 32 (wadd 32 (wadd 32 (rotl 32 v1 1) (rotl 32 v2 7)) (rotl 32 v3 12)) (rotl 32 v4 18).
(* xxhash.hh:1271-1314 *)
Definition XXH32_endian_align (reroll : bool) (b : list N) (len : nat) (seed : N) : outcome N :=
  let bEnd := len in
  let! (h32, input) :=
    (if (16 <=? len)%nat then
       let limit := (bEnd - 15)%nat in
       let! (v, input) := loop32 len b 0 limit (start32 seed) in
       Ok (converge32 v, input)
     else Ok (wadd 32 seed PRIME32_5, 0%nat)) in
  let h32 := wadd 32 h32 (wrap 32 (N.of_nat len)) in
  XXH32_finalize reroll b h32 input (len mod 16).
(* xxhash.hh:1317-1338 *)
Definition XXH32 (reroll : bool) (input : list N) (len : nat) (seed : N) : outcome N :=
  XXH32_endian_align reroll input len seed.

(* xxhash.hh:401-415 *)
Record state32 := mkState32 {
  total_len_32 : N; large_len : bool; v32 : lanes; mem32 : list N; memsize32 : nat }.
(* xxhash.hh:1352-1363 *)
Definition XXH32_reset (seed : N) : state32 := mkState32 0 false (start32 seed) (repeat 0 16) 0.
(* xxhash.hh:1407-1430: do { four rounds; } while (p <= limit) *)
Fixpoint update_loop32 (fuel : nat) (b : list N) (p limit : nat) (v : lanes) : outcome (lanes * nat) :=
  match fuel with
  | O => OutOfFuel
  | S k =>
      let! v := round4_32 b v p in
      let p := (p + 16)%nat in
      if (p <=? limit)%nat then update_loop32 k b p limit v else Ok (v, p)
  end.
(* xxhash.hh:1366-1440; input None is the null pointer *)
Definition XXH32_update (st : state32) (input : option (list N)) : outcome (errorcode * state32) :=
  match input with
  | None => Ok (XXH_ERROR, st)
  | Some b =>
      let len := length b in
      let bEnd := len in
      let total := wadd 32 (total_len_32 st) (wrap 32 (N.of_nat len)) in
      let large := (large_len st || ((16 <=? len)%nat || (16 <=? total)))%bool in
      if (memsize32 st + len <? 16)%nat then
        let! m := copy (mem32 st) (memsize32 st) b 0 len in
        Ok (XXH_OK, mkState32 total large (v32 st) m (memsize32 st + len))
      else
        let! (v, m, p, ms) :=
          (if (0 <? memsize32 st)%nat then
             let! m := copy (mem32 st) (memsize32 st) b 0 (16 - memsize32 st) in
             let! v := round4_32 m (v32 st) 0 in
             Ok (v, m, (16 - memsize32 st)%nat, 0%nat)
           else Ok (v32 st, mem32 st, 0%nat, memsize32 st)) in
        let! (v, p) :=
          (if (p + 16 <=? bEnd)%nat then update_loop32 len b p (bEnd - 16) v else Ok (v, p)) in
        let! (m, ms) :=
          (if (p <? bEnd)%nat then let! m := copy m 0 b p (bEnd - p) in Ok (m, (bEnd - p)%nat) else Ok (m, ms)) in
        Ok (XXH_OK, mkState32 total large v m ms)
  end.
(* xxhash.hh:1443-1459 *)
Definition XXH32_digest (reroll : bool) (st : state32) : outcome N :=
  let h32 := if large_len st then converge32 (v32 st)
             else let '(_, _, v3, _) := v32 st in wadd 32 v3 PRIME32_5 in
  let h32 := wadd 32 h32 (total_len_32 st) in
  XXH32_finalize reroll (mem32 st) h32 0 (memsize32 st).

(* ---- XXH64 ---- *)
(* xxhash.hh:1615-1619 *)
Definition PRIME64_1 : N := 0x9E3779B185EBCA87.
Definition PRIME64_2 : N := 0xC2B2AE3D27D4EB4F.
Definition PRIME64_3 : N := 0x165667B19E3779F9.
Definition PRIME64_4 : N := 0x85EBCA77C2B2AE63.
Definition PRIME64_5 : N := 0x27D4EB2F165667C5.

(* xxhash.hh:1621-1627 *)
Definition XXH64_round (acc input : N) : N :=
  let acc := wadd 64 acc (wmul 64 input PRIME64_2) in
  let acc := rotl 64 acc 31 in
  wmul 64 acc PRIME64_1.
(* xxhash.hh:1629-1635 *)
Definition XXH64_mergeRound (acc val : N) : N :=
  let val := XXH64_round 0 val in
  let acc := N.lxor acc val in
  wadd 64 (wmul 64 acc PRIME64_1) PRIME64_4.
(* xxhash.hh:1637-1645 *)
Definition XXH64_avalanche (h64 : N) : N :=
  let h64 := xorshift h64 33 in
  let h64 := wmul 64 h64 PRIME64_2 in
  let h64 := xorshift h64 29 in
  let h64 := wmul 64 h64 PRIME64_3 in
  xorshift h64 32.
(* xxhash.hh:1652-1674 *)
Definition PROCESS1_64 (b : list N) (s : N * nat) : outcome (N * nat) :=
  let (h64, ptr) := s in
  let! c := read8 b ptr in
  let h64 := N.lxor h64 (wmul 64 c PRIME64_5) in
  Ok (wmul 64 (rotl 64 h64 11) PRIME64_1, (ptr + 1)%nat).
Definition PROCESS4_64 (b : list N) (s : N * nat) : outcome (N * nat) :=
  let (h64, ptr) := s in
  let! c := readLE32 b ptr in
  let h64 := N.lxor h64 (wmul 64 c PRIME64_1) in
  Ok (wadd 64 (wmul 64 (rotl 64 h64 23) PRIME64_2) PRIME64_3, (ptr + 4)%nat).
Definition PROCESS8_64 (b : list N) (s : N * nat) : outcome (N * nat) :=
  let (h64, ptr) := s in
  let! c := readLE64 b ptr in
  let k1 := XXH64_round 0 c in
  let h64 := N.lxor h64 k1 in
  Ok (wadd 64 (wmul 64 (rotl 64 h64 27) PRIME64_1) PRIME64_4, (ptr + 8)%nat).
(* xxhash.hh:1677-1696 *)
Definition XXH64_finalize_rerolled (b : list N) (h64 : N) (ptr len : nat) : outcome N :=
  let len := (len mod 32)%nat in
  let! (s, len) := while_ge len 8 len (PROCESS8_64 b) (h64, ptr) in
  let! (s, len) := (if (4 <=? len)%nat then let! s := PROCESS4_64 b s in Ok (s, (len - 4)%nat) else Ok (s, len)) in
  let! (s, _) := while_ge len 1 len (PROCESS1_64 b) s in
  Ok (XXH64_avalanche (fst s)).
(* xxhash.hh:1697-1813 *)
Definition XXH64_switch (b : list N) : list (line (N * nat)) :=
  let P8 := Do (PROCESS8_64 b) in let P4 := Do (PROCESS4_64 b) in let P1 := Do (PROCESS1_64 b) in
  [ Case 24; P8; Case 16; P8; Case 8; P8; Ret;
    Case 28; P8; Case 20; P8; Case 12; P8; Case 4; P4; Ret;
    Case 25; P8; Case 17; P8; Case 9; P8; P1; Ret;
    Case 29; P8; Case 21; P8; Case 13; P8; Case 5; P4; P1; Ret;
    Case 26; P8; Case 18; P8; Case 10; P8; P1; P1; Ret;
    Case 30; P8; Case 22; P8; Case 14; P8; Case 6; P4; P1; P1; Ret;
    Case 27; P8; Case 19; P8; Case 11; P8; P1; P1; P1; Ret;
    Case 31; P8; Case 23; P8; Case 15; P8; Case 7; P4; Case 3; P1; Case 2; P1; Case 1; P1; Case 0; Ret ].
Definition XXH64_finalize_unrolled (b : list N) (h64 : N) (ptr len : nat) : outcome N :=
  let! s := switch (len mod 32) (XXH64_switch b) (h64, ptr) in
  Ok (XXH64_avalanche (fst s)).
(* xxhash.hh:1677: XXH_REROLL || XXH_REROLL_XXH64 *)
Definition XXH64_finalize (reroll : bool) (b : list N) (h64 : N) (ptr len : nat) : outcome N :=
  if reroll then XXH64_finalize_rerolled b h64 ptr len else XXH64_finalize_unrolled b h64 ptr len.

Definition round4_64 (b : list N) (v : lanes) (p : nat) : outcome lanes :=
  let '(v1, v2, v3, v4) := v in
  let! w := readLE64 b p in let v1 := XXH64_round v1 w in
  let! w := readLE64 b (p + 8) in let v2 := XXH64_round v2 w in
  let! w := readLE64 b (p + 16) in let v3 := XXH64_round v3 w in
  let! w := readLE64 b (p + 24) in let v4 := XXH64_round v4 w in
  Ok (v1, v2, v3, v4).
(* do { four rounds; } while (p <= limit) *)
Fixpoint loop64 (fuel : nat) (b : list N) (p limit : nat) (v : lanes) : outcome (lanes * nat) :=
  match fuel with
  | O => OutOfFuel
  | S k =>
      let! v := round4_64 b v p in
      let p := (p + 32)%nat in
      if (p <=? limit)%nat then loop64 k b p limit v else Ok (v, p)
  end.
Definition start64 (seed : N) : lanes :=
  (wadd 64 (wadd 64 seed PRIME64_1) PRIME64_2, wadd 64 seed PRIME64_2, wadd 64 seed 0, wsub 64 seed PRIME64_1).
Definition converge64 (v : lanes) : N :=
  let '(v1, v2, v3, v4) := v in
  let h64 := wadd 64 (wadd 64 (wadd 64 (rotl 64 v1 1) (rotl 64 v2 7)) (rotl 64 v3 12)) (rotl 64 v4 18) in
  let h64 := XXH64_mergeRound h64 v1 in
  let h64 := XXH64_mergeRound h64 v2 in
  let h64 := XXH64_mergeRound h64 v3 in
  XXH64_mergeRound h64 v4.
(* xxhash.hh:1819-1866 *)
Definition XXH64_endian_align (reroll : bool) (b : list N) (len : nat) (seed : N) : outcome N :=
  let bEnd := len in
  let! (h64, input) :=
    (if (32 <=? len)%nat then
       let limit := (bEnd - 32)%nat in
       let! (v, input) := loop64 len b 0 limit (start64 seed) in
       Ok (converge64 v, input)
     else Ok (wadd 64 seed PRIME64_5, 0%nat)) in
  let h64 := wadd 64 h64 (N.of_nat len) in
  XXH64_finalize reroll b h64 input len.
(* xxhash.hh:1869-1891 *)
Definition XXH64 (reroll : bool) (input : list N) (len : nat) (seed : N) : outcome N :=
  XXH64_endian_align reroll input len seed.

(* xxhash.hh:417-429 *)
Record state64 := mkState64 { total_len : N; v64 : lanes; mem64 : list N; memsize64 : nat }.
(* xxhash.hh:1904-1915 *)
Definition XXH64_reset (seed : N) : state64 := mkState64 0 (start64 seed) (repeat 0 32) 0.
(* xxhash.hh:1917-1984 *)
Definition XXH64_update (st : state64) (input : option (list N)) : outcome (errorcode * state64) :=
  match input with
  | None => Ok (XXH_ERROR, st)
  | Some b =>
      let len := length b in
      let bEnd := len in
      let total := wadd 64 (total_len st) (N.of_nat len) in
      if (memsize64 st + len <? 32)%nat then
        let! m := copy (mem64 st) (memsize64 st) b 0 len in
        Ok (XXH_OK, mkState64 total (v64 st) m (memsize64 st + len))
      else
        let! (v, m, p, ms) :=
          (if (0 <? memsize64 st)%nat then
             let! m := copy (mem64 st) (memsize64 st) b 0 (32 - memsize64 st) in
             let! v := round4_64 m (v64 st) 0 in
             Ok (v, m, (32 - memsize64 st)%nat, 0%nat)
           else Ok (v64 st, mem64 st, 0%nat, memsize64 st)) in
        let! (v, p) :=
          (if (p + 32 <=? bEnd)%nat then loop64 len b p (bEnd - 32) v else Ok (v, p)) in
        let! (m, ms) :=
          (if (p <? bEnd)%nat then let! m := copy m 0 b p (bEnd - p) in Ok (m, (bEnd - p)%nat) else Ok (m, ms)) in
        Ok (XXH_OK, mkState64 total v m ms)
  end.
(* xxhash.hh:1987-2012 *)
Definition XXH64_digest (reroll : bool) (st : state64) : outcome N :=
  let h64 := if 32 <=? total_len st then converge64 (v64 st)
             else let '(_, _, v3, _) := v64 st in wadd 64 v3 PRIME64_5 in
  let h64 := wadd 64 h64 (total_len st) in
  XXH64_finalize reroll (mem64 st) h64 0 (N.to_nat (total_len st mod 32)).

(* ---- canonical representation: xxhash.hh:1477-1485, 2017-2025 ---- *)
(* xxhash.hh:1037-1040, 1572-1577 *)
Definition swap32 (x : N) : N :=
  N.lor (N.lor (N.lor (N.land (N.shiftl x 24) 0xff000000) (N.land (N.shiftl x 8) 0x00ff0000))
    (N.land (N.shiftr x 8) 0x0000ff00)) (N.land (N.shiftr x 24) 0x000000ff).
Definition swap64 (x : N) : N :=
  N.lor (N.lor (N.lor (N.lor (N.lor (N.lor (N.lor
    (N.land (N.shiftl x 56) 0xff00000000000000) (N.land (N.shiftl x 40) 0x00ff000000000000))
    (N.land (N.shiftl x 24) 0x0000ff0000000000)) (N.land (N.shiftl x 8) 0x000000ff00000000))
    (N.land (N.shiftr x 8) 0x00000000ff000000)) (N.land (N.shiftr x 24) 0x0000000000ff0000))
    (N.land (N.shiftr x 40) 0x000000000000ff00)) (N.land (N.shiftr x 56) 0x00000000000000ff).
(* the object representation of a word on a little endian machine *)
Fixpoint bytesLE (n : nat) (x : N) : list N := match n with O => [] | S k => x mod 256 :: bytesLE k (x / 256) end.
Definition XXH32_canonicalFromHash (hash : N) : list N := bytesLE 4 (swap32 hash).
Definition XXH32_hashFromCanonical (src : list N) : outcome N := let! x := readLE32 src 0 in Ok (swap32 x).
Definition XXH64_canonicalFromHash (hash : N) : list N := bytesLE 8 (swap64 hash).
Definition readBE64 (src : list N) (p : nat) : outcome N := let! x := readLE64 src p in Ok (swap64 x).
Definition XXH64_hashFromCanonical (src : list N) : outcome N := readBE64 src 0.

(* Model of src/clean-core/bits.hh (gcc/clang branch, lines 101-184) and of the integer helpers of
   src/clean-core/utility.hh (lines 44-133).  A width w (in bits) parameter stands for the
   overloads on uint8_t/uint16_t/uint32_t/uint64_t. *)
From Coq Require Import NArith ZArith List Lia Bool.
From Verif Require Import Base.
Import ListNotations.
Open Scope N_scope.

(* __builtin_popcount: number of one bits of the binary representation *)
Fixpoint pos_popcount (p : positive) : N :=
  match p with
  | xH => 1
  | xO q => pos_popcount q
  | xI q => 1 + pos_popcount q
  end.
(* bits.hh:104-107 popcount *)
Definition popcount (v : N) : N := match v with N0 => 0 | Npos p => pos_popcount p end.

(* __builtin_ctz for v <> 0 *)
Fixpoint pos_ctz (p : positive) : N :=
  match p with
  | xH => 0
  | xI _ => 0
  | xO q => 1 + pos_ctz q
  end.
(* bits.hh:118-119 count_trailing_zeros: v ? __builtin_ctz(v) : w *)
Definition count_trailing_zeros (w v : N) : N :=
  match v with N0 => w | Npos p => pos_ctz p end.

(* __builtin_clz on a b-bit register for v <> 0: position of the top bit is size of the numeral *)
Definition builtin_clz (b : N) (p : positive) : N := b - Npos (Pos.size p).
(* bits.hh:133-136 count_leading_zeros.  8/16-bit values go through the 32-bit builtin. *)
Definition count_leading_zeros (w v : N) : N :=
  match v with
  | N0 => w
  | Npos p => if w <? 32 then builtin_clz 32 p - (32 - w) else builtin_clz w p
  end.

(* bits.hh:142-143 bit_log2: uintW(8*sizeof(uintW) - count_leading_zeros(v) - 1);
   8*sizeof is a size_t, so the subtraction is modulo 2^64 *)
Definition bit_log2 (w v : N) : N := wrap w (wsub 64 (wsub 64 w (count_leading_zeros w v)) 1).

(* bits.hh:146-147 ceil_pow2: uintW(1) << ((bit_log2(v - 1) + 1) & (w-1)) *)
Definition ceil_pow2 (w v : N) : N :=
  wrap w (N.shiftl 1 (N.land (wadd w (bit_log2 w (wsub w v 1)) 1) (w - 1))).

(* bits.hh:150-151 is_pow2: (v & (v - 1)) == 0 *)
Definition is_pow2 (w v : N) : bool := N.land v (wsub w v 1) =? 0.

(* bits.hh:154-155 mod_pow2: v & (divisor - 1) *)
Definition mod_pow2 (w v d : N) : N := N.land v (wsub w d 1).

(* v >> s on a w-bit operand; shifting by w or more is undefined *)
Definition shr (w v s : N) : outcome N := if s <? w then Ok (N.shiftr v s) else UB.

(* bits.hh:158-159 div_pow2_floor: v >> bit_log2(divisor) *)
Definition div_pow2_floor (w v d : N) : outcome N := shr w v (bit_log2 w d).

(* bits.hh:162-163 div_pow2_ceil: ((v - 1) >> bit_log2(divisor)) + 1 *)
Definition div_pow2_ceil (w v d : N) : outcome N :=
  let! q := shr w (wsub w v 1) (bit_log2 w d) in Ok (wadd w q 1).

(* integer promotion: uint8_t/uint16_t operands are shifted as 32-bit int *)
Definition promoted (w : N) : N := if w <? 32 then 32 else w.

(* uintW(1) << idx evaluated in the promoted type; undefined for idx >= promoted width *)
Definition shl1 (w i : N) : outcome N := if i <? promoted w then Ok (N.shiftl 1 i) else UB.

(* bits.hh:165-168 set_bit: val |= (uintW(1) << bit_idx), result narrowed to w bits *)
Definition set_bit (w v i : N) : outcome N := let! m := shl1 w i in Ok (wrap w (N.lor v m)).
(* bits.hh:170-173 unset_bit: val &= ~(uintW(1) << bit_idx) *)
Definition unset_bit (w v i : N) : outcome N :=
  let! m := shl1 w i in Ok (wrap w (N.land v (wnot (promoted w) m))).
(* bits.hh:175-178 flip_bit: val ^= (uintW(1) << bit_idx) *)
Definition flip_bit (w v i : N) : outcome N := let! m := shl1 w i in Ok (wrap w (N.lxor v m)).
(* bits.hh:180-183 has_bit: (val & (uintW(1) << bit_idx)) != 0 *)
Definition has_bit (w v i : N) : outcome bool :=
  let! m := shl1 w i in Ok (negb (N.land v m =? 0)).

(* bits.hh:110-112 byteswap (__builtin_bswap): reverses the n bytes of v *)
Fixpoint byteswap_n (n : nat) (v : N) : N :=
  match n with
  | O => 0
  | S m => N.lor (N.shiftl (N.land v 255) (8 * N.of_nat m)) (byteswap_n m (N.shiftr v 8))
  end.

(* ---- utility.hh ---- *)

(* utility.hh:48-52 wrapped_increment, T an unsigned w-bit type *)
Definition wrapped_increment (w pos mx : N) : N :=
  let pos := wadd w pos 1 in if pos =? mx then 0 else pos.

(* utility.hh:55-59 wrapped_decrement *)
Definition wrapped_decrement (w pos mx : N) : outcome N :=
  let! _ := contract (0 <? mx) in
  Ok (if pos =? 0 then wsub w mx 1 else wsub w pos 1).

(* utility.hh:63-67 int_div_ceil for unsigned T *)
Definition int_div_ceil (w nom denom : N) : outcome N :=
  let! _ := contract ((0 <? nom) && (0 <? denom)) in
  Ok (wadd w 1 (wsub w nom 1 / denom)).

(* utility.hh:71-74 int_ceil_to_multiple for unsigned T (32 or 64 bit); division by 0 is UB *)
Definition int_ceil_to_multiple (w v m : N) : outcome N :=
  let! _ := defined (negb (m =? 0)) in
  Ok (wmul w (wsub w (wadd w v m) 1 / m) m).

(* utility.hh:71-74 int_ceil_to_multiple for signed T of w bits: signed overflow is UB,
   division truncates towards zero *)
Definition in_signed (w : N) (z : Z) : bool :=
  ((- 2 ^ (Z.of_N w - 1) <=? z) && (z <? 2 ^ (Z.of_N w - 1)))%Z.
Definition int_ceil_to_multiple_signed (w : N) (v m : Z) : outcome Z :=
  let! _ := defined (in_signed w (v + m)) in
  let! _ := defined (in_signed w (v + m - 1)) in
  let! _ := defined (negb (m =? 0)%Z) in
  let q := Z.quot (v + m - 1) m in
  let! _ := defined (in_signed w q) in
  let! _ := defined (in_signed w (q * m)) in
  Ok (q * m)%Z.

(* utility.hh:96-99 align_up_masked: (T)(((size_t)value + mask) & ~mask), T of w <= 64 bits *)
Definition align_up_masked (w v mask : N) : N := wrap w (N.land (wadd 64 v mask) (wnot 64 mask)).
(* utility.hh:103-106 align_down_masked *)
Definition align_down_masked (w v mask : N) : N := wrap w (N.land v (wnot 64 mask)).
(* utility.hh:113-116 align_up *)
Definition align_up (w v a : N) : N := align_up_masked w v (wsub 64 a 1).
(* utility.hh:123-126 align_down *)
Definition align_down (w v a : N) : N := align_down_masked w v (wsub 64 a 1).
(* utility.hh:130-133 is_aligned *)
Definition is_aligned (v a : N) : bool := 0 =? N.land v (wsub 64 a 1).

(* utility.hh:26-42 max / min / clamp over a comparison lt *)
Section MinMax.
  Context {T : Type} (lt : T -> T -> bool).
  Definition cc_max (a b : T) : T := if lt a b then b else a.
  Definition cc_min (a b : T) : T := if lt a b then a else b.
  Definition cc_clamp (v lo hi : T) : outcome T :=
    let! _ := contract (negb (lt hi lo)) in
    Ok (if lt v lo then lo else if lt hi v then hi else v).
End MinMax.

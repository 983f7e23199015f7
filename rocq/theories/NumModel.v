(* Model of the integer, text and byte conversions of src/clean-core/to_string.cc and src/clean-core/from_string.cc.
   Characters are bytes (N), text is a list of characters, integer values are Z.
   The C library is modelled from its standard: snprintf for %d %u %o %x %X and %.*s, strtol and strtoul in the "C"
   locale, with a 64-bit long (LP64; there strtoll = strtol and strtoull = strtoul on the same type).
   Not modelled: floating point, pointer and wide-character overloads, char and bool with an integer type letter. *)
From Coq Require Import NArith ZArith Arith List Bool.
From Verif Require Import Base SboModel.
Import ListNotations.
Open Scope N_scope.

(* ---- C library: numerals ---- *)

(* digits of v in base b, most significant first, in front of acc *)
Fixpoint digs (fuel : nat) (b v : N) (acc : list N) : list N :=
  match fuel with
  | O => acc
  | S f => if v =? 0 then acc else digs f b (v / b) (v mod b :: acc)
  end.
Definition numeral (b v : N) : list N := if v =? 0 then [0] else digs (N.to_nat (N.size v)) b v [].
Definition dchar (caps : bool) (d : N) : N := if d <? 10 then 48 + d else (if caps then 55 else 87) + d.
(* what %llu, %llo, %llx and %llX print *)
Definition utext (caps : bool) (b v : N) : list N := map (dchar caps) (numeral b v).
(* what %hhd, %hd, %d, %ld and %lld print *)
Definition itext (z : Z) : list N :=
  if (z <? 0)%Z then 45 :: utext false 10 (Z.abs_N z) else utext false 10 (Z.abs_N z).

(* snprintf(buffer, cap, ...) for the given full output text: at most cap - 1 characters and a NUL are stored, the
   length of the full text is returned *)
Definition snprintf (cap : nat) (text : list N) : buf * N :=
  let w := map Some (firstn (cap - 1) text) ++ [Some 0] in
  (w ++ repeat None (cap - length w), N.of_nat (length text)).
(* string_view(buffer, res), read by the consumer *)
Definition view_out (r : buf * N) : outcome (list N) :=
  let! s := bread (fst r) 0 (snd r) in chars s.

(* ---- integer types ---- *)
Inductive ity := I8 | I16 | I32 | I64 | U8 | U16 | U32 | U64.
Definition ibits (t : ity) : N := match t with I8 | U8 => 8 | I16 | U16 => 16 | I32 | U32 => 32 | I64 | U64 => 64 end.
Definition isgn (t : ity) : bool := match t with I8 | I16 | I32 | I64 => true | _ => false end.
Definition imin (t : ity) : Z := if isgn t then (- 2 ^ (Z.of_N (ibits t) - 1))%Z else 0%Z.
Definition imax (t : ity) : Z := (2 ^ (Z.of_N (ibits t) - (if isgn t then 1 else 0)) - 1)%Z.
(* conversion of an integer to the type (modulo 2^bits) *)
Definition conv (t : ity) (z : Z) : Z := (imin t + (z - imin t) mod 2 ^ Z.of_N (ibits t))%Z.

(* ---- to_string.cc 48-126: cc::string to_string(value) ---- *)
(* sizes of the stack buffers, lines 50, 58, 66, 74/82, 98, 90, 106, 114/122 *)
Definition plain_cap (t : ity) : nat :=
  match t with
  | I8 => 3 + 1 + 1 | I16 => 6 + 1 + 1 | I32 => 10 + 1 + 1 | I64 => 19 + 1 + 1
  | U8 => 3 + 1 | U16 => 6 + 1 + 1 | U32 => 10 + 1 | U64 => 20 + 1
  end%nat.
(* the assertion res >= 0 cannot fail: snprintf reports no error for these formats *)
Definition to_string (t : ity) (v : Z) : outcome (list N) := view_out (snprintf (plain_cap t) (itext v)).

(* ---- C library: strtol / strtoul, base 10 ---- *)
Definition is_space (c : N) : bool := ((9 <=? c) && (c <=? 13)) || (c =? 32).
(* char_predicates.hh 10 *)
Definition is_digit (c : N) : bool := (48 <=? c) && (c <=? 57).
Fixpoint skip_space (l : list N) : list N :=
  match l with c :: r => if is_space c then skip_space r else l | [] => [] end.
Definition take_sign (l : list N) : bool * list N :=
  match l with
  | c :: r => if c =? 45 then (true, r) else if c =? 43 then (false, r) else (false, l)
  | [] => (false, [])
  end.
Fixpoint take_digits (l : list N) (acc : N) : N * list N :=
  match l with
  | c :: r => if is_digit c then take_digits r (acc * 10 + (c - 48)) else (acc, l)
  | [] => (acc, [])
  end.
(* sign, magnitude and rest of the text; None if no conversion could be performed *)
Definition scan (s : list N) : option (bool * N * list N) :=
  let (neg, r) := take_sign (skip_space s) in
  match r with
  | c :: _ => if is_digit c then let (m, rest) := take_digits r 0 in Some (neg, m, rest) else None
  | [] => None
  end.
(* value, *end (None: the start of the text), errno != 0 *)
Definition strtol (s : list N) : Z * option (list N) * bool :=
  match scan s with
  | None => (0%Z, None, false)
  | Some (neg, m, rest) =>
      let z := if neg then (- Z.of_N m)%Z else Z.of_N m in
      if (z <? imin I64)%Z then (imin I64, Some rest, true)
      else if (imax I64 <? z)%Z then (imax I64, Some rest, true)
      else (z, Some rest, false)
  end.
Definition strtoul (s : list N) : Z * option (list N) * bool :=
  match scan s with
  | None => (0%Z, None, false)
  | Some (neg, m, rest) =>
      if (imax U64 <? Z.of_N m)%Z then (imax U64, Some rest, true)
      else (conv U64 (if neg then (- Z.of_N m)%Z else Z.of_N m), Some rest, false)
  end.

(* ---- from_string.cc ---- *)
(* the text of a C string: the characters in front of the first NUL (or of the end of the list) *)
Fixpoint until_nul (l : list N) : list N :=
  match l with c :: r => if c =? 0 then [] else c :: until_nul r | [] => [] end.
(* end != c_str && end[0] == '\0' && errno == 0, lines 34, 42, 66, 74 *)
Definition accepted (r : Z * option (list N) * bool) : bool :=
  match r with (_, Some [], false) => true | _ => false end.
(* lines 26-35, 37-43, 61-67, 69-75: success and out_value *)
Definition from_wide (t : ity) (s : list N) : bool * Z :=
  let r := if isgn t then strtol s else strtoul s in
  (accepted r, conv t (fst (fst r))).
(* lines 10-16, 18-24, 45-51, 53-59, through the 32-bit type of the same signedness *)
Definition from_narrow (t : ity) (s : list N) : bool * Z :=
  let (success, full) := from_wide (if isgn t then I32 else U32) s in
  let out := conv t full in
  (success && (full =? out)%Z, out).
Definition from_cstr (t : ity) (s : list N) : bool * Z :=
  let s := until_nul s in
  match t with I8 | I16 | U8 | U16 => from_narrow t s | _ => from_wide t s end.

(* lines 93-147: snprintf(c_str_buf, 256, "%.*s", int(str.size()), str.data()).  A negative precision counts as absent:
   characters are read up to a NUL, which the view need not contain *)
Definition from_view (t : ity) (s : list N) : outcome (bool * Z) :=
  let p := conv I32 (Z.of_nat (length s)) in
  let! text := (if (p <? 0)%Z
                then (if existsb (N.eqb 0) s then Ok (until_nul s) else UB)
                else Ok (until_nul (firstn (Z.to_nat p) s))) in
  Ok (from_cstr t (firstn 255 text)).

(* ---- to_string.cc 331-455: format specifications ---- *)
(* parsed_fmt_args, lines 331-341 *)
Record fmt := Fmt { width : Z; prec : Z; fill : N; align : N; sign : N; typ : N; alt : bool; zero : bool }.
Definition fmt0 : fmt := Fmt (-1) (-1) 32 62 45 0 false false.
(* lines 376-377: '<' '>' '^' and '+' '-' ' ' *)
Definition is_align (c : N) : bool := (c =? 60) || (c =? 62) || (c =? 94).
Definition is_sign (c : N) : bool := (c =? 43) || (c =? 45) || (c =? 32).
(* int arithmetic: overflow is UB *)
Definition int_ok (z : Z) : outcome Z := if ((imin I32 <=? z) && (z <=? imax I32))%Z then Ok z else UB.
(* lines 379-390 after the first digit *)
Fixpoint puint (l : list N) (out : Z) : outcome (Z * list N) :=
  match l with
  | c :: r =>
      if is_digit c then
        let! o := int_ok (out * 10) in
        let! o := int_ok (o + (Z.of_N c - 48)) in
        puint r o
      else Ok (out, l)
  | [] => Ok (out, [])
  end.
Definition parse_unsigned_int (l : list N) : outcome (Z * list N) :=
  match l with c :: r => puint r (Z.of_N c - 48) | [] => UB end.
Definition digit_first (l : list N) : bool := match l with c :: _ => is_digit c | [] => false end.

(* lines 400-413 *)
Definition p_align (a : fmt) (l : list N) : fmt * list N :=
  match l with
  | c :: r =>
      if is_align c then (Fmt (width a) (prec a) (fill a) c (sign a) (typ a) (alt a) (zero a), r)
      else match r with
           | d :: r' => if is_align d then (Fmt (width a) (prec a) c d (sign a) (typ a) (alt a) (zero a), r') else (a, l)
           | [] => (a, l)
           end
  | [] => (a, l)
  end.
(* lines 414-419 *)
Definition p_sign (a : fmt) (l : list N) : fmt * list N :=
  match l with
  | c :: r => if is_sign c then (Fmt (width a) (prec a) (fill a) (align a) c (typ a) (alt a) (zero a), r) else (a, l)
  | [] => (a, l)
  end.
(* lines 420-425 *)
Definition p_alt (a : fmt) (l : list N) : fmt * list N :=
  match l with
  | c :: r => if c =? 35 then (Fmt (width a) (prec a) (fill a) (align a) (sign a) (typ a) true (zero a), r) else (a, l)
  | [] => (a, l)
  end.
(* lines 426-433 *)
Definition p_zero (a : fmt) (l : list N) : outcome (fmt * list N) :=
  match l with
  | c :: r =>
      if c =? 48 then
        let! _ := contract (digit_first r) in
        let! _ := contract (negb (match r with d :: _ => d =? 48 | [] => false end)) in
        Ok (Fmt (width a) (prec a) (fill a) (align a) (sign a) (typ a) (alt a) true, r)
      else Ok (a, l)
  | [] => Ok (a, l)
  end.
(* lines 434-438 *)
Definition p_width (a : fmt) (l : list N) : outcome (fmt * list N) :=
  if digit_first l then
    let! (w, r) := parse_unsigned_int l in
    Ok (Fmt w (prec a) (fill a) (align a) (sign a) (typ a) (alt a) (zero a), r)
  else Ok (a, l).
(* lines 439-445 *)
Definition p_prec (a : fmt) (l : list N) : outcome (fmt * list N) :=
  match l with
  | c :: r =>
      if c =? 46 then
        let! _ := contract (digit_first r) in
        let! (p, r) := parse_unsigned_int r in
        Ok (Fmt (width a) p (fill a) (align a) (sign a) (typ a) (alt a) (zero a), r)
      else Ok (a, l)
  | [] => Ok (a, l)
  end.
(* lines 446-452 *)
Definition p_type (a : fmt) (l : list N) : outcome fmt :=
  match l with
  | c :: r =>
      let! _ := contract (match r with [] => true | _ => false end) in
      Ok (Fmt (width a) (prec a) (fill a) (align a) (sign a) c (alt a) (zero a))
  | [] => Ok a
  end.
(* lines 374-455 *)
Definition parse_args (l : list N) : outcome fmt :=
  let (a, l) := p_align fmt0 l in
  let (a, l) := p_sign a l in
  let (a, l) := p_alt a l in
  let! (a, l) := p_zero a l in
  let! (a, l) := p_width a l in
  let! (a, l) := p_prec a l in
  p_type a l.

(* ---- to_string.cc 460-583 ---- *)
(* unsigned_int_to_binary, lines 461-472: p is end - buffer *)
Fixpoint bin_loop (fuel : nat) (v p : N) (b : buf) : outcome (buf * N) :=
  match fuel with
  | O => OutOfFuel
  | S f =>
      if v =? 0 then Ok (b, p)
      else if p =? 0 then UB
      else let! b := bset b (p - 1) (if N.odd v then 49 else 48) in bin_loop f (N.shiftr v 1) (p - 1) b
  end.
(* to_binary, lines 485-491 *)
Definition to_binary (bits v : N) : outcome (list N) :=
  let cap := bits + 1 in
  let! (b, p) := bin_loop 65 v cap (fresh cap) in
  let! s := bread b p (cap - p) in
  chars s.
(* add_fill, lines 477-483 *)
Definition add_fill (a : fmt) (length : Z) : list N :=
  let c := if zero a then 48 else fill a in
  if ((0 <? width a) && (length <? width a))%Z then repeat c (Z.to_nat (width a - length)) else [].
(* the output of one snprintf based case: fill, then the buffer *)
Definition emit (a : fmt) (cap : nat) (text : list N) : outcome (list N) :=
  let r := snprintf cap text in
  let! s := view_out r in
  Ok (add_fill a (Z.of_N (snd r)) ++ s).
(* %#llx / %#llX: a non-zero value gets the prefix 0x / 0X *)
Definition hex_text (caps hash : bool) (v : N) : list N :=
  (if hash && negb (v =? 0) then [48; if caps then 88 else 120] else []) ++ utext caps 16 v.
(* unsigned_to_string_impl, lines 474-551, for an unsigned type of the given number of bits *)
Definition unsigned_out (bits v : N) (a : fmt) : outcome (list N) :=
  let t := typ a in
  let bytes := N.to_nat (bits / 8) in
  if (t =? 0) || (t =? 100) || (t =? 117) then emit a (20 + 1) (utext false 10 v)
  else if t =? 98 then let! s := to_binary bits v in Ok ((if alt a then [48; 98] else []) ++ s)
  else if t =? 66 then let! s := to_binary bits v in Ok ((if alt a then [48; 66] else []) ++ s)
  else if t =? 111 then
    let! s := emit a (bytes * 8 / 3 + 1 + 1) (utext false 8 v) in Ok ((if alt a then [48] else []) ++ s)
  else if t =? 120 then emit a (bytes * 2 + 1) (hex_text false (alt a) v)
  else if t =? 88 then emit a (bytes * 2 + 1) (hex_text true (alt a) v)
  else Contract.
(* -value, line 557: types narrower than int are promoted first *)
Definition negate (t : ity) (v : Z) : outcome Z :=
  match t with I32 | I64 => if (v =? imin t)%Z then UB else Ok (- v)%Z | _ => Ok (- v)%Z end.
Definition dec_width (a : fmt) : fmt :=
  if (0 <? width a)%Z
  then Fmt (width a - 1) (prec a) (fill a) (align a) (sign a) (typ a) (alt a) (zero a) else a.
(* int_to_string_impl, lines 553-583 *)
Definition int_out (t : ity) (v : Z) (a : fmt) : outcome (list N) :=
  let neg := (v <? 0)%Z in
  let! m := (if neg then negate t v else Ok v) in
  let u := Z.to_N (m mod 2 ^ Z.of_N (ibits t)) in
  let '(s, a') :=
    if sign a =? 32 then ([if neg then 45 else 32], dec_width a)
    else if sign a =? 45 then (if neg then ([45], dec_width a) else ([], a))
    else if sign a =? 43 then ([if neg then 45 else 43], dec_width a)
    else ([], a) in
  let! r := unsigned_out (ibits t) u a' in
  Ok (s ++ r).
(* lines 749-798: what is written to the stream for parsed arguments *)
Definition int_fmt (t : ity) (v : Z) (a : fmt) : outcome (list N) :=
  if isgn t then int_out t v a else unsigned_out (ibits t) (Z.to_N v) a.
Definition to_string_fmt (t : ity) (v : Z) (spec : list N) : outcome (list N) :=
  let! a := parse_args spec in int_fmt t v a.

(* ---- to_string.cc 673-728: text ---- *)
(* the padding loops count with unsigned int; the model takes their bound, which is below 2^32 for texts below 2 GiB *)
Definition text_fmt (value : list N) (a : fmt) : outcome (list N) :=
  let sz := conv I32 (Z.of_nat (length value)) in
  if ((0 <=? prec a) && (prec a <=? sz))%Z then Ok (firstn (Z.to_nat (prec a)) value)
  else if (sz <? width a)%Z then
    let total := Z.to_N ((width a - Z.of_nat (length value)) mod 2 ^ 64) in
    if align a =? 60 then Ok (value ++ repeat (fill a) (N.to_nat total))
    else if align a =? 94 then
      let right := total / 2 in
      let left := right + (if total mod 2 =? 1 then 1 else 0) in
      Ok (repeat (fill a) (N.to_nat left) ++ value ++ repeat (fill a) (N.to_nat right))
    else Ok (repeat (fill a) (N.to_nat total) ++ value)
  else Ok value.
Definition to_string_text (value spec : list N) : outcome (list N) :=
  match spec with
  | [] => Ok value
  | _ => let! a := parse_args spec in text_fmt value a
  end.

(* ---- to_string.cc 18-19, 152-160; from_string.cc 163-214: char, bool, std::byte ---- *)
Definition byte_to_string (v : N) : list N := [dchar true (v / 16); dchar true (v mod 16)].
Definition hex_from_char (c : N) : option N :=
  if (48 <=? c) && (c <=? 57) then Some (c - 48)
  else if (97 <=? c) && (c <=? 102) then Some (10 + (c - 97))
  else if (65 <=? c) && (c <=? 70) then Some (10 + (c - 65))
  else None.
Definition byte_from_string (s : list N) : option N :=
  match s with
  | [c0; c1] =>
      match hex_from_char c0, hex_from_char c1 with
      | Some i0, Some i1 => Some (N.shiftl i0 4 + i1)
      | _, _ => None
      end
  | _ => None
  end.
Definition char_to_string (c : N) : list N := [c].
Definition char_from_string (s : list N) : option N := match s with [c] => Some c | _ => None end.
Definition true_text : list N := [116; 114; 117; 101].
Definition false_text : list N := [102; 97; 108; 115; 101].
Definition bool_to_string (v : bool) : list N := if v then true_text else false_text.
(* string_view == compares the characters (StrModel) *)
Definition text_eqb (a b : list N) : bool := if list_eq_dec N.eq_dec a b then true else false.
Definition bool_from_string (s : list N) : option bool :=
  if text_eqb s true_text then Some true else if text_eqb s false_text then Some false else None.

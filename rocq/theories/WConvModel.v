(* Conversion between wide and narrow strings: native/wchar_conversion.cc:10-30 (the branch without Windows) and to_string.cc:23-32.
   Simplifications: the C library functions wcsrtombs and mbsrtowcs are modelled from the C standard for a locale whose multibyte
   encoding is UTF-8, starting in the initial shift state; wchar_t has 32 bits and holds code points.  An array is a list; reading
   behind its end is undefined behaviour.  When the limit is reached the libraries stop without looking at the next character. *)
From Coq Require Import NArith ZArith List Bool.
From Verif Require Import Base.
Import ListNotations.
Open Scope N_scope.

(* wcrtomb *)
Definition wcrtomb (c : N) : option (list N) :=
  if c <? 128 then Some [c]
  else if c <? 2048 then Some [192 + c / 64; 128 + c mod 64]
  else if (55296 <=? c) && (c <=? 57343) then None
  else if c <? 65536 then Some [224 + c / 4096; 128 + c / 64 mod 64; 128 + c mod 64]
  else if c <? 1114112 then Some [240 + c / 262144; 128 + c / 4096 mod 64; 128 + c / 64 mod 64; 128 + c mod 64]
  else None.

Fixpoint store (dst : list N) (n : nat) (bs : list N) : outcome (list N) :=
  match bs with [] => Ok dst | b :: bs => let! dst := aset dst n b in store dst (S n) bs end.

(* wcsrtombs(dst, src, len): n bytes are stored; -1 for a code that is no character *)
Fixpoint wcsrtombs (src dst : list N) (n : nat) (len : N) : outcome (list N * Z) :=
  if N.of_nat n =? len then Ok (dst, Z.of_nat n) else
  match src with
  | [] => UB
  | c :: src =>
      if c =? 0 then let! dst := aset dst n 0 in Ok (dst, Z.of_nat n)
      else match wcrtomb c with
           | None => Ok (dst, (-1)%Z)
           | Some bs => if N.of_nat (n + length bs) <=? len
                        then let! dst := store dst n bs in wcsrtombs src dst (n + length bs)%nat len
                        else Ok (dst, Z.of_nat n)
           end
  end.
(* with a null pointer as dst: only counts *)
Fixpoint wcsrtombs_null (src : list N) (n : nat) : outcome Z :=
  match src with
  | [] => UB
  | c :: src => if c =? 0 then Ok (Z.of_nat n)
                else match wcrtomb c with None => Ok (-1)%Z | Some bs => wcsrtombs_null src (n + length bs)%nat end
  end.

(* mbrtowc: the character at the start of src, None if there is none; continuation bytes are looked at one after the other *)
Definition cont (lo hi : N) (src : list N) (k : N -> list N -> outcome (option (N * list N))) : outcome (option (N * list N)) :=
  match src with
  | [] => UB
  | b :: src => if (lo <=? b) && (b <=? hi) then k (b - 128) src else Ok None
  end.
Definition mbrtowc (src : list N) : outcome (option (N * list N)) :=
  match src with
  | [] => UB
  | a :: src =>
      if a <? 128 then Ok (Some (a, src))
      else if (194 <=? a) && (a <=? 223) then cont 128 191 src (fun x src => Ok (Some ((a - 192) * 64 + x, src)))
      else if (224 <=? a) && (a <=? 239) then
        cont (if a =? 224 then 160 else 128) (if a =? 237 then 159 else 191) src (fun x src =>
        cont 128 191 src (fun y src => Ok (Some ((a - 224) * 4096 + x * 64 + y, src))))
      else if (240 <=? a) && (a <=? 244) then
        cont (if a =? 240 then 144 else 128) (if a =? 244 then 143 else 191) src (fun x src =>
        cont 128 191 src (fun y src =>
        cont 128 191 src (fun z src => Ok (Some ((a - 240) * 262144 + x * 4096 + y * 64 + z, src)))))
      else Ok None
  end.

(* mbsrtowcs(dst, src, len): n wide characters are stored; fuel: the length of src suffices *)
Fixpoint mbsrtowcs (fuel : nat) (src dst : list N) (n : nat) (len : N) : outcome (list N * Z) :=
  if N.of_nat n =? len then Ok (dst, Z.of_nat n) else
  match fuel with
  | O => UB
  | S fuel =>
      let! r := mbrtowc src in
      match r with
      | None => Ok (dst, (-1)%Z)
      | Some (c, src) => let! dst := aset dst n c in
                         if c =? 0 then Ok (dst, Z.of_nat n) else mbsrtowcs fuel src dst (S n) len
      end
  end.

Definition to_int (n : N) : Z := let m := (n mod 2 ^ 32)%N in if m <? 2 ^ 31 then Z.of_N m else (Z.of_N m - 2 ^ 32)%Z.
Definition to_size (z : Z) : N := Z.to_N (z mod 2 ^ 64).

(* wchar_conversion.cc:16-18; dest is None for a null pointer (an empty span) *)
Definition widechar_to_char (dest : option (list N)) (src : list N) (opt_num_src_chars : Z) : outcome (option (list N) * Z) :=
  let size := match dest with Some d => to_int (N.of_nat (length d)) | None => 0%Z end in
  let num_dest_chars := if (0 <? opt_num_src_chars)%Z then Z.min size (opt_num_src_chars / 4) else size in
  match dest with
  | Some d => let! (d, r) := wcsrtombs src d 0 (to_size num_dest_chars) in Ok (Some d, r)
  | None => let! r := wcsrtombs_null src 0 in Ok (None, r)
  end.
(* wchar_conversion.cc:26-28; null pointers as above are left out *)
Definition char_to_widechar (dest src : list N) (opt_num_src_chars : Z) : outcome (list N * Z) :=
  let size := to_int (N.of_nat (length dest)) in
  let num_dest_chars := if (0 <? opt_num_src_chars)%Z then Z.min size opt_num_src_chars else size in
  mbsrtowcs (S (length src)) src dest 0 (to_size num_dest_chars).

(* to_string.cc:23-32; None: a null pointer; the string is the list of its characters *)
Fixpoint wcslen (src : list N) : outcome nat :=
  match src with [] => UB | c :: src => if c =? 0 then Ok O else let! n := wcslen src in Ok (S n) end.
Definition nullptr_text : list N := [91; 110; 117; 108; 108; 112; 116; 114; 93].
Definition to_string_wide (value : option (list N)) : outcome (list N) :=
  match value with
  | None => Ok nullptr_text
  | Some src => let! n := wcslen src in
                let! (res, _) := widechar_to_char (Some (repeat 0 n)) src (-1) in
                match res with Some res => Ok res | None => UB end
  end.

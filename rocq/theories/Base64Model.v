(* Model of src/clean-core/base64.cc.  Characters and bytes are numbers 0..255. *)
From Coq Require Import NArith ZArith List Bool Ascii String.
From Verif Require Import Base.
Import ListNotations.
Open Scope N_scope.

(* base64.cc:9-11 base64_chars *)
Definition base64_chars : list N :=
  map N_of_ascii (list_ascii_of_string
    "ABCDEFGHIJKLMNOPQRSTUVWXYZabcdefghijklmnopqrstuvwxyz0123456789+/").

(* base64.cc:13-20 find_base64_char: loop over the table from index i *)
Fixpoint find_from (tbl : list N) (i c : N) : outcome N :=
  match tbl with
  | [] => Contract                                  (* CC_ASSERT(false && "not found") *)
  | h :: t => if h =? c then Ok i else find_from t (i + 1) c
  end.
Definition find_base64_char (c : N) : outcome N := find_from base64_chars 0 c.

(* isalnum of <cctype> in the "C" locale *)
Definition isalnum (c : N) : bool :=
  ((48 <=? c) && (c <=? 57)) || ((65 <=? c) && (c <=? 90)) || ((97 <=? c) && (c <=? 122)).

(* base64.cc:22 is_base64 *)
Definition is_base64 (c : N) : bool := isalnum c || (c =? 43) || (c =? 47).

(* Local unsigned char arrays: None is an indeterminate (never written) byte.  What evaluating
   an indeterminate byte does is the parameter [ind] : [UB] in the strict reading of the C++
   standard, [Ok g] for "some garbage value g" (what compilers do in practice). *)
Definition rd (ind : outcome N) (a : list (option N)) (i : nat) : outcome N :=
  let! c := aget a i in match c with Some v => Ok v | None => ind end.
Definition wr (a : list (option N)) (i : nat) (v : N) : outcome (list (option N)) := aset a i (Some v).

(* string_view::operator[] (string_view.hh) on the table: contract index < size *)
Definition table_at (k : N) : outcome N :=
  match nth_error base64_chars (N.to_nat k) with Some c => Ok c | None => Contract end.

Section Coder.
  Variable ind : outcome N.

  (* base64.cc:37-40 (repeated at 53-56): the four 6-bit values; each expression is an int
     stored in an unsigned char *)
  Definition split3 (a3 : list (option N)) : outcome (list N) :=
    let! x0 := rd ind a3 0 in
    let! x1 := rd ind a3 1 in
    let! x2 := rd ind a3 2 in
    Ok [ wrap 8 (N.shiftr (N.land x0 0xfc) 2);
         wrap 8 (N.shiftl (N.land x0 0x03) 4 + N.shiftr (N.land x1 0xf0) 4);
         wrap 8 (N.shiftl (N.land x1 0x0f) 2 + N.shiftr (N.land x2 0xc0) 6);
         wrap 8 (N.land x2 0x3f) ].

  (* base64.cc:42-43 / 58-59: ret += base64_chars[char_array_4[j]] for each j in the list *)
  Fixpoint emit (vs : list N) (ret : list N) : outcome (list N) :=
    match vs with
    | [] => Ok ret
    | v :: t => let! c := table_at v in emit t (ret ++ [c])
    end.

  (* base64.cc:32-46 the for loop; state: i, char_array_3, ret *)
  Fixpoint enc_loop (data : list N) (i : nat) (a3 : list (option N)) (ret : list N)
    : outcome (nat * list (option N) * list N) :=
    match data with
    | [] => Ok (i, a3, ret)
    | b :: rest =>
        let! a3 := wr a3 i b in
        let i := S i in
        if Nat.eqb i 3 then
          let! a4 := split3 a3 in
          let! ret := emit a4 ret in
          enc_loop rest 0 a3 ret
        else enc_loop rest i a3 ret
    end.

  (* base64.cc:50-51: for (j = i; j < 3; j++) char_array_3[j] = 0, with k = 3 - j iterations *)
  Fixpoint zero_fill (k j : nat) (a3 : list (option N)) : outcome (list (option N)) :=
    match k with
    | O => Ok a3
    | S k => let! a3 := wr a3 j 0 in zero_fill k (S j) a3
    end.

  (* base64.cc:24-66 base64_encode *)
  Definition base64_encode (data : list N) : outcome (list N) :=
    let! (i, a3, ret) := enc_loop data 0 [None; None; None] [] in
    if Nat.eqb i 0 then Ok ret
    else
      let! a3 := zero_fill (3 - i) i a3 in
      let! a4 := split3 a3 in
      let! ret := emit (firstn (i + 1) a4) ret in
      Ok (ret ++ repeat 61 (3 - i)).                 (* while (i++ < 3) ret += '=' *)

  (* base64.cc:82-83 / 97-98: decode the first n characters of char_array_4 in place *)
  Fixpoint find_all (n j : nat) (a4 : list (option N)) : outcome (list (option N)) :=
    match n with
    | O => Ok a4
    | S n =>
        let! c := rd ind a4 j in
        let! v := find_base64_char c in
        let! a4 := wr a4 j (wrap 8 (N.land v 0xff)) in
        find_all n (S j) a4
    end.

  (* base64.cc:85-86 / 100-101 *)
  Definition byte0 (v0 v1 : N) : N := wrap 8 (N.shiftl v0 2 + N.shiftr (N.land v1 0x30) 4).
  Definition byte1 (v1 v2 : N) : N := wrap 8 (N.shiftl (N.land v1 0xf) 4 + N.shiftr (N.land v2 0x3c) 2).
  (* base64.cc:87 *)
  Definition byte2 (v2 v3 : N) : N := wrap 8 (N.shiftl (N.land v2 0x3) 6 + v3).

  (* base64.cc:76-93 the while loop.  [rest] is the suffix of the string starting at in_;
     in_len is a 32-bit int: `in_len--` at INT_MIN is signed overflow (UB);
     encoded_string[in_] past the end violates the contract of string_view::operator[]. *)
  Fixpoint dec_loop (rest : list N) (in_len : Z) (i : nat) (a4 : list (option N)) (ret : list N)
    : outcome (nat * list (option N) * list N) :=
    if (in_len =? 0)%Z then Ok (i, a4, ret)
    else
      let! _ := defined (- 2 ^ 31 <? in_len)%Z in
      match rest with
      | [] => Contract
      | c :: rest' =>
          if negb (c =? 61) && is_base64 c then
            let! a4 := wr a4 i c in
            let i := S i in
            if Nat.eqb i 4 then
              let! a4 := find_all 4 0 a4 in
              let! v0 := rd ind a4 0 in
              let! v1 := rd ind a4 1 in
              let! v2 := rd ind a4 2 in
              let! v3 := rd ind a4 3 in
              dec_loop rest' (in_len - 1) 0 a4 (ret ++ [byte0 v0 v1; byte1 v1 v2; byte2 v2 v3])
            else dec_loop rest' (in_len - 1) i a4 ret
          else Ok (i, a4, ret)
      end.

  (* static_cast<int>(size): two's complement truncation to 32 bits, base64.cc:69 *)
  Definition to_int32 (n : Z) : Z :=
    let m := (n mod 2 ^ 32)%Z in if (m <? 2 ^ 31)%Z then m else (m - 2 ^ 32)%Z.

  (* base64.cc:67-108 base64_decode *)
  Definition base64_decode (s : list N) : outcome (list N) :=
    let in_len := to_int32 (Z.of_nat (List.length s)) in
    let! (i, a4, ret) := dec_loop s in_len 0 [None; None; None; None] [] in
    if Nat.eqb i 0 then Ok ret
    else
      let! a4 := find_all i 0 a4 in
      let! v0 := rd ind a4 0 in
      let! v1 := rd ind a4 1 in
      let! v2 := rd ind a4 2 in
      Ok (ret ++ firstn (i - 1) [byte0 v0 v1; byte1 v1 v2]).
End Coder.

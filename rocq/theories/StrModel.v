(* Model of src/clean-core/string_view.hh and char_predicates.hh.
   A view is a block of memory together with an offset and a size; all character reads are checked against the block.
   Characters are bytes (N below 256); char is signed on the supported platforms, see schar.
   Simplifications: forming (without reading) a pointer behind the block is not flagged; sizes are below 2^63, so the
   casts to int64_t and the loop counters do not wrap; -1 results are None. *)
From Coq Require Import NArith ZArith List Bool Arith.
From Verif Require Import Base.
Import ListNotations.
Open Scope N_scope.

(* string_view.hh:361-363 _data = mem + off, _size *)
Record view := mkView { mem : list N; off : N; vsize : N }.
Definition rd (v : view) (i : N) : outcome N := aget (mem v) (N.to_nat (off v + i)).
(* view over a complete block, as made by string_view(data, size) (:57) *)
Definition of_list (l : list N) : view := mkView l 0 (N.of_nat (length l)).

(* :49-56 string_view from a C string: scan for the terminator *)
Fixpoint scan_nul (fuel : nat) (m : list N) (p i : N) : outcome N :=
  match fuel with
  | O => OutOfFuel
  | S fuel => let! c := aget m (N.to_nat (p + i)) in if c =? 0 then Ok i else scan_nul fuel m p (i + 1)
  end.
Definition of_cstr (m : list N) (p : N) : outcome view :=
  let! n := scan_nul (S (length m)) m p 0 in Ok (mkView m p n).

(* :79-94 *)
Definition vempty (v : view) : bool := vsize v =? 0.
Definition vfront (v : view) : outcome N := let! _ := contract (0 <? vsize v) in rd v 0.
Definition vback (v : view) : outcome N := let! _ := contract (0 <? vsize v) in rd v (vsize v - 1).
Definition vindex (v : view) (i : N) : outcome N := let! _ := contract (i <? vsize v) in rd v i.

(* :98-112 *)
Definition subview (v : view) (o s : N) : outcome view :=
  let! _ := contract (o <=? vsize v) in
  let! _ := contract (wadd 64 o s <=? vsize v) in
  Ok (mkView (mem v) (off v + o) s).
Definition subview_clamped (v : view) (o s : N) : view :=
  mkView (mem v) (off v + o) (if vsize v <? o then 0 else if vsize v <? wadd 64 o s then wsub 64 (vsize v) o else s).
Definition subview_from (v : view) (o : N) : outcome view :=
  let! _ := contract (o <=? vsize v) in
  Ok (mkView (mem v) (off v + o) (wsub 64 (vsize v) o)).

(* :317-320, :497-500 compare n characters from index i on *)
Fixpoint equal_from (cmp : N -> N -> bool) (n : nat) (i : N) (a b : view) : outcome bool :=
  match n with
  | O => Ok true
  | S n => let! x := rd a i in let! y := rd b i in if cmp x y then equal_from cmp n (i + 1) a b else Ok false
  end.
(* :312-321 equals *)
Definition equals (cmp : N -> N -> bool) (a b : view) : outcome bool :=
  if vsize a =? vsize b then equal_from cmp (N.to_nat (vsize a)) 0 a b else Ok false.
(* :493-501 operator==, :502-510 operator!= *)
Definition veq (a b : view) : outcome bool := equals N.eqb a b.
Definition vne (a b : view) : outcome bool := let! r := veq a b in Ok (negb r).

(* char_predicates.hh:8-24 *)
Definition is_space (c : N) : bool := (c =? 32) || (c =? 12) || (c =? 9) || (c =? 10) || (c =? 13) || (c =? 11).
Definition is_upper (c : N) : bool := (65 <=? c) && (c <=? 90).
Definition is_lower (c : N) : bool := (97 <=? c) && (c <=? 122).
Definition to_lower (c : N) : N := if is_upper c then 97 + (c - 65) else c.
Definition to_upper (c : N) : N := if is_lower c then 65 + (c - 97) else c.
(* :31-34, :322 *)
Definition ci_eq (a b : N) : bool := (a =? b) || (to_lower a =? to_lower b).
Definition equals_ignore_case (a b : view) : outcome bool := equals ci_eq a b.

(* :114-120, :145-151 first index with a character satisfying p, among n from i on *)
Fixpoint find_char (p : N -> bool) (n : nat) (i : N) (v : view) : outcome (option N) :=
  match n with
  | O => Ok None
  | S n => let! c := rd v i in if p c then Ok (Some i) else find_char p n (i + 1) v
  end.
Definition index_of_char (v : view) (c : N) : outcome (option N) := find_char (N.eqb c) (N.to_nat (vsize v)) 0 v.
Definition contains_char (v : view) (c : N) : outcome bool :=
  let! r := index_of_char v c in Ok (match r with Some _ => true | None => false end).
(* :187-193: from the last of n characters downwards *)
Fixpoint rfind_char (p : N -> bool) (n : nat) (v : view) : outcome (option N) :=
  match n with
  | O => Ok None
  | S n => let! c := rd v (N.of_nat n) in if p c then Ok (Some (N.of_nat n)) else rfind_char p n v
  end.
Definition last_index_of_char (v : view) (c : N) : outcome (option N) := rfind_char (N.eqb c) (N.to_nat (vsize v)) v.

(* :126-128, :137-139 *)
Fixpoint contains_from (cmp : N -> N -> bool) (n : nat) (i : N) (v s : view) : outcome bool :=
  match n with
  | O => Ok false
  | S n =>
      let! w := subview v i (vsize s) in
      let! b := equals cmp w s in
      if b then Ok true else contains_from cmp n (i + 1) v s
  end.
(* :121-131 contains, :132-142 contains_ignore_case *)
Definition contains_by (cmp : N -> N -> bool) (v s : view) : outcome bool :=
  if vsize v <? vsize s then Ok false
  else contains_from cmp (N.to_nat (vsize v - vsize s + 1)) 0 v s.
Definition contains := contains_by N.eqb.
Definition contains_ignore_case := contains_by ci_eq.

(* :161-167: n = s.size() - j iterations left *)
Fixpoint match_at (n : nat) (j i : N) (v s : view) : outcome bool :=
  match n with
  | O => Ok false
  | S n =>
      let! a := rd v (i + j) in
      let! b := vindex s j in
      if negb (a =? b) then Ok false
      else if j =? vsize s - 1 then Ok true
      else match_at n (j + 1) i v s
  end.
Fixpoint search (n : nat) (i : N) (v s : view) : outcome (option N) :=
  match n with
  | O => Ok None
  | S n =>
      let! m := match_at (N.to_nat (vsize s)) 0 i v s in
      if m then Ok (Some i) else search n (i + 1) v s
  end.
(* :154-170 index_of *)
Definition index_of (v s : view) : outcome (option N) :=
  let! _ := contract (negb (vempty s)) in
  if vsize v <? vsize s then Ok None else search (N.to_nat (vsize v - vsize s + 1)) 0 v s.

(* :203-209 *)
Fixpoint rmatch_at (n : nat) (j i : N) (v s : view) : outcome bool :=
  match n with
  | O => Ok false
  | S n =>
      let! a := rd v (wsub 64 (vsize v) (i + j + 1)) in
      let! b := vindex s (wsub 64 (vsize s) (j + 1)) in
      if negb (a =? b) then Ok false
      else if j =? vsize s - 1 then Ok true
      else rmatch_at n (j + 1) i v s
  end.
Fixpoint rsearch (n : nat) (i : N) (v s : view) : outcome (option N) :=
  match n with
  | O => Ok None
  | S n =>
      let! m := rmatch_at (N.to_nat (vsize s)) 0 i v s in
      if m then Ok (Some (wsub 64 (vsize v) (i + vsize s))) else rsearch n (i + 1) v s
  end.
(* :196-212 last_index_of *)
Definition last_index_of (v s : view) : outcome (option N) :=
  let! _ := contract (negb (vempty s)) in
  if vsize v <? vsize s then Ok None else rsearch (N.to_nat (vsize v - vsize s + 1)) 0 v s.

(* :458-473 next_idx; the needle is read without a contract check *)
Fixpoint match_raw (n : nat) (j i : N) (v s : view) : outcome bool :=
  match n with
  | O => Ok false
  | S n =>
      let! a := rd v (i + j) in
      let! b := rd s j in
      if negb (a =? b) then Ok false
      else if j =? vsize s - 1 then Ok true
      else match_raw n (j + 1) i v s
  end.
Fixpoint search_raw (n : nat) (i : N) (v s : view) : outcome (option N) :=
  match n with
  | O => Ok None
  | S n =>
      let! m := match_raw (N.to_nat (vsize s)) 0 i v s in
      if m then Ok (Some i) else search_raw n (i + 1) v s
  end.
Definition next_idx (v s : view) (start : N) : outcome (option N) :=
  if wsub 64 (vsize v) start <? vsize s then Ok None
  else search_raw (N.to_nat (vsize v - vsize s + 1 - start)) start v s.
(* :215-219, :439-456, :476-490: range-based for over all_indices_of *)
Fixpoint indices_loop (fuel : nat) (idx : option N) (v s : view) : outcome (list N) :=
  match idx with
  | None => Ok []
  | Some i =>
      match fuel with
      | O => OutOfFuel
      | S fuel =>
          let! nx := next_idx v s (i + 1) in
          let! r := indices_loop fuel nx v s in Ok (i :: r)
      end
  end.
Definition all_indices_of (v s : view) : outcome (list N) :=
  let! _ := contract (negb (vempty s)) in
  let! i := next_idx v s 0 in
  indices_loop (S (N.to_nat (vsize v))) i v s.

(* :173-184 common_prefix_with *)
Fixpoint common_loop (n : nat) (i : N) (a b : view) : outcome N :=
  match n with
  | O => Ok i
  | S n => let! x := rd a i in let! y := rd b i in if negb (x =? y) then Ok i else common_loop n (i + 1) a b
  end.
Definition common_prefix_with (a b : view) : outcome view :=
  let! n := common_loop (N.to_nat (N.min (vsize a) (vsize b))) 0 a b in
  Ok (mkView (mem a) (off a) n).

(* :221-225 *)
Definition starts_with_char (v : view) (c : N) : outcome bool :=
  if 0 <? vsize v then let! x := vfront v in Ok (x =? c) else Ok false.
Definition starts_with (v s : view) : outcome bool :=
  if vsize s <=? vsize v then let! w := subview v 0 (vsize s) in veq w s else Ok false.
Definition ends_with_char (v : view) (c : N) : outcome bool :=
  if 0 <? vsize v then let! x := vback v in Ok (x =? c) else Ok false.
Definition ends_with (v s : view) : outcome bool :=
  if vsize s <=? vsize v then let! w := subview v (vsize v - vsize s) (vsize s) in veq w s else Ok false.

(* :230-235 split_once *)
Definition split_once (v p : view) : outcome (view * view) :=
  let! r := index_of v p in
  match r with
  | None => Contract
  | Some i => let! a := subview v 0 i in let! b := subview_from v (i + vsize p) in Ok (a, b)
  end.

(* :243-284 trim_start, trim_end, trim *)
Fixpoint trim_start_loop (p : N -> bool) (n : nat) (v : view) : outcome view :=
  match n with
  | O => Ok v
  | S n => let! c := rd v 0 in if p c then trim_start_loop p n (mkView (mem v) (off v + 1) (N.of_nat n)) else Ok v
  end.
Fixpoint trim_end_loop (p : N -> bool) (n : nat) (v : view) : outcome view :=
  match n with
  | O => Ok v
  | S n => let! c := rd v (N.of_nat n) in if p c then trim_end_loop p n (mkView (mem v) (off v) (N.of_nat n)) else Ok v
  end.
Definition trim_start (p : N -> bool) (v : view) : outcome view := trim_start_loop p (N.to_nat (vsize v)) v.
Definition trim_end (p : N -> bool) (v : view) : outcome view := trim_end_loop p (N.to_nat (vsize v)) v.
Definition trim (p : N -> bool) (v : view) : outcome view := let! v := trim_start p v in trim_end p v.

(* :286-309 *)
Definition remove_prefix (v : view) (n : N) : outcome view :=
  let! _ := contract (n <=? vsize v) in Ok (mkView (mem v) (off v + n) (wsub 64 (vsize v) n)).
Definition remove_prefix_str (v s : view) : outcome view :=
  let! b := starts_with v s in
  let! _ := contract b in Ok (mkView (mem v) (off v + vsize s) (wsub 64 (vsize v) (vsize s))).
Definition remove_suffix (v : view) (n : N) : outcome view :=
  let! _ := contract (n <=? vsize v) in Ok (mkView (mem v) (off v) (wsub 64 (vsize v) n)).
Definition remove_suffix_str (v s : view) : outcome view :=
  let! b := ends_with v s in
  let! _ := contract b in Ok (mkView (mem v) (off v) (wsub 64 (vsize v) (vsize s))).
Definition first (v : view) (n : N) : view := mkView (mem v) (off v) (if n <? vsize v then n else vsize v).
Definition last (v : view) (n : N) : view :=
  if n <=? vsize v then mkView (mem v) (off v + vsize v - n) n else v.

(* value of a byte read as (signed) char *)
Definition schar (c : N) : Z := (if (c <? 128)%N then Z.of_N c else Z.of_N c - 256)%Z.
(* :325-334 is_lexicographically_less_than *)
Fixpoint lex_loop (n : nat) (i : N) (a b : view) : outcome bool :=
  match n with
  | O => Ok (vsize a <? vsize b)
  | S n =>
      let! x := rd a i in let! y := rd b i in
      if negb (x =? y) then Ok (schar x <? schar y)%Z else lex_loop n (i + 1) a b
  end.
Definition lex_less (a b : view) : outcome bool := lex_loop (N.to_nat (N.min (vsize a) (vsize b))) 0 a b.
(* ::strncmp(a, b, n) == 0 / < 0 by its definition in the C standard: compares as unsigned char, stops at a terminator *)
Fixpoint strncmp (n : nat) (i : N) (a b : view) : outcome comparison :=
  match n with
  | O => Ok Eq
  | S n =>
      let! x := rd a i in let! y := rd b i in
      if negb (x =? y) then Ok (x ?= y) else if x =? 0 then Ok Eq else strncmp n (i + 1) a b
  end.
(* :524-531 ascii_lexicographical_less *)
Definition ascii_less (a b : view) : outcome bool :=
  let! c := strncmp (N.to_nat (N.min (vsize a) (vsize b))) 0 a b in
  Ok (match c with Eq => vsize a <? vsize b | Lt => true | Gt => false end).

(* :367-421 string_split_iterator over [begin, end) of the view: _prev, _curr as offsets into the view, _finished *)
Section Split.
  Variables (p : N -> bool) (skip_empty : bool) (v : view).
  Record split_it := mkIt { prev : N; curr : N; finished : bool }.
  (* while (_curr != _end && _pred at _curr is b) ++_curr, with n = _end - _curr *)
  Fixpoint advance (b : bool) (n : nat) (c : N) : outcome N :=
    match n with
    | O => Ok c
    | S n => let! x := rd v c in if eqb (p x) b then advance b n (c + 1) else Ok c
    end.
  Definition adv (b : bool) (c : N) : outcome N := advance b (N.to_nat (vsize v - c)) c.
  (* :376-392 *)
  Definition split_begin : outcome split_it :=
    let! c := (if skip_empty then adv true 0 else Ok 0) in
    if c =? vsize v then Ok (mkIt c c true)
    else let! e := adv false c in Ok (mkIt c e false).
  (* :394-418 *)
  Definition split_next (it : split_it) : outcome split_it :=
    if curr it =? vsize v then Ok (mkIt (prev it) (curr it) true)
    else
      let c := curr it + 1 in
      let! c := (if skip_empty then adv true c else Ok c) in
      if skip_empty && (c =? vsize v) then Ok (mkIt (prev it) c true)
      else let! e := adv false c in Ok (mkIt c e false).
  (* :419 operator* *)
  Definition split_deref (it : split_it) : view := mkView (mem v) (off v + prev it) (curr it - prev it).
  (* range-based for loop over the pieces *)
  Fixpoint split_loop (fuel : nat) (it : split_it) : outcome (list view) :=
    if finished it then Ok []
    else match fuel with
         | O => OutOfFuel
         | S fuel => let! it' := split_next it in let! r := split_loop fuel it' in Ok (split_deref it :: r)
         end.
  (* :512-521 split *)
  Definition split : outcome (list view) :=
    let! it := split_begin in split_loop (S (N.to_nat (vsize v))) it.
End Split.

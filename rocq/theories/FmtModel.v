(* Model of src/clean-core/format.cc and the entry points of format.hh.
   The format string is the first n characters of a block of memory m; reads of the block are checked, so a read behind
   the view is undefined unless the caller's block goes on there (a terminator, for example).
   An argument is its name and its to_string function, from the format specification to the characters appended.
   Simplifications: the stream is the list of characters appended so far; on a failing assertion the text of the error
   message is not modelled, the program aborts; fewer than 2^31 arguments. *)
From Coq Require Import NArith List Bool Arith.
From Verif Require Import Base.
From Verif Require NumModel StrModel.
Import ListNotations.
Open Scope N_scope.

(* format.hh 177-183 arg_info, except was_used, which is kept as a list of booleans *)
Record arg := mkArg { name : list N; do_format : list N -> outcome (list N) }.

(* string_view(a, b) of two pointers into the block, 0 <= a <= b *)
Definition slice (m : list N) (a b : nat) : outcome (list N) :=
  if (a <=? b)%nat && (b <=? length m)%nat then Ok (firstn (b - a) (skipn a m)) else UB.

(* while (curr != end && p( *curr)) ++curr *)
Fixpoint skip_while (fuel : nat) (m : list N) (n : nat) (p : N -> bool) (c : nat) : outcome nat :=
  match fuel with
  | O => OutOfFuel
  | S fuel => if (c =? n)%nat then Ok c else
              let! x := aget m c in
              if p x then skip_while fuel m n p (S c) else Ok c
  end.

(* format.cc 18-26 *)
Definition is_flag (c : N) : bool :=
  (c =? 45) || (c =? 43) || (c =? 32) || (c =? 45) || (c =? 35) || (c =? 94) || (c =? 60) || (c =? 62) || (c =? 48).
(* 90-108: c s d i o x X u f F e E a A g G p *)
Definition is_conv (c : N) : bool :=
  (c =? 99) || (c =? 115) || (c =? 100) || (c =? 105) || (c =? 111) || (c =? 120) || (c =? 88) || (c =? 117) || (c =? 102) ||
  (c =? 70) || (c =? 101) || (c =? 69) || (c =? 97) || (c =? 65) || (c =? 103) || (c =? 71) || (c =? 112).

(* 11-122 advance_printf_chars *)
Definition adv_flags (m : list N) (n c : nat) : outcome nat := skip_while (S (length m)) m n is_flag c.
Definition adv_width (m : list N) (n c : nat) : outcome nat :=
  if (c =? n)%nat then Ok c else
  let! x := aget m c in
  if x =? 42 then Ok (S c) else skip_while (S (length m)) m n NumModel.is_digit c.
Definition adv_prec (m : list N) (n c : nat) : outcome nat :=
  if (c =? n)%nat then Ok c else
  let! x := aget m c in
  if x =? 46 then
    let c := S c in
    let! _ := contract (negb (c =? n)%nat) in
    let! y := aget m c in
    if y =? 42 then Ok (S c) else
    let! _ := contract (NumModel.is_digit y) in
    skip_while (S (length m)) m n NumModel.is_digit c
  else Ok c.
Definition adv_len (m : list N) (n c : nat) : outcome nat :=
  if (c =? n)%nat then Ok c else
  let! x := aget m c in
  if (x =? 122) || (x =? 116) || (x =? 106) || (x =? 76) then Ok (S c)
  else if (x =? 104) || (x =? 108) then
    let c := S c in
    if (c =? n)%nat then Ok c else
    let! y := aget m c in Ok (if y =? x then S c else c)
  else Ok c.
(* 87-121: the switch reads *curr without comparing curr with end *)
Definition adv_conv (m : list N) (c : nat) : outcome nat :=
  let! x := aget m c in
  if is_conv x then Ok (S c) else Contract.
Definition advance_printf_chars (m : list N) (n c : nat) : outcome nat :=
  let! c := adv_flags m n c in
  let! c := adv_width m n c in
  let! c := adv_prec m n c in
  let! c := adv_len m n c in
  adv_conv m c.

(* args[i].do_format(ss, args[i].data, spec); args[i].was_used = true; the span checks the index (span.hh 63) *)
Definition emit_arg (args : list arg) (used : list bool) (out : list N) (i : N) (spec : list N) : outcome (list bool * list N) :=
  let! _ := contract (i <? N.of_nat (length args)) in
  let! a := aget args (N.to_nat i) in
  let! t := do_format a spec in
  Ok (lset used (N.to_nat i) true, out ++ t).

(* 220-229: the digits after the first; size_t arithmetic *)
Fixpoint index_loop (fuel : nat) (m : list N) (n c : nat) (index : N) : outcome (nat * N) :=
  match fuel with
  | O => OutOfFuel
  | S fuel => let! x := aget m c in
              if NumModel.is_digit x then
                let index := wadd 64 (wmul 64 index 10) (x - 48) in
                let c := S c in
                let! _ := contract (negb (c =? n)%nat) in
                index_loop fuel m n c index
              else Ok (c, index)
  end.
(* 235, 240 *)
Definition is_name_start (c : N) : bool := (c =? 95) || StrModel.is_lower c || StrModel.is_upper c.
Definition is_name_char (c : N) : bool := is_name_start c || NumModel.is_digit c.
(* 238-244, 272-277: do { ++curr; assert(curr != end) } while the current character is accepted *)
Fixpoint scan_loop (fuel : nat) (m : list N) (n : nat) (p : N -> bool) (c : nat) : outcome nat :=
  match fuel with
  | O => OutOfFuel
  | S fuel => let! x := aget m c in
              if p x then
                let c := S c in
                let! _ := contract (negb (c =? n)%nat) in
                scan_loop fuel m n p c
              else Ok c
  end.
Fixpoint list_eqb (a b : list N) : bool :=
  match a, b with
  | [], [] => true
  | x :: a, y :: b => (x =? y) && list_eqb a b
  | _, _ => false
  end.
(* 246-253; SIZE_MAX if there is none *)
Fixpoint find_name (args : list arg) (i : N) (nm : list N) : N :=
  match args with
  | [] => SIZE_MAX
  | a :: args => match name a with
                 | [] => find_name args (i + 1) nm
                 | _ => if list_eqb (name a) nm then i else find_name args (i + 1) nm
                 end
  end.

(* loop state: curr_c, segment_start, curr_arg_id (None is -1), was_used flags, output *)
Record st := mkSt { cur : nat; seg : nat; aid : option N; used : list bool; out : list N }.

(* 262 args[curr_arg_id++] as size_t *)
Definition auto_index (a : option N) : N * option N :=
  match a with Some i => (i, Some (i + 1)) | None => (SIZE_MAX, Some 0) end.

(* 213-283 complex args: c is behind the '{', x the character there.  Result: the position of the closing brace *)
Definition complex_arg (args : list arg) (m : list N) (n c : nat) (x : N) (a : option N) (us : list bool) (o : list N)
  : outcome (nat * option N * list bool * list N) :=
  let! (c, i, a) :=
    (if NumModel.is_digit x then
       let index := x - 48 in
       let c := S c in
       let! _ := contract (negb (c =? n)%nat) in
       let! (c, index) := index_loop (S (length m)) m n c index in
       let! _ := contract (index <? N.of_nat (length args)) in
       Ok (c, index, None)
     else if is_name_start x then
       let start := c in
       let c := S c in
       let! _ := contract (negb (c =? n)%nat) in
       let! c := scan_loop (S (length m)) m n is_name_char c in
       let! nm := slice m start c in
       let i := find_name args 0 nm in
       let! _ := contract (i <? N.of_nat (length args)) in
       Ok (c, i, None)
     else let (i, a) := auto_index a in Ok (c, i, a)) in
  let! _ := contract (negb (c =? n)%nat) in
  let! y := aget m c in
  if y =? 125 then
    let! (us, o) := emit_arg args us o i [] in Ok (c, a, us, o)
  else
    let! _ := contract (y =? 58) in
    let c := S c in
    let! _ := contract (negb (c =? n)%nat) in
    let start := c in
    let! c := scan_loop (S (length m)) m n (fun z => negb (z =? 125)) c in
    let! spec := slice m start c in
    let! (us, o) := emit_arg args us o i spec in Ok (c, a, us, o).

(* 201, 207: curr_arg_id >= 0 and curr_arg_id < args.size() *)
Definition next_arg (args : list arg) (a : option N) : outcome N :=
  match a with
  | None => Contract
  | Some i => let! _ := contract (i <? N.of_nat (length args)) in Ok i
  end.

(* one iteration of the loop 137-291 with curr_c != end_c *)
Definition iteration (pf py : bool) (args : list arg) (m : list N) (n : nat) (s : st) : outcome st :=
  let! x := aget m (cur s) in
  if pf && (x =? 37) then
    let! o := (if (seg s =? cur s)%nat then Ok (out s) else let! t := slice m (seg s) (cur s) in Ok (out s ++ t)) in
    let c := S (cur s) in
    let! _ := contract (negb (c =? n)%nat) in
    let! y := aget m c in
    if y =? 37 then Ok (mkSt (S c) c (aid s) (used s) o)
    else
      let! e := advance_printf_chars m n c in
      let! _ := contract (negb (e =? c)%nat) in
      let! i := next_arg args (aid s) in
      let! spec := slice m c e in
      let spec := if list_eqb spec [115] then [] else spec in
      let! (us, o) := emit_arg args (used s) o i spec in
      Ok (mkSt e e (Some (i + 1)) us o)
  else if py && (x =? 125) then
    let c := S (cur s) in
    let! _ := contract (negb (c =? n)%nat) in
    let! y := aget m c in
    let! _ := contract (y =? 125) in
    let! t := slice m (seg s) c in
    Ok (mkSt (S c) (S c) (aid s) (used s) (out s ++ t))
  else if py && (x =? 123) then
    let! o := (if (seg s =? cur s)%nat then Ok (out s) else let! t := slice m (seg s) (cur s) in Ok (out s ++ t)) in
    let c := S (cur s) in
    let! _ := contract (negb (c =? n)%nat) in
    let! y := aget m c in
    if y =? 123 then Ok (mkSt (S c) c (aid s) (used s) o)
    else if y =? 125 then
      let! i := next_arg args (aid s) in
      let! (us, o) := emit_arg args (used s) o i [] in
      Ok (mkSt (S c) (S c) (Some (i + 1)) us o)
    else
      let! (c, a, us, o) := complex_arg args m n c y (aid s) (used s) o in
      Ok (mkSt (S c) (S c) a us o)
  else Ok (mkSt (S (cur s)) (seg s) (aid s) (used s) (out s)).

(* 137-291; the fuel is the number of characters that can be read, see vformat *)
Fixpoint run (fuel : nat) (pf py : bool) (args : list arg) (m : list N) (n : nat) (s : st) : outcome st :=
  match fuel with
  | O => OutOfFuel
  | S fuel => if (cur s =? n)%nat then Ok s
              else let! s := iteration pf py args m n s in run fuel pf py args m n s
  end.
(* 125-299 impl_vformat_to<pf, py> on a view of the first n characters of m; the characters appended to the stream *)
Definition vformat (pf py : bool) (args : list arg) (m : list N) (n : nat) : outcome (list N) :=
  let! s := run (S (length m)) pf py args m n (mkSt 0 0 (Some 0) (repeat false (length args)) []) in
  let! o := (if (seg s =? n)%nat then Ok (out s) else let! t := slice m (seg s) n in Ok (out s ++ t)) in
  let! _ := contract (forallb (fun u => u) (used s)) in
  Ok o.

(* 302-315 the three formatters *)
Inductive formatter := Default | Printf | Pythonic.
Definition has_pf (f : formatter) : bool := match f with Pythonic => false | _ => true end.
Definition has_py (f : formatter) : bool := match f with Printf => false | _ => true end.
(* format.hh 224-236 format_to a stream with the view f of exactly these characters *)
Definition format_to (f : formatter) (fmt : list N) (args : list arg) : outcome (list N) :=
  vformat (has_pf f) (has_py f) args fmt (length fmt).
(* format.hh 238-242: the version that appends to a string calls format_to without its template argument *)
Definition format_to_string (f : formatter) (s fmt : list N) (args : list arg) : outcome (list N) :=
  let! t := format_to Default fmt args in Ok (s ++ t).
(* format.hh 244-262 format, formatf, formatp: the characters are those in front of the terminator of the C string *)
Definition format (f : formatter) (fmt : list N) (args : list arg) : outcome (list N) :=
  vformat (has_pf f) (has_py f) args (fmt ++ [0]) (length fmt).

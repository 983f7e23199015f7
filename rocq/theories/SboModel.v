(* Model of src/clean-core/sbo_string.hh for an arbitrary small capacity sc (cc::string is sbo_string<15>).
   A byte is option N: None is an indeterminate byte, whose use as a character value is UB (copying it with memcpy is
   not).  _data is either the inline buffer, an owned heap block of capacity + 1 bytes, or nullptr.  The union of
   _capacity, _sbo and _sbo_words is the list of its sc + 1 bytes (little endian).
   Simplifications: a heap block is part of the string that owns it, so leaks and double deletes are not represented;
   allocation succeeds; a string_view made of the own characters (starts_with, subview, ...) is the StrModel view over
   a copy of these characters. *)
From Coq Require Import NArith Arith List Bool.
From Verif Require Import Base Sha1Model StrModel.
Import ListNotations.
Open Scope N_scope.

Definition buf := list (option N).

(* b[i] as a character *)
Definition bget (b : buf) (i : N) : outcome N :=
  let! c := aget b (N.to_nat i) in match c with Some v => Ok v | None => UB end.
Definition bset (b : buf) (i c : N) : outcome buf := aset b (N.to_nat i) (Some c).
(* the n bytes from b + o on, and writing bytes there *)
Definition bread (b : buf) (o n : N) : outcome buf :=
  if o + n <=? N.of_nat (length b) then Ok (firstn (N.to_nat n) (skipn (N.to_nat o) b)) else UB.
Definition bwrite (b : buf) (o : N) (bs : buf) : outcome buf :=
  if o + N.of_nat (length bs) <=? N.of_nat (length b)
  then Ok (firstn (N.to_nat o) b ++ bs ++ skipn (N.to_nat o + length bs) b) else UB.
(* new char[n] *)
Definition fresh (n : N) : buf := repeat None (N.to_nat n).
(* the bytes as characters *)
Fixpoint chars (b : buf) : outcome (list N) :=
  match b with
  | [] => Ok []
  | Some c :: b => let! r := chars b in Ok (c :: r)
  | None :: _ => UB
  end.

(* a string_view argument: characters elsewhere, or n characters of this string from o on *)
Inductive sarg := SVal (l : list N) | SOwn (o n : N).
Definition slen (a : sarg) : N := match a with SVal l => N.of_nat (length l) | SOwn _ n => n end.
Definition sread (b : buf) (a : sarg) : outcome buf :=
  match a with SVal l => Ok (map Some l) | SOwn o n => bread b o n end.
(* memcpy(b + dst, a.data(), a.size()): overlapping ranges are UB *)
Definition memcpy_in (b : buf) (dst : N) (a : sarg) : outcome buf :=
  match a with
  | SVal l => bwrite b dst (map Some l)
  | SOwn o n =>
      let! _ := defined ((n =? 0) || (o + n <=? dst) || (dst + n <=? o)) in
      let! s := bread b o n in bwrite b dst s
  end.

(* for k = 0 .. n-1: b[dst + k] = b[src + k] *)
Fixpoint copy_up (n : nat) (dst src : N) (b : buf) : outcome buf :=
  match n with
  | O => Ok b
  | S n => let! c := bget b src in let! b := bset b dst c in copy_up n (dst + 1) (src + 1) b
  end.
(* for k = 1 .. n: b[dst - k] = b[src - k], n calls left *)
Fixpoint copy_down (n : nat) (dst src : N) (b : buf) : outcome buf :=
  match n with
  | O => Ok b
  | S n => let! c := bget b (src - 1) in let! b := bset b (dst - 1) c in copy_down n (dst - 1) (src - 1) b
  end.
(* for k = 0 .. n-1: b[i + k] = c *)
Fixpoint fill_up (n : nat) (i c : N) (b : buf) : outcome buf :=
  match n with
  | O => Ok b
  | S n => let! b := bset b i c in fill_up n (i + 1) c b
  end.
(* for k = 0 .. n-1: dst[i + k] = f(src[i + k]) *)
Fixpoint map_up (f : N -> N) (n : nat) (i : N) (src dst : buf) : outcome buf :=
  match n with
  | O => Ok dst
  | S n => let! c := bget src i in let! dst := bset dst i (f c) in map_up f n (i + 1) src dst
  end.
(* the same with dst = src *)
Fixpoint map_own (f : N -> N) (n : nat) (i : N) (b : buf) : outcome buf :=
  match n with
  | O => Ok b
  | S n => let! c := bget b i in let! b := bset b i (f c) in map_own f n (i + 1) b
  end.
(* while (k < n && pred(b[i + k])) ++k *)
Fixpoint scan_up (p : N -> bool) (n : nat) (i : N) (b : buf) : outcome N :=
  match n with
  | O => Ok i
  | S n => let! c := bget b i in if p c then scan_up p n (i + 1) b else Ok i
  end.
(* while (s > 0 && pred(b[i + s - 1])) --s *)
Fixpoint scan_down (p : N -> bool) (s : nat) (i : N) (b : buf) : outcome N :=
  match s with
  | O => Ok 0
  | S s' => let! c := bget b (i + N.of_nat s') in if p c then scan_down p s' i b else Ok (N.of_nat s)
  end.

Section Sbo.
  Variable sc : N. (* sbo_capacity *)

  (* sbo_string.hh:777-784 *)
  Inductive place := LSbo | LHeap (b : buf) | LNull.
  Record sbo := mkS { loc : place; ssz : N; un : buf }.

  (* union access: _sbo_words = {}, _capacity = c, _capacity *)
  Definition zeros : buf := repeat (Some 0) (N.to_nat (sc + 1)).
  Definition write_cap (c : N) (u : buf) : buf := map Some (le_bytes 8 c) ++ skipn 8 u.
  Definition read_cap (u : buf) : outcome N :=
    let! _ := defined (8 <=? length u)%nat in
    let! bs := chars (firstn 8 u) in Ok (le_load bs).

  (* :749 _is_short, :38 capacity; what _data points to *)
  Definition is_short (s : sbo) : bool := match loc s with LSbo => true | _ => false end.
  Definition capacity (s : sbo) : outcome N := if is_short s then Ok sc else read_cap (un s).
  Definition buffer (s : sbo) : outcome buf := match loc s with LSbo => Ok (un s) | LHeap b => Ok b | LNull => UB end.
  (* the string after its characters became b and its size n; _data unchanged *)
  Definition put (s : sbo) (b : buf) (n : N) : sbo :=
    match loc s with LSbo => mkS LSbo n b | LHeap _ => mkS (LHeap b) n (un s) | LNull => s end.
  (* delete[] the old heap block if any; _data = b, _size = n, _capacity = c *)
  Definition set_heap (s : sbo) (b : buf) (n c : N) : sbo := mkS (LHeap b) n (write_cap c (un s)).

  (* :77-82 *)
  Definition sinit : sbo := mkS LSbo 0 zeros.
  (* :88-121 from characters *)
  Definition of_chars (l : list N) : outcome sbo :=
    let n := N.of_nat (length l) in
    let s := (if n <=? sc then mkS LSbo n zeros else mkS (LHeap (fresh (wadd 64 n 1))) n (write_cap n zeros)) in
    let! b := buffer s in
    let! b := bwrite b 0 (map Some l) in
    let! b := bset b n 0 in Ok (put s b n).

  (* :751-763 _reserve_force *)
  Definition reserve_force (s : sbo) (nc : N) : outcome sbo :=
    let! b := buffer s in
    let! old := bread b 0 (wadd 64 (ssz s) 1) in
    let! nb := bwrite (fresh (wadd 64 nc 1)) 0 old in
    Ok (set_heap s nb (ssz s) nc).
  (* :254-260 reserve *)
  Definition reserve (s : sbo) (n : N) : outcome sbo :=
    let! c := capacity s in if n <=? c then Ok s else reserve_force s n.
  (* :123-130 uninitialized *)
  Definition uninitialized (n : N) : outcome sbo :=
    let! s := reserve sinit n in
    let! b := buffer s in
    let! b := bset b n 0 in Ok (put s b n).

  (* :244-252 push_back, operator+=(char) :661-665, _grow :765 *)
  Definition push_back (s : sbo) (c : N) : outcome sbo :=
    let! cap := capacity s in
    let! s := (if ssz s =? cap then reserve_force s (wrap 64 (N.shiftl cap 1)) else Ok s) in
    let! b := buffer s in
    let! b := bset b (ssz s) c in
    let n := wadd 64 (ssz s) 1 in
    let! b := bset b n 0 in Ok (put s b n).
  (* :262-268 pop_back *)
  Definition pop_back (s : sbo) : outcome sbo :=
    let! _ := contract (negb (ssz s =? 0)) in
    let n := wsub 64 (ssz s) 1 in
    let! b := buffer s in
    let! b := bset b n 0 in Ok (put s b n).
  (* :270-279 resize; memset writes new_size - _size bytes *)
  Definition resize (s : sbo) (n c : N) : outcome sbo :=
    let! s := reserve s n in
    let! b := buffer s in
    let! b := (if ssz s <? n then bwrite b (ssz s) (repeat (Some c) (N.to_nat (n - ssz s))) else Ok b) in
    let! b := bset b n 0 in Ok (put s b n).
  (* :281-289 clear *)
  Definition clear (s : sbo) : sbo := mkS LSbo 0 (write_cap 0 (un s)).
  (* :291-321 shrink_to_fit *)
  Definition shrink_to_fit (s : sbo) : outcome sbo :=
    if is_short s then Ok s else
    let n := ssz s in
    let! c := capacity s in
    if n =? c then Ok s
    else if n <=? sc then
      let! b := buffer s in
      let! old := bread b 0 (wadd 64 n 1) in
      let! u := bwrite (un s) 0 old in Ok (mkS LSbo n u)
    else
      let! b := buffer s in
      let! old := bread b 0 (wadd 64 n 1) in
      let! nb := bwrite (fresh (wadd 64 n 1)) 0 old in Ok (set_heap s nb n n).
  (* :132-137 filled *)
  Definition filled (n c : N) : outcome sbo := resize sinit n c.

  (* :345-366 fill; None is the default argument dynamic_size *)
  Definition fill (s : sbo) (c : N) (n : option N) : outcome sbo :=
    let n := match n with Some n => n | None => SIZE_MAX end in
    let! cap := capacity s in
    let! s :=
      (if n <=? cap then let! b := buffer s in let! b := bset b n 0 in Ok (put s b n)
       else if negb (n =? SIZE_MAX) then
         let! _ := contract (sc <=? n) in
         let! b := bset (fresh (wadd 64 n 1)) n 0 in Ok (set_heap s b n n)
       else Ok s) in
    let! b := buffer s in
    let! b := fill_up (N.to_nat (ssz s)) 0 c b in Ok (put s b (ssz s)).

  (* :368-381 to_lower, to_upper, :610-619 replaced(char, char): f on every character *)
  Definition mapped (f : N -> N) (s : sbo) : outcome sbo :=
    let! r := uninitialized (ssz s) in
    let! src := buffer s in
    let! dst := buffer r in
    let! b := map_up f (N.to_nat (ssz s)) 0 src dst in Ok (put r b (ssz r)).
  (* :382-388 capitalize *)
  Definition capitalize (s : sbo) : outcome sbo :=
    let! b := buffer s in
    let! b := (if 0 <? ssz s then let! c := bget b 0 in bset b 0 (to_upper c) else Ok b) in
    let! b := map_own to_lower (N.to_nat (ssz s) - 1) 1 b in Ok (put s b (ssz s)).
  (* :389-397 capitalized *)
  Definition capitalized (s : sbo) : outcome sbo :=
    let! r := uninitialized (ssz s) in
    let! src := buffer s in
    let! dst := buffer r in
    let! dst := (if 0 <? ssz s then let! c := bget src 0 in bset dst 0 (to_upper c) else Ok dst) in
    let! dst := map_up to_lower (N.to_nat (ssz s) - 1) 1 src dst in Ok (put r dst (ssz r)).
  (* :529-534 replace(char, char) *)
  Definition replace_char (s : sbo) (old new : N) : outcome sbo :=
    let! b := buffer s in
    let! b := map_own (fun c => if c =? old then new else c) (N.to_nat (ssz s)) 0 b in Ok (put s b (ssz s)).

  (* string_view(_data, _size) *)
  Definition view_of (s : sbo) : outcome view :=
    let! b := buffer s in
    let! bs := bread b 0 (ssz s) in
    let! l := chars bs in Ok (of_list l).

  (* :399-421 remove_prefix, remove_suffix *)
  Definition remove_prefix (s : sbo) (n : N) : outcome sbo :=
    let! _ := contract (n <=? ssz s) in
    let! b := buffer s in
    let! b := copy_up (N.to_nat (ssz s - n)) 0 n b in Ok (put s b (wsub 64 (ssz s) n)).
  Definition remove_prefix_str (s : sbo) (l : list N) : outcome sbo :=
    let! v := view_of s in
    let! ok := starts_with v (of_list l) in
    let! _ := contract ok in remove_prefix s (N.of_nat (length l)).
  Definition remove_suffix (s : sbo) (n : N) : outcome sbo :=
    let! _ := contract (n <=? ssz s) in
    let! b := buffer s in Ok (put s b (wsub 64 (ssz s) n)).
  Definition remove_suffix_str (s : sbo) (l : list N) : outcome sbo :=
    let! v := view_of s in
    let! ok := ends_with v (of_list l) in
    let! _ := contract ok in
    let! b := buffer s in Ok (put s b (wsub 64 (ssz s) (N.of_nat (length l)))).

  (* :431-445 trim_start *)
  Definition trim_start (s : sbo) (p : N -> bool) : outcome sbo :=
    let! b := buffer s in
    let! n := scan_up p (N.to_nat (ssz s)) 0 b in
    if n =? 0 then Ok s else
    let! b := copy_up (N.to_nat (ssz s - n)) 0 n b in
    let m := wsub 64 (ssz s) n in
    let! b := bset b m 0 in Ok (put s b m).
  (* :449-455 trim_end *)
  Definition trim_end (s : sbo) (p : N -> bool) : outcome sbo :=
    let! b := buffer s in
    let! m := scan_down p (N.to_nat (ssz s)) 0 b in
    let! b := bset b m 0 in Ok (put s b m).
  (* :459-472 trim *)
  Definition trim (s : sbo) (p : N -> bool) : outcome sbo :=
    let! b := buffer s in
    let! n := scan_up p (N.to_nat (ssz s)) 0 b in
    let! m := scan_down p (N.to_nat (wsub 64 (ssz s) n)) n b in
    let! b := copy_up (N.to_nat m) 0 n b in
    let! b := bset b m 0 in Ok (put s b m).

  (* :500-514 pad_start *)
  Definition pad_start (s : sbo) (n c : N) : outcome sbo :=
    if n <=? ssz s then Ok s else
    let! s := reserve s n in
    let! b := buffer s in
    let! b := copy_down (N.to_nat (ssz s)) n (ssz s) b in
    let! b := fill_up (N.to_nat (n - ssz s)) 0 c b in
    let! b := bset b n 0 in Ok (put s b n).
  (* :515-527 pad_end *)
  Definition pad_end (s : sbo) (n c : N) : outcome sbo :=
    if n <=? ssz s then Ok s else
    let! s := reserve s n in
    let! b := buffer s in
    let! b := fill_up (N.to_nat (n - ssz s)) (ssz s) c b in
    let! b := bset b n 0 in Ok (put s b n).

  (* :535-588 replace(pos, count, replacement) *)
  Definition replace (s : sbo) (pos cnt : N) (a : sarg) : outcome sbo :=
    let! _ := contract (pos <=? ssz s) in
    let! _ := contract (wadd 64 pos cnt <=? ssz s) in
    let! b := buffer s in
    let r := slen a in
    if cnt =? r then let! b := memcpy_in b pos a in Ok (put s b (ssz s)) else
    let new_size := wadd 64 (wsub 64 (ssz s) cnt) r in
    let tail := wsub 64 (wsub 64 (ssz s) cnt) pos in
    let! cap := capacity s in
    if cap <? new_size then
      let nc := wrap 64 (N.shiftl cap 1) in
      let nc := (if nc <? new_size then new_size else nc) in
      let nb := fresh (wadd 64 nc 1) in
      let! x := bread b 0 pos in
      let! nb := bwrite nb 0 x in
      let! x := sread b a in
      let! nb := bwrite nb pos x in
      let! x := bread b (wadd 64 pos cnt) tail in
      let! nb := bwrite nb (wadd 64 pos r) x in
      let! nb := bset nb new_size 0 in
      Ok (set_heap s nb new_size nc)
    else
      let! b := (if cnt <? r then copy_down (N.to_nat tail) new_size (ssz s) b
                 else copy_up (N.to_nat tail) (wadd 64 pos r) (wadd 64 pos cnt) b) in
      let! b := memcpy_in b pos a in
      let! b := bset b new_size 0 in Ok (put s b new_size).
  (* :655 insert *)
  Definition insert (s : sbo) (pos : N) (a : sarg) : outcome sbo := replace s pos 0 a.
  (* :596-607 loop of replace(old, replacement) *)
  Fixpoint replace_loop (fuel : nat) (s : sbo) (i : N) (old new : list N) : outcome sbo :=
    match fuel with
    | O => OutOfFuel
    | S fuel =>
        let os := N.of_nat (length old) in
        if wadd 64 i os <=? ssz s then
          let! v := view_of s in
          let! w := subview v i os in
          let! hit := veq w (of_list old) in
          if hit then
            let! s := replace s i os (SVal new) in replace_loop fuel s (wadd 64 i (N.of_nat (length new))) old new
          else replace_loop fuel s (wadd 64 i 1) old new
        else Ok s
    end.
  (* :589-608 *)
  Definition replace_all (s : sbo) (old new : list N) : outcome sbo :=
    let! _ := contract (negb (N.of_nat (length old) =? 0)) in
    if ssz s <? N.of_nat (length old) then Ok s
    else replace_loop (S (N.to_nat (ssz s))) s 0 old new.

  (* :666-701 operator+=(string_view) *)
  Definition append (s : sbo) (a : sarg) : outcome sbo :=
    let new_size := wadd 64 (ssz s) (slen a) in
    let! cap := capacity s in
    let! b := buffer s in
    if new_size <=? cap then
      let! b := memcpy_in b (ssz s) a in
      let! b := bset b new_size 0 in Ok (put s b new_size)
    else
      let! _ := contract (sc <=? cap) in
      let nc := wrap 64 (N.shiftl cap 1) in
      let nc := (if nc <? new_size then new_size else nc) in
      let! x := bread b 0 (ssz s) in
      let! nb := bwrite (fresh (wadd 64 nc 1)) 0 x in
      let! x := sread b a in
      let! nb := bwrite nb (ssz s) x in
      let! nb := bset nb new_size 0 in
      Ok (set_heap s nb new_size nc).

  (* :620-629 replaced(pos, count, replacement) *)
  Definition replaced (s : sbo) (pos cnt : N) (a : sarg) : outcome sbo :=
    let! _ := contract (pos <=? ssz s) in
    let! _ := contract (wadd 64 pos cnt <=? ssz s) in
    let! b := buffer s in
    let! r := uninitialized (wadd 64 (wsub 64 (ssz s) cnt) (slen a)) in
    let! d := buffer r in
    let! x := bread b 0 pos in
    let! d := bwrite d 0 x in
    let! x := sread b a in
    let! d := bwrite d pos x in
    let! x := bread b (wadd 64 pos cnt) (wsub 64 (wsub 64 (ssz s) cnt) pos) in
    let! d := bwrite d (wadd 64 pos (slen a)) x in Ok (put r d (ssz r)).
  (* :636-652 loop of replaced(old, replacement) *)
  Fixpoint replaced_loop (fuel : nat) (s r : sbo) (i : N) (old new : list N) : outcome sbo :=
    match fuel with
    | O => OutOfFuel
    | S fuel =>
        if i <? ssz s then
          let! v := view_of s in
          let! hit := veq (subview_clamped v i (N.of_nat (length old))) (of_list old) in
          if hit then
            let! r := append r (SVal new) in replaced_loop fuel s r (wadd 64 i (N.of_nat (length old))) old new
          else
            let! b := buffer s in
            let! c := bget b i in
            let! r := push_back r c in replaced_loop fuel s r (wadd 64 i 1) old new
        else Ok r
    end.

  (* :139-162 copy constructor *)
  Definition copy_ctor (rhs : sbo) : outcome sbo :=
    if is_short rhs then Ok (mkS LSbo (ssz rhs) (un rhs))
    else
      let! b := buffer rhs in
      let! x := bread b 0 (wadd 64 (ssz rhs) 1) in
      if ssz rhs <=? sc then
        let! u := bwrite zeros 0 x in Ok (mkS LSbo (ssz rhs) u)
      else
        let! nb := bwrite (fresh (wadd 64 (ssz rhs) 1)) 0 x in
        Ok (mkS (LHeap nb) (ssz rhs) (write_cap (ssz rhs) zeros)).
  (* :181-210 copy assignment from another string *)
  Definition copy_assign (s rhs : sbo) : outcome sbo :=
    if is_short rhs then Ok (mkS LSbo (ssz rhs) (un rhs))
    else
      let! b := buffer rhs in
      let! x := bread b 0 (wadd 64 (ssz rhs) 1) in
      if ssz rhs <=? sc then
        let! u := bwrite (un s) 0 x in Ok (mkS LSbo (ssz rhs) u)
      else
        let! nb := bwrite (fresh (wadd 64 (ssz rhs) 1)) 0 x in
        Ok (set_heap s nb (ssz rhs) (ssz rhs)).
  (* :163-179 move constructor: (new string, source afterwards).  _capacity is copied even when rhs._data is null *)
  Definition move_ctor (rhs : sbo) : outcome (sbo * sbo) :=
    if is_short rhs then Ok (mkS LSbo (ssz rhs) (un rhs), rhs)
    else
      let! c := read_cap (un rhs) in
      Ok (mkS (loc rhs) (ssz rhs) (write_cap c zeros), mkS LNull (ssz rhs) (un rhs)).
  (* :211-234 move assignment from another string: (this, source afterwards) *)
  Definition move_assign (s rhs : sbo) : outcome (sbo * sbo) :=
    let u := (if is_short s then un s else write_cap 0 (un s)) in
    if is_short rhs then Ok (mkS LSbo (ssz rhs) (un rhs), rhs)
    else
      let! c := read_cap (un rhs) in
      Ok (mkS (loc rhs) (ssz rhs) (write_cap c u), mkS LNull (ssz rhs) (un rhs)).
  (* the same with this == &rhs: the heap block is gone before rhs is looked at, which then is short *)
  Definition self_move_assign (s : sbo) : sbo :=
    if is_short s then s else mkS LSbo (ssz s) (write_cap 0 (un s)).

  (* :730-737 char + string, :738-745 string_view + string *)
  Definition concat_front (l : list N) (rhs : sbo) : outcome sbo :=
    let! r := uninitialized (wadd 64 (N.of_nat (length l)) (ssz rhs)) in
    let! d := buffer r in
    let! d := bwrite d 0 (map Some l) in
    let! b := buffer rhs in
    let! x := bread b 0 (ssz rhs) in
    let! d := bwrite d (N.of_nat (length l)) x in Ok (put r d (ssz r)).

  (* :42-73 *)
  Definition get (s : sbo) (i : N) : outcome N :=
    let! _ := contract (i <? ssz s) in let! b := buffer s in bget b i.
  Definition set_at (s : sbo) (i c : N) : outcome sbo :=
    let! _ := contract (i <? ssz s) in
    let! b := buffer s in let! b := bset b i c in Ok (put s b (ssz s)).
  Definition front (s : sbo) : outcome N :=
    let! _ := contract (0 <? ssz s) in let! b := buffer s in bget b 0.
  Definition back (s : sbo) : outcome N :=
    let! _ := contract (0 <? ssz s) in let! b := buffer s in bget b (wsub 64 (ssz s) 1).
  (* strlen(s.c_str()) *)
  Fixpoint strlen_from (fuel : nat) (b : buf) (i : N) : outcome N :=
    match fuel with
    | O => OutOfFuel
    | S fuel => let! c := bget b i in if c =? 0 then Ok i else strlen_from fuel b (i + 1)
    end.
  Definition c_strlen (s : sbo) : outcome N := let! b := buffer s in strlen_from (S (length b)) b 0.
  (* the characters seen through begin() .. end() *)
  Definition contents (s : sbo) : outcome (list N) :=
    let! b := buffer s in let! bs := bread b 0 (ssz s) in chars bs.

  (* ---- histories ---- *)
  Inductive op :=
  | PushBack (c : N) | Append (l : list N) | AppendOwn (o n : N) | PopBack | Resize (n c : N) | Reserve (n : N) | Clear
  | ShrinkToFit | Fill (c : N) (n : option N) | Capitalize | ReplaceChar (old new : N)
  | RemovePrefix (n : N) | RemovePrefixStr (l : list N) | RemoveSuffix (n : N) | RemoveSuffixStr (l : list N)
  | TrimStart (p : N -> bool) | TrimEnd (p : N -> bool) | Trim (p : N -> bool)
  | PadStart (n c : N) | PadEnd (n c : N) | Replace (pos cnt : N) (l : list N) | Insert (pos : N) (l : list N)
  | ReplaceAll (old new : list N) | Get (i : N) | SetAt (i c : N) | Front | Back | Size.
  Inductive res := RUnit | RC (c : N).
  Definition ru (o : outcome sbo) : outcome (sbo * res) := let! s := o in Ok (s, RUnit).
  Definition rc (s : sbo) (o : outcome N) : outcome (sbo * res) := let! c := o in Ok (s, RC c).
  Definition step (s : sbo) (o : op) : outcome (sbo * res) :=
    match o with
    | PushBack c => ru (push_back s c)
    | Append l => ru (append s (SVal l))
    | AppendOwn o n => ru (append s (SOwn o n))
    | PopBack => ru (pop_back s)
    | Resize n c => ru (resize s n c)
    | Reserve n => ru (reserve s n)
    | Clear => Ok (clear s, RUnit)
    | ShrinkToFit => ru (shrink_to_fit s)
    | Fill c n => ru (fill s c n)
    | Capitalize => ru (capitalize s)
    | ReplaceChar a b => ru (replace_char s a b)
    | RemovePrefix n => ru (remove_prefix s n)
    | RemovePrefixStr l => ru (remove_prefix_str s l)
    | RemoveSuffix n => ru (remove_suffix s n)
    | RemoveSuffixStr l => ru (remove_suffix_str s l)
    | TrimStart p => ru (trim_start s p)
    | TrimEnd p => ru (trim_end s p)
    | Trim p => ru (trim s p)
    | PadStart n c => ru (pad_start s n c)
    | PadEnd n c => ru (pad_end s n c)
    | Replace pos cnt l => ru (replace s pos cnt (SVal l))
    | Insert pos l => ru (insert s pos (SVal l))
    | ReplaceAll old new => ru (replace_all s old new)
    | Get i => rc s (get s i)
    | SetAt i c => ru (set_at s i c)
    | Front => rc s (front s)
    | Back => rc s (back s)
    | Size => Ok (s, RC (ssz s))
    end.

  (* operations on a store of strings; None is a destroyed one, naming a string that does not exist is UB *)
  Inductive wop :=
  | On (k : nat) (o : op) | New | NewFrom (l : list N) | NewFilled (n c : N) | CopyNew (k : nat) | MoveNew (k : nat)
  | CopyAssign (k j : nat) | MoveAssign (k j : nat) | Destroy (k : nat)
  | NewMapped (f : N -> N) (k : nat) | NewCapitalized (k : nat) | NewReplaced (k : nat) (pos cnt : N) (l : list N)
  | NewReplacedAll (k : nat) (old new : list N) | NewConcat (l : list N) (k : nat).
  Definition world := list (option sbo).
  Definition gets (w : world) (k : nat) : outcome sbo := match nth_error w k with Some (Some s) => Ok s | _ => UB end.
  Definition added (w : world) (o : outcome sbo) : outcome (world * res) := let! s := o in Ok (w ++ [Some s], RUnit).
  Definition wstep (w : world) (o : wop) : outcome (world * res) :=
    match o with
    | On k o => let! s := gets w k in let! (s, r) := step s o in Ok (lset w k (Some s), r)
    | New => added w (Ok sinit)
    | NewFrom l => added w (of_chars l)
    | NewFilled n c => added w (filled n c)
    | CopyNew k => let! s := gets w k in added w (copy_ctor s)
    | MoveNew k => let! s := gets w k in let! (n, s) := move_ctor s in Ok (lset w k (Some s) ++ [Some n], RUnit)
    | CopyAssign k j =>
        let! s := gets w k in let! rhs := gets w j in
        if (k =? j)%nat then Ok (w, RUnit) else let! s := copy_assign s rhs in Ok (lset w k (Some s), RUnit)
    | MoveAssign k j =>
        let! s := gets w k in let! rhs := gets w j in
        if (k =? j)%nat then Ok (lset w k (Some (self_move_assign s)), RUnit)
        else let! (s, rhs) := move_assign s rhs in Ok (lset (lset w k (Some s)) j (Some rhs), RUnit)
    | Destroy k => let! _ := gets w k in Ok (lset w k None, RUnit) (* delete[] of nullptr is fine *)
    | NewMapped f k => let! s := gets w k in added w (mapped f s)
    | NewCapitalized k => let! s := gets w k in added w (capitalized s)
    | NewReplaced k pos cnt l => let! s := gets w k in added w (replaced s pos cnt (SVal l))
    | NewReplacedAll k old new => (* :630-653 *)
        let! s := gets w k in
        let! _ := contract (negb (N.of_nat (length old) =? 0)) in
        if ssz s <? N.of_nat (length old) then added w (copy_ctor s)
        else added w (replaced_loop (S (N.to_nat (ssz s))) s sinit 0 old new)
    | NewConcat l k => let! s := gets w k in added w (concat_front l s)
    end.
  Fixpoint wrun (w : world) (os : list wop) : outcome (world * list res) :=
    match os with
    | [] => Ok (w, [])
    | o :: os => let! (w, r) := wstep w o in let! (w, rs) := wrun w os in Ok (w, r :: rs)
    end.
End Sbo.

(* Model of the memory of src/clean-core/sbo_string.hh: several strings over one heap.  SboModel.v keeps the characters
   of a long string inside the string; here _data is a pointer to a block of the heap, a block is freed by delete[], and
   reading, writing or deleting a freed block is UB.  Blocks are named by position and never reused.
   Functions that neither allocate nor delete are those of SboModel.v, run on the bytes _data points to (in_place).
   Simplification: a new block enters the heap with the bytes written into it before it becomes _data. *)
From Coq Require Import NArith Arith List Bool.
From Verif Require Import Base Sha1Model StrModel SboModel.
Import ListNotations.
Open Scope N_scope.

Definition heap := list (option buf). (* None: freed *)
Inductive hptr := PSbo | PBlk (b : nat) | PNull.
Record hstr := mkH { hp : hptr; hsz : N; hun : buf }.

Definition block (h : heap) (b : nat) : outcome buf :=
  match nth_error h b with Some (Some x) => Ok x | _ => UB end.
(* new char[] with bytes x; delete[] p *)
Definition alloc (h : heap) (x : buf) : heap * nat := (h ++ [Some x], length h).
Definition delete (h : heap) (p : hptr) : outcome heap :=
  match p with
  | PNull => Ok h
  | PBlk b => let! _ := block h b in Ok (lset h b None)
  | PSbo => UB
  end.
(* :749 _is_short; if (!_is_short()) delete[] _data *)
Definition hshort (s : hstr) : bool := match hp s with PSbo => true | _ => false end.
Definition free (h : heap) (s : hstr) : outcome heap := if hshort s then Ok h else delete h (hp s).

(* the string as SboModel sees it, and writing back what a function did that leaves _data alone *)
Definition load (h : heap) (s : hstr) : outcome sbo :=
  match hp s with
  | PSbo => Ok (mkS LSbo (hsz s) (hun s))
  | PBlk b => let! x := block h b in Ok (mkS (LHeap x) (hsz s) (hun s))
  | PNull => Ok (mkS LNull (hsz s) (hun s))
  end.
Definition store (h : heap) (s : hstr) (v : sbo) : outcome (heap * hstr) :=
  match hp s, loc v with
  | PSbo, LSbo => Ok (h, mkH PSbo (ssz v) (un v))
  | PBlk b, LHeap x => let! _ := block h b in Ok (lset h b (Some x), mkH (PBlk b) (ssz v) (un v))
  | _, _ => UB
  end.
Definition in_place (f : sbo -> outcome sbo) (h : heap) (s : hstr) : outcome (heap * hstr) :=
  let! v := load h s in let! v := f v in store h s v.

(* a string_view argument: characters elsewhere, own characters, characters of another string *)
Inductive harg := HVal (l : list N) | HOwn (o n : N) | HOther (x : hstr) (o n : N).
Definition hlen (a : harg) : N := match a with HVal l => N.of_nat (length l) | HOwn _ n => n | HOther _ _ n => n end.

Section SHeap.
  Variable sc : N. (* sbo_capacity *)

  Definition hcap (s : hstr) : outcome N := if hshort s then Ok sc else read_cap (hun s).
  Definition hbuf (h : heap) (s : hstr) : outcome buf :=
    match hp s with PSbo => Ok (hun s) | PBlk b => block h b | PNull => UB end.
  (* the bytes a view denotes; memcpy of them into the own buffer b at dst *)
  Definition hread (h : heap) (b : buf) (a : harg) : outcome buf :=
    match a with
    | HVal l => Ok (map Some l)
    | HOwn o n => bread b o n
    | HOther x o n => let! c := hbuf h x in bread c o n
    end.
  Definition hmemcpy (h : heap) (b : buf) (dst : N) (a : harg) : outcome buf :=
    match a with
    | HOwn o n => memcpy_in b dst (SOwn o n)
    | _ => let! x := hread h b a in bwrite b dst x
    end.
  (* _data of a string that stays where it is gets the bytes b, _size n *)
  Definition hput (h : heap) (s : hstr) (b : buf) (n : N) : outcome (heap * hstr) :=
    match hp s with
    | PSbo => Ok (h, mkH PSbo n b)
    | PBlk k => let! _ := block h k in Ok (lset h k (Some b), mkH (PBlk k) n (hun s))
    | PNull => UB
    end.
  (* the new block x; if (!_is_short()) delete[] _data; _size = n; _data = new block; _capacity = c *)
  Definition adopt (h : heap) (s : hstr) (x : buf) (n c : N) : outcome (heap * hstr) :=
    let (h, b) := alloc h x in
    let! h := free h s in Ok (h, mkH (PBlk b) n (write_cap c (hun s))).

  (* :77-82 *)
  Definition hinit : hstr := mkH PSbo 0 (zeros sc).
  (* :88-121 *)
  Definition hof_chars (h : heap) (l : list N) : outcome (heap * hstr) :=
    let n := N.of_nat (length l) in
    let (h, s) := (if n <=? sc then (h, mkH PSbo n (zeros sc))
                   else let (h, b) := alloc h (fresh (wadd 64 n 1)) in (h, mkH (PBlk b) n (write_cap n (zeros sc)))) in
    let! b := hbuf h s in
    let! b := bwrite b 0 (map Some l) in
    let! b := bset b n 0 in hput h s b n.
  (* :236-240 *)
  Definition hdestroy (h : heap) (s : hstr) : outcome heap := free h s.
  (* :751-763, :254-260, :765 *)
  Definition hreserve_force (h : heap) (s : hstr) (nc : N) : outcome (heap * hstr) :=
    let! b := hbuf h s in
    let! old := bread b 0 (wadd 64 (hsz s) 1) in
    let! nb := bwrite (fresh (wadd 64 nc 1)) 0 old in adopt h s nb (hsz s) nc.
  Definition hreserve (h : heap) (s : hstr) (n : N) : outcome (heap * hstr) :=
    let! c := hcap s in if n <=? c then Ok (h, s) else hreserve_force h s n.
  (* :123-130 *)
  Definition huninitialized (h : heap) (n : N) : outcome (heap * hstr) :=
    let! (h, s) := hreserve h hinit n in
    let! b := hbuf h s in
    let! b := bset b n 0 in hput h s b n.
  (* :244-252 *)
  Definition hpush_back (h : heap) (s : hstr) (c : N) : outcome (heap * hstr) :=
    let! cap := hcap s in
    let! (h, s) := (if hsz s =? cap then hreserve_force h s (wrap 64 (N.shiftl cap 1)) else Ok (h, s)) in
    let! b := hbuf h s in
    let! b := bset b (hsz s) c in
    let n := wadd 64 (hsz s) 1 in
    let! b := bset b n 0 in hput h s b n.
  (* :270-279 *)
  Definition hresize (h : heap) (s : hstr) (n c : N) : outcome (heap * hstr) :=
    let! (h, s) := hreserve h s n in
    let! b := hbuf h s in
    let! b := (if hsz s <? n then bwrite b (hsz s) (repeat (Some c) (N.to_nat (n - hsz s))) else Ok b) in
    let! b := bset b n 0 in hput h s b n.
  Definition hfilled (h : heap) (n c : N) : outcome (heap * hstr) := hresize h hinit n c. (* :132-137 *)
  (* :281-289 *)
  Definition hclear (h : heap) (s : hstr) : outcome (heap * hstr) :=
    let! h := free h s in Ok (h, mkH PSbo 0 (write_cap 0 (hun s))).
  (* :291-321 *)
  Definition hshrink (h : heap) (s : hstr) : outcome (heap * hstr) :=
    if hshort s then Ok (h, s) else
    let n := hsz s in
    let! c := hcap s in
    if n =? c then Ok (h, s)
    else if n <=? sc then
      let! b := hbuf h s in
      let! old := bread b 0 (wadd 64 n 1) in
      let! u := bwrite (hun s) 0 old in
      let! h := free h s in Ok (h, mkH PSbo n u)
    else
      let! b := hbuf h s in
      let! old := bread b 0 (wadd 64 n 1) in
      let! nb := bwrite (fresh (wadd 64 n 1)) 0 old in adopt h s nb n n.
  (* :345-366; here delete[] comes before new *)
  Definition hfill (h : heap) (s : hstr) (c : N) (n : option N) : outcome (heap * hstr) :=
    let n := match n with Some n => n | None => SIZE_MAX end in
    let! cap := hcap s in
    let! (h, s) :=
      (if n <=? cap then let! b := hbuf h s in let! b := bset b n 0 in hput h s b n
       else if negb (n =? SIZE_MAX) then
         let! h := free h s in
         let! _ := contract (sc <=? n) in
         let! b := bset (fresh (wadd 64 n 1)) n 0 in
         let (h, k) := alloc h b in Ok (h, mkH (PBlk k) n (write_cap n (hun s)))
       else Ok (h, s)) in
    let! b := hbuf h s in
    let! b := fill_up (N.to_nat (hsz s)) 0 c b in hput h s b (hsz s).
  (* :500-514, :515-527 *)
  Definition hpad_start (h : heap) (s : hstr) (n c : N) : outcome (heap * hstr) :=
    if n <=? hsz s then Ok (h, s) else
    let! (h, s) := hreserve h s n in
    let! b := hbuf h s in
    let! b := copy_down (N.to_nat (hsz s)) n (hsz s) b in
    let! b := fill_up (N.to_nat (n - hsz s)) 0 c b in
    let! b := bset b n 0 in hput h s b n.
  Definition hpad_end (h : heap) (s : hstr) (n c : N) : outcome (heap * hstr) :=
    if n <=? hsz s then Ok (h, s) else
    let! (h, s) := hreserve h s n in
    let! b := hbuf h s in
    let! b := fill_up (N.to_nat (n - hsz s)) (hsz s) c b in
    let! b := bset b n 0 in hput h s b n.
  (* :535-588 *)
  Definition hreplace (h : heap) (s : hstr) (pos cnt : N) (a : harg) : outcome (heap * hstr) :=
    let! _ := contract (pos <=? hsz s) in
    let! _ := contract (wadd 64 pos cnt <=? hsz s) in
    let! b := hbuf h s in
    let r := hlen a in
    if cnt =? r then let! b := hmemcpy h b pos a in hput h s b (hsz s) else
    let new_size := wadd 64 (wsub 64 (hsz s) cnt) r in
    let tail := wsub 64 (wsub 64 (hsz s) cnt) pos in
    let! cap := hcap s in
    if cap <? new_size then
      let nc := wrap 64 (N.shiftl cap 1) in
      let nc := (if nc <? new_size then new_size else nc) in
      let nb := fresh (wadd 64 nc 1) in
      let! x := bread b 0 pos in
      let! nb := bwrite nb 0 x in
      let! x := hread h b a in
      let! nb := bwrite nb pos x in
      let! x := bread b (wadd 64 pos cnt) tail in
      let! nb := bwrite nb (wadd 64 pos r) x in
      let! nb := bset nb new_size 0 in adopt h s nb new_size nc
    else
      let! b := (if cnt <? r then copy_down (N.to_nat tail) new_size (hsz s) b
                 else copy_up (N.to_nat tail) (wadd 64 pos r) (wadd 64 pos cnt) b) in
      let! b := hmemcpy h b pos a in
      let! b := bset b new_size 0 in hput h s b new_size.
  (* :589-608 *)
  Fixpoint hreplace_loop (fuel : nat) (h : heap) (s : hstr) (i : N) (old new : list N) : outcome (heap * hstr) :=
    match fuel with
    | O => OutOfFuel
    | S fuel =>
        let os := N.of_nat (length old) in
        if wadd 64 i os <=? hsz s then
          let! x := load h s in
          let! v := view_of x in
          let! w := subview v i os in
          let! hit := veq w (of_list old) in
          if hit then
            let! (h, s) := hreplace h s i os (HVal new) in
            hreplace_loop fuel h s (wadd 64 i (N.of_nat (length new))) old new
          else hreplace_loop fuel h s (wadd 64 i 1) old new
        else Ok (h, s)
    end.
  Definition hreplace_all (h : heap) (s : hstr) (old new : list N) : outcome (heap * hstr) :=
    let! _ := contract (negb (N.of_nat (length old) =? 0)) in
    if hsz s <? N.of_nat (length old) then Ok (h, s)
    else hreplace_loop (S (N.to_nat (hsz s))) h s 0 old new.
  (* :666-701 *)
  Definition happend (h : heap) (s : hstr) (a : harg) : outcome (heap * hstr) :=
    let new_size := wadd 64 (hsz s) (hlen a) in
    let! cap := hcap s in
    let! b := hbuf h s in
    if new_size <=? cap then
      let! b := hmemcpy h b (hsz s) a in
      let! b := bset b new_size 0 in hput h s b new_size
    else
      let! _ := contract (sc <=? cap) in
      let nc := wrap 64 (N.shiftl cap 1) in
      let nc := (if nc <? new_size then new_size else nc) in
      let! x := bread b 0 (hsz s) in
      let! nb := bwrite (fresh (wadd 64 nc 1)) 0 x in
      let! x := hread h b a in
      let! nb := bwrite nb (hsz s) x in
      let! nb := bset nb new_size 0 in adopt h s nb new_size nc.

  (* functions that make a new string out of s *)
  (* :368-381, :610-619 *)
  Definition hmapped (h : heap) (f : N -> N) (s : hstr) : outcome (heap * hstr) :=
    let! (h, r) := huninitialized h (hsz s) in
    let! src := hbuf h s in
    let! dst := hbuf h r in
    let! b := map_up f (N.to_nat (hsz s)) 0 src dst in hput h r b (hsz r).
  (* :389-397 *)
  Definition hcapitalized (h : heap) (s : hstr) : outcome (heap * hstr) :=
    let! (h, r) := huninitialized h (hsz s) in
    let! src := hbuf h s in
    let! dst := hbuf h r in
    let! dst := (if 0 <? hsz s then let! c := bget src 0 in bset dst 0 (to_upper c) else Ok dst) in
    let! dst := map_up to_lower (N.to_nat (hsz s) - 1) 1 src dst in hput h r dst (hsz r).
  (* :620-629 *)
  Definition hreplaced (h : heap) (s : hstr) (pos cnt : N) (l : list N) : outcome (heap * hstr) :=
    let! _ := contract (pos <=? hsz s) in
    let! _ := contract (wadd 64 pos cnt <=? hsz s) in
    let! _ := hbuf h s in
    let! (h, r) := huninitialized h (wadd 64 (wsub 64 (hsz s) cnt) (N.of_nat (length l))) in
    let! b := hbuf h s in
    let! d := hbuf h r in
    let! x := bread b 0 pos in
    let! d := bwrite d 0 x in
    let! d := bwrite d pos (map Some l) in
    let! x := bread b (wadd 64 pos cnt) (wsub 64 (wsub 64 (hsz s) cnt) pos) in
    let! d := bwrite d (wadd 64 pos (N.of_nat (length l))) x in hput h r d (hsz r).
  (* :630-653 *)
  Fixpoint hreplaced_loop (fuel : nat) (h : heap) (s r : hstr) (i : N) (old new : list N) : outcome (heap * hstr) :=
    match fuel with
    | O => OutOfFuel
    | S fuel =>
        if i <? hsz s then
          let! x := load h s in
          let! v := view_of x in
          let! hit := veq (subview_clamped v i (N.of_nat (length old))) (of_list old) in
          if hit then
            let! (h, r) := happend h r (HVal new) in hreplaced_loop fuel h s r (wadd 64 i (N.of_nat (length old))) old new
          else
            let! b := hbuf h s in
            let! c := bget b i in
            let! (h, r) := hpush_back h r c in hreplaced_loop fuel h s r (wadd 64 i 1) old new
        else Ok (h, r)
    end.
  (* :730-745 *)
  Definition hconcat (h : heap) (l : list N) (rhs : hstr) : outcome (heap * hstr) :=
    let! (h, r) := huninitialized h (wadd 64 (N.of_nat (length l)) (hsz rhs)) in
    let! d := hbuf h r in
    let! d := bwrite d 0 (map Some l) in
    let! b := hbuf h rhs in
    let! x := bread b 0 (hsz rhs) in
    let! d := bwrite d (N.of_nat (length l)) x in hput h r d (hsz r).
  (* :139-162 *)
  Definition hcopy (h : heap) (rhs : hstr) : outcome (heap * hstr) :=
    if hshort rhs then Ok (h, mkH PSbo (hsz rhs) (hun rhs))
    else
      let! b := hbuf h rhs in
      let! x := bread b 0 (wadd 64 (hsz rhs) 1) in
      if hsz rhs <=? sc then
        let! u := bwrite (zeros sc) 0 x in Ok (h, mkH PSbo (hsz rhs) u)
      else
        let! nb := bwrite (fresh (wadd 64 (hsz rhs) 1)) 0 x in
        let (h, k) := alloc h nb in Ok (h, mkH (PBlk k) (hsz rhs) (write_cap (hsz rhs) (zeros sc))).
  Definition hreplaced_all (h : heap) (s : hstr) (old new : list N) : outcome (heap * hstr) :=
    let! _ := contract (negb (N.of_nat (length old) =? 0)) in
    if hsz s <? N.of_nat (length old) then hcopy h s
    else hreplaced_loop (S (N.to_nat (hsz s))) h s hinit 0 old new.
  (* :181-210, this != &rhs: the old block is deleted before rhs is read *)
  Definition hcopy_assign (h : heap) (s rhs : hstr) : outcome (heap * hstr) :=
    let! h := free h s in
    if hshort rhs then Ok (h, mkH PSbo (hsz rhs) (hun rhs))
    else
      let! b := hbuf h rhs in
      let! x := bread b 0 (wadd 64 (hsz rhs) 1) in
      if hsz rhs <=? sc then
        let! u := bwrite (hun s) 0 x in Ok (h, mkH PSbo (hsz rhs) u)
      else
        let! nb := bwrite (fresh (wadd 64 (hsz rhs) 1)) 0 x in
        let (h, k) := alloc h nb in Ok (h, mkH (PBlk k) (hsz rhs) (write_cap (hsz rhs) (hun s))).

  (* ---- a store of strings ---- *)
  Definition hworld := (heap * list (option hstr))%type.
  Definition hgets (w : hworld) (k : nat) : outcome hstr := match nth_error (snd w) k with Some (Some s) => Ok s | _ => UB end.
  (* :163-179: the new string is the last one *)
  Definition hmove_new (w : hworld) (k : nat) : outcome hworld :=
    let! s := hgets w k in
    if hshort s then Ok (fst w, snd w ++ [Some (mkH PSbo (hsz s) (hun s))])
    else
      let! c := read_cap (hun s) in
      Ok (fst w, lset (snd w) k (Some (mkH PNull (hsz s) (hun s))) ++ [Some (mkH (hp s) (hsz s) (write_cap c (zeros sc)))]).
  (* :211-234; k and j may be the same string *)
  Definition hmove_assign (w : hworld) (k j : nat) : outcome hworld :=
    let! s := hgets w k in
    let! w := (if hshort s then Ok w
               else let! h := delete (fst w) (hp s) in
                    Ok (h, lset (snd w) k (Some (mkH PSbo (hsz s) (write_cap 0 (hun s)))))) in
    let! rhs := hgets w j in
    let! s := hgets w k in
    if hshort rhs then Ok (fst w, lset (snd w) k (Some (mkH PSbo (hsz rhs) (hun rhs))))
    else
      let! c := read_cap (hun rhs) in
      let hs := lset (snd w) k (Some (mkH (hp rhs) (hsz rhs) (write_cap c (hun s)))) in
      Ok (fst w, lset hs j (Some (mkH PNull (hsz rhs) (hun rhs)))).
  Definition hdestroy_at (w : hworld) (k : nat) : outcome hworld :=
    let! s := hgets w k in let! h := hdestroy (fst w) s in Ok (h, lset (snd w) k None).

  Definition hu (o : outcome (heap * hstr)) : outcome (heap * hstr * res) := let! (h, s) := o in Ok (h, s, RUnit).
  (* Get, Front, Back, Size read only *)
  Definition hq (h : heap) (s : hstr) (f : sbo -> outcome N) : outcome (heap * hstr * res) :=
    let! v := load h s in let! c := f v in Ok (h, s, RC c).
  Definition hstep (h : heap) (s : hstr) (o : op) : outcome (heap * hstr * res) :=
    match o with
    | PushBack c => hu (hpush_back h s c)
    | Append l => hu (happend h s (HVal l))
    | AppendOwn o n => hu (happend h s (HOwn o n))
    | PopBack => hu (in_place pop_back h s)
    | Resize n c => hu (hresize h s n c)
    | Reserve n => hu (hreserve h s n)
    | Clear => hu (hclear h s)
    | ShrinkToFit => hu (hshrink h s)
    | Fill c n => hu (hfill h s c n)
    | Capitalize => hu (in_place capitalize h s)
    | ReplaceChar a b => hu (in_place (fun v => replace_char v a b) h s)
    | RemovePrefix n => hu (in_place (fun v => remove_prefix v n) h s)
    | RemovePrefixStr l => hu (in_place (fun v => remove_prefix_str v l) h s)
    | RemoveSuffix n => hu (in_place (fun v => remove_suffix v n) h s)
    | RemoveSuffixStr l => hu (in_place (fun v => remove_suffix_str v l) h s)
    | TrimStart p => hu (in_place (fun v => trim_start v p) h s)
    | TrimEnd p => hu (in_place (fun v => trim_end v p) h s)
    | Trim p => hu (in_place (fun v => trim v p) h s)
    | PadStart n c => hu (hpad_start h s n c)
    | PadEnd n c => hu (hpad_end h s n c)
    | Replace pos cnt l => hu (hreplace h s pos cnt (HVal l))
    | Insert pos l => hu (hreplace h s pos 0 (HVal l))
    | ReplaceAll old new => hu (hreplace_all h s old new)
    | Get i => hq h s (fun v => get v i)
    | SetAt i c => hu (in_place (fun v => set_at v i c) h s)
    | Front => hq h s front
    | Back => hq h s back
    | Size => Ok (h, s, RC (hsz s))
    end.

  (* s_k += view, s_k.replace(pos, cnt, view), s_k = view, where view is n characters of s_j from o on; s_k = view makes a
     temporary string of the view, which is moved from and destroyed *)
  Inductive hop :=
  | HW (o : wop) | AppendView (k j : nat) (o n : N) | ReplaceView (k : nat) (pos cnt : N) (j : nat) (o n : N)
  | AssignView (k j : nat) (o n : N).
  Definition hadded (w : hworld) (o : outcome (heap * hstr)) : outcome (hworld * res) :=
    let! (h, s) := o in Ok ((h, snd w ++ [Some s]), RUnit).
  Definition harg_of (k j : nat) (s : hstr) (o n : N) : harg := if (k =? j)%nat then HOwn o n else HOther s o n.
  Definition hwstep (w : hworld) (o : hop) : outcome (hworld * res) :=
    match o with
    | HW (On k o) => let! s := hgets w k in let! (h, s, r) := hstep (fst w) s o in Ok ((h, lset (snd w) k (Some s)), r)
    | HW New => hadded w (Ok (fst w, hinit))
    | HW (NewFrom l) => hadded w (hof_chars (fst w) l)
    | HW (NewFilled n c) => hadded w (hfilled (fst w) n c)
    | HW (CopyNew k) => let! s := hgets w k in hadded w (hcopy (fst w) s)
    | HW (MoveNew k) => let! w := hmove_new w k in Ok (w, RUnit)
    | HW (CopyAssign k j) =>
        let! s := hgets w k in let! rhs := hgets w j in
        if (k =? j)%nat then Ok (w, RUnit)
        else let! (h, s) := hcopy_assign (fst w) s rhs in Ok ((h, lset (snd w) k (Some s)), RUnit)
    | HW (MoveAssign k j) => let! w := hmove_assign w k j in Ok (w, RUnit)
    | HW (Destroy k) => let! w := hdestroy_at w k in Ok (w, RUnit)
    | HW (NewMapped f k) => let! s := hgets w k in hadded w (hmapped (fst w) f s)
    | HW (NewCapitalized k) => let! s := hgets w k in hadded w (hcapitalized (fst w) s)
    | HW (NewReplaced k pos cnt l) => let! s := hgets w k in hadded w (hreplaced (fst w) s pos cnt l)
    | HW (NewReplacedAll k old new) => let! s := hgets w k in hadded w (hreplaced_all (fst w) s old new)
    | HW (NewConcat l k) => let! s := hgets w k in hadded w (hconcat (fst w) l s)
    | AppendView k j o n =>
        let! s := hgets w k in let! x := hgets w j in
        let! (h, s) := happend (fst w) s (harg_of k j x o n) in Ok ((h, lset (snd w) k (Some s)), RUnit)
    | ReplaceView k pos cnt j o n =>
        let! s := hgets w k in let! x := hgets w j in
        let! (h, s) := hreplace (fst w) s pos cnt (harg_of k j x o n) in Ok ((h, lset (snd w) k (Some s)), RUnit)
    | AssignView k j o n =>
        let! x := hgets w j in
        let! b := hbuf (fst w) x in
        let! bs := bread b o n in
        let! l := chars bs in
        let! (h, t) := hof_chars (fst w) l in
        let m := length (snd w) in
        let! w := hmove_assign (h, snd w ++ [Some t]) k m in
        let! w := hdestroy_at w m in Ok ((fst w, firstn m (snd w)), RUnit)
    end.
  Fixpoint hwrun (w : hworld) (os : list hop) : outcome (hworld * list res) :=
    match os with
    | [] => Ok (w, [])
    | o :: os => let! (w, r) := hwstep w o in let! (w, rs) := hwrun w os in Ok (w, r :: rs)
    end.

  (* ---- operator new throws std::bad_alloc where delete[] comes first: what is left behind, None if nothing is allocated ---- *)
  Inductive top := TFill (n : N) | TCopyAssign (j : nat).
  Definition hthrow (w : hworld) (k : nat) (t : top) : outcome (option hworld) :=
    let! s := hgets w k in
    match t with
    | TFill n => (* :352-357: _data is the old pointer *)
        let! cap := hcap s in
        if (n <=? cap) || (n =? SIZE_MAX) then Ok None else
        let! h := free (fst w) s in
        let! _ := contract (sc <=? n) in Ok (Some (h, snd w))
    | TCopyAssign j => (* :186-205: _size and _capacity are those of rhs, _data is the old pointer *)
        let! rhs := hgets w j in
        if (k =? j)%nat then Ok None else
        let! h := free (fst w) s in
        if hshort rhs || (hsz rhs <=? sc) then Ok None
        else Ok (Some (h, lset (snd w) k (Some (mkH (hp s) (hsz rhs) (write_cap (hsz rhs) (hun s))))))
    end.
End SHeap.

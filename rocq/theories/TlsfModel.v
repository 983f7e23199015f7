(* Model of src/clean-core/detail/lib/tlsf.cc (two level segregated fit) for a 64-bit target.

   Memory is a partial map from addresses to 64-bit words; only multiples of 8 are ever used as
   addresses. An access to an address outside the map is UB: the map holds the words of the pools
   and the two link fields of control->block_null. fl_bitmap, sl_bitmap and blocks[][] of the control
   structure are kept outside of that map, as tables with a bounds check on every access (UB outside).
   tlsf_assert is assert (tlsf.cc:273-275), modelled as Contract. tlsf_fls / tlsf_ffs are the
   positions of the highest / lowest set bit (tlsf.cc:60-68 uses compiler builtins for these).
   Addresses are natural numbers without wrap around; requested sizes and alignments are 64-bit words
   and do wrap around. printf is dropped. *)
From Coq Require Import NArith List Bool Lia.
From Verif Require Import Base.
Import ListNotations.
Open Scope N_scope.

(* ---- constants, tlsf.cc:214-260, 310-347 ---- *)
Definition SL_INDEX_COUNT_LOG2 : N := 5.
Definition ALIGN_SIZE : N := 8.
Definition FL_INDEX_MAX : N := 32.
Definition SL_INDEX_COUNT : N := 32.
Definition FL_INDEX_SHIFT : N := 8.
Definition FL_INDEX_COUNT : N := 25.
Definition SMALL_BLOCK_SIZE : N := 256.
Definition block_header_overhead : N := 8.
Definition block_start_offset : N := 16.
Definition block_header_size : N := 32.   (* sizeof(block_header_t) *)
Definition block_size_min : N := 24.
Definition block_size_max : N := 2 ^ 32.
Definition control_size : N := 6536.      (* sizeof(control_t), tlsf.cc:351-362 *)

(* ---- size classes ---- *)
(* tlsf.cc:189-202 tlsf_fls_sizet, for a size other than 0 *)
Definition fls (size : N) : N := N.log2 size.
(* tlsf.cc:60 tlsf_ffs of a 32-bit word other than 0 *)
Fixpoint ffs_pos (p : positive) : N :=
  match p with xO q => 1 + ffs_pos q | _ => 0 end.
Definition ffs (w : N) : N := match w with N0 => 0 | Npos p => ffs_pos p end.

(* tlsf.cc:482-499 mapping_insert *)
Definition mapping_insert (size : N) : N * N :=
  if size <? SMALL_BLOCK_SIZE then (0, size / (SMALL_BLOCK_SIZE / SL_INDEX_COUNT))
  else
    let fl := fls size in
    (fl - (FL_INDEX_SHIFT - 1),
     N.lxor (N.shiftr size (fl - SL_INDEX_COUNT_LOG2)) (N.shiftl 1 SL_INDEX_COUNT_LOG2)).
(* tlsf.cc:502-510 mapping_search; the request is at most 2^32, so the int shift is defined *)
Definition mapping_search (size : N) : N * N :=
  mapping_insert
    (if SMALL_BLOCK_SIZE <=? size
     then wadd 64 size (N.shiftl 1 (fls size - SL_INDEX_COUNT_LOG2) - 1) else size).

(* tlsf.cc:438-448 align_up, align_down, 450-455 align_ptr (same arithmetic on addresses) *)
Definition align_up (x align : N) : outcome N :=
  let! _ := contract (N.land align (wsub 64 align 1) =? 0) in
  Ok (N.land (wadd 64 x (wsub 64 align 1)) (wnot 64 (wsub 64 align 1))).
Definition align_down (x align : N) : outcome N :=
  let! _ := contract (N.land align (wsub 64 align 1) =? 0) in
  Ok (wsub 64 x (N.land x (wsub 64 align 1))).
(* tlsf.cc:461-475 adjust_request_size *)
Definition adjust_request_size (size align : N) : outcome N :=
  if size =? 0 then Ok 0
  else
    let! aligned := align_up size align in
    Ok (if aligned <? block_size_max then N.max aligned block_size_min else 0).

(* ---- memory ---- *)
Definition memory := N -> option N.
Definition upd (m : memory) (x v : N) : memory := fun y => if y =? x then Some v else m y.
Definition rd (m : memory) (x : N) : outcome N := match m x with Some v => Ok v | None => UB end.
Definition wr (m : memory) (x v : N) : outcome memory :=
  match m x with Some _ => Ok (upd m x v) | None => UB end.

(* fields of block_header_t, tlsf.cc:310-321 *)
Definition f_prev_phys (b : N) : N := b.
Definition f_size (b : N) : N := b + 8.
Definition f_next_free (b : N) : N := b + 16.
Definition f_prev_free (b : N) : N := b + 24.

(* tlsf.cc:371 block_size *)
Definition block_size (m : memory) (b : N) : outcome N :=
  let! w := rd m (f_size b) in Ok (N.ldiff w 3).
(* tlsf.cc:373-377 block_set_size *)
Definition block_set_size (m : memory) (b size : N) : outcome memory :=
  let! w := rd m (f_size b) in wr m (f_size b) (N.lor size (N.land w 3)).
(* tlsf.cc:379 block_is_last *)
Definition block_is_last (m : memory) (b : N) : outcome bool :=
  let! s := block_size m b in Ok (s =? 0).
(* tlsf.cc:381-391 the two flags *)
Definition block_is_free (m : memory) (b : N) : outcome bool :=
  let! w := rd m (f_size b) in Ok (N.testbit w 0).
Definition block_set_free (m : memory) (b : N) : outcome memory :=
  let! w := rd m (f_size b) in wr m (f_size b) (N.lor w 1).
Definition block_set_used (m : memory) (b : N) : outcome memory :=
  let! w := rd m (f_size b) in wr m (f_size b) (N.ldiff w 1).
Definition block_is_prev_free (m : memory) (b : N) : outcome bool :=
  let! w := rd m (f_size b) in Ok (N.testbit w 1).
Definition block_set_prev_free (m : memory) (b : N) : outcome memory :=
  let! w := rd m (f_size b) in wr m (f_size b) (N.lor w 2).
Definition block_set_prev_used (m : memory) (b : N) : outcome memory :=
  let! w := rd m (f_size b) in wr m (f_size b) (N.ldiff w 2).
(* tlsf.cc:393-398 block_from_ptr, block_to_ptr, offset_to_block *)
Definition block_from_ptr (p : N) : N := p - block_start_offset.
Definition block_to_ptr (b : N) : N := b + block_start_offset.
(* offset_to_block(ptr, size - block_header_overhead) *)
Definition offset_to_block (ptr size : N) : N := ptr + size - block_header_overhead.
(* tlsf.cc:401-405 block_prev *)
Definition block_prev (m : memory) (b : N) : outcome N :=
  let! pf := block_is_prev_free m b in
  let! _ := contract pf in
  rd m (f_prev_phys b).
(* tlsf.cc:408-413 block_next *)
Definition block_next (m : memory) (b : N) : outcome N :=
  let! s := block_size m b in
  let! last := block_is_last m b in
  let! _ := contract (negb last) in
  Ok (offset_to_block (block_to_ptr b) s).
(* tlsf.cc:416-421 block_link_next *)
Definition block_link_next (m : memory) (b : N) : outcome (memory * N) :=
  let! next := block_next m b in
  let! m := wr m (f_prev_phys next) b in
  Ok (m, next).
(* tlsf.cc:423-429 block_mark_as_free *)
Definition block_mark_as_free (m : memory) (b : N) : outcome memory :=
  let! (m, next) := block_link_next m b in
  let! m := block_set_prev_free m next in
  block_set_free m b.
(* tlsf.cc:431-436 block_mark_as_used *)
Definition block_mark_as_used (m : memory) (b : N) : outcome memory :=
  let! next := block_next m b in
  let! m := block_set_prev_used m next in
  block_set_used m b.

(* ---- control structure ---- *)
Record tlsf := mkT {
  mem : memory;
  nul : N;                 (* &control->block_null, which is the address of the control structure *)
  flb : N;                 (* fl_bitmap *)
  slb : N -> N;            (* sl_bitmap[FL_INDEX_COUNT] *)
  hds : N -> N -> N        (* blocks[FL_INDEX_COUNT][SL_INDEX_COUNT] *)
}.
Definition set_mem (t : tlsf) (m : memory) : tlsf := mkT m (nul t) (flb t) (slb t) (hds t).
Definition set_flb (t : tlsf) (w : N) : tlsf := mkT (mem t) (nul t) w (slb t) (hds t).

Definition get_sl (t : tlsf) (fl : N) : outcome N :=
  let! _ := defined (fl <? FL_INDEX_COUNT) in Ok (slb t fl).
Definition set_sl (t : tlsf) (fl w : N) : outcome tlsf :=
  let! _ := defined (fl <? FL_INDEX_COUNT) in
  Ok (mkT (mem t) (nul t) (flb t) (fun i => if i =? fl then w else slb t i) (hds t)).
Definition get_hd (t : tlsf) (fl sl : N) : outcome N :=
  let! _ := defined ((fl <? FL_INDEX_COUNT) && (sl <? SL_INDEX_COUNT)) in Ok (hds t fl sl).
Definition set_hd (t : tlsf) (fl sl b : N) : outcome tlsf :=
  let! _ := defined ((fl <? FL_INDEX_COUNT) && (sl <? SL_INDEX_COUNT)) in
  Ok (mkT (mem t) (nul t) (flb t) (slb t)
          (fun i j => if (i =? fl) && (j =? sl) then b else hds t i j)).

(* 32-bit (~0U << k) and (1U << k); shifting by 32 or more is UB *)
Definition mask_from (k : N) : outcome N :=
  let! _ := defined (k <? 32) in Ok (wrap 32 (N.shiftl (N.ones 32) k)).
Definition bit32 (k : N) : outcome N :=
  let! _ := defined (k <? 32) in Ok (N.shiftl 1 k).

(* tlsf.cc:512-542 search_suitable_block: the block found with its class, None for null *)
Definition search_suitable_block (t : tlsf) (fl sl : N) : outcome (option (N * N * N)) :=
  let! w := get_sl t fl in
  let! k := mask_from sl in
  let sl_map := N.land w k in
  let! c :=
    (if sl_map =? 0 then
       let! k := mask_from (fl + 1) in
       let fl_map := N.land (flb t) k in
       if fl_map =? 0 then Ok None
       else let fl := ffs fl_map in let! w := get_sl t fl in Ok (Some (fl, w))
     else Ok (Some (fl, sl_map))) in
  match c with
  | None => Ok None
  | Some (fl, sl_map) =>
    let! _ := contract (negb (sl_map =? 0)) in
    let sl := ffs sl_map in
    let! b := get_hd t fl sl in
    Ok (Some (b, fl, sl))
  end.

(* tlsf.cc:545-571 remove_free_block *)
Definition remove_free_block (t : tlsf) (b fl sl : N) : outcome tlsf :=
  let! prev := rd (mem t) (f_prev_free b) in
  let! next := rd (mem t) (f_next_free b) in
  let! _ := contract (negb (prev =? 0)) in
  let! _ := contract (negb (next =? 0)) in
  let! m := wr (mem t) (f_prev_free next) prev in
  let! m := wr m (f_next_free prev) next in
  let t := set_mem t m in
  let! h := get_hd t fl sl in
  if h =? b then
    let! t := set_hd t fl sl next in
    if next =? nul t then
      let! w := get_sl t fl in
      let! k := bit32 sl in
      let! t := set_sl t fl (N.ldiff w k) in
      let! w := get_sl t fl in
      if w =? 0 then let! k := bit32 fl in Ok (set_flb t (N.ldiff (flb t) k)) else Ok t
    else Ok t
  else Ok t.

(* tlsf.cc:574-591 insert_free_block *)
Definition insert_free_block (t : tlsf) (b fl sl : N) : outcome tlsf :=
  let! current := get_hd t fl sl in
  let! _ := contract (negb (current =? 0)) in
  let! _ := contract (negb (b =? 0)) in
  let! m := wr (mem t) (f_next_free b) current in
  let! m := wr m (f_prev_free b) (nul t) in
  let! m := wr m (f_prev_free current) b in
  let! a := align_up (block_to_ptr b) ALIGN_SIZE in
  let! _ := contract (block_to_ptr b =? a) in
  let! t := set_hd (set_mem t m) fl sl b in
  let! k := bit32 fl in
  let t := set_flb t (N.lor (flb t) k) in
  let! w := get_sl t fl in
  let! k := bit32 sl in
  set_sl t fl (N.lor w k).

(* tlsf.cc:594-599 block_remove, 602-607 block_insert *)
Definition block_remove (t : tlsf) (b : N) : outcome tlsf :=
  let! s := block_size (mem t) b in
  let '(fl, sl) := mapping_insert s in remove_free_block t b fl sl.
Definition block_insert (t : tlsf) (b : N) : outcome tlsf :=
  let! s := block_size (mem t) b in
  let '(fl, sl) := mapping_insert s in insert_free_block t b fl sl.

(* tlsf.cc:609 block_can_split; the sum wraps around *)
Definition block_can_split (m : memory) (b size : N) : outcome bool :=
  let! s := block_size m b in Ok (wadd 64 block_header_size size <=? s).

(* tlsf.cc:612-629 block_split; the remaining block and the new memory *)
Definition block_split (m : memory) (b size : N) : outcome (memory * N) :=
  let remaining := offset_to_block (block_to_ptr b) size in
  let! s := block_size m b in
  let remain_size := wsub 64 s (wadd 64 size block_header_overhead) in
  let! a := align_up (block_to_ptr remaining) ALIGN_SIZE in
  let! _ := contract (block_to_ptr remaining =? a) in
  let! _ := contract (s =? wadd 64 (wadd 64 remain_size size) block_header_overhead) in
  let! m := block_set_size m remaining remain_size in
  let! r := block_size m remaining in
  let! _ := contract (block_size_min <=? r) in
  let! m := block_set_size m b size in
  let! m := block_mark_as_free m remaining in
  Ok (m, remaining).

(* tlsf.cc:632-639 block_absorb *)
Definition block_absorb (m : memory) (prev b : N) : outcome memory :=
  let! last := block_is_last m prev in
  let! _ := contract (negb last) in
  let! w := rd m (f_size prev) in
  let! s := block_size m b in
  let! m := wr m (f_size prev) (w + (s + block_header_overhead)) in
  let! (m, _) := block_link_next m prev in
  Ok m.

(* tlsf.cc:642-654 block_merge_prev *)
Definition block_merge_prev (t : tlsf) (b : N) : outcome (tlsf * N) :=
  let! pf := block_is_prev_free (mem t) b in
  if pf then
    let! prev := block_prev (mem t) b in
    let! _ := contract (negb (prev =? 0)) in
    let! f := block_is_free (mem t) prev in
    let! _ := contract f in
    let! t := block_remove t prev in
    let! m := block_absorb (mem t) prev b in
    Ok (set_mem t m, prev)
  else Ok (t, b).

(* tlsf.cc:657-670 block_merge_next *)
Definition block_merge_next (t : tlsf) (b : N) : outcome tlsf :=
  let! next := block_next (mem t) b in
  let! _ := contract (negb (next =? 0)) in
  let! f := block_is_free (mem t) next in
  if f then
    let! last := block_is_last (mem t) b in
    let! _ := contract (negb last) in
    let! t := block_remove t next in
    let! m := block_absorb (mem t) b next in
    Ok (set_mem t m)
  else Ok t.

(* tlsf.cc:673-683 block_trim_free *)
Definition block_trim_free (t : tlsf) (b size : N) : outcome tlsf :=
  let! f := block_is_free (mem t) b in
  let! _ := contract f in
  let! c := block_can_split (mem t) b size in
  if c then
    let! (m, remaining) := block_split (mem t) b size in
    let! (m, _) := block_link_next m b in
    let! m := block_set_prev_free m remaining in
    block_insert (set_mem t m) remaining
  else Ok t.

(* tlsf.cc:686-698 block_trim_used *)
Definition block_trim_used (t : tlsf) (b size : N) : outcome tlsf :=
  let! f := block_is_free (mem t) b in
  let! _ := contract (negb f) in
  let! c := block_can_split (mem t) b size in
  if c then
    let! (m, remaining) := block_split (mem t) b size in
    let! m := block_set_prev_used m remaining in
    let! t := block_merge_next (set_mem t m) remaining in
    block_insert t remaining
  else Ok t.

(* tlsf.cc:700-714 block_trim_free_leading *)
Definition block_trim_free_leading (t : tlsf) (b size : N) : outcome (tlsf * N) :=
  let! c := block_can_split (mem t) b size in
  if c then
    let! (m, remaining) := block_split (mem t) b (size - block_header_overhead) in
    let! m := block_set_prev_free m remaining in
    let! (m, _) := block_link_next m b in
    let! t := block_insert (set_mem t m) b in
    Ok (t, remaining)
  else Ok (t, b).

(* tlsf.cc:716-744 block_locate_free; None for null *)
Definition block_locate_free (t : tlsf) (size : N) : outcome (tlsf * option N) :=
  let! r :=
    (if size =? 0 then Ok None
     else
       let '(fl, sl) := mapping_search size in
       if fl <? FL_INDEX_COUNT then search_suitable_block t fl sl else Ok None) in
  match r with
  | None => Ok (t, None)
  | Some (b, fl, sl) =>
    if b =? 0 then Ok (t, None)
    else
      let! s := block_size (mem t) b in
      let! _ := contract (size <=? s) in
      let! t := remove_free_block t b fl sl in
      Ok (t, Some b)
  end.

(* tlsf.cc:746-757 block_prepare_used *)
Definition block_prepare_used (t : tlsf) (b : option N) (size : N) : outcome (tlsf * option N) :=
  match b with
  | None => Ok (t, None)
  | Some b =>
    let! _ := contract (negb (size =? 0)) in
    let! t := block_trim_free t b size in
    let! m := block_mark_as_used (mem t) b in
    Ok (set_mem t m, Some (block_to_ptr b))
  end.

(* tlsf.cc:760-776 control_construct, 1020-1038 tlsf_create at an aligned address; m is the memory
   after the writes to the two link fields of block_null *)
Definition tlsf_create (m : memory) (addr : N) : outcome tlsf :=
  let! m := wr m (f_next_free addr) addr in
  let! m := wr m (f_prev_free addr) addr in
  Ok (mkT m addr 0 (fun _ => 0) (fun _ _ => addr)).

(* tlsf.cc:927-971 tlsf_add_pool; None for null *)
Definition tlsf_add_pool (t : tlsf) (addr bytes : N) : outcome (tlsf * option N) :=
  let! pool_bytes := align_down (wsub 64 bytes (2 * block_header_overhead)) ALIGN_SIZE in
  if negb (addr mod ALIGN_SIZE =? 0) then Ok (t, None)
  else if (pool_bytes <? block_size_min) || (block_size_max <? pool_bytes) then Ok (t, None)
  else
    let b := addr - block_header_overhead in
    let! m := block_set_size (mem t) b pool_bytes in
    let! m := block_set_free m b in
    let! m := block_set_prev_used m b in
    let! t := block_insert (set_mem t m) b in
    let! (m, next) := block_link_next (mem t) b in
    let! m := block_set_size m next 0 in
    let! m := block_set_used m next in
    let! m := block_set_prev_free m next in
    Ok (set_mem t m, Some addr).

(* tlsf.cc:973-986 tlsf_remove_pool *)
Definition tlsf_remove_pool (t : tlsf) (pool : N) : outcome tlsf :=
  let b := pool - block_header_overhead in
  let! f := block_is_free (mem t) b in
  let! _ := contract f in
  let! next := block_next (mem t) b in
  let! f := block_is_free (mem t) next in
  let! _ := contract (negb f) in
  let! s := block_size (mem t) next in
  let! _ := contract (s =? 0) in
  let! s := block_size (mem t) b in
  let '(fl, sl) := mapping_insert s in
  remove_free_block t b fl sl.

(* tlsf.cc:1040-1045 tlsf_create_with_pool *)
Definition tlsf_create_with_pool (m : memory) (addr bytes : N) : outcome tlsf :=
  let! t := tlsf_create m addr in
  let! (t, _) := tlsf_add_pool t (addr + control_size) (wsub 64 bytes control_size) in
  Ok t.

(* tlsf.cc:1055-1061 tlsf_malloc *)
Definition tlsf_malloc (t : tlsf) (size : N) : outcome (tlsf * option N) :=
  let! adjust := adjust_request_size size ALIGN_SIZE in
  let! (t, b) := block_locate_free t adjust in
  block_prepare_used t b adjust.

(* tlsf.cc:1063-1115 tlsf_memalign *)
Definition tlsf_memalign (t : tlsf) (align size : N) : outcome (tlsf * option N) :=
  let! adjust := adjust_request_size size ALIGN_SIZE in
  let gap_minimum := block_header_size in
  let! size_with_gap := adjust_request_size (wadd 64 (wadd 64 adjust align) gap_minimum) align in
  let aligned_size :=
    if negb (adjust =? 0) && (ALIGN_SIZE <? align) then size_with_gap else adjust in
  let! (t, b) := block_locate_free t aligned_size in
  let! (t, b) :=
    match b with
    | None => Ok (t, None)
    | Some b =>
      let ptr := block_to_ptr b in
      let! aligned := align_up ptr align in
      let gap := wsub 64 aligned ptr in
      let! gap :=
        (if negb (gap =? 0) && (gap <? gap_minimum) then
           let offset := N.max (gap_minimum - gap) align in
           let! aligned := align_up (wadd 64 aligned offset) align in
           Ok (wsub 64 aligned ptr)
         else Ok gap) in
      if negb (gap =? 0) then
        let! _ := contract (gap_minimum <=? gap) in
        let! (t, b) := block_trim_free_leading t b gap in
        Ok (t, Some b)
      else Ok (t, Some b)
    end in
  block_prepare_used t b adjust.

(* tlsf.cc:1117-1130 tlsf_free of a pointer other than null *)
Definition tlsf_free (t : tlsf) (ptr : N) : outcome tlsf :=
  let b := block_from_ptr ptr in
  let! f := block_is_free (mem t) b in
  let! _ := contract (negb f) in
  let! m := block_mark_as_free (mem t) b in
  let! (t, b) := block_merge_prev (set_mem t m) b in
  let! t := block_merge_next t b in
  block_insert t b.

(* memcpy of n bytes between word aligned, disjoint places; a last partial word keeps the high bytes *)
Fixpoint copy_words (k : nat) (m : memory) (dst src : N) : outcome memory :=
  match k with
  | O => Ok m
  | S k => let! v := rd m src in let! m := wr m dst v in copy_words k m (dst + 8) (src + 8)
  end.
Definition copy_bytes (m : memory) (dst src n : N) : outcome memory :=
  let! m := copy_words (N.to_nat (n / 8)) m dst src in
  if n mod 8 =? 0 then Ok m
  else
    let d := dst + 8 * (n / 8) in
    let! v := rd m (src + 8 * (n / 8)) in
    let! w := rd m d in
    let k := 2 ^ (8 * (n mod 8)) in
    wr m d (v mod k + k * (w / k)).

(* tlsf.cc:1145-1201 tlsf_realloc; a null pointer is None *)
Definition tlsf_realloc (t : tlsf) (ptr : option N) (size : N) : outcome (tlsf * option N) :=
  match ptr with
  | None => tlsf_malloc t size
  | Some ptr =>
    if size =? 0 then let! t := tlsf_free t ptr in Ok (t, None)
    else
      let b := block_from_ptr ptr in
      let! next := block_next (mem t) b in
      let! cursize := block_size (mem t) b in
      let! nextsize := block_size (mem t) next in
      let combined := cursize + nextsize + block_header_overhead in
      let! adjust := adjust_request_size size ALIGN_SIZE in
      let! f := block_is_free (mem t) b in
      let! _ := contract (negb f) in
      let! nf := block_is_free (mem t) next in
      if (cursize <? adjust) && (negb nf || (combined <? adjust)) then
        let! (t, p) := tlsf_malloc t size in
        match p with
        | None => Ok (t, None)
        | Some p =>
          let! m := copy_bytes (mem t) p ptr (N.min cursize size) in
          let! t := tlsf_free (set_mem t m) ptr in
          Ok (t, Some p)
        end
      else
        let! t :=
          (if cursize <? adjust then
             let! t := block_merge_next t b in
             let! m := block_mark_as_used (mem t) b in
             Ok (set_mem t m)
           else Ok t) in
        let! t := block_trim_used t b adjust in
        Ok (t, Some ptr)
  end.

(* tlsf.cc:886-895 tlsf_block_size of a pointer other than null *)
Definition tlsf_block_size (t : tlsf) (ptr : N) : outcome N := block_size (mem t) (block_from_ptr ptr).

(* ---- tlsf.cc:814-864 tlsf_check: every tlsf_insist is an assert ---- *)
Fixpoint check_list (fuel : nat) (t : tlsf) (i j b : N) : outcome unit :=
  match fuel with
  | O => OutOfFuel
  | S fuel =>
    if b =? nul t then Ok tt
    else
      let! f := block_is_free (mem t) b in
      let! _ := contract f in
      let! pf := block_is_prev_free (mem t) b in
      let! _ := contract (negb pf) in
      let! next := block_next (mem t) b in
      let! nf := block_is_free (mem t) next in
      let! _ := contract (negb nf) in
      let! npf := block_is_prev_free (mem t) next in
      let! _ := contract npf in
      let! s := block_size (mem t) b in
      let! _ := contract (block_size_min <=? s) in
      let '(fli, sli) := mapping_insert s in
      let! _ := contract ((fli =? i) && (sli =? j)) in
      let! b := rd (mem t) (f_next_free b) in
      check_list fuel t i j b
  end.
Definition check_class (fuel : nat) (t : tlsf) (i j : N) : outcome unit :=
  let! ki := bit32 i in
  let fl_map := N.land (flb t) ki in
  let! sl_list := get_sl t i in
  let! kj := bit32 j in
  let sl_map := N.land sl_list kj in
  let! b := get_hd t i j in
  let! _ := (if fl_map =? 0 then contract (sl_map =? 0) else Ok tt) in
  if sl_map =? 0 then contract (b =? nul t)
  else
    let! _ := contract (negb (sl_list =? 0)) in
    let! _ := contract (negb (b =? nul t)) in
    check_list fuel t i j b.
Fixpoint check_from (n : nat) (fuel : nat) (t : tlsf) (c : N) : outcome unit :=
  match n with
  | O => Ok tt
  | S n =>
    let! _ := check_class fuel t (c / SL_INDEX_COUNT) (c mod SL_INDEX_COUNT) in
    check_from n fuel t (c + 1)
  end.
(* the two nested loops, in the order of the code *)
Definition tlsf_check (fuel : nat) (t : tlsf) : outcome unit :=
  check_from (N.to_nat (FL_INDEX_COUNT * SL_INDEX_COUNT)) fuel t 0.

(* tlsf.cc:874-884 tlsf_walk_pool with the integrity walker, tlsf.cc:797-812, 897-904 *)
Fixpoint check_pool (fuel : nat) (m : memory) (b : N) (prev_status : bool) : outcome unit :=
  match fuel with
  | O => OutOfFuel
  | S fuel =>
    let! last := block_is_last m b in
    if last then Ok tt
    else
      let! pf := block_is_prev_free m b in
      let! f := block_is_free m b in
      let! _ := contract (Bool.eqb prev_status pf) in
      let! next := block_next m b in
      check_pool fuel m next f
  end.
Definition tlsf_check_pool (fuel : nat) (t : tlsf) (pool : N) : outcome unit :=
  check_pool fuel (mem t) (pool - block_header_overhead) false.

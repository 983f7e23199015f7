(* Model of the non-virtual utilities of cc::allocator (src/clean-core/allocator.hh) and of the defaults in
   src/clean-core/allocator.cc, over any allocator that implements alloc and free.

   A pointer is a block and an offset in it; a block has the address chosen by the allocator, a size and bytes (None is
   indeterminate).  objs are the objects alive whose destructor is not trivial. *)
From Coq Require Import NArith List Bool Arith.
From Verif Require Import Base.
Import ListNotations.
Open Scope N_scope.

Record block := mkB { base : N; bsize : N; byte : N -> option N }.
Record heap := mkH { blk : nat -> option block; next : nat; objs : list (nat * N) }.
Definition ptr := (nat * N)%type.
Definition upd (f : nat -> option block) (i : nat) (x : option block) : nat -> option block := fun j => if (j =? i)%nat then x else f j.

(* the virtual functions: place is the choice of the address; alloc does not fail *)
Definition policy := heap -> N -> N -> N.
Definition alloc (place : policy) (size align : N) (h : heap) : outcome (nat * heap) :=
  Ok (next h, mkH (upd (blk h) (next h) (Some (mkB (place h size align) size (fun _ => None)))) (S (next h)) (objs h)).
(* free(nullptr) does nothing, otherwise the start of a block is freed *)
Definition free (p : option ptr) (h : heap) : outcome heap :=
  match p with
  | None => Ok h
  | Some (b, o) => match blk h b with
                   | Some _ => if o =? 0 then Ok (mkH (upd (blk h) b None) (next h) (objs h)) else UB
                   | None => UB
                   end
  end.

(* accesses to len bytes from offset o of block b *)
Definition store (b : nat) (o : N) (bs : list (option N)) (h : heap) : outcome heap :=
  match blk h b with
  | Some k => if o + N.of_nat (length bs) <=? bsize k
              then Ok (mkH (upd (blk h) b (Some (mkB (base k) (bsize k)
                     (fun i => if (o <=? i) && (i <? o + N.of_nat (length bs)) then nth (N.to_nat (i - o)) bs None else byte k i)))) (next h) (objs h))
              else UB
  | None => UB
  end.
Definition load (b : nat) (o : N) (len : nat) (h : heap) : outcome (list (option N)) :=
  match blk h b with
  | Some k => if o + N.of_nat len <=? bsize k then Ok (map (fun i => byte k (o + N.of_nat i)) (seq 0 len)) else UB
  | None => UB
  end.
(* memset(p, 0, len) *)
Definition zero (b : nat) (o len : N) (h : heap) : outcome heap :=
  match blk h b with
  | Some k => if o + len <=? bsize k
              then Ok (mkH (upd (blk h) b (Some (mkB (base k) (bsize k) (fun i => if (o <=? i) && (i <? o + len) then Some 0 else byte k i)))) (next h) (objs h))
              else UB
  | None => UB
  end.
(* memcpy between different blocks *)
Definition copy (d : nat) (dof : N) (s : nat) (sof : N) (len : N) (h : heap) : outcome heap :=
  match blk h d, blk h s with
  | Some kd, Some ks =>
      if (dof + len <=? bsize kd) && (sof + len <=? bsize ks)
      then Ok (mkH (upd (blk h) d (Some (mkB (base kd) (bsize kd) (fun i => if (dof <=? i) && (i <? dof + len) then byte ks (sof + (i - dof)) else byte kd i)))) (next h) (objs h))
      else UB
  | _, _ => UB
  end.
(* the address of a pointer is a multiple of a *)
Definition aligned (b : nat) (o a : N) (h : heap) : bool := match blk h b with Some k => (base k + o) mod a =? 0 | None => false end.
(* size_t lvalue at p: little endian, has to be aligned *)
Fixpoint le_bytes (k : nat) (x : N) : list N := match k with O => [] | S k => x mod 256 :: le_bytes k (x / 256) end.
Fixpoint le_value (bs : list (option N)) : outcome N :=
  match bs with [] => Ok 0 | Some x :: bs => let! v := le_value bs in Ok (x + 256 * v) | None :: _ => UB end.
Definition store_size (b : nat) (o x : N) (h : heap) : outcome heap :=
  let! _ := defined (aligned b o 8 h) in store b o (map Some (le_bytes 8 x)) h.
Definition load_size (b : nat) (o : N) (h : heap) : outcome N :=
  let! _ := defined (aligned b o 8 h) in let! bs := load b o 8 h in le_value bs.

(* the type T: size, alignment, std::is_trivially_constructible_v, is_trivially_destructible_v, bytes of T() *)
Record ty := mkT { sz : N; al : N; trivial_ctor : bool; trivial_dtor : bool; rep : list (option N) }.
(* placement new of T(): the storage has to be in bounds and aligned *)
Definition construct (T : ty) (b : nat) (o : N) (h : heap) : outcome heap :=
  let! _ := defined (aligned b o (al T) h) in
  let! h := store b o (rep T) h in
  Ok (mkH (blk h) (next h) (if trivial_dtor T then objs h else (b, o) :: objs h)).
(* p->~T(): there has to be an object *)
Definition ptr_eqb (p q : ptr) : bool := (fst p =? fst q)%nat && (snd p =? snd q).
Fixpoint remove1 (p : ptr) (l : list ptr) : option (list ptr) :=
  match l with
  | [] => None
  | q :: l => if ptr_eqb p q then Some l else match remove1 p l with Some l => Some (q :: l) | None => None end
  end.
Definition destroy (b : nat) (o : N) (h : heap) : outcome heap :=
  match remove1 (b, o) (objs h) with Some l => Ok (mkH (blk h) (next h) l) | None => UB end.

(* allocator.hh:103-106 *)
Definition get_array_padding (elem_size : N) : N := if 8 <=? elem_size then elem_size else elem_size * (1 + 8 / elem_size).

(* allocator.hh:146-147, 189-190: the counter is an unsigned int, num_elems a size_t *)
Fixpoint construct_loop (fuel : nat) (T : ty) (b : nat) (o i num_elems : N) (h : heap) : outcome heap :=
  if i <? num_elems then
    match fuel with
    | O => OutOfFuel
    | S fuel => let! h := construct T b (o + i * sz T) h in construct_loop fuel T b o (wadd 32 i 1) num_elems h
    end
  else Ok h.
(* allocator.hh:173-174, 212-213 *)
Fixpoint destroy_loop (fuel : nat) (T : ty) (b : nat) (o i num_elems : N) (h : heap) : outcome heap :=
  if i <? num_elems then
    match fuel with
    | O => OutOfFuel
    | S fuel => let! h := destroy b (o + i * sz T) h in destroy_loop fuel T b o (wadd 32 i 1) num_elems h
    end
  else Ok h.

(* allocator.hh:109-115 *)
Definition new_t (place : policy) (T : ty) (h : heap) : outcome (ptr * heap) :=
  let! (b, h) := alloc place (sz T) (al T) h in
  let! h := construct T b 0 h in
  Ok ((b, 0), h).
(* allocator.hh:117-130 *)
Definition delete_t (T : ty) (p : option ptr) (h : heap) : outcome heap :=
  match p with
  | None => Ok h
  | Some (b, o) => let! h := (if trivial_dtor T then Ok h else destroy b o h) in free (Some (b, o)) h
  end.

(* allocator.hh:132-155 *)
Definition new_array (place : policy) (fuel : nat) (T : ty) (num_elems : N) (h : heap) : outcome (ptr * heap) :=
  let padding := get_array_padding (sz T) in
  let size := wadd 64 (wmul 64 (sz T) num_elems) padding in
  let! (b, h) := alloc place size (al T) h in
  let! h := store_size b 0 num_elems h in
  let! h := (if trivial_ctor T then zero b padding (wmul 64 (sz T) num_elems) h
             else construct_loop fuel T b padding 0 num_elems h) in
  Ok ((b, padding), h).
(* allocator.hh:157-178; p - padding outside of the block is undefined *)
Definition delete_array (fuel : nat) (T : ty) (p : option ptr) (h : heap) : outcome heap :=
  match p with
  | None => Ok h
  | Some (b, o) =>
      let padding := get_array_padding (sz T) in
      let! _ := defined (padding <=? o) in
      let orig := o - padding in
      let! num_elems := load_size b orig h in
      let! h := (if trivial_dtor T then Ok h else destroy_loop fuel T b o 0 num_elems h) in
      free (Some (b, orig)) h
  end.
(* allocator.hh:181-199 *)
Definition new_array_sized (place : policy) (fuel : nat) (T : ty) (num_elems : N) (h : heap) : outcome (ptr * heap) :=
  let! (b, h) := alloc place (wmul 64 (sz T) num_elems) (al T) h in
  let! h := (if trivial_ctor T then zero b 0 (wmul 64 (sz T) num_elems) h
             else construct_loop fuel T b 0 0 num_elems h) in
  Ok ((b, 0), h).
(* allocator.hh:201-217 *)
Definition delete_array_sized (fuel : nat) (T : ty) (p : option ptr) (num_elems : N) (h : heap) : outcome heap :=
  match p with
  | None => Ok h
  | Some (b, o) => let! h := (if trivial_dtor T then Ok h else destroy_loop fuel T b o 0 num_elems h) in free (Some (b, o)) h
  end.

(* allocator.cc:12-24 alloc_string_copy; source is the characters of the view *)
Definition alloc_string_copy (place : policy) (source : list N) (h : heap) : outcome (ptr * heap) :=
  let len := N.of_nat (length source) in
  let! (b, h) := alloc place (wadd 64 len 1) 1 h in
  let! h := (if 0 <? len then store b 0 (map Some source) h else Ok h) in
  let! h := store b len [Some 0] h in
  Ok ((b, 0), h).

(* allocator.hh:219-232 alloc_data_copy of the bytes of a span; data is nullptr for a default constructed span, and memcpy
   requires valid pointers for all sizes *)
Definition alloc_data_copy (place : policy) (T : ty) (data : option (list (option N))) (h : heap) : outcome (ptr * heap) :=
  let size := match data with Some d => N.of_nat (length d) | None => 0 end in
  let! (b, h) := alloc place size (al T) h in
  match data with
  | None => UB
  | Some d => let! h := store b 0 d h in Ok ((b, 0), h)
  end.

(* allocator.cc:26-46 realloc; get_size is get_allocation_size *)
Definition realloc (place : policy) (get_size : heap -> ptr -> option N) (p : option ptr) (new_size align : N) (h : heap) : outcome (option ptr * heap) :=
  let! (res, h) :=
    (if 0 <? new_size then
       let! (b, h) := alloc place new_size align h in
       match p with
       | None => Ok (Some (b, 0), h)
       | Some (pb, po) => match get_size h (pb, po) with
                          | None => Contract
                          | Some old_size => let! h := copy b 0 pb po (N.min old_size new_size) h in Ok (Some (b, 0), h)
                          end
       end
     else Ok (None, h)) in
  let! h := free p h in
  Ok (res, h).

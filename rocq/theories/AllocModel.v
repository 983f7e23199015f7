(* Model of cc::linear_allocator (src/clean-core/allocators/linear_allocator.hh),
   cc::stack_allocator (src/clean-core/allocators/stack_allocator.cc, .hh), and
   cc::align_up_with_header (src/clean-core/native/memory.hh).

   Pointers are 64-bit addresses; pointer arithmetic wraps modulo 2^64 as on the supported
   platforms.  The buffer is the byte range [begin, end).  linear_allocator never touches the bytes
   it hands out, so its state has no memory; stack_allocator stores headers in the buffer, so its
   state has byte memory, and an access outside the buffer is UB. *)
From Coq Require Import NArith ZArith List Lia Bool Arith.
Import ListNotations.
From Verif Require Import Base BitsModel.
Open Scope N_scope.

(* ---------- native/memory.hh:38-59 align_up_with_header ---------- *)
Definition align_up_with_header (head align header_size : N) : N :=
  let padded := align_up 64 head align in
  let padding := wsub 64 padded head in
  if padding <? header_size then
    let rest := header_size - padding in
    if 0 <? rest mod align
    then wadd 64 padded (wmul 64 align (1 + rest / align))
    else wadd 64 padded (wmul 64 align (rest / align))
  else padded.

(* ---------- linear_allocator ---------- *)
Module Lin.
  (* linear_allocator.hh:86-89 *)
  Record state := mkst { begin_ : N; head : N; end_ : N; latest : N }.

  (* linear_allocator.hh:81 constructor from a span of len bytes at address b *)
  Definition init (b len : N) : state := mkst b b (wadd 64 b len) 0.

  (* linear_allocator.hh:14-27 *)
  Definition alloc (st : state) (size align : N) : outcome (state * N) :=
    let! _ := contract (negb (begin_ st =? 0)) in
    let align := N.max align 1 in
    let padded := align_up 64 (head st) align in
    let! _ := contract (wadd 64 padded size <=? end_ st) in
    Ok (mkst (begin_ st) (wadd 64 padded size) (end_ st) padded, padded).

  (* linear_allocator.hh:29-33 *)
  Definition free (st : state) (ptr : N) : state := st.

  (* linear_allocator.hh:35-42; None stands for the return value false *)
  Definition get_allocation_size (st : state) (ptr : N) : option N :=
    if (ptr =? 0) || negb (ptr =? latest st) then None
    else Some (wsub 64 (head st) (latest st)).

  (* linear_allocator.hh:44-63; the fall back is allocator.cc:26-46 with ptr == nullptr *)
  Definition realloc (st : state) (ptr new_size align : N) : outcome (state * N) :=
    if negb (ptr =? 0) then
      let! _ := contract (ptr =? latest st) in
      let! _ := contract (wadd 64 ptr new_size <=? end_ st) in
      Ok (mkst (begin_ st) (wadd 64 ptr new_size) (end_ st) (latest st), ptr)
    else if 0 <? new_size then alloc st new_size align
    else Ok (st, 0).

  (* linear_allocator.hh:67-71 *)
  Definition reset (st : state) : state := mkst (begin_ st) (begin_ st) (end_ st) 0.

  (* linear_allocator.hh:73-75 *)
  Definition allocated_size (st : state) : N := wsub 64 (head st) (begin_ st).
  Definition remaining_size (st : state) : N := wsub 64 (end_ st) (head st).
  Definition max_size (st : state) : N := wsub 64 (end_ st) (begin_ st).
End Lin.

(* ---------- byte memory ---------- *)
Definition bytes := N -> N.
Definition upd (m : bytes) (a v : N) : bytes := fun x => if x =? a then v else m x.

(* little-endian store and load of n bytes (memcpy of the header object) *)
Fixpoint store (m : bytes) (a : N) (n : nat) (v : N) : bytes :=
  match n with
  | O => m
  | S k => store (upd m a (v mod 256)) (wadd 64 a 1) k (v / 256)
  end.
Fixpoint load (m : bytes) (a : N) (n : nat) : N :=
  match n with
  | O => 0
  | S k => m a + 256 * load m (wadd 64 a 1) k
  end.

(* two's complement view of int32_t *)
Definition u32 (z : Z) : N := Z.to_N (z mod 2 ^ 32)%Z.
Definition s32 (n : N) : Z := if n <? 2 ^ 31 then Z.of_N n else (Z.of_N n - 2 ^ 32)%Z.

(* ---------- stack_allocator ---------- *)
Module Stk.
  (* stack_allocator.hh:34-37 (members); the fields without the memory *)
  Record ctl := mkctl { begin_ : N; head : N; end_ : N; last_id : Z }.
  Record state := mkst { fields : ctl; mem : bytes }.

  (* stack_allocator.hh:30 constructor *)
  Definition init (b len : N) (m : bytes) : state := mkst (mkctl b b (wadd 64 b len) 0) m.

  (* the 8-byte header must lie inside the buffer *)
  Definition header_in (c : ctl) (ptr : N) : bool :=
    (begin_ c + 8 <=? ptr) && (ptr <=? end_ c).

  (* stack_allocator.cc:10-27; the increment of int32_t _last_alloc_id overflows at 2^31-1 *)
  Definition alloc (st : state) (size align : N) : outcome (state * N) :=
    let c := fields st in
    let! _ := contract (negb (begin_ c =? 0)) in
    let padded := align_up_with_header (head c) align 8 in
    let! _ := contract (wadd 64 padded size <=? end_ c) in
    let! _ := defined (last_id c <? 2 ^ 31 - 1)%Z in
    let id := (last_id c + 1)%Z in
    let padding := wrap 32 (wsub 64 padded (head c)) in
    let! _ := defined (header_in c padded) in
    let m := store (store (mem st) (wsub 64 padded 8) 4 padding) (wsub 64 padded 4) 4 (u32 id) in
    Ok (mkst (mkctl (begin_ c) (wadd 64 padded size) (end_ c) id) m, padded).

  (* stack_allocator.cc:35, :60 reading the header in front of ptr *)
  Definition header (st : state) (ptr : N) : outcome (N * Z) :=
    let! _ := defined (header_in (fields st) ptr) in
    Ok (load (mem st) (wsub 64 ptr 8) 4, s32 (load (mem st) (wsub 64 ptr 4) 4)).

  (* stack_allocator.cc:29-41 *)
  Definition free (st : state) (ptr : N) : outcome state :=
    if ptr =? 0 then Ok st else
    let c := fields st in
    let! (padding, id) := header st ptr in
    let! _ := contract (id =? last_id c)%Z in
    let! _ := defined (- 2 ^ 31 <? last_id c)%Z in
    Ok (mkst (mkctl (begin_ c) (wsub 64 ptr padding) (end_ c) (last_id c - 1)) (mem st)).

  (* stack_allocator.cc:43-68 *)
  Definition realloc (st : state) (ptr new_size align : N) : outcome (state * N) :=
    if new_size =? 0 then let! st := free st ptr in Ok (st, 0)
    else if ptr =? 0 then alloc st new_size align
    else
      let c := fields st in
      let! (_, id) := header st ptr in
      let! _ := contract (id =? last_id c)%Z in
      let! _ := contract (wadd 64 ptr new_size <=? end_ c) in
      Ok (mkst (mkctl (begin_ c) (wadd 64 ptr new_size) (end_ c) (last_id c)) (mem st), ptr).

  (* stack_allocator.hh:23-27 *)
  Definition reset (st : state) : state :=
    let c := fields st in mkst (mkctl (begin_ c) (begin_ c) (end_ c) 0) (mem st).
End Stk.

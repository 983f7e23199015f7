(* Model of cc::system_malloc, system_realloc, system_msize, system_free and cc::system_allocator_t
   (src/clean-core/allocators/system_allocator.cc, .hh) over an arbitrary C runtime: the build for Linux, which calls
   std::aligned_alloc, malloc_usable_size and std::free, and the fallback on std::malloc with a header in front of each
   block. The Windows build passes its arguments on and is left out.
   Memory is a map from 64-bit addresses to bytes (None: indeterminate). Each call that allocates takes the next answer
   of the C runtime: failure, or an address and the usable size. Answers that the C runtime cannot give are no
   execution (OutOfFuel). *)
From Coq Require Import NArith Arith List Bool.
From Verif Require Import Base BitsModel AArrModel.
Import ListNotations.
Open Scope N_scope.

(* a live block of the C runtime *)
Record block := mkb { bbase : N; blen : N }.
(* pointers handed out are numbered in the order of the calls *)
Record world := mkw { mem : N -> option N; live : list block; ptrs : list N; answers : list (option (N * N)) }.

(* ---- the C runtime ---- *)
Definition extent (b : block) : N := N.max (blen b) 1.
Definition apart (a b : block) : bool := (bbase a + extent a <=? bbase b) || (bbase b + extent b <=? bbase a).
Definition power_of_two (a : N) : bool := a =? 2 ^ N.log2 a.
Definition legal (w : world) (align n : N) (b : block) : bool :=
  negb (bbase b =? 0) && (n <=? blen b) && (bbase b + extent b <=? 2 ^ 64) && power_of_two align && (bbase b mod align =? 0)
  && forallb (apart b) (live w).
Definition inside (b : block) (a : N) : bool := (bbase b <=? a) && (a <? bbase b + blen b).
Definition lib_alloc (w : world) (align n : N) : outcome (world * N) :=
  match answers w with
  | [] => OutOfFuel
  | None :: r => Ok (mkw (mem w) (live w) (ptrs w) r, 0)
  | Some (p, u) :: r =>
      let b := mkb p u in
      if legal w align n b
      then Ok (mkw (fun a => if inside b a then None else mem w a) (b :: live w) (ptrs w) r, p)
      else OutOfFuel
  end.
Fixpoint remove (p : N) (l : list block) : option (list block) :=
  match l with
  | [] => None
  | b :: l => if bbase b =? p then Some l else option_map (cons b) (remove p l)
  end.
Definition lib_free (w : world) (p : N) : outcome world :=
  if p =? 0 then Ok w
  else match remove p (live w) with Some l => Ok (mkw (mem w) l (ptrs w) (answers w)) | None => UB end.
Definition lib_usable_size (w : world) (p : N) : outcome N :=
  match find (fun b => bbase b =? p) (live w) with Some b => Ok (blen b) | None => UB end.

(* ---- memory accesses: only live blocks are accessible ---- *)
Definition accessible (w : world) (a : N) : bool := existsb (fun b => inside b a) (live w).
Definition load (w : world) (a : N) : outcome (option N) := if accessible w a then Ok (mem w a) else UB.
Definition store (w : world) (a : N) (x : option N) : outcome world :=
  if accessible w a then Ok (mkw (fun c => if c =? a then x else mem w c) (live w) (ptrs w) (answers w)) else UB.
Fixpoint load_bytes (n : nat) (w : world) (a : N) : outcome (list (option N)) :=
  match n with O => Ok [] | S n => let! x := load w a in let! r := load_bytes n w (a + 1) in Ok (x :: r) end.
Fixpoint store_bytes (w : world) (a : N) (l : list (option N)) : outcome world :=
  match l with [] => Ok w | x :: l => let! w := store w a x in store_bytes w (a + 1) l end.
(* 8 byte words, which must be aligned *)
Definition load8 (w : world) (a : N) : outcome N :=
  let! _ := defined (a mod 8 =? 0) in let! l := load_bytes 8 w a in le_value l.
Definition store8 (w : world) (a x : N) : outcome world :=
  let! _ := defined (a mod 8 =? 0) in store_bytes w a (map Some (le_bytes 8 x)).
(* std::memcpy: null pointers are undefined for every count *)
Definition memcpy (w : world) (dst src n : N) : outcome world :=
  let! _ := defined (negb (dst =? 0) && negb (src =? 0)) in
  let! _ := defined ((dst + n <=? src) || (src + n <=? dst)) in
  let! l := load_bytes (N.to_nat n) w src in store_bytes w dst l.

Section Sys.
  (* CC_USE_ALIGNED_ALLOC, system_allocator.cc 16-20 *)
  Variable linux : bool.

  (* system_allocator.cc 31-51; sizeof(void ptr) = sizeof(size_t) = 8; malloc aligns for every fundamental type *)
  Definition system_malloc (w : world) (size alignment : N) : outcome (world * N) :=
    let alignment := N.max alignment (if 16 <=? size then 16 else 8) in
    if linux then lib_alloc w alignment size
    else
      let! (w, ptr) := lib_alloc w 16 (wadd 64 (wadd 64 (wadd 64 size alignment) 8) 8) in
      if ptr =? 0 then Ok (w, 0)
      else
        let result := align_up 64 (wadd 64 (wadd 64 ptr 8) 8) alignment in
        let! w := store8 w (wsub 64 result 8) ptr in
        let! w := store8 w (wsub 64 (wsub 64 result 8) 8) size in
        Ok (w, result).

  (* system_allocator.cc 93-107 *)
  Definition system_msize (w : world) (ptr : N) : outcome N :=
    if ptr =? 0 then Ok 0
    else if linux then lib_usable_size w ptr else load8 w (wsub 64 (wsub 64 ptr 8) 8).

  (* system_allocator.cc 109-121 *)
  Definition system_free (w : world) (ptr : N) : outcome world :=
    if linux then lib_free w ptr
    else if ptr =? 0 then Ok w
    else let! p := load8 w (wsub 64 ptr 8) in lib_free w p.

  (* system_allocator.cc 53-91, the implementation from line 73 on *)
  Definition system_realloc (w : world) (ptr new_size align : N) : outcome (world * N) :=
    let align := N.max align (if 16 <=? new_size then 16 else 8) in
    let! (w, res) :=
      if 0 <? new_size
      then
        let! (w, res) := system_malloc w new_size align in
        if negb (ptr =? 0)
        then let! old_size := system_msize w ptr in let! w := memcpy w res ptr (N.min old_size new_size) in Ok (w, res)
        else Ok (w, res)
      else Ok (w, 0) in
    let! w := system_free w ptr in
    Ok (w, res).

  Inductive op :=
  | TryAlloc (size align : N) | Alloc (size align : N) | TryRealloc (k : nat) (size align : N) | Realloc (k : nat) (size align : N)
  | Free (k : nat) | AllocationSize (k : nat)
  (* accesses of the program *)
  | Write (k : nat) (i : N) (x : N) | Read (k : nat) (i : N).
  (* whether the pointer is not null; a byte; a number *)
  Inductive res := RUnit | RPtr (valid : bool) | RByte (x : option N) | RN (n : N).

  Definition get (w : world) (k : nat) : outcome N := aget (ptrs w) k.
  Definition give (r : world * N) : outcome (world * res) :=
    let (w, p) := r in Ok (mkw (mem w) (live w) (ptrs w ++ [p]) (answers w), RPtr (negb (p =? 0))).
  Definition step (w : world) (o : op) : outcome (world * res) :=
    match o with
    (* system_allocator.hh 24 *)
    | TryAlloc size align => let! r := system_malloc w size align in give r
    (* system_allocator.hh 26-31 *)
    | Alloc size align =>
        let! r := system_malloc w size align in
        let! _ := contract (negb (snd r =? 0) || (size =? 0)) in give r
    (* system_allocator.hh 33 *)
    | TryRealloc k size align => let! p := get w k in let! r := system_realloc w p size align in give r
    (* system_allocator.hh 35-40 *)
    | Realloc k size align =>
        let! p := get w k in let! r := system_realloc w p size align in
        let! _ := contract (negb (snd r =? 0) || (size =? 0)) in give r
    (* system_allocator.hh 42 *)
    | Free k => let! p := get w k in let! w := system_free w p in Ok (w, RUnit)
    (* system_allocator.hh 44-48 *)
    | AllocationSize k => let! p := get w k in let! n := system_msize w p in Ok (w, RN n)
    | Write k i x => let! p := get w k in let! w := store w (p + i) (Some x) in Ok (w, RUnit)
    | Read k i => let! p := get w k in let! x := load w (p + i) in Ok (w, RByte x)
    end.
  Fixpoint run (w : world) (os : list op) : outcome (world * list res) :=
    match os with
    | [] => Ok (w, [])
    | o :: os => let! (w, r) := step w o in let! (w, rs) := run w os in Ok (w, r :: rs)
    end.
End Sys.
Definition init (answers : list (option (N * N))) : world := mkw (fun _ => None) [] [] answers.

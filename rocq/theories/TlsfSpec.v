(* A client of the two level segregated fit allocator, and what it may rely on. The client sees buffers:
   a pointer, the number of bytes it asked for, the alignment it asked for, and the bytes it has stored. *)
From Coq Require Import NArith List Bool.
From Verif Require Import Base TlsfModel.
Import ListNotations.
Open Scope N_scope.

Record buffer := mkB { ptr : N; size : N; align : N; data : N -> option N }.
Record world := mkW { heap : tlsf; live : list buffer; pools : list (N * N) (* address, bytes *) }.

Inductive op :=
| OMalloc (n : N)
| OAlign (k n : N)                  (* memalign with alignment 2^k *)
| OFree (i : nat)                   (* the i-th live buffer *)
| ORealloc (i : nat) (n : N)
| OWrite (i : nat) (j v : N)        (* store byte v at offset j *)
| OAddPool (addr bytes : N)
| ORemovePool (i : nat).

(* byte x of memory *)
Definition byte (m : memory) (x : N) : option N :=
  match m (8 * (x / 8)) with Some w => Some ((w / 2 ^ (8 * (x mod 8))) mod 256) | None => None end.
Definition store_byte (m : memory) (x v : N) : outcome memory :=
  let! w := rd m (8 * (x / 8)) in
  let k := 2 ^ (8 * (x mod 8)) in
  wr m (8 * (x / 8)) (w mod k + k * (v + 256 * (w / (k * 256)))).

Fixpoint drop_nth {A} (i : nat) (l : list A) : list A :=
  match l, i with [], _ => [] | _ :: l, O => l | x :: l, S i => x :: drop_nth i l end.
Fixpoint set_nth {A} (i : nat) (x : A) (l : list A) : list A :=
  match l, i with [], _ => [] | _ :: l, O => x :: l | y :: l, S i => y :: set_nth i x l end.

Definition apart_b (a n b k : N) : bool := (a + n <=? b) || (b + k <=? a).
Definition unused (w : world) (p : N * N) : bool :=
  forallb (fun b => (ptr b <? fst p) || (fst p + snd p <=? ptr b)) (live w).

Definition step (w : world) (o : op) : outcome world :=
  match o with
  | OMalloc n =>
    let! (t, p) := tlsf_malloc (heap w) n in
    Ok (mkW t (match p with None => live w | Some p => mkB p n 8 (fun _ => None) :: live w end) (pools w))
  | OAlign k n =>
    let! (t, p) := tlsf_memalign (heap w) (2 ^ k) n in
    Ok (mkW t (match p with None => live w | Some p => mkB p n (2 ^ k) (fun _ => None) :: live w end) (pools w))
  | OFree i =>
    match nth_error (live w) i with
    | None => Ok w
    | Some b => let! t := tlsf_free (heap w) (ptr b) in Ok (mkW t (drop_nth i (live w)) (pools w))
    end
  | ORealloc i n =>
    match nth_error (live w) i with
    | None => Ok w
    | Some b =>
      let! (t, p) := tlsf_realloc (heap w) (Some (ptr b)) n in
      Ok (mkW t
        (match p with
         | None => if n =? 0 then drop_nth i (live w) else live w
         | Some p => set_nth i (mkB p n 8 (fun j => if j <? size b then data b j else None)) (live w)
         end) (pools w))
    end
  | OWrite i j v =>
    match nth_error (live w) i with
    | None => Ok w
    | Some b =>
      if (j <? size b) && (v <? 256) then
        let! m := store_byte (mem (heap w)) (ptr b + j) v in
        Ok (mkW (set_mem (heap w) m)
              (set_nth i (mkB (ptr b) (size b) (align b) (fun x => if x =? j then Some v else data b x)) (live w))
              (pools w))
      else Ok w
    end
  | OAddPool addr bytes =>
    (* the client only hands over memory that belongs to nobody *)
    if apart_b addr bytes (nul (heap w)) control_size &&
       forallb (fun p => apart_b addr bytes (fst p) (snd p)) (pools w)
    then
      let! (t, p) := tlsf_add_pool (heap w) addr bytes in
      Ok (mkW t (live w) (match p with None => pools w | Some _ => (addr, bytes) :: pools w end))
    else Ok w
  | ORemovePool i =>
    match nth_error (pools w) i with
    | None => Ok w
    | Some p =>
      if unused w p then let! t := tlsf_remove_pool (heap w) (fst p) in Ok (mkW t (live w) (drop_nth i (pools w)))
      else Ok w
    end
  end.
Fixpoint run (w : world) (l : list op) : outcome world :=
  match l with [] => Ok w | o :: l => let! w := step w o in run w l end.

(* memory m has all words of the region *)
Definition region (m : memory) (addr bytes : N) : Prop :=
  forall x, x mod 8 = 0 -> addr <= x -> x < addr + bytes -> m x <> None.
(* what the client has to respect *)
Definition op_ok (m : memory) (o : op) : Prop :=
  match o with
  | OMalloc n => n + 8 <= 2 ^ 64
  | OAlign k n => n + 8 <= 2 ^ 64 /\ k <= 62
  | ORealloc _ n => n + 8 <= 2 ^ 32
  | OAddPool addr bytes =>
    8 < addr /\ addr + bytes <= 2 ^ 63 /\ (bytes < 2 ^ 32 + 16 \/ 2 ^ 32 + 24 <= bytes) /\ region m addr bytes
  | _ => True
  end.

(* ---- what the client may rely on ---- *)
Definition disjoint (b c : buffer) : Prop := ptr b + size b <= ptr c \/ ptr c + size c <= ptr b.
Definition inside (b : buffer) (p : N * N) : Prop := fst p <= ptr b /\ ptr b + size b <= fst p + snd p.
Definition safe (w : world) : Prop :=
  ForallOrdPairs disjoint (live w) /\
  forall b, In b (live w) ->
    (exists p, In p (pools w) /\ inside b p) /\
    ptr b mod 8 = 0 /\ ptr b mod align b = 0 /\
    forall j v, j < size b -> data b j = Some v -> byte (mem (heap w)) (ptr b + j) = Some v.

(* the bytes a request of n bytes may take away from its pool, including the header of the block *)
Definition rounded_up (n : N) : N := N.max (n + 7) 24.
Definition taken_lo (b : buffer) : N := ptr b - 8.
Definition taken_hi (b : buffer) : N := ptr b + rounded_up (size b) + 32.
(* a stretch of len bytes of some pool, without live buffers *)
Definition gap (w : world) (len : N) : Prop :=
  exists p x, In p (pools w) /\ fst p <= x /\ x + len + 15 <= fst p + snd p /\
    forall b, In b (live w) -> taken_hi b <= x \/ x + len <= taken_lo b.

(* What users of cc::system_allocator see: a store of blocks of bytes. *)
From Coq Require Import NArith Arith List Bool.
From Verif Require Import SysAllocModel.
Import ListNotations.
Open Scope N_scope.

(* alignment and bytes (None: no value yet) *)
Record chunk := mkchunk { calign : N; cbytes : list (option N) }.
(* what was handed out: None after it was given back; Some None: a null pointer *)
Definition bstore := list (option (option chunk)).
Fixpoint put {T} (l : list T) (i : nat) (x : T) : list T :=
  match l, i with [], _ => [] | _ :: l, O => x :: l | y :: l, S i => y :: put l i x end.
Definition sget (s : bstore) (k : nat) : option (option chunk) := match nth_error s k with Some (Some c) => Some c | _ => None end.

Definition pow2 (a : N) : Prop := exists k, a = 2 ^ k.
(* alignments are powers of two, sizes leave room for the header of the fallback *)
Definition request (size align : N) : Prop := pow2 align /\ size + N.max align 16 + 16 < 2 ^ 64.
Definition well_formed (o : op) : Prop :=
  match o with
  | TryAlloc size align | Alloc size align | TryRealloc _ size align | Realloc _ size align => request size align
  | Write _ _ x => x < 256
  | _ => True
  end.
Definition nulls (n : nat) : list (option N) := repeat None n.
Definition resized (c : option chunk) (size align : N) : chunk :=
  let old := match c with Some c => cbytes c | None => [] end in
  mkchunk align (firstn (N.to_nat size) old ++ nulls (N.to_nat size - length old)).

(* bits: whether the C runtime has memory, for each request in turn. Outer None: the history is outside of the
   specification; inner None: the call aborts *)
Definition ideal (s : bstore) (bits : list bool) (o : op) : option (option (bstore * res) * list bool) :=
  let on k (f : option chunk -> option (option (bstore * res) * list bool)) := match sget s k with Some c => f c | None => None end in
  let elem k i (f : chunk -> option N -> option (option (bstore * res) * list bool)) :=
    on k (fun c => match c with
                   | Some c => match nth_error (cbytes c) (N.to_nat i) with Some x => f c x | None => None end
                   | None => None
                   end) in
  let alloc (may_fail : bool) size align :=
    match bits with
    | true :: bits => Some (Some (s ++ [Some (Some (mkchunk align (nulls (N.to_nat size))))], RPtr true), bits)
    | false :: bits => Some (if may_fail || (size =? 0) then Some (s ++ [Some None], RPtr false) else None, bits)
    | [] => None
    end in
  let realloc (may_fail : bool) k size align :=
    on k (fun c =>
      if size =? 0 then Some (Some (put s k None ++ [Some None], RPtr false), bits)
      else match bits with
           | true :: bits => Some (Some (put s k None ++ [Some (Some (resized c size align))], RPtr true), bits)
           | false :: bits =>
               match c with
               | None => Some (if may_fail then Some (put s k None ++ [Some None], RPtr false) else None, bits)
               | Some _ => None (* see C111_realloc_refuted *)
               end
           | [] => None
           end) in
  match o with
  | TryAlloc size align => alloc true size align
  | Alloc size align => alloc false size align
  | TryRealloc k size align => realloc true k size align
  | Realloc k size align => realloc false k size align
  | Free k => on k (fun _ => Some (Some (put s k None, RUnit), bits))
  | AllocationSize k =>
      on k (fun c => Some (Some (s, RN (match c with Some c => N.of_nat (length (cbytes c)) | None => 0 end)), bits))
  | Write k i x => elem k i (fun c _ =>
      Some (Some (put s k (Some (Some (mkchunk (calign c) (put (cbytes c) (N.to_nat i) (Some x))))), RUnit), bits))
  | Read k i => elem k i (fun _ x => match x with Some x => Some (Some (s, RByte (Some x)), bits) | None => None end)
  end.
Fixpoint irun (s : bstore) (bits : list bool) (os : list op) : option (option (bstore * list res)) :=
  match os with
  | [] => Some (Some (s, []))
  | o :: os =>
      match ideal s bits o with
      | None => None
      | Some (None, _) => Some None
      | Some (Some (s, r), bits) =>
          match irun s bits os with Some (Some (s, rs)) => Some (Some (s, r :: rs)) | x => x end
      end
  end.
(* the Linux build reports the usable size, which may be larger than the requested one *)
Definition same (linux : bool) (model spec : res) : Prop :=
  match model, spec with RN m, RN n => if linux then n <= m else m = n | _, _ => model = spec end.
(* the bytes of different chunks do not overlap, lie below 2^64 and are aligned *)
Definition placed (ptrs : list N) (s : bstore) : Prop :=
  length ptrs = length s /\
  (forall k c p, nth_error ptrs k = Some p -> nth_error s k = Some (Some (Some c)) ->
     p <> 0 /\ p mod calign c = 0 /\ p + N.of_nat (length (cbytes c)) <= 2 ^ 64) /\
  (forall j k c d p q, j <> k -> nth_error ptrs j = Some p -> nth_error ptrs k = Some q ->
     nth_error s j = Some (Some (Some c)) -> nth_error s k = Some (Some (Some d)) ->
     p + N.of_nat (length (cbytes c)) <= q \/ q + N.of_nat (length (cbytes d)) <= p).

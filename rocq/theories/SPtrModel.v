(* cc::shared_ptr (src/clean-core/shared_ptr.hh): variables of type shared_ptr<T> and heap objects of type T
   that themselves contain shared_ptr<T> members, so that ownership can be any graph.
   Objects are numbered in the order of their creation, the number stands for the address of the control
   block; memory that is reused by a later object gets a new number.
   Simplified: T consists of shared_ptr members only; conversion to shared_ptr<T const> (141-148) is the same
   code as the copy constructor; the call stack is unbounded. *)
From Coq Require Import ZArith Arith List Bool.
From Verif Require Import Base.
Import ListNotations.

(* 19-32 control_t: the reference count and the members of the value.  Dying: the destructor is running, the
   members listed are not yet destroyed. *)
Inductive cell := Live (rc : Z) (fs : list (option nat)) | Dying (fs : list (option nat)) | Freed.
(* vars: None is a variable whose lifetime has ended; otherwise its _control *)
Record state := mks { vars : list (option (option nat)); heap : list cell }.

(* a shared_ptr object: a variable or member i of object o *)
Inductive loc := LVar (v : nat) | LFld (o i : nat).
Definition loc_eqb (a b : loc) : bool :=
  match a, b with
  | LVar v, LVar u => v =? u
  | LFld o i, LFld p j => (o =? p) && (i =? j)
  | _, _ => false
  end.
(* reading and writing _control *)
Definition read (st : state) (l : loc) : outcome (option nat) :=
  match l with
  | LVar v => match nth_error (vars st) v with Some (Some p) => Ok p | _ => UB end
  | LFld o i => match nth_error (heap st) o with
                | Some (Live _ fs) => match nth_error fs i with Some p => Ok p | None => UB end
                | _ => UB end
  end.
Definition write (st : state) (l : loc) (p : option nat) : outcome state :=
  match l with
  | LVar v => match nth_error (vars st) v with Some (Some _) => Ok (mks (lset (vars st) v (Some p)) (heap st)) | _ => UB end
  | LFld o i => match nth_error (heap st) o with
                | Some (Live rc fs) => if i <? length fs then Ok (mks (vars st) (lset (heap st) o (Live rc (lset fs i p)))) else UB
                | _ => UB end
  end.

(* 158-165 dec_refcount up to cc::free, for the control block c; allocate.hh 143-150: cc::free runs the
   destructor, which destroys the members in reverse order (124-128), then releases the memory.
   Decrementing the count of anything but a live object is undefined. *)
Fixpoint release (fuel : nat) (h : list cell) (c : nat) : outcome (list cell) :=
  match fuel with
  | O => OutOfFuel
  | S fuel =>
      match nth_error h c with
      | Some (Live rc fs) =>
          let! _ := defined (- 2 ^ 31 <? rc)%Z in
          if (rc - 1 =? 0)%Z then
            let! h := (fix members (todo : list (option nat)) (h : list cell) : outcome (list cell) :=
               match todo with
               | [] => Ok h
               | p :: todo =>
                   let h := lset h c (Dying (rev todo)) in
                   match p with
                   | None => members todo h
                   | Some d => let! h := release fuel h d in members todo h
                   end
               end) (rev fs) (lset h c (Dying fs)) in
            Ok (lset h c Freed)
          else Ok (lset h c (Live (rc - 1) fs))
      | _ => UB
      end
  end.
(* 158-165; called with a non-null _control *)
Definition dec_refcount (st : state) (l : loc) : outcome state :=
  let! p := read st l in
  match p with
  | None => UB
  | Some c =>
      let! h := release (S (length (heap st))) (heap st) c in
      let st := mks (vars st) h in
      match nth_error h c with
      | Some Freed => write st l None
      | _ => Ok st
      end
  end.
(* if (_control) dec_refcount(); *)
Definition drop (st : state) (l : loc) : outcome state :=
  let! p := read st l in match p with None => Ok st | Some _ => dec_refcount st l end.
(* if (_control) _control->refcount++; with _control = p *)
Definition inc (st : state) (p : option nat) : outcome state :=
  match p with
  | None => Ok st
  | Some c => match nth_error (heap st) c with
              | Some (Live rc fs) => let! _ := defined (rc + 1 <? 2 ^ 31)%Z in Ok (mks (vars st) (lset (heap st) c (Live (rc + 1) fs)))
              | _ => UB end
  end.
Definition add_var (st : state) (p : option nat) : state := mks (vars st ++ [Some p]) (heap st).

(* 86, 131 *)
Definition new_null (st : state) : state := add_var st None.
(* 175-181 make_shared of an object with n members, all null *)
Definition make (st : state) (n : nat) : state :=
  mks (vars st ++ [Some (Some (length (heap st)))]) (heap st ++ [Live 1 (repeat None n)]).
(* 87-91 *)
Definition new_move (st : state) (r : loc) : outcome state :=
  let! p := read st r in write (add_var st p) r None.
(* 92-98 *)
Definition new_copy (st : state) (r : loc) : outcome state :=
  let! p := read st r in inc (add_var st p) p.
(* 99-108 *)
Definition move_assign (st : state) (l r : loc) : outcome state :=
  let! st := drop st l in
  let! p := read st r in
  let! st := write st l p in
  write st r None.
(* 109-123 *)
Definition copy_assign (st : state) (l r : loc) : outcome state :=
  if loc_eqb l r then Ok st else
  let! st := drop st l in
  let! p := read st r in
  let! st := write st l p in
  inc st p.
(* 77-84 reset, 132-138 operator=(nullptr_t) *)
Definition reset (st : state) (l : loc) : outcome state :=
  let! p := read st l in
  match p with None => Ok st | Some _ => let! st := dec_refcount st l in write st l None end.
Definition set_null (st : state) (l : loc) : outcome state :=
  let! st := drop st l in write st l None.
(* 124-128 for a variable *)
Definition destroy (st : state) (v : nat) : outcome state :=
  let! st := drop st (LVar v) in Ok (mks (lset (vars st) v None) (heap st)).
(* 75 *)
Definition refcount (st : state) (l : loc) : outcome Z :=
  let! p := read st l in
  match p with
  | None => Ok 0%Z
  | Some c => match nth_error (heap st) c with Some (Live rc _) => Ok rc | _ => UB end
  end.

(* how a program gets at a shared_ptr: v, v->member, v->member->member, ...; 56-66 operator-> *)
Definition path := (nat * list nat)%type.
Fixpoint follow (st : state) (l : loc) (is : list nat) : outcome loc :=
  match is with
  | [] => Ok l
  | i :: is => let! p := read st l in
               match p with None => Contract | Some c => follow st (LFld c i) is end
  end.
Definition at_ (st : state) (e : path) : outcome loc :=
  let! l := follow st (LVar (fst e)) (snd e) in
  let! _ := read st l in Ok l.

Inductive op :=
| New | Make (n : nat) | NewMove (e : path) | NewCopy (e : path)
| MoveAssign (e f : path) | CopyAssign (e f : path) | Reset (e : path) | SetNull (e : path) | Destroy (v : nat)
| Refcount (e : path) | IsUnique (e : path) | IsValid (e : path) | Equal (e f : path).
Inductive res := RUnit | RN (n : Z) | RB (b : bool).
Definition unit_ (o : outcome state) : outcome (state * res) := let! st := o in Ok (st, RUnit).
Definition is_null (p : option nat) : bool := match p with None => true | _ => false end.
Definition ptr_eqb (p q : option nat) : bool :=
  match p, q with Some a, Some b => a =? b | None, None => true | _, _ => false end.
Definition step (st : state) (o : op) : outcome (state * res) :=
  match o with
  | New => Ok (new_null st, RUnit)
  | Make n => Ok (make st n, RUnit)
  | NewMove e => unit_ (let! r := at_ st e in new_move st r)
  | NewCopy e => unit_ (let! r := at_ st e in new_copy st r)
  | MoveAssign e f => unit_ (let! r := at_ st f in let! l := at_ st e in move_assign st l r)
  | CopyAssign e f => unit_ (let! r := at_ st f in let! l := at_ st e in copy_assign st l r)
  | Reset e => unit_ (let! l := at_ st e in reset st l)
  | SetNull e => unit_ (let! l := at_ st e in set_null st l)
  | Destroy v => unit_ (destroy st v)
  | Refcount e => let! l := at_ st e in let! n := refcount st l in Ok (st, RN n)
  | IsUnique e => let! l := at_ st e in let! n := refcount st l in Ok (st, RB (n =? 1)%Z)      (* 73 *)
  | IsValid e => let! l := at_ st e in let! p := read st l in Ok (st, RB (negb (is_null p)))    (* 53 *)
  | Equal e f => let! l := at_ st e in let! r := at_ st f in
                 let! p := read st l in let! q := read st r in Ok (st, RB (ptr_eqb p q))        (* 150 *)
  end.
Fixpoint run (st : state) (os : list op) : outcome (state * list res) :=
  match os with
  | [] => Ok (st, [])
  | o :: os => let! x := step st o in let! y := run (fst x) os in Ok (fst y, snd x :: snd y)
  end.

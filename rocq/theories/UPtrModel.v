(* cc::unique_ptr (src/clean-core/unique_ptr.hh) and cc::poly_unique_ptr (src/clean-core/poly_unique_ptr.hh):
   variables and heap objects that contain pointers of the same type.  Both classes have the same control
   flow; cc::free (allocate.hh 143-150) and delete run the destructor and release the memory.
   Objects, locations and paths as in SPtrModel.v.
   Simplified: objects consist of pointers only; poly_unique_ptr<U> to poly_unique_ptr<T> (52-66) is the same
   code; raw pointers (poly_unique_ptr release 84-89 and reset with an argument) are not modelled. *)
From Coq Require Import ZArith Arith List Bool.
From Verif Require Import Base SPtrModel.
Import ListNotations.

(* UDying: the destructor is running, the members listed are not yet destroyed *)
Inductive ucell := ULive (fs : list (option nat)) | UDying (fs : list (option nat)) | UFreed.
Record ustate := mku { uvars : list (option (option nat)); uheap : list ucell }.
(* reading and writing _ptr *)
Definition uread (st : ustate) (l : loc) : outcome (option nat) :=
  match l with
  | LVar v => match nth_error (uvars st) v with Some (Some p) => Ok p | _ => UB end
  | LFld o i => match nth_error (uheap st) o with
                | Some (ULive fs) => match nth_error fs i with Some p => Ok p | None => UB end
                | _ => UB end
  end.
Definition uwrite (st : ustate) (l : loc) (p : option nat) : outcome ustate :=
  match l with
  | LVar v => match nth_error (uvars st) v with Some (Some _) => Ok (mku (lset (uvars st) v (Some p)) (uheap st)) | _ => UB end
  | LFld o i => match nth_error (uheap st) o with
                | Some (ULive fs) => if i <? length fs then Ok (mku (uvars st) (lset (uheap st) o (ULive (lset fs i p)))) else UB
                | _ => UB end
  end.
(* cc::free(ptr) / delete ptr: members are destroyed in reverse order, each by ~unique_ptr (unique_ptr.hh 53-58,
   poly_unique_ptr.hh 68-72) *)
Fixpoint ufree (fuel : nat) (h : list ucell) (c : nat) : outcome (list ucell) :=
  match fuel with
  | O => OutOfFuel
  | S fuel =>
      match nth_error h c with
      | Some (ULive fs) =>
          let! h := (fix members (todo : list (option nat)) (h : list ucell) : outcome (list ucell) :=
             match todo with
             | [] => Ok h
             | p :: todo =>
                 let h := lset h c (UDying (rev todo)) in
                 match p with
                 | None => members todo h
                 | Some d => let! h := ufree fuel h d in members todo h
                 end
             end) (rev fs) (lset h c (UDying fs)) in
          Ok (lset h c UFreed)
      | _ => UB
      end
  end.
(* if (_ptr) cc::free(_ptr); _ptr keeps its value *)
Definition udrop (st : ustate) (l : loc) : outcome ustate :=
  let! p := uread st l in
  match p with
  | None => Ok st
  | Some c => let! h := ufree (S (length (uheap st))) (uheap st) c in Ok (mku (uvars st) h)
  end.
Definition uadd (st : ustate) (p : option nat) : ustate := mku (uvars st ++ [Some p]) (uheap st).
(* unique_ptr.hh 99-105 make_unique, poly_unique_ptr.hh 134-140 make_poly_unique: an object with n null members *)
Definition umake (st : ustate) (n : nat) : ustate :=
  mku (uvars st ++ [Some (Some (length (uheap st)))]) (uheap st ++ [ULive (repeat None n)]).
(* unique_ptr.hh 37-41, poly_unique_ptr.hh 37-41 *)
Definition unew_move (st : ustate) (r : loc) : outcome ustate :=
  let! p := uread st r in uwrite (uadd st p) r None.
(* unique_ptr.hh 42-51, poly_unique_ptr.hh 42-50 *)
Definition umove_assign (st : ustate) (l r : loc) : outcome ustate :=
  let! st := udrop st l in
  let! p := uread st r in
  let! st := uwrite st l p in
  uwrite st r None.
(* poly_unique_ptr.hh 74-80 reset(); unique_ptr: assignment from a null temporary (31, 42-51) *)
Definition ureset (st : ustate) (l : loc) : outcome ustate :=
  let! st := udrop st l in uwrite st l None.
(* unique_ptr.hh 53-58, poly_unique_ptr.hh 68-72 for a variable *)
Definition udestroy (st : ustate) (v : nat) : outcome ustate :=
  let! st := udrop st (LVar v) in Ok (mku (lset (uvars st) v None) (uheap st)).

(* v, v->member, ...; unique_ptr.hh 62-66, poly_unique_ptr.hh 91-95 operator-> *)
Fixpoint ufollow (st : ustate) (l : loc) (is : list nat) : outcome loc :=
  match is with
  | [] => Ok l
  | i :: is => let! p := uread st l in
               match p with None => Contract | Some c => ufollow st (LFld c i) is end
  end.
Definition uat (st : ustate) (e : path) : outcome loc :=
  let! l := ufollow st (LVar (fst e)) (snd e) in
  let! _ := uread st l in Ok l.

Inductive uop :=
| UNew | UMake (n : nat) | UNewMove (e : path) | UMoveAssign (e f : path) | UReset (e : path) | UDestroy (v : nat)
| UNonNull (e : path) | UEqual (e f : path).
Definition uunit (o : outcome ustate) : outcome (ustate * res) := let! st := o in Ok (st, RUnit).
Definition ustep (st : ustate) (o : uop) : outcome (ustate * res) :=
  match o with
  | UNew => Ok (uadd st None, RUnit)
  | UMake n => Ok (umake st n, RUnit)
  | UNewMove e => uunit (let! r := uat st e in unew_move st r)
  | UMoveAssign e f => uunit (let! r := uat st f in let! l := uat st e in umove_assign st l r)
  | UReset e => uunit (let! l := uat st e in ureset st l)
  | UDestroy v => uunit (udestroy st v)
  | UNonNull e => let! l := uat st e in let! p := uread st l in Ok (st, RB (negb (is_null p)))
  | UEqual e f => let! l := uat st e in let! r := uat st f in
                  let! p := uread st l in let! q := uread st r in Ok (st, RB (ptr_eqb p q))
  end.
Fixpoint urun (st : ustate) (os : list uop) : outcome (ustate * list res) :=
  match os with
  | [] => Ok (st, [])
  | o :: os => let! x := ustep st o in let! y := urun (fst x) os in Ok (fst y, snd x :: snd y)
  end.

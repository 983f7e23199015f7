(* Model of cc::is_contiguous_range (src/clean-core/is_contiguous_range.hh) and of the functions that use it to read a range
   of elements of type E as elements of type T: the constructors of span (span.hh:32-41), strided_span (strided_span.hh:29-42)
   and vector_base::push_back_range (detail/vector_base.hh:171-197).

   What the compiler decides is part of the model: a call may be rejected in a way that overload resolution sees (NoMatch), be
   chosen and then fail to compile (HardError), or compile and run (Runs).  Memory is a function from addresses to bytes; a
   value of a type of size s is the list of the s bytes at its address.  T is trivially copyable, so
   container_copy_construct_range is memcpy (detail/container_impl_util.hh:33-37).  Addresses do not wrap.  C arrays are
   passed as lvalues. *)
From Coq Require Import NArith ZArith List Lia Bool Arith.
Import ListNotations.
From Verif Require Import Base.
Open Scope N_scope.

Definition memory := N -> N.
(* n bytes from address p on *)
Fixpoint bytes_at (m : memory) (p : N) (n : nat) : list N :=
  match n with O => [] | S n => m p :: bytes_at m (p + 1) n end.

(* how T relates to E *)
Inductive relation :=
| Same                                             (* the same type *)
| Base (offset : N)                                (* E derives from T, the T part is at this offset *)
| Derived (f : option (list N -> list N))          (* T derives from E, and may have a constructor taking an E *)
| Other (f : option (list N -> list N)).           (* no pointer conversion; E may convert to T *)

Inductive range_kind :=
| CArray                                           (* E (&)[N] *)
| Container                                        (* a class with data() and size() *)
| Linked.                                          (* a class with begin() and end() only *)

Record types := mkty { sizeE : N; sizeT : N; rel : relation; constE : bool; constT : bool }.

(* E may not lose its const *)
Definition keeps_const (ty : types) : bool := negb (constE ty) || constT ty.
(* static_cast of a pointer to E, and its implicit conversion, to a pointer to T *)
Definition static_casts (ty : types) : bool :=
  keeps_const ty && match rel ty with Same | Base _ | Derived _ => true | Other _ => false end.
Definition converts (ty : types) : bool :=
  keeps_const ty && match rel ty with Same | Base _ => true | _ => false end.
(* the converted pointer *)
Definition cast (ty : types) (p : N) : N := match rel ty with Base o => p + o | _ => p end.

(* is_contiguous_range.hh:11-32; a C array has no data(), its element type must be T *)
Definition is_contiguous_range (k : range_kind) (ty : types) : bool :=
  match k with
  | CArray => match rel ty with Same => Bool.eqb (constE ty) (constT ty) | _ => false end
  | Container => static_casts ty
  | Linked => false
  end.

Inductive compiled (A : Type) := NoMatch | HardError | Runs (x : A).
Arguments NoMatch {A}.  Arguments HardError {A}.  Arguments Runs {A} _.

(* a view of T elements: address, number, distance *)
Record aview := mkview { vdata : N; vsize : nat; vstride : N }.
Definition view_at (m : memory) (ty : types) (v : aview) (i : nat) : list N :=
  bytes_at m (vdata v + vstride v * N.of_nat i) (N.to_nat (sizeT ty)).

(* span.hh:32-34 for C arrays, span.hh:36-41 for containers *)
Definition span_of (k : range_kind) (ty : types) (a : N) (n : nat) : compiled aview :=
  match k with
  | CArray => match rel ty with
              | Same => if keeps_const ty then Runs (mkview a n (sizeT ty)) else NoMatch
              | _ => NoMatch
              end
  | _ => if is_contiguous_range k ty then
           if converts ty then Runs (mkview (cast ty a) n (sizeT ty)) else HardError
         else NoMatch
  end.
(* strided_span.hh:32-35 and :37-42: the default stride is sizeof(T) *)
Definition strided_span_of (k : range_kind) (ty : types) (a : N) (n : nat) : compiled aview := span_of k ty a n.
(* strided_span.hh:30 with a pointer to the first element and an explicit stride *)
Definition strided_span_with (ty : types) (a : N) (n : nat) (stride : N) : compiled aview :=
  if converts ty then Runs (mkview (cast ty a) n stride) else NoMatch.

(* push_back(v) for an element at address p: the bytes of the new element, if it compiles *)
Definition push_back (m : memory) (ty : types) (p : N) : option (list N) :=
  match rel ty with
  | Same | Base _ => Some (bytes_at m (cast ty p) (N.to_nat (sizeT ty)))
  | Derived (Some f) | Other (Some f) => Some (f (bytes_at m p (N.to_nat (sizeE ty))))
  | Derived None | Other None => None
  end.

(* consecutive elements *)
Fixpoint chunks (m : memory) (p size : N) (n : nat) : list (list N) :=
  match n with O => [] | S n => bytes_at m p (N.to_nat size) :: chunks m (p + size) size n end.

(* detail/vector_base.hh:171-197: the elements that are appended; addrs are the addresses of the elements of the range, in order *)
Definition push_back_range (m : memory) (k : range_kind) (ty : types) (addrs : list N) : compiled (list (list N)) :=
  if is_contiguous_range k (mkty (sizeE ty) (sizeT ty) (rel ty) (constE ty) false) then
    if converts (mkty (sizeE ty) (sizeT ty) (rel ty) (constE ty) true) then                    (* :187, &range[0] is passed as a pointer to T const *)
      Runs (match addrs with [] => [] | a :: _ => chunks m (cast ty a) (sizeT ty) (length addrs) end)
    else HardError
  else
    match rel ty with
    | Derived None | Other None => HardError                                                   (* the loop does not compile *)
    | _ => Runs (map (fun p => match push_back m ty p with Some x => x | None => [] end) addrs)
    end.

(* where the elements of an array of n elements at address a are *)
Definition array_at (sizeE a : N) (n : nat) : list N := map (fun i => a + sizeE * N.of_nat i) (seq 0 n).

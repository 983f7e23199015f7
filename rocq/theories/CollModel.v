(* Model of cc::collection_traits and the functions collection_begin, collection_size, collection_add and collection_traits::get
   (src/clean-core/collection_traits.hh).

   A type is described by what the compiler can see of it: whether it has begin/end, size, data, a subscript operator taking a
   size_t, which ways to add an element, and whether the elements are const.  Whether a call compiles is part of the model, as
   in RangeModel.v: NoMatch if overload resolution (enable_if) rejects it, HardError if it fails inside.  Calls that compile
   are given their effect on the contents.  Elements, keys and values are numbers.  Capacities are not limited.  Reference
   qualified members are left out, so T, T& and T&& differ in nothing but the const (lines 336-366 agree on that). *)
From Coq Require Import NArith ZArith List Lia Bool Arith.
Import ListNotations.
From Verif Require Import Base RangeModel.
Open Scope N_scope.

Inductive adder := PushBack | Add | Insert | Push | ShiftLeft | PlusAssign.
Definition adder_eqb (a b : adder) : bool :=
  match a, b with
  | PushBack, PushBack | Add, Add | Insert, Insert | Push, Push | ShiftLeft, ShiftLeft | PlusAssign, PlusAssign => true
  | _, _ => false
  end.

(* what expressions on an object are well-formed *)
Record members := mkm { m_range : bool; m_size : bool; m_data : bool; m_index : bool; m_add : adder -> bool; m_const : bool }.
Definition nothing : adder -> bool := fun _ => false.
Definition only (a : adder) : adder -> bool := adder_eqb a.

Inductive kind :=
| Vector                      (* detail/vector_base.hh:68-107, :154-160; capped_vector.hh:24-66, :170-178 *)
| Text                        (* sbo_string.hh:64-69, :244, :661 *)
| View (c : bool)             (* span.hh:53-61, string_view.hh:73-90; c: the elements are const *)
| Strided (c : bool)          (* strided_span.hh: begin, end, size, operator[] but no data() *)
| DynArray                    (* array.hh:195-210 *)
| FixedArray (n : nat)        (* array.hh:29-47 *)
| CArray (n : nat)
| Set_                        (* set.hh:20, :67, :227 *)
| Map_                        (* map.hh:64, :110-111 (any type, not const), :391-393 *)
| List_                       (* forward_list.hh:22, :128-130 *)
| Custom (f : bool -> members)
| NoCollection.

(* const or not *)
Definition members_of (k : kind) (c : bool) : members :=
  match k with
  | Vector => mkm true true true true (if c then nothing else only PushBack) c
  | Text => mkm true true true true (if c then nothing else fun a => only PushBack a || only PlusAssign a) c
  | View e => mkm true true true true nothing e
  | Strided e => mkm true true false true nothing e
  | DynArray => mkm true true true true nothing c
  | FixedArray _ => mkm true true true true nothing c
  | CArray _ => mkm false false false true nothing c
  | Set_ => mkm true true false false (if c then nothing else only Add) true
  | Map_ => mkm true true false (negb c) nothing c
  | List_ => mkm true true false false nothing c
  | Custom f => f c
  | NoCollection => mkm false false false false nothing c
  end.

(* collection_traits.hh:144-182: the overload with the highest priority that is well-formed *)
Definition chosen (add : adder -> bool) : option adder :=
  if add PushBack then Some PushBack else if add Add then Some Add else if add Insert then Some Insert
  else if add Push then Some Push else if add ShiftLeft then Some ShiftLeft else if add PlusAssign then Some PlusAssign else None.

Record traits := mkt {
  is_range : bool; has_size : bool; has_data : bool; has_index_access : bool; is_indexed_range : bool; is_contiguous : bool;
  fixed_size : option nat; can_add : bool; element_const : bool
}.
(* :189-202 *)
Definition base_traits : traits := mkt false false false false false false None false false.
(* :204-250 *)
Definition inferred (m : members) : traits :=
  mkt (m_range m) (m_size m) (m_data m) (m_index m) (m_size m && m_index m) (m_data m && m_size m) None
      (match chosen (m_add m) with Some _ => true | None => false end) (m_const m).
(* :252-305 *)
Definition array_traits (n : nat) (c : bool) : traits := mkt true true true true true true (Some n) false c.

(* :308-366: a C array deduces a const element type, the specializations of array<T, N> const use T *)
Definition collection_traits (k : kind) (c : bool) : traits :=
  match k with
  | CArray n => array_traits n c
  | FixedArray n => array_traits n false
  | _ => if m_range (members_of k c) then inferred (members_of k c) else base_traits
  end.

(* contents; of a map the pairs in iteration order *)
Inductive contents := Elements (l : list N) | Pairs (l : list (N * N)).
Definition count (s : contents) : nat := match s with Elements l => length l | Pairs l => length l end.

(* :47-52, :222, :268, :296: the specializations of array<T, N> const return a T* to a const array *)
Definition collection_begin (k : kind) (c : bool) : compiled unit :=
  if is_range (collection_traits k c) then
    match k with
    | FixedArray _ => if c then HardError else Runs tt
    | _ => Runs tt
    end
  else NoMatch.
(* :62-67, :225, :271, :299 *)
Definition collection_size (k : kind) (c : bool) (s : contents) : compiled nat :=
  if has_size (collection_traits k c) then
    match fixed_size (collection_traits k c) with Some n => Runs n | None => Runs (count s) end
  else NoMatch.

(* map.hh:110-131; a new pair is put in front (of its bucket) *)
Definition map_index (l : list (N * N)) (key : N) : N * list (N * N) :=
  match find (fun p => fst p =? key) l with Some p => (snd p, l) | None => (0, (key, 0) :: l) end.
Definition at_index (l : list N) (i : nat) : outcome (N * contents) :=
  match nth_error l i with Some x => Ok (x, Elements l) | None => UB end.
(* operator[]: containers check the index *)
Definition subscript (s : contents) (i : nat) : outcome (N * contents) :=
  match s with
  | Elements l => match nth_error l i with Some x => Ok (x, s) | None => Contract end
  | Pairs l => let (v, l) := map_index l (N.of_nat i) in Ok (v, Pairs l)
  end.
(* :229-249, :273-279, :301-305: the value read and the contents afterwards *)
Definition get (k : kind) (c : bool) (s : contents) (i : nat) : compiled (outcome (N * contents)) :=
  let data := match s with Elements l => at_index l i | Pairs _ => UB end in
  match k with
  | CArray _ => Runs data
  | FixedArray _ => if c then HardError else Runs data
  | _ =>
      let t := collection_traits k c in
      if has_data t then Runs data else if has_index_access t then Runs (subscript s i) else HardError
  end.

(* what the members do with a value; that of a user's type is given by a function *)
Definition apply_add (user : adder -> N -> list N -> list N) (k : kind) (a : adder) (v : N) (l : list N) : list N :=
  match k with
  | Custom _ => user a v l
  | Set_ => if existsb (N.eqb v) l then l else v :: l            (* set.hh:67-83 *)
  | _ => l ++ [v]                                                (* push_back, operator+= *)
  end.
(* :69-75, :227 *)
Definition collection_add (user : adder -> N -> list N -> list N) (k : kind) (c : bool) (s : contents) (v : N) : compiled contents :=
  if can_add (collection_traits k c) then
    match chosen (m_add (members_of k c)), s with
    | Some a, Elements l => Runs (Elements (apply_add user k a v l))
    | _, _ => HardError
    end
  else NoMatch.

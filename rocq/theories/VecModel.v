(* Model of src/clean-core/detail/vector_base.hh, vector.hh and detail/container_impl_util.hh for element types with
   non-trivial copy/move/destructor (the "else" branches of the if constexpr).  alloc_vector.hh shares vector_base.
   size_t values are N with 64-bit wrap-around; the storage is a list of cells (Cells.v), [] for a null pointer (every
   access to it is UB, releasing it is fine).  Allocation is assumed to succeed. *)
From Coq Require Import NArith Arith List Bool.
From Verif Require Import Base Cells.
Import ListNotations.
Open Scope N_scope.

Section Vec.
  Context {A : Type}.
  Notation cells := (list (cell A)).

  (* vector_base.hh:488-490 _data, _size, _capacity *)
  Record vec := mkV { data : cells; size : N; cap : N }.
  Definition init : vec := mkV [] 0 0.

  (* ---- container_impl_util.hh ---- *)
  (* :14-28 container_move_construct_range: n elements from index i on *)
  Fixpoint move_construct (n i : nat) (src dst : cells) : outcome (cells * cells) :=
    match n with
    | O => Ok (src, dst)
    | S n =>
        let! (v, src) := move_out src i in
        let! dst := construct dst i v in
        move_construct n (S i) src dst
    end.
  (* :30-44 container_copy_construct_range / :63-68 container_copy_construct_fill: from foreign values to dst[i..] *)
  Fixpoint copy_construct (vs : list A) (i : nat) (dst : cells) : outcome cells :=
    match vs with
    | [] => Ok dst
    | v :: vs => let! dst := construct dst i v in copy_construct vs (S i) dst
    end.
  (* the source values of a copy: n reads from index i on *)
  Fixpoint read_range (n i : nat) (src : cells) : outcome (list A) :=
    match n with
    | O => Ok []
    | S n => let! v := cread src i in let! vs := read_range n (S i) src in Ok (v :: vs)
    end.
  (* :70-92 container_relocate_construct_range(data + s + k, data + s, n), elements handled from the last one down *)
  Fixpoint relocate (n s k : nat) (d : cells) : outcome cells :=
    match n with
    | O => Ok d
    | S n =>
        let! (v, d) := move_out d (s + n) in
        let! d := construct d (s + k + n) v in
        let! d := destroy d (s + n) in
        relocate n s k d
    end.
  (* :94-103 container_destroy_reverse(data, to + n, to) *)
  Fixpoint destroy_reverse (n to : nat) (d : cells) : outcome cells :=
    match n with
    | O => Ok d
    | S n => let! d := destroy d (to + n) in destroy_reverse n to d
    end.
  Definition destroy_to (v : vec) (to : N) : outcome cells :=
    destroy_reverse (N.to_nat (size v) - N.to_nat to) (N.to_nat to) (data v).

  (* ---- vector_base.hh ---- *)
  (* :66-72 *)
  Definition capacity_remaining (v : vec) : N := wsub 64 (cap v) (size v).
  Definition empty (v : vec) : bool := size v =? 0.
  Definition at_capacity (v : vec) : bool := capacity_remaining v =? 0.
  (* :80-99 front, back *)
  Definition front (v : vec) : outcome A :=
    let! _ := contract (negb (empty v)) in cread (data v) 0.
  Definition back (v : vec) : outcome A :=
    let! _ := contract (negb (empty v)) in cread (data v) (N.to_nat (wsub 64 (size v) 1)).
  (* :101-110 operator[] read and write *)
  Definition index (v : vec) (i : N) : outcome A :=
    let! _ := contract (i <? size v) in cread (data v) (N.to_nat i).
  Definition set_at (v : vec) (i : N) (x : A) : outcome vec :=
    let! _ := contract (i <? size v) in
    let! d := assign (data v) (N.to_nat i) x in Ok (mkV d (size v) (cap v)).

  (* constructor argument: a value from elsewhere or a reference to element p of this vector *)
  Inductive arg := Val (x : A) | Own (p : N).
  Definition eval (v : vec) (a : arg) : outcome A :=
    match a with Val x => Ok x | Own p => cread (data v) (N.to_nat p) end.

  (* :133-145, 258-266: move everything into new storage nd of nc elements and release the old one *)
  Definition move_to (v : vec) (nd : cells) : outcome cells :=
    let! (d, nd) := move_construct (N.to_nat (size v)) 0 (data v) nd in
    let! d := destroy_reverse (N.to_nat (size v)) 0 d in
    let! _ := release d in Ok nd.

  (* :115-149 emplace_back (push_back :152-159) *)
  Definition emplace_back (v : vec) (a : arg) : outcome vec :=
    if size v =? cap v then
      let new_cap := (if cap v =? 0 then 1 else wrap 64 (N.shiftl (cap v) 1)) in
      let nd := raw_storage (N.to_nat new_cap) in
      let! x := eval v a in
      let! nd := construct nd (N.to_nat (size v)) x in
      let! nd := move_to v nd in
      Ok (mkV nd (wadd 64 (size v) 1) new_cap)
    else
      let! x := eval v a in
      let! d := construct (data v) (N.to_nat (size v)) x in
      Ok (mkV d (wadd 64 (size v) 1) (cap v)).
  (* :161-167 emplace_back_stable *)
  Definition emplace_back_stable (v : vec) (a : arg) : outcome vec :=
    let! _ := contract (size v <? cap v) in
    let! x := eval v a in
    let! d := construct (data v) (N.to_nat (size v)) x in
    Ok (mkV d (wadd 64 (size v) 1) (cap v)).

  (* :239-267 reserve *)
  Definition reserve (v : vec) (n : N) : outcome vec :=
    let! _ := contract (n <=? 2 ^ 48) in
    if n <=? cap v then Ok v else
    let new_cap := wrap 64 (N.shiftl (cap v) 1) in
    let new_cap := (if new_cap <? n then n else new_cap) in
    let! nd := move_to v (raw_storage (N.to_nat new_cap)) in
    Ok (mkV nd (size v) new_cap).

  (* :464-473 push_back_range_n (push_back_range :169-196 on a contiguous range): values outside this vector *)
  Definition push_back_range (v : vec) (vs : list A) : outcome vec :=
    match vs with
    | [] => Ok v
    | _ =>
        let n := N.of_nat (length vs) in
        let! v := reserve v (wadd 64 (size v) n) in
        let! d := copy_construct vs (N.to_nat (size v)) (data v) in
        Ok (mkV d (wadd 64 (size v) n) (cap v))
    end.
  (* the same with a range of n elements of this vector, starting at element p; once reserve has moved the elements to
     other storage the source pointer dangles *)
  Definition push_back_own_range (v : vec) (p n : N) : outcome vec :=
    if n =? 0 then Ok v else
    let need := wadd 64 (size v) n in
    let! v' := reserve v need in
    let! _ := defined (need <=? cap v) in
    let! vs := read_range (N.to_nat n) (N.to_nat p) (data v') in
    let! d := copy_construct vs (N.to_nat (size v')) (data v') in
    Ok (mkV d (wadd 64 (size v') n) (cap v')).

  (* :205-222 insert_range_at (insert_at :203); the values must not be elements of this vector (documented) *)
  Definition insert_range_at (v : vec) (i : N) (vs : list A) : outcome vec :=
    let! _ := contract (i <=? size v) in
    match vs with
    | [] => Ok v
    | _ =>
        let n := N.of_nat (length vs) in
        let! v := reserve v (wadd 64 (size v) n) in
        let! d := relocate (N.to_nat (wsub 64 (size v) i)) (N.to_nat i) (length vs) (data v) in
        let! d := copy_construct vs (N.to_nat i) d in
        Ok (mkV d (wadd 64 (size v) n) (cap v))
    end.

  (* :226-231 pop_back; :236-242 get_and_pop_back *)
  Definition pop_back (v : vec) : outcome vec :=
    let! _ := contract (0 <? size v) in
    let s := wsub 64 (size v) 1 in
    let! d := destroy (data v) (N.to_nat s) in
    Ok (mkV d s (cap v)).
  Definition get_and_pop_back (v : vec) : outcome (A * vec) :=
    let! _ := contract (0 <? size v) in
    let s := wsub 64 (size v) 1 in
    let! (x, d) := move_out (data v) (N.to_nat s) in
    let! d := destroy d (N.to_nat s) in
    Ok (x, mkV d s (cap v)).

  (* :272-293 resize; x is T() or the default value (not an interior reference, as documented) *)
  Definition resize (v : vec) (n : N) (x : A) : outcome vec :=
    let! v := (if cap v <? n then reserve v n else Ok v) in
    let! d := copy_construct (repeat x (N.to_nat n - N.to_nat (size v))) (N.to_nat (size v)) (data v) in
    let! d := destroy_to (mkV d (size v) (cap v)) n in
    Ok (mkV d n (cap v)).

  (* :297-301 clear *)
  Definition clear (v : vec) : outcome vec :=
    let! d := destroy_to v 0 in Ok (mkV d 0 (cap v)).

  (* :304-326 shrink_to_fit: the new vector and the storage handed to _free, with whatever still lives in it *)
  Definition shrink_to_fit (v : vec) : outcome (vec * cells) :=
    if size v =? cap v then Ok (v, []) else
    let! (d, nd) := move_construct (N.to_nat (size v)) 0 (data v) (raw_storage (N.to_nat (size v))) in
    Ok (mkV nd (size v) (size v), d).

  (* _data[i] = cc::move(_data[j]) *)
  Definition move_assign_elem (d : cells) (i j : nat) : outcome cells :=
    let! (x, d) := move_out d j in assign d i x.

  (* :330-344 remove_all: n elements left, next is i, idx kept so far *)
  Fixpoint remove_loop (p : A -> bool) (n i idx : nat) (d : cells) : outcome (cells * nat) :=
    match n with
    | O => Ok (d, idx)
    | S n =>
        let! x := cread d i in
        if p x then remove_loop p n (S i) idx d
        else
          let! d := (if (idx =? i)%nat then Ok d else move_assign_elem d idx i) in
          remove_loop p n (S i) (S idx) d
    end.
  Definition remove_all (v : vec) (p : A -> bool) : outcome (N * vec) :=
    let! (d, idx) := remove_loop p (N.to_nat (size v)) 0 0 (data v) in
    let! d := destroy_to (mkV d (size v) (cap v)) (N.of_nat idx) in
    Ok (wsub 64 (size v) (N.of_nat idx), mkV d (N.of_nat idx) (cap v)).

  (* n assignments _data[i] = move(_data[i + k]), for i, i+1, ... *)
  Fixpoint shift (n i k : nat) (d : cells) : outcome cells :=
    match n with
    | O => Ok d
    | S n => let! d := move_assign_elem d i (i + k) in shift n (S i) k d
    end.
  (* the same loop with the 64-bit arithmetic of the source: for (i = idx; i < bound; ++i) _data[i] = move(_data[i + cnt]) *)
  Fixpoint shift64 (n : nat) (i bound cnt : N) (d : cells) : outcome cells :=
    match n with
    | O => OutOfFuel
    | S n =>
        if i <? bound then
          let! d := move_assign_elem d (N.to_nat i) (N.to_nat (wadd 64 i cnt)) in shift64 n (wadd 64 i 1) bound cnt d
        else Ok d
    end.
  (* :391-404 remove_range *)
  Definition remove_range (v : vec) (idx cnt : N) : outcome vec :=
    if cnt =? 0 then Ok v else
    let! _ := contract (idx <? size v) in
    let! _ := contract (wadd 64 idx cnt <=? size v) in
    let s := wsub 64 (size v) cnt in
    let! d := shift64 (S (length (data v))) idx s cnt (data v) in
    let! d := destroy_to (mkV d (size v) (cap v)) s in
    Ok (mkV d s (cap v)).
  (* :407-414 remove_at *)
  Definition remove_at (v : vec) (idx : N) : outcome vec :=
    let! _ := contract (idx <? size v) in
    let! d := shift (N.to_nat (size v) - N.to_nat idx - 1) (N.to_nat idx) 1 (data v) in
    let s := wsub 64 (size v) 1 in
    let! d := destroy d (N.to_nat s) in
    Ok (mkV d s (cap v)).
  (* utility.hh:10-15 swap of two elements; when both are the same element the middle assignment moves the moved-from
     element onto itself, which is taken to leave it moved-from *)
  Definition swap (d : cells) (i j : nat) : outcome cells :=
    let! (x, d) := move_out d i in
    let! d := (if (i =? j)%nat then Ok d else move_assign_elem d i j) in
    assign d j x.
  (* :417-422 remove_at_unordered *)
  Definition remove_at_unordered (v : vec) (idx : N) : outcome vec :=
    let! _ := contract (idx <? size v) in
    let! _ := contract (negb (empty v)) in
    let! d := swap (data v) (N.to_nat idx) (N.to_nat (wsub 64 (size v) 1)) in
    pop_back (mkV d (size v) (cap v)).

  (* :348-373 remove_first, remove_first_unordered: index of the first match, n elements left *)
  Fixpoint find_loop (p : A -> bool) (n i : nat) (d : cells) : outcome (option nat) :=
    match n with
    | O => Ok None
    | S n => let! x := cread d i in if p x then Ok (Some i) else find_loop p n (S i) d
    end.
  Definition remove_first (v : vec) (p : A -> bool) : outcome (bool * vec) :=
    let! r := find_loop p (N.to_nat (size v)) 0 (data v) in
    match r with
    | Some i => let! v := remove_at v (N.of_nat i) in Ok (true, v)
    | None => Ok (false, v)
    end.
  Definition remove_first_unordered (v : vec) (p : A -> bool) : outcome (bool * vec) :=
    let! r := find_loop p (N.to_nat (size v)) 0 (data v) in
    match r with
    | Some i => let! v := remove_at_unordered v (N.of_nat i) in Ok (true, v)
    | None => Ok (false, v)
    end.
  (* :433-440 contains *)
  Definition contains (v : vec) (eqb : A -> bool) : outcome bool :=
    let! r := find_loop eqb (N.to_nat (size v)) 0 (data v) in
    Ok (match r with Some _ => true | None => false end).
  (* :442-450 operator== with the elements of another container *)
  Fixpoint equal_loop (eqb : A -> A -> bool) (i : nat) (d : cells) (rhs : list A) : outcome bool :=
    match rhs with
    | [] => Ok true
    | y :: rhs => let! x := cread d i in if eqb x y then equal_loop eqb (S i) d rhs else Ok false
    end.
  Definition equal (eqb : A -> A -> bool) (v : vec) (rhs : list A) : outcome bool :=
    if size v =? N.of_nat (length rhs) then equal_loop eqb 0 (data v) rhs else Ok false.

  (* ---- vector.hh ---- *)
  (* :20-23 vector(size) ; x is T() *)
  Definition make_sized (n : N) (x : A) : outcome vec :=
    let! d := copy_construct (repeat x (N.to_nat n)) 0 (raw_storage (N.to_nat n)) in Ok (mkV d n n).
  (* :53-58 vector(begin, num), :71 copy constructor *)
  Definition make_from (vs : list A) : outcome vec :=
    let! v := reserve init (N.of_nat (length vs)) in
    let! d := copy_construct vs 0 (data v) in
    Ok (mkV d (N.of_nat (length vs)) (cap v)).
  Definition values (v : vec) : outcome (list A) := read_range (N.to_nat (size v)) 0 (data v).
  Definition copy_ctor (rhs : vec) : outcome vec := let! vs := values rhs in make_from vs.
  (* :82-86 destructor *)
  Definition destructor (v : vec) : outcome unit := let! d := destroy_to v 0 in release d.
  (* :87-104 copy assignment from another vector *)
  Definition copy_assign (v rhs : vec) : outcome vec :=
    let! d := destroy_to v 0 in
    let! (d, c) := (if cap v <? size rhs then
                      let! _ := release d in Ok (raw_storage (N.to_nat (size rhs)), size rhs)
                    else Ok (d, cap v)) in
    let! vs := values rhs in
    let! d := copy_construct vs 0 d in
    Ok (mkV d (size rhs) c).
  (* :73-81 move constructor, :105-116 move assignment: (this, rhs afterwards); on itself the vector ends up empty *)
  Definition move_ctor (rhs : vec) : vec * vec := (rhs, init).
  Definition move_assign (v rhs : vec) : outcome (vec * vec) := let! _ := destructor v in Ok (rhs, init).
  Definition self_move_assign (v : vec) : outcome vec := let! _ := destructor v in Ok init.

  (* ---- histories over a store of vectors ---- *)
  Inductive op :=
  | PushBack (x : A) | PushBackOf (i : N) | PushRange (vs : list A)
  | InsertRange (i : N) (vs : list A) | PopBack | GetPop | Reserve (n : N) | Resize (n : N) (x : A) | Clear
  | RemoveAll (p : A -> bool) | RemoveFirst (p : A -> bool) | RemoveFirstUnordered (p : A -> bool)
  | RemoveRange (i n : N) | RemoveAt (i : N) | RemoveAtUnordered (i : N)
  | Get (i : N) | SetAt (i : N) (x : A) | Front | Back | Size | Contains (p : A -> bool).
  Inductive res := RUnit | RVal (x : A) | RN (n : N) | RB (b : bool).

  Definition rv {R} (f : R -> res) (o : outcome (R * vec)) : outcome (vec * res) := let! (r, v) := o in Ok (v, f r).
  Definition ru (o : outcome vec) : outcome (vec * res) := let! v := o in Ok (v, RUnit).
  Definition rr {R} (v : vec) (f : R -> res) (o : outcome R) : outcome (vec * res) := let! r := o in Ok (v, f r).
  Definition step (v : vec) (o : op) : outcome (vec * res) :=
    match o with
    | PushBack x => ru (emplace_back v (Val x))
    | PushBackOf i => let! _ := contract (i <? size v) in ru (emplace_back v (Own i))
    | PushRange vs => ru (push_back_range v vs)
    | InsertRange i vs => ru (insert_range_at v i vs)
    | PopBack => ru (pop_back v)
    | GetPop => rv RVal (get_and_pop_back v)
    | Reserve n => ru (reserve v n)
    | Resize n x => ru (resize v n x)
    | Clear => ru (clear v)
    | RemoveAll p => rv RN (remove_all v p)
    | RemoveFirst p => rv RB (remove_first v p)
    | RemoveFirstUnordered p => rv RB (remove_first_unordered v p)
    | RemoveRange i n => ru (remove_range v i n)
    | RemoveAt i => ru (remove_at v i)
    | RemoveAtUnordered i => ru (remove_at_unordered v i)
    | Get i => rr v RVal (index v i)
    | SetAt i x => ru (set_at v i x)
    | Front => rr v RVal (front v)
    | Back => rr v RVal (back v)
    | Size => Ok (v, RN (size v))
    | Contains p => rr v RB (contains v p)
    end.

  (* operations on a store of vectors; None is a destroyed one.  Naming a vector that does not exist is UB. *)
  Inductive wop :=
  | On (k : nat) (o : op) | New | NewSized (n : N) (x : A) | NewFrom (vs : list A) | CopyNew (k : nat) | MoveNew (k : nat)
  | CopyAssign (k j : nat) | MoveAssign (k j : nat) | Destroy (k : nat).
  Definition world := list (option vec).
  Definition getv (w : world) (k : nat) : outcome vec := match nth_error w k with Some (Some v) => Ok v | _ => UB end.
  Definition wstep (w : world) (o : wop) : outcome (world * res) :=
    match o with
    | On k o => let! v := getv w k in let! (v, r) := step v o in Ok (lset w k (Some v), r)
    | New => Ok (w ++ [Some init], RUnit)
    | NewSized n x => let! v := make_sized n x in Ok (w ++ [Some v], RUnit)
    | NewFrom vs => let! v := make_from vs in Ok (w ++ [Some v], RUnit)
    | CopyNew k => let! v := getv w k in let! v := copy_ctor v in Ok (w ++ [Some v], RUnit)
    | MoveNew k => let! v := getv w k in let (n, v) := move_ctor v in Ok (lset w k (Some v) ++ [Some n], RUnit)
    | CopyAssign k j =>
        let! v := getv w k in let! rhs := getv w j in
        if (k =? j)%nat then Ok (w, RUnit) else let! v := copy_assign v rhs in Ok (lset w k (Some v), RUnit)
    | MoveAssign k j =>
        let! v := getv w k in let! rhs := getv w j in
        if (k =? j)%nat then let! v := self_move_assign v in Ok (lset w k (Some v), RUnit)
        else let! (v, rhs) := move_assign v rhs in Ok (lset (lset w k (Some v)) j (Some rhs), RUnit)
    | Destroy k => let! v := getv w k in let! _ := destructor v in Ok (lset w k None, RUnit)
    end.
  Fixpoint wrun (w : world) (os : list wop) : outcome (world * list res) :=
    match os with
    | [] => Ok (w, [])
    | o :: os => let! (w, r) := wstep w o in let! (w, rs) := wrun w os in Ok (w, r :: rs)
    end.
End Vec.
Arguments vec : clear implicits.
Arguments op : clear implicits.
Arguments wop : clear implicits.
Arguments res : clear implicits.

(* Model of cc::chunked_buffer (src/clean-core/experimental/chunked_buffer.hh) and
   cc::flat_vector_of_vector (src/clean-core/experimental/flat_vector_of_vector.hh).
   The cc::vector members are lists (C27 and C28 are about cc::vector itself). *)
From Coq Require Import NArith ZArith List Lia Bool Arith.
Import ListNotations.
From Verif Require Import Base.
Open Scope N_scope.

Section Chunked.
  Context {A : Type}.
  (* sizeof(T) *)
  Variable sz : N.

  (* a block of _alloc: room for bcap elements, the first of which are constructed *)
  Record block := mkblk { bcap : N; belems : list A }.
  (* chunked_buffer.hh 84-93: head, end, begin; begin is a block (None: nullptr), head and end count from it *)
  Record chunk := mkchk { cbegin : option nat; chead : N; cend : N }.
  (* chunked_buffer.hh 148-151, with the blocks on the heap *)
  Record buf := mkbuf { heap : list block; curr : chunk; full : list chunk; full_size : N; chunk_size : N }.

  (* the default member initialisers *)
  Definition init : buf := mkbuf [] (mkchk None 0 0) [] 0 1024.

  (* chunked_buffer.hh 90 *)
  Definition is_valid (c : chunk) : bool := negb (chead c =? cend c).

  (* chunked_buffer.hh 27-28 *)
  Definition size (b : buf) : N := wadd 64 (full_size b) (chead (curr b)).
  Definition empty (b : buf) : bool := size b =? 0.

  (* chunked_buffer.hh 145: new std::byte[size * sizeof(T)]; the product wraps *)
  Definition alloc (n : N) : block := mkblk (wmul 64 n sz / sz) [].

  (* new (place) T(v) at element i of block k: the place must lie in the block; elements are constructed in order *)
  Definition construct (h : list block) (k : nat) (i : N) (v : A) : outcome (list block) :=
    match nth_error h k with
    | None => UB
    | Some blk =>
        let! _ := defined ((i <? bcap blk) && (i =? N.of_nat (length (belems blk)))) in
        Ok (lset h k (mkblk (bcap blk) (belems blk ++ [v])))
    end.

  (* chunked_buffer.hh 31-49; returns the reference: block and position *)
  Definition emplace_back (b : buf) (v : A) : outcome (buf * (nat * N)) :=
    let b :=
      if is_valid (curr b) then b else
      let b := match cbegin (curr b) with
               | Some _ => mkbuf (heap b) (curr b) (full b ++ [curr b]) (wadd 64 (full_size b) (chead (curr b))) (chunk_size b)
               | None => b
               end in
      mkbuf (heap b ++ [alloc (chunk_size b)]) (mkchk (Some (length (heap b))) 0 (chunk_size b))
            (full b) (full_size b) (chunk_size b) in
    let! _ := contract (is_valid (curr b)) in
    match cbegin (curr b) with
    | None => UB
    | Some k =>
        let! h := construct (heap b) k (chead (curr b)) v in
        Ok (mkbuf h (mkchk (Some k) (chead (curr b) + 1) (cend (curr b))) (full b) (full_size b) (chunk_size b),
            (k, chead (curr b)))
    end.

  (* chunked_buffer.hh 65-69 *)
  Definition set_chunk_size (b : buf) (n : N) : outcome buf :=
    let! _ := contract (0 <? n) in Ok (mkbuf (heap b) (curr b) (full b) (full_size b) n).

  (* the elements of the span of a chunk, chunked_buffer.hh 91-92 *)
  Definition chunk_elems (h : list block) (c : chunk) : outcome (list A) :=
    match cbegin c with
    | None => if chead c =? 0 then Ok [] else UB
    | Some k =>
        match nth_error h k with
        | None => UB
        | Some blk => if chead c <=? N.of_nat (length (belems blk))
                      then Ok (firstn (N.to_nat (chead c)) (belems blk)) else UB
        end
    end.

  (* chunked_buffer.hh 99-115: what f is called with *)
  Fixpoint each (h : list block) (cs : list chunk) : outcome (list (list A)) :=
    match cs with
    | [] => Ok []
    | c :: cs => let! x := chunk_elems h c in let! r := each h cs in Ok (x :: r)
    end.
  Definition for_each_chunk (b : buf) : outcome (list (list A)) :=
    let! fs := each (heap b) (full b) in
    if is_valid (curr b) then let! x := chunk_elems (heap b) (curr b) in Ok (fs ++ [x]) else Ok fs.

  (* chunked_buffer.hh 117-140: head and end are positions in _full_chunks; end is one lower for the empty buffer *)
  Fixpoint chunk_walk (fuel : nat) (b : buf) (head end_ : Z) : outcome (list (list A)) :=
    if negb (head =? end_ + 1)%Z then
      match fuel with
      | O => OutOfFuel
      | S fuel =>
          let! x := if (head =? end_)%Z then chunk_elems (heap b) (curr b)
                    else if (head <? 0)%Z then UB
                    else match nth_error (full b) (Z.to_nat head) with
                         | Some c => chunk_elems (heap b) c
                         | None => UB
                         end in
          let! r := chunk_walk fuel b (head + 1) end_ in
          Ok (x :: r)
      end
    else Ok [].
  Definition chunks (b : buf) : outcome (list (list A)) :=
    let e := Z.of_nat (length (full b)) in
    let e := match cbegin (curr b) with None => (e - 1)%Z | Some _ => e end in
    chunk_walk (S (length (full b))) b 0 e.

  (* reading through a reference returned by emplace_back *)
  Definition deref (b : buf) (r : nat * N) : outcome A :=
    match nth_error (heap b) (fst r) with
    | None => UB
    | Some blk => aget (belems blk) (N.to_nat (snd r))
    end.

  (* chunked_buffer.hh 75-81: the blocks freed, and the element destructors run (none) *)
  Definition dtor (b : buf) : list nat * list A :=
    let own c := match cbegin c with Some k => [k] | None => [] end in
    (own (curr b) ++ flat_map own (full b), []).

  Inductive cop := Push (v : A) | SetSize (n : N).
  Fixpoint crun (b : buf) (os : list cop) : outcome (buf * list (nat * N)) :=
    match os with
    | [] => Ok (b, [])
    | Push v :: os => let! (b, r) := emplace_back b v in let! (b, rs) := crun b os in Ok (b, r :: rs)
    | SetSize n :: os => let! b := set_chunk_size b n in crun b os
    end.
End Chunked.
Arguments block A : clear implicits.
Arguments buf A : clear implicits.
Arguments cop A : clear implicits.

Section Flat.
  Context {A : Type}.
  (* bits of IndexT, an unsigned type *)
  Variable w : N.

  (* flat_vector_of_vector.hh 96-97 *)
  Record flat := mkflat { elements : list A; start_idx : list N }.
  Definition finit : flat := mkflat [] [].

  (* flat_vector_of_vector.hh 24-25 *)
  Definition fsize (f : flat) : N := N.of_nat (length (start_idx f)).
  (* the elements of the span between two pointers into _elements *)
  Definition between (f : flat) (s e : N) : outcome (list A) :=
    if (s <=? e) && (e <=? N.of_nat (length (elements f)))
    then Ok (firstn (N.to_nat (e - s)) (skipn (N.to_nat s) (elements f))) else UB.
  (* flat_vector_of_vector.hh 34-47 *)
  Definition findex (f : flat) (i : N) : outcome (list A) :=
    let! _ := contract (i <? fsize f) in
    let! s := aget (start_idx f) (N.to_nat i) in
    let! e := if wadd 64 i 1 =? fsize f then Ok (N.of_nat (length (elements f)))
              else aget (start_idx f) (N.to_nat (wadd 64 i 1)) in
    between f s e.

  (* flat_vector_of_vector.hh 51; conversion to IndexT *)
  Definition start_new_range (f : flat) : flat :=
    mkflat (elements f) (start_idx f ++ [wrap w (N.of_nat (length (elements f)))]).
  (* flat_vector_of_vector.hh 54-67 *)
  Definition push_back_element (f : flat) (v : A) : outcome flat :=
    let! _ := contract (negb (fsize f =? 0)) in Ok (mkflat (elements f ++ [v]) (start_idx f)).
  (* flat_vector_of_vector.hh 71-76 *)
  Definition push_back_elements (f : flat) (vs : list A) : outcome flat :=
    let! _ := contract (negb (fsize f =? 0)) in Ok (mkflat (elements f ++ vs) (start_idx f)).
  (* flat_vector_of_vector.hh 78-82 *)
  Definition fclear (f : flat) : flat := mkflat [] [].

  (* flat_vector_of_vector.hh 86-129: the iterator walks over _start_idx *)
  Fixpoint fwalk (f : flat) (idx : list N) : outcome (list (list A)) :=
    match idx with
    | [] => Ok []
    | s :: rest =>
        let e := match rest with [] => N.of_nat (length (elements f)) | e :: _ => e end in
        let! x := between f s e in
        let! r := fwalk f rest in Ok (x :: r)
    end.
  Definition franges (f : flat) : outcome (list (list A)) := fwalk f (start_idx f).

  Inductive fop := Start | PushElem (v : A) | PushElems (vs : list A) | FClear.
  Definition fstep (f : flat) (o : fop) : outcome flat :=
    match o with
    | Start => Ok (start_new_range f)
    | PushElem v => push_back_element f v
    | PushElems vs => push_back_elements f vs
    | FClear => Ok (fclear f)
    end.
  Fixpoint frun (f : flat) (os : list fop) : outcome flat :=
    match os with [] => Ok f | o :: os => let! f := fstep f o in frun f os end.
End Flat.
Arguments flat A : clear implicits.
Arguments fop A : clear implicits.

(* Model of src/clean-core/experimental/ringbuffer.hh (struct ringbuffer).
   size_t values are N with 64-bit wrap-around; the element storage is a list of cells (Cells.v),
   None for a null pointer.  Allocation is assumed to succeed. *)
From Coq Require Import NArith Arith List Bool.
From Verif Require Import Base Cells.
Import ListNotations.
Open Scope N_scope.

Section Ring.
  Context {A : Type}.

  (* ringbuffer.hh:310-314 members (the allocator pointer is not modelled) *)
  Record ring := mkR { rbegin : N; rend : N; rmask : N; rdata : option (list (cell A)) }.

  (* ringbuffer.hh:29 default constructor *)
  Definition init : ring := mkR 0 0 0 None.

  (* dereferencing _data *)
  Definition deref (r : ring) : outcome (list (cell A)) :=
    match rdata r with Some d => Ok d | None => UB end.

  Definition msk (r : ring) (x : N) : N := N.land x (rmask r).

  (* ringbuffer.hh:98-102 *)
  Definition size (r : ring) : N := msk r (wsub 64 (rend r) (rbegin r)).
  Definition capacity (r : ring) : N := rmask r.
  Definition capacity_remaining (r : ring) : N := wsub 64 (rmask r) (size r).
  Definition empty (r : ring) : bool := rbegin r =? rend r.
  Definition at_capacity (r : ring) : bool := msk r (wadd 64 (wsub 64 (rend r) (rbegin r)) 1) =? 0.

  (* ringbuffer.hh:104-113 front *)
  Definition front (r : ring) : outcome A :=
    let! _ := contract (negb (empty r)) in
    let! d := deref r in cread d (N.to_nat (rbegin r)).
  (* ringbuffer.hh:115-124 back *)
  Definition back (r : ring) : outcome A :=
    let! _ := contract (negb (empty r)) in
    let! d := deref r in cread d (N.to_nat (msk r (wsub 64 (rend r) 1))).
  (* ringbuffer.hh:126-135 operator[] *)
  Definition index (r : ring) (i : N) : outcome A :=
    let! _ := contract (i <? size r) in
    let! d := deref r in cread d (N.to_nat (msk r (wadd 64 (rbegin r) i))).

  (* constructor argument: a value from elsewhere or a reference to the element in cell p of this buffer *)
  Inductive arg := Val (v : A) | Own (p : N).
  Definition eval (r : ring) (a : arg) : outcome A :=
    match a with
    | Val v => Ok v
    | Own p => let! d := deref r in cread d (N.to_nat p)
    end.

  (* ringbuffer.hh:254-259, 282-287: move every element to new_data[i + off] and destroy the source *)
  Fixpoint move_loop (n : nat) (i : N) (r : ring) (d nd : list (cell A)) (off : N)
    : outcome (list (cell A) * list (cell A)) :=
    match n with
    | O => Ok (d, nd)
    | S n =>
        let p := N.to_nat (msk r (wadd 64 (rbegin r) i)) in
        let! (v, d) := move_out d p in
        let! nd := construct nd (N.to_nat (i + off)) v in
        let! d := destroy d p in
        move_loop n (i + 1) r d nd off
    end.

  (* ringbuffer.hh:239-267 emplace_back_grow, 268-296 emplace_front_grow (front = true) *)
  Definition grow (front : bool) (r : ring) (a : arg) : outcome ring :=
    let! _ := contract (at_capacity r) in
    let new_mask := (if rmask r =? 0 then 3 else wadd 64 (wrap 64 (N.shiftl (rmask r) 1)) 1) in
    let new_cap := wadd 64 new_mask 1 in
    let s := size r in
    let nd := raw_storage (N.to_nat new_cap) in
    let! v := eval r a in
    let! nd := construct nd (if front then 0%nat else N.to_nat s) v in
    let d := match rdata r with Some d => d | None => [] end in
    let! (d, nd) := move_loop (N.to_nat s) 0 r d nd (if front then 1 else 0) in
    let! _ := release d in
    Ok (mkR 0 (wadd 64 s 1) new_mask (Some nd)).

  (* ringbuffer.hh:143-158 emplace_back (push_back: 170-172) *)
  Definition emplace_back (r : ring) (a : arg) : outcome ring :=
    let pos := rend r in
    let new_end := msk r (wadd 64 (rend r) 1) in
    if negb (new_end =? rbegin r) then
      let! d := deref r in
      let! v := eval r a in
      let! d := construct d (N.to_nat pos) v in
      Ok (mkR (rbegin r) new_end (rmask r) (Some d))
    else grow false r a.
  (* ringbuffer.hh:160-167 emplace_back_stable *)
  Definition emplace_back_stable (r : ring) (a : arg) : outcome ring :=
    let! _ := contract (negb (at_capacity r)) in
    let! d := deref r in
    let! v := eval r a in
    let! d := construct d (N.to_nat (rend r)) v in
    Ok (mkR (rbegin r) (msk r (wadd 64 (rend r) 1)) (rmask r) (Some d)).

  (* ringbuffer.hh:175-183 pop_back *)
  Definition pop_back (r : ring) : outcome (A * ring) :=
    let! _ := contract (negb (empty r)) in
    let e := msk r (wsub 64 (rend r) 1) in
    let! d := deref r in
    let! (v, d) := move_out d (N.to_nat e) in
    let! d := destroy d (N.to_nat e) in
    Ok (v, mkR (rbegin r) e (rmask r) (Some d)).

  (* ringbuffer.hh:187-200 emplace_front *)
  Definition emplace_front (r : ring) (a : arg) : outcome ring :=
    let new_begin := msk r (wsub 64 (rbegin r) 1) in
    if negb (new_begin =? rend r) then
      let! d := deref r in
      let! v := eval r a in
      let! d := construct d (N.to_nat new_begin) v in
      Ok (mkR new_begin (rend r) (rmask r) (Some d))
    else grow true r a.
  (* ringbuffer.hh:202-208 emplace_front_stable *)
  Definition emplace_front_stable (r : ring) (a : arg) : outcome ring :=
    let! _ := contract (negb (at_capacity r)) in
    let b := msk r (wsub 64 (rbegin r) 1) in
    let! d := deref r in
    let! v := eval r a in
    let! d := construct d (N.to_nat b) v in
    Ok (mkR b (rend r) (rmask r) (Some d)).

  (* ringbuffer.hh:216-224 pop_front *)
  Definition pop_front (r : ring) : outcome (A * ring) :=
    let! _ := contract (negb (empty r)) in
    let! d := deref r in
    let! (v, d) := move_out d (N.to_nat (rbegin r)) in
    let! d := destroy d (N.to_nat (rbegin r)) in
    Ok (v, mkR (msk r (wadd 64 (rbegin r) 1)) (rend r) (rmask r) (Some d)).

  (* ringbuffer.hh:228-233 (also 53-58, 88-93): destroy the elements *)
  Fixpoint destroy_loop (n : nat) (i : N) (r : ring) (d : list (cell A)) : outcome (list (cell A)) :=
    match n with
    | O => Ok d
    | S n =>
        let! d := destroy d (N.to_nat (msk r (wadd 64 (rbegin r) i))) in
        destroy_loop n (i + 1) r d
    end.
  Definition destroy_all (r : ring) : outcome (option (list (cell A))) :=
    match rdata r with
    | Some d => let! d := destroy_loop (N.to_nat (size r)) 0 r d in Ok (Some d)
    | None => if size r =? 0 then Ok None else UB
    end.
  (* ringbuffer.hh:226-236 clear *)
  Definition clear (r : ring) : outcome ring :=
    let! d := destroy_all r in
    Ok (mkR 0 0 (rmask r) d).
  (* ringbuffer.hh:86-95 destructor *)
  Definition destructor (r : ring) : outcome unit :=
    let! d := destroy_all r in
    match d with Some d => release d | None => Ok tt end.

  (* ringbuffer.hh:31-44 move constructor: (new object, source afterwards) *)
  Definition move_ctor (r : ring) : ring * ring := (r, init).
  (* ringbuffer.hh:45-68 move assignment from another object: (this, source afterwards) *)
  Definition move_assign (this rhs : ring) : outcome (ring * ring) :=
    let! _ := destructor this in Ok (rhs, init).

  (* ringbuffer.hh:70-80 copy constructor *)
  Fixpoint copy_loop (n : nat) (i : N) (r : ring) (nd : list (cell A)) : outcome (list (cell A)) :=
    match n with
    | O => Ok nd
    | S n =>
        let! d := deref r in
        let! v := cread d (N.to_nat (msk r (wadd 64 (rbegin r) i))) in
        let! nd := construct nd (N.to_nat i) v in
        copy_loop n (i + 1) r nd
    end.
  Definition copy_ctor (r : ring) : outcome ring :=
    let e := size r in
    let nd := raw_storage (N.to_nat (wadd 64 (rmask r) 1)) in
    (* size() of the new object: _begin = 0, _end = e *)
    let s := N.land (wsub 64 e 0) (rmask r) in
    let! nd := copy_loop (N.to_nat s) 0 r nd in
    Ok (mkR 0 e (rmask r) (Some nd)).

  (* ---- histories ---- *)
  (* PushBackOf i is push_back(b[i]), PushFrontOf i is push_front(b[i]) *)
  Inductive op :=
  | PushBack (v : A) | PushBackOf (i : N) | PushFront (v : A) | PushFrontOf (i : N)
  | PopBack | PopFront | Clear.

  Definition own (r : ring) (i : N) : outcome arg :=
    let! _ := contract (i <? size r) in Ok (Own (msk r (wadd 64 (rbegin r) i))).

  Definition step (r : ring) (o : op) : outcome (ring * option A) :=
    match o with
    | PushBack v => let! r := emplace_back r (Val v) in Ok (r, None)
    | PushBackOf i => let! a := own r i in let! r := emplace_back r a in Ok (r, None)
    | PushFront v => let! r := emplace_front r (Val v) in Ok (r, None)
    | PushFrontOf i => let! a := own r i in let! r := emplace_front r a in Ok (r, None)
    | PopBack => let! (v, r) := pop_back r in Ok (r, Some v)
    | PopFront => let! (v, r) := pop_front r in Ok (r, Some v)
    | Clear => let! r := clear r in Ok (r, None)
    end.
  (* run a history, collecting the values returned by pops *)
  Fixpoint run (r : ring) (os : list op) : outcome (ring * list A) :=
    match os with
    | [] => Ok (r, [])
    | o :: t =>
        let! (r, v) := step r o in
        let! (r, vs) := run r t in
        Ok (r, match v with Some v => v :: vs | None => vs end)
    end.
End Ring.
Arguments ring : clear implicits.
Arguments arg : clear implicits.
Arguments op : clear implicits.

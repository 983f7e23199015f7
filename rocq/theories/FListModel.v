(* Model of src/clean-core/forward_list.hh over an explicit heap of nodes.

   The heap is an append-only table of nodes: an allocated address is never reused, a freed node becomes None,
   and every access through a pointer to a freed node is UB.  A pool of lists is a list of the
   _first members.  Simplified: values are copied abstractly (construction of T does not fail), the
   allocator (cc::alloc / cc::free, allocate.hh) is this table. *)
From Coq Require Import List Arith Bool.
From Verif Require Import Base.
Import ListNotations.

Section FList.
  Context {A : Type}.

  (* forward_list.hh:183-198 struct node: value, next *)
  Record node := mkNode { nvalue : A; nnext : option nat }.
  Definition heap := list (option node).

  (* access through a pointer: None is nullptr *)
  Definition load (h : heap) (p : option nat) : outcome node :=
    match p with
    | None => UB
    | Some a => match nth_error h a with Some (Some n) => Ok n | _ => UB end
    end.
  (* p->next = x *)
  Definition set_next (h : heap) (p : option nat) (x : option nat) : outcome heap :=
    let! n := load h p in
    match p with Some a => Ok (lset h a (Some (mkNode (nvalue n) x))) | None => UB end.
  (* cc::alloc<node>(v): next = nullptr *)
  Definition alloc (h : heap) (v : A) : heap * nat := (h ++ [Some (mkNode v None)], length h).
  (* cc::free(p) on a live node *)
  Definition free (h : heap) (p : option nat) : outcome heap :=
    let! _ := load h p in
    match p with Some a => Ok (lset h a None) | None => UB end.

  (* bound for pointer chases: more steps than the heap has nodes cannot be needed *)
  Definition fuel (h : heap) : nat := S (length h).

  (* forward_list.hh:22-32 size *)
  Fixpoint size_loop (f : nat) (h : heap) (p : option nat) (s : nat) : outcome nat :=
    match f with
    | O => OutOfFuel
    | S f =>
        match p with
        | None => Ok s
        | Some _ => let! n := load h p in size_loop f h (nnext n) (S s)
        end
    end.
  Definition size (h : heap) (first : option nat) : outcome nat := size_loop (fuel h) h first 0.

  (* forward_list.hh:33 empty *)
  Definition empty (first : option nat) : bool := match first with None => true | _ => false end.

  (* forward_list.hh:34-43 front *)
  Definition front (h : heap) (first : option nat) : outcome A :=
    let! _ := contract (negb (empty first)) in
    let! n := load h first in Ok (nvalue n).

  (* forward_list.hh:96-133 begin/end, operator++ / * / != : the values seen by a range-for *)
  Fixpoint iterate (f : nat) (h : heap) (p : option nat) : outcome (list A) :=
    match f with
    | O => OutOfFuel
    | S f =>
        match p with
        | None => Ok []
        | Some _ => let! n := load h p in let! t := iterate f h (nnext n) in Ok (nvalue n :: t)
        end
    end.
  Definition contents (h : heap) (first : option nat) : outcome (list A) := iterate (fuel h) h first.

  (* forward_list.hh:47-56 emplace_front / push_front *)
  Definition emplace_front (h : heap) (first : option nat) (v : A) : outcome (heap * option nat) :=
    let (h, n) := alloc h v in
    let! h := set_next h (Some n) first in
    Ok (h, Some n).

  (* forward_list.hh:58-66 pop_front *)
  Definition pop_front (h : heap) (first : option nat) : outcome (A * heap * option nat) :=
    let! _ := contract (negb (empty first)) in
    let! n := load h first in
    let! h := free h first in
    Ok (nvalue n, h, nnext n).

  (* begin() followed by i increments *)
  Fixpoint advance (i : nat) (h : heap) (p : option nat) : outcome (option nat) :=
    match i with
    | O => Ok p
    | S i => let! n := load h p in advance i h (nnext n)
    end.

  (* forward_list.hh:68-81 erase_after *)
  Definition erase_after (h : heap) (it : option nat) : outcome heap :=
    let! n := load h it in
    let! _ := contract (negb (empty (nnext n))) in
    let to_erase := nnext n in
    let! e := load h to_erase in
    let! h := set_next h it (nnext e) in
    free h to_erase.

  (* forward_list.hh:83-93 clear (also the destructor, :178) *)
  Fixpoint clear_loop (f : nat) (h : heap) (p : option nat) : outcome heap :=
    match f with
    | O => OutOfFuel
    | S f =>
        match p with
        | None => Ok h
        | Some _ => let! n := load h p in let! h := free h p in clear_loop f h (nnext n)
        end
    end.
  Definition clear (h : heap) (first : option nat) : outcome (heap * option nat) :=
    let! h := clear_loop (fuel h) h first in Ok (h, None).

  (* forward_list.hh:137-146, 155-164 copy loop; pn is the previously created node *)
  Fixpoint copy_loop (f : nat) (h : heap) (rn pn first : option nat) : outcome (heap * option nat) :=
    match f with
    | O => OutOfFuel
    | S f =>
        match rn with
        | None => Ok (h, first)
        | Some _ =>
            let! r := load h rn in
            let (h, n) := alloc h (nvalue r) in
            match pn with
            | Some _ =>
                let! h := set_next h pn (Some n) in
                let! r := load h rn in
                copy_loop f h (nnext r) (Some n) first
            | None =>
                let! r := load h rn in
                copy_loop f h (nnext r) (Some n) (Some n)
            end
        end
    end.
  (* forward_list.hh:135-146 copy constructor *)
  Definition copy_ctor (h : heap) (rhs : option nat) : outcome (heap * option nat) :=
    copy_loop (fuel h) h rhs None None.

  (* ---- pools ---- *)
  Record pool := mkP { pheap : heap; pfirst : list (option nat) }.
  Definition pinit : pool := mkP [] [].

  Inductive op :=
  | New                          (* a default constructed list, appended to the pool *)
  | NewCopy (j : nat)            (* copy construction from list j *)
  | NewMove (j : nat)            (* move construction from list j *)
  | EmplaceFront (j : nat) (v : A)
  | PushOf (j k i : nat)         (* j.push_front(element i of list k) *)
  | PopFront (j : nat)
  | EraseAfter (j i : nat)       (* j.erase_after(begin + i) *)
  | Clear (j : nat)
  | CopyAssign (j k : nat)       (* j = k *)
  | MoveAssign (j k : nat).      (* j = move(k) *)

  Definition get (p : pool) (j : nat) : outcome (option nat) :=
    match nth_error (pfirst p) j with Some x => Ok x | None => UB end.
  Definition put (p : pool) (h : heap) (j : nat) (x : option nat) : pool := mkP h (lset (pfirst p) j x).

  Definition step (p : pool) (o : op) : outcome (pool * option A) :=
    match o with
    | New => Ok (mkP (pheap p) (pfirst p ++ [None]), None)
    | NewCopy j =>
        let! x := get p j in
        let! (h, y) := copy_ctor (pheap p) x in
        Ok (mkP h (pfirst p ++ [y]), None)
    | NewMove j => (* forward_list.hh:147-151 *)
        let! x := get p j in
        Ok (mkP (pheap p) (lset (pfirst p) j None ++ [x]), None)
    | EmplaceFront j v =>
        let! x := get p j in
        let! (h, y) := emplace_front (pheap p) x v in
        Ok (put p h j y, None)
    | PushOf j k i =>
        let! x := get p j in
        let! y := get p k in
        let! q := advance i (pheap p) y in
        let! n := load (pheap p) q in
        let! (h, z) := emplace_front (pheap p) x (nvalue n) in
        Ok (put p h j z, None)
    | PopFront j =>
        let! x := get p j in
        let! (v, h, y) := pop_front (pheap p) x in
        Ok (put p h j y, Some v)
    | EraseAfter j i =>
        let! x := get p j in
        let! q := advance i (pheap p) x in
        let! h := erase_after (pheap p) q in
        Ok (put p h j x, None)
    | Clear j =>
        let! x := get p j in
        let! (h, y) := clear (pheap p) x in
        Ok (put p h j y, None)
    | CopyAssign j k => (* forward_list.hh:152-167: clear() first, then read rhs._first *)
        let! x := get p j in
        let! (h, y) := clear (pheap p) x in
        let p := put p h j y in
        let! r := get p k in
        let! (h, y) := copy_loop (fuel (pheap p)) (pheap p) r None None in
        Ok (put p h j y, None)
    | MoveAssign j k => (* forward_list.hh:168-176 *)
        let! x := get p j in
        let! (h, y) := clear (pheap p) x in
        let p := put p h j y in
        let! r := get p k in
        let p := put p (pheap p) j r in
        Ok (put p (pheap p) k None, None)
    end.

  Fixpoint run (p : pool) (os : list op) : outcome (pool * list A) :=
    match os with
    | [] => Ok (p, [])
    | o :: t =>
        let! (p, v) := step p o in
        let! (p, vs) := run p t in
        Ok (p, match v with Some v => v :: vs | None => vs end)
    end.

  (* end of the program: the destructors of all lists run, then no node may be left *)
  Fixpoint clear_all (h : heap) (fs : list (option nat)) : outcome heap :=
    match fs with
    | [] => Ok h
    | f :: t => let! (h, _) := clear h f in clear_all h t
    end.
  Definition leak_free (h : heap) : bool := forallb (fun c => match c with None => true | _ => false end) h.
End FList.
Arguments heap : clear implicits.
Arguments pool : clear implicits.
Arguments op : clear implicits.

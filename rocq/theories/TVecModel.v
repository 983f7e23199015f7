(* Model of cc::alloc_vector, cc::vector and cc::vector_ex (src/clean-core/alloc_vector.hh, vector.hh, vector_ex.hh,
   detail/vector_base.hh, detail/container_impl_util.hh) for trivially copyable elements: the branches with realloc, memcpy and
   memmove, which VecModel.v leaves out. Any number of vectors share a heap of blocks; a block belongs to the allocator it came
   from. vector and vector_ex use allocator 0, the system allocator, and are the only ones with copies. Allocation succeeds,
   reallocation works for every allocator and returns nullptr for the size 0. Elements are values of A, None is indeterminate. *)
From Coq Require Import NArith Arith List Bool.
From Verif Require Import Base.
Import ListNotations.
Open Scope N_scope.

Section TVec.
  (* sizeof(T), and the value of T(), which is all zeros for trivially constructible types *)
  Context {A : Type} (sz : N) (dflt : A).
  Notation cells := (list (option A)).
  Definition block := (nat * cells)%type.
  Definition heap := list (option block).
  (* _allocator, _data, _size, _capacity *)
  Record vec := mkv { al : nat; vdata : option nat; vsize : N; vcap : N }.
  Record world := mkw { hp : heap; objs : list (option vec) }.

  (* vector_base.hh:27-47; the byte size wraps around *)
  Definition room (n : N) : nat := N.to_nat (wmul 64 n sz / sz).
  Definition alloc (a : nat) (n : N) (h : heap) : option nat * heap := (Some (length h), h ++ [Some (a, repeat None (room n))]).
  Definition free (a : nat) (p : option nat) (h : heap) : outcome heap :=
    match p with
    | None => Ok h
    | Some b => match nth_error h b with Some (Some (a', _)) => if (a' =? a)%nat then Ok (lset h b None) else UB | _ => UB end
    end.
  (* what is stored at a pointer; no block at nullptr *)
  Definition cells_at (h : heap) (p : option nat) : outcome cells :=
    match p with
    | None => Ok []
    | Some b => match nth_error h b with Some (Some (_, c)) => Ok c | _ => UB end
    end.
  (* allocator.cc:26-46, system_allocator.cc:53-97: alloc, copy, free *)
  Definition realloc (a : nat) (p : option nat) (n : N) (h : heap) : outcome (option nat * heap) :=
    if 0 <? wmul 64 n sz then
      let! c := cells_at h p in
      let r := room n in
      let h := h ++ [Some (a, firstn r (c ++ repeat None r))] in
      let! h := free a p h in
      Ok (Some (length h - 1)%nat, h)
    else let! h := free a p h in Ok (None, h).

  (* accesses to the storage *)
  Definition wr (c : cells) (i : nat) (x : option A) : outcome cells := if (i <? length c)%nat then Ok (lset c i x) else UB.
  Definition rd (c : cells) (i : nat) : outcome A := match nth_error c i with Some (Some x) => Ok x | _ => UB end.
  (* memcpy of xs to element i, memmove of n elements from i to j *)
  Definition wrs (c : cells) (i : nat) (xs : cells) : outcome cells :=
    if (i + length xs <=? length c)%nat then Ok (firstn i c ++ xs ++ skipn (i + length xs) c) else UB.
  Definition copy_range (xs : cells) (i : nat) (c : cells) : outcome cells := match xs with [] => Ok c | _ => wrs c i xs end.
  Definition slice (c : cells) (i n : nat) : outcome cells := if (i + n <=? length c)%nat then Ok (firstn n (skipn i c)) else UB.
  Definition relocate (j i n : nat) (c : cells) : outcome cells :=
    match n with O => Ok c | _ => let! xs := slice c i n in wrs c j xs end.
  (* container_default_construct_or_zeroed; memset of n * sizeof(T) bytes, which wraps around as well *)
  Definition wrs_zero (n : N) (c : cells) : outcome cells := wrs c 0 (repeat (Some dflt) (room n)).
  Fixpoint fill (n i : nat) (x : A) (c : cells) : outcome cells :=
    match n with O => Ok c | S n => let! c := wr c i (Some x) in fill n (S i) x c end.
  (* n assignments _data[i] = move(_data[i + k]); the index wraps around *)
  Fixpoint shift (n i : nat) (k : N) (c : cells) : outcome cells :=
    match n with
    | O => Ok c
    | S n => let! x := rd c (N.to_nat (wadd 64 (N.of_nat i) k)) in let! c := wr c i (Some x) in shift n (S i) k c
    end.
  (* vector_base.hh:331-344 *)
  Fixpoint remove_loop (p : A -> bool) (n i idx : nat) (c : cells) : outcome (cells * nat) :=
    match n with
    | O => Ok (c, idx)
    | S n =>
        let! x := rd c i in
        if p x then remove_loop p n (S i) idx c
        else
          let! c := (if (idx =? i)%nat then Ok c else wr c idx (Some x)) in
          remove_loop p n (S i) (S idx) c
    end.
  (* run f on the storage of v *)
  Definition with_cells {R} (h : heap) (v : vec) (f : cells -> outcome (cells * R)) : outcome (heap * R) :=
    match vdata v with
    | None => let! (_, r) := f [] in Ok (h, r)
    | Some b => match nth_error h b with
                | Some (Some (a, c)) => let! (c, r) := f c in Ok (lset h b (Some (a, c)), r)
                | _ => UB
                end
    end.
  Definition on_cells (h : heap) (v : vec) (f : cells -> outcome cells) : outcome heap :=
    let! (h, _) := with_cells h v (fun c => let! c := f c in Ok (c, tt)) in Ok h.
  Definition view (h : heap) (v : vec) (i n : nat) : outcome cells := let! c := cells_at h (vdata v) in slice c i n.
  Definition at_ (h : heap) (v : vec) (i : N) : outcome A := let! c := cells_at h (vdata v) in rd c (N.to_nat i).
  Definition sized (v : vec) (n : N) : vec := mkv (al v) (vdata v) n (vcap v).

  (* :245-270 reserve *)
  Definition reserve (h : heap) (v : vec) (n : N) : outcome (heap * vec) :=
    let! _ := contract (n <=? 2 ^ 48) in
    if n <=? vcap v then Ok (h, v) else
    let nc := wrap 64 (N.shiftl (vcap v) 1) in
    let nc := (if nc <? n then n else nc) in
    let! (p, h) := realloc (al v) (vdata v) nc h in
    Ok (h, mkv (al v) p (vsize v) nc).
  (* :114-149 emplace_back *)
  Inductive arg := Val (x : A) | Own (i : N).
  Definition eval (h : heap) (v : vec) (a : arg) : outcome A := match a with Val x => Ok x | Own i => at_ h v i end.
  Definition emplace_back (h : heap) (v : vec) (a : arg) : outcome (heap * vec) :=
    let! x := eval h v a in
    if vsize v =? vcap v then
      let nc := (if vcap v =? 0 then 1 else wrap 64 (N.shiftl (vcap v) 1)) in
      if sz <=? 512 then
        let! (p, h) := realloc (al v) (vdata v) nc h in
        let v := mkv (al v) p (vsize v) nc in
        let! h := on_cells h v (fun c => wr c (N.to_nat (vsize v)) (Some x)) in
        Ok (h, sized v (wadd 64 (vsize v) 1))
      else
        let (p, h) := alloc (al v) nc h in
        let v' := mkv (al v) p (vsize v) nc in
        let! h := on_cells h v' (fun c => wr c (N.to_nat (vsize v)) (Some x)) in
        let! xs := view h v 0 (N.to_nat (vsize v)) in
        let! h := on_cells h v' (copy_range xs 0) in
        let! h := free (al v) (vdata v) h in
        Ok (h, sized v' (wadd 64 (vsize v) 1))
    else
      let! h := on_cells h v (fun c => wr c (N.to_nat (vsize v)) (Some x)) in
      Ok (h, sized v (wadd 64 (vsize v) 1)).
  (* :161-167 *)
  Definition emplace_back_stable (h : heap) (v : vec) (a : arg) : outcome (heap * vec) :=
    let! _ := contract (vsize v <? vcap v) in
    let! x := eval h v a in
    let! h := on_cells h v (fun c => wr c (N.to_nat (vsize v)) (Some x)) in
    Ok (h, sized v (wadd 64 (vsize v) 1)).
  (* :169-187, 466-475: a contiguous range outside of the vector *)
  Definition push_back_range (h : heap) (v : vec) (l : list A) : outcome (heap * vec) :=
    match l with
    | [] => Ok (h, v)
    | _ =>
        let n := N.of_nat (length l) in
        let! (h, v) := reserve h v (wadd 64 (vsize v) n) in
        let! h := on_cells h v (copy_range (map Some l) (N.to_nat (vsize v))) in
        Ok (h, sized v (wadd 64 (vsize v) n))
    end.
  (* the same with n elements of the vector itself, from element i on *)
  Definition push_back_own (h : heap) (v : vec) (i n : N) : outcome (heap * vec) :=
    let src := vdata v in
    let! (h, v) := reserve h v (wadd 64 (vsize v) n) in
    let! c := cells_at h src in
    let! xs := slice c (N.to_nat i) (N.to_nat n) in
    let! h := on_cells h v (copy_range xs (N.to_nat (vsize v))) in
    Ok (h, sized v (wadd 64 (vsize v) n)).
  (* :203-222 *)
  Definition insert_range_at (h : heap) (v : vec) (i : N) (l : list A) : outcome (heap * vec) :=
    let! _ := contract (i <=? vsize v) in
    match l with
    | [] => Ok (h, v)
    | _ =>
        let n := N.of_nat (length l) in
        let! (h, v) := reserve h v (wadd 64 (vsize v) n) in
        let! h := on_cells h v (relocate (N.to_nat i + length l) (N.to_nat i) (N.to_nat (wsub 64 (vsize v) i))) in
        let! h := on_cells h v (copy_range (map Some l) (N.to_nat i)) in
        Ok (h, sized v (wadd 64 (vsize v) n))
    end.
  (* :226-243 *)
  Definition pop_back (h : heap) (v : vec) : outcome (heap * vec) :=
    let! _ := contract (0 <? vsize v) in Ok (h, sized v (wsub 64 (vsize v) 1)).
  Definition get_and_pop_back (h : heap) (v : vec) : outcome (A * vec) :=
    let! _ := contract (0 <? vsize v) in
    let s := wsub 64 (vsize v) 1 in
    let! x := at_ h v s in Ok (x, sized v s).
  (* :272-293 *)
  Definition resize (h : heap) (v : vec) (n : N) (x : A) : outcome (heap * vec) :=
    let! (h, v) := (if vcap v <? n then reserve h v n else Ok (h, v)) in
    let! h := on_cells h v (fill (N.to_nat n - N.to_nat (vsize v)) (N.to_nat (vsize v)) x) in
    Ok (h, sized v n).
  (* :304-326 *)
  Definition shrink_to_fit (h : heap) (v : vec) : outcome (heap * vec) :=
    if vsize v =? vcap v then Ok (h, v) else
    let! (p, h) := realloc (al v) (vdata v) (vsize v) h in
    Ok (h, mkv (al v) p (vsize v) (vsize v)).
  Definition remove_all (h : heap) (v : vec) (p : A -> bool) : outcome (heap * vec * N) :=
    let! (h, idx) := with_cells h v (remove_loop p (N.to_nat (vsize v)) 0 0) in
    Ok (h, sized v (N.of_nat idx), wsub 64 (vsize v) (N.of_nat idx)).
  (* :389-401 *)
  Definition remove_range (h : heap) (v : vec) (i n : N) : outcome (heap * vec) :=
    if n =? 0 then Ok (h, v) else
    let! _ := contract (i <? vsize v) in
    let! _ := contract (wadd 64 i n <=? vsize v) in
    let! h := on_cells h v (shift (N.to_nat (wsub 64 (vsize v) n) - N.to_nat i) (N.to_nat i) n) in
    Ok (h, sized v (wsub 64 (vsize v) n)).
  (* :404-411 *)
  Definition remove_at (h : heap) (v : vec) (i : N) : outcome (heap * vec) :=
    let! _ := contract (i <? vsize v) in
    let! h := on_cells h v (shift (N.to_nat (vsize v) - (N.to_nat i + 1)) (N.to_nat i) 1) in
    Ok (h, sized v (wsub 64 (vsize v) 1)).
  (* :414-420: swap with the last element *)
  Definition remove_at_unordered (h : heap) (v : vec) (i : N) : outcome (heap * vec) :=
    let! _ := contract (i <? vsize v) in
    let j := wsub 64 (vsize v) 1 in
    let! x := at_ h v i in
    let! y := at_ h v j in
    let! h := on_cells h v (fun c => wr c (N.to_nat i) (Some y)) in
    let! h := on_cells h v (fun c => wr c (N.to_nat j) (Some x)) in
    pop_back h v.

  Inductive op :=
  | New (a : nat) | Sized (a : nat) (n : N) | Uninit (a : nat) (n : N) | Filled (a : nat) (n : N) (x : A) | Of (a : nat) (l : list A)
  | MoveNew (j : nat) | MoveAssign (k j : nat) | CopyNew (j : nat) | CopyAssign (k j : nat) | Destroy (k : nat)
  | ResetReserve (k : nat) (a : option nat) (n : N)
  | Emplace (k : nat) (x : arg) | EmplaceStable (k : nat) (x : arg) | PushRange (k : nat) (l : list A) | InsertRange (k : nat) (i : N) (l : list A)
  | Pop (k : nat) | GetPop (k : nat) | Reserve (k : nat) (n : N) | Resize (k : nat) (n : N) | ResizeTo (k : nat) (n : N) (x : A)
  | Clear (k : nat) | Shrink (k : nat) | RemoveAll (k : nat) (p : A -> bool) | RemoveRange (k : nat) (i n : N) | RemoveAt (k : nat) (i : N)
  | RemoveUnordered (k : nat) (i : N) | Get (k : nat) (i : N) | Set_ (k : nat) (i : N) (x : A) | Front (k : nat) | Back (k : nat)
  | Size (k : nat) | Capacity (k : nat) | Allocator (k : nat).
  Inductive res := RUnit | RN (n : N) | RV (x : A).
  Definition get (w : world) (k : nat) : outcome vec := match nth_error (objs w) k with Some (Some v) => Ok v | _ => UB end.
  Definition fresh (w : world) (h : heap) (v : vec) : outcome (world * res) := Ok (mkw h (objs w ++ [Some v]), RUnit).
  Definition upd (w : world) (k : nat) (f : heap -> vec -> outcome (heap * vec)) : outcome (world * res) :=
    let! v := get w k in
    let! (h, v) := f (hp w) v in
    Ok (mkw h (lset (objs w) k (Some v)), RUnit).
  Definition look (w : world) (k : nat) (f : heap -> vec -> outcome res) : outcome (world * res) :=
    let! v := get w k in let! r := f (hp w) v in Ok (w, r).
  Definition empty (a : nat) : vec := mkv a None 0 0.
  Definition step (w : world) (o : op) : outcome (world * res) :=
    match o with
    (* alloc_vector.hh:14-16 *)
    | New a => fresh w (hp w) (empty a)
    (* alloc_vector.hh:18-25, vector.hh:19-22 *)
    | Sized a n =>
        let (p, h) := alloc a n (hp w) in
        let v := mkv a p n n in
        let! h := on_cells h v (wrs_zero n) in
        fresh w h v
    (* alloc_vector.hh:32-39, vector.hh:29-36 *)
    | Uninit a n => let (p, h) := alloc a n (hp w) in fresh w h (mkv a p n n)
    (* alloc_vector.hh:41-46 *)
    | Filled a n x => let! (h, v) := resize (hp w) (empty a) n x in fresh w h v
    (* alloc_vector.hh:48-57 *)
    | Of a l =>
        let! (h, v) := reserve (hp w) (empty a) (N.of_nat (length l)) in
        let! h := on_cells h v (copy_range (map Some l) 0) in
        fresh w h (sized v (N.of_nat (length l)))
    (* alloc_vector.hh:72-81 *)
    | MoveNew j => let! v := get w j in Ok (mkw (hp w) (lset (objs w) j (Some (empty 0)) ++ [Some v]), RUnit)
    (* alloc_vector.hh:82-95 *)
    | MoveAssign k j =>
        let! v := get w k in
        let! h := free (al v) (vdata v) (hp w) in
        let! u := get w j in
        Ok (mkw h (lset (lset (objs w) k (Some u)) j (Some (empty 0))), RUnit)
    (* vector.hh:72 *)
    | CopyNew j =>
        let! u := get w j in
        let! (h, v) := reserve (hp w) (empty 0) (vsize u) in
        let! xs := view h u 0 (N.to_nat (vsize u)) in
        let! h := on_cells h v (copy_range xs 0) in
        fresh w h (sized v (vsize u))
    (* vector.hh:88-103 *)
    | CopyAssign k j =>
        let! u := get w j in
        upd w k (fun h v =>
          if (k =? j)%nat then Ok (h, v) else
          let! (h, v) := (if vcap v <? vsize u
                          then let! h := free (al v) (vdata v) h in
                               let (p, h) := alloc (al v) (vsize u) h in Ok (h, mkv (al v) p (vsize v) (vsize u))
                          else Ok (h, v)) in
          let! xs := view h u 0 (N.to_nat (vsize u)) in
          let! h := on_cells h v (copy_range xs 0) in
          Ok (h, sized v (vsize u)))
    (* alloc_vector.hh:65-70 *)
    | Destroy k =>
        let! v := get w k in
        let! h := free (al v) (vdata v) (hp w) in
        Ok (mkw h (lset (objs w) k None), RUnit)
    (* alloc_vector.hh:100-118 *)
    | ResetReserve k a n =>
        upd w k (fun h v =>
          let! (h, v) := match vdata v with
                         | Some _ => let! h := free (al v) (vdata v) h in Ok (h, empty (al v))
                         | None => Ok (h, v)
                         end in
          match a with
          | None => Contract
          | Some a => reserve h (mkv a (vdata v) (vsize v) (vcap v)) n
          end)
    | Emplace k x => upd w k (fun h v => emplace_back h v x)
    | EmplaceStable k x => upd w k (fun h v => emplace_back_stable h v x)
    | PushRange k l => upd w k (fun h v => push_back_range h v l)
    | InsertRange k i l => upd w k (fun h v => insert_range_at h v i l)
    | Pop k => upd w k pop_back
    | GetPop k => let! v := get w k in let! (x, v) := get_and_pop_back (hp w) v in Ok (mkw (hp w) (lset (objs w) k (Some v)), RV x)
    | Reserve k n => upd w k (fun h v => reserve h v n)
    | Resize k n => upd w k (fun h v => resize h v n dflt)
    | ResizeTo k n x => upd w k (fun h v => resize h v n x)
    | Clear k => upd w k (fun h v => Ok (h, sized v 0))
    | Shrink k => upd w k shrink_to_fit
    | RemoveAll k p =>
        let! v := get w k in
        let! (h, v, n) := remove_all (hp w) v p in
        Ok (mkw h (lset (objs w) k (Some v)), RN n)
    | RemoveRange k i n => upd w k (fun h v => remove_range h v i n)
    | RemoveAt k i => upd w k (fun h v => remove_at h v i)
    | RemoveUnordered k i => upd w k (fun h v => remove_at_unordered h v i)
    | Get k i => look w k (fun h v => let! _ := contract (i <? vsize v) in let! x := at_ h v i in Ok (RV x))
    | Set_ k i x => upd w k (fun h v => let! _ := contract (i <? vsize v) in let! h := on_cells h v (fun c => wr c (N.to_nat i) (Some x)) in Ok (h, v))
    | Front k => look w k (fun h v => let! _ := contract (negb (vsize v =? 0)) in let! x := at_ h v 0 in Ok (RV x))
    | Back k => look w k (fun h v => let! _ := contract (negb (vsize v =? 0)) in let! x := at_ h v (wsub 64 (vsize v) 1) in Ok (RV x))
    | Size k => look w k (fun h v => Ok (RN (vsize v)))
    | Capacity k => look w k (fun h v => Ok (RN (vcap v)))
    | Allocator k => look w k (fun h v => Ok (RN (N.of_nat (al v))))
    end.
  Fixpoint run (w : world) (os : list op) : outcome (world * list res) :=
    match os with
    | [] => Ok (w, [])
    | o :: os => let! (w, r) := step w o in let! (w, rs) := run w os in Ok (w, r :: rs)
    end.
End TVec.
Arguments op A : clear implicits.
Arguments res A : clear implicits.
Arguments arg A : clear implicits.

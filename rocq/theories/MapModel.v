(* Model of src/clean-core/map.hh.

   A bucket (forward_list<entry>) is the sequence of its nodes; that forward_list implements such sequences is C16.
   Each node carries an identity (its address): eid.  Addresses are allocated increasingly and never reused.
   hash and eqb are HashT and EqualT, dflt is a default constructed ValueT, veqb is operator== of ValueT.
   Heterogeneous lookup is not modelled; KeyT(key) is a copy. *)
From Coq Require Import NArith Arith List Bool.
From Verif Require Import Base.
Import ListNotations.
Open Scope N_scope.

Section Map_.
  Context {K V : Type} (hash : K -> N) (eqb : K -> K -> bool) (dflt : V) (veqb : V -> V -> bool).

  (* map.hh:445-454 entry, with the address of its node *)
  Record ent := mkE { eid : nat; ekey : K; evalue : V }.
  (* map.hh:455-456 *)
  Record map := mkMap { entries : list (list ent); msize : N; fresh : nat }.
  Definition init : map := mkMap [] 0 0.
  Definition nbuckets (m : map) : N := N.of_nat (length (entries m)).

  (* map.hh:402-414 _get_location *)
  Definition get_location (es : list (list ent)) (k : K) : outcome N :=
    let! _ := contract (0 <? N.of_nat (length es)) in
    let h := N.lxor (wrap 64 (hash k)) 0x0bd64917a71585ad in
    let h := N.shiftr (wmul 64 h 0xd989bcacc137dcd5) 32 in
    Ok (N.land h (wsub 64 (N.of_nat (length es)) 1)).

  (* map.hh:65-66 *)
  Definition size (m : map) : N := msize m.
  Definition empty (m : map) : bool := msize m =? 0.

  Definition hit (k : K) (e : ent) : bool := eqb (ekey e) k.

  (* map.hh:68-80 contains_key *)
  Definition contains_key (m : map) (k : K) : outcome bool :=
    if msize m =? 0 then Ok false
    else
      let! idx := get_location (entries m) k in
      let! l := aget (entries m) (N.to_nat idx) in
      Ok (existsb (hit k) l).

  (* map.hh:417-441 _reserve: relink every node *)
  Fixpoint rehash_bucket (l : list ent) (es : list (list ent)) : outcome (list (list ent)) :=
    match l with
    | [] => Ok es
    | e :: l =>
        let! idx := get_location es (ekey e) in
        let! b := aget es (N.to_nat idx) in
        let! es := aset es (N.to_nat idx) (e :: b) in
        rehash_bucket l es
    end.
  Fixpoint rehash (old : list (list ent)) (es : list (list ent)) : outcome (list (list ent)) :=
    match old with
    | [] => Ok es
    | l :: old => let! es := rehash_bucket l es in rehash old es
    end.
  Definition reserve_ (m : map) (new_cap : N) : outcome map :=
    let! _ := contract (N.land new_cap (wsub 64 new_cap 1) =? 0) in
    let! es := rehash (entries m) (repeat [] (N.to_nat new_cap)) in
    Ok (mkMap es (msize m) (fresh m)).
  (* map.hh:280-282 padding loop; 64 doublings always suffice unless the capacity wraps to 0 (then the loop is
     infinite: OutOfFuel) *)
  Fixpoint pad (f : nat) (cap n : N) : outcome N :=
    match f with
    | O => OutOfFuel
    | S f => if cap <? n then pad f (wrap 64 (N.shiftl cap 1)) n else Ok cap
    end.
  (* map.hh:275-285 reserve *)
  Definition reserve (m : map) (n : N) : outcome map :=
    if n <=? nbuckets m then Ok m
    else let! cap := pad 64 4 n in reserve_ m cap.

  (* map.hh:117-118, 139-140: make room before an insertion *)
  Definition make_room (m : map) : outcome map :=
    if ((nbuckets m =? 0) || (nbuckets m <? msize m))%bool
    then reserve m (if msize m =? 0 then 4 else wadd 64 (msize m) 1)
    else Ok m.
  (* lookup of a key in the bucket; on a miss a new node with value v is put in front.
     map.hh:111-127 operator[] (v = dflt) and 136-152 get_or_create (v = create()).
     Result: the map and the address of the node whose value is returned. *)
  Definition find_or_insert (m : map) (k : K) (v : V) : outcome (map * nat) :=
    let! m := make_room m in
    let! idx := get_location (entries m) k in
    let! l := aget (entries m) (N.to_nat idx) in
    match find (hit k) l with
    | Some e => Ok (m, eid e)
    | None =>
        let! es := aset (entries m) (N.to_nat idx) (mkE (fresh m) k v :: l) in
        Ok (mkMap es (wadd 64 (msize m) 1) (S (fresh m)), fresh m)
    end.
  Definition index (m : map) (k : K) : outcome (map * nat) := find_or_insert m k dflt.
  Definition get_or_create (m : map) (k : K) (v : V) : outcome (map * nat) := find_or_insert m k v.

  (* access through a reference / pointer to the value of the node with address p *)
  Definition live (m : map) (p : nat) : option ent := find (fun e => Nat.eqb (eid e) p) (concat (entries m)).
  Definition load (m : map) (p : nat) : outcome V := match live m p with Some e => Ok (evalue e) | None => UB end.
  Definition upd_ent (p : nat) (v : V) (e : ent) : ent := if Nat.eqb (eid e) p then mkE (eid e) (ekey e) v else e.
  Definition store (m : map) (p : nat) (v : V) : outcome map :=
    match live m p with
    | Some _ => Ok (mkMap (List.map (List.map (upd_ent p v)) (entries m)) (msize m) (fresh m))
    | None => UB
    end.

  (* map.hh:156-178 get: CC_UNREACHABLE is UB when the key is absent *)
  Definition get (m : map) (k : K) : outcome V :=
    let! _ := contract (0 <? msize m) in
    let! idx := get_location (entries m) k in
    let! l := aget (entries m) (N.to_nat idx) in
    match find (hit k) l with Some e => Ok (evalue e) | None => UB end.

  (* map.hh:182-208 get_ptr: address or nullptr *)
  Definition get_ptr (m : map) (k : K) : outcome (option nat) :=
    if msize m =? 0 then Ok None
    else
      let! idx := get_location (entries m) k in
      let! l := aget (entries m) (N.to_nat idx) in
      Ok (match find (hit k) l with Some e => Some (eid e) | None => None end).

  (* map.hh:212-219 get_or, 223-233 get_to *)
  Definition get_or (m : map) (k : K) (d : V) : outcome V :=
    let! p := get_ptr m k in
    match p with Some p => load m p | None => Ok d end.
  Definition get_to (m : map) (k : K) : outcome (option V) :=
    let! p := get_ptr m k in
    match p with Some p => let! v := load m p in Ok (Some v) | None => Ok None end.

  (* forward_list erase_after on the node sequence (forward_list.hh:68-81) *)
  Definition erase_after (l : list ent) (prev : nat) : outcome (list ent) :=
    let! _ := contract (S prev <? length l)%nat in
    Ok (firstn (S prev) l ++ skipn (S (S prev)) l).
  (* map.hh:258-269 *)
  Fixpoint remove_loop (l : list ent) (prev it : nat) (rest : list ent) (k : K) : outcome (list ent * bool) :=
    match rest with
    | [] => Ok (l, false)
    | e :: rest =>
        if hit k e then let! l := erase_after l prev in Ok (l, true)
        else remove_loop l it (S it) rest k
    end.
  (* map.hh:237-272 remove_key *)
  Definition remove_key (m : map) (k : K) : outcome (map * bool) :=
    if msize m =? 0 then Ok (m, false)
    else
      let! idx := get_location (entries m) k in
      let! l := aget (entries m) (N.to_nat idx) in
      match l with
      | [] => Ok (m, false)
      | e :: t =>
          if hit k e then
            let! es := aset (entries m) (N.to_nat idx) t in
            Ok (mkMap es (wsub 64 (msize m) 1) (fresh m), true)
          else
            let! (l, removed) := remove_loop l 0 0 l k in
            if removed : bool then
              let! es := aset (entries m) (N.to_nat idx) l in
              Ok (mkMap es (wsub 64 (msize m) 1) (fresh m), true)
            else Ok (m, false)
      end.

  (* map.hh:287-292 clear *)
  Definition clear (m : map) : map := mkMap (List.map (fun _ => []) (entries m)) 0 (fresh m).

  (* map.hh:85-86 defaulted copy; the addresses of the copy are those of other nodes, which is not represented:
     properties about addresses speak about one map *)
  Definition copy (m : map) : map := m.
  (* map.hh:85,87 defaulted move: the nodes go to the new object, _entries of the source becomes empty
     (array.hh:162-168) and its _size is kept.  Result: (new object, source afterwards) *)
  Definition move (m : map) : map * map := (m, mkMap [] (msize m) 0).

  (* map.hh:328-365 iterator_base *)
  Record iter := mkIt { curr : nat; it : list ent }.
  Fixpoint find_next_it (f : nat) (m : map) (c : nat) (i : list ent) : outcome iter :=
    match f with
    | O => OutOfFuel
    | S f =>
        if (c =? length (entries m))%nat then Ok (mkIt c i)
        else
          let! l := aget (entries m) c in
          match l with
          | [] => find_next_it f m (S c) []
          | _ => Ok (mkIt c l)
          end
    end.
  Definition begin (m : map) : outcome iter := find_next_it (S (length (entries m))) m 0 [].
  Definition not_end (m : map) (i : iter) : bool := negb (curr i =? length (entries m))%nat.
  Definition deref (i : iter) : outcome ent := match it i with e :: _ => Ok e | [] => UB end.
  Definition next (m : map) (i : iter) : outcome iter :=
    match it i with
    | [] => UB
    | _ :: t => match t with [] => find_next_it (S (length (entries m))) m (S (curr i)) [] | _ => Ok (mkIt (curr i) t) end
    end.
  Fixpoint for_each (f : nat) (m : map) (i : iter) : outcome (list ent) :=
    match f with
    | O => OutOfFuel
    | S f =>
        if not_end m i then
          let! v := deref i in
          let! i := next m i in
          let! t := for_each f m i in
          Ok (v :: t)
        else Ok []
    end.
  (* map.hh:385-390: the key/value pairs seen by a range-for *)
  Definition pairs (m : map) : outcome (list (K * V)) :=
    let! i := begin m in
    let! l := for_each (S (length (concat (entries m)))) m i in
    Ok (List.map (fun e => (ekey e, evalue e)) l).

  (* map.hh:296-313 operator== (a != b of values is the negation of ==) *)
  Fixpoint eq_loop (l : list (K * V)) (rhs : map) : outcome bool :=
    match l with
    | [] => Ok true
    | (k, v) :: l =>
        let! c := contains_key rhs k in
        if negb c then Ok false
        else
          let! w := get rhs k in
          if negb (veqb w v) then Ok false else eq_loop l rhs
    end.
  Definition eq (m rhs : map) : outcome bool :=
    if negb (msize m =? msize rhs) then Ok false
    else let! l := pairs m in eq_loop l rhs.

  Inductive op :=
  | Assign (k : K) (v : V)        (* m[k] = v *)
  | Index (k : K)                 (* m[k], value read *)
  | GetOrCreate (k : K) (v : V)
  | RemoveKey (k : K)
  | Contains (k : K)
  | Clear
  | Reserve (n : N).

  (* results: the value read, or the flag returned *)
  Inductive res := RNone | RVal (v : V) | RBool (b : bool).
  Definition step (m : map) (o : op) : outcome (map * res) :=
    match o with
    | Assign k v => let! (m, p) := index m k in let! m := store m p v in Ok (m, RNone)
    | Index k => let! (m, p) := index m k in let! v := load m p in Ok (m, RVal v)
    | GetOrCreate k v => let! (m, p) := get_or_create m k v in let! v := load m p in Ok (m, RVal v)
    | RemoveKey k => let! (m, b) := remove_key m k in Ok (m, RBool b)
    | Contains k => let! b := contains_key m k in Ok (m, RBool b)
    | Clear => Ok (clear m, RNone)
    | Reserve n => let! m := reserve m n in Ok (m, RNone)
    end.
  Fixpoint run (m : map) (os : list op) : outcome (map * list res) :=
    match os with
    | [] => Ok (m, [])
    | o :: t => let! (m, b) := step m o in let! (m, bs) := run m t in Ok (m, b :: bs)
    end.
End Map_.
Arguments ent : clear implicits.
Arguments map : clear implicits.
Arguments op : clear implicits.
Arguments res : clear implicits.
Arguments RNone {V}.
Arguments RVal {V} v.
Arguments RBool {V} b.

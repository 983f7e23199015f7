(* Model of src/clean-core/set.hh (and set<T>'s use of array.hh / forward_list.hh).

   A bucket (forward_list) is the sequence of its values; that forward_list implements such sequences is
   C16 (FListProps).  hash and eqb are the functors HashT and EqualT.  Lookups with other types are in KeysModel.v. *)
From Coq Require Import NArith Arith List Bool.
From Verif Require Import Base HashModel.
Import ListNotations.
Open Scope N_scope.

Section Set_.
  Context {T : Type} (hash : T -> N) (eqb : T -> T -> bool).

  (* set.hh:255-256 *)
  Record set := mkSet { entries : list (list T); ssize : N }.
  (* set.hh:40 *)
  Definition init : set := mkSet [] 0.

  Definition nbuckets (s : set) : N := N.of_nat (length (entries s)).

  (* set.hh:233-239 _get_location *)
  Definition get_location (es : list (list T)) (v : T) : outcome N :=
    let! _ := contract (0 <? N.of_nat (length es)) in
    let h := wrap 64 (hash v) in
    let h := hash_combine2 h 0 in
    Ok (h mod N.of_nat (length es)).

  (* set.hh:20-21 *)
  Definition size (s : set) : N := ssize s.
  Definition empty (s : set) : bool := ssize s =? 0.

  (* set.hh:24-35 contains *)
  Definition contains (s : set) (v : T) : outcome bool :=
    if ssize s =? 0 then Ok false
    else
      let! idx := get_location (entries s) v in
      let! l := aget (entries s) (N.to_nat idx) in
      Ok (existsb (fun e => eqb e v) l).

  (* set.hh:241-251 _reserve: inner and outer loop *)
  Fixpoint rehash_bucket (l : list T) (es : list (list T)) : outcome (list (list T)) :=
    match l with
    | [] => Ok es
    | e :: l =>
        let! idx := get_location es e in
        let! b := aget es (N.to_nat idx) in
        let! es := aset es (N.to_nat idx) (e :: b) in
        rehash_bucket l es
    end.
  Fixpoint rehash (old : list (list T)) (es : list (list T)) : outcome (list (list T)) :=
    match old with
    | [] => Ok es
    | l :: old => let! es := rehash_bucket l es in rehash old es
    end.
  Definition reserve_ (s : set) (new_cap : N) : outcome set :=
    let! es := rehash (entries s) (repeat [] (N.to_nat new_cap)) in
    Ok (mkSet es (ssize s)).
  (* set.hh:156 *)
  Definition reserve (s : set) (n : N) : outcome set := reserve_ s n.

  (* Argument of add: a value outside the set, or a reference to the element of the set stored in bucket i at
     position k.  _reserve moves all elements into new nodes and frees the old ones. *)
  Inductive arg := Val (v : T) | Own (i k : nat).
  Definition eval (s : set) (a : arg) : outcome T :=
    match a with
    | Val v => Ok v
    | Own i k => let! l := aget (entries s) i in aget l k
    end.

  (* set.hh:67-81 add *)
  Definition add (s : set) (a : arg) : outcome (set * bool) :=
    let! (s, v) :=
      (if nbuckets s <=? ssize s then
         let! s' := reserve_ s (if ssize s =? 0 then 4 else wmul 64 (ssize s) 2) in
         match a with
         | Val v => Ok (s', v)
         | Own _ _ => UB (* the node referred to has been moved from and freed *)
         end
       else let! v := eval s a in Ok (s, v)) in
    let! idx := get_location (entries s) v in
    let! l := aget (entries s) (N.to_nat idx) in
    if existsb (fun e => eqb e v) l then Ok (s, false)
    else
      let! es := aset (entries s) (N.to_nat idx) (v :: l) in
      Ok (mkSet es (wadd 64 (ssize s) 1), true).

  (* forward_list erase_after on the value sequence (forward_list.hh:68-81) *)
  Definition erase_after (l : list T) (prev : nat) : outcome (list T) :=
    let! _ := contract (S prev <? length l)%nat in
    Ok (firstn (S prev) l ++ skipn (S (S prev)) l).

  (* set.hh:107-119: rest is the list from the iterator on, it its position *)
  Fixpoint remove_loop (l : list T) (prev it : nat) (rest : list T) (v : T) : outcome (list T * bool) :=
    match rest with
    | [] => Ok (l, false)
    | e :: rest =>
        if eqb e v then let! l := erase_after l prev in Ok (l, true)
        else remove_loop l it (S it) rest v
    end.

  (* set.hh:87-122 remove *)
  Definition remove (s : set) (v : T) : outcome (set * bool) :=
    if ssize s =? 0 then Ok (s, false)
    else
      let! idx := get_location (entries s) v in
      let! l := aget (entries s) (N.to_nat idx) in
      match l with
      | [] => Ok (s, false)
      | e :: t =>
          if eqb e v then
            let! es := aset (entries s) (N.to_nat idx) t in
            Ok (mkSet es (wsub 64 (ssize s) 1), true)
          else
            let! (l, removed) := remove_loop l 0 0 l v in
            if removed : bool then
              let! es := aset (entries s) (N.to_nat idx) l in
              Ok (mkSet es (wsub 64 (ssize s) 1), true)
            else Ok (s, false)
      end.

  (* set.hh:177-182 clear *)
  Definition clear (s : set) : set := mkSet (map (fun _ => []) (entries s)) 0.

  (* set.hh:42-45 defaulted copy (array copy, forward_list copy preserves the order) *)
  Definition copy (s : set) : set := s.
  (* set.hh:42,44 defaulted move: _entries is moved (array.hh:162-168 leaves an empty array), _size is copied.
     Result: (new object, source afterwards) *)
  Definition move (s : set) : set * set := (s, mkSet [] (ssize s)).

  (* set.hh:186-228 iterator: remaining buckets from curr on, remaining elements from it on *)
  Record iter := mkIt { curr : nat; it : list T }.
  Fixpoint find_next_it (f : nat) (s : set) (c : nat) (i : list T) : outcome iter :=
    match f with
    | O => OutOfFuel
    | S f =>
        if (c =? length (entries s))%nat then Ok (mkIt c i)
        else
          let! l := aget (entries s) c in
          match l with
          | [] => find_next_it f s (S c) []
          | _ => Ok (mkIt c l)
          end
    end.
  Definition begin (s : set) : outcome iter := find_next_it (S (length (entries s))) s 0 [].
  Definition not_end (s : set) (i : iter) : bool := negb (curr i =? length (entries s))%nat.
  Definition deref (i : iter) : outcome T := match it i with e :: _ => Ok e | [] => UB end.
  Definition next (s : set) (i : iter) : outcome iter :=
    match it i with
    | [] => UB
    | _ :: t => match t with [] => find_next_it (S (length (entries s))) s (S (curr i)) [] | _ => Ok (mkIt (curr i) t) end
    end.
  (* range-for collecting the elements *)
  Fixpoint for_each (f : nat) (s : set) (i : iter) : outcome (list T) :=
    match f with
    | O => OutOfFuel
    | S f =>
        if not_end s i then
          let! v := deref i in
          let! i := next s i in
          let! t := for_each f s i in
          Ok (v :: t)
        else Ok []
    end.
  Definition elements (s : set) : outcome (list T) :=
    let! i := begin s in for_each (S (length (concat (entries s)))) s i.

  (* set.hh:159-170 operator== *)
  Fixpoint all_contained (s : set) (l : list T) : outcome bool :=
    match l with
    | [] => Ok true
    | v :: l => let! c := contains s v in if c : bool then all_contained s l else Ok false
    end.
  Fixpoint all_lists (s : set) (ls : list (list T)) : outcome bool :=
    match ls with
    | [] => Ok true
    | l :: ls => let! c := all_contained s l in if c : bool then all_lists s ls else Ok false
    end.
  Definition eq (s rhs : set) : outcome bool :=
    if negb (ssize s =? ssize rhs) then Ok false else all_lists s (entries rhs).

  Inductive op := Add (v : T) | Remove (v : T) | Contains (v : T) | Clear | Reserve (n : N).
  Definition step (s : set) (o : op) : outcome (set * bool) :=
    match o with
    | Add v => add s (Val v)
    | Remove v => remove s v
    | Contains v => let! b := contains s v in Ok (s, b)
    | Clear => Ok (clear s, false)
    | Reserve n => let! s := reserve s n in Ok (s, false)
    end.
  Fixpoint run (s : set) (os : list op) : outcome (set * list bool) :=
    match os with
    | [] => Ok (s, [])
    | o :: t => let! (s, b) := step s o in let! (s, bs) := run s t in Ok (s, b :: bs)
    end.
  (* set.hh:49-54, 131-136 range constructor and |=: add each element *)
  Fixpoint add_all (s : set) (l : list T) : outcome set :=
    match l with
    | [] => Ok s
    | v :: l => let! (s, _) := add s (Val v) in add_all s l
    end.
End Set_.
Arguments set : clear implicits.
Arguments op : clear implicits.

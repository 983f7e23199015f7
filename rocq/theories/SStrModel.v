(* Model of src/clean-core/string_stream.hh.
   Heap blocks are never reused; a character is an N, None if it has not been written.  m_curr is its distance from m_data
   (so the subtraction of pointers into a deleted block in line 59 is not represented).  Sizes are 64-bit words; new char[n]
   with n >= 2^63 throws, which counts as Contract (a reported failure). *)
From Coq Require Import NArith List Bool Arith.
From Verif Require Import Base.
Import ListNotations.
Open Scope N_scope.

Definition heap := list (option (list (option N))).
(* the cells of a live block *)
Definition lookup (h : heap) (b : nat) : option (list (option N)) := match nth_error h b with Some x => x | None => None end.
(* new char[n] *)
Definition alloc (n : N) (h : heap) : outcome (nat * heap) :=
  let! _ := contract (n <? 2 ^ 63) in Ok (length h, h ++ [Some (repeat None (N.to_nat n))]).
(* delete[] p *)
Definition dealloc (p : option nat) (h : heap) : outcome heap :=
  match p with
  | None => Ok h
  | Some b => match lookup h b with Some _ => Ok (lset h b None) | None => UB end
  end.
(* n cells at p; p must not be null *)
Definition read (h : heap) (p : option nat) (n : nat) : outcome (list (option N)) :=
  match p with
  | None => UB
  | Some b => match lookup h b with
              | Some blk => let! _ := defined (n <=? length blk)%nat in Ok (firstn n blk)
              | None => UB
              end
  end.
Definition write (h : heap) (p : option nat) (off : nat) (xs : list (option N)) : outcome heap :=
  match p with
  | None => UB
  | Some b => match lookup h b with
              | Some blk => let! _ := defined (off + length xs <=? length blk)%nat in
                            Ok (lset h b (Some (firstn off blk ++ xs ++ skipn (off + length xs) blk)))
              | None => UB
              end
  end.
(* std::memcpy(dst, src, n) between different blocks *)
Definition memcpy (h : heap) (dst src : option nat) (n : nat) : outcome heap :=
  let! _ := defined (match dst, src with Some a, Some b => negb (a =? b)%nat | _, _ => false end) in
  let! xs := read h src n in write h dst 0 xs.

(* 135-137 *)
Record stream := mkS { data : option nat; curr : nat; cap : N }.
(* 70-71 *)
Definition size (s : stream) : N := N.of_nat (curr s).
Definition empty (s : stream) : bool := (curr s =? 0)%nat.
(* 74 and the initialisers 135-137 *)
Definition init : stream := mkS None 0 0.

(* 47-62 reserve *)
Definition reserve (s : stream) (n : N) (h : heap) : outcome (stream * heap) :=
  let req := wadd 64 (size s) n in
  if req <=? cap s then Ok (s, h) else
  let twice := wrap 64 (N.shiftl (cap s) 1) in
  let new_cap := if twice <? req then req else twice in
  let! (d, h) := alloc new_cap h in
  let! h := (if empty s then Ok h else memcpy h (Some d) (data s) (curr s)) in
  let! h := dealloc (data s) h in
  Ok (mkS (Some d) (curr s) new_cap, h).
(* 14-23 operator<<(string_view), with characters from elsewhere *)
Definition append (s : stream) (sv : list N) (h : heap) : outcome (stream * heap) :=
  match sv with
  | [] => Ok (s, h)
  | _ => let! (s, h) := reserve s (N.of_nat (length sv)) h in
         let! h := write h (data s) (curr s) (map Some sv) in
         Ok (mkS (data s) (curr s + length sv) (cap s), h)
  end.
(* 25-31 operator<<(char) *)
Definition put (s : stream) (c : N) (h : heap) : outcome (stream * heap) :=
  let! (s, h) := reserve s 1 h in
  let! h := write h (data s) (curr s) [Some c] in
  Ok (mkS (data s) (S (curr s)) (cap s), h).
(* 64 clear *)
Definition clear (s : stream) : stream := mkS (data s) 0 (cap s).
(* 33-41 to_string: copying a character that was never written is an error here *)
Fixpoint known (xs : list (option N)) : outcome (list N) :=
  match xs with
  | [] => Ok []
  | Some c :: xs => let! r := known xs in Ok (c :: r)
  | None :: _ => UB
  end.
Definition to_string (s : stream) (h : heap) : outcome (list N) :=
  if empty s then Ok [] else let! xs := read h (data s) (curr s) in known xs.
(* 76-85 copy constructor *)
Definition copy_ctor (r : stream) (h : heap) : outcome (stream * heap) :=
  if empty r then Ok (init, h) else
  let! (d, h) := alloc (size r) h in
  let! h := memcpy h (Some d) (data r) (curr r) in
  Ok (mkS (Some d) (curr r) (size r), h).
(* 102-117 copy assignment, this != &rhs *)
Definition copy_assign (s r : stream) (h : heap) : outcome (stream * heap) :=
  let! (s, h) := (if cap s <? size r then
                    let! h := dealloc (data s) h in
                    let! (d, h) := alloc (size r) h in
                    Ok (mkS (Some d) (curr s) (size r), h)
                  else Ok (s, h)) in
  let! h := (if empty r then Ok h else memcpy h (data s) (data r) (curr r)) in
  Ok (mkS (data s) (curr r) (cap s), h).

(* variables: None is storage without an object *)
Record world := mkW { vars : list (option stream); mem : heap }.
Inductive op :=
| New (i : nat) | Append (i : nat) (sv : list N) | Put (i : nat) (c : N) | Reserve (i : nat) (n : N) | Clear (i : nat)
| CopyCtor (i j : nat) | MoveCtor (i j : nat) | CopyAssign (i j : nat) | MoveAssign (i j : nat) | Destroy (i : nat).
(* object i; using an object that does not exist is undefined *)
Definition obj (w : world) (i : nat) : outcome stream := match nth_error (vars w) i with Some (Some s) => Ok s | _ => UB end.
Definition raw (w : world) (i : nat) : outcome unit := match nth_error (vars w) i with Some None => Ok tt | _ => UB end.
Definition store (w : world) (i : nat) (s : option stream) (h : heap) : world := mkW (lset (vars w) i s) h.
Definition step (w : world) (o : op) : outcome world :=
  match o with
  | New i => let! _ := raw w i in Ok (store w i (Some init) (mem w))
  | Append i sv => let! s := obj w i in let! (s, h) := append s sv (mem w) in Ok (store w i (Some s) h)
  | Put i c => let! s := obj w i in let! (s, h) := put s c (mem w) in Ok (store w i (Some s) h)
  | Reserve i n => let! s := obj w i in let! (s, h) := reserve s n (mem w) in Ok (store w i (Some s) h)
  | Clear i => let! s := obj w i in Ok (store w i (Some (clear s)) (mem w))
  | CopyCtor i j => let! _ := raw w i in let! r := obj w j in
                    let! (s, h) := copy_ctor r (mem w) in Ok (store w i (Some s) h)
  (* 87-95 move constructor *)
  | MoveCtor i j => let! _ := raw w i in let! r := obj w j in
                    Ok (store (store w i (Some r) (mem w)) j (Some init) (mem w))
  | CopyAssign i j => let! s := obj w i in let! r := obj w j in
                      if (i =? j)%nat then Ok w else
                      let! (s, h) := copy_assign s r (mem w) in Ok (store w i (Some s) h)
  (* 119-129 move assignment: no comparison of this and &rhs; the members of rhs are read after the delete *)
  | MoveAssign i j => let! s := obj w i in let! r := obj w j in
                      let! h := dealloc (data s) (mem w) in
                      Ok (store (store w i (Some r) h) j (Some init) h)
  | Destroy i => let! s := obj w i in let! h := dealloc (data s) (mem w) in Ok (store w i None h)
  end.
Fixpoint run (w : world) (ops : list op) : outcome world :=
  match ops with [] => Ok w | o :: ops => let! w := step w o in run w ops end.
Definition start (n : nat) : world := mkW (repeat None n) [].
(* what to_string of object i gives *)
Definition content (w : world) (i : nat) : outcome (list N) := let! s := obj w i in to_string s (mem w).

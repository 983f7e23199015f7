(* What users of vectors of trivially copyable elements see: a store of sequences with a capacity and an allocator each.
   An element without a value is None. *)
From Coq Require Import NArith Arith List Bool.
From Verif Require Import TVecModel.
Import ListNotations.
Open Scope N_scope.

Record ivec A := mki { ia : nat; ic : N; il : list (option A) }.
Arguments mki {A}. Arguments ia {A}. Arguments ic {A}. Arguments il {A}.
Definition store A := list (option (ivec A)).
Fixpoint put {T} (l : list T) (i : nat) (x : T) : list T :=
  match l, i with [], _ => [] | _ :: l, O => x :: l | y :: l, S i => y :: put l i x end.
Definition len {A} (x : ivec A) : N := N.of_nat (length (il x)).
Definition limit : N := 2 ^ 48.
(* the values of elements that all have one *)
Fixpoint values {A} (l : list (option A)) : option (list A) :=
  match l with
  | [] => Some []
  | Some x :: l => match values l with Some l => Some (x :: l) | None => None end
  | None :: _ => None
  end.
Definition value_at {A} (l : list (option A)) (i : N) : option A :=
  match nth_error l (N.to_nat i) with Some v => v | None => None end.
Definition argval {A} (l : list (option A)) (x : arg A) : option A := match x with Val x => Some x | Own i => value_at l i end.
(* the capacity after room for n elements was asked for *)
Definition grown {A} (x : ivec A) (n : N) : N := if n <=? ic x then ic x else N.max (2 * ic x) n.

(* outer None: the operation names a vector that does not exist, reads an element without a value, or asks for sizes no
   machine has; inner None: the operation is refused *)
Definition ideal {A} (dflt : A) (s : store A) (o : op A) : option (option (store A * res A)) :=
  let on k (f : ivec A -> option (option (store A * res A))) :=
    match nth_error s k with Some (Some x) => f x | _ => None end in
  let ret s := Some (Some (s, RUnit)) in
  let new x := ret (s ++ [Some x]) in
  let refuse := Some None in
  let to k x := ret (put s k (Some x)) in
  let value k i := on k (fun x => if len x <=? i then refuse
                                  else match value_at (il x) i with Some v => Some (Some (s, RV v)) | None => None end) in
  match o with
  | New a => new (mki a 0 [])
  | Sized a n => if n <=? limit then new (mki a n (repeat (Some dflt) (N.to_nat n))) else None
  | Uninit a n => if n <=? limit then new (mki a n (repeat None (N.to_nat n))) else None
  | Filled a n x => if n <=? limit then new (mki a n (repeat (Some x) (N.to_nat n))) else refuse
  | Of a l => let n := N.of_nat (length l) in if n <=? limit then new (mki a n (map Some l)) else refuse
  | MoveNew j => on j (fun x => ret (put s j (Some (mki 0%nat 0 [])) ++ [Some x]))
  | MoveAssign k j => on k (fun _ => on j (fun x => ret (put (put s k (Some x)) j (Some (mki 0%nat 0 [])))))
  (* copies exist for the system allocator only *)
  | CopyNew j => on j (fun x => if (ia x =? 0)%nat then if len x <=? limit then new (mki 0%nat (len x) (il x)) else refuse else None)
  | CopyAssign k j => on k (fun x => on j (fun y =>
      if ((ia x =? 0) && (ia y =? 0))%nat then to k (mki 0%nat (N.max (ic x) (len y)) (il y)) else None))
  | Destroy k => on k (fun _ => ret (put s k None))
  | ResetReserve k a n => on k (fun _ => match a with
                                         | None => refuse
                                         | Some a => if n <=? limit then to k (mki a n []) else refuse
                                         end)
  | Emplace k v => on k (fun x => match argval (il x) v with
      | None => None
      | Some v => if len x <? ic x then to k (mki (ia x) (ic x) (il x ++ [Some v]))
                  else if ic x <=? limit then to k (mki (ia x) (N.max 1 (2 * ic x)) (il x ++ [Some v])) else None
      end)
  | EmplaceStable k v => on k (fun x => match argval (il x) v with
      | None => None
      | Some v => if len x <? ic x then to k (mki (ia x) (ic x) (il x ++ [Some v])) else refuse
      end)
  | PushRange k l => on k (fun x => let n := N.of_nat (length l) in
      if n =? 0 then to k x
      else if len x + n <=? limit then to k (mki (ia x) (grown x (len x + n)) (il x ++ map Some l))
      else if n <? 2 ^ 63 then refuse else None)
  | InsertRange k i l => on k (fun x => let n := N.of_nat (length l) in
      if len x <? i then refuse
      else if n =? 0 then to k x
      else if len x + n <=? limit
           then to k (mki (ia x) (grown x (len x + n)) (firstn (N.to_nat i) (il x) ++ map Some l ++ skipn (N.to_nat i) (il x)))
      else if n <? 2 ^ 63 then refuse else None)
  | Pop k => on k (fun x => if len x =? 0 then refuse else to k (mki (ia x) (ic x) (removelast (il x))))
  | GetPop k => on k (fun x => if len x =? 0 then refuse else
      match value_at (il x) (len x - 1) with
      | Some v => Some (Some (put s k (Some (mki (ia x) (ic x) (removelast (il x)))), RV v))
      | None => None
      end)
  | Reserve k n => on k (fun x => if n <=? limit then to k (mki (ia x) (grown x n) (il x)) else refuse)
  | Resize k n => on k (fun x => if (n <=? ic x) || (n <=? limit)
      then to k (mki (ia x) (grown x n) (firstn (N.to_nat n) (il x) ++ repeat (Some dflt) (N.to_nat (n - len x)))) else refuse)
  | ResizeTo k n v => on k (fun x => if (n <=? ic x) || (n <=? limit)
      then to k (mki (ia x) (grown x n) (firstn (N.to_nat n) (il x) ++ repeat (Some v) (N.to_nat (n - len x)))) else refuse)
  | Clear k => on k (fun x => to k (mki (ia x) (ic x) []))
  | Shrink k => on k (fun x => to k (mki (ia x) (len x) (il x)))
  | RemoveAll k p => on k (fun x => match values (il x) with
      | Some l => let l' := filter (fun v => negb (p v)) l in
                  Some (Some (put s k (Some (mki (ia x) (ic x) (map Some l'))), RN (len x - N.of_nat (length l'))))
      | None => None
      end)
  | RemoveRange k i n => on k (fun x =>
      if n =? 0 then to k x
      else if 2 ^ 63 <=? n then None
      else if (len x <=? i) || (len x <? i + n) then refuse
      else match values (skipn (N.to_nat (i + n)) (il x)) with
           | Some l => to k (mki (ia x) (ic x) (firstn (N.to_nat i) (il x) ++ map Some l))
           | None => None
           end)
  | RemoveAt k i => on k (fun x =>
      if len x <=? i then refuse
      else match values (skipn (S (N.to_nat i)) (il x)) with
           | Some l => to k (mki (ia x) (ic x) (firstn (N.to_nat i) (il x) ++ map Some l))
           | None => None
           end)
  | RemoveUnordered k i => on k (fun x =>
      if len x <=? i then refuse
      else match value_at (il x) i, value_at (il x) (len x - 1) with
           | Some _, Some v => to k (mki (ia x) (ic x) (removelast (put (il x) (N.to_nat i) (Some v))))
           | _, _ => None
           end)
  | Get k i => value k i
  | Set_ k i v => on k (fun x => if len x <=? i then refuse else to k (mki (ia x) (ic x) (put (il x) (N.to_nat i) (Some v))))
  | Front k => value k 0
  | Back k => on k (fun x => if len x =? 0 then refuse else value k (len x - 1))
  | Size k => on k (fun x => Some (Some (s, RN (len x))))
  | Capacity k => on k (fun x => Some (Some (s, RN (ic x))))
  | Allocator k => on k (fun x => Some (Some (s, RN (N.of_nat (ia x)))))
  end.
Fixpoint irun {A} (dflt : A) (s : store A) (os : list (op A)) : option (option (store A * list (res A))) :=
  match os with
  | [] => Some (Some (s, []))
  | o :: os =>
      match ideal dflt s o with
      | None => None
      | Some None => Some None
      | Some (Some (s, r)) =>
          match irun dflt s os with Some (Some (s, rs)) => Some (Some (s, r :: rs)) | x => x end
      end
  end.

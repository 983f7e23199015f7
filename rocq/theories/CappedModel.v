(* Model of src/clean-core/capped_vector.hh (primary template, N > 0) for element types with non-trivial members.
   The inline storage T[N] is a list of N cells; the element loops are those of VecModel. *)
From Coq Require Import NArith Arith List Bool.
From Verif Require Import Base Cells VecModel.
Import ListNotations.
Open Scope N_scope.

(* detail/compact_size_t.hh:11-21 width of the size field for capacity n and alignof(T) = al *)
Definition width (n al : N) : N :=
  if (n <? 2 ^ 8) && (al <=? 1) then 8
  else if (n <? 2 ^ 16) && (al <=? 2) then 16
  else if (n <? 2 ^ 32) && (al <=? 4) then 32
  else 64.

Section Capped.
  Context {A : Type} (cap al : N).
  Notation w := (width cap al).

  (* capped_vector.hh:282-283 *)
  Record cvec := mkC { cells : list (cell A); csize : N }.
  Definition cinit : cvec := mkC (raw_storage (N.to_nat cap)) 0.

  (* :29-33 *)
  Definition full (v : cvec) : bool := csize v =? cap.
  Definition cempty (v : cvec) : bool := csize v =? 0.
  (* :38-70 front, back, operator[] *)
  Definition cfront (v : cvec) : outcome A := let! _ := contract (0 <? csize v) in cread (cells v) 0.
  Definition cback (v : cvec) : outcome A :=
    let! _ := contract (0 <? csize v) in cread (cells v) (N.to_nat (csize v - 1)).
  Definition cindex (v : cvec) (i : N) : outcome A := let! _ := contract (i <? csize v) in cread (cells v) (N.to_nat i).
  Definition cset (v : cvec) (i : N) (x : A) : outcome cvec :=
    let! _ := contract (i <? csize v) in
    let! d := assign (cells v) (N.to_nat i) x in Ok (mkC d (csize v)).

  Definition ceval (v : cvec) (a : arg (A := A)) : outcome A :=
    match a with Val x => Ok x | Own p => cread (cells v) (N.to_nat p) end.
  (* :170-200 push_back, emplace_back *)
  Definition cpush (v : cvec) (a : arg) : outcome cvec :=
    let! _ := contract (csize v <? cap) in
    let! x := ceval v a in
    let! d := construct (cells v) (N.to_nat (csize v)) x in
    Ok (mkC d (wadd w (csize v) 1)).
  (* :186-191 pop_back *)
  Definition cpop (v : cvec) : outcome cvec :=
    let! _ := contract (0 <? csize v) in
    let s := wsub w (csize v) 1 in
    let! d := destroy (cells v) (N.to_nat s) in
    Ok (mkC d s).
  (* destroy the elements from the last one down to index to *)
  Definition cdestroy_to (v : cvec) (to : N) : outcome (list (cell A)) :=
    destroy_reverse (N.to_nat (csize v) - N.to_nat to) (N.to_nat to) (cells v).
  (* :202-208 clear *)
  Definition cclear (v : cvec) : outcome cvec := let! d := cdestroy_to v 0 in Ok (mkC d 0).
  (* :210-228 resize *)
  Definition cresize (v : cvec) (n : N) (x : A) : outcome cvec :=
    let! _ := contract (n <=? cap) in
    let! d := copy_construct (repeat x (N.to_nat n - N.to_nat (csize v))) (N.to_nat (csize v)) (cells v) in
    let! d := cdestroy_to (mkC d (csize v)) n in
    Ok (mkC d (wrap w n)).
  (* :231-238 remove_at *)
  Definition cremove_at (v : cvec) (i : N) : outcome cvec :=
    let! _ := contract (i <? csize v) in
    let! d := shift (N.to_nat (csize v) - N.to_nat i - 1) (N.to_nat i) 1 (cells v) in
    let s := wsub w (csize v) 1 in
    let! d := destroy d (N.to_nat s) in
    Ok (mkC d s).
  (* :241-246 remove_at_unordered *)
  Definition cremove_at_unordered (v : cvec) (i : N) : outcome cvec :=
    let! _ := contract (i <? csize v) in
    let! _ := contract (0 <? csize v) in
    let! d := swap (cells v) (N.to_nat i) (N.to_nat (csize v - 1)) in
    cpop (mkC d (csize v)).
  (* :249-256 contains *)
  Definition ccontains (v : cvec) (p : A -> bool) : outcome bool :=
    let! r := find_loop p (N.to_nat (csize v)) 0 (cells v) in
    Ok (match r with Some _ => true | None => false end).
  (* :258-266 operator== *)
  Definition cequal (eqb : A -> A -> bool) (v : cvec) (rhs : list A) : outcome bool :=
    if csize v =? N.of_nat (length rhs) then equal_loop eqb 0 (cells v) rhs else Ok false.

  (* :77-105 capped_vector(size), defaulted, filled *)
  Definition cmake_sized (n : N) (x : A) : outcome cvec := let! _ := contract (n <=? cap) in cresize cinit n x.
  (* :116-123 capped_vector(begin, num), initializer list, span *)
  Definition cmake_from (vs : list A) : outcome cvec :=
    let! _ := contract (N.of_nat (length vs) <=? cap) in
    let! d := copy_construct vs 0 (cells cinit) in
    Ok (mkC d (wrap w (N.of_nat (length vs)))).
  Definition cvalues (v : cvec) : outcome (list A) := read_range (N.to_nat (csize v)) 0 (cells v).
  (* :107-110 copy constructor *)
  Definition ccopy_ctor (rhs : cvec) : outcome cvec :=
    let! vs := cvalues rhs in
    let! d := copy_construct vs 0 (cells cinit) in
    Ok (mkC d (wrap w (csize rhs))).
  (* n copy assignments _u.value[i] = vs[i] *)
  Fixpoint assign_range (vs : list A) (i : nat) (d : list (cell A)) : outcome (list (cell A)) :=
    match vs with [] => Ok d | x :: vs => let! d := assign d i x in assign_range vs (S i) d end.
  (* :125-143 copy assignment; rhs may be the same object, its values are then read from the same storage *)
  Definition ccopy_assign (v rhs : cvec) : outcome cvec :=
    let common := N.min (csize v) (csize rhs) in
    let! vs := cvalues rhs in
    let! d := cdestroy_to v (csize rhs) in
    let! d := assign_range (firstn (N.to_nat common) vs) 0 d in
    let! d := copy_construct (skipn (N.to_nat common) vs) (N.to_nat common) d in
    Ok (mkC d (csize rhs)).
  (* :166 destructor; the storage goes away with the object *)
  Definition cdestructor (v : cvec) : outcome unit := let! d := cdestroy_to v 0 in release d.

  (* :111-115 move constructor: (new object, source afterwards) *)
  Definition cmove_ctor (rhs : cvec) : outcome (cvec * cvec) :=
    let! (src, d) := move_construct (N.to_nat (csize rhs)) 0 (cells rhs) (cells cinit) in
    Ok (mkC d (wrap w (csize rhs)), mkC src 0).

  (* ---- histories ---- *)
  Inductive cop :=
  | CPushBack (x : A) | CPushBackOf (i : N) | CPopBack | CClear | CResize (n : N) (x : A) | CRemoveAt (i : N)
  | CRemoveAtUnordered (i : N) | CGet (i : N) | CSetAt (i : N) (x : A) | CFront | CBack | CSize | CContains (p : A -> bool).
  Definition cru (o : outcome cvec) : outcome (cvec * res A) := let! v := o in Ok (v, RUnit).
  Definition crr {R} (v : cvec) (f : R -> res A) (o : outcome R) : outcome (cvec * res A) := let! r := o in Ok (v, f r).
  Definition cstep (v : cvec) (o : cop) : outcome (cvec * res A) :=
    match o with
    | CPushBack x => cru (cpush v (Val x))
    | CPushBackOf i => let! _ := contract (i <? csize v) in cru (cpush v (Own i))
    | CPopBack => cru (cpop v)
    | CClear => cru (cclear v)
    | CResize n x => cru (cresize v n x)
    | CRemoveAt i => cru (cremove_at v i)
    | CRemoveAtUnordered i => cru (cremove_at_unordered v i)
    | CGet i => crr v RVal (cindex v i)
    | CSetAt i x => cru (cset v i x)
    | CFront => crr v RVal (cfront v)
    | CBack => crr v RVal (cback v)
    | CSize => Ok (v, RN (csize v))
    | CContains p => crr v RB (ccontains v p)
    end.
  Inductive cwop :=
  | COn (k : nat) (o : cop) | CNew | CNewSized (n : N) (x : A) | CNewFrom (vs : list A) | CCopyNew (k : nat)
  | CCopyAssign (k j : nat) | CDestroy (k : nat).
  Definition cgetv (st : list (option cvec)) (k : nat) : outcome cvec := match nth_error st k with Some (Some v) => Ok v | _ => UB end.
  Definition cwstep (st : list (option cvec)) (o : cwop) : outcome (list (option cvec) * res A) :=
    match o with
    | COn k o => let! v := cgetv st k in let! (v, r) := cstep v o in Ok (lset st k (Some v), r)
    | CNew => Ok (st ++ [Some cinit], RUnit)
    | CNewSized n x => let! v := cmake_sized n x in Ok (st ++ [Some v], RUnit)
    | CNewFrom vs => let! v := cmake_from vs in Ok (st ++ [Some v], RUnit)
    | CCopyNew k => let! v := cgetv st k in let! v := ccopy_ctor v in Ok (st ++ [Some v], RUnit)
    | CCopyAssign k j =>
        let! v := cgetv st k in let! rhs := cgetv st j in let! v := ccopy_assign v rhs in Ok (lset st k (Some v), RUnit)
    | CDestroy k => let! v := cgetv st k in let! _ := cdestructor v in Ok (lset st k None, RUnit)
    end.
  Fixpoint cwrun (st : list (option cvec)) (os : list cwop) : outcome (list (option cvec) * list (res A)) :=
    match os with
    | [] => Ok (st, [])
    | o :: os => let! (st, r) := cwstep st o in let! (st, rs) := cwrun st os in Ok (st, r :: rs)
    end.
End Capped.
Arguments cvec : clear implicits.
Arguments cop : clear implicits.
Arguments cwop : clear implicits.

(* Model of cc::vector_ex with integer index types (src/clean-core/vector_ex.hh, detail/vector_base.hh): what Traits::index_t
   does to the operations that take or make an index. The operations themselves are those of VecModel.v, whose indices are
   size_t. Arguments are the values that callers write, of any integer type. Class types as index_t (with an explicit conversion
   to size_t) are not modelled: remove_at, remove_first and remove_first_unordered do not compile with them. *)
From Coq Require Import NArith ZArith List Bool.
From Verif Require Import Base Cells VecModel KeysModel.
Import ListNotations.
Open Scope N_scope.

Definition size_type : ity := mkI 64 false.

Section IdxVec.
  Context {A : Type} (t : ity).
  (* the argument becomes an index_t, which size_t(i) converts (vector_base.hh:102-111, 208-218, 393-422) *)
  Definition as_index (y : Z) : Z := conv_to t y.
  Definition as_size (y : Z) : N := Z.to_N (conv_to size_type (as_index y)).
  (* :408-415 remove_at: idx < _size compares an index_t with a size_t *)
  Definition remove_at_ex (v : vec A) (y : Z) : outcome (vec A) :=
    let c := common t size_type in
    let! _ := contract (conv_to c (as_index y) <? conv_to c (Z.of_N (size v)))%Z in
    let idx := as_size y in
    let! d := shift (N.to_nat (size v) - N.to_nat idx - 1) (N.to_nat idx) 1 (data v) in
    let s := wsub 64 (size v) 1 in
    let! d := destroy d (N.to_nat s) in
    Ok (mkV d s (cap v)).
  (* :348-373 remove_first, remove_first_unordered: the size_t i becomes an index_t *)
  Definition remove_first_ex (v : vec A) (p : A -> bool) : outcome (bool * vec A) :=
    let! r := find_loop p (N.to_nat (size v)) 0 (data v) in
    match r with
    | Some i => let! v := remove_at_ex v (Z.of_nat i) in Ok (true, v)
    | None => Ok (false, v)
    end.
  Definition remove_first_unordered_ex (v : vec A) (p : A -> bool) : outcome (bool * vec A) :=
    let! r := find_loop p (N.to_nat (size v)) 0 (data v) in
    match r with
    | Some i => let! v := remove_at_unordered v (as_size (Z.of_nat i)) in Ok (true, v)
    | None => Ok (false, v)
    end.

  Inductive xop :=
  | XPush (x : A) | XPushRange (vs : list A) | XPop | XResize (n : N) (x : A) | XClear | XRemoveAll (p : A -> bool) | XSize
  | XGet (y : Z) | XSet (y : Z) (x : A) | XInsert (y : Z) (vs : list A) | XRemoveRange (y : Z) (n : N)
  | XRemoveAt (y : Z) | XRemoveAtUnordered (y : Z) | XRemoveFirst (p : A -> bool) | XRemoveFirstUnordered (p : A -> bool).
  Definition xstep (v : vec A) (o : xop) : outcome (vec A * res A) :=
    match o with
    | XPush x => step v (PushBack x)
    | XPushRange vs => step v (PushRange vs)
    | XPop => step v PopBack
    | XResize n x => step v (Resize n x)
    | XClear => step v Clear
    | XRemoveAll p => step v (RemoveAll p)
    | XSize => step v Size
    | XGet y => step v (Get (as_size y))
    | XSet y x => step v (SetAt (as_size y) x)
    | XInsert y vs => step v (InsertRange (as_size y) vs)
    | XRemoveRange y n => step v (RemoveRange (as_size y) n)
    | XRemoveAt y => ru (remove_at_ex v y)
    | XRemoveAtUnordered y => step v (RemoveAtUnordered (as_size y))
    | XRemoveFirst p => rv RB (remove_first_ex v p)
    | XRemoveFirstUnordered p => rv RB (remove_first_unordered_ex v p)
    end.
  Fixpoint xrun (v : vec A) (os : list xop) : outcome (vec A * list (res A)) :=
    match os with
    | [] => Ok (v, [])
    | o :: os => let! (v, r) := xstep v o in let! (v, rs) := xrun v os in Ok (v, r :: rs)
    end.
End IdxVec.
Arguments xop : clear implicits.

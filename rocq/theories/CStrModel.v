(* Model of cc::temp_cstr (src/clean-core/temp_cstr.hh, temp_cstr.cc) and of cc::print and cc::println
   (src/clean-core/print.hh, print.cc), over the heap and the allocators of AArrModel.v. The view does not refer to the buffer
   or to memory that is allocated while it is used, so it is given by its characters; None is a view with the data nullptr. *)
From Coq Require Import NArith List Bool Arith.
From Verif Require Import Base AArrModel.
Import ListNotations.
Open Scope N_scope.

Definition view := option (list N).
Definition chars (sv : view) : list N := match sv with Some s => s | None => [] end.
Definition vsize (sv : view) : N := N.of_nat (length (chars sv)).
(* _data and whether there is an _alloc *)
Record temp := mkC { data : option ptr; owns : bool }.
Definition char_t : ty := mkT 1 1 true true [Some 0].
Definition byte_t : ty := mkT 1 1 true true [Some 0].

(* memcpy(dst, sv.data(), sv.size()): both have to be valid pointers, for any size *)
Definition copy_in (b : nat) (o : N) (sv : view) (h : heap) : outcome heap :=
  match sv with None => UB | Some s => store b o (map Some s) h end.
(* temp_cstr.cc:33-41 *)
Definition init_from_allocator (place : option policy) (sv : view) (h : heap) : outcome (temp * heap) :=
  match place with
  | None => Contract
  | Some place =>
      let! (p, h) := new_array place 0 char_t (wadd 64 (vsize sv) 1) h in
      let! h := copy_in (fst p) (snd p) sv h in
      let! h := store (fst p) (snd p + vsize sv) [Some 0] h in
      Ok (mkC (Some p) true, h)
  end.
(* temp_cstr.cc:5-9 *)
Definition of_view (place : option policy) (sv : view) (h : heap) : outcome (temp * heap) := init_from_allocator place sv h.
(* temp_cstr.cc:11-31; the buffer is bsz bytes at b, o *)
Definition of_buffer (b : nat) (o bsz : N) (place : option policy) (sv : view) (h : heap) : outcome (temp * heap) :=
  if vsize sv <? bsz then
    let! h := copy_in b o sv h in
    let! _ := contract (vsize sv <? bsz) in
    let! h := store b (o + vsize sv) [Some 0] h in
    Ok (mkC (Some (b, o)) false, h)
  else init_from_allocator place sv h.
(* temp_cstr.hh:51-57: given c strings are passed through *)
Definition of_cstr (p : option ptr) : temp := mkC p false.
(* temp_cstr.hh:64-69 *)
Definition destroy (c : temp) (h : heap) : outcome heap :=
  match data c with
  | Some p => if owns c then delete_array 0 byte_t (Some p) h else Ok h
  | None => Ok h
  end.

(* what users of a c string read: the characters in front of the first zero *)
Fixpoint c_string (fuel : nat) (b : nat) (o : N) (h : heap) : outcome (list N) :=
  match fuel with
  | O => OutOfFuel
  | S fuel =>
      let! l := load b o 1 h in
      match l with
      | [Some c] => if c =? 0 then Ok [] else let! s := c_string fuel b (o + 1) h in Ok (c :: s)
      | _ => UB
      end
  end.
Definition read (fuel : nat) (c : temp) (h : heap) : outcome (list N) := match data c with Some (b, o) => c_string fuel b o h | None => UB end.
(* print.cc:5, 9-13: fputs and puts; the temporary lives until the end of the call *)
Definition print (place : policy) (fuel : nat) (sv : view) (h : heap) : outcome (list N * heap) :=
  let! (c, h) := of_view (Some place) sv h in
  let! out := read fuel c h in
  let! h := destroy c h in
  Ok (out, h).
Definition println (place : policy) (fuel : nat) (sv : view) (h : heap) : outcome (list N * heap) :=
  let! (out, h) := print place fuel sv h in Ok (out ++ [10], h).

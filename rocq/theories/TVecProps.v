(* Property C122. *)
From Coq Require Import NArith Arith List Bool Lia.
From Verif Require Import Base TVecModel TVecSpec OwnHeap TVecProofs.
Import ListNotations.
Open Scope N_scope.

(* ---- C122: vectors of trivially copyable elements over allocators ---- *)
(* Every history of any number of vectors gives exactly the results of a store of ideal sequences (refused calls included), with
   the capacity and the allocator of each vector, for all element types of up to 32 kB, for either way of growing.  No block is
   given to an allocator it does not come from, and if all vectors are destroyed at the end every block has been given back.
   Missing for the full claim: constructors with a size above 2^48 (C122_sized_refuted), remove_range with counts from 2^63 on
   (C122_count_refuted), ranges of own elements (C122_own_refuted). *)
Theorem C122_history_partial : forall A sz (dflt : A) os, 0 < sz < 2 ^ 15 ->
  match irun dflt [] os with
  | Some (Some (s, rs)) =>
      exists w, run sz dflt (mkw [] []) os = Ok (w, rs) /\
        ((forall k x, nth_error s k = Some x -> x = None) -> forall b c, nth_error (hp w) b = Some c -> c = None)
  | Some None => run sz dflt (mkw [] []) os = Contract
  | None => True
  end.
Proof.
  intros A sz dflt os Hs. pose proof (run_ok sz dflt Hs os (mkw [] []) [] (rep_empty _ _)) as H.
  destruct (irun dflt [] os) as [[[s rs]|]|]; [|exact H|exact Logic.I].
  destruct H as (w & E & HR). exists w. split; [exact E|]. apply (rep_none_left _ _ _ _ _ HR).
Qed.
(* Asking for room at least doubles the capacity, or leaves it alone. *)
Theorem C122_capacity : forall A (x : ivec A) n, n <= grown x n /\ ic x <= grown x n /\ (grown x n = ic x \/ 2 * ic x <= grown x n).
Proof. intros A x n. unfold grown. destruct (N.leb_spec n (ic x)); lia. Qed.

(* cc::vector<uint64_t>(2^61 + 1) allocates 8 bytes; element 5 passes the check and lies outside *)
Theorem C122_sized_refuted :
  let n := 2 ^ 61 + 1 in
  (exists w, run 8 7 (mkw [] []) [Sized 0 n; Size 0; Get 0 0] = Ok (w, [RUnit; RN n; RV 7]) /\ hp w = [Some (0%nat, [Some 7])]) /\
  run 8 7 (mkw [] []) [Sized 0 n; Get 0 5] = UB /\ run 8 7 (mkw [] []) [Uninit 0 n; Set_ 0 5 1] = UB /\
  run 8 7 (mkw [] []) [Filled 0 n 7] = Contract.
Proof. cbv zeta. split; [|split; [|split]]; try (vm_compute; reflexivity). eexists. split; vm_compute; reflexivity. Qed.
(* remove_range(1, SIZE_MAX) of a vector with spare capacity adds an element instead of removing any *)
Theorem C122_count_refuted : exists w,
  run 8 0 (mkw [] []) [Of 0 [1; 2; 3]; Reserve 0 4; RemoveRange 0 1 (2 ^ 64 - 1); Size 0; Get 0 0; Get 0 1; Get 0 2; Get 0 3] =
  Ok (w, [RUnit; RUnit; RUnit; RN 4; RV 1; RV 1; RV 1; RV 1]).
Proof. eexists. vm_compute. reflexivity. Qed.
(* v.push_back_range(v): reads freed memory when the vector has to grow, works otherwise *)
Definition push_all_own (os : list (op N)) : outcome (list (option N)) :=
  let! (w, _) := run 8 0 (mkw [] []) os in
  let! v := get w 0 in
  let! (h, v) := push_back_own 8 (hp w) v 0 (vsize v) in
  view h v 0 (N.to_nat (vsize v)).
Theorem C122_own_refuted :
  push_all_own [Of 0 [1; 2]] = UB /\ push_all_own [Of 0 [1; 2]; Reserve 0 4] = Ok [Some 1; Some 2; Some 1; Some 2].
Proof. split; vm_compute; reflexivity. Qed.

Example C122_ex :
  let os := [Of 3 [1; 2; 3]; Emplace 0 (Own 1); Capacity 0; Allocator 0; InsertRange 0 1 [8; 9]; Get 0 1; Back 0; RemoveAll 0 (fun x => x =? 2);
             Size 0; RemoveUnordered 0 0; Get 0 0; RemoveRange 0 1 2; Size 0; Shrink 0; Capacity 0; MoveNew 0; Allocator 0; Capacity 0; Front 1;
             ResetReserve 1 (Some 5%nat) 6; Capacity 1; EmplaceStable 1 (Val 4); GetPop 1; Sized 0 2; CopyNew 2; Resize 3 3; CopyAssign 2 3; Get 2 2;
             MoveAssign 0 3; MoveAssign 0 0; Size 0; Uninit 1 1; Set_ 4 0 6; RemoveAt 4 0; PushRange 4 [1; 2]; Pop 4; ResizeTo 4 3 9; Get 4 2; Clear 4;
             Destroy 0; Destroy 1; Destroy 2; Destroy 3; Destroy 4] in
  irun 7 [] os = Some (Some ([None; None; None; None; None],
    [RUnit; RUnit; RN 6; RN 3; RUnit; RV 8; RV 2; RN 2; RN 4; RUnit; RV 3; RUnit; RN 1; RUnit; RN 1; RUnit; RN 0; RN 0; RV 3;
     RUnit; RN 6; RUnit; RV 4; RUnit; RUnit; RUnit; RUnit; RV 7; RUnit; RUnit; RN 0; RUnit; RUnit; RUnit; RUnit; RUnit; RUnit; RV 9; RUnit;
     RUnit; RUnit; RUnit; RUnit; RUnit])).
Proof. vm_compute. reflexivity. Qed.
(* both ways of growing *)
Example C122_ex_grow : forall sz, In sz [8; 1024] ->
  exists w, run sz 0 (mkw [] []) [New 2; Emplace 0 (Val 1); Emplace 0 (Own 0); Emplace 0 (Own 1); Get 0 2; Capacity 0] = Ok (w, [RUnit; RUnit; RUnit; RUnit; RV 1; RN 4]).
Proof. intros sz [<-|[<-|[]]]; eexists; vm_compute; reflexivity. Qed.
Example C122_ex_refused :
  run 8 0 (mkw [] []) [Of 0 [1]; Get 0 1] = Contract /\ run 8 0 (mkw [] []) [New 0; ResetReserve 0 None 1] = Contract /\
  run 8 0 (mkw [] []) [New 0; Reserve 0 (2 ^ 48 + 1)] = Contract.
Proof. split; [|split]; vm_compute; reflexivity. Qed.

Print Assumptions C122_history_partial.
Print Assumptions C122_capacity.
Print Assumptions C122_sized_refuted.
Print Assumptions C122_count_refuted.
Print Assumptions C122_own_refuted.

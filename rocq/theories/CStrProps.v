(* C121: temporary c strings and printing. *)
From Coq Require Import NArith List Bool Arith Lia Permutation.
From Verif Require Import Base AArrModel AArrSpec AArrProofs CStrModel CStrSpec CStrProofs.
Import ListNotations.
Open Scope N_scope.

(* A temporary c string of a view: one new block is allocated, nothing else changes. As long as nobody writes to this block,
   whatever else happens on the heap, c string functions see the characters of the view up to the first zero, and the
   destructor gives back exactly this block. Missing: views with the data nullptr, and allocators that return memory only
   aligned for characters (both refuted below). *)
Theorem C121_view_partial : forall place s h, suitable place -> N.of_nat (length s) + 10 < 2 ^ 64 ->
  exists c h1, of_view (Some place) (Some s) h = Ok (c, h1) /\ (forall j, j <> next h -> blk h1 j = blk h j) /\ next h1 = S (next h) /\ objs h1 = objs h /\
    forall h2 fuel, blk h2 (next h) = blk h1 (next h) -> (length s < fuel)%nat ->
      read fuel c h2 = Ok (upto0 s) /\
      exists h3, destroy c h2 = Ok h3 /\ blk h3 (next h) = None /\ (forall j, j <> next h -> blk h3 j = blk h2 j) /\ next h3 = next h2 /\ objs h3 = objs h2.
Proof.
  intros place s h Su Sz. destruct (of_view_ok place s h Su Sz) as (h1 & k & E & A & O & Z & Cn & St). eexists _, h1. split; [exact E|]. split; [apply A|]. split; [apply A|]. split; [exact O|].
  intros h2 fuel Sb F. assert (blk h1 (next h) = Some k) as Bk by apply A. split.
  - unfold read. cbn [data]. apply stored_read; [|exact F]. destruct St as (k' & B' & R). exists k'. split; [congruence|exact R].
  - destruct (destroy_ok (next h) h2 k _ ltac:(congruence) Cn) as (h3 & E3 & (R1 & R2 & R3) & O3). exists h3. auto.
Qed.
(* With a buffer that has room for the characters and a zero, nothing is allocated or freed and only this part of the buffer
   is written. *)
Theorem C121_buffer_partial : forall b o bsz place s h k, blk h b = Some k -> o + bsz <= bsize k -> N.of_nat (length s) < bsz ->
  exists c h1, of_buffer b o bsz place (Some s) h = Ok (c, h1) /\ next h1 = next h /\ objs h1 = objs h /\ (forall j, j <> b -> blk h1 j = blk h j) /\
    (exists k1, blk h1 b = Some k1 /\ base k1 = base k /\ bsize k1 = bsize k /\ forall i, i < o \/ o + N.of_nat (length s) + 1 <= i -> byte k1 i = byte k i) /\
    forall h2 fuel, blk h2 b = blk h1 b -> (length s < fuel)%nat -> read fuel c h2 = Ok (upto0 s) /\ destroy c h2 = Ok h2.
Proof.
  intros b o bsz place s h k Hb L F. destruct (of_buffer_ok b o bsz place s h k Hb L F) as (h1 & k1 & E & A & O & B & Z & St & Fr). eexists _, h1. split; [exact E|]. split; [apply A|]. split; [exact O|]. split; [apply A|].
  split; [exists k1; split; [apply A|auto]|]. intros h2 fuel Sb Fu. split; [|reflexivity]. unfold read. cbn [data]. apply stored_read; [|exact Fu]. destruct St as (k' & B' & R). exists k'. split; [congruence|exact R].
Qed.
(* otherwise the allocator is used, which has to be there *)
Theorem C121_fallback : forall b o bsz place sv h, bsz <= vsize sv -> of_buffer b o bsz place sv h = of_view place sv h.
Proof. intros b o bsz place sv h H. unfold of_buffer. apply N.ltb_ge in H. rewrite H. reflexivity. Qed.
Theorem C121_no_allocator : forall b o bsz sv h, of_view None sv h = Contract /\ (bsz <= vsize sv -> of_buffer b o bsz None sv h = Contract).
Proof. intros b o bsz sv h. split; [reflexivity|]. intros H. rewrite C121_fallback by exact H. reflexivity. Qed.
(* c strings are passed through *)
Theorem C121_passed : forall b o s h fuel, stored b o s h -> (length s < fuel)%nat -> read fuel (of_cstr (Some (b, o))) h = Ok (upto0 s) /\ destroy (of_cstr (Some (b, o))) h = Ok h.
Proof. intros b o s h fuel St F. split; [exact (stored_read s b o h fuel St F)|reflexivity]. Qed.

(* Printing: the characters, and a newline for println; the heap is as before. *)
Theorem C121_print_partial : forall place s h fuel, suitable place -> N.of_nat (length s) + 10 < 2 ^ 64 -> fresh h -> (length s < fuel)%nat -> ~ In 0 s ->
  (exists h', print place fuel (Some s) h = Ok (s, h') /\ (forall j, blk h' j = blk h j) /\ objs h' = objs h) /\
  (exists h', println place fuel (Some s) h = Ok (s ++ [10], h') /\ (forall j, blk h' j = blk h j) /\ objs h' = objs h).
Proof.
  intros place s h fuel Su Sz Fr F N0. destruct (print_ok place s h fuel Su Sz Fr F) as (h' & E & R). rewrite (upto0_id _ N0) in E. split; exists h'; (split; [|exact R]); [exact E|].
  unfold println. rewrite E. reflexivity.
Qed.
(* characters behind a zero in the view are not printed *)
Theorem C121_zero_refuted : forall place a b h fuel, suitable place -> N.of_nat (length (a ++ 0 :: b)) + 10 < 2 ^ 64 -> fresh h -> (length (a ++ 0%N :: b) < fuel)%nat -> ~ In 0 a ->
  exists h', print place fuel (Some (a ++ 0 :: b)) h = Ok (a, h') /\ a <> a ++ 0 :: b.
Proof.
  intros place a b h fuel Su Sz Fr F N0. destruct (print_ok place _ h fuel Su Sz Fr F) as (h' & E & _). rewrite (upto0_cut _ _ N0) in E. exists h'. split; [exact E|].
  intros X. apply (f_equal (@length N)) in X. rewrite app_length in X. cbn in X. lia.
Qed.
(* a view with the data nullptr, such as string_view(), is copied with memcpy from nullptr *)
Theorem C121_null_refuted : forall place h fuel b o bsz, suitable place -> 0 < bsz ->
  of_view (Some place) None h = UB /\ print place fuel None h = UB /\ of_buffer b o bsz (Some place) None h = UB.
Proof.
  intros place h fuel b o bsz Su Bz. assert (of_view (Some place) None h = UB) as E.
  { unfold of_view, init_from_allocator. destruct (new_array_ok place 1 char_t 1 h) as (h1 & k & E & _); [exact char_ok|intros h' s' a Ha; apply Su; exact Ha|intros s'; apply Su; reflexivity|unfold fits; cbn; lia|left; reflexivity|lia|].
    rewrite (new_fuel place 0 1). change (wadd 64 (vsize None) 1) with 1. rewrite E. reflexivity. }
  split; [exact E|]. split; [unfold print; rewrite E; reflexivity|]. unfold of_buffer. change (vsize None) with 0. apply N.ltb_lt in Bz. rewrite Bz. reflexivity.
Qed.
(* memory is requested with the alignment of characters, but a size_t is written to it *)
Theorem C121_misaligned_refuted : exists place, conforming place /\ forall s h, of_view (Some place) s h = UB.
Proof.
  exists (fun _ _ a => a * 4097). split.
  - intros h s a Ha. rewrite N.mul_comm. apply N.mod_mul. lia.
  - intros s h. unfold of_view, init_from_allocator, new_array, alloc. cbn [bind]. unfold store_size, aligned. cbn [blk]. rewrite upd_same. reflexivity.
Qed.

Definition place_ex : policy := fun h _ a => a * 4096 * (1 + N.of_nat (next h)).
Definition heap_ex : heap := mkH (fun b => if (b =? 0)%nat then Some (mkB 4096 8 (fun _ => Some 7)) else None) 1 [].
Lemma place_ex_ok : suitable place_ex.
Proof.
  intros h s a Ha. unfold place_ex. split.
  - rewrite <- N.mul_assoc, N.mul_comm. apply N.mod_mul. lia.
  - replace (a * 4096 * (1 + N.of_nat (next h))) with (a * 512 * (1 + N.of_nat (next h)) * 8) by lia. apply N.mod_mul. lia.
Qed.
Example C121_ex :
  suitable place_ex /\ fresh heap_ex /\
  match print place_ex 9 (Some [104; 105]) heap_ex with Ok (out, _) => out = [104; 105] | _ => False end /\
  match println place_ex 9 (Some [104; 0; 105]) heap_ex with Ok (out, _) => out = [104; 10] | _ => False end /\
  match of_buffer 0 2 3 None (Some [104; 105]) heap_ex with
  | Ok (c, h) => owns c = false /\ read 9 c h = Ok [104; 105] /\ load 0 0 8 h = Ok [Some 7; Some 7; Some 104; Some 105; Some 0; Some 7; Some 7; Some 7] | _ => False end /\
  of_buffer 0 2 2 None (Some [104; 105]) heap_ex = Contract /\
  match of_buffer 0 2 2 (Some place_ex) (Some [104; 105]) heap_ex with
  | Ok (c, h) => owns c = true /\ read 9 c h = Ok [104; 105] /\ match destroy c h with Ok h => blk h 1 = None | _ => False end | _ => False end.
Proof.
  split; [exact place_ex_ok|]. split; [intros [|b] H; [cbn in H; lia|reflexivity]|]. vm_compute. repeat split.
Qed.

Print Assumptions C121_view_partial.
Print Assumptions C121_buffer_partial.
Print Assumptions C121_fallback.
Print Assumptions C121_no_allocator.
Print Assumptions C121_passed.
Print Assumptions C121_print_partial.
Print Assumptions C121_zero_refuted.
Print Assumptions C121_null_refuted.
Print Assumptions C121_misaligned_refuted.

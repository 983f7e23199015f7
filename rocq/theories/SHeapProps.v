(* C126: the memory of sbo_string *)
From Coq Require Import NArith List Bool Arith Lia.
From Verif Require Import Base SboModel SboSpec SboProofs SHeapModel SHeapSpec SHeapProofs.
Import ListNotations.
Open Scope nat_scope.

Definition none : hworld := ([], []).
Definition word : list N := map N.of_nat (seq 65 20).
Definition short : list N := [97; 98; 99]%N.

(* For every small capacity and every history over any number of strings that the ideal characters allow - the operations of
   C31, and appending, replacing with and assigning views of other strings, for appending and assigning also of the string
   itself - nothing freed is read, written or deleted, every string shows its ideal characters in memory of its own, and a
   block is alive exactly as long as one string has it. *)
Theorem C126_history : forall sc os i rs, (7 <= sc < 2 ^ 60)%N -> ihrun [] os = Some (i, rs) ->
  exists w, hwrun sc none os = Ok (w, rs) /\ Forall2 (hagrees sc (fst w)) (snd w) i /\ exclusive w.
Proof.
  intros sc os i rs Hsc E. destruct (irun_sim sc Hsc os [] [] [] [] i rs inv_empty ltac:(constructor) E) as (h & hs & w & H & I & R).
  exists (h, hs). split; [exact H|]. cbn [fst snd]. split; [eapply rep_hagrees; eauto|eapply inv_excl; eauto].
Qed.
Definition hdemo : list hop :=
  [HW (NewFrom short); HW (NewFrom word); AppendView 0 1 2 5; AppendView 0 0 1 7; AppendView 1 1 0 20; ReplaceView 0 1 2 1 3 15; HW (CopyNew 1);
   AssignView 1 1 4 17; AssignView 2 0 0 3; HW (MoveNew 1); AssignView 1 0 2 20; HW (On 1 (RemoveSuffix 18)); HW (On 1 ShrinkToFit); HW (MoveAssign 2 3);
   HW (CopyAssign 3 0); HW (On 2 Clear); HW (On 3 (Fill 42 (Some 90)))]%N.
Definition alive (h : heap) : list bool := map (fun x => match x with Some _ => true | None => false end) h.
Example C126_history_ex : exists i rs w, ihrun [] hdemo = Some (i, rs) /\ hwrun 15 none hdemo = Ok (w, rs) /\
  nth_error i 1 = Some (Val [69; 70]%N false) /\ nth_error i 2 = Some (Val [] true) /\ nth_error i 3 = Some (Val (repeat 42%N 90) true) /\
  length (fst w) = 8 /\ length (filter (fun x => x) (alive (fst w))) = 2.
Proof.
  eexists _, _, _. split; [vm_compute; reflexivity|]. split; [vm_compute; reflexivity|]. split; [reflexivity|]. split; [reflexivity|]. split; [reflexivity|].
  split; vm_compute; reflexivity.
Qed.

(* once all strings are destroyed, no block is left *)
Theorem C126_no_leak : forall sc os i rs, (7 <= sc < 2 ^ 60)%N -> ihrun [] os = Some (i, rs) -> Forall (eq Dead) i ->
  exists w, hwrun sc none os = Ok (w, rs) /\ Forall (eq None) (fst w).
Proof.
  intros sc os i rs Hsc E D. destruct (C126_history sc os i rs Hsc E) as ([h hs] & H & A & (_ & X & _)). cbn [fst snd] in *. exists (h, hs). split; [exact H|].
  apply Forall_forall. intros x In. apply In_nth_error in In. destruct In as (b & B). destruct x as [x|]; [|reflexivity]. exfalso.
  destruct (X b (ex_intro _ x B)) as (k & s & N & _). clear - A D N. revert k N. induction A as [|y z hs i A1 A IH]; intros k N; [destruct k; discriminate|].
  inversion D; subst. destruct k as [|k]; cbn in *; [congruence|eauto].
Qed.
Definition hdemo_end : list hop := hdemo ++ map (fun k => HW (Destroy k)) [0; 1; 2; 3].
Example C126_no_leak_ex : exists rs w, ihrun [] hdemo_end = Some ([Dead; Dead; Dead; Dead], rs) /\ hwrun 15 none hdemo_end = Ok (w, rs) /\
  fst w = repeat None 8.
Proof. eexists _, _. split; [vm_compute; reflexivity|]. split; [vm_compute; reflexivity|]. vm_compute. reflexivity. Qed.

(* Strings that keep their characters to themselves (SboModel.v) are a faithful picture: every history that is defined there -
   moved-from strings and self-move included - is defined with pointers, gives the same strings, and the blocks are owned. *)
Theorem C126_values : forall sc os v rs, wrun sc [] os = Ok (v, rs) ->
  exists w, hwrun sc none (map HW os) = Ok (w, rs) /\ exclusive w /\
    Forall2 (fun x y => match x, y with
                        | None, None => True
                        | Some s, Some y => hsz s = ssz y /\ hbuf (fst w) s = buffer y /\ hcap sc s = capacity sc y /\ (hp s = PNull <-> loc y = LNull)
                        | _, _ => False
                        end) (snd w) v.
Proof.
  intros sc os v rs E. destruct (wrun_sim sc os [] [] [] v rs inv_empty E) as (h & hs & H & I). exists (h, hs). split; [exact H|]. split; [eapply inv_excl; eauto|].
  cbn [fst snd]. destruct I as (Ln & S & _). clear - Ln S. revert v Ln S. induction hs as [|x hs IH]; intros [|y v] Ln S; try discriminate; constructor.
  - specialize (S 0 x y eq_refl eq_refl). destruct x as [s|], y as [y|]; cbn in S; auto. destruct (load_facts _ _ _ S) as (-> & _ & _ & -> & Ca).
    split; [auto|]. split; [auto|]. split; [apply Ca|]. unfold load in S. destruct (hp s) eqn:P.
    + injection S as <-. cbn. split; discriminate.
    + apply obind in S. destruct S as (z & _ & S). injection S as <-. cbn. split; discriminate.
    + injection S as <-. cbn. tauto.
  - apply IH; [cbn in Ln; lia|]. intros k a b Na Nb. exact (S (Datatypes.S k) a b Na Nb).
Qed.
Definition vdemo : list wop :=
  [NewFrom word; MoveNew 0; Destroy 0; MoveAssign 1 1; On 1 Clear; On 1 (Append (word ++ word)); MoveNew 1; CopyNew 2; MoveAssign 1 2; MoveNew 2].
Example C126_values_ex : exists v rs w, wrun 15 [] vdemo = Ok (v, rs) /\ hwrun 15 none (map HW vdemo) = Ok (w, rs) /\ alive (fst w) = [false; true; true].
Proof. eexists _, _, _. split; [vm_compute; reflexivity|]. split; [vm_compute; reflexivity|]. vm_compute. reflexivity. Qed.

(* Copy assignment and fill delete the old characters before they allocate: if operator new throws, the string still points to
   the deleted block, and its destructor deletes it again. *)
Theorem C126_assign_throws_refuted : forall sc w k j s rhs b, exclusive w -> k <> j ->
  nth_error (snd w) k = Some (Some s) -> hp s = PBlk b -> nth_error (snd w) j = Some (Some rhs) -> hp rhs <> PSbo -> (sc < hsz rhs)%N ->
  exists w', hthrow sc w k (TCopyAssign j) = Ok (Some w') /\ hdestroy_at w' k = UB.
Proof.
  intros sc [h hs] k j s rhs b (X & _) D Ns P Nr Pr Z. cbn [fst snd] in *. destruct (X k b ltac:(exists s; auto)) as (x & B).
  assert (Lb : b < length h) by (apply nth_error_Some; congruence). assert (Lk : k < length hs) by (apply nth_error_Some; congruence).
  unfold hthrow, hgets. cbn [fst snd]. rewrite Ns. cbn [bind]. rewrite Nr. cbn [bind]. destruct (Nat.eqb_spec k j); [easy|].
  unfold free, hshort, delete. rewrite P. unfold block. rewrite B. cbn [bind].
  destruct (hp rhs) eqn:Q; [easy| |]; (destruct (N.leb_spec (hsz rhs) sc); [lia|]); cbn [orb]; (eexists; split; [reflexivity|]);
    unfold hdestroy_at, hgets; cbn [fst snd]; rewrite lset_nth_eq by auto; cbn [bind]; unfold hdestroy, free, hshort, delete; cbn [hp]; rewrite ?P;
    unfold block; rewrite lset_nth_eq by auto; reflexivity.
Qed.
Theorem C126_fill_throws_refuted : forall sc w k s b c n, exclusive w -> nth_error (snd w) k = Some (Some s) -> hp s = PBlk b -> hcap sc s = Ok c ->
  (sc <= c < n)%N -> n <> SIZE_MAX -> exists w', hthrow sc w k (TFill n) = Ok (Some w') /\ hdestroy_at w' k = UB.
Proof.
  intros sc [h hs] k s b c n (X & _) Ns P C L M. cbn [fst snd] in *. destruct (X k b ltac:(exists s; auto)) as (x & B).
  assert (Lb : b < length h) by (apply nth_error_Some; congruence).
  unfold hthrow, hgets. cbn [fst snd]. rewrite Ns. cbn [bind]. rewrite C. cbn [bind]. destruct (N.leb_spec n c); [lia|]. destruct (N.eqb_spec n SIZE_MAX); [easy|]. cbn [orb].
  unfold free, hshort, delete. rewrite P. unfold block. rewrite B. cbn [bind]. destruct (N.leb_spec sc n); [|lia]. cbn [contract bind]. eexists. split; [reflexivity|].
  unfold hdestroy_at, hgets; cbn [fst snd]. rewrite Ns. cbn [bind]. unfold hdestroy, free, hshort, delete. rewrite P. unfold block. rewrite lset_nth_eq by auto. reflexivity.
Qed.
(* a short string survives, with a size that is not its own *)
Theorem C126_short_throws_refuted : exists w w' s, hwrun 15 none [HW (NewFrom short); HW (NewFrom word)] = Ok (w, [RUnit; RUnit]) /\
  hthrow 15 w 0 (TCopyAssign 1) = Ok (Some w') /\ nth_error (snd w') 0 = Some (Some s) /\ hsz s = 20%N /\ hcap 15 s = Ok 15%N.
Proof. eexists _, _, _. split; [vm_compute; reflexivity|]. split; [vm_compute; reflexivity|]. split; [reflexivity|]. split; [vm_compute; reflexivity|]. vm_compute. reflexivity. Qed.
Example C126_throws_ex : exists w x, hwrun 15 none [HW (NewFrom word); HW (NewFrom (word ++ short))] = Ok (w, [RUnit; RUnit]) /\
  hthrow 15 w 0 (TCopyAssign 1) = Ok (Some x) /\ hdestroy_at x 0 = UB /\ (exists y, hdestroy_at x 1 = Ok y) /\
  exists z, hthrow 15 w 0 (TFill 30) = Ok (Some z) /\ hdestroy_at z 0 = UB.
Proof.
  eexists _, _. split; [vm_compute; reflexivity|]. split; [vm_compute; reflexivity|]. split; [vm_compute; reflexivity|]. split; [eexists; vm_compute; reflexivity|].
  eexists. split; vm_compute; reflexivity.
Qed.

Print Assumptions C126_history.
Print Assumptions C126_no_leak.
Print Assumptions C126_values.
Print Assumptions C126_assign_throws_refuted.
Print Assumptions C126_fill_throws_refuted.
Print Assumptions C126_short_throws_refuted.

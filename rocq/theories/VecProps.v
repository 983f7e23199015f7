(* Property theorems C27, C28, C29 and C74: src/clean-core/vector.hh and detail/vector_base.hh. *)
From Coq Require Import NArith Arith List Bool Lia.
From Verif Require Import Base Cells VecModel VecSpec VecProofs.
Import ListNotations.
Open Scope nat_scope.

(* every observation a user can make of a vector that should hold l *)
Definition agrees {A} (v : vec A) (l : list A) : Prop :=
  size v = N.of_nat (length l) /\ empty v = (match l with [] => true | _ => false end) /\
  (size v <= cap v)%N /\ length (data v) = N.to_nat (cap v) /\
  front v = (match l with x :: _ => Ok x | [] => Contract end) /\
  back v = (match rev l with x :: _ => Ok x | [] => Contract end) /\
  (forall i, index v i = match nth_error l (N.to_nat i) with Some x => Ok x | None => Contract end) /\
  (forall eqb rhs, equal eqb v rhs =
     Ok ((length l =? length rhs) && forallb (fun xy => eqb (fst xy) (snd xy)) (combine l rhs))) /\
  destructor v = Ok tt.

Lemma rep_agrees : forall A (v : vec A) l, rep v l -> agrees v l.
Proof.
  intros A v l R. pose proof (r_size _ _ R) as S. pose proof (r_cap _ _ R) as C. repeat split.
  - auto.
  - unfold empty. rewrite S. destruct l; auto.
  - lia.
  - rewrite (r_data _ _ R), app_length, map_length, raw_storage_length. lia.
  - apply front_spec; auto.
  - apply back_spec; auto.
  - intro i. apply index_spec; auto.
  - intros eqb rhs. unfold equal. rewrite S. destruct (Nat.eqb_spec (length l) (length rhs)).
    + rewrite (proj2 (N.eqb_eq _ _)) by lia. rewrite (r_data _ _ R).
      pose proof (equal_loop_spec eqb rhs l [] (raw_storage (N.to_nat (cap v) - length l)) 0 eq_refl e) as E. exact E.
    + rewrite (proj2 (N.eqb_neq _ _)) by lia. auto.
  - apply (destructor_spec _ _ R).
Qed.

(* C27: every history over any number of vectors.  Either some precondition of the ideal sequences is violated, and then
   the run stops with a contract violation; or all results equal the ideal ones, every surviving vector agrees with its
   ideal sequence in every observation, and its destructor destroys exactly its live elements.  Since UB covers
   constructing over a live element, reading/moving/destroying a dead one and releasing storage with live elements,
   lifetimes are exact throughout.  [small] bounds the sizes (2^48 elements, the limit checked by reserve). *)
Theorem C27_history : forall A (os : list (wop A)), small os -> wf [] os ->
  match iworld_run [] os with
  | Some (iw, rs) => exists w, wrun [] os = Ok (w, rs) /\
      Forall2 (fun ov ol => match ov, ol with Some v, Some l => agrees v l | None, None => True | _, _ => False end) w iw
  | None => wrun [] os = Contract
  end.
Proof.
  intros A os [S1 S2] W. pose proof (wrun_spec os (2 ^ 47)%N [] [] ltac:(constructor) W) as H.
  specialize (H ltac:(change (2 ^ 48)%N with (2 ^ 47 + 2 ^ 47)%N; lia) ltac:(lia) S2).
  destruct (iworld_run [] os) as [[iw rs]|]; auto. destruct H as [w [E R]]. exists w. split; auto.
  clear - R. induction R; constructor; auto. destruct x, y; cbn in *; auto. apply rep_agrees. tauto.
Qed.

(* push_back of a reference to an element of the vector itself is safe at every size, also when it reallocates *)
Theorem C27_push_own : forall A (v : vec A) l i x, rep v l -> (N.of_nat (length l) < 2 ^ 48)%N -> nth_error l (N.to_nat i) = Some x ->
  exists v', emplace_back v (Own i) = Ok v' /\ rep v' (l ++ [x]).
Proof.
  intros A v l i x R B E. eapply emplace_back_spec; eauto. rewrite (eval_own _ _ _ R), E. auto.
Qed.

(* emplace_back_stable fails exactly at capacity and never reallocates *)
Theorem C27_stable : forall A (v : vec A) l x, rep v l ->
  if (size v =? cap v)%N then emplace_back_stable v (Val x) = Contract
  else exists v', emplace_back_stable v (Val x) = Ok v' /\ agrees v' (l ++ [x]) /\ cap v' = cap v.
Proof.
  intros A v l x R. pose proof (r_size _ _ R) as S. pose proof (r_cap _ _ R) as C. pose proof (r_max _ _ R) as M. unfold emplace_back_stable.
  destruct (N.eqb_spec (size v) (cap v)) as [E|E].
  - rewrite (proj2 (N.ltb_ge _ _)) by lia. auto.
  - rewrite (proj2 (N.ltb_lt _ _)) by lia. cbn [contract bind eval]. rewrite (r_data _ _ R).
    replace (raw_storage (A := A) (N.to_nat (cap v) - length l)) with (@Raw A :: raw_storage (N.to_nat (cap v) - length l - 1)) by (rewrite <- raws_S; f_equal; lia).
    rewrite S, Nat2N.id, construct_mid by (rewrite map_length; auto). cbn [bind]. eexists. split; [reflexivity|].
    rewrite wadd_small by (pows; lia). split; auto. apply rep_agrees.
    constructor; cbn [size cap data]; rewrite ?app_length; cbn [length]; try lia. rewrite map_app, <- app_assoc. cbn. do 3 f_equal. lia.
Qed.

(* requests beyond 2^48 elements are refused *)
Theorem C28_reserve_limit : forall A (v : vec A) n, (2 ^ 48 < n)%N -> reserve v n = Contract.
Proof. intros. apply reserve_too_much. auto. Qed.

(* C28 as stated is false: idx + cnt is computed modulo 2^64, so remove_range(1, SIZE_MAX) on two elements passes both
   checks and moves from / assigns to elements that do not exist. *)
Definition two : list (op nat) := [PushBack 10; PushBack 11].
Definition build {A} (os : list (op A)) : outcome (vec A) :=
  fold_left (fun o x => let! v := o in let! (v, _) := step v x in Ok v) os (Ok init).
Theorem C28_remove_range_refuted : exists (v : vec nat) idx cnt,
  build two = Ok v /\ (idx < 2 ^ 64)%N /\ (cnt < 2 ^ 64)%N /\ ~ (idx + cnt <= size v)%N /\ remove_range v idx cnt = UB.
Proof.
  eexists _, 1%N, (2 ^ 64 - 1)%N. split; [vm_compute; reflexivity|]. split; [vm_compute; auto|]. split; [vm_compute; auto|].
  split; [cbn; lia|]. vm_compute. reflexivity.
Qed.
(* missing: the requests whose sum wraps *)
Theorem C28_remove_range_partial : forall A (v : vec A) l idx cnt, rep v l -> (idx + cnt < 2 ^ 64)%N -> (0 < cnt)%N ->
  if (idx + cnt <=? size v)%N
  then exists v', remove_range v idx cnt = Ok v' /\ agrees v' (firstn (N.to_nat idx) l ++ skipn (N.to_nat idx + N.to_nat cnt) l)
  else remove_range v idx cnt = Contract.
Proof.
  intros A v l idx cnt R B Z. pose proof (remove_range_spec v l idx cnt R B Z) as H. pose proof (r_size _ _ R) as S.
  destruct (N.leb_spec (idx + cnt) (size v)).
  - rewrite (proj2 (Nat.leb_le _ _)) in H by lia. destruct H as [v' [E R']]. exists v'. split; auto. apply rep_agrees; auto.
  - rewrite (proj2 (Nat.leb_gt _ _)) in H by lia. auto.
Qed.

(* C29 as stated is false: shrink_to_fit hands its old storage to _free with every moved-from element still constructed *)
Theorem C29_leaves_elements_refuted : exists (v v' : vec nat) old, build [PushBack 10; PushBack 11; PushBack 12] = Ok v /\
  shrink_to_fit v = Ok (v', old) /\ old = [Husk; Husk; Husk; Raw] /\ release old = UB.
Proof. eexists _, _, _. repeat split; vm_compute; reflexivity. Qed.
(* what holds: contents are kept and the capacity becomes the size; nothing is left behind only if the vector was already
   tight or empty.  missing: the destructor calls on the old elements *)
Theorem C29_contents_partial : forall A (v : vec A) l, rep v l ->
  exists v' old, shrink_to_fit v = Ok (v', old) /\ agrees v' l /\ cap v' = size v' /\
    (release old = Ok tt <-> (size v = cap v)%N \/ l = []).
Proof.
  intros A v l R. destruct (shrink_spec v l R) as [v' [old [E [R' [C O]]]]]. exists v', old. split; auto. split; [apply rep_agrees; auto|].
  split; auto. subst old. destruct (N.eqb_spec (size v) (cap v)); [cbn; tauto|]. split.
  - intro H. right. destruct l; auto. discriminate H.
  - intros [H|H]; [contradiction|]. subst. cbn [length repeat app]. apply release_raws.
Qed.

(* C74 is false: appending a range of the vector's own elements reads freed storage as soon as the append has to grow *)
Theorem C74_own_range_refuted : exists (v : vec nat), build two = Ok v /\ push_back_own_range v 0 2 = UB.
Proof. eexists. split; [vm_compute; reflexivity|]. vm_compute. reflexivity. Qed.
(* missing: the calls that reallocate; exactly those are undefined *)
Theorem C74_own_range_partial : forall A (v : vec A) l p n, rep v l -> (p + n <= size v)%N -> (size v + n <= 2 ^ 48)%N ->
  if ((n =? 0) || (size v + n <=? cap v))%N
  then exists v', push_back_own_range v p n = Ok v' /\ agrees v' (l ++ firstn (N.to_nat n) (skipn (N.to_nat p) l))
  else push_back_own_range v p n = UB.
Proof.
  intros A v l p n R B B2. rewrite (r_size _ _ R) in *. pose proof (push_back_own_range_spec v l p n R B B2) as H.
  destruct ((n =? 0) || (N.of_nat (length l) + n <=? cap v))%N; auto. destruct H as [v' [E R']]. exists v'. split; auto. apply rep_agrees; auto.
Qed.

(* the invariant used above is the one every history establishes *)
Example C27_rep_reachable : exists v : vec nat, build [PushBack 1; PushBackOf 0; PushBackOf 1; Reserve 9; Resize 5 7] = Ok v /\ rep v [1; 1; 1; 7; 7].
Proof. eexists. split; [vm_compute; reflexivity|]. constructor; cbn; auto; try lia. all: try (vm_compute; congruence). Qed.
Definition demo : list (wop nat) :=
  [New; On 0 (PushBack 1); On 0 (PushBackOf 0); On 0 (PushBackOf 1); On 0 (PushBackOf 0); On 0 (PushBackOf 2);
   On 0 (InsertRange 2 [7; 8; 9]); CopyNew 0; On 1 (RemoveAll (fun x => x =? 1)); On 0 (RemoveRange 1 3); On 0 (RemoveAtUnordered 1);
   MoveAssign 0 1; On 0 GetPop; CopyAssign 1 0; On 1 (PushRange [4; 5]); On 1 (RemoveFirst (fun x => x =? 8)); MoveNew 1; Destroy 0;
   On 2 Size; On 2 (Get 1)].
Example C27_demo : small demo /\ wf [] demo /\
  iworld_run [] demo = Some ([None; Some []; Some [7; 4; 5]],
    [RUnit; RUnit; RUnit; RUnit; RUnit; RUnit; RUnit; RUnit; RN 5; RUnit; RUnit; RUnit; RVal 9; RUnit; RUnit; RB true; RUnit; RUnit; RN 3; RVal 4]).
Proof.
  split; [|split].
  - split; [vm_compute; congruence|]. repeat (constructor; [split; [vm_compute; congruence|vm_compute; auto]|]). constructor.
  - vm_compute. repeat (split; [first [exact I | eexists; reflexivity | split; eexists; reflexivity]|]). exact I.
  - vm_compute. reflexivity.
Qed.

Print Assumptions C27_history.
Print Assumptions C27_push_own.
Print Assumptions C27_stable.
Print Assumptions C28_reserve_limit.
Print Assumptions C28_remove_range_refuted.
Print Assumptions C28_remove_range_partial.
Print Assumptions C29_leaves_elements_refuted.
Print Assumptions C29_contents_partial.
Print Assumptions C74_own_range_refuted.
Print Assumptions C74_own_range_partial.

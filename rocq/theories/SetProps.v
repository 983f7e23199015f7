(* Property theorems C18, C19, C20 (set part), C73: src/clean-core/set.hh. *)
From Coq Require Import NArith List Bool Permutation Lia.
From Verif Require Import Base HashModel SetModel SetSpec BucketProofs SetProofs.
Import ListNotations.
Open Scope N_scope.

(* C18: any hash, any equivalence respected by it *)
Theorem C18_history : forall T (hash : T -> N) (eqb : T -> T -> bool), equiv_hash eqb hash ->
  forall os, N.of_nat (length os) < 2 ^ 62 ->
  match ideal_run eqb [] os with
  | Some (l, results) => exists s, run hash eqb init os = Ok (s, results) /\
      size s = N.of_nat (length l) /\ empty s = (match l with [] => true | _ => false end) /\
      forall v, contains hash eqb s v = Ok (mem eqb v l)
  | None => run hash eqb init os = Contract
  end.
Proof.
  intros T hash eqb EH os B. pose proof (run_spec hash eqb EH os init [] (init_rep hash eqb) B) as P.
  destruct (ideal_run eqb [] os) as [[l bs]|]; auto. destruct P as [s [E R]]. exists s. split; auto.
  pose proof R as [_ [_ Z]]. split; [exact Z|]. split.
  - unfold empty. rewrite Z. destruct l; reflexivity.
  - intro v. eapply contains_spec; eauto.
Qed.

(* range construction and operator|= add every element *)
Theorem C18_add_all : forall T (hash : T -> N) (eqb : T -> T -> bool), equiv_hash eqb hash ->
  forall os l bs vs, N.of_nat (length os + length vs) < 2 ^ 62 -> ideal_run eqb [] os = Some (l, bs) ->
  exists s s', run hash eqb init os = Ok (s, bs) /\ add_all hash eqb s vs = Ok s' /\
    forall x, contains hash eqb s' x = Ok (mem eqb x l || mem eqb x vs).
Proof.
  intros T hash eqb EH os l bs vs B I. pose proof (run_spec hash eqb EH os init [] (init_rep hash eqb) ltac:(cbn [length]; lia)) as P.
  rewrite I in P. destruct P as [s [E R]].
  assert (LL : (length l <= length os)%nat).
  { clear - I. assert (G : forall os l0 l bs, ideal_run eqb l0 os = Some (l, bs) -> (length l <= length l0 + length os)%nat).
    { clear. induction os as [|o os IH]; intros l0 l bs H; cbn in H; [inversion H; subst; cbn; lia|].
      destruct (ideal_step eqb l0 o) as [[l1 b]|] eqn:S; [|discriminate].
      destruct (ideal_run eqb l1 os) as [[l2 bs2]|] eqn:Q; [|discriminate]. inversion H; subst.
      apply IH in Q. apply ideal_len in S. cbn [length]. lia. }
    apply G in I. exact I. }
  destruct (add_all_spec hash eqb EH vs s l R ltac:(lia)) as [s' [l' [E' [R' M]]]].
  exists s, s'. split; auto. split; auto. intro x. rewrite (contains_spec hash eqb EH s' l' x R'), M. reflexivity.
Qed.

(* a weak hash (many collisions) and an equality coarser than identity *)
Definition whash (x : N) : N := (x / 2) mod 3.
Definition weqb (x y : N) : bool := x / 2 =? y / 2.
Lemma weqb_equiv : equiv_hash weqb whash.
Proof.
  constructor; unfold weqb, whash; intros; rewrite ?N.eqb_eq in *; auto; congruence.
Qed.
Definition sample_ops : list (op N) :=
  [Add 5; Add 4; Add 11; Add 17; Reserve 1; Add 23; Add 29; Contains 10; Remove 16; Remove 16; Add 6; Clear; Add 3; Reserve 7; Contains 2].
Example C18_ex : equiv_hash weqb whash /\
  ideal_run weqb [] sample_ops = Some ([3], [true; false; true; true; false; true; true; true; true; false; true; false; true; false; true]) /\
  match run whash weqb init sample_ops with Ok (s, _) => nbuckets s = 7 | _ => False end /\
  ideal_run weqb [] [Add 1; Reserve 0] = None /\ run whash weqb init [Add 1; Reserve 0] = Contract.
Proof. split; [exact weqb_equiv|]. vm_compute. repeat split. Qed.

(* C19: iteration yields every element exactly once (elements are pairwise inequivalent) *)
Theorem C19_iteration : forall T (hash : T -> N) (eqb : T -> T -> bool), equiv_hash eqb hash ->
  forall os l bs, N.of_nat (length os) < 2 ^ 62 -> ideal_run eqb [] os = Some (l, bs) ->
  exists s vs, run hash eqb init os = Ok (s, bs) /\ elements s = Ok vs /\ Permutation vs l /\ distinct eqb vs.
Proof.
  intros T hash eqb EH os l bs B I. pose proof (run_spec hash eqb EH os init [] (init_rep hash eqb) B) as P.
  rewrite I in P. destruct P as [s [E R]]. destruct (elements_rep hash eqb s l R) as [vs [E' P']].
  exists s, vs. split; auto. split; auto. split; auto. pose proof R as [_ [D _]].
  eapply distinct_perm; [apply (eq_sym_ _ _ EH)|symmetry; exact P'|auto].
Qed.

Theorem C19_equality : forall T (hash : T -> N) (eqb : T -> T -> bool), equiv_hash eqb hash ->
  forall os os' l l' bs bs', N.of_nat (length os) < 2 ^ 62 -> N.of_nat (length os') < 2 ^ 62 ->
  ideal_run eqb [] os = Some (l, bs) -> ideal_run eqb [] os' = Some (l', bs') ->
  exists s s' b, run hash eqb init os = Ok (s, bs) /\ run hash eqb init os' = Ok (s', bs') /\
    eq hash eqb s s' = Ok b /\ (b = true <-> forall x, mem eqb x l = mem eqb x l').
Proof.
  intros T hash eqb EH os os' l l' bs bs' B B' I I'.
  pose proof (run_spec hash eqb EH os init [] (init_rep hash eqb) B) as P. rewrite I in P. destruct P as [s [E R]].
  pose proof (run_spec hash eqb EH os' init [] (init_rep hash eqb) B') as P'. rewrite I' in P'. destruct P' as [s' [E' R']].
  destruct (eq_spec hash eqb EH s l s' l' R R') as [b [Eb Hb]]. exists s, s', b. auto.
Qed.

Example C19_ex :
  let a := [Add 5; Add 9; Add 20; Add 33] in let b := [Reserve 9; Add 32; Add 7; Add 21; Add 4; Add 8; Remove 6] in
  match run whash weqb init a, run whash weqb init b with
  | Ok (s, _), Ok (s', _) => eq whash weqb s s' = Ok true /\ elements s = Ok [33; 20; 9; 5] /\ elements s' = Ok [4; 8; 21; 32]
  | _, _ => False end.
Proof. vm_compute. repeat split. Qed.

(* C20, set: the moved-from set still reports its old size and the next lookup asserts *)
Theorem C20_set_moved_from_refuted :
  exists s vs, run whash weqb init [Add 1; Add 5] = Ok (s, vs) /\
    size (snd (move s)) = 2 /\ contains whash weqb (snd (move s)) 1 = Contract /\
    remove whash weqb (snd (move s)) 1 = Contract.
Proof. eexists _, _. split; [vm_compute; reflexivity|]. vm_compute. repeat split. Qed.

(* what holds: the target has the contents; a moved-from set is valid and empty if it was empty before,
   or after calling clear() on it *)
Theorem C20_set_move_partial : forall T (hash : T -> N) (eqb : T -> T -> bool), equiv_hash eqb hash ->
  forall os l bs, N.of_nat (length os) < 2 ^ 62 -> ideal_run eqb [] os = Some (l, bs) ->
  exists s, run hash eqb init os = Ok (s, bs) /\
    (forall v, contains hash eqb (fst (move s)) v = Ok (mem eqb v l)) /\
    (forall v, contains hash eqb (clear (snd (move s))) v = Ok false) /\
    (l = [] -> size (snd (move s)) = 0 /\ forall v, contains hash eqb (snd (move s)) v = Ok false).
Proof.
  intros T hash eqb EH os l bs B I. pose proof (run_spec hash eqb EH os init [] (init_rep hash eqb) B) as P.
  rewrite I in P. destruct P as [s [E R]]. exists s. split; auto. pose proof R as [_ [_ Z]]. split; [|split].
  - intro v. eapply contains_spec; eauto.
  - reflexivity.
  - intros ->. cbn in Z. unfold move, size, contains. cbn [snd ssize]. rewrite Z. auto.
Qed.

(* C73: adding a reference to an element of the set itself *)
Theorem C73_add_own_refuted : exists s vs,
  run whash weqb init [Add 1; Add 5; Add 9; Add 13] = Ok (s, vs) /\
  contains whash weqb s 9 = Ok true /\ eval s (Own 0 0) = Ok 9 /\ add whash weqb s (Own 0 0) = UB.
Proof. eexists _, _. split; [vm_compute; reflexivity|]. vm_compute. repeat split. Qed.

(* it is the required no-op exactly when the table has spare buckets *)
Theorem C73_add_own_partial : forall T (hash : T -> N) (eqb : T -> T -> bool), equiv_hash eqb hash ->
  forall os l bs v, N.of_nat (length os) < 2 ^ 61 -> ideal_run eqb [] os = Some (l, bs) -> In v l ->
  exists s i k, run hash eqb init os = Ok (s, bs) /\ eval s (Own i k) = Ok v /\
    add hash eqb s (Own i k) = if nbuckets s <=? size s then UB else Ok (s, false).
Proof.
  intros T hash eqb EH os l bs v B I J. 
  assert (B2 : 2 ^ 61 < 2 ^ 62) by reflexivity.
  pose proof (run_spec hash eqb EH os init [] (init_rep hash eqb) ltac:(cbn [length]; lia)) as P.
  rewrite I in P. destruct P as [s [E R]].
  assert (LL : (length l <= length os)%nat).
  { clear - I. assert (G : forall os l0 l bs, ideal_run eqb l0 os = Some (l, bs) -> (length l <= length l0 + length os)%nat).
    { clear. induction os as [|o os IH]; intros l0 l bs H; cbn in H; [inversion H; subst; cbn; lia|].
      destruct (ideal_step eqb l0 o) as [[l1 b]|] eqn:S; [|discriminate].
      destruct (ideal_run eqb l1 os) as [[l2 bs2]|] eqn:Q; [|discriminate]. inversion H; subst.
      apply IH in Q. apply ideal_len in S. cbn [length]. lia. }
    apply G in I. exact I. }
  destruct (entries_in hash eqb s l v R J) as [i [b [k [Ei Ek]]]]. exists s, i, k. split; auto. split.
  - cbn [eval]. rewrite (proj2 (aget_Ok _ _ _) Ei). cbn [bind]. apply aget_Ok. auto.
  - eapply add_own; eauto. lia.
Qed.

Print Assumptions C18_history.
Print Assumptions C18_add_all.
Print Assumptions C19_iteration.
Print Assumptions C19_equality.
Print Assumptions C20_set_moved_from_refuted.
Print Assumptions C20_set_move_partial.
Print Assumptions C73_add_own_refuted.
Print Assumptions C73_add_own_partial.

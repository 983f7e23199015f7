(* Property theorems C20 (map part), C21, C22, C23: src/clean-core/map.hh. *)
From Coq Require Import NArith List Bool Permutation Lia.
From Verif Require Import Base MapModel MapSpec BucketProofs MapProofs.
Import ListNotations.
Open Scope N_scope.

(* C21: every history of m[k] = v, m[k], get_or_create, remove_key, contains_key, clear, reserve runs without assertion or
   undefined behaviour, returns what the ideal map returns, and all observers agree with the ideal map afterwards *)
Theorem C21_history : forall K V (hash : K -> N) (eqb : K -> K -> bool) (dflt : V), equiv_hash eqb hash ->
  forall os, N.of_nat (length os) < 2 ^ 60 -> Forall reasonable os ->
  let l := fst (ideal_run eqb dflt [] os) in
  exists m, run hash eqb dflt init os = Ok (m, snd (ideal_run eqb dflt [] os)) /\
    size m = N.of_nat (length l) /\ empty m = (match l with [] => true | _ => false end) /\
    (forall k, contains_key hash eqb m k = Ok (is_some (lookup eqb k l))) /\
    (forall k, get_to hash eqb m k = Ok (lookup eqb k l)) /\
    (forall k d, get_or hash eqb m k d = Ok (match lookup eqb k l with Some v => v | None => d end)) /\
    (forall k, exists p, get_ptr hash eqb m k = Ok p /\
       match p with Some p => exists v, load m p = Ok v /\ lookup eqb k l = Some v | None => lookup eqb k l = None end) /\
    (forall k v, lookup eqb k l = Some v -> get hash eqb m k = Ok v) /\
    (forall k, lookup eqb k l = None -> get hash eqb m k = (match l with [] => Contract | _ => UB end)).
Proof.
  intros K V hash eqb dflt EH os B RS l. destruct (run_spec hash eqb dflt EH os init [] (init_rep hash eqb) B RS) as [m [E [R _]]].
  fold l in R. exists m. split; auto. pose proof R as [le [_ [_ [_ [_ [_ Z]]]]]].
  assert (GP : forall k, exists p, get_ptr hash eqb m k = Ok p /\
       match p with Some p => exists v, load m p = Ok v /\ lookup eqb k l = Some v | None => lookup eqb k l = None end).
  { intro k. pose proof (get_ptr_spec hash eqb EH m l k R) as G. destruct (lookup eqb k l) as [v|].
    - destruct G as [e [Eg [I [H Ev]]]]. exists (Some (eid e)). split; auto. exists v. rewrite (load_spec hash eqb m l e R I). split; congruence.
    - exists None. auto. }
  split; [exact Z|]. split; [apply (size_zero hash eqb m l R)|]. split; [intro k; apply contains_spec; auto|]. split; [|split; [|split; [exact GP|split]]].
  - intro k. unfold get_to. destruct (GP k) as [[p|] [-> H]]; cbn [bind].
    + destruct H as [v [-> ->]]. reflexivity.
    + rewrite H. reflexivity.
  - intros k d. unfold get_or. destruct (GP k) as [[p|] [-> H]]; cbn [bind].
    + destruct H as [v [-> ->]]. reflexivity.
    + rewrite H. reflexivity.
  - intros k v H. rewrite (get_spec hash eqb EH m l k R), H. reflexivity.
  - intros k H. rewrite (get_spec hash eqb EH m l k R), H. reflexivity.
Qed.

(* a weak hash (many collisions) and an equality coarser than identity *)
Definition whash (x : N) : N := (x / 2) mod 3.
Definition weqb (x y : N) : bool := x / 2 =? y / 2.
Lemma weqb_equiv : equiv_hash weqb whash.
Proof. constructor; unfold weqb, whash; intros; rewrite ?N.eqb_eq in *; auto; congruence. Qed.
Definition sample_ops : list (op N N) :=
  [Index 5; Assign 4 7; Index 5; Assign 11 1; Assign 17 2; Assign 23 3; Reserve 9; Assign 29 4; GetOrCreate 28 9;
   GetOrCreate 30 9; Contains 10; RemoveKey 16; RemoveKey 16; Assign 6 1; Contains 16].
Example C21_ex : equiv_hash weqb whash /\ Forall reasonable sample_ops /\
  ideal_run weqb 0 [] sample_ops =
    ([(6, 1); (30, 9); (29, 4); (23, 3); (11, 1); (5, 7)],
     [RVal 0; RNone; RVal 7; RNone; RNone; RNone; RNone; RNone; RVal 4; RVal 9; RBool true; RBool true; RBool false; RNone; RBool false]) /\
  match run whash weqb 0 init sample_ops with Ok (m, _) => nbuckets m = 16 | _ => False end.
Proof. split; [exact weqb_equiv|]. split; [repeat constructor; discriminate|]. vm_compute. repeat split. Qed.

(* C22 *)
Theorem C22_iteration : forall K V (hash : K -> N) (eqb : K -> K -> bool) (dflt : V), equiv_hash eqb hash ->
  forall os, N.of_nat (length os) < 2 ^ 60 -> Forall reasonable os ->
  exists m rs ps, run hash eqb dflt init os = Ok (m, rs) /\ pairs m = Ok ps /\
    Permutation ps (fst (ideal_run eqb dflt [] os)) /\ distinct (fun x y => eqb (fst x) (fst y)) ps.
Proof.
  intros K V hash eqb dflt EH os B RS. destruct (run_spec hash eqb dflt EH os init [] (init_rep hash eqb) B RS) as [m [E [R _]]].
  destruct (pairs_rep hash eqb m _ R) as [ps [E' P]]. exists m, (snd (ideal_run eqb dflt [] os)), ps. split; auto. split; auto. split; auto.
  pose proof R as [le [_ [_ [D _]]]].
  eapply distinct_perm; [intros; apply (eq_sym_ _ _ EH); auto|symmetry; exact P|exact D].
Qed.

(* same keys up to eqb with values equal up to veqb *)
Theorem C22_equality : forall K V (hash : K -> N) (eqb : K -> K -> bool) (dflt : V) (veqb : V -> V -> bool), equiv_hash eqb hash ->
  forall os os', N.of_nat (length os) < 2 ^ 60 -> Forall reasonable os -> N.of_nat (length os') < 2 ^ 60 -> Forall reasonable os' ->
  let l := fst (ideal_run eqb dflt [] os) in let l' := fst (ideal_run eqb dflt [] os') in
  exists m rs m' rs' b, run hash eqb dflt init os = Ok (m, rs) /\ run hash eqb dflt init os' = Ok (m', rs') /\
    eq hash eqb veqb m m' = Ok b /\
    (b = true <-> forall k, match lookup eqb k l, lookup eqb k l' with
                            | Some v, Some w => veqb w v = true
                            | None, None => True
                            | _, _ => False
                            end).
Proof.
  intros K V hash eqb dflt veqb EH os os' B RS B' RS' l l'.
  destruct (run_spec hash eqb dflt EH os init [] (init_rep hash eqb) B RS) as [m [E [R _]]].
  destruct (run_spec hash eqb dflt EH os' init [] (init_rep hash eqb) B' RS') as [m' [E' [R' _]]].
  destruct (eq_spec hash eqb EH veqb m l m' l' R R') as [b [Eb Hb]].
  exists m, (snd (ideal_run eqb dflt [] os)), m', (snd (ideal_run eqb dflt [] os')), b. auto.
Qed.
Definition other_ops : list (op N N) :=
  [Assign 7 1; Reserve 100; Assign 31 9; Assign 10 1; Assign 22 3; Assign 28 4; Assign 4 7].
Example C22_ex : Forall reasonable other_ops /\
  match run whash weqb 0 init sample_ops, run whash weqb 0 init other_ops with
  | Ok (m, _), Ok (m', _) => pairs m = Ok [(29, 4); (5, 7); (11, 1); (23, 3); (6, 1); (30, 9)] /\ nbuckets m' = 128 /\
      eq whash weqb N.eqb m m' = Ok true /\
      match step whash weqb 0 m' (Assign 5 8) with Ok (m'', _) => eq whash weqb N.eqb m m'' = Ok false | _ => False end
  | _, _ => False
  end.
Proof. split; [repeat constructor; discriminate|]. vm_compute. repeat split. Qed.

(* C23: a pointer obtained by get_ptr (or operator[] / get_or_create) after history os1 still designates the value of its
   key after any further history os2 that neither clears nor removes the key.  Also through the container being moved:
   the nodes belong to the destination. *)
Theorem C23_references : forall K V (hash : K -> N) (eqb : K -> K -> bool) (dflt : V), equiv_hash eqb hash ->
  forall os1 os2 k m1 rs1 p, N.of_nat (length os1 + length os2) < 2 ^ 60 -> Forall reasonable (os1 ++ os2) ->
  run hash eqb dflt init os1 = Ok (m1, rs1) -> get_ptr hash eqb m1 k = Ok (Some p) ->
  Forall (fun o => match o with Clear => False | RemoveKey k' => eqb k k' = false | _ => True end) os2 ->
  exists m2 rs2 v, run hash eqb dflt m1 os2 = Ok (m2, rs2) /\ get_ptr hash eqb m2 k = Ok (Some p) /\ load m2 p = Ok v /\
    load (fst (move m2)) p = Ok v /\ lookup eqb k (fst (ideal_run eqb dflt [] (os1 ++ os2))) = Some v.
Proof.
  intros K V hash eqb dflt EH os1 os2 k m1 rs1 p B RS E1 GP SP. apply Forall_app in RS. destruct RS as [RS1 RS2].
  destruct (run_spec hash eqb dflt EH os1 init [] (init_rep hash eqb) ltac:(cbn [length]; lia) RS1) as [m1' [E1' [R1 _]]].
  rewrite E1 in E1'. inversion E1'; subst m1' rs1. clear E1'.
  assert (LL : forall os l, (length (fst (ideal_run eqb dflt l os)) <= length l + length os)%nat).
  { clear. induction os as [|o os IH]; intro l; cbn [ideal_run]; [cbn; lia|]. pose proof (ideal_len eqb dflt l o).
    destruct (ideal_step eqb dflt l o) as [l1 r]. cbn [fst] in *. specialize (IH l1).
    destruct (ideal_run eqb dflt l1 os). cbn [fst length] in *. lia. }
  pose proof (LL os1 []) as L1. cbn [length] in L1.
  destruct (run_spec hash eqb dflt EH os2 m1 _ R1 ltac:(lia) RS2) as [m2 [E2 [R2 A2]]].
  destruct (get_ptr_at hash eqb EH m1 _ k p R1 GP) as [kk [A EK]].
  assert (SP' : Forall (spares eqb kk) os2).
  { eapply Forall_impl; [|exact SP]. intros o. destruct o; cbn; auto. intro H. destruct (eqb kk k0) eqn:X; auto.
    rewrite (eq_trans_ _ _ EH k kk k0) in H; auto. apply (eq_sym_ _ _ EH). auto. }
  specialize (A2 p kk A SP'). destruct (at_get_ptr hash eqb EH m2 _ k kk p R2 A2 EK) as [G [v [LK LD]]].
  exists m2, (snd (ideal_run eqb dflt (fst (ideal_run eqb dflt [] os1)) os2)), v.
  split; auto. split; auto. split; auto. split; auto.
  assert (AP : forall a b l, fst (ideal_run eqb dflt l (a ++ b)) = fst (ideal_run eqb dflt (fst (ideal_run eqb dflt l a)) b)).
  { clear. induction a as [|o a IH]; intros b l; cbn [app ideal_run fst]; auto. destruct (ideal_step eqb dflt l o) as [l1 r].
    specialize (IH b l1). destruct (ideal_run eqb dflt l1 (a ++ b)), (ideal_run eqb dflt l1 a). cbn [fst] in *. auto. }
  rewrite AP. auto.
Qed.
(* the reference returned by operator[] is the one get_ptr returns *)
Theorem C23_index_ptr : forall K V (hash : K -> N) (eqb : K -> K -> bool) (dflt : V), equiv_hash eqb hash ->
  forall os k v0 m rs, N.of_nat (length os) < 2 ^ 60 -> Forall reasonable os -> run hash eqb dflt init os = Ok (m, rs) ->
  exists m' p, get_or_create hash eqb m k v0 = Ok (m', p) /\ get_ptr hash eqb m' k = Ok (Some p) /\
    (forall k' p', get_ptr hash eqb m k' = Ok (Some p') -> get_ptr hash eqb m' k' = Ok (Some p')).
Proof.
  intros K V hash eqb dflt EH os k v0 m rs B RS E.
  destruct (run_spec hash eqb dflt EH os init [] (init_rep hash eqb) B RS) as [m1 [E1 [R1 _]]].
  rewrite E in E1. inversion E1; subst m1.
  assert (LL : forall os l, (length (fst (ideal_run eqb dflt l os)) <= length l + length os)%nat).
  { clear. induction os as [|o os IH]; intro l; cbn [ideal_run]; [cbn; lia|]. pose proof (ideal_len eqb dflt l o).
    destruct (ideal_step eqb dflt l o) as [l1 r]. cbn [fst] in *. specialize (IH l1).
    destruct (ideal_run eqb dflt l1 os). cbn [fst length] in *. lia. }
  pose proof (LL os []) as L1. cbn [length] in L1.
  assert (X : 2 ^ 60 < 2 ^ 61) by reflexivity.
  destruct (find_or_insert_spec hash eqb EH m _ k v0 R1 ltac:(lia)) as [m' [e [E' [I [H [A C]]]]]].
  exists m', (eid e). split; [exact E'|].
  assert (R' : exists l', rep hash eqb m' l') by (destruct (lookup eqb k _); destruct C; eauto). destruct R' as [l' R'].
  split.
  - eapply at_get_ptr; eauto. exists e. auto.
  - intros k' p' G. destruct (get_ptr_at hash eqb EH m _ k' p' R1 G) as [kk [Ak EK]]. eapply at_get_ptr; eauto.
Qed.
Example C23_ex : match run whash weqb 0 init [Assign 5 7; Assign 11 1] with
  | Ok (m1, _) => get_ptr whash weqb m1 4 = Ok (Some 0%nat) /\
      match run whash weqb 0 m1 [Assign 17 2; Assign 23 3; RemoveKey 10; Reserve 50; Assign 4 8; Assign 29 2] with
      | Ok (m2, _) => load m2 0 = Ok 8 /\ nbuckets m2 = 64 /\
          match step whash weqb 0 m2 (RemoveKey 4) with Ok (m3, _) => load m3 0 = UB | _ => False end
      | _ => False
      end
  | _ => False
  end.
Proof. vm_compute. repeat split. Qed.

(* C20, map part.  The claim is false: the source keeps its size and then looks up in zero buckets. *)
Theorem C20_map_moved_from_refuted : ~ (forall K V (hash : K -> N) (eqb : K -> K -> bool) (dflt : V) os m rs k,
  equiv_hash eqb hash -> run hash eqb dflt init os = Ok (m, rs) ->
  let src := snd (move m) in size src = 0 /\ contains_key hash eqb src k = Ok false).
Proof.
  intro H. destruct (run whash weqb 0 init [Assign 5 7]) as [[m rs]| | |] eqn:E; try (vm_compute in E; discriminate).
  destruct (H _ _ whash weqb 0 _ m rs 5 weqb_equiv E) as [Z _].
  assert (Q : match run whash weqb 0 init [Assign 5 7] with Ok (m, _) => size (snd (move m)) = 1 | _ => False end) by reflexivity.
  rewrite E in Q. rewrite Q in Z. discriminate.
Qed.
(* what does hold: the destination is the old map; a moved-from map still reports its old size, asserts on a lookup unless it
   was empty, and becomes a valid empty map after clear() *)
Theorem C20_map_move_partial : forall K V (hash : K -> N) (eqb : K -> K -> bool) (dflt : V), equiv_hash eqb hash ->
  forall os, N.of_nat (length os) < 2 ^ 60 -> Forall reasonable os ->
  let l := fst (ideal_run eqb dflt [] os) in
  exists m rs, run hash eqb dflt init os = Ok (m, rs) /\ let (dst, src) := move m in
    dst = m /\ size src = N.of_nat (length l) /\
    (forall k, contains_key hash eqb src k = match l with [] => Ok false | _ => Contract end) /\
    size (clear src) = 0 /\ (forall k, contains_key hash eqb (clear src) k = Ok false).
Proof.
  intros K V hash eqb dflt EH os B RS l. destruct (run_spec hash eqb dflt EH os init [] (init_rep hash eqb) B RS) as [m [E [R _]]].
  fold l in R. eexists m, _. split; [exact E|]. cbn [move]. pose proof R as [le [_ [_ [_ [_ [_ Z]]]]]].
  split; auto. split; [exact Z|]. split; [|split; reflexivity].
  intro k. unfold contains_key. cbn [msize entries]. rewrite Z. destruct l; reflexivity.
Qed.

Print Assumptions C21_history.
Print Assumptions C22_iteration.
Print Assumptions C22_equality.
Print Assumptions C23_references.
Print Assumptions C23_index_ptr.
Print Assumptions C20_map_moved_from_refuted.
Print Assumptions C20_map_move_partial.

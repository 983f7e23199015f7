From Coq Require Import NArith Arith List Bool Lia Permutation.
From Verif Require Import Base MapModel MapSpec BucketProofs.
Import ListNotations.
Open Scope N_scope.

Lemma land_le_r : forall a b, N.land a b <= b.
Proof.
  intros a b. rewrite <- (N.lor_ldiff_and b a) at 2. rewrite (N.land_comm b a).
  assert (D : N.land (N.ldiff b a) (N.land a b) = 0).
  { apply N.bits_inj. intro i. rewrite !N.land_spec, N.ldiff_spec, N.bits_0. destruct (N.testbit a i), (N.testbit b i); reflexivity. }
  rewrite <- N.lxor_lor, <- N.add_nocarry_lxor by auto. lia.
Qed.

Lemma find_In : forall A (P : A -> bool) l e, find P l = Some e -> In e l /\ P e = true.
Proof. intros. apply find_some. auto. Qed.

Section P.
  Context {K V : Type} (hash : K -> N) (eqb : K -> K -> bool) (dflt : V).
  Implicit Types (es : list (list (ent K V))) (m : map K V) (l : list (K * V)).
  Hypothesis EH : equiv_hash eqb hash.
  Let refl_ := eq_refl_ _ _ EH.
  Let sym_ := eq_sym_ _ _ EH.
  Let trans_ := eq_trans_ _ _ EH.
  Let hash_ := eq_hash_ _ _ EH.

  Definition kloc (n : nat) (k : K) : nat :=
    N.to_nat (N.land (N.shiftr (wmul 64 (N.lxor (wrap 64 (hash k)) 0x0bd64917a71585ad) 0xd989bcacc137dcd5) 32) (wsub 64 (N.of_nat n) 1)).
  Definition loc (n : nat) (e : ent K V) : nat := kloc n (ekey e).
  Definition kv (e : ent K V) : K * V := (ekey e, evalue e).
  Definition krel (x y : K * V) : bool := eqb (fst x) (fst y).
  Definition erel (x y : ent K V) : bool := eqb (ekey x) (ekey y).

  Definition cap_ok (n : nat) : Prop := N.of_nat n <= 2 ^ 62.
  Lemma kloc_lt : forall n k, (0 < n)%nat -> cap_ok n -> (kloc n k < n)%nat.
  Proof.
    intros n k H C. unfold kloc, cap_ok in *. assert (2 ^ 62 < 2 ^ 64) by reflexivity.
    rewrite wsub_ge by lia.
    match goal with |- (N.to_nat (N.land ?a ?b) < _)%nat => pose proof (land_le_r a b) end. lia.
  Qed.
  Lemma kloc_eq : forall n x y, eqb x y = true -> kloc n x = kloc n y.
  Proof. intros. unfold kloc. rewrite (hash_ x y); auto. Qed.
  Lemma get_location_Ok : forall es k, (0 < length es)%nat -> get_location hash es k = Ok (N.of_nat (kloc (length es) k)).
  Proof.
    intros es k H. unfold get_location. destruct (N.ltb_spec 0 (N.of_nat (length es))); [|lia]. cbn [contract bind].
    unfold kloc. rewrite N2Nat.id. reflexivity.
  Qed.

  (* entries es hold exactly the nodes le *)
  Definition okb es (le : list (ent K V)) : Prop :=
    Permutation (concat es) le /\ located (loc (length es)) es /\ cap_ok (length es).
  Definition rep m l : Prop :=
    exists le, okb (entries m) le /\ Permutation (List.map kv le) l /\ distinct krel l /\
      NoDup (List.map (@eid K V) le) /\ (forall e, In e le -> (eid e < fresh m)%nat) /\ msize m = N.of_nat (length l).

  Lemma krel_sym : forall x y, krel x y = true -> krel y x = true.
  Proof. intros. apply sym_. auto. Qed.
  Lemma krel_trans : forall x y z, krel x y = true -> krel y z = true -> krel x z = true.
  Proof. intros x y z. apply trans_. Qed.

  Lemma rep_nonempty : forall m l, rep m l -> l <> [] -> (0 < length (entries m))%nat.
  Proof.
    intros m l [le [[P _] [Q _]]] NE. destruct (entries m); [|cbn; lia]. cbn in P. apply Permutation_nil in P. subst.
    cbn in Q. apply Permutation_nil in Q. congruence.
  Qed.
  Lemma bucket_get : forall es k, (0 < length es)%nat -> cap_ok (length es) -> exists b, nth_error es (kloc (length es) k) = Some b.
  Proof.
    intros es k H C. destruct (nth_error es (kloc (length es) k)) eqn:E; eauto.
    apply nth_error_None in E. pose proof (kloc_lt (length es) k H C). lia.
  Qed.

  Lemma lookup_in : forall l k x, distinct krel l -> In x l -> eqb (fst x) k = true -> lookup eqb k l = Some (snd x).
  Proof.
    intros l k x D I E. unfold lookup. destruct (find (fun e => eqb (fst e) k) l) as [y|] eqn:F.
    - apply find_In in F. destruct F as [J G]. f_equal. f_equal.
      revert D I J. induction l as [|z l IH]; intros D I J; [destruct I|]. inversion D; subst.
      destruct I as [->|I], J as [->|J]; auto.
      + exfalso. assert (R : krel y x = true) by (unfold krel; eauto). rewrite H1 in R by auto. discriminate.
      + exfalso. assert (R : krel x y = true) by (unfold krel; eauto). rewrite H1 in R by auto. discriminate.
    - exfalso. apply (find_none _ _ F) in I. congruence.
  Qed.
  Lemma lookup_none : forall l k, (forall x, In x l -> eqb (fst x) k = false) -> lookup eqb k l = None.
  Proof.
    intros l k H. unfold lookup. destruct (find (fun e => eqb (fst e) k) l) as [y|] eqn:F; auto.
    apply find_In in F. destruct F as [J G]. rewrite H in G by auto. discriminate.
  Qed.
  Lemma lookup_none_inv : forall l k x, lookup eqb k l = None -> In x l -> eqb (fst x) k = false.
  Proof.
    intros l k x H I. unfold lookup in H. destruct (find (fun e => eqb (fst e) k) l) as [y|] eqn:F; [discriminate|].
    apply (find_none _ _ F x I).
  Qed.
  Lemma lookup_some_inv : forall l k v, lookup eqb k l = Some v -> exists x, In x l /\ eqb (fst x) k = true /\ snd x = v.
  Proof.
    intros l k v H. unfold lookup in H. destruct (find (fun e => eqb (fst e) k) l) as [y|] eqn:F; [|discriminate].
    apply find_In in F. inversion H. exists y. tauto.
  Qed.

  (* searching the bucket of k *)
  Lemma find_bucket : forall m l le k b, okb (entries m) le -> Permutation (List.map kv le) l -> distinct krel l ->
    nth_error (entries m) (kloc (length (entries m)) k) = Some b ->
    match find (hit eqb k) b with
    | Some e => In e le /\ hit eqb k e = true /\ lookup eqb k l = Some (evalue e)
    | None => lookup eqb k l = None
    end.
  Proof.
    intros m l le k b [P [L C]] Q D E. destruct (find (hit eqb k) b) as [e|] eqn:F.
    - apply find_In in F. destruct F as [I H].
      assert (J : In e le). { eapply Permutation_in; [exact P|]. apply In_concat_nth. eauto. }
      split; auto. split; auto. change (evalue e) with (snd (kv e)). apply lookup_in; auto.
      eapply Permutation_in; [exact Q|]. apply in_map. auto.
    - apply lookup_none. intros x I. destruct (eqb (fst x) k) eqn:H; auto. exfalso.
      apply (Permutation_in _ (Permutation_sym Q)) in I. apply in_map_iff in I. destruct I as [e [<- I]].
      apply (Permutation_in _ (Permutation_sym P)) in I. apply In_concat_nth in I. destruct I as [i [b' [Ei Ii]]].
      assert (i = kloc (length (entries m)) k). { rewrite <- (L i b' e Ei Ii). apply kloc_eq. auto. }
      subst i. rewrite E in Ei. inversion Ei; subst b'. pose proof (find_none _ _ F e Ii) as X. cbn in H. unfold hit in X. congruence.
  Qed.

  Lemma exists_find : forall A (P : A -> bool) (l : list A), existsb P l = match find P l with Some _ => true | None => false end.
  Proof. induction l; cbn; auto. destruct (P a); auto. Qed.

  Lemma size_zero : forall m l, rep m l -> (msize m =? 0) = (match l with [] => true | _ => false end).
  Proof. intros m l [le [_ [_ [_ [_ [_ Z]]]]]]. rewrite Z. destruct l; auto. Qed.

  Lemma bucket_of : forall m l k, rep m l -> (0 < length (entries m))%nat ->
    exists b, (let! idx := get_location hash (entries m) k in aget (entries m) (N.to_nat idx)) = Ok b /\
      nth_error (entries m) (kloc (length (entries m)) k) = Some b /\
      match find (hit eqb k) b with
      | Some e => In e (concat (entries m)) /\ hit eqb k e = true /\ lookup eqb k l = Some (evalue e)
      | None => lookup eqb k l = None
      end.
  Proof.
    intros m l k [le [O [Q [D _]]]] NE. pose proof O as [P [L C]]. destruct (bucket_get (entries m) k NE C) as [b E]. exists b.
    rewrite get_location_Ok by auto. cbn [bind]. rewrite Nat2N.id. split; [apply aget_Ok; auto|]. split; auto.
    pose proof (find_bucket m l le k b O Q D E) as F. destruct (find (hit eqb k) b); auto.
    destruct F as [F1 F2]. split; auto. eapply Permutation_in; [symmetry; exact P|]. auto.
  Qed.

  Ltac bk H b E1 E2 F := destruct H as [b [E1 [E2 F]]].

  Lemma contains_spec : forall m l k, rep m l -> contains_key hash eqb m k = Ok (is_some (lookup eqb k l)).
  Proof.
    intros m l k R. unfold contains_key. rewrite (size_zero m l R). destruct l as [|x l]; [reflexivity|].
    bk (bucket_of m _ k R (rep_nonempty _ _ R ltac:(discriminate))) b E1 E2 F.
    destruct (get_location hash (entries m) k) as [idx| | |]; cbn [bind] in *; try discriminate. rewrite E1. cbn [bind].
    rewrite exists_find. destruct (find (hit eqb k) b) as [e|]; [destruct F as [_ [_ ->]]|rewrite F]; reflexivity.
  Qed.
  Lemma get_spec : forall m l k, rep m l -> get hash eqb m k =
    match lookup eqb k l with Some v => Ok v | None => match l with [] => Contract | _ => UB end end.
  Proof.
    intros m l k R. unfold get. pose proof (size_zero m l R) as Z. destruct l as [|x l].
    - apply N.eqb_eq in Z. rewrite Z. reflexivity.
    - apply N.eqb_neq in Z. destruct (N.ltb_spec 0 (msize m)); [|lia]. cbn [contract bind].
      bk (bucket_of m _ k R (rep_nonempty _ _ R ltac:(discriminate))) b E1 E2 F.
      destruct (get_location hash (entries m) k) as [idx| | |]; cbn [bind] in *; try discriminate. rewrite E1. cbn [bind].
      destruct (find (hit eqb k) b) as [e|]; [destruct F as [_ [_ ->]]|rewrite F]; reflexivity.
  Qed.

  Definition at_ m (p : nat) (k : K) : Prop := exists e, In e (concat (entries m)) /\ eid e = p /\ ekey e = k.

  Lemma live_spec : forall m l e, rep m l -> In e (concat (entries m)) -> live m (eid e) = Some e.
  Proof.
    intros m l e [le [[P _] [_ [_ [ND _]]]]] I. unfold live.
    assert (ND' : NoDup (List.map (@eid K V) (concat (entries m)))).
    { eapply Permutation_NoDup; [apply Permutation_map; symmetry; exact P|auto]. }
    clear - I ND'. induction (concat (entries m)) as [|x c IH]; [destruct I|]. cbn [find]. cbn [List.map] in ND'. inversion ND'; subst.
    destruct I as [->|I]; [rewrite Nat.eqb_refl; auto|]. destruct (Nat.eqb_spec (eid x) (eid e)).
    - exfalso. apply H1. rewrite e0. apply in_map. auto.
    - auto.
  Qed.
  Lemma load_spec : forall m l e, rep m l -> In e (concat (entries m)) -> load m (eid e) = Ok (evalue e).
  Proof. intros. unfold load. rewrite (live_spec m l e); auto. Qed.

  Lemma rep_lookup : forall m l e, rep m l -> In e (concat (entries m)) -> lookup eqb (ekey e) l = Some (evalue e).
  Proof.
    intros m l e [le [[P _] [Q [D _]]]] I. change (evalue e) with (snd (kv e)). apply lookup_in; [auto| |apply refl_].
    eapply Permutation_in; [exact Q|]. apply in_map. eapply Permutation_in; eauto.
  Qed.

  Lemma get_ptr_spec : forall m l k, rep m l ->
    match lookup eqb k l with
    | Some v => exists e, get_ptr hash eqb m k = Ok (Some (eid e)) /\ In e (concat (entries m)) /\ hit eqb k e = true /\ evalue e = v
    | None => get_ptr hash eqb m k = Ok None
    end.
  Proof.
    intros m l k R. unfold get_ptr. rewrite (size_zero m l R). destruct l as [|x l]; [reflexivity|].
    bk (bucket_of m _ k R (rep_nonempty _ _ R ltac:(discriminate))) b E1 E2 F.
    destruct (get_location hash (entries m) k) as [idx| | |]; cbn [bind] in *; try discriminate. rewrite E1. cbn [bind].
    destruct (find (hit eqb k) b) as [e|].
    - destruct F as [F1 [F2 ->]]. exists e. auto.
    - rewrite F. auto.
  Qed.

  (* a key has only one node *)
  Lemma hit_unique : forall m l k e e', rep m l -> In e (concat (entries m)) -> In e' (concat (entries m)) ->
    eqb (ekey e) k = true -> eqb (ekey e') k = true -> e = e'.
  Proof.
    intros m l k e e' [le [[P _] [Q [D _]]]] I I' H H'.
    assert (D2 : distinct krel (List.map kv (concat (entries m)))).
    { eapply distinct_perm; [exact krel_sym| |exact D]. rewrite <- Q. apply Permutation_map. symmetry. auto. }
    clear - I I' H H' D2 EH sym_ trans_. revert I I' D2. generalize (concat (entries m)) as c.
    induction c as [|x c IH]; intros I I' D2; [destruct I|]. cbn in D2. inversion D2; subst.
    destruct I as [->|I], I' as [->|I']; auto; exfalso.
    - assert (R : krel (kv e') (kv e) = true) by (unfold krel, kv; cbn; eauto). rewrite H2 in R by (apply in_map; auto). discriminate.
    - assert (R : krel (kv e) (kv e') = true) by (unfold krel, kv; cbn; eauto). rewrite H2 in R by (apply in_map; auto). discriminate.
  Qed.

  Lemma okb_push : forall es i b e le, okb es le -> nth_error es i = Some b -> i = loc (length es) e ->
    okb (lset es i (e :: b)) (e :: le).
  Proof.
    intros es i b e le [P [L C]] E ->. split; [|split].
    - rewrite (concat_push _ _ _ _ E). constructor. auto.
    - rewrite lset_length. apply located_lset; auto. intros x [<-|I]; auto. eapply L; eauto.
    - rewrite lset_length. auto.
  Qed.
  Lemma okb_perm : forall es le le', okb es le -> Permutation le le' -> okb es le'.
  Proof. intros es le le' [P O] Q. split; auto. rewrite P. auto. Qed.

  Lemma rehash_bucket_spec : forall (l : list (ent K V)) es le, okb es le -> (0 < length es)%nat ->
    exists es', rehash_bucket hash l es = Ok es' /\ okb es' (l ++ le) /\ length es' = length es.
  Proof.
    induction l as [|e l IH]; intros es le O H; cbn [rehash_bucket].
    - exists es. auto.
    - rewrite get_location_Ok by auto. cbn [bind]. rewrite Nat2N.id.
      destruct (bucket_get es (ekey e) H (proj2 (proj2 O))) as [b E]. rewrite (proj2 (aget_Ok _ _ _) E). cbn [bind].
      rewrite (aset_Ok es) by (apply nth_error_Some; congruence). cbn [bind].
      destruct (IH (lset es (kloc (length es) (ekey e)) (e :: b)) (e :: le)) as [es' [E' [O' N']]].
      + apply okb_push; auto.
      + rewrite lset_length. auto.
      + exists es'. split; auto. rewrite lset_length in N'. split; auto.
        eapply okb_perm; eauto. symmetry. apply Permutation_middle.
  Qed.
  Lemma rehash_spec : forall old es le, okb es le -> (0 < length es)%nat ->
    exists es', rehash hash old es = Ok es' /\ okb es' (concat old ++ le) /\ length es' = length es.
  Proof.
    induction old as [|l old IH]; intros es le O H; cbn [rehash concat].
    - exists es. auto.
    - destruct (rehash_bucket_spec l es le O H) as [es1 [E1 [O1 N1]]]. rewrite E1. cbn [bind].
      destruct (IH es1 (l ++ le) O1) as [es2 [E2 [O2 N2]]]; [lia|]. exists es2. split; auto. split; [|lia].
      eapply okb_perm; eauto. rewrite !app_assoc. apply Permutation_app_tail. apply Permutation_app_comm.
  Qed.
  Lemma okb_repeat : forall n, cap_ok n -> okb (repeat [] n) [].
  Proof.
    intros n C. split; [|split]. 
    - rewrite concat_repeat_nil; auto.
    - intros i l e H I. apply nth_repeat_nil in H. subst. destruct I.
    - rewrite repeat_length. auto.
  Qed.

  Lemma pad_spec : forall f j n, n <= 2 ^ 62 -> j <= 62 -> 62 - j < N.of_nat f ->
    exists j', pad f (2 ^ j) n = Ok (2 ^ j') /\ j <= j' <= 62 /\ n <= 2 ^ j'.
  Proof.
    induction f; intros j n Hn Hj Hf; [lia|]. cbn [pad]. destruct (N.ltb_spec (2 ^ j) n).
    - assert (j < 62).
      { destruct (N.eq_dec j 62); [subst; lia|lia]. }
      replace (wrap 64 (N.shiftl (2 ^ j) 1)) with (2 ^ (j + 1)).
      + destruct (IHf (j + 1) n Hn ltac:(lia) ltac:(lia)) as [j' [E [B C]]]. exists j'. split; auto. lia.
      + rewrite N.shiftl_mul_pow2, <- N.pow_add_r, wrap_small; auto. apply N.pow_lt_mono_r; lia.
    - exists j. auto with *.
  Qed.
  Lemma pow2_contract : forall j, j <= 62 -> N.land (2 ^ j) (wsub 64 (2 ^ j) 1) = 0.
  Proof.
    intros j H. rewrite wsub_ge.
    - rewrite <- N.pred_sub, <- N.ones_equiv, N.land_ones. apply N.mod_same. apply N.pow_nonzero. discriminate.
    - apply N.pow_lt_mono_r; lia.
    - pose proof (pow2_pos j). lia.
  Qed.

  (* result of operations that keep all nodes *)
  Definition same m m' : Prop := Permutation (concat (entries m')) (concat (entries m)).

  Lemma reserve_spec : forall m l n, rep m l -> n <= 2 ^ 62 ->
    exists m', reserve hash m n = Ok m' /\ rep m' l /\ same m m' /\ n <= nbuckets m'.
  Proof.
    intros m l n R B. unfold reserve. destruct (N.leb_spec n (nbuckets m)).
    - exists m. split; auto. split; auto. split; [unfold same; auto|auto].
    - destruct (pad_spec 64 2 n B ltac:(lia) ltac:(cbn; lia)) as [j [E [HJ HN]]]. change (2 ^ 2) with 4 in E. rewrite E. cbn [bind].
      unfold reserve_. rewrite pow2_contract by lia. cbn [N.eqb contract bind].
      assert (C : cap_ok (N.to_nat (2 ^ j))).
      { unfold cap_ok. rewrite N2Nat.id. apply N.pow_le_mono_r; lia. }
      destruct R as [le [[P [L CC]] RR]].
      destruct (rehash_spec (entries m) (repeat [] (N.to_nat (2 ^ j))) [] (okb_repeat _ C)) as [es [E' [O' N']]].
      { rewrite repeat_length. pose proof (pow2_pos j). lia. }
      rewrite E'. cbn [bind]. eexists. split; [reflexivity|]. rewrite app_nil_r in O'. split; [|split].
      + exists le. split; [|exact RR]. cbn [entries]. eapply okb_perm; eauto.
      + unfold same. cbn [entries]. apply O'.
      + unfold nbuckets. cbn [entries]. rewrite N', repeat_length. lia.
  Qed.

  Lemma make_room_spec : forall m l, rep m l -> N.of_nat (length l) < 2 ^ 61 ->
    exists m', make_room hash m = Ok m' /\ rep m' l /\ same m m' /\ (0 < length (entries m'))%nat.
  Proof.
    intros m l R B. unfold make_room. pose proof R as [le [_ [_ [_ [_ [_ Z]]]]]].
    assert (X : 2 ^ 61 < 2 ^ 62) by reflexivity. assert (Y : 2 ^ 62 < 2 ^ 64) by reflexivity.
    assert (W : (if msize m =? 0 then 4 else wadd 64 (msize m) 1) <= 2 ^ 62 /\ 0 < (if msize m =? 0 then 4 else wadd 64 (msize m) 1)).
    { destruct (N.eqb_spec (msize m) 0); [split; [discriminate|lia]|]. rewrite wadd_small by lia. lia. }
    destruct W as [W1 W2].
    destruct (reserve_spec m l _ R W1) as [m' [E [R' [S' N']]]].
    destruct (N.eqb_spec (nbuckets m) 0); cbn [orb].
    - exists m'. split; auto. split; auto. split; auto. unfold nbuckets in N'. lia.
    - destruct (N.ltb_spec (nbuckets m) (msize m)).
      + exists m'. split; auto. split; auto. split; auto. unfold nbuckets in N'. lia.
      + exists m. split; auto. split; auto. split; [unfold same; auto|]. unfold nbuckets in *. lia.
  Qed.

  Lemma same_fwd : forall m m' p k, same m m' -> at_ m p k -> at_ m' p k.
  Proof. intros m m' p k S [e [I H]]. exists e. split; auto. eapply Permutation_in; [symmetry; exact S|auto]. Qed.

  Lemma find_or_insert_spec : forall m l k v0, rep m l -> N.of_nat (length l) < 2 ^ 61 ->
    exists m' e, find_or_insert hash eqb m k v0 = Ok (m', eid e) /\ In e (concat (entries m')) /\ hit eqb k e = true /\
      (forall p kk, at_ m p kk -> at_ m' p kk) /\
      match lookup eqb k l with
      | Some v => rep m' l /\ evalue e = v
      | None => rep m' ((k, v0) :: l) /\ evalue e = v0
      end.
  Proof.
    intros m l k v0 R B. unfold find_or_insert. destruct (make_room_spec m l R B) as [m1 [E1 [R1 [S1 N1]]]]. rewrite E1. cbn [bind].
    bk (bucket_of m1 _ k R1 N1) b Ea Eb F.
    rewrite get_location_Ok in * by auto. cbn [bind] in *. rewrite Nat2N.id in *. rewrite Ea. cbn [bind].
    destruct (find (hit eqb k) b) as [e|].
    - destruct F as [F1 [F2 F3]]. exists m1, e. split; auto. split; auto. split; auto. split.
      + intros. eapply same_fwd; eauto.
      + rewrite F3. auto.
    - rewrite aset_Ok by (apply nth_error_Some; congruence). cbn [bind].
      set (e := mkE (fresh m1) k v0).
      destruct R1 as [le [O [Q [D [ND [FR Z]]]]]].
      assert (O' : okb (lset (entries m1) (kloc (length (entries m1)) k) (e :: b)) (e :: le)) by (apply okb_push; auto).
      exists (mkMap (lset (entries m1) (kloc (length (entries m1)) k) (e :: b)) (wadd 64 (msize m1) 1) (S (fresh m1))), e.
      split; auto. cbn [entries]. split.
      { destruct O' as [P' _]. eapply Permutation_in; [symmetry; exact P'|]. cbn; auto. }
      split; [apply refl_|]. split.
      { intros p kk A. apply (same_fwd _ _ _ _ S1) in A. destruct A as [x [I X]]. exists x. split; auto. cbn [entries].
        destruct O' as [P' _]. eapply Permutation_in; [symmetry; exact P'|]. right.
        destruct O as [P _]. eapply Permutation_in; [exact P|auto]. }
      rewrite F. split; [|reflexivity]. exists (e :: le). cbn [entries fresh msize]. split; auto. split.
      { cbn [List.map]. unfold kv at 1, e. cbn [ekey evalue]. constructor. auto. }
      split. { constructor; auto. intros x I. apply (lookup_none_inv l k x F I). }
      split. { cbn [List.map]. constructor; auto. intro I. apply in_map_iff in I. destruct I as [x [Ex Ix]].
        apply FR in Ix. unfold e in Ex. cbn [eid] in Ex. lia. }
      split. { intros x [<-|I]; [unfold e; cbn [eid]; lia|]. apply FR in I. lia. }
      rewrite Z. cbn [length]. assert (2 ^ 61 < 2 ^ 64) by reflexivity. rewrite wadd_small by lia. lia.
  Qed.

  Lemma replace_keys : forall k v l, List.map fst (replace eqb k v l) = List.map fst l.
  Proof. intros. unfold replace. rewrite map_map. apply map_ext. intros [a b]. cbn. destruct (eqb a k); auto. Qed.
  Lemma distinct_replace : forall k v l, distinct krel l -> distinct krel (replace eqb k v l).
  Proof.
    intros k v l D. induction D; cbn; constructor; auto.
    intros x I. unfold replace in I. apply in_map_iff in I. destruct I as [y [Ey Iy]]. specialize (H y Iy).
    subst x. unfold krel in *. destruct (eqb (fst y) k), (eqb (fst e) k); cbn; auto.
  Qed.

  Lemma store_spec : forall m l k v e, rep m l -> In e (concat (entries m)) -> hit eqb k e = true ->
    exists m', store m (eid e) v = Ok m' /\ rep m' (replace eqb k v l) /\ (forall p kk, at_ m p kk -> at_ m' p kk).
  Proof.
    intros m l k v e R I H. unfold store. rewrite (live_spec m l e R I). eexists. split; [reflexivity|].
    pose proof R as [le [[P [L C]] [Q [D [ND [FR Z]]]]]].
    set (f := upd_ent (eid e) v).
    assert (FK : forall x, ekey (f x) = ekey x) by (intro x; unfold f, upd_ent; destruct (Nat.eqb (eid x) (eid e)); auto).
    assert (FI : forall x, eid (f x) = eid x) by (intro x; unfold f, upd_ent; destruct (Nat.eqb (eid x) (eid e)); auto).
    split.
    - exists (List.map f le). cbn [entries fresh msize]. split; [split; [|split]|].
      + rewrite <- concat_map. apply Permutation_map. auto.
      + rewrite map_length. intros i b x Ei Ix. rewrite nth_error_map in Ei.
        destruct (nth_error (entries m) i) as [b0|] eqn:Eb; [|discriminate]. inversion Ei; subst.
        apply in_map_iff in Ix. destruct Ix as [y [<- Iy]]. unfold loc. rewrite FK. eapply L; eauto.
      + rewrite map_length. auto.
      + split; [|split; [|split; [|split]]].
        * rewrite map_map.
          assert (X : Permutation (replace eqb k v (List.map kv le)) (replace eqb k v l)) by (apply Permutation_map; auto).
          rewrite <- X. unfold replace. rewrite map_map.
          assert (Y : List.map (fun x => kv (f x)) le = List.map (fun x => if eqb (fst (kv x)) k then (fst (kv x), v) else kv x) le).
          { apply map_ext_in. intros x Ix. cbn [kv fst]. unfold f, upd_ent.
            assert (Ix' : In x (concat (entries m))) by (eapply Permutation_in; [symmetry; exact P|auto]).
            destruct (eqb (ekey x) k) eqn:K1.
            - assert (x = e) by (eapply hit_unique; eauto). subst x. rewrite Nat.eqb_refl. reflexivity.
            - destruct (Nat.eqb_spec (eid x) (eid e)); [|reflexivity]. exfalso.
              pose proof (live_spec m l x R Ix') as L1. pose proof (live_spec m l e R I) as L2. rewrite e0 in L1.
              rewrite L2 in L1. inversion L1; subst. unfold hit in H. congruence. }
          rewrite Y. reflexivity.
        * apply distinct_replace. auto.
        * rewrite map_map. rewrite (map_ext _ (@eid K V)) by auto. auto.
        * intros x Ix. apply in_map_iff in Ix. destruct Ix as [y [<- Iy]]. rewrite FI. auto.
        * unfold replace. rewrite map_length. auto.
    - intros p kk [x [Ix [A1 A2]]]. exists (f x). cbn [entries]. rewrite <- concat_map. split; [apply in_map; auto|].
      rewrite FI, FK. auto.
  Qed.

  Lemma put_replace : forall k v l w, lookup eqb k l = Some w -> put eqb k v l = replace eqb k v l.
  Proof. intros. unfold put. rewrite H. auto. Qed.
  Lemma replace_fresh : forall k v v0 l, lookup eqb k l = None -> replace eqb k v ((k, v0) :: l) = (k, v) :: l.
  Proof.
    intros k v v0 l H. cbn. rewrite refl_. f_equal. unfold replace.
    rewrite <- (map_id l) at 2. apply map_ext_in. intros x I. rewrite (lookup_none_inv l k x H I). auto.
  Qed.

  Lemma remove_loop_spec : forall k rest b it prev, b = firstn it b ++ rest -> (it <= length b)%nat ->
    (prev = it \/ S prev = it) -> (prev = it -> match rest with e :: _ => hit eqb k e = false | [] => True end) ->
    match remove_loop eqb b prev it rest k with
    | Ok (b', true) => exists e : ent K V, In e rest /\ hit eqb k e = true /\ Permutation b (e :: b')
    | Ok (b', false) => b' = b /\ forall e, In e rest -> hit eqb k e = false
    | _ => False
    end.
  Proof.
    intro k. induction rest as [|e rest IH]; intros b it prev HL HI HP HF; cbn [remove_loop].
    - split; auto. intros e [].
    - destruct (hit eqb k e) eqn:H.
      + destruct HP as [->|HP]; [specialize (HF eq_refl); congruence|]. subst it.
        assert (LN : length b = (S prev + S (length rest))%nat).
        { rewrite HL at 1. rewrite app_length, firstn_length. cbn [length]. lia. }
        unfold erase_after. destruct (Nat.ltb_spec (S prev) (length b)); [|lia]. cbn [contract bind].
        exists e. split; [cbn; auto|]. split; auto.
        assert (SK : skipn (S (S prev)) b = rest).
        { rewrite HL at 1. rewrite skipn_app, skipn_all2 by (rewrite firstn_length; lia).
          rewrite firstn_length. replace (S (S prev) - min (S prev) (length b))%nat with 1%nat by lia. reflexivity. }
        rewrite SK. rewrite HL at 1. symmetry. apply Permutation_middle.
      + assert (LN : length b = (it + S (length rest))%nat).
        { rewrite HL at 1. rewrite app_length, firstn_length. cbn [length]. lia. }
        specialize (IH b (S it) it).
        assert (HL' : b = firstn (S it) b ++ rest).
        { rewrite HL at 2. rewrite firstn_app, firstn_firstn, firstn_length.
          replace (min (S it) it) with it by lia. replace (S it - min it (length b))%nat with 1%nat by lia.
          cbn [firstn]. rewrite <- app_assoc. exact HL. }
        specialize (IH HL' ltac:(lia) (or_intror eq_refl) ltac:(lia)).
        destruct (remove_loop eqb b it (S it) rest k) as [[b' [|]]| | |]; auto.
        * destruct IH as [x [I [E P]]]. exists x. cbn; auto.
        * destruct IH as [-> IH]. split; auto. intros x [<-|I]; auto.
  Qed.

  Lemma removed_rep : forall m l k i b b' e, rep m l -> nth_error (entries m) i = Some b -> hit eqb k e = true ->
    Permutation b (e :: b') -> N.of_nat (length l) < 2 ^ 62 ->
    let m' := mkMap (lset (entries m) i b') (wsub 64 (msize m) 1) (fresh m) in
    rep m' (filter (fun x => negb (eqb (fst x) k)) l) /\ is_some (lookup eqb k l) = true /\
    (forall p kk, at_ m p kk -> eqb kk k = false -> at_ m' p kk).
  Proof.
    intros m l k i b b' e R E H PB B m'. pose proof R as [le [[P [L C]] [Q [D [ND [FR Z]]]]]].
    pose proof (concat_pop _ _ _ _ _ E PB) as PC.
    set (c := concat (lset (entries m) i b')) in *.
    assert (PL : Permutation le (e :: c)) by (rewrite <- P; auto).
    assert (PK : Permutation l (kv e :: List.map kv c)) by (rewrite <- Q, PL; reflexivity).
    pose proof (filter_remove krel krel_sym krel_trans l (kv e) _ (k, evalue e) D PK H) as PF.
    assert (PF' : Permutation (filter (fun x => negb (eqb (fst x) k)) l) (List.map kv c)) by exact PF.
    split; [|split].
    - exists c. unfold m'. cbn [entries fresh msize]. split; [split; [|split]|].
      + reflexivity.
      + rewrite lset_length. apply located_lset; auto. intros x I. eapply L; eauto.
        eapply Permutation_in; [symmetry; exact PB|]. cbn; auto.
      + rewrite lset_length. auto.
      + split; [symmetry; auto|]. split; [apply distinct_filter; auto|]. split; [|split].
        * apply (Permutation_NoDup (Permutation_map (@eid K V) PL)) in ND. cbn in ND. inversion ND; auto.
        * intros x I. apply FR. eapply Permutation_in; [symmetry; exact PL|]. cbn; auto.
        * rewrite Z. apply Permutation_length in PK. apply Permutation_length in PF'. cbn [length] in PK.
          change (2 ^ 62) with 4611686018427387904 in B.
          rewrite wsub_ge by (change (2 ^ 64) with 18446744073709551616; lia). lia.
    - rewrite (lookup_in l k (kv e)); auto. eapply Permutation_in; [symmetry; exact PK|]. cbn; auto.
    - intros p kk [x [I [A1 A2]]] NK. exists x. unfold m'. cbn [entries]. split; auto.
      apply (Permutation_in _ PC) in I. destruct I as [<-|I]; auto. exfalso. subst kk. unfold hit in H. congruence.
  Qed.

  Lemma filter_none : forall k l, lookup eqb k l = None -> filter (fun x => negb (eqb (fst x) k)) l = l.
  Proof. intros k l H. apply filter_all. intros x I. rewrite (lookup_none_inv l k x H I). auto. Qed.

  Lemma remove_spec : forall m l k, rep m l -> N.of_nat (length l) < 2 ^ 62 ->
    exists m', remove_key hash eqb m k = Ok (m', is_some (lookup eqb k l)) /\
      rep m' (filter (fun x => negb (eqb (fst x) k)) l) /\ (forall p kk, at_ m p kk -> eqb kk k = false -> at_ m' p kk).
  Proof.
    intros m l k R B. unfold remove_key. rewrite (size_zero m l R). destruct l as [|x0 l0] eqn:EL; [exists m; auto|].
    rewrite <- EL in *. assert (NE : (0 < length (entries m))%nat) by (apply (rep_nonempty _ _ R); subst; discriminate).
    bk (bucket_of m _ k R NE) b Ea Eb F.
    rewrite get_location_Ok in * by auto. cbn [bind] in *. rewrite Nat2N.id in *. rewrite Ea. cbn [bind].
    assert (HB : (kloc (length (entries m)) k < length (entries m))%nat) by (apply nth_error_Some; congruence).
    destruct b as [|e t].
    - cbn in F. rewrite F. exists m. split; auto. rewrite filter_none; auto.
    - destruct (hit eqb k e) eqn:H.
      + rewrite aset_Ok by auto. cbn [bind]. destruct (removed_rep m l k _ _ t e R Eb H (Permutation_refl _) B) as [R' [M A]].
        rewrite M. eexists. split; [reflexivity|]. auto.
      + pose proof (remove_loop_spec k (e :: t) (e :: t) 0 0 eq_refl ltac:(lia) (or_introl eq_refl) (fun _ => H)) as RL.
        destruct (remove_loop eqb (e :: t) 0 0 (e :: t) k) as [[l' [|]]| | |]; try tauto; cbn [bind].
        * destruct RL as [x [I [Kx PX]]]. rewrite aset_Ok by auto. cbn [bind].
          destruct (removed_rep m l k _ _ l' x R Eb Kx PX B) as [R' [M A]]. rewrite M. eexists. split; [reflexivity|]. auto.
        * destruct RL as [_ RL]. destruct (find (hit eqb k) (e :: t)) as [y|] eqn:FF.
          { apply find_In in FF. destruct FF as [J1 J2]. rewrite RL in J2 by auto. discriminate. }
          rewrite F. exists m. split; auto. rewrite filter_none; auto.
  Qed.

  Lemma clear_spec : forall m l, rep m l -> rep (clear m) [].
  Proof.
    intros m l [le [[P [L C]] _]]. exists []. unfold clear. cbn [entries fresh msize].
    assert (X : List.map (fun _ : list (ent K V) => @nil (ent K V)) (entries m) = repeat [] (length (entries m))).
    { clear. induction (entries m); cbn; f_equal; auto. }
    rewrite X. split; [apply okb_repeat; auto|]. split; [constructor|]. split; [constructor|].
    split; [constructor|]. split; [intros e []|reflexivity].
  Qed.
  Lemma init_rep : rep init [].
  Proof.
    exists []. unfold init. cbn [entries fresh msize]. split; [apply (okb_repeat 0); unfold cap_ok; cbn; lia|].
    split; [constructor|]. split; [constructor|]. split; [constructor|]. split; [intros e []|reflexivity].
  Qed.

  Definition spares (k : K) (o : op K V) : Prop :=
    match o with Clear => False | RemoveKey k' => eqb k k' = false | _ => True end.

  Lemma ideal_len : forall l o, (length (fst (ideal_step eqb dflt l o)) <= S (length l))%nat.
  Proof.
    assert (FL : forall P (l : list (K * V)), (length (filter P l) <= length l)%nat).
    { induction l; cbn; auto. destruct (P a); cbn; lia. }
    intros l o. destruct o; cbn.
    - unfold put, replace. destruct (lookup eqb k l); cbn; rewrite ?map_length; lia.
    - destruct (lookup eqb k l); cbn; lia.
    - destruct (lookup eqb k l); cbn; lia.
    - specialize (FL (fun e => negb (eqb (fst e) k)) l). lia.
    - lia.
    - lia.
    - lia.
  Qed.

  Lemma step_spec : forall o m l, rep m l -> N.of_nat (length l) < 2 ^ 60 -> reasonable o ->
    exists m', step hash eqb dflt m o = Ok (m', snd (ideal_step eqb dflt l o)) /\ rep m' (fst (ideal_step eqb dflt l o)) /\
      (forall p k, at_ m p k -> spares k o -> at_ m' p k).
  Proof.
    intros o m l R B RS. assert (X1 : 2 ^ 60 < 2 ^ 61) by reflexivity. assert (X2 : 2 ^ 61 < 2 ^ 62) by reflexivity.
    destruct o; cbn [step ideal_step].
    - unfold index. destruct (find_or_insert_spec m l k dflt R ltac:(lia)) as [m1 [e [E1 [I1 [H1 [A1 C]]]]]]. rewrite E1. cbn [bind].
      cbn [fst snd]. unfold put. destruct (lookup eqb k l) as [w|] eqn:LK; destruct C as [R1 _];
        destruct (store_spec m1 _ k v e R1 I1 H1) as [m2 [E2 [R2 A2]]]; rewrite E2; cbn [bind]; exists m2; (split; [auto|split; [|auto]]); auto.
      rewrite replace_fresh in R2; auto.
    - unfold index. destruct (find_or_insert_spec m l k dflt R ltac:(lia)) as [m1 [e [E1 [I1 [H1 [A1 C]]]]]]. rewrite E1. cbn [bind].
      destruct (lookup eqb k l) as [w|] eqn:LK; destruct C as [R1 EV]; rewrite (load_spec m1 _ e R1 I1); cbn [bind fst snd];
        exists m1; rewrite EV; auto.
    - unfold get_or_create. destruct (find_or_insert_spec m l k v R ltac:(lia)) as [m1 [e [E1 [I1 [H1 [A1 C]]]]]]. rewrite E1. cbn [bind].
      destruct (lookup eqb k l) as [w|] eqn:LK; destruct C as [R1 EV]; rewrite (load_spec m1 _ e R1 I1); cbn [bind fst snd];
        exists m1; rewrite EV; auto.
    - destruct (remove_spec m l k R ltac:(lia)) as [m' [E [R' A]]]. rewrite E. cbn [bind fst snd]. exists m'. auto.
    - rewrite (contains_spec m l k R). cbn [bind fst snd]. exists m. auto.
    - exists (clear m). cbn [fst snd spares]. split; auto. split; [eapply clear_spec; eauto|]. intros p k _ [].
    - cbn in RS. destruct (reserve_spec m l n R RS) as [m' [E [R' [S' _]]]]. rewrite E. cbn [bind fst snd]. exists m'. split; auto. split; auto.
      intros. eapply same_fwd; eauto.
  Qed.

  Lemma run_spec : forall os m l, rep m l -> N.of_nat (length l + length os) < 2 ^ 60 -> Forall reasonable os ->
    exists m', run hash eqb dflt m os = Ok (m', snd (ideal_run eqb dflt l os)) /\ rep m' (fst (ideal_run eqb dflt l os)) /\
      (forall p k, at_ m p k -> Forall (spares k) os -> at_ m' p k).
  Proof.
    induction os as [|o os IH]; intros m l R B RS; cbn [run ideal_run].
    - exists m. auto.
    - inversion RS; subst. cbn [length] in B. destruct (step_spec o m l R ltac:(lia) H1) as [m1 [E1 [R1 A1]]]. rewrite E1. cbn [bind].
      pose proof (ideal_len l o). destruct (ideal_step eqb dflt l o) as [l1 r]. cbn [fst snd] in *.
      destruct (IH m1 l1 R1 ltac:(lia) H2) as [m2 [E2 [R2 A2]]]. rewrite E2. cbn [bind].
      destruct (ideal_run eqb dflt l1 os) as [l2 rs]. cbn [fst snd] in *. exists m2. split; auto. split; auto.
      intros p k A F. inversion F; subst. auto.
  Qed.

  (* iteration *)
  Lemma find_next_spec : forall f m c i, (c <= length (entries m))%nat -> (length (entries m) - c < f)%nat ->
    exists r, find_next_it f m c i = Ok r /\ (c <= curr r <= length (entries m))%nat /\
      ((curr r = length (entries m)) /\ concat (skipn c (entries m)) = [] \/
       (curr r < length (entries m))%nat /\ it r <> [] /\
       concat (skipn c (entries m)) = it r ++ concat (skipn (S (curr r)) (entries m))).
  Proof.
    induction f; intros m c i H F; [lia|]. cbn [find_next_it]. destruct (Nat.eqb_spec c (length (entries m))).
    - exists (mkIt c i). cbn. split; auto. split; [lia|]. left. split; auto. rewrite skipn_all2 by lia. reflexivity.
    - destruct (nth_error (entries m) c) as [l|] eqn:E; [|apply nth_error_None in E; lia].
      rewrite (proj2 (aget_Ok _ _ _) E). cbn [bind].
      assert (SK : skipn c (entries m) = l :: skipn (S c) (entries m)).
      { clear - E. revert c E. induction (entries m); intros [|c] E; cbn in *; try discriminate; [congruence|]. apply IHl0; auto. }
      destruct l as [|e l].
      + destruct (IHf m (S c) []) as [r [Er [B C]]]; try lia. exists r. split; auto. split; [lia|].
        rewrite SK. cbn [concat app]. destruct C as [C|[C1 [C2 C3]]]; auto.
      + exists (mkIt c (e :: l)). cbn [curr it]. split; auto. split; [lia|]. right. split; [lia|]. split; [discriminate|].
        rewrite SK. reflexivity.
  Qed.
  Lemma for_each_spec : forall f m i,
    ((curr i = length (entries m)) /\ (0 < f)%nat \/ (curr i < length (entries m))%nat /\ it i <> [] /\
      (length (it i ++ concat (skipn (S (curr i)) (entries m))) < f)%nat) ->
    for_each f m i = Ok (if (curr i =? length (entries m))%nat then [] else it i ++ concat (skipn (S (curr i)) (entries m))).
  Proof.
    induction f; intros m i H; [destruct H as [[_ H]|[_ [_ H]]]; lia|]. cbn [for_each]. unfold not_end.
    destruct (Nat.eqb_spec (curr i) (length (entries m))); [reflexivity|]. cbn [negb].
    destruct H as [[H _]|[H1 [H2 H3]]]; [lia|]. destruct i as [c l]. cbn [curr it] in *. destruct l as [|e l]; [congruence|].
    unfold deref, next. cbn [it bind curr]. rewrite app_length in H3. cbn [length] in H3. destruct l as [|e' l].
    - destruct (find_next_spec (S (length (entries m))) m (S c) []) as [r [Er [B C]]]; try lia. rewrite Er. cbn [bind].
      rewrite IHf.
      + destruct C as [[C1 C2]|[C1 [C2 C3]]].
        * rewrite C1, Nat.eqb_refl. cbn [bind app]. rewrite C2. reflexivity.
        * destruct (Nat.eqb_spec (curr r) (length (entries m))); [lia|]. cbn [bind app]. rewrite C3. reflexivity.
      + destruct C as [[C1 C2]|[C1 [C2 C3]]]; [left; split; auto; cbn [length] in H3; lia|]. right. split; auto. split; auto.
        rewrite <- C3. cbn [length] in H3. lia.
    - cbn [bind]. rewrite IHf.
      + cbn [curr it]. destruct (Nat.eqb_spec c (length (entries m))); [lia|]. reflexivity.
      + right. cbn [curr it]. split; auto. split; [discriminate|]. rewrite app_length. cbn [length] in *. lia.
  Qed.
  Lemma pairs_spec : forall m, pairs m = Ok (List.map kv (concat (entries m))).
  Proof.
    intro m. unfold pairs, begin. destruct (find_next_spec (S (length (entries m))) m 0 []) as [r [Er [B C]]]; try lia.
    rewrite Er. cbn [bind]. rewrite skipn_O in C. rewrite for_each_spec.
    - destruct C as [[C1 C2]|[C1 [C2 C3]]].
      + rewrite C1, Nat.eqb_refl, C2. reflexivity.
      + destruct (Nat.eqb_spec (curr r) (length (entries m))); [lia|]. rewrite C3. reflexivity.
    - destruct C as [[C1 C2]|[C1 [C2 C3]]]; [left; split; auto; lia|]. right. rewrite <- C3. auto.
  Qed.
  Lemma pairs_rep : forall m l, rep m l -> exists ps, pairs m = Ok ps /\ Permutation ps l.
  Proof.
    intros m l [le [[P _] [Q _]]]. eexists. split; [apply pairs_spec|]. rewrite <- Q. apply Permutation_map. auto.
  Qed.

  (* equality *)
  Section E.
  Context (veqb : V -> V -> bool).
  Definition same_at (ov ow : option V) : Prop :=
    match ov, ow with Some v, Some w => veqb w v = true | None, None => True | _, _ => False end.
  Definition agree (l : list (K * V)) (x : K * V) : bool :=
    match lookup eqb (fst x) l with Some w => veqb w (snd x) | None => false end.
  Lemma eq_loop_spec : forall ps r lr, rep r lr -> eq_loop hash eqb veqb ps r = Ok (forallb (agree lr) ps).
  Proof.
    induction ps as [|[k v] ps IH]; intros r lr R; cbn [eq_loop]; auto. rewrite (contains_spec r lr k R). cbn [bind].
    rewrite (get_spec r lr k R). cbn [forallb]. unfold agree at 1. cbn [fst snd].
    destruct (lookup eqb k lr) as [w|]; cbn [is_some negb]; auto. cbn [bind]. destruct (veqb w v); cbn; auto.
  Qed.
  Lemma lookup_eqb : forall l x y, eqb x y = true -> lookup eqb x l = lookup eqb y l.
  Proof.
    intros l x y H. unfold lookup. replace (find (fun e => eqb (fst e) x) l) with (find (fun e => eqb (fst e) y) l); auto.
    induction l as [|z l IH]; cbn; auto. replace (eqb (fst z) x) with (eqb (fst z) y); [rewrite IH; auto|].
    apply eq_true_iff_eq. split; eauto.
  Qed.
  Lemma eq_spec : forall a la b lb, rep a la -> rep b lb ->
    exists r, eq hash eqb veqb a b = Ok r /\ (r = true <-> forall k, same_at (lookup eqb k la) (lookup eqb k lb)).
  Proof.
    intros a la b lb RA RB. unfold eq. pose proof RA as [le [_ [_ [DA [_ [_ ZA]]]]]]. pose proof RB as [le' [_ [_ [DB [_ [_ ZB]]]]]].
    rewrite ZA, ZB. destruct (pairs_rep a la RA) as [ps [EP PP]].
    assert (MEM : forall l x, lookup eqb (fst x) l <> None -> existsb (fun e => krel e x) l = true).
    { intros l x H. destruct (lookup eqb (fst x) l) eqn:LK; [|congruence]. apply lookup_some_inv in LK.
      destruct LK as [y [I [E _]]]. apply existsb_exists. eauto. }
    assert (MEM' : forall l x, existsb (fun e => krel e x) l = true -> lookup eqb (fst x) l <> None).
    { intros l x H LK. apply existsb_exists in H. destruct H as [y [I E]]. pose proof (lookup_none_inv l _ y LK I). unfold krel in E. congruence. }
    destruct (N.eqb_spec (N.of_nat (length la)) (N.of_nat (length lb))); cbn [negb].
    - rewrite EP. cbn [bind]. rewrite (eq_loop_spec ps b lb RB). eexists. split; [reflexivity|]. rewrite forallb_forall. split.
      + intros H k. destruct (lookup eqb k la) as [v|] eqn:LA.
        * apply lookup_some_inv in LA. destruct LA as [x [I [E V1]]]. specialize (H x).
          assert (J : In x ps) by (eapply Permutation_in; [symmetry; exact PP|auto]). specialize (H J). unfold agree in H.
          rewrite (lookup_eqb lb _ _ E) in H. destruct (lookup eqb k lb); [|discriminate]. subst v. exact H.
        * destruct (lookup eqb k lb) as [w|] eqn:LB; [|exact I]. exfalso.
          apply lookup_some_inv in LB. destruct LB as [x [J [E V1]]].
          assert (Q : existsb (fun e => krel e x) la = true).
          { apply (distinct_incl_eq krel krel_sym krel_trans lb la DB DA); auto; [lia|]. intros y Jy. apply MEM.
            assert (Jy' : In y ps) by (eapply Permutation_in; [symmetry; exact PP|auto]). specialize (H y Jy'). unfold agree in H.
            destruct (lookup eqb (fst y) lb); congruence. }
          apply (MEM' la x Q). rewrite (lookup_eqb la _ _ E). auto.
      + intros H x I. specialize (H (fst x)). unfold agree.
        assert (J : In x la) by (eapply Permutation_in; eauto).
        rewrite (lookup_in la (fst x) x DA J (refl_ _)) in H. destruct (lookup eqb (fst x) lb); [exact H|destruct H].
    - exists false. split; auto. split; [discriminate|]. intro H. exfalso. apply n.
      assert (length la <= length lb)%nat.
      { apply (distinct_incl_length krel krel_sym krel_trans lb la DB DA). intros x I. apply MEM. specialize (H (fst x)).
        rewrite (lookup_in la (fst x) x DA I (refl_ _)) in H. destruct (lookup eqb (fst x) lb); [discriminate|destruct H]. }
      assert (length lb <= length la)%nat.
      { apply (distinct_incl_length krel krel_sym krel_trans la lb DA DB). intros x I. apply MEM. specialize (H (fst x)).
        rewrite (lookup_in lb (fst x) x DB I (refl_ _)) in H. destruct (lookup eqb (fst x) la); [discriminate|destruct H]. }
      lia.
  Qed.

  End E.

  (* pointers *)
  Lemma get_ptr_at : forall m l k p, rep m l -> get_ptr hash eqb m k = Ok (Some p) ->
    exists kk, at_ m p kk /\ eqb kk k = true.
  Proof.
    intros m l k p R E. pose proof (get_ptr_spec m l k R) as S. destruct (lookup eqb k l).
    - destruct S as [e [E' [I [H _]]]]. rewrite E in E'. inversion E'; subst. exists (ekey e). split; [exists e; auto|exact H].
    - congruence.
  Qed.
  Lemma at_get_ptr : forall m l k kk p, rep m l -> at_ m p kk -> eqb kk k = true ->
    get_ptr hash eqb m k = Ok (Some p) /\ exists v, lookup eqb k l = Some v /\ load m p = Ok v.
  Proof.
    intros m l k kk p R [e [I [<- <-]]] H. pose proof (rep_lookup m l e R I) as LK. rewrite (lookup_eqb l _ _ H) in LK.
    pose proof (get_ptr_spec m l k R) as S. rewrite LK in S. destruct S as [e' [E' [I' [H' _]]]].
    assert (e = e') by (eapply hit_unique; eauto). subst e'. split; auto. exists (evalue e). split; auto. eapply load_spec; eauto.
  Qed.
End P.

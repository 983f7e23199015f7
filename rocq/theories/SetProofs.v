From Coq Require Import NArith Arith List Bool Lia Permutation.
From Verif Require Import Base HashModel SetModel SetSpec BucketProofs.
Import ListNotations.
Open Scope N_scope.

Section P.
  Context {T : Type} (hash : T -> N) (eqb : T -> T -> bool).
  Implicit Types (es : list (list T)) (s : set T).
  Hypothesis EH : equiv_hash eqb hash.
  Let refl_ := eq_refl_ _ _ EH.
  Let sym_ := eq_sym_ _ _ EH.
  Let trans_ := eq_trans_ _ _ EH.
  Let hash_ := eq_hash_ _ _ EH.

  Definition loc (n : nat) (e : T) : nat := N.to_nat (hash_combine2 (wrap 64 (hash e)) 0 mod N.of_nat n).

  Lemma loc_lt : forall n e, (0 < n)%nat -> (loc n e < n)%nat.
  Proof. intros n e H. unfold loc. pose proof (N.mod_lt (hash_combine2 (wrap 64 (hash e)) 0) (N.of_nat n)). lia. Qed.
  Lemma loc_eq : forall n x y, eqb x y = true -> loc n x = loc n y.
  Proof. intros. unfold loc. rewrite (hash_ x y); auto. Qed.
  Lemma get_location_Ok : forall es v, (0 < length es)%nat -> get_location hash es v = Ok (N.of_nat (loc (length es) v)).
  Proof.
    intros es v H. unfold get_location. destruct (N.ltb_spec 0 (N.of_nat (length es))); [|lia]. cbn [contract bind].
    unfold loc. rewrite N2Nat.id. reflexivity.
  Qed.
  Lemma get_location_empty : forall v, get_location hash [] v = Contract.
  Proof. reflexivity. Qed.

  Definition okb (es : list (list T)) (l : list T) : Prop :=
    Permutation (concat es) l /\ located (loc (length es)) es.
  Definition rep (s : set T) (l : list T) : Prop :=
    okb (entries s) l /\ distinct eqb l /\ ssize s = N.of_nat (length l).

  Lemma rep_nonempty : forall s e l, rep s (e :: l) -> (0 < length (entries s))%nat.
  Proof.
    intros s e l [[P _] _]. destruct (entries s); [|cbn; lia]. cbn in P. apply Permutation_nil in P. discriminate.
  Qed.

  Lemma bucket_get : forall es v, (0 < length es)%nat -> exists l, nth_error es (loc (length es) v) = Some l.
  Proof.
    intros es v H. destruct (nth_error es (loc (length es) v)) eqn:E; eauto.
    apply nth_error_None in E. pose proof (loc_lt (length es) v H). lia.
  Qed.
  Lemma search : forall es m v l, okb es m -> nth_error es (loc (length es) v) = Some l ->
    existsb (fun e => eqb e v) l = mem eqb v m.
  Proof.
    intros es m v l [P L] E. unfold mem. rewrite <- (existsb_perm _ _ _ _ P). eapply exists_bucket; eauto.
    intros e He. apply loc_eq. auto.
  Qed.

  Lemma contains_spec : forall s l v, rep s l -> contains hash eqb s v = Ok (mem eqb v l).
  Proof.
    intros s l v R. unfold contains. pose proof R as [O [D Z]]. rewrite Z.
    destruct l as [|e l]; [reflexivity|]. destruct (N.eqb_spec (N.of_nat (length (e :: l))) 0); [cbn [length] in *; lia|].
    pose proof (rep_nonempty _ _ _ R) as NE. rewrite get_location_Ok by auto. cbn [bind]. rewrite Nat2N.id.
    destruct (bucket_get (entries s) v NE) as [b E]. rewrite (proj2 (aget_Ok _ _ _) E). cbn [bind]. f_equal.
    eapply search; eauto.
  Qed.

  Lemma located_push : forall es i l e, located (loc (length es)) es -> nth_error es i = Some l -> i = loc (length es) e ->
    located (loc (length (lset es i (e :: l)))) (lset es i (e :: l)).
  Proof.
    intros es i l e L E ->. rewrite lset_length. apply located_lset; auto.
    intros x [<-|I]; auto. eapply L; eauto.
  Qed.
  Lemma okb_push : forall es i l e m, okb es m -> nth_error es i = Some l -> i = loc (length es) e ->
    okb (lset es i (e :: l)) (e :: m).
  Proof.
    intros es i l e m [P L] E Hi. split; [|apply located_push; auto].
    rewrite (concat_push _ _ _ _ E). constructor. auto.
  Qed.

  Lemma rehash_bucket_spec : forall l es m, okb es m -> (0 < length es)%nat ->
    exists es', rehash_bucket hash l es = Ok es' /\ okb es' (l ++ m) /\ length es' = length es.
  Proof.
    induction l as [|e l IH]; intros es m O H; cbn [rehash_bucket].
    - exists es. auto.
    - rewrite get_location_Ok by auto. cbn [bind]. rewrite Nat2N.id.
      destruct (bucket_get es e H) as [b E]. rewrite (proj2 (aget_Ok _ _ _) E). cbn [bind].
      rewrite (aset_Ok es) by (apply nth_error_Some; congruence). cbn [bind].
      destruct (IH (lset es (loc (length es) e) (e :: b)) (e :: m)) as [es' [E' [[P' L'] N']]].
      + apply okb_push; auto.
      + rewrite lset_length. auto.
      + exists es'. split; auto. rewrite lset_length in N'. split; auto. split; auto.
        rewrite P'. symmetry. apply Permutation_middle.
  Qed.
  Lemma rehash_spec : forall old es m, okb es m -> (0 < length es)%nat ->
    exists es', rehash hash old es = Ok es' /\ okb es' (concat old ++ m) /\ length es' = length es.
  Proof.
    induction old as [|l old IH]; intros es m O H; cbn [rehash concat].
    - exists es. auto.
    - destruct (rehash_bucket_spec l es m O H) as [es1 [E1 [O1 N1]]]. rewrite E1. cbn [bind].
      destruct (IH es1 (l ++ m) O1) as [es2 [E2 [O2 N2]]]; [lia|]. exists es2. split; auto. split; [|lia].
      destruct O2 as [P2 L2]. split; auto. rewrite P2. rewrite !app_assoc. apply Permutation_app_tail. apply Permutation_app_comm.
  Qed.
  Lemma okb_repeat : forall n, okb (repeat [] n) [].
  Proof.
    intro n. split; [rewrite concat_repeat_nil; auto|]. intros i l e H I. apply nth_repeat_nil in H. subst. destruct I.
  Qed.
  Lemma reserve_spec : forall s l n, rep s l -> 0 < n ->
    exists s', reserve_ hash s n = Ok s' /\ rep s' l /\ nbuckets s' = n.
  Proof.
    intros s l n [[P L] [D Z]] H. unfold reserve_.
    destruct (rehash_spec (entries s) (repeat [] (N.to_nat n)) [] (okb_repeat _)) as [es [E [[P' L'] N']]].
    { rewrite repeat_length. lia. }
    rewrite E. cbn [bind]. eexists. split; [reflexivity|]. split.
    - split; [|split; auto]. cbn [entries]. split; auto. rewrite P', app_nil_r. auto.
    - unfold nbuckets. cbn [entries]. rewrite N', repeat_length. lia.
  Qed.
  Lemma rehash_zero : forall old l, Permutation (concat old) l -> l <> [] -> rehash hash old [] = Contract.
  Proof.
    intros old l P NE. assert (C : concat old <> []).
    { intro C. rewrite C in P. apply Permutation_nil in P. auto. }
    clear P NE. induction old as [|b old IH]; cbn in *; [congruence|]. destruct b as [|e b]; cbn in *; auto.
  Qed.
  Lemma rehash_zero_nil : forall old, concat old = [] -> rehash hash old [] = Ok [].
  Proof.
    induction old as [|b old IH]; cbn; auto. intro H. apply app_eq_nil in H. destruct H as [-> H]. cbn. auto.
  Qed.
  Lemma reserve0_spec : forall s l, rep s l ->
    match l with
    | [] => exists s', reserve_ hash s 0 = Ok s' /\ rep s' []
    | _ => reserve_ hash s 0 = Contract
    end.
  Proof.
    intros s l [[P L] [D Z]]. unfold reserve_. cbn [repeat N.to_nat]. destruct l as [|e l].
    - symmetry in P. apply Permutation_nil in P. rewrite (rehash_zero_nil _ P). cbn [bind]. eexists. split; [reflexivity|].
      split; [|split; auto]. cbn. split; auto. intros i b x H. destruct i; discriminate.
    - rewrite (rehash_zero _ _ P) by discriminate. reflexivity.
  Qed.

  Lemma add_core : forall s l v, rep s l -> (0 < length (entries s))%nat -> N.of_nat (length l) + 1 < 2 ^ 64 ->
    exists s' b, (let! idx := get_location hash (entries s) v in
                  let! lst := aget (entries s) (N.to_nat idx) in
                  if existsb (fun e => eqb e v) lst then Ok (s, false)
                  else
                    let! es := aset (entries s) (N.to_nat idx) (v :: lst) in
                    Ok (mkSet es (wadd 64 (ssize s) 1), true)) = Ok (s', b) /\
      ideal_step eqb l (Add v) = Some (if b then v :: l else l, b) /\ rep s' (if b then v :: l else l).
  Proof.
    intros s l v R NE B. rewrite get_location_Ok by auto. cbn [bind]. rewrite Nat2N.id. pose proof R as [O [D Z]].
    destruct (bucket_get (entries s) v NE) as [bk E]. rewrite (proj2 (aget_Ok _ _ _) E). cbn [bind].
    rewrite (search _ _ _ _ O E). cbn [ideal_step]. destruct (mem eqb v l) eqn:M.
    - exists s, false. auto.
    - rewrite aset_Ok by (apply nth_error_Some; congruence). cbn [bind]. eexists _, true. split; [reflexivity|]. split; auto.
      split; [|split]; cbn [entries ssize].
      + apply okb_push; auto.
      + constructor; auto. intros x I. destruct (eqb x v) eqn:K; auto.
        assert (mem eqb v l = true) by (unfold mem; apply existsb_exists; eauto). congruence.
      + cbn [length]. rewrite Z. rewrite wadd_small by auto. lia.
  Qed.

  Lemma add_spec : forall s l v, rep s l -> N.of_nat (length l) < 2 ^ 62 ->
    exists s' b, add hash eqb s (Val v) = Ok (s', b) /\ ideal_step eqb l (Add v) = Some (if b then v :: l else l, b) /\
      rep s' (if b then v :: l else l).
  Proof.
    intros s l v R B. unfold add. pose proof R as [O [D Z]].
    assert (B2 : 2 ^ 62 * 2 < 2 ^ 64) by reflexivity.
    destruct (N.leb_spec (nbuckets s) (ssize s)).
    - destruct (reserve_spec s l (if ssize s =? 0 then 4 else wmul 64 (ssize s) 2) R) as [s1 [E1 [R1 N1]]].
      { destruct (N.eqb_spec (ssize s) 0); [lia|]. unfold wmul. rewrite wrap_small by lia. lia. }
      rewrite E1. cbn [bind]. apply add_core; auto; [|lia].
      unfold nbuckets in N1. destruct (N.eqb_spec (ssize s) 0); [lia|]. unfold wmul in N1. rewrite wrap_small in N1 by lia. lia.
    - cbn [eval bind]. apply add_core; auto; [|lia]. unfold nbuckets in *. lia.
  Qed.

  Lemma remove_loop_spec : forall v rest l it prev, l = firstn it l ++ rest -> (it <= length l)%nat ->
    (prev = it \/ S prev = it) -> (prev = it -> match rest with e :: _ => eqb e v = false | [] => True end) ->
    match remove_loop eqb l prev it rest v with
    | Ok (l', true) => exists e, In e rest /\ eqb e v = true /\ Permutation l (e :: l')
    | Ok (l', false) => l' = l /\ forall e, In e rest -> eqb e v = false
    | _ => False
    end.
  Proof.
    intro v. induction rest as [|e rest IH]; intros l it prev HL HI HP HF; cbn [remove_loop].
    - split; auto. intros e [].
    - destruct (eqb e v) eqn:K.
      + destruct HP as [->|HP]; [specialize (HF eq_refl); congruence|]. subst it.
        assert (LN : length l = (S prev + S (length rest))%nat).
        { rewrite HL at 1. rewrite app_length, firstn_length. cbn [length]. lia. }
        unfold erase_after. destruct (Nat.ltb_spec (S prev) (length l)); [|lia]. cbn [contract bind].
        exists e. split; [cbn; auto|]. split; auto.
        assert (SK : skipn (S (S prev)) l = rest).
        { rewrite HL at 1. rewrite skipn_app, skipn_all2 by (rewrite firstn_length; lia).
          rewrite firstn_length. replace (S (S prev) - min (S prev) (length l))%nat with 1%nat by lia. reflexivity. }
        rewrite SK. rewrite HL at 1. symmetry. apply Permutation_middle.
      + assert (LN : length l = (it + S (length rest))%nat).
        { rewrite HL at 1. rewrite app_length, firstn_length. cbn [length]. lia. }
        specialize (IH l (S it) it).
        assert (HL' : l = firstn (S it) l ++ rest).
        { rewrite HL at 2. rewrite firstn_app, firstn_firstn, firstn_length.
          replace (min (S it) it) with it by lia. replace (S it - min it (length l))%nat with 1%nat by lia.
          cbn [firstn]. rewrite <- app_assoc. exact HL. }
        specialize (IH HL' ltac:(lia) (or_intror eq_refl) ltac:(lia)).
        destruct (remove_loop eqb l it (S it) rest v) as [[l' [|]]| | |]; auto.
        * destruct IH as [x [I [E P]]]. exists x. cbn; auto.
        * destruct IH as [-> IH]. split; auto. intros x [<-|I]; auto.
  Qed.

  Lemma located_incl : forall es i l l', located (loc (length es)) es -> nth_error es i = Some l ->
    (forall x, In x l' -> In x l) -> located (loc (length (lset es i l'))) (lset es i l').
  Proof. intros es i l l' L E H. rewrite lset_length. apply located_lset; auto. intros x I. eapply L; eauto. Qed.

  Lemma mem_false : forall v l, (forall e, In e l -> eqb e v = false) -> mem eqb v l = false.
  Proof.
    intros v l H. unfold mem. destruct (existsb _ l) eqn:K; auto. apply existsb_exists in K. destruct K as [e [I K]].
    rewrite H in K by auto. discriminate.
  Qed.
  Lemma filter_mem_false : forall v l, mem eqb v l = false -> filter (fun e => negb (eqb e v)) l = l.
  Proof.
    intros v l H. apply filter_all. intros e I. destruct (eqb e v) eqn:K; auto.
    assert (mem eqb v l = true) by (apply existsb_exists; eauto). congruence.
  Qed.

  Lemma removed_rep : forall s l v i b b' e, rep s l -> nth_error (entries s) i = Some b -> eqb e v = true ->
    Permutation b (e :: b') -> N.of_nat (length l) < 2 ^ 62 ->
    rep (mkSet (lset (entries s) i b') (wsub 64 (ssize s) 1)) (filter (fun x => negb (eqb x v)) l) /\ mem eqb v l = true.
  Proof.
    intros s l v i b b' e [[P L] [D Z]] E K PB B.
    pose proof (concat_pop _ _ _ _ _ E PB) as PC.
    assert (PL : Permutation l (e :: concat (lset (entries s) i b'))) by (rewrite <- P; auto).
    pose proof (filter_remove eqb sym_ trans_ l e _ v D PL K) as PF.
    split.
    - split; [|split]; cbn [entries ssize].
      + split; [symmetry; auto|]. eapply located_incl; eauto. intros x I.
        eapply Permutation_in; [symmetry; exact PB|]. cbn; auto.
      + apply distinct_filter; auto.
      + rewrite Z. apply Permutation_length in PL. apply Permutation_length in PF. cbn [length] in PL.
        change (2 ^ 62) with 4611686018427387904 in B.
        rewrite wsub_ge by (change (2 ^ 64) with 18446744073709551616; lia). lia.
    - unfold mem. rewrite (existsb_perm _ _ _ _ PL). cbn. rewrite K. reflexivity.
  Qed.

  Lemma remove_spec : forall s l v, rep s l -> N.of_nat (length l) < 2 ^ 62 ->
    exists s', remove hash eqb s v = Ok (s', mem eqb v l) /\ rep s' (filter (fun e => negb (eqb e v)) l).
  Proof.
    intros s l v R B. unfold remove. pose proof R as [O [D Z]].
    destruct (N.eqb_spec (ssize s) 0) as [E0|N0]; [rewrite Z in E0|rewrite Z in N0].
    - destruct l; [|cbn [length] in E0; lia]. exists s. auto.
    - assert (NE : (0 < length (entries s))%nat).
      { destruct l; [cbn in N0; lia|]. eapply rep_nonempty; eauto. }
      rewrite get_location_Ok by auto. cbn [bind]. rewrite Nat2N.id.
      destruct (bucket_get (entries s) v NE) as [b E]. rewrite (proj2 (aget_Ok _ _ _) E). cbn [bind].
      pose proof (search _ _ _ _ O E) as S. assert (HB : (loc (length (entries s)) v < length (entries s))%nat) by (apply loc_lt; auto).
      destruct b as [|e t].
      + cbn in S. rewrite <- S. exists s. split; auto. rewrite filter_mem_false; auto.
      + destruct (eqb e v) eqn:K.
        * rewrite aset_Ok by auto. cbn [bind]. destruct (removed_rep s l v _ _ t e R E K (Permutation_refl _) B) as [R' M].
          rewrite M. eexists. split; [reflexivity|]. auto.
        * pose proof (remove_loop_spec v (e :: t) (e :: t) 0 0 eq_refl ltac:(lia) (or_introl eq_refl) (fun _ => K)) as RL.
          destruct (remove_loop eqb (e :: t) 0 0 (e :: t) v) as [[l' [|]]| | |]; try tauto; cbn [bind].
          { destruct RL as [x [I [Kx PX]]]. rewrite aset_Ok by auto. cbn [bind].
            destruct (removed_rep s l v _ _ l' x R E Kx PX B) as [R' M]. rewrite M. eexists. split; [reflexivity|]. auto. }
          { destruct RL as [_ F]. assert (M : mem eqb v l = false). { rewrite <- S. exact (mem_false v _ F). }
            rewrite M. exists s. split; auto. rewrite filter_mem_false; auto. }
  Qed.

  Lemma clear_spec : forall s l, rep s l -> rep (clear s) [].
  Proof.
    intros s l _. unfold clear. split; [|split; [constructor|reflexivity]]. cbn [entries].
    assert (X : map (fun _ : list T => @nil T) (entries s) = repeat [] (length (entries s))).
    { induction (entries s); cbn; f_equal; auto. }
    rewrite X. apply okb_repeat.
  Qed.

  Lemma init_rep : rep init [].
  Proof.
    split; [|split; [constructor|reflexivity]]. split; [constructor|]. intros i l e H. destruct i; discriminate.
  Qed.

  Lemma ideal_len : forall l o l' b, ideal_step eqb l o = Some (l', b) -> (length l' <= S (length l))%nat.
  Proof.
    assert (FL : forall P (l : list T), (length (filter P l) <= length l)%nat).
    { induction l; cbn; auto. destruct (P a); cbn; lia. }
    intros l o l' b H. destruct o; cbn in H.
    - destruct (mem eqb v l); inversion H; subst; cbn; lia.
    - inversion H; subst. specialize (FL (fun e => negb (eqb e v)) l). lia.
    - inversion H; subst. lia.
    - inversion H; subst. cbn. lia.
    - destruct n; [destruct l|]; inversion H; subst; cbn; lia.
  Qed.

  Lemma step_spec : forall o s l, rep s l -> N.of_nat (length l) < 2 ^ 62 ->
    match ideal_step eqb l o with
    | Some (l', b) => exists s', step hash eqb s o = Ok (s', b) /\ rep s' l'
    | None => step hash eqb s o = Contract
    end.
  Proof.
    intros o s l R B. destruct o.
    - destruct (add_spec s l v R B) as [s' [b [E [I R']]]]. rewrite I. cbn [step]. rewrite E. eauto.
    - cbn [ideal_step step]. destruct (remove_spec s l v R B) as [s' [E R']]. rewrite E. eauto.
    - cbn [ideal_step step]. rewrite (contains_spec s l v R). cbn [bind]. eauto.
    - cbn [ideal_step step]. eexists. split; [reflexivity|]. eapply clear_spec; eauto.
    - cbn [ideal_step step]. unfold reserve. destruct n as [|n].
      + pose proof (reserve0_spec s l R) as Q. destruct l; [|rewrite Q; reflexivity].
        destruct Q as [s' [E R']]. rewrite E. cbn [bind]. eauto.
      + destruct (reserve_spec s l (N.pos n) R eq_refl) as [s' [E [R' _]]]. rewrite E. cbn [bind]. eauto.
  Qed.

  Lemma run_spec : forall os s l, rep s l -> N.of_nat (length l + length os) < 2 ^ 62 ->
    match ideal_run eqb l os with
    | Some (l', bs) => exists s', run hash eqb s os = Ok (s', bs) /\ rep s' l'
    | None => run hash eqb s os = Contract
    end.
  Proof.
    induction os as [|o os IH]; intros s l R B; cbn [ideal_run run].
    - eauto.
    - cbn [length] in B. pose proof (step_spec o s l R ltac:(lia)) as S.
      destruct (ideal_step eqb l o) as [[l1 b]|] eqn:I; [|rewrite S; reflexivity].
      destruct S as [s1 [E1 R1]]. rewrite E1. cbn [bind]. pose proof (ideal_len _ _ _ _ I).
      specialize (IH s1 l1 R1 ltac:(lia)). destruct (ideal_run eqb l1 os) as [[l2 bs]|]; [|rewrite IH; reflexivity].
      destruct IH as [s2 [E2 R2]]. rewrite E2. cbn [bind]. eauto.
  Qed.

  Lemma add_all_spec : forall vs s l, rep s l -> N.of_nat (length l + length vs) < 2 ^ 62 ->
    exists s' l', add_all hash eqb s vs = Ok s' /\ rep s' l' /\ (forall x, mem eqb x l' = mem eqb x l || mem eqb x vs).
  Proof.
    induction vs as [|v vs IH]; intros s l R B; cbn [add_all].
    - exists s, l. split; auto. split; auto. intro x. cbn. rewrite orb_false_r. auto.
    - cbn [length] in B. destruct (add_spec s l v R ltac:(lia)) as [s1 [b [E [I R1]]]]. rewrite E. cbn [bind].
      destruct (IH s1 _ R1) as [s' [l' [E' [R' M']]]].
      { pose proof (ideal_len _ _ _ _ I). lia. }
      exists s', l'. split; auto. split; auto. intro x. rewrite M'. cbn [ideal_step] in I.
      replace (mem eqb x (v :: vs)) with (eqb v x || mem eqb x vs) by reflexivity. rewrite orb_assoc. f_equal. destruct (mem eqb v l) eqn:M; inversion I; subst b.
      + destruct (eqb v x) eqn:K; [|rewrite orb_false_r; auto]. rewrite orb_true_r. unfold mem in *.
        apply existsb_exists in M. destruct M as [e [J F]]. apply existsb_exists. exists e. split; eauto.
      + unfold mem at 1. cbn [existsb]. rewrite orb_comm. reflexivity.
  Qed.

  (* iteration *)
  Lemma find_next_spec : forall f s c i, (c <= length (entries s))%nat -> (length (entries s) - c < f)%nat ->
    exists r, find_next_it f s c i = Ok r /\ (c <= curr r <= length (entries s))%nat /\
      ((curr r = length (entries s)) /\ concat (skipn c (entries s)) = [] \/
       (curr r < length (entries s))%nat /\ it r <> [] /\
       concat (skipn c (entries s)) = it r ++ concat (skipn (S (curr r)) (entries s))).
  Proof.
    induction f; intros s c i H F; [lia|]. cbn [find_next_it]. destruct (Nat.eqb_spec c (length (entries s))).
    - exists (mkIt c i). cbn. split; auto. split; [lia|]. left. split; auto. rewrite skipn_all2 by lia. reflexivity.
    - destruct (nth_error (entries s) c) as [l|] eqn:E; [|apply nth_error_None in E; lia].
      rewrite (proj2 (aget_Ok _ _ _) E). cbn [bind].
      assert (SK : skipn c (entries s) = l :: skipn (S c) (entries s)).
      { clear - E. revert c E. induction (entries s); intros [|c] E; cbn in *; try discriminate; [congruence|]. apply IHl0; auto. }
      destruct l as [|e l].
      + destruct (IHf s (S c) []) as [r [Er [B C]]]; try lia. exists r. split; auto. split; [lia|].
        rewrite SK. cbn [concat app]. destruct C as [C|[C1 [C2 C3]]]; auto.
      + exists (mkIt c (e :: l)). cbn [curr it]. split; auto. split; [lia|]. right. split; [lia|]. split; [discriminate|].
        rewrite SK. reflexivity.
  Qed.
  Lemma for_each_spec : forall f s i, 
    ((curr i = length (entries s)) /\ (0 < f)%nat \/ (curr i < length (entries s))%nat /\ it i <> [] /\
      (length (it i ++ concat (skipn (S (curr i)) (entries s))) < f)%nat) ->
    for_each f s i = Ok (if (curr i =? length (entries s))%nat then [] else it i ++ concat (skipn (S (curr i)) (entries s))).
  Proof.
    induction f; intros s i H; [destruct H as [[_ H]|[_ [_ H]]]; lia|]. cbn [for_each]. unfold not_end.
    destruct (Nat.eqb_spec (curr i) (length (entries s))); [reflexivity|]. cbn [negb].
    destruct H as [[H _]|[H1 [H2 H3]]]; [lia|]. destruct i as [c l]. cbn [curr it] in *. destruct l as [|e l]; [congruence|].
    unfold deref, next. cbn [it bind curr]. rewrite app_length in H3. cbn [length] in H3. destruct l as [|e' l].
    - destruct (find_next_spec (S (length (entries s))) s (S c) []) as [r [Er [B C]]]; try lia. rewrite Er. cbn [bind].
      rewrite IHf.
      + destruct C as [[C1 C2]|[C1 [C2 C3]]].
        * rewrite C1, Nat.eqb_refl. cbn [bind app]. rewrite C2. reflexivity.
        * destruct (Nat.eqb_spec (curr r) (length (entries s))); [lia|]. cbn [bind app]. rewrite C3. reflexivity.
      + destruct C as [[C1 C2]|[C1 [C2 C3]]]; [left; split; auto; cbn [length] in H3; lia|]. right. split; auto. split; auto.
        rewrite <- C3. cbn [length] in H3. lia.
    - cbn [bind]. rewrite IHf.
      + cbn [curr it]. destruct (Nat.eqb_spec c (length (entries s))); [lia|]. reflexivity.
      + right. cbn [curr it]. split; auto. split; [discriminate|]. rewrite app_length. cbn [length] in *. lia.
  Qed.
  Lemma elements_spec : forall s, elements s = Ok (concat (entries s)).
  Proof.
    intro s. unfold elements, begin. destruct (find_next_spec (S (length (entries s))) s 0 []) as [r [Er [B C]]]; try lia.
    rewrite Er. cbn [bind]. rewrite skipn_O in C. rewrite for_each_spec.
    - destruct C as [[C1 C2]|[C1 [C2 C3]]].
      + rewrite C1, Nat.eqb_refl, C2. reflexivity.
      + destruct (Nat.eqb_spec (curr r) (length (entries s))); [lia|]. rewrite C3. reflexivity.
    - destruct C as [[C1 C2]|[C1 [C2 C3]]]; [left; split; auto; lia|]. right. rewrite <- C3. auto.
  Qed.
  Lemma elements_rep : forall s l, rep s l -> exists vs, elements s = Ok vs /\ Permutation vs l.
  Proof. intros s l [[P _] _]. exists (concat (entries s)). split; auto. apply elements_spec. Qed.

  (* equality *)
  Lemma all_contained_spec : forall vs s l, rep s l -> all_contained hash eqb s vs = Ok (forallb (fun v => mem eqb v l) vs).
  Proof.
    induction vs; intros s l R; cbn; auto. rewrite (contains_spec s l a R). cbn [bind]. destruct (mem eqb a l); auto. cbn. auto.
  Qed.
  Lemma all_lists_spec : forall ls s l, rep s l -> all_lists hash eqb s ls = Ok (forallb (fun v => mem eqb v l) (concat ls)).
  Proof.
    induction ls; intros s l R; cbn; auto. rewrite (all_contained_spec a s l R). cbn [bind]. rewrite forallb_app.
    destruct (forallb _ a); auto. cbn. auto.
  Qed.
  Lemma mem_eqb : forall x y l, eqb x y = true -> mem eqb x l = mem eqb y l.
  Proof.
    intros x y l H. unfold mem. apply eq_true_iff_eq. rewrite !existsb_exists.
    split; intros [e [I K]]; exists e; split; eauto.
  Qed.
  Lemma eq_spec : forall s l r m, rep s l -> rep r m ->
    exists b, eq hash eqb s r = Ok b /\ (b = true <-> forall x, mem eqb x l = mem eqb x m).
  Proof.
    intros s l r m R Q. unfold eq. pose proof R as [_ [D Z]]. pose proof Q as [[P' _] [D' Z']]. rewrite Z, Z'.
    destruct (N.eqb_spec (N.of_nat (length l)) (N.of_nat (length m))); cbn [negb].
    - rewrite (all_lists_spec _ s l R). eexists. split; [reflexivity|].
      rewrite forallb_forall. split.
      + intros H x. apply eq_true_iff_eq. split.
        * intro M. unfold mem in M. apply existsb_exists in M. destruct M as [y [I K]].
          rewrite <- (mem_eqb y x) by auto. unfold mem. eapply (distinct_incl_eq eqb sym_ trans_ l m); eauto; [lia|].
          intros z J. apply H. eapply Permutation_in; [symmetry; exact P'|]. auto.
        * intro M. unfold mem in M. apply existsb_exists in M. destruct M as [y [I K]].
          rewrite <- (mem_eqb y x) by auto. apply H. eapply Permutation_in; [symmetry; exact P'|]. auto.
      + intros H x I. rewrite H. unfold mem. apply existsb_exists. exists x. split; [|apply refl_].
        eapply Permutation_in; eauto.
    - exists false. split; auto. split; [discriminate|]. intro H. exfalso. apply n.
      assert (IN : forall x l, In x l -> mem eqb x l = true) by (intros; unfold mem; apply existsb_exists; eauto).
      assert (length l <= length m)%nat by (apply (distinct_incl_length eqb sym_ trans_ m l); auto; intros; fold (mem eqb x m); rewrite <- H; auto).
      assert (length m <= length l)%nat by (apply (distinct_incl_length eqb sym_ trans_ l m); auto; intros; fold (mem eqb x l); rewrite H; auto).
      lia.
  Qed.

  Lemma add_own : forall s l i k b v, rep s l -> N.of_nat (length l) < 2 ^ 62 ->
    nth_error (entries s) i = Some b -> nth_error b k = Some v ->
    add hash eqb s (Own i k) = if nbuckets s <=? ssize s then UB else Ok (s, false).
  Proof.
    intros s l i k b v R B Ei Ek. unfold add. pose proof R as [O [D Z]]. destruct (N.leb_spec (nbuckets s) (ssize s)).
    - destruct (reserve_spec s l (if ssize s =? 0 then 4 else wmul 64 (ssize s) 2) R) as [s1 [E1 _]].
      { assert (B2 : 2 ^ 62 * 2 < 2 ^ 64) by reflexivity.
        destruct (N.eqb_spec (ssize s) 0); [lia|]. unfold wmul. rewrite wrap_small by lia. lia. }
      rewrite E1. reflexivity.
    - cbn [eval]. rewrite (proj2 (aget_Ok _ _ _) Ei). cbn [bind]. rewrite (proj2 (aget_Ok _ _ _) Ek). cbn [bind].
      assert (NE : (0 < length (entries s))%nat) by (unfold nbuckets in *; lia).
      rewrite get_location_Ok by auto. cbn [bind]. rewrite Nat2N.id.
      destruct (bucket_get (entries s) v NE) as [bk E]. rewrite (proj2 (aget_Ok _ _ _) E). cbn [bind].
      rewrite (search _ _ _ _ O E).
      assert (M : mem eqb v l = true).
      { destruct O as [P _]. unfold mem. apply existsb_exists. exists v. split; [|apply refl_].
        eapply Permutation_in; [exact P|]. apply In_concat_nth. exists i, b. split; auto. eapply nth_error_In; eauto. }
      rewrite M. reflexivity.
  Qed.
  Lemma entries_in : forall s l v, rep s l -> In v l -> exists i b k, nth_error (entries s) i = Some b /\ nth_error b k = Some v.
  Proof.
    intros s l v [[P _] _] I. symmetry in P. apply (Permutation_in _ P) in I. apply In_concat_nth in I.
    destruct I as [i [b [Ei J]]]. apply In_nth_error in J. destruct J as [k Ek]. eauto.
  Qed.
End P.

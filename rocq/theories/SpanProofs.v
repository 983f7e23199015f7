(* Proofs about spans. *)
From Coq Require Import NArith ZArith List Lia Bool Arith.
Import ListNotations.
From Verif Require Import Base SpanModel SpanSpec.
Open Scope N_scope.

Lemma u64_lt : forall z, u64 z < 2 ^ 64.
Proof.
  intro z. unfold u64. change (2 ^ 64) with (Z.to_N (2 ^ 64)).
  pose proof (Z.mod_pos_bound z (2 ^ 64) eq_refl). apply Z2N.inj_lt; lia.
Qed.
Lemma u64_Z : forall z, Z.of_N (u64 z) = (z mod 2 ^ 64)%Z.
Proof. intro z. unfold u64. apply Z2N.id. apply Z.mod_pos_bound. reflexivity. Qed.

Lemma place_Z : forall b st j, Z.of_N (place b st j) = ((Z.of_N b + st * Z.of_nat j) mod 2 ^ 64)%Z.
Proof. intros. unfold place. apply Z2N.id. apply Z.mod_pos_bound. reflexivity. Qed.

Lemma wrap_Z : forall x, Z.of_N (wrap 64 x) = (Z.of_N x mod 2 ^ 64)%Z.
Proof. intro x. unfold wrap. rewrite N2Z.inj_mod. reflexivity. Qed.

Lemma at_place : forall s i, at_ s i = place (sdata s) (stride s) (N.to_nat i).
Proof.
  intros s i. apply N2Z.inj. rewrite place_Z. unfold at_, wadd, wmul.
  rewrite wrap_Z, N2Z.inj_add, wrap_Z, N2Z.inj_mul, u64_Z.
  rewrite Zplus_mod_idemp_r. rewrite <- Zplus_mod_idemp_r. rewrite Zmult_mod_idemp_l.
  rewrite Zplus_mod_idemp_r. rewrite N_nat_Z. reflexivity.
Qed.

Lemma place_shift : forall b st k j, place (place b st k) st j = place b st (k + j).
Proof.
  intros. apply N2Z.inj. rewrite !place_Z, Zplus_mod_idemp_l. apply (f_equal (fun z => z mod 2 ^ 64)%Z). rewrite ?Nat2Z.inj_add, ?Nat2Z.inj_sub by lia. ring.
Qed.
Lemma place_back : forall b st k j, (j <= k)%nat -> place (place b st k) (- st) j = place b st (k - j).
Proof.
  intros. apply N2Z.inj. rewrite !place_Z, Zplus_mod_idemp_l. apply (f_equal (fun z => z mod 2 ^ 64)%Z). rewrite ?Nat2Z.inj_add, ?Nat2Z.inj_sub by lia. ring.
Qed.
Lemma place_step : forall b st, wadd 64 b (u64 st) = place b st 1.
Proof.
  intros. apply N2Z.inj. rewrite place_Z. unfold wadd. rewrite wrap_Z, N2Z.inj_add, u64_Z.
  rewrite Zplus_mod_idemp_r. apply (f_equal (fun z => z mod 2 ^ 64)%Z). lia.
Qed.
Lemma place_member : forall b st j d, place (wadd 64 b d) st j = wadd 64 (place b st j) d.
Proof.
  intros. apply N2Z.inj. unfold wadd. rewrite place_Z, !wrap_Z, !N2Z.inj_add, place_Z.
  rewrite !Zplus_mod_idemp_l. apply (f_equal (fun z => z mod 2 ^ 64)%Z). rewrite ?Nat2Z.inj_add, ?Nat2Z.inj_sub by lia. ring.
Qed.

Section P.
  Context {A : Type}.
  Variable mem : N -> option A.

  Lemma covers_len : forall s (l : list A), covers mem s l -> ssize s = N.of_nat (length l).
  Proof. intros s l [H _]. exact H. Qed.
  Lemma covers_at : forall s (l : list A) j x, covers mem s l -> nth_error l j = Some x ->
    load mem (place (sdata s) (stride s) j) = Ok x.
  Proof. intros s l j x [_ H] E. unfold load. rewrite (H _ _ E). reflexivity. Qed.

  Lemma nth_firstn_some : forall (l : list A) n j x,
    nth_error (firstn n l) j = Some x -> nth_error l j = Some x /\ (j < n)%nat.
  Proof.
    induction l; intros [|n] [|j] x H; cbn in *; try discriminate; try (split; [assumption|lia]).
    apply IHl in H. split; [tauto|lia].
  Qed.
  Lemma nth_skipn_eq : forall (l : list A) n j, nth_error (skipn n l) j = nth_error l (n + j)%nat.
  Proof. induction l; intros [|n] j; cbn; auto. destruct j; reflexivity. Qed.

  Lemma covers_first : forall s l n, covers mem s l -> (n <= length l)%nat ->
    covers mem (mkss (sdata s) (N.of_nat n) (stride s)) (firstn n l).
  Proof.
    intros s l n [Hs H] Hn. split; cbn.
    - rewrite firstn_length. lia.
    - intros j x E. apply nth_firstn_some in E. apply H. tauto.
  Qed.
  Lemma covers_skip : forall s l n, covers mem s l -> (n <= length l)%nat ->
    covers mem (mkss (place (sdata s) (stride s) n) (N.of_nat (length l - n)) (stride s)) (skipn n l).
  Proof.
    intros s l n [Hs H] Hn. split; cbn.
    - rewrite skipn_length. lia.
    - intros j x E. rewrite nth_skipn_eq in E. rewrite place_shift. apply H. exact E.
  Qed.
  Lemma nth_rev_some : forall (l : list A) j x, nth_error (rev l) j = Some x ->
    (j < length l)%nat /\ nth_error l (length l - 1 - j) = Some x.
  Proof.
    intros l j x E.
    assert (j < length l)%nat as Hj.
    { rewrite <- rev_length. apply nth_error_Some. congruence. }
    split; [exact Hj|].
    rewrite (nth_error_nth' _ x) by lia.
    apply (nth_error_nth _ _ x) in E. rewrite rev_nth in E by lia.
    replace (length l - 1 - j)%nat with (length l - S j)%nat by lia. congruence.
  Qed.
  Lemma covers_rev : forall s l, covers mem s l -> N.of_nat (length l) < 2 ^ 64 ->
    covers mem (mkss (at_ s (wsub 64 (ssize s) 1)) (ssize s) (- stride s)) (rev l).
  Proof.
    intros s l [Hs H] Hlt. split; cbn -[wsub].
    - rewrite rev_length. exact Hs.
    - intros j x E. apply nth_rev_some in E. destruct E as [Hj E].
      rewrite at_place, Hs, wsub_ge by lia.
      rewrite place_back by lia.
      replace (N.to_nat (N.of_nat (length l) - 1) - j)%nat with (length l - 1 - j)%nat by lia.
      apply H. exact E.
  Qed.

  Lemma walk_covers : forall l fuel ptr st,
    (length l < fuel)%nat -> mem 0 = None ->
    (forall j x, nth_error l j = Some x -> mem (place ptr st j) = Some x) -> ptr < 2 ^ 64 ->
    swalk mem fuel ptr (N.of_nat (length l)) st = Ok l.
  Proof.
    induction l as [|x l IH]; intros fuel ptr st Hf H0 H Hp; destruct fuel; try (cbn in Hf; lia).
    - reflexivity.
    - assert (mem ptr = Some x) as Hx.
      { specialize (H 0%nat x eq_refl).
        replace (place ptr st 0) with ptr in H; [exact H|].
        apply N2Z.inj. rewrite place_Z. rewrite Z.mod_small; lia. }
      cbn [swalk]. replace (0 <? N.of_nat (length (x :: l))) with true
        by (symmetry; apply N.ltb_lt; cbn [length]; lia).
      replace (ptr =? 0) with false by (symmetry; apply N.eqb_neq; intro; subst; congruence).
      cbn [negb contract bind]. unfold load. rewrite Hx. cbn [bind].
      replace (N.of_nat (length (x :: l)) - 1) with (N.of_nat (length l)) by (cbn [length]; lia).
      rewrite IH; auto.
      + cbn in Hf. lia.
      + intros j y E. rewrite place_step, place_shift. apply H. exact E.
      + apply wrap_lt.
  Qed.

  Lemma sslice_ok : forall s (l : list A) o,
    covers mem s l -> N.of_nat (length l) < 2 ^ 64 -> (Z.abs (stride s) < 2 ^ 63)%Z -> no_wrap o ->
    match select l o with
    | Some l' => exists s', sslice s o = Ok s' /\ covers mem s' l' /\ (Z.abs (stride s') < 2 ^ 63)%Z
                            /\ (length l' <= length l)%nat
    | None => sslice s o = Contract
    end.
  Proof.
    intros s l o C Hl Hst Hw. pose proof (covers_len _ _ C) as Hs.
    destruct o as [n|n|b k|b|]; cbn [select sslice].
    - unfold sfirst. rewrite Hs. destruct (N.leb_spec n (N.of_nat (length l))); [|reflexivity].
      cbn [contract bind]. eexists. split; [reflexivity|]. cbn [stride]. split; [|split; [assumption|]].
      + rewrite <- (N2Nat.id n) at 1. apply covers_first; [assumption|lia].
      + rewrite firstn_length. lia.
    - unfold slast. rewrite Hs. destruct (N.leb_spec n (N.of_nat (length l))); [|reflexivity].
      cbn [contract bind]. eexists. split; [reflexivity|]. cbn [stride]. split; [|split; [assumption|]].
      + rewrite at_place.
        replace n with (N.of_nat (length l - N.to_nat (N.of_nat (length l) - n))) at 2 by lia.
        apply covers_skip; [assumption|lia].
      + rewrite skipn_length. lia.
    - unfold ssub2. rewrite Hs. unfold no_wrap in Hw. unfold wadd. rewrite wrap_small by exact Hw.
      destruct (N.leb_spec (b + k) (N.of_nat (length l))).
      + replace (b <=? N.of_nat (length l)) with true by (symmetry; apply N.leb_le; lia).
        cbn [andb contract bind]. eexists. split; [reflexivity|]. cbn [stride].
        split; [|split; [assumption|]].
        * assert (covers mem (mkss (at_ s b) (N.of_nat (length l - N.to_nat b)) (stride s)) (skipn (N.to_nat b) l)) as C1.
          { rewrite at_place. apply covers_skip; [assumption|lia]. }
          apply (covers_first _ _ (N.to_nat k)) in C1; [|rewrite skipn_length; lia].
          cbn [sdata stride] in C1. rewrite N2Nat.id in C1. exact C1.
        * rewrite firstn_length, skipn_length. lia.
      + destruct (b <=? N.of_nat (length l)); reflexivity.
    - unfold ssub1. rewrite Hs. destruct (N.leb_spec b (N.of_nat (length l))); [|reflexivity].
      cbn [contract bind]. eexists. split; [reflexivity|]. cbn [stride]. split; [|split; [assumption|]].
      + rewrite at_place.
        replace (N.of_nat (length l) - b) with (N.of_nat (length l - N.to_nat b)) by lia.
        apply covers_skip; [assumption|lia].
      + rewrite skipn_length. lia.
    - unfold sreversed. replace (stride s =? - 2 ^ 63)%Z with false
        by (symmetry; apply Z.eqb_neq; intro E; rewrite E in Hst; cbn in Hst; lia).
      cbn [negb defined bind]. eexists. split; [reflexivity|].
      split; [apply covers_rev; assumption|]. cbn [stride]. split; [lia|].
      rewrite rev_length. lia.
  Qed.

  Lemma sslices_ok : forall os s (l : list A),
    covers mem s l -> N.of_nat (length l) < 2 ^ 64 -> (Z.abs (stride s) < 2 ^ 63)%Z -> Forall no_wrap os ->
    match selects l os with
    | Some l' => exists s', sslices s os = Ok s' /\ covers mem s' l' /\ (length l' <= length l)%nat
    | None => sslices s os = Contract
    end.
  Proof.
    induction os as [|o os IH]; intros s l C Hl Hst Hw; cbn [selects sslices].
    - eexists. split; [reflexivity|]. split; [assumption|lia].
    - inversion Hw as [|? ? W1 W2]; subst.
      pose proof (sslice_ok s l o C Hl Hst W1) as S1.
      destruct (select l o) as [l1|].
      + destruct S1 as (s1 & E1 & C1 & St1 & L1). rewrite E1. cbn [bind].
        specialize (IH s1 l1 C1 ltac:(lia) St1 W2).
        destruct (selects l1 os) as [l2|]; [|exact IH].
        destruct IH as (s2 & E2 & C2 & L2). exists s2. split; [exact E2|]. split; [exact C2|lia].
      + rewrite S1. reflexivity.
  Qed.
End P.

(* ---- contiguous spans ---- *)
Section C.
  Context {A : Type}.

  Lemma views_len : forall (m : list A) s l, views m s l -> N.of_nat (length l) = size s.
  Proof. intros m s l [H ->]. rewrite firstn_length, skipn_length. lia. Qed.

  Lemma views_nth : forall (m : list A) s l i x, views m s l -> nth_error l i = Some x ->
    rd m (off s + N.of_nat i) = Ok x.
  Proof.
    intros m s l i x [H ->] E. apply nth_firstn_some in E. destruct E as [E _].
    rewrite nth_skipn_eq in E. unfold rd. apply aget_Ok.
    replace (N.to_nat (off s + N.of_nat i)) with (N.to_nat (off s) + i)%nat by lia. exact E.
  Qed.

  Lemma firstn_skipn_comm2 : forall (l : list A) a n k, (k + a <= n)%nat ->
    firstn k (skipn a (firstn n l)) = firstn k (skipn a l).
  Proof.
    intros l a n k H. rewrite skipn_firstn_comm, firstn_firstn. f_equal. lia.
  Qed.

  Lemma views_sub : forall (m : list A) s l b k, views m s l -> b + k <= size s ->
    views m (mkspan (off s + b) k) (firstn (N.to_nat k) (skipn (N.to_nat b) l)).
  Proof.
    intros m s l b k [H ->] Hb. split; cbn [off size]; [lia|].
    rewrite firstn_skipn_comm2 by lia. rewrite skipn_skipn. f_equal. f_equal. lia.
  Qed.

  Lemma cslice_ok : forall (m : list A) s l o, views m s l -> no_wrap o -> o <> SRev ->
    match select l o with
    | Some l' => exists s', cslice s o = Ok s' /\ views m s' l'
    | None => cslice s o = Contract
    end.
  Proof.
    intros m s l o V Hw Hr. pose proof (views_len _ _ _ V) as Hl.
    destruct o as [n|n|b k|b|]; cbn [select cslice]; [| | | |congruence]; rewrite Hl.
    - unfold first. destruct (N.leb_spec n (size s)); [|reflexivity].
      cbn [contract bind]. eexists. split; [reflexivity|].
      pose proof (views_sub m s l 0 n V ltac:(lia)) as V1. cbn [skipn N.to_nat] in V1.
      rewrite N.add_0_r in V1. exact V1.
    - unfold last. destruct (N.leb_spec n (size s)); [|reflexivity].
      cbn [contract bind]. eexists. split; [reflexivity|].
      pose proof (views_sub m s l (size s - n) n V ltac:(lia)) as V1.
      rewrite firstn_all2 in V1 by (rewrite skipn_length; lia). exact V1.
    - unfold subspan2, wadd, no_wrap in *. rewrite wrap_small by exact Hw.
      destruct (N.leb_spec (b + k) (size s)).
      + replace (b <=? size s) with true by (symmetry; apply N.leb_le; lia).
        cbn [andb contract bind]. eexists. split; [reflexivity|]. apply views_sub; assumption.
      + destruct (b <=? size s); reflexivity.
    - unfold subspan1. destruct (N.leb_spec b (size s)); [|reflexivity].
      cbn [contract bind]. eexists. split; [reflexivity|].
      pose proof (views_sub m s l b (size s - b) V ltac:(lia)) as V1.
      rewrite firstn_all2 in V1 by (rewrite skipn_length; lia). exact V1.
  Qed.

  Lemma cslices_ok : forall os (m : list A) s l, views m s l -> Forall no_wrap os -> ~ In SRev os ->
    match selects l os with
    | Some l' => exists s', cslices s os = Ok s' /\ views m s' l'
    | None => cslices s os = Contract
    end.
  Proof.
    induction os as [|o os IH]; intros m s l V Hw Hr; cbn [selects cslices].
    - eexists. split; [reflexivity|assumption].
    - inversion Hw as [|? ? W1 W2]; subst. cbn [In] in Hr.
      pose proof (cslice_ok m s l o V W1 ltac:(intro; apply Hr; auto)) as S1.
      destruct (select l o) as [l1|].
      + destruct S1 as (s1 & E1 & V1). rewrite E1. cbn [bind]. apply IH; auto.
      + rewrite S1. reflexivity.
  Qed.

  Lemma nth_error_ext : forall (a b : list A), (forall i, nth_error a i = nth_error b i) -> a = b.
  Proof.
    induction a as [|x a IH]; intros [|y b] H; [reflexivity|specialize (H 0%nat); discriminate..|].
    f_equal; [specialize (H 0%nat); cbn in H; congruence|]. apply IH. intro i. apply (H (S i)).
  Qed.
  Lemma skipn_cons : forall (m : list A) i x, nth_error m i = Some x -> skipn i m = x :: skipn (S i) m.
  Proof. induction m; intros [|i] x H; cbn in *; try discriminate; [congruence|]. apply IHm. exact H. Qed.

  Lemma iter_spec : forall n (m : list A) i, (N.to_nat i + n <= length m)%nat ->
    iter n m i = Ok (firstn n (skipn (N.to_nat i) m)).
  Proof.
    induction n; intros m i H; cbn [iter]; [reflexivity|].
    destruct (nth_error m (N.to_nat i)) as [x|] eqn:E; [|apply nth_error_None in E; lia].
    unfold rd, aget. rewrite E. cbn [bind]. rewrite IHn by lia. cbn [bind].
    apply f_equal. replace (N.to_nat (i + 1)) with (S (N.to_nat i)) by lia.
    rewrite (skipn_cons _ _ _ E). reflexivity.
  Qed.

  Lemma contents_spec : forall (m : list A) s l, views m s l -> contents m s = Ok l.
  Proof.
    intros m s l [H ->]. unfold contents. apply iter_spec. lia.
  Qed.

  (* copying *)
  Lemma copy_loop_spec : forall n (m : list A) i j,
    (N.to_nat i + n <= length m)%nat -> (N.to_nat j + n <= length m)%nat ->
    (* forward copying is right unless the target starts strictly inside the source *)
    (N.to_nat i <= N.to_nat j \/ N.to_nat j + n <= N.to_nat i)%nat ->
    copy_loop n m i j =
    Ok (firstn (N.to_nat i) m ++ firstn n (skipn (N.to_nat j) m) ++ skipn (N.to_nat i + n) m).
  Proof.
    induction n; intros m i j Hi Hj Hd; cbn [copy_loop].
    - rewrite Nat.add_0_r. cbn [firstn app]. rewrite firstn_skipn. reflexivity.
    - destruct (nth_error m (N.to_nat j)) as [x|] eqn:E; [|apply nth_error_None in E; lia].
      unfold rd at 1, aget. rewrite E. cbn [bind]. unfold wr at 1.
      rewrite aset_Ok by lia. cbn [bind].
      rewrite IHn; rewrite ?lset_length; try lia.
      apply f_equal.
      apply nth_error_ext. intro k.
      assert (length (firstn (N.to_nat i) m) = N.to_nat i) as L1 by (rewrite firstn_length; lia).
      assert (length (firstn (S n) (skipn (N.to_nat j) m)) = S n) as L2
        by (rewrite firstn_length, skipn_length; lia).
      assert (length (firstn (N.to_nat (i + 1)) (lset m (N.to_nat i) x)) = N.to_nat i + 1)%nat as L3
        by (rewrite firstn_length, lset_length; lia).
      assert (length (firstn n (skipn (N.to_nat (j + 1)) (lset m (N.to_nat i) x))) = n) as L4
        by (rewrite firstn_length, skipn_length, lset_length; lia).
      destruct (Nat.lt_ge_cases k (N.to_nat i)) as [K1|K1].
      + rewrite nth_error_app1 by lia. rewrite nth_error_app1 by lia.
        rewrite !nth_error_firstn_lt by lia. rewrite lset_nth_neq by lia. reflexivity.
      + rewrite (nth_error_app2 (firstn (N.to_nat i) m)) by lia. rewrite L1.
        destruct (Nat.eq_dec k (N.to_nat i)) as [->|K2].
        * rewrite nth_error_app1 by lia. rewrite nth_error_firstn_lt by lia.
          rewrite lset_nth_eq by lia. rewrite Nat.sub_diag.
          rewrite nth_error_app1 by lia. rewrite nth_error_firstn_lt by lia.
          rewrite nth_skipn_eq. rewrite Nat.add_0_r. auto.
        * rewrite nth_error_app2 by lia. rewrite L3.
          destruct (Nat.lt_ge_cases k (N.to_nat i + S n)) as [K3|K3].
          -- rewrite nth_error_app1 by lia. rewrite nth_error_app1 by lia.
             rewrite !nth_error_firstn_lt by lia. rewrite !nth_skipn_eq.
             rewrite lset_nth_neq by lia. f_equal. lia.
          -- rewrite nth_error_app2 by lia. rewrite L4. rewrite nth_error_app2 by lia. rewrite L2.
             rewrite !nth_skipn_eq. rewrite lset_nth_neq by lia. f_equal. lia.
  Qed.
End C.

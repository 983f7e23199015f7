(* Proofs about atomic_linear_allocator. *)
From Coq Require Import NArith ZArith List Lia Bool Arith.
Import ListNotations.
From Verif Require Import Base BitsModel BitsSpec BitsProofs AllocModel AllocSpec AllocProofs ALinModel ALinSpec.
Open Scope N_scope.

Section P.
  Variables b len : N.
  Hypothesis Hb : 0 < b.
  Hypothesis Hlen : b + len < 2 ^ 64.

  (* the part of the buffer reserved by a call *)
  Definition region (c : call) : block := mkb (b + cstart c) (csize c + (calign c - 1) + 8) 1.

  Definition call_ok (st : state) (c : call) : Prop :=
    pow2 (calign c) /\ addr (region c) + size (region c) <= b + off st /\
    match cres c with
    | None => True
    | Some p => (calign c | p) /\ addr (region c) + 8 <= p /\ p + csize c <= addr (region c) + size (region c)
                /\ p + csize c <= b + len /\ load (mem st) (p - 8) 8 = csize c
    end.

  Definition inv (st : state) : Prop :=
    begin_ st = b /\ end_ st = b + len /\ b + off st < 2 ^ 64 /\
    Forall (call_ok st) (calls st) /\ all_apart (map region (calls st)).

  Lemma max1_pow2 : forall a, a = 0 \/ pow2 a -> pow2 (N.max a 1).
  Proof. intros a [-> | H]; [exact pow2_one|]. destruct (pow2_pos' _ H). rewrite N.max_l by lia. auto. Qed.

  Lemma apart_sym : forall x y, apart x y -> apart y x.
  Proof. intros x y H z (H1 & H2). apply (H z). auto. Qed.

  Lemma all_apart_nth : forall l i j x y, all_apart l -> nth_error l i = Some x -> nth_error l j = Some y -> i <> j ->
    apart x y.
  Proof.
    induction l as [|h t IH]; intros i j x y H Hi Hj Hne; [destruct i; discriminate|].
    destruct H as (H1 & H2). rewrite Forall_forall in H1. destruct i, j; cbn in *; try congruence.
    - injection Hi as <-. apply H1. eapply nth_error_In; eauto.
    - injection Hj as <-. apply apart_sym. apply H1. eapply nth_error_In; eauto.
    - eapply IH; eauto.
  Qed.

  Lemma map_lset_same : forall (l : list call) k c c', nth_error l k = Some c -> region c' = region c ->
    map region (lset l k c') = map region l.
  Proof.
    induction l as [|h t IH]; intros [|k] c c' H E; cbn in *; try discriminate.
    - injection H as ->. f_equal. auto.
    - f_equal. eapply IH; eauto.
  Qed.

  Lemma Forall_lset : forall (P : call -> Prop) l k c, Forall P l -> P c -> Forall P (lset l k c).
  Proof.
    induction l as [|h t IH]; intros [|k] c H Hc; cbn; auto; inversion H; subst; constructor; auto.
  Qed.

  Lemma inv_start : forall st s a st', inv st -> a = 0 \/ pow2 a ->
    b + off st + s + N.max a 1 + 8 < 2 ^ 64 -> start st s a = Ok st' -> inv st'.
  Proof.
    intros st s a st' (B & E & O & F & A) Ha Hw H. unfold start in H. rewrite B in H.
    destruct (N.eqb_spec b 0); [lia|]. cbn [negb contract bind] in H.
    assert (Hp : pow2 (N.max a 1)) by (apply max1_pow2; auto). set (al := N.max a 1) in *.
    destruct (pow2_pos' _ Hp) as (Ha0 & _).
    rewrite wsub_ge in H by lia. unfold wadd in H. rewrite (wrap_small 64 (s + (al - 1))) in H by lia.
    rewrite (wrap_small 64 (s + (al - 1) + 8)) in H by lia.
    rewrite (wrap_small 64 (off st + (s + (al - 1) + 8))) in H by lia.
    match type of H with Ok ?x = _ => assert (st' = x) by congruence end. subst st'.
    unfold inv. cbn [begin_ end_ off calls mem map]. split; [auto|]. split; [auto|]. split; [lia|]. split.
    - constructor.
      + unfold call_ok, region. cbn [calign cres cstart csize addr size off]. split; [auto|]. split; [lia|auto].
      + eapply Forall_impl; [|exact F]. intros c (H1 & H2 & H3). split; [auto|]. cbn [off mem]. split; [lia|auto].
    - split; [|auto]. apply Forall_map. eapply Forall_impl; [|exact F]. intros c (H1 & H2 & H3).
      apply apart_le. unfold region in *. cbn [addr size cstart csize calign] in *. lia.
  Qed.

  (* what completing a call does *)
  Lemma finish_exact : forall st k c p, inv st -> nth_error (calls st) k = Some c -> cres c = None ->
    least_multiple_above (calign c) (b + cstart c + 8) p ->
    finish st k =
      if (p <=? b + len) then
        if (p + csize c <=? b + len) then
          Ok (mkst b (b + len) (off st) (store (mem st) (p - 8) 8 (csize c))
                (lset (calls st) k (mkcall (csize c) (calign c) (cstart c) (Some p))))
        else Contract
      else UB.
  Proof.
    intros st k c p (B & E & O & F & A) Hk Hc Hm.
    assert (Hok : call_ok st c). { rewrite Forall_forall in F. apply F. eapply nth_error_In; eauto. }
    destruct Hok as (Hp & Hr & _). unfold region in Hr. cbn [addr size] in Hr.
    destruct (pow2_pos' _ Hp) as (Ha0 & _).
    pose proof (lma_lt _ _ _ Ha0 Hm) as L. assert (Hge : b + cstart c + 8 <= p) by apply Hm.
    unfold finish, aget. rewrite Hk. cbn [bind]. rewrite Hc, B, E.
    rewrite (wadd_small 64 b) by lia.
    rewrite (wadd_small 64 (b + cstart c) 8) by lia.
    rewrite (align_up_exact _ _ p) by (auto; lia).
    rewrite (wsub_ge 64 p 8) by lia.
    destruct (N.leb_spec b (p - 8)); [|lia].
    replace (p - 8 + 8) with p by lia.
    destruct (N.leb_spec p (b + len)); [|reflexivity]. cbn [andb defined bind].
    rewrite wsub_ge by lia. destruct (N.ltb_spec (p - (b + cstart c + 8)) (calign c)); [|lia].
    cbn [contract bind]. rewrite wadd_small by lia. destruct (p + csize c <=? b + len); reflexivity.
  Qed.

  Lemma load_store_in : forall m p s, s < 2 ^ 64 -> 8 <= p -> p < 2 ^ 64 -> load (store m (p - 8) 8 s) (p - 8) 8 = s.
  Proof. intros. apply load_store; [lia|]. change (256 ^ N.of_nat 8) with (2 ^ 64). auto. Qed.

  Lemma inv_finish : forall st k st', inv st -> finish st k = Ok st' -> inv st'.
  Proof.
    intros st k st' I H. pose proof I as (B & E & O & F & A).
    assert (exists c, nth_error (calls st) k = Some c /\ cres c = None) as (c & Hk & Hc).
    { unfold finish, aget in H. destruct (nth_error (calls st) k) as [c|]; [|discriminate]. exists c. split; [auto|].
      cbn [bind] in H. destruct (cres c); [discriminate|auto]. }
    assert (Hok : call_ok st c). { rewrite Forall_forall in F. apply F. eapply nth_error_In; eauto. }
    destruct Hok as (Hp & Hr & _). pose proof Hr as Hr0. unfold region in Hr0. cbn [addr size] in Hr0.
    destruct (pow2_pos' _ Hp) as (Ha0 & _).
    destruct (lma_exists (calign c) (b + cstart c + 8) Ha0) as (p & Hm).
    pose proof (lma_lt _ _ _ Ha0 Hm) as L. assert (Hge : b + cstart c + 8 <= p) by apply Hm.
    rewrite (finish_exact st k c p I Hk Hc Hm) in H.
    destruct (N.leb_spec p (b + len)); [|discriminate].
    destruct (N.leb_spec (p + csize c) (b + len)); [|discriminate].
    match type of H with Ok ?x = _ => assert (st' = x) by congruence end. subst st'. clear H.
    unfold inv. cbn [begin_ end_ off calls mem].
    split; [auto|]. split; [auto|]. split; [auto|]. split.
    - rewrite Forall_forall in F. apply Forall_forall. intros d Hd. apply In_nth_error in Hd. destruct Hd as (j & Hj).
      destruct (Nat.eq_dec j k) as [->|Hne].
      + rewrite lset_nth_eq in Hj by (apply nth_error_Some; congruence). injection Hj as <-.
        unfold call_ok, region. cbn [calign cres cstart csize addr size off mem].
        split; [auto|]. split; [lia|]. split; [apply Hm|]. split; [lia|]. split; [lia|]. split; [lia|].
        apply load_store_in; lia.
      + rewrite lset_nth_neq in Hj by auto.
        destruct (F d (nth_error_In _ _ Hj)) as (D1 & D2 & D3). split; [auto|]. split; [auto|].
        destruct (cres d) as [q|]; [|auto]. destruct D3 as (D3 & D4 & D5 & D6 & D7).
        split; [auto|]. split; [auto|]. split; [auto|]. split; [auto|]. cbn [mem].
        unfold region in D2, D4, D5. cbn [addr size] in D2, D4, D5.
        rewrite <- D7. apply load_ext; [lia|]. intros x Hx.
        assert (Ap : apart (region c) (region d)).
        { eapply (all_apart_nth _ k j _ _ A); [apply map_nth_error; eauto|apply map_nth_error; eauto|auto]. }
        specialize (Ap x). unfold holds, region in Ap. cbn [addr size] in Ap.
        apply store_other; lia.
    - erewrite map_lset_same; eauto.
  Qed.

  Lemma inv_exec : forall st, exec b len st -> inv st.
  Proof.
    induction 1.
    - unfold inv, init. cbn [begin_ end_ off calls mem map]. rewrite wadd_small by auto.
      split; [auto|]. split; [auto|]. split; [lia|]. split; [constructor|exact I].
    - eapply inv_start; eauto.
    - eapply inv_finish; eauto.
    - destruct IHexec as (B & E & O & F & A). unfold inv. cbn [begin_ end_ off calls mem].
      split; [auto|]. split; [auto|]. split; [auto|]. split; [|auto].
      destruct H0 as (c & p & Hk & Hc & ->). rewrite Forall_forall in F.
      apply Forall_forall. intros d Hd. destruct (F d Hd) as (D1 & D2 & D3).
      split; [auto|]. split; [auto|]. destruct (cres d) as [q|] eqn:Hq; [|auto].
      destruct D3 as (D3 & D4 & D5 & D6 & D7).
      split; [auto|]. split; [auto|]. split; [auto|]. split; [auto|]. cbn [mem].
      unfold region in D2, D4, D5. cbn [addr size] in D2, D4, D5.
      rewrite <- D7. apply load_ext; [lia|]. intros y Hy. unfold upd. destruct (N.eqb_spec y x) as [->|]; [|reflexivity]. exfalso.
      unfold holds in H1. cbn [addr size] in H1. apply In_nth_error in Hd. destruct Hd as (j & Hj).
      destruct (F c (nth_error_In _ _ Hk)) as (C1 & C2 & C3). rewrite Hc in C3. destruct C3 as (C3 & C4 & C5 & C6 & C7).
      unfold region in C4, C5. cbn [addr size] in C4, C5.
      destruct (Nat.eq_dec j k) as [->|Hne].
      + assert (d = c) by congruence. subst d. assert (q = p) by congruence. subst q. lia.
      + assert (Ap : apart (region c) (region d)).
        { eapply (all_apart_nth _ k j _ _ A); [apply map_nth_error; eauto|apply map_nth_error; eauto|auto]. }
        specialize (Ap x). unfold holds, region in Ap. cbn [addr size] in Ap. lia.
    - destruct IHexec as (B & E & O & F & A). unfold inv, reset. cbn [begin_ end_ off calls mem map].
      split; [auto|]. split; [auto|]. split; [lia|]. split; [constructor|exact I].
  Qed.
End P.

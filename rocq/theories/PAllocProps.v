(* Theorems about cc::alloc and cc::free (C67, C94). *)
From Coq Require Import NArith List Bool Arith Lia Permutation.
From Verif Require Import Base PAllocModel PAllocSpec PAllocProofs.
Import ListNotations.

Section P.
  Variables (bs cls : nat -> nat).
  Hypothesis bs_pos : forall k, 0 < bs k.

  Lemma step_inv : forall w fss o w', inv bs cls w fss -> step bs cls w o = Ok w' -> exists fss', inv bs cls w' fss'.
  Proof.
    intros w fss [i|i p] w' I H.
    - assert (Hi : exists fs, nth_error fss i = Some fs).
      { cbn [step] in H. unfold aget in H. destruct (nth_error (pools w) i) eqn:E; [|discriminate]. destruct (i_pool _ _ _ _ I i p E) as [fs [F _]]. eauto. }
      destruct Hi as [fs Hi]. destruct (step_alloc bs cls bs_pos w fss i fs I Hi) as [w1 [fss1 [p [S1 [S2 _]]]]]. exists fss1. congruence.
    - cbn [step] in H. unfold aget in H. destruct (nth_error (pools w) i) as [a|] eqn:E; [|discriminate]. destruct (i_pool _ _ _ _ I i a E) as [fs [F _]].
      cbn [bind] in H. destruct (existsb (slot_eqb p) (live w) && (kind_of w p =? cls i)) eqn:C; [|discriminate]. apply andb_true_iff in C. destruct C as [C1 C2].
      apply existsb_exists in C1. destruct C1 as [q [Q1 Q2]]. apply slot_eqb_eq in Q2. subst q. apply Nat.eqb_eq in C2.
      destruct (step_free bs cls bs_pos w fss i fs p I F Q1 C2) as [w1 [fss1 [S1 [S2 _]]]]. exists fss1. cbn [step] in S1. unfold aget in S1. rewrite E in S1. cbn [bind] in S1.
      replace (existsb (slot_eqb p) (live w)) with true in S1 by (symmetry; apply existsb_exists; exists p; split; auto; now apply slot_eqb_eq).
      replace (kind_of w p =? cls i) with true in S1 by (symmetry; now apply Nat.eqb_eq). cbn [andb] in S1. congruence.
  Qed.
  Lemma run_inv : forall os w fss w', inv bs cls w fss -> run bs cls w os = Ok w' -> exists fss', inv bs cls w' fss'.
  Proof.
    induction os as [|o os IH]; intros w fss w' I H; cbn [run] in H; [injection H as <-; eauto|].
    apply bind_Ok in H. destruct H as [w1 [H1 H2]]. destruct (step_inv _ _ _ _ I H1) as [fss1 I1]. eauto.
  Qed.
  Lemma reach_inv : forall n os w, run bs cls (start bs cls n) os = Ok w -> exists fss, inv bs cls w fss.
  Proof. intros n os w H. eapply run_inv; eauto. apply start_inv. Qed.
  Lemma step_pools : forall w o w', step bs cls w o = Ok w' -> length (pools w') = length (pools w).
  Proof.
    intros w [i|i p] w' H; cbn [step] in H.
    - apply bind_Ok in H. destruct H as [a [_ H]]. apply bind_Ok in H. destruct H as [[[p a'] n] [_ H]]. destruct p; [|discriminate]. injection H as <-. apply lset_length.
    - apply bind_Ok in H. destruct H as [a [_ H]]. destruct (_ && _); [|discriminate]. apply bind_Ok in H. destruct H as [a' [_ H]]. injection H as <-. apply lset_length.
  Qed.
  Lemma inv_nodup : forall w fss, inv bs cls w fss -> NoDup (live w).
  Proof.
    intros w fss I. assert (N : NoDup (concat fss ++ live w)) by (eapply Permutation_NoDup; [symmetry; apply (i_all _ _ _ _ I)|apply nodup_slots]).
    clear - N. induction (concat fss); auto. inversion N; auto.
  Qed.
  Lemma inv_range : forall w fss p, inv bs cls w fss -> In p (live w) -> exists k, nth_error (arrays w) (fst p) = Some k /\ snd p < bs k.
  Proof.
    intros w fss p I H. assert (J : In p (all_slots bs 0 (arrays w))) by (eapply Permutation_in; [apply (i_all _ _ _ _ I)|apply in_app_iff; auto]).
    apply in_slots in J. destruct J as [k [A [_ B]]]. rewrite Nat.sub_0_r in A. eauto.
  Qed.
  (* slots of kind k *)
  Lemma count_slots : forall k ks j (f : slot -> nat), (forall p, In p (all_slots bs j ks) -> f p = nth (fst p - j) ks 0) ->
    length (filter (fun p => f p =? k) (all_slots bs j ks)) = bs k * length (filter (fun x => x =? k) ks).
  Proof.
    induction ks as [|k' ks IH]; intros j f H; cbn [all_slots filter]; [cbn; lia|].
    rewrite filter_app, app_length. rewrite IH.
    2:{ intros p Hp. rewrite H by (cbn [all_slots]; apply in_app_iff; auto). apply in_slots in Hp. destruct Hp as [_ [_ [Hp _]]]. replace (fst p - j) with (S (fst p - S j)) by lia. reflexivity. }
    assert (E : forall p, In p (slots_of bs j k') -> f p = k').
    { intros p Hp. rewrite H by (cbn [all_slots]; apply in_app_iff; auto). unfold slots_of in Hp. apply in_map_iff in Hp. destruct Hp as [i [<- _]]. cbn [fst]. now rewrite Nat.sub_diag. }
    assert (L : length (filter (fun p => f p =? k) (slots_of bs j k')) = if k' =? k then bs k' else 0).
    { assert (Ls : length (slots_of bs j k') = bs k') by (unfold slots_of; now rewrite map_length, seq_length). rewrite <- Ls. clear - E. induction (slots_of bs j k') as [|p l IHl]; cbn; [now destruct (k' =? k)|].
      rewrite (E p) by (cbn; auto). specialize (IHl (fun q Hq => E q (or_intror Hq))). destruct (k' =? k); cbn; lia. }
    rewrite L. destruct (k' =? k) eqn:Ek; cbn [length]; [apply Nat.eqb_eq in Ek; subst; lia|lia].
  Qed.
End P.

(* two live objects are never in the same place; each is inside an array of its kind *)
Theorem C67_distinct_partial : forall bs cls, (forall k, 0 < bs k) -> forall n os w, run bs cls (start bs cls n) os = Ok w ->
  NoDup (live w) /\ forall p, In p (live w) -> exists k, nth_error (arrays w) (fst p) = Some k /\ snd p < bs k.
Proof.
  intros bs cls B n os w H. destruct (reach_inv bs cls B n os w H) as [fss I]. split; [eapply inv_nodup; eauto|intros; eapply inv_range; eauto].
Qed.
Theorem C67_disjoint_partial : forall bs cls, (forall k, 0 < bs k) -> forall n os w base size, run bs cls (start bs cls n) os = Ok w -> disjoint_arrays bs base size w ->
  forall p q, In p (live w) -> In q (live w) -> p <> q ->
  (address base size w p + size (obj_kind w p) <= address base size w q \/ address base size w q + size (obj_kind w q) <= address base size w p)%N.
Proof.
  intros bs cls B n os w base size H D p q Hp Hq N. destruct (C67_distinct_partial bs cls B n os w H) as [_ R].
  destruct (R p Hp) as [k [K1 K2]]. destruct (R q Hq) as [l [L1 L2]]. unfold address, obj_kind. rewrite (nth_error_nth _ _ _ K1), (nth_error_nth _ _ _ L1).
  destruct p as [i x], q as [j y]. cbn [fst snd] in *. destruct (Nat.eq_dec i j) as [->|Ni].
  - assert (k = l) by congruence. subst l. assert (x <> y) by congruence. destruct (Nat.lt_ge_cases x y); [left|right]; nia.
  - destruct (D i j k l Ni K1 L1); [left|right]; nia.
Qed.
(* no call ever fails in between: alloc returns a new object of the kind asked for, free of a live object succeeds on any thread *)
Theorem C67_alloc_partial : forall bs cls, (forall k, 0 < bs k) -> forall n os w i, run bs cls (start bs cls n) os = Ok w -> i < length (pools w) ->
  exists w' p, step bs cls w (Alloc i) = Ok w' /\ live w' = p :: live w /\ ~ In p (live w) /\ obj_kind w' p = cls i /\ snd p < bs (cls i) /\
    forall q, In q (live w) -> obj_kind w' q = obj_kind w q.
Proof.
  intros bs cls B n os w i H Hi. destruct (reach_inv bs cls B n os w H) as [fss I]. assert (Hf : exists fs, nth_error fss i = Some fs).
  { destruct (nth_error fss i) eqn:E; eauto. apply nth_error_None in E. rewrite (i_len _ _ _ _ I) in E. lia. }
  destruct Hf as [fs Hf]. destruct (step_alloc bs cls B w fss i fs I Hf) as [w' [fss' [p [S1 [S2 [S3 [S4 [S5 [S6 [S7 S8]]]]]]]]]].
  exists w', p. repeat (split; auto). intros q Hq. unfold obj_kind. destruct (inv_range bs cls w fss q I Hq) as [k [K1 _]].
  assert (fst q < length (arrays w)) by (apply nth_error_Some; congruence). destruct fs; destruct S8 as [_ [-> _]]; auto. now apply app_nth1.
Qed.
Theorem C67_free_partial : forall bs cls, (forall k, 0 < bs k) -> forall n os w i p, run bs cls (start bs cls n) os = Ok w -> i < length (pools w) -> In p (live w) -> obj_kind w p = cls i ->
  exists w', step bs cls w (Free i p) = Ok w' /\ Permutation (p :: live w') (live w) /\ arrays w' = arrays w.
Proof.
  intros bs cls B n os w i p H Hi Hp Hk. destruct (reach_inv bs cls B n os w H) as [fss I]. assert (Hf : exists fs, nth_error fss i = Some fs).
  { destruct (nth_error fss i) eqn:E; eauto. apply nth_error_None in E. rewrite (i_len _ _ _ _ I) in E. lia. }
  destruct Hf as [fs Hf]. destruct (step_free bs cls B w fss i fs p I Hf Hp Hk) as [w' [fss' [S1 [S2 [S3 [S4 _]]]]]]. eauto.
Qed.
(* objects of up to 64 kB are served, larger ones never *)
Theorem C67_sizes : forall size, 0 < size -> 0 < block_size size <-> (N.of_nat size <= 65536)%N.
Proof.
  intros size H. unfold block_size. split; intros G.
  - assert (E : (0 < 65536 / N.of_nat size)%N) by lia. apply N.le_ngt. intros L. rewrite N.div_small in E by exact L. lia.
  - assert (1 <= 65536 / N.of_nat size)%N; [|lia]. apply N.div_le_lower_bound; lia.
Qed.
Theorem C67_large_refuted : forall size, (65536 < N.of_nat size)%N -> forall n, palloc (block_size size) (new_pool (block_size size)) n = Contract.
Proof. intros size H n. unfold block_size. rewrite N.div_small by exact H. reflexivity. Qed.

(* C94: the memory of one thread's pool is bounded by the largest number of its objects alive at any time *)
Theorem C94_bounded_partial : forall bs cls, (forall k, 0 < bs k) -> forall n i M os w, i < n -> (forall j, j < n -> cls j = cls i -> j = i) ->
  always bs cls (fun w => alive (cls i) w <= M) (start bs cls n) os w -> bs (cls i) * arrays_of (cls i) w < M + bs (cls i).
Proof.
  intros bs cls B n i M os w Hi U A.
  assert (G : forall os w0 fss, inv bs cls w0 fss -> length (pools w0) = n -> bs (cls i) * arrays_of (cls i) w0 < M + bs (cls i) ->
    always bs cls (fun w => alive (cls i) w <= M) w0 os w -> bs (cls i) * arrays_of (cls i) w < M + bs (cls i)).
  { clear A. intros os0. induction os0 as [|o os0 IH]; intros w0 fss I L Bd [Al A].
    - now subst w0.
    - destruct A as [w1 [S A]]. destruct (step_inv bs cls B w0 fss o w1 I S) as [fss1 I1]. eapply (IH w1 fss1); auto; [now rewrite (step_pools bs cls _ _ _ S)|].
      assert (Al1 : alive (cls i) w1 <= M) by (destruct os0; apply A).
      destruct o as [j|j p].
      + assert (Hj : j < length fss).
        { rewrite (i_len _ _ _ _ I). cbn [step] in S. unfold aget in S. destruct (nth_error (pools w0) j) eqn:E; [|discriminate]. apply nth_error_Some. congruence. }
        destruct (nth_error fss j) as [fs|] eqn:Hf; [|apply nth_error_None in Hf; lia].
        destruct (step_alloc bs cls B w0 fss j fs I Hf) as [w' [fss' [p [S1 [S2 [S3 [S4 [S5 [S6 [S7 S8]]]]]]]]]]. assert (w' = w1) by congruence. subst w'.
        destruct fs as [|q fs]; destruct S8 as [E1 [E2 _]]; [|unfold arrays_of; rewrite E2; exact Bd].
        unfold arrays_of. rewrite E2, filter_app, app_length. cbn [filter]. destruct (cls j =? cls i) eqn:Ek; [|cbn [length]; unfold arrays_of in Bd; lia].
        apply Nat.eqb_eq in Ek. rewrite (i_len _ _ _ _ I), L in Hj. pose proof (U j Hj Ek) as Uj. subst j. cbn [length].
        (* everything of this kind is alive *)
        assert (Full : bs (cls i) * arrays_of (cls i) w0 <= alive (cls i) w0).
        { unfold arrays_of, alive. rewrite <- (count_slots bs (cls i) (arrays w0) 0 (obj_kind w0)).
          2:{ intros p' _. unfold obj_kind. now rewrite Nat.sub_0_r. }
          apply NoDup_incl_length; [apply NoDup_filter, nodup_slots|]. intros x Hx. apply filter_In in Hx. destruct Hx as [X1 X2]. apply filter_In. split; auto.
          assert (X3 : In x (concat fss ++ live w0)) by (eapply Permutation_in; [symmetry; apply (i_all _ _ _ _ I)|exact X1]).
          apply in_app_iff in X3. destruct X3 as [X3|X3]; auto. exfalso. apply in_concat in X3. destruct X3 as [f [F1 F2]]. apply In_nth_error in F1. destruct F1 as [m F1].
          assert (Hm : m < length (pools w0)) by (rewrite <- (i_len _ _ _ _ I); apply nth_error_Some; congruence).
          destruct (nth_error (pools w0) m) as [a|] eqn:Ea; [|apply nth_error_None in Ea; lia].
          destruct (i_pool _ _ _ _ I m a Ea) as [f' [G1 [_ [_ G4]]]]. assert (f' = f) by congruence. subst f'. apply Nat.eqb_eq in X2. specialize (G4 x F2). unfold kind in G4. unfold obj_kind in X2.
          assert (m = i) by (apply U; [lia|congruence]). subst m. rewrite Hf in F1. injection F1 as <-. destruct F2. }
        assert (Al2 : 1 + alive (cls i) w0 <= alive (cls i) w1).
        { unfold alive. rewrite S3. cbn [filter]. unfold kind in S5. unfold obj_kind at 2. rewrite S5, Nat.eqb_refl. cbn [length]. apply le_n_S.
          apply NoDup_incl_length; [apply NoDup_filter; eapply inv_nodup; eauto|]. intros x Hx. apply filter_In in Hx. destruct Hx as [X1 X2]. apply filter_In. split; auto.
          unfold obj_kind. rewrite E2. destruct (inv_range bs cls w0 fss x I X1) as [k [K1 _]]. rewrite app_nth1 by (apply nth_error_Some; congruence). exact X2. }
        unfold arrays_of in *. lia.
      + assert (arrays w1 = arrays w0); [|unfold arrays_of in *; congruence].
        cbn [step] in S. apply bind_Ok in S. destruct S as [a [_ S]]. destruct (_ && _); [|discriminate]. apply bind_Ok in S. destruct S as [a' [_ S]]. injection S as <-. reflexivity. }
  eapply G; [apply start_inv| | |exact A].
  - cbn. now rewrite map_length, seq_length.
  - unfold arrays_of. cbn. specialize (B (cls i)). lia.
Qed.

(* but not if objects are freed by another thread: the pool of the thread that frees keeps all of it, with a single object
   alive at any time *)
Definition two (_ : nat) := 0.
Lemma always_app : forall bs cls P os1 os2 w w1 w2, always bs cls P w os1 w1 -> always bs cls P w1 os2 w2 -> always bs cls P w (os1 ++ os2) w2.
Proof.
  induction os1 as [|o os1 IH]; intros os2 w w1 w2 [H1 H2] H; cbn [app]; [now subst|].
  destruct H2 as [w' [S A]]. split; auto. exists w'. split; eauto.
Qed.
Lemma drain : forall B fs w fss f1, 0 < B -> inv (fun _ => B) two w fss -> live w = [] -> nth_error fss 0 = Some fs -> nth_error fss 1 = Some f1 ->
  exists os w' fss' f1', always (fun _ => B) two (fun w => length (live w) <= 1) w os w' /\ inv (fun _ => B) two w' fss' /\ live w' = [] /\ nth_error fss' 0 = Some [] /\ nth_error fss' 1 = Some f1' /\ arrays w' = arrays w.
Proof.
  intros B fs. induction fs as [|p fs IH]; intros w fss f1 HB I L H0 H1.
  - exists [], w, fss, f1. repeat (split; auto). rewrite L. cbn. lia.
  - destruct (step_alloc (fun _ => B) two (fun _ => HB) w fss 0 (p :: fs) I H0) as [w1 [fss1 [q [S1 [S2 [S3 [S4 [S5 [S6 [S7 [-> [S8 S9]]]]]]]]]]]].
    assert (Hp : In p (live w1)) by (rewrite S3; cbn; auto).
    destruct (step_free (fun _ => B) two (fun _ => HB) w1 fss1 1 f1 p S2) as [w2 [fss2 [T1 [T2 [T3 [T4 [T5 T6]]]]]]]; [rewrite S7 by lia; exact H1|exact Hp|exact S5|].
    assert (L2 : live w2 = []). { rewrite S3, L in T3. apply Permutation_cons_inv in T3. symmetry in T3. now apply Permutation_nil in T3. }
    destruct (IH w2 fss2 (p :: f1)) as [os [w' [fss' [f1' [A1 [A2 [A3 [A4 [A5 A6]]]]]]]]]; auto; [rewrite T6 by lia; exact S9|].
    exists (Alloc 0 :: Free 1 p :: os), w', fss', f1'. split; [|repeat (split; auto); congruence].
    split; [rewrite L; cbn; lia|]. exists w1. split; auto. split; [rewrite S3, L; cbn; lia|]. exists w2. split; auto.
Qed.
Theorem C94_bounded_refuted : forall B m, 0 < B -> exists os w, always (fun _ => B) two (fun w => length (live w) <= 1) (start (fun _ => B) two 2) os w /\ length (arrays w) = m.
Proof.
  intros B m HB.
  assert (G : exists os w fss f0 f1, always (fun _ => B) two (fun w => length (live w) <= 1) (start (fun _ => B) two 2) os w /\ inv (fun _ => B) two w fss /\ live w = [] /\
    nth_error fss 0 = Some f0 /\ nth_error fss 1 = Some f1 /\ length (arrays w) = m).
  { induction m as [|m [os [w [fss [f0 [f1 [A [I [L [H0 [H1 E]]]]]]]]]]].
    - exists [], (start (fun _ => B) two 2), (repeat [] 2), [], []. split; [split; cbn; auto|]. split; [apply start_inv|]. repeat split.
    - destruct (drain B f0 w fss f1 HB I L H0 H1) as [os2 [w2 [fss2 [f1' [D1 [D2 [D3 [D4 [D5 D6]]]]]]]]].
      destruct (step_alloc (fun _ => B) two (fun _ => HB) w2 fss2 0 [] D2 D4) as [w3 [fss3 [p [S1 [S2 [S3 [S4 [S5 [S6 [S7 [S8 [S9 S10]]]]]]]]]]]].
      assert (Hp : In p (live w3)) by (rewrite S3; cbn; auto).
      destruct (step_free (fun _ => B) two (fun _ => HB) w3 fss3 1 f1' p S2) as [w4 [fss4 [T1 [T2 [T3 [T4 [T5 T6]]]]]]]; [rewrite S7 by lia; exact D5|exact Hp|exact S5|].
      assert (L4 : live w4 = []). { rewrite S3, D3 in T3. apply Permutation_cons_inv in T3. symmetry in T3. now apply Permutation_nil in T3. }
      exists ((os ++ os2) ++ [Alloc 0; Free 1 p]), w4, fss4. eexists _, _. split; [|split; [exact T2|split; [exact L4|split; [rewrite T6 by lia; exact S10|split; [exact T5|]]]]].
      + eapply always_app; [eapply always_app; eauto|]. split; [rewrite D3; cbn; lia|]. exists w3. split; auto. split; [rewrite S3, D3; cbn; lia|]. exists w4. split; auto. split; [rewrite L4; cbn; lia|reflexivity].
      + rewrite T4, S9, app_length, D6, E. cbn. lia. }
  destruct G as [os [w [_ [_ [_ [A [_ [_ [_ [_ E]]]]]]]]]]. eauto.
Qed.

(* two threads, two kinds; objects of thread 0 freed by thread 1 are reused there, last freed first *)
Example C67_ex :
  let cls := fun i => i / 2 in
  match run (fun _ => 2) cls (start (fun _ => 2) cls 4) [Alloc 0; Alloc 0; Alloc 0; Alloc 2; Free 1 (0, 1); Free 0 (1, 0); Free 1 (0, 0); Alloc 1; Alloc 0] with
  | Ok w => live w = [(1, 0); (0, 0); (2, 0)] /\ arrays w = [0; 0; 1]
  | _ => False
  end.
Proof. vm_compute. auto. Qed.
Example C67_misuse : step (fun _ => 2) (fun _ => 0) (start (fun _ => 2) (fun _ => 0) 1) (Free 0 (0, 0)) = UB.
Proof. reflexivity. Qed.

Print Assumptions C67_distinct_partial.
Print Assumptions C67_disjoint_partial.
Print Assumptions C67_alloc_partial.
Print Assumptions C67_free_partial.
Print Assumptions C67_sizes.
Print Assumptions C67_large_refuted.
Print Assumptions C94_bounded_partial.
Print Assumptions C94_bounded_refuted.

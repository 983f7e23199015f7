(* Proofs for BSet. *)
From Coq Require Import NArith ZArith Arith List Bool Lia.
From Verif Require Import Base BitsProofs BSetModel BSetSpec.
Import ListNotations.
Local Open Scope nat_scope.

Lemma testbit_val : forall l i, N.testbit (val l) (N.of_nat i) = nth i l false.
Proof.
  induction l as [|b l IH]; intros i.
  - cbn. destruct i; auto.
  - destruct i as [|i].
    + cbn [val nth]. change (N.of_nat 0) with 0%N. rewrite N.add_comm, N.testbit_0_r. auto.
    + cbn [val nth]. rewrite Nat2N.inj_succ, N.add_comm, N.testbit_succ_r. auto.
Qed.
Lemma val_ext : forall d l, (forall i, N.testbit d (N.of_nat i) = nth i l false) -> d = val l.
Proof.
  intros d l H. apply N.bits_inj. intro i. rewrite <- (N2Nat.id i), H, testbit_val. auto.
Qed.
Lemma testbit_pow2 : forall k i, N.testbit (2 ^ k) i = (k =? i)%N.
Proof. intros. rewrite N.pow2_bits_eqb. auto. Qed.
Lemma testbit_wnot : forall a i, N.testbit (wnot 64 a) i = xorb (N.testbit a i) (i <? 64)%N.
Proof.
  intros. unfold wnot. rewrite N.lxor_spec. f_equal. destruct (N.ltb_spec i 64).
  - rewrite N.ones_spec_low; auto.
  - rewrite N.ones_spec_high; auto.
Qed.
Lemma val_lt : forall l, (val l < 2 ^ N.of_nat (length l))%N.
Proof.
  induction l as [|b l IH]; cbn [val length]; [cbn; lia|]. rewrite Nat2N.inj_succ, N.pow_succ_r'. destruct b; cbn [N.b2n]; lia.
Qed.
Lemma val_inj : forall a b, length a = length b -> val a = val b -> a = b.
Proof.
  intros a b L H. apply nth_ext with (d := false) (d' := false); auto. intros i _. rewrite <- !testbit_val, H. auto.
Qed.
Lemma nth_lset_b : forall l i j (x : bool), i < length l -> nth j (lset l i x) false = if i =? j then x else nth j l false.
Proof.
  intros l i j x L. destruct (Nat.eqb_spec i j) as [<-|N].
  - apply nth_error_nth. apply lset_nth_eq. auto.
  - destruct (nth_error l j) as [y|] eqn:E.
    + rewrite (nth_error_nth _ _ _ E). apply nth_error_nth. rewrite lset_nth_neq; auto.
    + rewrite !nth_overflow; auto; [|rewrite lset_length]; apply nth_error_None in E; auto.
Qed.
Lemma nth_zip : forall f a b i, length a = length b -> f false false = false -> nth i (zip f a b) false = f (nth i a false) (nth i b false).
Proof.
  intros f a b i L F. unfold zip. destruct (Nat.lt_ge_cases i (length a)) as [H|H].
  - rewrite (nth_indep _ false (f (fst (false, false)) (snd (false, false)))) by (rewrite map_length, combine_length; lia).
    rewrite (map_nth (fun p => f (fst p) (snd p))), combine_nth by auto. auto.
  - rewrite !nth_overflow by (rewrite ?map_length, ?combine_length; lia). auto.
Qed.
Lemma nth_repeat_f : forall n i, nth i (repeat false n) false = false.
Proof. induction n; intros [|i]; cbn; auto. Qed.
Lemma nth_firstn_b : forall n (l : list bool) i, nth i (firstn n l) false = if i <? n then nth i l false else false.
Proof.
  induction n as [|n IH]; intros l i; [cbn; destruct i; auto|]. destruct l as [|b l].
  - cbn [firstn]. replace (nth i [] false) with false by (destruct i; auto). destruct (i <? S n); auto.
  - destruct i as [|i]; auto. cbn [firstn nth]. rewrite IH. auto.
Qed.
Lemma nth_skipn_b : forall n (l : list bool) i, nth i (skipn n l) false = nth (n + i) l false.
Proof. induction n as [|n IH]; intros [|b l] i; cbn; auto. destruct i; auto. Qed.
Lemma nth_app_b : forall (a b : list bool) i, nth i (a ++ b) false = if i <? length a then nth i a false else nth (i - length a) b false.
Proof. intros. destruct (Nat.ltb_spec i (length a)); [apply app_nth1|apply app_nth2]; auto. Qed.
Lemma shifted_len : forall lft n b l, length l = n -> length (shifted lft n b l) = n.
Proof. intros [] n b l H; unfold shifted; rewrite firstn_length, app_length, repeat_length; [|rewrite skipn_length]; lia. Qed.

Lemma shl_ok : forall n b l, length l = n -> n < 31 -> (0 <= b < 64)%Z -> shl (N.of_nat n) (val l) b = Ok (val (shifted true n (Z.to_nat b) l)).
Proof.
  intros n b l L N B. unfold shl, data_mask.
  assert (X : (N.of_nat n <? 31)%N = true) by (apply N.ltb_lt; lia). rewrite X. cbn [bind].
  assert (Y : ((0 <=? b)%Z && (b <? 64)%Z)%bool = true) by (apply andb_true_iff; split; lia). rewrite Y. cbn [defined bind]. f_equal.
  apply val_ext. intro i. replace (2 ^ N.of_nat n - 1)%N with (N.ones (N.of_nat n)) by (rewrite N.ones_equiv; lia).
  rewrite N.land_spec, testbit_wrap. cbn [shifted]. rewrite nth_firstn_b, nth_app_b, repeat_length.
  destruct (Nat.ltb_spec i n) as [I|I].
  - rewrite N.ones_spec_low by lia. assert (Z : (N.of_nat i <? 64)%N = true) by (apply N.ltb_lt; lia). rewrite Z. cbn [andb]. rewrite andb_true_r.
    destruct (Nat.ltb_spec i (Z.to_nat b)).
    + rewrite N.shiftl_spec_low by lia. rewrite nth_repeat_f. auto.
    + rewrite N.shiftl_spec_high' by lia. rewrite <- testbit_val. f_equal. lia.
  - rewrite N.ones_spec_high by lia. apply andb_false_r.
Qed.
Lemma shr_ok : forall n b l, length l = n -> (0 <= b < 64)%Z -> shr (val l) b = Ok (val (shifted false n (Z.to_nat b) l)).
Proof.
  intros n b l L B. unfold shr.
  assert (Y : ((0 <=? b)%Z && (b <? 64)%Z)%bool = true) by (apply andb_true_iff; split; lia). rewrite Y. cbn [defined bind]. f_equal.
  apply val_ext. intro i. rewrite N.shiftr_spec'. replace (N.of_nat i + Z.to_N b)%N with (N.of_nat (Z.to_nat b + i)) by lia. rewrite testbit_val.
  cbn [shifted]. rewrite nth_firstn_b, nth_app_b, nth_skipn_b, nth_repeat_f, skipn_length.
  destruct (Nat.ltb_spec i n), (Nat.ltb_spec i (length l - Z.to_nat b)); auto; apply nth_overflow; lia.
Qed.

Definition wf (n : nat) (w : store) : Prop := Forall (fun l => length l = n) w.
Lemma wf_nth : forall n w v a, wf n w -> nth_error w v = Some a -> length a = n.
Proof. intros n w v a W E. eapply Forall_forall in W; [exact W|]. eapply nth_error_In; eauto. Qed.
Lemma wf_lset : forall n w v a, wf n w -> length a = n -> wf n (lset w v a).
Proof. intros n w v a W H. revert v. induction W; intros [|v]; cbn; constructor; auto. apply IHW. Qed.
Lemma wf_add : forall n w a, wf n w -> length a = n -> wf n (w ++ [a]).
Proof. intros. apply Forall_app. split; auto. Qed.
Lemma get_ok : forall w v a, nth_error w v = Some a -> aget (map val w) v = Ok (val a).
Proof. intros w v a E. unfold aget. rewrite nth_error_map, E. auto. Qed.
Lemma map_lset : forall {A B} (f : A -> B) l k x, map f (lset l k x) = lset (map f l) k (f x).
Proof. induction l; intros [|k] x; cbn; auto. f_equal. auto. Qed.

Lemma bin_ok : forall k a b, length a = length b -> bin k (val a) (val b) = val (zip (bool_op k) a b).
Proof.
  intros k a b L. apply val_ext. intro i. rewrite nth_zip by (auto; destruct k; auto). rewrite <- !testbit_val. destruct k; cbn [bin bool_op].
  - apply N.lor_spec.
  - apply N.land_spec.
  - apply N.lxor_spec.
Qed.
Lemma shift_ok : forall lft n b l r, length l = n -> (lft = true -> n < 31) -> ishift lft n b l = Some r ->
  shift lft (N.of_nat n) (val l) b = Ok (val r) /\ length r = n.
Proof.
  intros lft n b l r L S H. unfold ishift in H. destruct ((0 <=? b)%Z && (b <? 64)%Z)%bool eqn:E; try discriminate. injection H as <-.
  apply andb_true_iff in E. split; [|apply shifted_len; auto]. unfold shift. destruct lft; [apply shl_ok|apply shr_ok]; auto; lia.
Qed.
Lemma int_bit_ok : forall i, (i < 31)%N -> int_bit i = Ok (2 ^ i)%N.
Proof. intros i H. unfold int_bit. apply N.ltb_lt in H. rewrite H. auto. Qed.
Lemma land_pow2 : forall a i, (N.land a (2 ^ i) =? 0)%N = negb (N.testbit a i).
Proof.
  intros a i. destruct (N.testbit a i) eqn:E; cbn.
  - apply N.eqb_neq. intro H. assert (X : N.testbit (N.land a (2 ^ i)) i = false) by (rewrite H; apply N.bits_0).
    rewrite N.land_spec, E, testbit_pow2, N.eqb_refl in X. discriminate.
  - apply N.eqb_eq. apply N.bits_inj. intro j. rewrite N.land_spec, testbit_pow2, N.bits_0. destruct (N.eqb_spec i j) as [<-|]; [rewrite E; auto|apply andb_false_r].
Qed.
Lemma is_set_ok : forall n a i, (i < n)%N -> (i < 31)%N -> is_set n a i = Ok (N.testbit a i) /\ is_unset n a i = Ok (negb (N.testbit a i)).
Proof.
  intros n a i H I. unfold is_set, is_unset. apply N.ltb_lt in H. rewrite H, int_bit_ok by auto. cbn [contract bind]. rewrite land_pow2, negb_involutive. auto.
Qed.
Lemma update_ok : forall n a i, length a = n -> n <= 64 -> (i < N.of_nat n)%N -> (i < 31)%N ->
  set_ (N.of_nat n) (val a) i = Ok (val (lset a (N.to_nat i) true)) /\ unset (N.of_nat n) (val a) i = Ok (val (lset a (N.to_nat i) false)) /\
  toggle (N.of_nat n) (val a) i = Ok (val (lset a (N.to_nat i) (negb (nth (N.to_nat i) a false)))).
Proof.
  intros n a i L N64 H I. unfold set_, unset, toggle. rewrite int_bit_ok by auto. assert (X : (i <? N.of_nat n)%N = true) by (apply N.ltb_lt; auto). rewrite X. cbn [contract bind].
  assert (E : forall j, (i =? N.of_nat j)%N = (N.to_nat i =? j)) by (intro j; destruct (N.eqb_spec i (N.of_nat j)), (Nat.eqb_spec (N.to_nat i) j); auto; lia).
  repeat split; f_equal; apply val_ext; intro j; rewrite nth_lset_b by lia.
  - rewrite N.lor_spec, testbit_pow2, E, testbit_val. destruct (N.to_nat i =? j); [apply orb_true_r|apply orb_false_r].
  - rewrite N.land_spec, testbit_wnot, testbit_pow2, E, testbit_val. destruct (Nat.eqb_spec (N.to_nat i) j) as [<-|Y].
    + assert (Z : (N.of_nat (N.to_nat i) <? 64)%N = true) by (apply N.ltb_lt; lia). rewrite Z. apply andb_false_r.
    + rewrite xorb_false_l. destruct (N.ltb_spec (N.of_nat j) 64); [apply andb_true_r|]. rewrite andb_false_r. symmetry. apply nth_overflow. lia.
  - rewrite N.lxor_spec, testbit_pow2, E, testbit_val. destruct (Nat.eqb_spec (N.to_nat i) j) as [<-|Y]; [apply xorb_true_r|apply xorb_false_r].
Qed.
Lemma any_ok : forall a, any (val a) = existsb (fun b => b) a.
Proof.
  induction a as [|b a IH]; auto. cbn [val existsb]. unfold any in *. rewrite <- IH. destruct b; cbn [N.b2n orb].
  - destruct (N.eqb_spec (1 + 2 * val a) 0); auto. lia.
  - destruct (N.eqb_spec (0 + 2 * val a) 0), (N.eqb_spec (val a) 0); auto; lia.
Qed.
Lemma all_ok : forall n a, length a = n -> n < 31 -> all (N.of_nat n) (val a) = Ok (forallb (fun b => b) a).
Proof.
  intros n a L N. unfold all, data_mask. assert (X : (N.of_nat n <? 31)%N = true) by (apply N.ltb_lt; lia). rewrite X. cbn [bind]. f_equal. subst n. clear.
  induction a as [|b a IH]; auto. cbn [val forallb length]. rewrite Nat2N.inj_succ, N.pow_succ_r'. rewrite <- IH. pose proof (val_lt a) as V.
  set (p := (2 ^ N.of_nat (length a))%N) in *. destruct b; cbn [N.b2n andb].
  - destruct (N.eqb_spec (1 + 2 * val a) (2 * p - 1)), (N.eqb_spec (val a) (p - 1)); auto; lia.
  - destruct (N.eqb_spec (0 + 2 * val a) (2 * p - 1)); auto; lia.
Qed.
Lemma zip_len : forall f a b, length a = length b -> length (zip f a b) = length a.
Proof. intros. unfold zip. rewrite map_length, combine_length. lia. Qed.
Lemma at_Some : forall n idx A (f : nat -> A) r, at_ n idx f = Some r -> (idx < N.of_nat n)%N /\ r = f (N.to_nat idx).
Proof. intros n idx A f r H. unfold at_ in H. destruct (N.ltb_spec idx (N.of_nat n)); try discriminate. injection H as <-. auto. Qed.
Lemma eqb_ok : forall n a b, length a = n -> length b = n -> (val a =? val b)%N = list_eqb a b.
Proof.
  intros n a b A B. unfold list_eqb. destruct (N.eqb_spec (val a) (val b)) as [E|E], (list_eq_dec bool_dec a b) as [F|F]; auto.
  - exfalso. apply F. apply val_inj; auto. lia.
  - subst. congruence.
Qed.

Lemma on_ok : forall n w v f g w' r, wf n w -> ion w v g = Some (w', r) ->
  (forall a x, length a = n -> g a = Some x -> f (val a) = Ok (val x) /\ length x = n) ->
  on (map val w) v f = Ok (map val w', r) /\ wf n w'.
Proof.
  intros n w v f g w' r W H F. unfold ion in H. destruct (nth_error w v) as [a|] eqn:E; try discriminate.
  destruct (g a) as [x|] eqn:G; try discriminate. injection H as <- <-. destruct (F a x (wf_nth _ _ _ _ W E) G) as (F1 & F2).
  unfold on. rewrite (get_ok _ _ _ E). cbn [bind]. rewrite F1. cbn [bind]. rewrite map_lset. split; auto. apply wf_lset; auto.
Qed.
Lemma add_ok : forall n w x y w' r, wf n w -> iadd w y = Some (w', r) ->
  (forall a, y = Some a -> x = Ok (val a) /\ length a = n) -> add (map val w) x = Ok (map val w', r) /\ wf n w'.
Proof.
  intros n w x y w' r W H F. destruct y as [a|]; try discriminate. injection H as <- <-. destruct (F a eq_refl) as (-> & L). cbn. rewrite map_app. split; auto. apply wf_add; auto.
Qed.
Lemma step_ok : forall n w o w' r, n <= 64 -> wf n w -> ideal n w o = Some (w', r) -> supported n o = true ->
  step (N.of_nat n) (map val w) o = Ok (map val w', r) /\ wf n w'.
Proof.
  intros n w o w' r N64 W I U.
  destruct o; cbn [ideal step supported] in *.
  - eapply add_ok; eauto. intros a A. injection A as <-. rewrite repeat_length. split; auto. f_equal. apply val_ext. intro i. rewrite nth_repeat_f. apply N.bits_0.
  - eapply add_ok; eauto. intros a A. injection A as <-. rewrite map_length, seq_length. split; auto. f_equal. apply val_ext. intro i.
    apply N.ltb_lt in U. destruct (Nat.lt_ge_cases i n) as [L|L].
    + rewrite (nth_indep _ false (N.testbit d (N.of_nat 0))) by (rewrite map_length, seq_length; auto).
      rewrite (map_nth (fun i => N.testbit d (N.of_nat i))), seq_nth by auto. auto.
    + rewrite nth_overflow by (rewrite map_length, seq_length; auto). apply (word_testbit (N.of_nat n)); auto. lia.
  - discriminate.
  - eapply add_ok; eauto. intros a A. destruct (nth_error w v) as [x|] eqn:E; try discriminate. destruct (nth_error w u) as [y|] eqn:F; try discriminate.
    injection A as <-. rewrite (get_ok _ _ _ E), (get_ok _ _ _ F). cbn [bind]. pose proof (wf_nth _ _ _ _ W E). pose proof (wf_nth _ _ _ _ W F).
    rewrite bin_ok, zip_len by lia. auto.
  - eapply add_ok; eauto. intros a A. destruct (nth_error w v) as [x|] eqn:E; try discriminate. rewrite (get_ok _ _ _ E). cbn [bind].
    eapply shift_ok; eauto; [eapply wf_nth; eauto|]. intros ->. apply Nat.ltb_lt; auto.
  - eapply on_ok; eauto. intros a x A X. cbn beta. destruct (nth_error w u) as [y|] eqn:F; try discriminate. injection X as <-. rewrite (get_ok _ _ _ F). cbn [bind].
    pose proof (wf_nth _ _ _ _ W F). rewrite bin_ok, zip_len by lia. auto.
  - eapply on_ok; eauto. intros a x A X. cbn beta. eapply shift_ok; eauto. intros ->. apply Nat.ltb_lt; auto.
  - eapply on_ok; eauto. intros a x A X. cbn beta. injection X as <-. rewrite repeat_length. split; auto. f_equal. apply val_ext. intro i. rewrite nth_repeat_f. apply N.bits_0.
  - apply N.ltb_lt in U. eapply on_ok; eauto. intros a x A X. cbn beta. apply at_Some in X. destruct X as (X & ->). rewrite lset_length. split; auto. apply update_ok; auto.
  - apply N.ltb_lt in U. eapply on_ok; eauto. intros a x A X. cbn beta. apply at_Some in X. destruct X as (X & ->). rewrite lset_length. split; auto. apply update_ok; auto.
  - apply N.ltb_lt in U. eapply on_ok; eauto. intros a x A X. cbn beta. apply at_Some in X. destruct X as (X & ->). rewrite lset_length. split; auto. apply update_ok; auto.
  - unfold iask in I. destruct (nth_error w v) as [a|] eqn:E; try discriminate. injection I as <- <-. rewrite (get_ok _ _ _ E). auto.
  - unfold iask in I. destruct (nth_error w v) as [a|] eqn:E; try discriminate. injection I as <- <-. rewrite (get_ok _ _ _ E). cbn [bind]. rewrite any_ok. auto.
  - unfold iask in I. destruct (nth_error w v) as [a|] eqn:E; try discriminate. injection I as <- <-. rewrite (get_ok _ _ _ E). cbn [bind].
    rewrite all_ok; [auto|eapply wf_nth; eauto|apply Nat.ltb_lt; auto].
  - apply N.ltb_lt in U. unfold iask in I. destruct (nth_error w v) as [a|] eqn:E; try discriminate. destruct (at_ n idx _) as [x|] eqn:X; try discriminate. injection I as <- <-.
    apply at_Some in X. destruct X as (X & ->). rewrite (get_ok _ _ _ E). cbn [bind]. rewrite (proj1 (is_set_ok _ _ _ X U)). cbn [bind].
    rewrite <- testbit_val, N2Nat.id. auto.
  - apply N.ltb_lt in U. unfold iask in I. destruct (nth_error w v) as [a|] eqn:E; try discriminate. destruct (at_ n idx _) as [x|] eqn:X; try discriminate. injection I as <- <-.
    apply at_Some in X. destruct X as (X & ->). rewrite (get_ok _ _ _ E). cbn [bind]. rewrite (proj2 (is_set_ok _ _ _ X U)). cbn [bind].
    rewrite <- testbit_val, N2Nat.id. auto.
  - apply N.ltb_lt in U. unfold iask in I. destruct (nth_error w v) as [a|] eqn:E; try discriminate. destruct (at_ n idx _) as [x|] eqn:X; try discriminate. injection I as <- <-.
    apply at_Some in X. destruct X as (X & ->). rewrite (get_ok _ _ _ E). cbn [bind]. rewrite (proj1 (is_set_ok _ _ _ X U)). cbn [bind].
    rewrite <- testbit_val, N2Nat.id. auto.
  - unfold iask2 in I. destruct (nth_error w v) as [a|] eqn:E; try discriminate. destruct (nth_error w u) as [b|] eqn:F; try discriminate. injection I as <- <-.
    rewrite (get_ok _ _ _ E), (get_ok _ _ _ F). cbn [bind]. rewrite (eqb_ok n) by (eapply wf_nth; eauto). auto.
  - unfold iask2 in I. destruct (nth_error w v) as [a|] eqn:E; try discriminate. destruct (nth_error w u) as [b|] eqn:F; try discriminate. injection I as <- <-.
    rewrite (get_ok _ _ _ E), (get_ok _ _ _ F). cbn [bind]. rewrite (eqb_ok n) by (eapply wf_nth; eauto). auto.
  - unfold iask in I. destruct (nth_error w v) as [a|] eqn:E; try discriminate. injection I as <- <-. rewrite (get_ok _ _ _ E). auto.
Qed.
Lemma run_ok : forall n os w w' rs, n <= 64 -> wf n w -> ideal_run n w os = Some (w', rs) -> forallb (supported n) os = true ->
  run (N.of_nat n) (map val w) os = Ok (map val w', rs).
Proof.
  intros n. induction os as [|o os IH]; intros w w' rs N64 W I U; cbn [ideal_run run forallb] in *; [injection I as <- <-; auto|].
  apply andb_true_iff in U. destruct U as (U & Us). destruct (ideal n w o) as [[w1 r]|] eqn:E; try discriminate.
  destruct (ideal_run n w1 os) as [[w2 rs2]|] eqn:E2; try discriminate. injection I as <- <-.
  destruct (step_ok _ _ _ _ _ N64 W E U) as (S & W1). rewrite S. cbn [bind fst snd]. rewrite (IH _ _ _ N64 W1 E2 Us). auto.
Qed.

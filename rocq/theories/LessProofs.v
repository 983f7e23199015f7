From Coq Require Import List Bool Arith Lia.
From Verif Require Import LessModel LessSpec.
Import ListNotations.

(* a component that decides order and difference consistently: a != b exactly if one of them is smaller *)
Definition agrees (c : comp) : Prop := forall a b, ne c a b = true <-> lt c a b = true \/ lt c b a = true.
Definition good (c : comp) : Prop := strict_weak (lt c).
(* all but the last component *)
Fixpoint front {A} (l : list A) : list A := match l with [] => [] | x :: r => match r with [] => [] | _ => x :: front r end end.

(* the lexicographic order: equivalent up to some position and smaller there *)
Fixpoint lex (cs : list comp) : tup cs -> tup cs -> Prop :=
  match cs with
  | [] => fun _ _ => False
  | c :: rest => fun l r => lt c (fst l) (fst r) = true \/ incomparable (lt c) (fst l) (fst r) /\ lex rest (snd l) (snd r)
  end.
Fixpoint all_incomparable (cs : list comp) : tup cs -> tup cs -> Prop :=
  match cs with
  | [] => fun _ _ => True
  | c :: rest => fun l r => incomparable (lt c) (fst l) (fst r) /\ all_incomparable rest (snd l) (snd r)
  end.

Lemma agrees_no : forall c a b, agrees c -> ne c a b = false <-> incomparable (lt c) a b.
Proof.
  intros c a b A. unfold incomparable. specialize (A a b). destruct (ne c a b), (lt c a b), (lt c b a); intuition discriminate.
Qed.
Lemma swo_asym : forall T (R : T -> T -> bool), strict_weak R -> forall a b, R a b = true -> R b a = false.
Proof. intros T R [[I Tr] _] a b H. destruct (R b a) eqn:E; auto. rewrite <- (I a). symmetry. eapply Tr; eauto. Qed.

Lemma cascaded_lex : forall cs, (forall c, In c (front cs) -> agrees c) -> forall l r, cascaded_less cs l r = true <-> lex cs l r.
Proof.
  induction cs as [|c cs IH]; intros A l r; cbn [cascaded_less lex]; [split; [discriminate|tauto]|].
  destruct cs as [|d cs]; [cbn; tauto|].
  assert (Ac : agrees c) by (apply A; cbn; auto). specialize (IH (fun x H => A x (or_intror H))).
  destruct (ne c (fst l) (fst r)) eqn:E.
  - split; auto. intros [H|[H _]]; auto. apply agrees_no in H; auto. congruence.
  - apply agrees_no in E; auto. rewrite IH. split; auto. intros [H|[_ H]]; auto. destruct E; congruence.
Qed.

Lemma incomp_lt_l : forall T (R : T -> T -> bool), strict_weak R -> forall a b c, incomparable R a b -> R b c = true -> R a c = true.
Proof.
  intros T R S a b c I H. destruct (R a c) eqn:E; auto. exfalso.
  destruct (R c a) eqn:E2.
  - destruct S as [[_ Tr] _]. pose proof (Tr _ _ _ H E2). destruct I; congruence.
  - assert (incomparable R b c). { destruct S as [_ It]. apply It with a; [destruct I; split; auto|split; auto]. } destruct H0; congruence.
Qed.
Lemma incomp_lt_r : forall T (R : T -> T -> bool), strict_weak R -> forall a b c, R a b = true -> incomparable R b c -> R a c = true.
Proof.
  intros T R S a b c H I. destruct (R a c) eqn:E; auto. exfalso.
  destruct (R c a) eqn:E2.
  - destruct S as [[_ Tr] _]. pose proof (Tr _ _ _ E2 H). destruct I; congruence.
  - assert (incomparable R a b). { destruct S as [_ It]. apply It with c; [split; auto|destruct I; split; auto]. } destruct H0; congruence.
Qed.
Lemma incomp_sym : forall T (R : T -> T -> bool) a b, incomparable R a b -> incomparable R b a.
Proof. intros T R a b []; split; auto. Qed.

Lemma lex_irrefl : forall cs, (forall c, In c cs -> good c) -> forall l, ~ lex cs l l.
Proof.
  induction cs as [|c cs IH]; intros G l; cbn; [tauto|]. intros [H|[_ H]]; [|eapply IH; eauto; intros; apply G; cbn; auto].
  destruct (G c (or_introl eq_refl)) as [[I _] _]. rewrite I in H. discriminate.
Qed.
Lemma lex_trans : forall cs, (forall c, In c cs -> good c) -> forall a b c, lex cs a b -> lex cs b c -> lex cs a c.
Proof.
  induction cs as [|c cs IH]; intros G x y z; cbn; [tauto|].
  assert (S : good c) by (apply G; cbn; auto). intros [H|[H H']] [K|[K K']].
  - left. destruct S as [[_ Tr] _]. eauto.
  - left. eapply incomp_lt_r; eauto.
  - left. eapply incomp_lt_l; eauto.
  - right. split; [destruct S as [_ It]; eauto|]. eapply IH; eauto. intros; apply G; cbn; auto.
Qed.
Lemma lex_incomp : forall cs, (forall c, In c cs -> good c) -> forall a b, ~ lex cs a b /\ ~ lex cs b a <-> all_incomparable cs a b.
Proof.
  induction cs as [|c cs IH]; intros G a b; cbn; [tauto|].
  assert (G' : forall c, In c cs -> good c) by (intros; apply G; cbn; auto). specialize (IH G' (snd a) (snd b)).
  split.
  - intros [H K]. assert (I : incomparable (lt c) (fst a) (fst b)).
    { split; [destruct (lt c (fst a) (fst b)) eqn:E|destruct (lt c (fst b) (fst a)) eqn:E]; auto; exfalso; [apply H|apply K]; auto. }
    split; auto. apply IH. split; intro L; [apply H|apply K]; right; split; auto. now apply incomp_sym.
  - intros [I A]. apply IH in A. destruct I as [I1 I2]. split; intros [H|[_ H]]; try congruence; tauto.
Qed.
Lemma all_incomp_trans : forall cs, (forall c, In c cs -> good c) -> forall a b c, all_incomparable cs a b -> all_incomparable cs b c -> all_incomparable cs a c.
Proof.
  induction cs as [|c cs IH]; intros G x y z; cbn; [tauto|]. intros [H H'] [K K']. split.
  - destruct (G c (or_introl eq_refl)) as [_ It]. eauto.
  - eapply IH; eauto. intros; apply G; cbn; auto.
Qed.

Lemma casc_false : forall cs, (forall c, In c (front cs) -> agrees c) -> forall l r, cascaded_less cs l r = false <-> ~ lex cs l r.
Proof. intros. rewrite <- cascaded_lex by auto. destruct (cascaded_less cs l r); intuition discriminate. Qed.

Lemma cascaded_incomp : forall cs, (forall c, In c cs -> good c) -> (forall c, In c (front cs) -> agrees c) ->
  forall a b, incomparable (cascaded_less cs) a b <-> all_incomparable cs a b.
Proof. intros cs G A a b. unfold incomparable. rewrite !casc_false by auto. now apply lex_incomp. Qed.

Lemma cascaded_swo : forall cs, (forall c, In c cs -> good c) -> (forall c, In c (front cs) -> agrees c) -> strict_weak (cascaded_less cs).
Proof.
  intros cs G A. split; [split|].
  - intros a. apply casc_false; auto. now apply lex_irrefl.
  - intros a b c. rewrite !cascaded_lex by auto. now apply lex_trans.
  - intros a b c. rewrite !cascaded_incomp by auto. now apply all_incomp_trans.
Qed.
Lemma cascaded_total : forall cs, (forall c, In c cs -> good c) -> (forall c, In c (front cs) -> agrees c) ->
  (forall c, In c cs -> total (lt c)) -> total (cascaded_less cs).
Proof.
  intros cs G A T a b. destruct (cascaded_less cs a b) eqn:E1; auto. destruct (cascaded_less cs b a) eqn:E2; auto. right; left.
  assert (I : all_incomparable cs a b) by (apply cascaded_incomp; auto; split; auto). clear E1 E2 G A.
  induction cs as [|c cs IH]; [now destruct a, b|]. destruct a as [a a'], b as [b b']. destruct I as [[I1 I2] I']. cbn in *.
  f_equal; [|apply IH; auto]. destruct (T c (or_introl eq_refl) a b) as [H|[H|H]]; congruence.
Qed.

(* without agreement, but with != the negation of an equivalence that < respects, it is at least a strict order *)
Definition congruent (c : comp) : Prop :=
  (forall a, ne c a a = false) /\ (forall a b, ne c a b = false -> ne c b a = false) /\ (forall a b d, ne c a b = false -> ne c b d = false -> ne c a d = false) /\
  (forall a b d, ne c a b = false -> lt c b d = true -> lt c a d = true) /\ (forall a b d, lt c a b = true -> ne c b d = false -> lt c a d = true).
Lemma cascaded_strict : forall cs, (forall c, In c cs -> strict_order (lt c)) -> (forall c, In c (front cs) -> congruent c) -> strict_order (cascaded_less cs).
Proof.
  induction cs as [|c cs IH]; intros G A; [split; cbn; congruence|].
  assert (S : strict_order (lt c)) by (apply G; cbn; auto). destruct S as [I Tr].
  destruct cs as [|d cs]; [split; cbn; eauto|].
  assert (Ac : congruent c) by (apply A; cbn; auto). destruct Ac as [Nr [Ns [Nt [Nl Nrr]]]].
  specialize (IH (fun x H => G x (or_intror H)) (fun x H => A x (or_intror H))). destruct IH as [I' Tr'].
  split.
  - intros a. change (cascaded_less (c :: d :: cs) a a) with (if ne c (fst a) (fst a) then lt c (fst a) (fst a) else cascaded_less (d :: cs) (snd a) (snd a)). rewrite Nr. apply I'.
  - intros a b e. cbn [cascaded_less]. fold (cascaded_less (d :: cs)).
    destruct (ne c (fst a) (fst b)) eqn:E1, (ne c (fst b) (fst e)) eqn:E2; intros H K.
    + pose proof (Tr _ _ _ H K) as L. destruct (ne c (fst a) (fst e)) eqn:E3; auto.
      pose proof (Ns _ _ E3) as E4. pose proof (Nl _ _ _ E4 L) as B. rewrite I in B. discriminate.
    + destruct (ne c (fst a) (fst e)) eqn:E3; [eapply Nrr; eauto|]. rewrite (Nt _ _ _ E3 (Ns _ _ E2)) in E1. discriminate.
    + destruct (ne c (fst a) (fst e)) eqn:E3; [eapply Nl; eauto|]. rewrite (Nt _ _ _ (Ns _ _ E1) E3) in E2. discriminate.
    + rewrite (Nt _ _ _ E1 E2). eapply Tr'; eauto.
Qed.

(* tuple equality *)
Fixpoint all_eq (cs : list comp) : tup cs -> tup cs -> Prop :=
  match cs with [] => fun _ _ => True | c :: rest => fun l r => eq c (fst l) (fst r) = true /\ all_eq rest (snd l) (snd r) end.
Lemma are_equal_all : forall cs acc l r, are_equal cs acc l r = true <-> acc = true /\ all_eq cs l r.
Proof. induction cs; intros acc l r; cbn; [tauto|]. rewrite IHcs, andb_true_iff. tauto. Qed.
Lemma are_not_equal_all : forall cs acc l r, (forall c, In c cs -> forall a b, ne c a b = negb (eq c a b)) ->
  are_not_equal cs acc l r = acc || negb (are_equal cs true l r).
Proof.
  assert (F : forall cs l r, are_equal cs false l r = false).
  { intros. destruct (are_equal cs false l r) eqn:E; auto. apply are_equal_all in E. destruct E; discriminate. }
  induction cs as [|c cs IH]; intros acc l r H; cbn; [now rewrite orb_false_r|].
  rewrite IH by (intros; apply H; cbn; auto). rewrite (H c) by (cbn; auto). destruct (eq c (fst l) (fst r)); cbn; [now rewrite orb_false_r|].
  rewrite F. cbn. now rewrite !orb_true_r.
Qed.
Lemma all_eq_equiv : forall cs, (forall c, In c cs -> equivalence (eq c)) -> equivalence (tuple_eq cs).
Proof.
  intros cs H. unfold tuple_eq. split.
  - intros a. apply are_equal_all. split; auto. induction cs as [|c cs IH]; cbn; auto. split; [apply H; cbn; auto|apply IH; intros; apply H; cbn; auto].
  - intros a b. rewrite !are_equal_all. intros [_ E]. split; auto. induction cs as [|c cs IH]; cbn in *; auto. destruct E. split; [apply H; cbn; auto|apply IH; auto].
  - intros a b c. rewrite !are_equal_all. intros [_ E] [_ F]. split; auto. induction cs as [|d cs IH]; cbn in *; auto. destruct E, F.
    split; [destruct (H d (or_introl eq_refl)) as [_ _ Tr]; exact (Tr _ _ _ H0 H2)|exact (IH (fun c Hc => H c (or_intror Hc)) _ _ _ H1 H3)].
Qed.

Lemma optional_swo : forall T (less : T -> T -> bool), strict_weak less -> strict_weak (optional_less less).
Proof.
  intros T less [[I Tr] It]. split; [split|].
  - intros [a|]; cbn; auto.
  - intros [a|] [b|] [c|]; cbn; try congruence. eauto.
  - intros [a|] [b|] [c|]; unfold incomparable; cbn; intros [? ?] [? ?]; try (split; congruence). apply (It a b c); split; auto.
Qed.
Lemma optional_total : forall T (less : T -> T -> bool), total less -> total (optional_less less).
Proof. intros T less H [a|] [b|]; cbn; auto. destruct (H a b) as [|[|]]; subst; auto. Qed.

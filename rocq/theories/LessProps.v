(* Theorems about cascaded_less and the comparisons of pair, tuple and optional (C70). *)
From Coq Require Import List Bool Arith Lia.
From Verif Require Import LessModel LessSpec LessProofs.
Import ListNotations.

(* every component strictly weakly ordered, and != of all but the last one decides whether one side is smaller *)
Theorem C70_strict_weak_partial : forall cs, (forall c, In c cs -> strict_weak (lt c)) -> (forall c, In c (front cs) -> agrees c) ->
  strict_weak (cascaded_less cs).
Proof. exact cascaded_swo. Qed.
Theorem C70_total_partial : forall cs, (forall c, In c cs -> strict_weak (lt c)) -> (forall c, In c (front cs) -> agrees c) ->
  (forall c, In c cs -> total (lt c)) -> total (cascaded_less cs).
Proof. exact cascaded_total. Qed.
Theorem C70_lexicographic_partial : forall cs, (forall c, In c (front cs) -> agrees c) -> reflects (cascaded_less cs) (lex cs).
Proof. exact cascaded_lex. Qed.
(* with an arbitrary compatible != it is still a strict order *)
Theorem C70_strict_partial : forall cs, (forall c, In c cs -> strict_order (lt c)) -> (forall c, In c (front cs) -> congruent c) -> strict_order (cascaded_less cs).
Proof. exact cascaded_strict. Qed.

(* but not a weak one: components ordered by the tens digit, different if any digit differs *)
Definition tens : comp := mkComp nat (fun a b => a / 10 <? b / 10) Nat.eqb (fun a b => negb (a =? b)).
Definition num : comp := mkComp nat Nat.ltb Nat.eqb (fun a b => negb (a =? b)).
Lemma ltb_swo : forall T (f : T -> nat), strict_weak (fun a b => f a <? f b).
Proof.
  intros T f. split; [split|]; unfold incomparable; intros a.
  - apply Nat.ltb_irrefl.
  - intros b c; rewrite !Nat.ltb_lt; lia.
  - intros b c; rewrite !Nat.ltb_ge; lia.
Qed.
Theorem C70_strict_weak_refuted : exists cs, (forall c, In c cs -> strict_weak (lt c)) /\ (forall c, In c cs -> congruent c) /\ ~ strict_weak (cascaded_less cs).
Proof.
  exists [tens; num]. split; [|split].
  - intros c [<-|[<-|[]]]; apply ltb_swo with (f := fun x => _).
  - intros c [<-|[<-|[]]]; unfold congruent; cbn [ne lt tens num carrier]; repeat split; intros *; rewrite ?negb_false_iff, ?Nat.eqb_eq; try congruence; intros; subst; auto.
  - intros [_ It]. assert (B : incomparable (cascaded_less [tens; num]) (11, (0, tt)) (11, (1, tt))).
    { apply It with (12, (0, tt)); split; reflexivity. }
    destruct B as [B _]. discriminate.
Qed.
(* and a != that misses a difference makes it inconsistent with the first component *)
Theorem C70_coarse_ne_refuted : exists cs, (forall c, In c cs -> strict_weak (lt c) /\ total (lt c)) /\ exists a b : tup cs, cascaded_less cs a b = true /\ ~ lex cs a b.
Proof.
  exists [mkComp nat Nat.ltb (fun a b => a / 10 =? b / 10) (fun a b => negb (a / 10 =? b / 10)); num]. split.
  - intros c [<-|[<-|[]]]; (split; [apply ltb_swo with (f := fun x => x)|]); intros a b; cbn [lt num]; destruct (lt_eq_lt_dec a b) as [[H|H]|H]; auto; try (left; now apply Nat.ltb_lt); right; right; now apply Nat.ltb_lt.
  - exists (12, (0, tt)), (11, (1, tt)). split; [reflexivity|]. cbn. intros [H|[[_ H] _]]; discriminate.
Qed.

(* == and != of pair and tuple *)
Theorem C70_tuple_equality : forall cs, (forall c, In c cs -> equivalence (eq c)) -> equivalence (tuple_eq cs).
Proof. exact all_eq_equiv. Qed.
Theorem C70_tuple_eq_componentwise : forall cs, reflects (tuple_eq cs) (all_eq cs).
Proof. intros cs a b. unfold tuple_eq. rewrite are_equal_all. tauto. Qed.
Theorem C70_tuple_ne : forall cs, (forall c, In c cs -> forall a b, ne c a b = negb (eq c a b)) -> forall a b, tuple_ne cs a b = negb (tuple_eq cs a b).
Proof. intros cs H a b. unfold tuple_ne. rewrite are_not_equal_all by auto. reflexivity. Qed.

(* less<optional<T>>; the empty optional is the smallest *)
Theorem C70_optional : forall T (less : T -> T -> bool), strict_weak less -> strict_weak (optional_less less).
Proof. exact optional_swo. Qed.
Theorem C70_optional_total : forall T (less : T -> T -> bool), total less -> total (optional_less less).
Proof. exact optional_total. Qed.
Theorem C70_optional_order : forall T (less : T -> T -> bool) a b, optional_less less a b = true <->
  (a = None /\ b <> None) \/ exists x y, a = Some x /\ b = Some y /\ less x y = true.
Proof.
  intros T less [x|] [y|]; cbn; split.
  - intros H. right. eauto.
  - intros [[H _]|[x' [y' [A [B C]]]]]; congruence.
  - discriminate.
  - intros [[H _]|[x' [y' [A [B C]]]]]; congruence.
  - intros _. left. split; congruence.
  - auto.
  - discriminate.
  - intros [[_ H]|[x' [y' [A _]]]]; congruence.
Qed.

Example C70_ex : cascaded_less [num; num] (3, (5, tt)) (3, (6, tt)) = true /\ cascaded_less [num; num] (3, (6, tt)) (3, (5, tt)) = false /\
  cascaded_less [num; num] (2, (9, tt)) (3, (5, tt)) = true /\ agrees num /\ strict_weak (lt num) /\ optional_less Nat.ltb None (Some 0) = true.
Proof.
  split; [|split; [|split; [|split; [|split]]]]; try reflexivity; [|apply ltb_swo with (f := fun x => x)].
  intros a b. cbn [ne lt num]. rewrite negb_true_iff, Nat.eqb_neq, !Nat.ltb_lt. lia.
Qed.

Print Assumptions C70_strict_weak_partial.
Print Assumptions C70_total_partial.
Print Assumptions C70_lexicographic_partial.
Print Assumptions C70_strict_partial.
Print Assumptions C70_strict_weak_refuted.
Print Assumptions C70_coarse_ne_refuted.
Print Assumptions C70_tuple_equality.
Print Assumptions C70_tuple_eq_componentwise.
Print Assumptions C70_tuple_ne.
Print Assumptions C70_optional.
Print Assumptions C70_optional_total.
Print Assumptions C70_optional_order.

(* Bucket tables: lemmas shared by set and map. *)
From Coq Require Import NArith Arith List Bool Lia Permutation.
From Verif Require Import Base.
Import ListNotations.

Lemma lset_map : forall A B (f : A -> B) l i x, map f (lset l i x) = lset (map f l) i (f x).
Proof. induction l; intros [|i] x; cbn; auto. f_equal. auto. Qed.

Section B.
  Context {E : Type}.
  Implicit Types (b : list (list E)).

  Lemma concat_lset : forall b i l l', nth_error b i = Some l ->
    exists r, Permutation (concat b) (l ++ r) /\ Permutation (concat (lset b i l')) (l' ++ r).
  Proof.
    induction b as [|x b IH]; intros [|i] l l' H; cbn in *; try discriminate.
    - inversion H; subst. exists (concat b). split; reflexivity.
    - destruct (IH i l l' H) as [r [P1 P2]]. exists (x ++ r). split.
      + rewrite P1. rewrite !app_assoc. apply Permutation_app_tail. apply Permutation_app_comm.
      + rewrite P2. rewrite !app_assoc. apply Permutation_app_tail. apply Permutation_app_comm.
  Qed.
  Lemma concat_push : forall b i l e, nth_error b i = Some l -> Permutation (concat (lset b i (e :: l))) (e :: concat b).
  Proof. intros b i l e H. destruct (concat_lset b i l (e :: l) H) as [r [P1 P2]]. rewrite P2, P1. reflexivity. Qed.
  Lemma concat_pop : forall b i l l' e, nth_error b i = Some l -> Permutation l (e :: l') ->
    Permutation (concat b) (e :: concat (lset b i l')).
  Proof. intros b i l l' e H P. destruct (concat_lset b i l l' H) as [r [P1 P2]]. rewrite P1, P2, P. reflexivity. Qed.
  Lemma In_concat_nth : forall b e, In e (concat b) <-> exists i l, nth_error b i = Some l /\ In e l.
  Proof.
    intros b e. rewrite in_concat. split.
    - intros [l [I J]]. apply In_nth_error in I. destruct I as [i I]. eauto.
    - intros [i [l [I J]]]. apply nth_error_In in I. eauto.
  Qed.
  Lemma concat_repeat_nil : forall n, concat (repeat (@nil E) n) = [].
  Proof. induction n; cbn; auto. Qed.
  Lemma nth_repeat_nil : forall n i l, nth_error (repeat (@nil E) n) i = Some l -> l = [].
  Proof. intros n i l H. apply nth_error_In in H. eapply repeat_spec; eauto. Qed.

  (* every element sits in its bucket *)
  Definition located (loc : E -> nat) b : Prop := forall i l e, nth_error b i = Some l -> In e l -> loc e = i.

  Lemma located_lset : forall loc b i l', located loc b -> (forall e, In e l' -> loc e = i) -> located loc (lset b i l').
  Proof.
    intros loc b i l' H H' j l e Hn HI. rewrite lset_nth in Hn. destruct (Nat.eqb_spec i j).
    - subst. destruct (j <? length b)%nat; [|discriminate]. inversion Hn; subst. auto.
    - eapply H; eauto.
  Qed.

  (* an element satisfying P lives in bucket i: searching the bucket is searching everything *)
  Lemma exists_bucket : forall loc b i l (P : E -> bool), located loc b -> nth_error b i = Some l ->
    (forall e, P e = true -> loc e = i) -> existsb P l = existsb P (concat b).
  Proof.
    intros loc b i l P L H HP. apply eq_true_iff_eq. rewrite !existsb_exists. split.
    - intros [e [I J]]. exists e. split; auto. apply In_concat_nth. eauto.
    - intros [e [I J]]. exists e. split; auto. apply In_concat_nth in I. destruct I as [j [l' [Hn HI]]].
      pose proof (L j l' e Hn HI). rewrite (HP e J) in H0. subst. congruence.
  Qed.
End B.

Lemma existsb_perm : forall A (P : A -> bool) l l', Permutation l l' -> existsb P l = existsb P l'.
Proof.
  intros A P l l' H. apply eq_true_iff_eq. rewrite !existsb_exists.
  split; intros [e [I J]]; exists e; split; auto; [|symmetry in H]; eapply Permutation_in; eauto.
Qed.
Lemma filter_perm : forall A (P : A -> bool) l l', Permutation l l' -> Permutation (filter P l) (filter P l').
Proof.
  intros A P l l' H. induction H; cbn.
  - constructor.
  - destruct (P x); auto.
  - destruct (P x), (P y); auto. constructor.
  - etransitivity; eauto.
Qed.
Lemma filter_all : forall A (P : A -> bool) l, (forall e, In e l -> P e = true) -> filter P l = l.
Proof. induction l; cbn; intros H; auto. rewrite H by auto. f_equal. auto. Qed.

(* pairwise inequivalent *)
Section Distinct.
  Context {E : Type} (rel : E -> E -> bool).
  Inductive distinct : list E -> Prop :=
  | D_nil : distinct []
  | D_cons : forall e l, (forall x, In x l -> rel x e = false) -> distinct l -> distinct (e :: l).
  Hypothesis rsym : forall x y, rel x y = true -> rel y x = true.
  Lemma rsymf : forall x y, rel x y = false -> rel y x = false.
  Proof. intros x y H. destruct (rel y x) eqn:K; auto. apply rsym in K. congruence. Qed.
  Lemma distinct_perm : forall l l', Permutation l l' -> distinct l -> distinct l'.
  Proof.
    intros l l' P. induction P; intro H.
    - auto.
    - inversion H; subst. constructor; auto. intros y I. apply H2. eapply Permutation_in; [symmetry|]; eauto.
    - inversion H as [|? ? H1 H2]; subst. inversion H2 as [|? ? H3 H4]; subst. constructor.
      + intros z [<-|I]; auto. apply rsymf. apply H1. cbn; auto.
      + constructor; auto. intros z I. apply H1. cbn; auto.
    - auto.
  Qed.
  Lemma distinct_filter : forall P l, distinct l -> distinct (filter P l).
  Proof.
    induction l; cbn; intro H; auto. inversion H; subst. destruct (P a); auto. constructor; auto.
    intros x I. apply filter_In in I. apply H2. tauto.
  Qed.
  Hypothesis rrefl : forall x, rel x x = true.
  Hypothesis rtrans : forall x y z, rel x y = true -> rel y z = true -> rel x z = true.
  Lemma filter_remove : forall l e l' v, distinct l -> Permutation l (e :: l') -> rel e v = true ->
    Permutation (filter (fun x => negb (rel x v)) l) l'.
  Proof.
    intros l e l' v D P R. rewrite (filter_perm _ _ _ _ P). cbn [filter]. rewrite R. cbn [negb].
    rewrite filter_all; auto. intros x I. pose proof (distinct_perm _ _ P D) as D'. inversion D'; subst.
    destruct (rel x v) eqn:K; auto. assert (R2 : rel x e = true) by (apply rtrans with v; auto). rewrite (H1 x I) in R2. discriminate.
  Qed.
  (* equal cardinality and inclusion of one side: same members *)
  Lemma distinct_incl_length : forall l m, distinct l -> distinct m ->
    (forall x, In x m -> existsb (fun e => rel e x) l = true) -> length m <= length l.
  Proof.
    intros l m. revert l. induction m as [|x m IH]; intros l Dl Dm H; cbn [length]; [lia|].
    inversion Dm; subst. assert (Hx := H x (or_introl eq_refl)). apply existsb_exists in Hx. destruct Hx as [e [I R]].
    apply in_split in I. destruct I as [l1 [l2 ->]].
    assert (P : Permutation (l1 ++ e :: l2) (e :: l1 ++ l2)) by (symmetry; apply Permutation_middle).
    assert (D' := distinct_perm _ _ P Dl). inversion D'; subst.
    assert (L : length m <= length (l1 ++ l2)).
    { apply IH; auto. intros y J. assert (Hy := H y (or_intror J)). rewrite (existsb_perm _ _ _ _ P) in Hy. cbn [existsb] in Hy.
      apply orb_true_iff in Hy. destruct Hy as [K|K]; auto. exfalso.
      assert (rel y x = true). { apply rtrans with e; auto. }
      rewrite H2 in H0 by auto. discriminate. }
    rewrite app_length in *. cbn [length]. lia.
  Qed.
  Lemma distinct_incl_eq : forall l m, distinct l -> distinct m -> length l = length m ->
    (forall x, In x m -> existsb (fun e => rel e x) l = true) ->
    (forall x, In x l -> existsb (fun e => rel e x) m = true).
  Proof.
    intros l m Dl Dm L H x I. destruct (existsb (fun e => rel e x) m) eqn:K; auto. exfalso.
    apply in_split in I. destruct I as [l1 [l2 ->]].
    assert (P : Permutation (l1 ++ x :: l2) (x :: l1 ++ l2)) by (symmetry; apply Permutation_middle).
    assert (D' := distinct_perm _ _ P Dl). inversion D'; subst.
    assert (length m <= length (l1 ++ l2)).
    { apply distinct_incl_length; auto. intros y J. assert (Hy := H y J). rewrite (existsb_perm _ _ _ _ P) in Hy. cbn [existsb] in Hy.
      apply orb_true_iff in Hy. destruct Hy as [R|R]; auto. exfalso.
      assert (existsb (fun e => rel e x) m = true) by (apply existsb_exists; eauto). congruence. }
    rewrite app_length in *. cbn [length] in *. lia.
  Qed.
End Distinct.

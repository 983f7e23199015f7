(* Properties C116, C117. *)
From Coq Require Import Arith List Bool Lia.
From Verif Require Import Base AlgoModel AlgoSpec AlgoProofs.
Import ListNotations.

(* ---- C116: copy, fill and comparison of ranges ---- *)
(* copy to a range that is too short is refused; otherwise the destination begins with the old elements of the source and
   nothing else changes, if the destination does not begin inside of the source behind its first element.
   Missing for the full claim: destinations that begin inside of the source (C116_overlap_refuted). *)
Theorem C116_copy_partial : forall A (m : list A) from to, in_array (length m) from -> in_array (length m) to ->
  (rsize to < rsize from -> copy m from to = Contract) /\
  (rsize from <= rsize to -> no_overrun from to -> copy m from to = Ok (replaced m (offset to) (elements m from))).
Proof. intros A m from to. apply copy_ok. Qed.
(* the first element is copied over the following ones *)
Theorem C116_overlap_refuted :
  copy [1; 2; 3; 4] (mkr (Some 0) 3) (mkr (Some 1) 3) = Ok [1; 1; 1; 1] /\
  replaced [1; 2; 3; 4] 1 (elements [1; 2; 3; 4] (mkr (Some 0) 3)) = [1; 1; 2; 3].
Proof. split; vm_compute; reflexivity. Qed.
(* fill sets exactly the elements of the range to the value the argument has at the call, also if it is an element of the range *)
Theorem C116_fill : forall A (m : list A) r v x, in_array (length m) r ->
  match v with inl p => nth_error m p = Some x | inr y => y = x end ->
  fill m r v = Ok (replaced m (offset r) (repeat x (rsize r))).
Proof. intros A m r v x H V. apply fill_ok; [exact H|]. destruct v; cbn; congruence. Qed.
(* equality: same size, and no pair of elements at the same position differs; are_ranges_unequal is its negation; no contract
   fires *)
Theorem C116_equal : forall A B (neq : A -> B -> bool) a b, exists e,
  are_ranges_equal neq a b = Ok e /\ are_ranges_unequal neq a b = Ok (negb e) /\
  (e = true <-> length a = length b /\ forall i x y, nth_error a i = Some x -> nth_error b i = Some y -> neq x y = false).
Proof.
  intros A B neq a b. unfold are_ranges_equal, are_ranges_unequal. destruct (Nat.eqb_spec (length a) (length b)) as [L|L].
  - rewrite differ_ok by exact L. cbn. eexists. split; [reflexivity|]. rewrite negb_involutive. split; [reflexivity|].
    rewrite negb_true_iff. split.
    + intros E. split; [exact L|]. revert b L E. induction a as [|u a IH]; intros [|v b] L E [|i] x y; cbn in *; try discriminate.
      * intros X Y. injection X as ->. injection Y as ->. apply orb_false_iff in E. apply E.
      * apply orb_false_iff in E as [_ E]. apply IH; [lia|exact E].
    + intros [_ H]. revert b L H. induction a as [|u a IH]; intros [|v b] L H; cbn in *; try reflexivity; try discriminate.
      rewrite (H 0 u v eq_refl eq_refl). apply IH; [lia|]. intros i. apply (H (S i)).
  - exists false. split; [reflexivity|]. split; [reflexivity|]. split; [discriminate|]. intros [E _]. contradiction.
Qed.
Example C116_ex :
  copy [1; 2; 3; 4; 5] (mkr (Some 2) 3) (mkr (Some 0) 4) = Ok [3; 4; 5; 4; 5] /\ copy [1; 2; 3] (mkr (Some 0) 2) (mkr (Some 2) 1) = Contract /\
  in_array 5 (mkr (Some 2) 3) /\ in_array 5 (mkr (Some 0) 4) /\ no_overrun (mkr (Some 2) 3) (mkr (Some 0) 4) /\
  fill [1; 2; 3; 4] (mkr (Some 1) 3) (inl 2) = Ok [1; 3; 3; 3] /\ fill [1; 2] (mkr None 0) (inr 7) = Ok [1; 2] /\
  are_ranges_equal (fun a b => negb (Nat.eqb a b)) [1; 2] [1; 2] = Ok true /\ are_ranges_equal (fun a b => negb (Nat.eqb a b)) [1; 2] [1] = Ok false.
Proof. repeat split; try reflexivity; cbn; try lia. left. cbn. lia. Qed.

(* ---- C117: comparison with any_of ---- *)
(* x == any_of(range) and x == any_of(a, b, ...) hold if x equals one of the values, != is the negation *)
Theorem C117_any_of : forall A B (eq : A -> B -> bool) x r a b rest,
  (equals_any_of eq x r = true <-> exists y, In y r /\ eq x y = true) /\
  differs_any_of eq x r = negb (equals_any_of eq x r) /\
  (any_of_values_test eq a b rest x = true <-> exists y, In y (a :: b :: rest) /\ eq x y = true).
Proof.
  intros A B eq x r a b rest. split; [|split; [reflexivity|]].
  - unfold equals_any_of. rewrite any_of_ok. apply existsb_exists.
  - unfold any_of_values_test. rewrite fold_or_ok. split.
    + destruct (eq x a) eqn:E; [intros _; exists a; split; [left; reflexivity|exact E]|].
      destruct (eq x b) eqn:F; [intros _; exists b; split; [right; left; reflexivity|exact F]|].
      intros H. apply existsb_exists in H as (y & I & ->). apply in_map_iff in I as (z & G & I). exists z. split; [right; right; exact I|exact G].
    + intros (y & [<-|[<-|I]] & E); [rewrite E; reflexivity|rewrite E; destruct (eq x a); reflexivity|].
      destruct (eq x a); [reflexivity|]. destruct (eq x b); [reflexivity|]. apply existsb_exists. exists true. split; [|reflexivity].
      rewrite <- E. apply in_map, I.
Qed.
Example C117_ex : equals_any_of Nat.eqb 3 [1; 3] = true /\ equals_any_of Nat.eqb 3 [] = false /\
  any_of_values_test Nat.eqb 1 2 [5; 7] 7 = true /\ any_of_values_test Nat.eqb 1 2 [] 7 = false.
Proof. repeat split. Qed.

Print Assumptions C116_copy_partial.
Print Assumptions C116_overlap_refuted.
Print Assumptions C116_fill.
Print Assumptions C116_equal.
Print Assumptions C117_any_of.

(* Theorems about variant (C55). *)
From Coq Require Import NArith ZArith Arith List Bool Lia.
From Verif Require Import Base Tagged VariModel VariSpec VariProofs.
Import ListNotations.
Local Open Scope nat_scope.

(* For every list of up to 256 alternatives: every history that is allowed for ideal variants and uses only
   supported operations runs without undefined behaviour, with the same answers of is, get, get_or and visit,
   and afterwards every live variant holds exactly the object it should.
   Full statement: also constructing from lvalues, is<Y>() for a Y that is no alternative, assigning a variant
   (or the value it holds) to itself, and any number of alternatives; all refuted below. *)
Theorem C55_history_partial : forall (A : Type) ts os (w : store A) rs, (N.of_nat (length ts) <= 256)%N ->
  ideal_run ts [] os = Some (w, rs) -> forallb (supported ts) os = true ->
  run ts [] os = Ok (rep (shape ts) w, rs).
Proof.
  intros A ts os w rs L H U. apply (run_ok ts L os [] w rs); auto. intros k c X. unfold look in X. destruct k; discriminate.
Qed.

(* variant(x) for an lvalue x: the value is stored, but the variant believes to hold the last alternative *)
Theorem C55_lvalue_ctor_refuted : forall (A : Type) ts X p c (v : A), (N.of_nat (length ts) <= 256)%N ->
  pos_of ts X = Some p -> S p < length ts -> c <> RV ->
  (exists w, run ts [] [NewFrom (X, c) (AVal v); Is 0 X] = Ok (w, [RUnit; RB false])) /\
  run ts [] [NewFrom (X, c) (AVal v); Get 0 X] = Contract /\
  run ts [] [NewFrom (X, c) (AVal v); Visit 0] = UB /\
  run ts [] [NewFrom (X, c) (AVal v); Destroy 0] = UB.
Proof.
  intros A ts X p c v L P Lt C. set (q := length ts - 1).
  assert (N : ts <> []) by (intro E; rewrite E in Lt; cbn in Lt; lia).
  assert (E : step ts [] (NewFrom (X, c) (AVal v)) = Ok ([Some (mkv (N.of_nat q) (TObj p v))], RUnit)).
  { cbn [step arg_src bind]. unfold new_from. rewrite index_missing by auto. fold q.
    replace (0 <=? Z.of_nat q)%Z with true by (symmetry; apply Z.leb_le; lia). cbn [contract bind]. unfold decay. cbn [fst].
    unfold set_idx. cbn [var add app length nth_error bind dat upd lset]. rewrite P. unfold place. cbn [fetch bind fst snd]. rewrite P.
    rewrite Z.mod_small by (subst q; lia). replace (Z.to_N (Z.of_nat q)) with (N.of_nat q) by lia. reflexivity. }
  assert (P2 : index_of_type ts (X, RV) = Z.of_nat p) by (apply index_rv; auto).
  assert (NE : (Z.of_N (N.of_nat q) =? Z.of_nat p)%Z = false) by (apply Z.eqb_neq; subst q; lia).
  assert (Q : q < length ts) by (subst q; lia).
  repeat split.
  - eexists. cbn [run]. rewrite E. cbn [bind fst snd step]. unfold is. cbn [var nth_error bind idx]. rewrite P2, NE. reflexivity.
  - cbn [run]. rewrite E. cbn [bind fst snd step]. unfold get, is. cbn [var nth_error bind idx]. rewrite P2, NE. auto.
  - cbn [run]. rewrite E. cbn [bind fst snd step]. unfold visit. cbn [var nth_error bind idx dat]. rewrite visit_pos_ok by auto.
    destruct (nth_error ts q); [|auto]. cbn [tread]. destruct (Nat.eqb_spec p q); [subst q; lia|auto].
  - cbn [run]. rewrite E. cbn [bind fst snd step]. unfold destroy, kill. cbn [var nth_error bind idx dat]. rewrite destroy_pos_ok by auto.
    cbn [tkill]. destruct (Nat.eqb_spec p q); [subst q; lia|auto].
Qed.

(* is<Y>() for a type that is no alternative is true when the last alternative is held *)
Theorem C55_missing_type_refuted : forall (A : Type) ts X Y (v : A), (N.of_nat (length ts) <= 256)%N ->
  last_first ts X = true -> alt ts Y = false ->
  exists w, run ts [] [NewFrom (X, RV) (AVal v); Is 0 X; Is 0 Y] = Ok (w, [RUnit; RB true; RB true]).
Proof.
  intros A ts X Y v L LX HY. unfold last_first in LX. destruct (pos_of ts X) as [p|] eqn:P; [|discriminate].
  apply Nat.eqb_eq in LX. assert (N : ts <> []) by (intro E; rewrite E in LX; cbn in LX; lia).
  assert (AX : alt ts X = true) by (apply pos_of_alt; eauto).
  assert (I : ideal_run ts [] [NewFrom (X, RV) (AVal v); Is 0 X] = Some ([Some (mkc X (Some v))], [RUnit; RB true])).
  { cbn. rewrite AX. cbn. rewrite Nat.eqb_refl. auto. }
  assert (W : wf ts (@nil (option (content A)))) by (intros [|k] c Z; discriminate).
  destruct (run_ok ts L _ _ _ _ W I) as (E & _); [cbn; rewrite AX; auto|].
  cbn [run] in E. destruct (step ts (rep (shape ts) []) (NewFrom (X, RV) (AVal v))) as [x| | |] eqn:E1; try discriminate. cbn [bind] in E.
  destruct (step ts (fst x) (Is 0 X)) as [y| | |] eqn:E2; try discriminate. cbn [bind fst snd] in E.
  assert (EX : fst y = fst x) by (cbn [step] in E2; destruct (is ts (fst x) 0 X); [|discriminate..]; injection E2 as <-; auto).
  change (rep (shape ts) []) with (@nil (option (variant A))) in E1.
  exists (fst x). cbn [run]. rewrite E1. cbn [bind fst snd]. rewrite E2. cbn [bind fst snd]. rewrite EX.
  assert (S1 : snd x = RUnit) by congruence. assert (S2 : snd y = RB true) by congruence. rewrite S1, S2.
  assert (F : fst x = rep (shape ts) [Some (mkc X (Some v))]) by congruence. rewrite F.
  cbn [step]. unfold is. cbn [rep map option_map var nth_error bind]. unfold shape. cbn [idx typ].
  rewrite index_missing; [|auto|]. 2:{ right. destruct (pos_of ts Y) eqn:PY; auto. exfalso.
    assert (Z : alt ts Y = true) by (apply pos_of_alt; eauto). congruence. }
  unfold position. rewrite P. replace (Z.of_N (N.of_nat p) =? Z.of_nat (length ts - 1))%Z with true; [auto|].
  symmetry. apply Z.eqb_eq. lia.
Qed.

(* the 257th alternative and those after it are not recognised: the index is stored in one byte *)
Theorem C55_many_alternatives_refuted : forall (A : Type) ts X p (v : A), pos_of ts X = Some p -> (256 <= N.of_nat p)%N ->
  exists w, run ts [] [NewFrom (X, RV) (AVal v); Is 0 X] = Ok (w, [RUnit; RB false]).
Proof.
  intros A ts X p v P B. assert (I : index_of_type ts (X, RV) = Z.of_nat p) by (apply index_rv; auto).
  eexists. cbn [run step arg_src bind]. unfold new_from. rewrite I.
  replace (0 <=? Z.of_nat p)%Z with true by (symmetry; apply Z.leb_le; lia). cbn [contract bind]. unfold decay. cbn [fst].
  unfold set_idx. cbn [var add app length nth_error bind dat upd lset]. rewrite P. unfold place. cbn [fetch bind fst snd]. rewrite P.
  cbn [var nth_error bind dat tplace upd lset fst snd unit_ idx]. unfold unit_. cbn [bind fst snd]. unfold is.
  cbn [var nth_error bind idx]. rewrite I.
  replace (Z.of_N (Z.to_N (Z.of_nat p mod 256)) =? Z.of_nat p)%Z with false; [reflexivity|].
  symmetry. apply Z.eqb_neq. pose proof (Z.mod_pos_bound (Z.of_nat p) 256). lia.
Qed.

(* assigning a variant to itself destroys the value and then reads it *)
Theorem C55_self_assign_refuted : forall (A : Type) ts (w : store A) k c mv, (N.of_nat (length ts) <= 256)%N -> wf ts w ->
  look w k = Some c -> step ts (rep (shape ts) w) (AssignVariant k k mv) = UB.
Proof.
  intros A ts w k c mv L W H. cbn [step]. unfold assign_variant. rewrite (var_Ok _ _ _ (rshape ts _ _ _ H)). cbn [bind].
  rewrite (visited ts _ _ _ W H). destruct (alt_pos ts _ (W _ _ H)) as (P1 & P2 & P3). rewrite P3.
  unfold emplace. rewrite (kill_ok ts _ _ _ W H). cbn [bind]. rewrite (index_rv _ _ _ P1).
  replace (0 <=? Z.of_nat (position ts (typ c)))%Z with true by (symmetry; apply Z.leb_le; lia). cbn [contract bind].
  pose proof (nth_upd_eq _ _ (mkv (idx (shape ts c)) TRaw) _ (rshape ts _ _ _ H)) as N1.
  unfold set_idx. rewrite (var_Ok _ _ _ N1). cbn [bind dat]. rewrite P1. cbn [fetch].
  erewrite var_Ok by (eapply nth_upd_eq; exact N1). cbn [bind dat]. destruct mv; auto.
Qed.

(* so does assigning a variant the value it holds, v = v.get<X>() *)
Theorem C55_own_value_refuted : forall (A : Type) ts (w : store A) k T v mv, (N.of_nat (length ts) <= 256)%N -> wf ts w ->
  look w k = Some (mkc T (Some v)) -> step ts (rep (shape ts) w) (AssignFrom k (T, RV) (AGet k mv)) = UB.
Proof.
  intros A ts w k T v mv L W H. pose proof (W _ _ H) as HT. cbn [typ] in HT. destruct (alt_pos ts _ HT) as (P1 & P2 & P3).
  cbn [step arg_src]. unfold decay. cbn [fst]. rewrite (is_ok ts L _ _ _ _ W H HT). cbn [bind typ]. rewrite Nat.eqb_refl. cbn [contract bind].
  rewrite P1. cbn [bind]. unfold assign_from, decay. cbn [fst]. rewrite (index_rv _ _ _ P1).
  replace (0 <=? Z.of_nat (position ts T))%Z with true by (symmetry; apply Z.leb_le; lia). cbn [contract bind].
  unfold emplace. rewrite (kill_ok ts _ _ _ W H). cbn [bind]. rewrite (index_rv _ _ _ P1).
  replace (0 <=? Z.of_nat (position ts T))%Z with true by (symmetry; apply Z.leb_le; lia). cbn [contract bind].
  pose proof (nth_upd_eq _ _ (mkv (idx (shape ts (mkc T (Some v)))) TRaw) _ (rshape ts _ _ _ H)) as N1.
  unfold set_idx. rewrite (var_Ok _ _ _ N1). cbn [bind dat]. rewrite P1. cbn [fetch].
  erewrite var_Ok by (eapply nth_upd_eq; exact N1). cbn [bind dat]. destruct mv; auto.
Qed.

(* asking for an alternative that is not held is reported *)
Theorem C55_wrong_type_reported : forall (A : Type) ts (w : store A) k c T, (N.of_nat (length ts) <= 256)%N -> wf ts w ->
  look w k = Some c -> alt ts T = true -> typ c <> T -> step ts (rep (shape ts) w) (Get k T) = Contract.
Proof.
  intros A ts w k c T L W H HT N. cbn [step]. unfold get. rewrite (is_ok ts L _ _ _ _ W H HT). cbn [bind].
  destruct (Nat.eqb_spec (typ c) T); [congruence|]. auto.
Qed.

(* variant<int, float, string, vector> as 0 1 2 3 *)
Definition sample : list (op nat) :=
  [New 0; NewFrom (1, RV) (AVal 5); NewFrom (3, LV) (AVal 6); NewVariant 1 false; Is 1 1; Is 1 2; Is 3 1; Get 3 1; Visit 2;
   Emplace 0 2 (AVal 7); AssignFrom 1 (2, LV) (AGet 0 false); Get 1 2; AssignVariant 2 0 true; Is 0 2; Get 2 2; GetOr 3 2 9; GetOr 3 1 9;
   AssignFrom 0 (0, CLV) (AVal 4); Visit 0; Destroy 0; Destroy 1; Destroy 2; Destroy 3].
Example C55_ex : run [0; 1; 2; 3] [] sample = Ok ([None; None; None; None],
  [RUnit; RUnit; RUnit; RUnit; RB true; RB false; RB true; RVal 5; RVisit 3 6; RUnit; RUnit; RVal 7; RUnit; RB true; RVal 7; RVal 9; RVal 5;
   RUnit; RVisit 0 4; RUnit; RUnit; RUnit; RUnit]) /\
  ideal_run [0; 1; 2; 3] [] sample <> None /\ forallb (supported [0; 1; 2; 3]) sample = true.
Proof. split; [|split]; [reflexivity|discriminate|reflexivity]. Qed.
Example C55_lvalue_ex : pos_of [0; 1] 0 = Some 0 /\
  run [0; 1] [] [NewFrom (0, LV) (AVal 7); Is 0 1] = Ok ([Some (mkv 1 (TObj 0 7))], [RUnit; RB true]).
Proof. split; reflexivity. Qed.
Example C55_missing_ex : last_first [0; 1] 1 = true /\ alt [0; 1] 9 = false.
Proof. split; reflexivity. Qed.
Example C55_many_ex : pos_of (seq 0 257) 256 = Some 256.
Proof. reflexivity. Qed.
Example C55_self_ex : run [0; 1] [] [NewFrom (1, RV) (AVal 7); AssignVariant 0 0 false] = UB.
Proof. reflexivity. Qed.

Print Assumptions C55_history_partial.
Print Assumptions C55_lvalue_ctor_refuted.
Print Assumptions C55_missing_type_refuted.
Print Assumptions C55_many_alternatives_refuted.
Print Assumptions C55_self_assign_refuted.
Print Assumptions C55_own_value_refuted.
Print Assumptions C55_wrong_type_reported.

(* Property theorems C145: indices of cc::vector_ex. *)
From Coq Require Import NArith ZArith Arith List Bool Lia.
From Verif Require Import Base Cells VecModel VecSpec VecProofs VecProps KeysModel IdxVecModel.
Import ListNotations.

(* ---- specification: sequences indexed by integers; None is a violated precondition ---- *)
Definition in_range (lim : nat) (y : Z) : bool := (0 <=? y)%Z && (y <? Z.of_nat lim)%Z.
Definition xideal {A} (l : list A) (o : xop A) : option (list A * res A) :=
  match o with
  | XPush x => Some (l ++ [x], RUnit)
  | XPushRange vs => Some (l ++ vs, RUnit)
  | XPop => match l with [] => None | _ => Some (removelast l, RUnit) end
  | XResize n x => Some (firstn (N.to_nat n) l ++ repeat x (N.to_nat n - length l), RUnit)
  | XClear => Some ([], RUnit)
  | XRemoveAll p => Some (filter (fun x => negb (p x)) l, RN (N.of_nat (length (filter p l))))
  | XSize => Some (l, RN (N.of_nat (length l)))
  | XGet y => if in_range (length l) y then option_map (fun x => (l, RVal x)) (nth_error l (Z.to_nat y)) else None
  | XSet y x => if in_range (length l) y then Some (replace_at l (Z.to_nat y) x, RUnit) else None
  | XInsert y vs => if in_range (S (length l)) y then Some (firstn (Z.to_nat y) l ++ vs ++ skipn (Z.to_nat y) l, RUnit) else None
  | XRemoveRange y n =>
      if (n =? 0)%N then Some (l, RUnit)
      else if in_range (length l) y && (Z.to_nat y + N.to_nat n <=? length l)%nat
           then Some (firstn (Z.to_nat y) l ++ skipn (Z.to_nat y + N.to_nat n) l, RUnit) else None
  | XRemoveAt y => if in_range (length l) y then Some (firstn (Z.to_nat y) l ++ skipn (S (Z.to_nat y)) l, RUnit) else None
  | XRemoveAtUnordered y => if in_range (length l) y then Some (unordered_remove l (Z.to_nat y), RUnit) else None
  | XRemoveFirst p => Some (remove_first_match p l, RB (existsb p l))
  | XRemoveFirstUnordered p =>
      Some (match first_match p l with Some i => unordered_remove l i | None => l end, RB (existsb p l))
  end.
Fixpoint xideal_run {A} (l : list A) (os : list (xop A)) : option (list A * list (res A)) :=
  match os with
  | [] => Some (l, [])
  | o :: os =>
      match xideal l o with
      | None => None
      | Some (l, r) => match xideal_run l os with None => None | Some (l, rs) => Some (l, r :: rs) end
      end
  end.

(* the integer types of C++, and the values of such a type *)
Definition int_type (t : ity) : Prop := (bits t = 8 \/ bits t = 16 \/ bits t = 32 \/ bits t = 64)%Z.
Definition value_of (t : ity) (y : Z) : Prop :=
  if sgn t then (- 2 ^ (bits t - 1) <= y < 2 ^ (bits t - 1))%Z else (0 <= y < 2 ^ bits t)%Z.
(* the arguments are values of the index type; the sum of those of remove_range fits into size_t *)
Definition args_fit {A} (t : ity) (o : xop A) : Prop :=
  match o with
  | XGet y | XSet y _ | XInsert y _ | XRemoveAt y | XRemoveAtUnordered y => value_of t y
  | XRemoveRange y n => value_of t y /\ (y + Z.of_N n < 2 ^ 64)%Z
  | _ => True
  end.
(* the index of every element is a value of the index type when a remove_first searches for one *)
Definition searches {A} (o : xop A) : bool := match o with XRemoveFirst _ | XRemoveFirstUnordered _ => true | _ => false end.
Definition elements_fit {A} (t : ity) (l : list A) : Prop := forall i, (i < length l)%nat -> value_of t (Z.of_nat i).
Definition grows {A} (o : xop A) : N := match o with XPush _ => 1 | XPushRange vs | XInsert _ vs => N.of_nat (length vs) | _ => 0 end%N.
Fixpoint fitting {A} (t : ity) (l : list A) (os : list (xop A)) : Prop :=
  match os with
  | [] => True
  | o :: os =>
      args_fit t o /\ (searches o = true -> elements_fit t l) /\ (N.of_nat (length l) + grows o <= 2 ^ 48)%N /\
      match o with XResize n _ => (n <= 2 ^ 48)%N | _ => True end /\
      match xideal l o with None => True | Some (l, _) => fitting t l os end
  end.

(* ---- proofs ---- *)
Open Scope Z_scope.
Lemma conv_value : forall t y, int_type t -> value_of t y -> conv_to t y = y.
Proof.
  intros [b s] y T V. unfold value_of, conv_to, int_type in *. cbn [bits sgn] in *.
  assert (P : 2 ^ b = 2 * 2 ^ (b - 1)) by (rewrite <- Z.pow_succ_r by lia; f_equal; lia).
  assert (Q : 0 < 2 ^ (b - 1)) by (apply Z.pow_pos_nonneg; lia).
  cbv zeta. destruct s; cbn [andb].
  - destruct (Z.leb_spec 0 y).
    + rewrite Z.mod_small by lia. destruct (Z.leb_spec (2 ^ (b - 1)) y); lia.
    + replace (y mod 2 ^ b) with (y + 2 ^ b). 2:{ rewrite <- (Z.mod_small (y + 2 ^ b) (2 ^ b)) by lia. rewrite <- (Z.mod_add y 1 (2 ^ b)) by lia. f_equal. lia. }
      destruct (Z.leb_spec (2 ^ (b - 1)) (y + 2 ^ b)); lia.
  - now rewrite Z.mod_small.
Qed.
Lemma value_low : forall t y, int_type t -> value_of t y -> - 2 ^ 63 <= y < 2 ^ 64.
Proof.
  intros [b s] y T V. unfold value_of, int_type in *. cbn [bits sgn] in *.
  destruct T as [-> | [-> | [-> | ->]]], s; cbn in V |- *; lia.
Qed.
Lemma as_size_pos : forall t y, int_type t -> value_of t y -> 0 <= y -> as_size t y = Z.to_N y.
Proof.
  intros t y T V P. pose proof (value_low t y T V). unfold as_size, as_index. rewrite (conv_value t y T V). f_equal.
  unfold conv_to. cbn [bits sgn size_type andb]. apply Z.mod_small. lia.
Qed.
Lemma as_size_neg : forall t y, int_type t -> value_of t y -> y < 0 -> (2 ^ 63 <= as_size t y)%N.
Proof.
  intros t y T V P. pose proof (value_low t y T V). unfold as_size, as_index. rewrite (conv_value t y T V).
  unfold conv_to. cbn [bits sgn size_type andb].
  replace (y mod 2 ^ 64) with (y + 2 ^ 64). 2:{ rewrite <- (Z.mod_small (y + 2 ^ 64) (2 ^ 64)) by lia. rewrite <- (Z.mod_add y 1 (2 ^ 64)) by lia. try (f_equal; lia). }
  change (2 ^ 63)%N with (Z.to_N (2 ^ 63)). apply Z2N.inj_le; lia.
Qed.
Lemma common_size : forall t, int_type t -> common t size_type = size_type.
Proof. intros [b s] T. unfold int_type in T. cbn [bits] in T. destruct T as [-> | [-> | [-> | ->]]], s; reflexivity. Qed.
Lemma remove_at_ex_eq : forall A t (v : vec A) y, int_type t -> (size v < 2 ^ 64)%N -> remove_at_ex t v y = remove_at v (as_size t y).
Proof.
  intros A t v y T S. unfold remove_at_ex, remove_at. rewrite (common_size t T). cbv zeta.
  replace (conv_to size_type (as_index t y) <? conv_to size_type (Z.of_N (size v)))%Z with (as_size t y <? size v)%N; [reflexivity|].
  assert (conv_to size_type (Z.of_N (size v)) = Z.of_N (size v)) as -> by (unfold conv_to; cbn [bits sgn size_type andb]; apply Z.mod_small; lia).
  unfold as_size. assert (0 <= conv_to size_type (as_index t y)) by (unfold conv_to; cbn [bits sgn size_type andb]; apply Z.mod_pos_bound; lia).
  apply eq_true_iff_eq. rewrite N.ltb_lt, Z.ltb_lt. lia.
Qed.
Open Scope nat_scope.

Section Step.
  Context {A : Type} (t : ity) (T : int_type t).
  Lemma in_range_spec : forall n y, value_of t y -> (N.of_nat n <= 2 ^ 49)%N ->
    if in_range n y then N.to_nat (as_size t y) = Z.to_nat y /\ Z.to_nat y < n else n <= N.to_nat (as_size t y).
  Proof.
    intros n y V B. unfold in_range. pose proof (as_size_pos t y T V). pose proof (as_size_neg t y T V).
    destruct (Z.leb_spec 0 y); cbn [andb].
    - specialize (H ltac:(lia)). destruct (Z.ltb_spec y (Z.of_nat n)); rewrite H; lia.
    - specialize (H0 ltac:(lia)). assert (2 ^ 49 < 2 ^ 63)%N by reflexivity. lia.
  Qed.
  Lemma xstep_spec : forall (v : vec A) l o, rep v l -> args_fit t o -> (searches o = true -> elements_fit t l) ->
    (N.of_nat (length l) + grows o <= 2 ^ 48)%N -> match o with XResize n _ => (n <= 2 ^ 48)%N | _ => True end ->
    match xideal l o with
    | Some (l', r) => exists v', xstep t v o = Ok (v', r) /\ rep v' l'
    | None => xstep t v o = Contract
    end.
  Proof.
    intros v l o R Fa Fe B Q. assert (B0 : (N.of_nat (length l) <= 2 ^ 48)%N) by lia. assert (P : (2 ^ 48 < 2 ^ 49)%N) by reflexivity.
    assert (Sz : size v = N.of_nat (length l)) by apply (r_size _ _ R). assert (S64 : (size v < 2 ^ 64)%N) by (rewrite Sz; assert (2 ^ 48 < 2 ^ 64)%N by reflexivity; lia).
    assert (ST : forall o', (N.of_nat (length l) + adds o' <= 2 ^ 48)%N -> (asks1 o' <= 2 ^ 48)%N -> no_wrap1 o' ->
      match ideal l o' with Some (l', r) => exists v', step v o' = Ok (v', r) /\ rep v' l' | None => step v o' = Contract end) by (intros; now apply step_spec).
    destruct o; cbn [xideal xstep args_fit searches grows] in *.
    - exact (ST (PushBack x) ltac:(cbn; lia) ltac:(cbn; lia) I).
    - exact (ST (PushRange vs) ltac:(cbn; lia) ltac:(cbn; lia) I).
    - exact (ST PopBack ltac:(cbn; lia) ltac:(cbn; lia) I).
    - exact (ST (Resize n x) ltac:(cbn; lia) ltac:(cbn; lia) I).
    - exact (ST Clear ltac:(cbn; lia) ltac:(cbn; lia) I).
    - exact (ST (RemoveAll p) ltac:(cbn; lia) ltac:(cbn; lia) I).
    - exact (ST Size ltac:(cbn; lia) ltac:(cbn; lia) I).
    - pose proof (ST (Get (as_size t y)) ltac:(cbn; lia) ltac:(cbn; lia) I) as H. cbn [ideal] in H. pose proof (in_range_spec (length l) y Fa ltac:(lia)) as IR.
      destruct (in_range _ _).
      + destruct IR as [E L]. rewrite E in H. destruct (nth_error l (Z.to_nat y)); exact H.
      + apply nth_error_None in IR. rewrite IR in H. exact H.
    - pose proof (ST (SetAt (as_size t y) x) ltac:(cbn; lia) ltac:(cbn; lia) I) as H. cbn [ideal] in H. pose proof (in_range_spec (length l) y Fa ltac:(lia)) as IR.
      destruct (in_range _ _).
      + destruct IR as [E L]. rewrite E, (proj2 (Nat.ltb_lt _ _) L) in H. exact H.
      + apply Nat.ltb_ge in IR. rewrite IR in H. exact H.
    - pose proof (ST (InsertRange (as_size t y) vs) ltac:(cbn; lia) ltac:(cbn; lia) I) as H. cbn [ideal] in H. pose proof (in_range_spec (S (length l)) y Fa ltac:(lia)) as IR.
      destruct (in_range _ _).
      + destruct IR as [E L]. rewrite E, (proj2 (Nat.leb_le _ _)) in H by lia. exact H.
      + rewrite (proj2 (Nat.leb_gt _ _)) in H by lia. exact H.
    - destruct Fa as [Fa W]. pose proof (in_range_spec (length l) y Fa ltac:(lia)) as IR. destruct (N.eqb_spec n 0) as [->|N0].
      + exists v. cbn. auto.
      + destruct (in_range _ _) eqn:Er.
        * destruct IR as [E L]. assert (Y0 : (0 <= y)%Z) by (unfold in_range in Er; lia).
          pose proof (ST (RemoveRange (as_size t y) n) ltac:(cbn; lia) ltac:(cbn; lia)) as H. cbn [ideal no_wrap1] in H. apply N.eqb_neq in N0. rewrite N0, E in H. apply H.
          rewrite (as_size_pos t y T Fa) by lia. lia.
        * cbn [andb step]. unfold remove_range. apply N.eqb_neq in N0. rewrite N0, Sz. rewrite (proj2 (N.ltb_ge _ _)) by lia. reflexivity.
    - rewrite remove_at_ex_eq by assumption. pose proof (ST (RemoveAt (as_size t y)) ltac:(cbn; lia) ltac:(cbn; lia) I) as H. cbn [ideal step] in H. pose proof (in_range_spec (length l) y Fa ltac:(lia)) as IR.
      destruct (in_range _ _).
      + destruct IR as [E L]. rewrite E, (proj2 (Nat.ltb_lt _ _) L) in H. exact H.
      + apply Nat.ltb_ge in IR. rewrite IR in H. exact H.
    - pose proof (ST (RemoveAtUnordered (as_size t y)) ltac:(cbn; lia) ltac:(cbn; lia) I) as H. cbn [ideal step] in H. pose proof (in_range_spec (length l) y Fa ltac:(lia)) as IR.
      destruct (in_range _ _).
      + destruct IR as [E L]. rewrite E, (proj2 (Nat.ltb_lt _ _) L) in H. exact H.
      + apply Nat.ltb_ge in IR. rewrite IR in H. exact H.
    - pose proof (ST (RemoveFirst p) ltac:(cbn; lia) ltac:(cbn; lia) I) as H. cbn [ideal step] in H. revert H.
      unfold remove_first_ex, remove_first. rewrite (find_spec _ _ p R). cbn [bind]. destruct (first_match p l) as [i|] eqn:FM; [|auto].
      pose proof (first_match_lt _ _ _ FM) as Lt. rewrite remove_at_ex_eq by assumption. rewrite as_size_pos by (auto; try lia; apply Fe; auto).
      rewrite <- nat_N_Z, N2Z.id. auto.
    - pose proof (ST (RemoveFirstUnordered p) ltac:(cbn; lia) ltac:(cbn; lia) I) as H. cbn [ideal step] in H. revert H.
      unfold remove_first_unordered_ex, remove_first_unordered. rewrite (find_spec _ _ p R). cbn [bind]. destruct (first_match p l) as [i|] eqn:FM; [|auto].
      pose proof (first_match_lt _ _ _ FM) as Lt. rewrite as_size_pos by (auto; try lia; apply Fe; auto).
      rewrite <- nat_N_Z, N2Z.id. auto.
  Qed.
  Lemma xrun_spec : forall os (v : vec A) l, rep v l -> fitting t l os ->
    match xideal_run l os with
    | Some (l', rs) => exists v', xrun t v os = Ok (v', rs) /\ rep v' l'
    | None => xrun t v os = Contract
    end.
  Proof.
    induction os as [|o os IH]; intros v l R F; cbn [xideal_run xrun]; [eauto|].
    destruct F as (F1 & F2 & F3 & F4 & F5). pose proof (xstep_spec v l o R F1 F2 F3 F4) as H.
    destruct (xideal l o) as [[l1 r]|]; [|now rewrite H]. destruct H as [v1 [-> R1]]. cbn [bind]. specialize (IH v1 l1 R1 F5).
    destruct (xideal_run l1 os) as [[l2 rs]|]; [|now rewrite IH]. destruct IH as [v2 [-> R2]]. cbn [bind]. eauto.
  Qed.
End Step.

(* ---- theorems ---- *)
(* for every integer index type, vectors are sequences as long as arguments, and the indices that remove_first searches, are
   values of the index type: negative and too large indices are refused *)
Theorem C145_history_partial : forall A t (os : list (xop A)), int_type t -> fitting t [] os ->
  match xideal_run [] os with
  | Some (l, rs) => exists v, xrun t init os = Ok (v, rs) /\ agrees v l
  | None => xrun t init os = Contract
  end.
Proof.
  intros A t os T F. pose proof (xrun_spec t T os init [] rep_init F) as H. destruct (xideal_run [] os) as [[l rs]|]; auto.
  destruct H as [v [E R]]. exists v. split; auto. now apply rep_agrees.
Qed.
Example C145_signed : let t := mkI 8 true in
  xideal_run [] [XPush 10; XPushRange [11; 12; 13]; XGet 2; XRemoveAt 0; XRemoveFirst (Nat.eqb 13); XInsert 1 [7]; XRemoveRange 1 2] =
    Some ([11], [RUnit; RUnit; RVal 12; RUnit; RB true; RUnit; RUnit]) /\
  (exists v, xrun t init [XPush 10; XPushRange [11; 12; 13]; XGet 2; XRemoveAt 0; XRemoveFirst (Nat.eqb 13); XInsert 1 [7]; XRemoveRange 1 2] =
    Ok (v, [RUnit; RUnit; RVal 12; RUnit; RB true; RUnit; RUnit])) /\
  xrun t init [XPush 10; XGet (-1)] = Contract /\ xrun t init [XPush 10; XRemoveAt (-1)] = Contract /\ xrun t init [XPush 10; XInsert 2 [1]] = Contract.
Proof. cbv zeta. split; [reflexivity|]. split; [eexists; vm_compute; reflexivity|]. repeat split. Qed.

(* arguments that are no values of the index type wrap around silently: with an index_t of one byte, v[256 + k] is v[k] *)
Theorem C145_wrap_refuted : forall A (l : list A) k, (N.of_nat (length l) <= 2 ^ 48)%N -> (0 <= k < 256)%Z -> (k < Z.of_nat (length l))%Z ->
  exists v x, nth_error l (Z.to_nat k) = Some x /\ forall m, xrun (mkI 8 false) init [XPushRange l; XGet (256 * m + k)] = Ok (v, [RUnit; RVal x]).
Proof.
  intros A l k B K L. destruct (nth_error l (Z.to_nat k)) as [x|] eqn:E; [|apply nth_error_None in E; lia].
  destruct (push_back_range_spec init [] l rep_init) as [v [P R]]; [cbn [length]; lia|].
  exists v, x. split; auto. intros m. cbn [xrun xstep step]. unfold ru. rewrite P. cbn [bind]. unfold rr. rewrite (index_spec _ _ _ R).
  assert (N.to_nat (as_size (mkI 8 false) (256 * m + k)) = Z.to_nat k) as ->; [|cbn [app]; rewrite E; reflexivity].
  unfold as_size, as_index, conv_to. cbn [bits sgn size_type andb]. change (2 ^ 8)%Z with 256%Z.
  replace (256 * m + k)%Z with (k + m * 256)%Z by lia. rewrite Z.mod_add by lia. rewrite (Z.mod_small k) by lia. rewrite Z.mod_small by lia. lia.
Qed.

(* remove_first finds element i but removes element i mod 256 if the index type has one byte; the element found stays *)
Theorem C145_remove_first_refuted : forall A (l : list A) p i, (N.of_nat (length l) <= 2 ^ 48)%N -> first_match p l = Some i -> 256 <= i ->
  exists v, xrun (mkI 8 false) init [XPushRange l; XRemoveFirst p] = Ok (v, [RUnit; RB true]) /\
    agrees v (firstn (i mod 256) l ++ skipn (S (i mod 256)) l) /\
    existsb p (firstn (i mod 256) l ++ skipn (S (i mod 256)) l) = true /\ length (filter p (firstn (i mod 256) l ++ skipn (S (i mod 256)) l)) = length (filter p l).
Proof.
  intros A l p i B F G. pose proof (first_match_lt _ _ _ F) as Lt. assert (M : i mod 256 < 256) by (apply Nat.mod_upper_bound; lia).
  destruct (push_back_range_spec init [] l rep_init) as [v [P R]]; [cbn [length]; lia|]. cbn [app] in R.
  assert (As : N.to_nat (as_size (mkI 8 false) (Z.of_nat i)) = i mod 256).
  { unfold as_size, as_index, conv_to. cbn [bits sgn size_type andb]. change (2 ^ 8)%Z with (Z.of_nat 256). rewrite <- Nat2Z.inj_mod by lia. rewrite Z.mod_small by (change (2 ^ 64)%Z with 18446744073709551616%Z; lia). lia. }
  destruct (remove_at_spec v l (as_size (mkI 8 false) (Z.of_nat i)) R) as [v' [E R']]; [rewrite As; lia|]. rewrite As in R'.
  assert (Nm : forall m (l : list A) i, first_match p l = Some i -> m < i -> exists x, nth_error l m = Some x /\ p x = false).
  { clear. induction m as [|m IH]; intros [|x l] i E L; cbn in E; try discriminate.
    - exists x. cbn. destruct (p x); auto. injection E as <-. lia.
    - destruct (p x); [injection E as <-; lia|]. destruct (first_match p l) as [j|] eqn:Fm; [|discriminate]. injection E as <-. destruct (IH l j Fm) as [y Y]; [lia|]. exists y. auto. }
  destruct (Nm (i mod 256) l i F ltac:(lia)) as [x [X1 X2]]. destruct (split_nth _ _ _ _ X1) as [Sp _].
  assert (Fl : filter p (firstn (i mod 256) l ++ skipn (S (i mod 256)) l) = filter p l).
  { rewrite Sp at 3. rewrite !filter_app. cbn [filter]. rewrite X2. reflexivity. }
  exists v'. split; [|split; [now apply rep_agrees|split]].
  - cbn [xrun xstep step]. unfold ru, rv. rewrite P. cbn [bind]. unfold remove_first_ex. rewrite (find_spec _ _ p R), F. cbn [bind].
    rewrite remove_at_ex_eq; [|unfold int_type; cbn; auto|rewrite (r_size _ _ R); change (2 ^ 48)%N with 281474976710656%N in B; change (2 ^ 64)%N with 18446744073709551616%N; lia].
    rewrite E. reflexivity.
  - assert (Ex : existsb p l = true) by (rewrite first_match_exists, F; reflexivity). apply existsb_exists in Ex. destruct Ex as [z [Z1 Z2]].
    apply existsb_exists. exists z. split; auto. assert (In z (filter p l)) as Iz by (apply filter_In; auto). rewrite <- Fl in Iz. apply filter_In in Iz. tauto.
  - now rewrite Fl.
Qed.
(* the same without preserving order *)
Theorem C145_remove_first_unordered_refuted : forall A (l : list A) p i, (N.of_nat (length l) <= 2 ^ 48)%N -> first_match p l = Some i -> 256 <= i ->
  exists v, xrun (mkI 8 false) init [XPushRange l; XRemoveFirstUnordered p] = Ok (v, [RUnit; RB true]) /\
    agrees v (unordered_remove l (i mod 256)).
Proof.
  intros A l p i B F G. pose proof (first_match_lt _ _ _ F) as Lt. assert (M : i mod 256 < 256) by (apply Nat.mod_upper_bound; lia).
  destruct (push_back_range_spec init [] l rep_init) as [v [P R]]; [cbn [length]; lia|]. cbn [app] in R.
  assert (As : N.to_nat (as_size (mkI 8 false) (Z.of_nat i)) = i mod 256).
  { unfold as_size, as_index, conv_to. cbn [bits sgn size_type andb]. change (2 ^ 8)%Z with (Z.of_nat 256). rewrite <- Nat2Z.inj_mod by lia. rewrite Z.mod_small by (change (2 ^ 64)%Z with 18446744073709551616%Z; lia). lia. }
  destruct (unordered_spec v l (as_size (mkI 8 false) (Z.of_nat i)) R) as [v' [E R']]; [rewrite As; lia|]. rewrite As in R'.
  exists v'. split; [|now apply rep_agrees].
  cbn [xrun xstep step]. unfold ru, rv. rewrite P. cbn [bind]. unfold remove_first_unordered_ex. rewrite (find_spec _ _ p R), F. cbn [bind]. rewrite E. reflexivity.
Qed.
Example C145_remove_first : let l := seq 0 300 in first_match (Nat.eqb 299) l = Some 299 /\
  (exists v, xrun (mkI 8 false) init [XPushRange l; XRemoveFirst (Nat.eqb 299); XGet 43; XSize] = Ok (v, [RUnit; RB true; RVal 44; RN 299])) /\
  xrun (mkI 8 true) init [XPushRange l; XRemoveFirst (Nat.eqb 200)] = Contract.
Proof. cbv zeta. split; [reflexivity|]. split; [eexists|]; vm_compute; reflexivity. Qed.

Print Assumptions C145_history_partial.
Print Assumptions C145_wrap_refuted.
Print Assumptions C145_remove_first_refuted.
Print Assumptions C145_remove_first_unordered_refuted.

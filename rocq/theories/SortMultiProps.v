(* C133: sorting several ranges at once. *)
From Coq Require Import ZArith List Bool Lia Permutation.
From Verif Require Import Base SortModel SortSpec SortProofs SortMultiModel SortMultiProofs.
Import ListNotations.
Open Scope Z_scope.

(* all ranges rs of m' are those of m in the order p, the others are untouched *)
Definition reordered {V} (m m' : list (list V)) (rs : list nat) (p : list nat) : Prop :=
  length m' = length m /\
  (forall r, In r rs -> map Some (nth r m' []) = map (nth_error (nth r m [])) p) /\
  (forall r, ~ In r rs -> nth r m' [] = nth r m []).

Lemma perm_seq_lt : forall n p i q, Permutation (seq 0 n) p -> nth_error p i = Some q -> (q < n)%nat.
Proof. intros n p i q P H. apply nth_error_In in H. apply (Permutation_in _ (Permutation_sym P)) in H. apply in_seq in H. lia. Qed.

(* sort with closures over one list is the sort of SortModel.v *)
Theorem C133_one_list : forall A (less : A -> A -> bool) l select,
  sort_exf (fun l i => get 0 (Z.of_nat (length l)) l i) less (fun l i j => swap 0 (Z.of_nat (length l)) l i j)
    (S (length l)) select l 0 (Z.of_nat (length l)) = sort_ex less l 0 (Z.of_nat (length l)) select.
Proof.
  intros A less l select. unfold sort_exf, sort_ex. rewrite Z.add_0_l.
  pose proof (sim_impl (fun l i => get 0 (Z.of_nat (length l)) l i) less (fun l i j => swap 0 (Z.of_nat (length l)) l i j) (S (length l))
    less 0 (Z.of_nat (length l)) (fun s a => s = a /\ length a = length l) eq) as H.
  specialize (H ltac:(intros s a [_ E]; congruence)).
  specialize (H ltac:(intros s a i [<- E]; rewrite E; destruct (get 0 (Z.of_nat (length l)) s i); cbn; auto)).
  specialize (H ltac:(intros x y p q <- <-; reflexivity)).
  assert (SW : forall (s a : list A) i j, s = a /\ length a = length l ->
    orel (fun s a => s = a /\ length a = length l) (swap 0 (Z.of_nat (length s)) s i j) (swap 0 (Z.of_nat (length l)) a i j)).
  { intros s a i j [<- E]. rewrite E. destruct (swap 0 (Z.of_nat (length l)) s i j) as [b| | |] eqn:W; cbn; auto. split; auto.
    unfold swap, get, put, aset in W.
    repeat match type of W with
    | (if ?b then _ else _) = _ => destruct b; cbn [bind] in W
    | bind (if ?b then _ else _) _ = _ => destruct b; cbn [bind] in W
    | bind (aget ?x ?y) _ = _ => destruct (aget x y); cbn [bind] in W
    end; try discriminate; injection W as <-; rewrite !lset_length; auto. }
  specialize (H SW select (S (Z.to_nat (Z.of_nat (length l)))) l l 0 (Z.of_nat (length l)) (conj eq_refl eq_refl)).
  destruct (sort_ex_implf _ _ _ _ _ _ _ _ _); destruct (sort_ex_impl _ _ _ _ _ _ _ _); cbn in H; try contradiction; auto.
  destruct H as [-> _]. reflexivity.
Qed.

Section S.
  Context {V : Type}.

  Theorem C133_sort_multi_partial : forall (less : V -> V -> bool), strict_weak less -> forall (m : list (list V)) keys values,
    NoDup (keys :: values) -> (forall r, In r (keys :: values) -> (r < length m)%nat) ->
    (forall r, In r values -> length (nth r m []) = length (nth keys m [])) ->
    exists m' p, sort_multi less m keys values = Ok m' /\ Permutation (seq 0 (length (nth keys m []))) p /\
      reordered m m' (keys :: values) p /\ sorted less (nth keys m' []).
  Proof.
    intros less SW m keys values ND HR HL.
    set (n := length (nth keys m [])). set (rs := keys :: values).
    assert (LR : forall r, In r rs -> length (range m r) = n).
    { intros r [<-|H]; [reflexivity|]. apply HL; auto. }
    set (key := nth_error (nth keys m [])).
    destruct (sort_by_sorts nat (option V) key (oless less) (oless_strict_weak less SW) (seq 0 n)) as [p [E [P S]]].
    pose proof (sim_impl (fun m i => at_z (range m keys) i) less (fun m a b => let! m := swap_range m keys a b in swap_all m values a b) (Datatypes.S n)
      (fun x y => oless less (key x) (key y)) 0 (Z.of_nat n) (arranged m rs n) (fun x q => key q = Some x)) as H.
    specialize (H ltac:(intros s a [_ [L _]]; congruence)).
    assert (GET : forall s a i, arranged m rs n s a -> orel (fun x q => key q = Some x) (at_z (range s keys) i) (get 0 (Z.of_nat n) a i)).
    { intros s a i A. pose proof (arranged_len _ _ _ _ _ keys A ltac:(left; auto)) as L. unfold get.
      destruct (Z_le_dec 0 i) as [I1|I1]; [destruct (Z_lt_dec i (Z.of_nat n)) as [I2|I2]|].
      2, 3: rewrite at_z_ub by lia; destruct (Z.leb_spec 0 i); destruct (Z.ltb_spec i (Z.of_nat n)); try lia; exact Logic.I.
      destruct (at_z_ok (range s keys) i ltac:(lia)) as [x [Ex Nx]]. rewrite Ex.
      destruct (Z.leb_spec 0 i); destruct (Z.ltb_spec i (Z.of_nat n)); try lia. cbn [andb].
      destruct A as [_ [LA [C _]]]. specialize (C keys ltac:(left; auto)).
      destruct (aget_lt a (Z.to_nat i) ltac:(lia)) as [q Eq]. rewrite Eq. cbn. apply aget_Ok in Eq.
      apply (f_equal (fun l => nth_error l (Z.to_nat i))) in C. rewrite (map_nth_error _ _ _ Nx), (map_nth_error _ _ _ Eq) in C.
      injection C as C. symmetry. exact C. }
    specialize (H GET ltac:(intros x y q q' Q1 Q2; cbv beta in *; rewrite Q1, Q2; reflexivity)).
    specialize (H ltac:(intros s a i j A; apply (swap_sim m rs n s a i j); auto; discriminate)).
    specialize (H (fun _ _ => Ok true) (Datatypes.S (Z.to_nat (Z.of_nat n))) m (seq 0 n) 0 (Z.of_nat n) (arranged_id m rs n LR)).
    unfold sort, sort_ex in E. rewrite seq_length, Z.add_0_l in E. rewrite E in H.
    destruct (sort_ex_implf _ _ _ _ _ _ _ _ _) as [m'| | |] eqn:EM; cbn in H; try contradiction.
    exists m', p. split; [|split; [exact P|]].
    { unfold sort_multi. assert (F : forallb (fun r => Nat.eqb (length (range m r)) (length (range m keys))) values = true).
      { apply forallb_forall. intros r Hr. apply Nat.eqb_eq. apply HL. auto. }
      rewrite F. cbn [contract bind]. exact EM. }
    destruct H as [L [LP [C D]]]. split; [split; [auto|split; auto]|].
    intros i j x y Hij Hx Hy.
    pose proof (C keys ltac:(left; auto)) as CK. unfold range in CK.
    assert (Q : forall k z, nth_error (nth keys m' []) k = Some z -> nth_error (map key p) k = Some (Some z)).
    { intros k z Hk. rewrite <- (map_nth_error (@Some V) _ _ Hk). fold key in CK. rewrite CK. reflexivity. }
    apply (S i j (Some x) (Some y) Hij); auto.
  Qed.

  (* different lengths are a contract violation *)
  Theorem C133_sizes : forall (less : V -> V -> bool) (m : list (list V)) keys values,
    (exists r, In r values /\ length (nth r m []) <> length (nth keys m [])) -> sort_multi less m keys values = Contract.
  Proof.
    intros less m keys values [r [Hr NE]]. unfold sort_multi.
    assert (F : forallb (fun r => Nat.eqb (length (range m r)) (length (range m keys))) values = false).
    { apply not_true_iff_false. rewrite forallb_forall. intro H. apply NE. apply Nat.eqb_eq. apply (H r Hr). }
    rewrite F. reflexivity.
  Qed.

  Lemma row_ok : forall (m0 : @mem V) rs m p n i q, arranged m0 rs n m p -> nth_error p i = Some q -> forall rs', incl rs' rs ->
    exists xs, row m rs' (Z.of_nat i) = Ok xs /\ map Some xs = map (fun r => nth_error (range m0 r) q) rs'.
  Proof.
    intros m0 rs m p n i q [L [LP [C D]]] Hq rs'. induction rs' as [|r rs' IH]; intro HI.
    - exists []. auto.
    - assert (Hr : In r rs) by (apply HI; left; auto). cbn [row].
      assert (LR : length (range m r) = length p). { pose proof (f_equal (@length _) (C r Hr)) as CC. rewrite !map_length in CC. auto. }
      assert (i < length p)%nat by (apply nth_error_Some; congruence).
      destruct (at_z_ok (range m r) (Z.of_nat i) ltac:(lia)) as [x [Ex Nx]]. rewrite Ex. cbn [bind]. rewrite Nat2Z.id in Nx.
      destruct IH as [xs [E M]]; [intros y Hy; apply HI; right; auto|]. rewrite E. cbn [bind]. exists (x :: xs). split; auto.
      cbn [map]. rewrite M. f_equal. pose proof (f_equal (fun l => nth_error l i) (C r Hr)) as CC. cbv beta in CC.
      rewrite (map_nth_error _ _ _ Nx), (map_nth_error _ _ _ Hq) in CC. injection CC as CC. exact CC.
  Qed.

  Fixpoint all_some (l : list (option V)) : option (list V) :=
    match l with [] => Some [] | Some x :: l => option_map (cons x) (all_some l) | None :: _ => None end.
  Lemma all_some_map : forall xs, all_some (map Some xs) = Some xs.
  Proof. induction xs; cbn; auto. rewrite IHxs. reflexivity. Qed.

  (* the keys of the rows of m, in order *)
  Definition rows (m : list (list V)) (rs : list nat) (n : nat) : list (list (option V)) :=
    map (fun i => map (fun r => nth_error (nth r m []) i) rs) (seq 0 n).

  Theorem C133_sort_multi_by_partial : forall K (key : list V -> K) (less : K -> K -> bool), strict_weak less ->
    forall (m : list (list V)) values n, values <> [] -> NoDup values ->
    (forall r, In r values -> (r < length m)%nat /\ length (nth r m []) = n) ->
    exists m' p, sort_multi_by key less m values = Ok m' /\ Permutation (seq 0 n) p /\ reordered m m' values p /\
      forall i j x y, (i < j)%nat -> nth_error (rows m' values n) i = Some (map Some x) -> nth_error (rows m' values n) j = Some (map Some y) ->
        less (key y) (key x) = false.
  Proof.
    intros K key less SW m values n NE ND HR.
    set (kf := fun q => option_map key (all_some (map (fun r => nth_error (range m r) q) values))).
    destruct (sort_by_sorts nat (option K) kf (oless less) (oless_strict_weak less SW) (seq 0 n)) as [p [E [P S]]].
    assert (LR : forall r, In r values -> length (range m r) = n) by (intros r H; apply HR; auto).
    pose proof (sim_impl (fun m i => let! xs := row m values i in Ok (key xs)) less (fun m a b => swap_all m values a b) (Datatypes.S n)
      (fun x y => oless less (kf x) (kf y)) 0 (Z.of_nat n) (arranged m values n) (fun x q => kf q = Some x)) as H.
    specialize (H ltac:(intros s a [_ [L _]]; congruence)).
    assert (GET : forall s a i, arranged m values n s a ->
      orel (fun x q => kf q = Some x) (let! xs := row s values i in Ok (key xs)) (get 0 (Z.of_nat n) a i)).
    { intros s a i A. unfold get.
      destruct values as [|r0 vs]; [contradiction|].
      pose proof (arranged_len _ _ _ _ _ r0 A ltac:(left; auto)) as L.
      destruct (Z_le_dec 0 i) as [I1|I1]; [destruct (Z_lt_dec i (Z.of_nat n)) as [I2|I2]|].
      2, 3: cbn [row]; rewrite at_z_ub by lia; destruct (Z.leb_spec 0 i); destruct (Z.ltb_spec i (Z.of_nat n)); try lia; exact Logic.I.
      pose proof (proj1 (proj2 A)) as LA.
      destruct (Z.leb_spec 0 i); destruct (Z.ltb_spec i (Z.of_nat n)); try lia. cbn [andb].
      destruct (aget_lt a (Z.to_nat i) ltac:(lia)) as [q Eq]. rewrite Eq. apply aget_Ok in Eq.
      destruct (row_ok m (r0 :: vs) s a n (Z.to_nat i) q A Eq (r0 :: vs) (incl_refl _)) as [xs [Ex Mx]].
      rewrite Z2Nat.id in Ex by lia. rewrite Ex. cbn [bind orel]. unfold kf. rewrite <- Mx, all_some_map. reflexivity. }
    specialize (H GET ltac:(intros x y q q' Q1 Q2; cbv beta in *; rewrite Q1, Q2; reflexivity)).
    specialize (H ltac:(intros s a i j A; apply (swap_sim m values n s a i j); auto; intros; apply HR; auto)).
    specialize (H (fun _ _ => Ok true) (Datatypes.S (Z.to_nat (Z.of_nat n))) m (seq 0 n) 0 (Z.of_nat n) (arranged_id m values n LR)).
    unfold sort, sort_ex in E. rewrite seq_length, Z.add_0_l in E. rewrite E in H.
    destruct (sort_ex_implf _ _ _ _ _ _ _ _ _) as [m'| | |] eqn:EM; cbn in H; try contradiction.
    exists m', p. split; [|split; [exact P|]].
    { unfold sort_multi_by. assert (LL : length (range m (last values O)) = n).
      { apply LR. destruct values as [|r0 vs]; [contradiction|].
        destruct (exists_last NE) as [vs' [z Ez]]. rewrite Ez, last_last. apply in_or_app. right. left. reflexivity. }
      rewrite LL.
      assert (F : forallb (fun r => Nat.eqb (length (range m r)) n) values = true).
      { apply forallb_forall. intros r Hr. apply Nat.eqb_eq. apply LR. auto. }
      rewrite F. cbn [contract bind]. exact EM. }
    destruct H as [L [LP [C D]]]. split; [split; [auto|split; auto]|].
    intros i j x y Hij Hx Hy.
    assert (Q : forall k z, nth_error (rows m' values n) k = Some (map Some z) -> nth_error (map kf p) k = Some (Some (key z))).
    { intros k z Hk. unfold rows in Hk.
      assert (KN : (k < n)%nat). { assert (X : nth_error (rows m' values n) k <> None) by (unfold rows; congruence). apply nth_error_Some in X. unfold rows in X. rewrite map_length, seq_length in X. auto. }
      destruct (nth_error p k) as [q|] eqn:Eq; [|apply nth_error_None in Eq; lia].
      rewrite (map_nth_error _ _ _ Eq).
      assert (SK : nth_error (seq 0 n) k = Some k). { rewrite (nth_error_nth' _ 0%nat) by (rewrite seq_length; auto). rewrite seq_nth by auto. reflexivity. }
      rewrite (map_nth_error _ _ _ SK) in Hk. injection Hk as Hk.
      unfold kf. replace (map (fun r => nth_error (range m r) q) values) with (map (@Some V) z); [rewrite all_some_map; reflexivity|].
      rewrite <- Hk. apply map_ext_in. intros r Hr.
      pose proof (f_equal (fun l => nth_error l k) (C r Hr)) as CC. cbv beta in CC.
      assert (KL : (k < length (range m' r))%nat). { pose proof (f_equal (@length _) (C r Hr)) as CL. rewrite !map_length in CL. lia. }
      unfold range in *. destruct (nth_error (nth r m' []) k) as [v|] eqn:Ev; [|apply nth_error_None in Ev; lia].
      rewrite (map_nth_error _ _ _ Ev), (map_nth_error _ _ _ Eq) in CC. injection CC as CC. exact CC. }
    pose proof (S i j _ _ Hij (Q _ _ Hx) (Q _ _ Hy)) as G. exact G.
  Qed.

  Theorem C133_sizes_by : forall K (key : list V -> K) (less : K -> K -> bool) (m : list (list V)) values,
    (exists r r', In r values /\ In r' values /\ length (nth r m []) <> length (nth r' m [])) -> sort_multi_by key less m values = Contract.
  Proof.
    intros K key less m values [r [r' [Hr [Hr' NE]]]]. unfold sort_multi_by.
    assert (F : forallb (fun r => Nat.eqb (length (range m r)) (length (range m (last values O)))) values = false).
    { apply not_true_iff_false. rewrite forallb_forall. intro H. apply NE.
      pose proof (H r Hr) as A. pose proof (H r' Hr') as B. apply Nat.eqb_eq in A, B. unfold range in A, B. congruence. }
    rewrite F. reflexivity.
  Qed.
End S.

(* a range that is passed twice is swapped twice: it stays unsorted, or the partition leaves the range *)
Theorem C133_twice_refuted :
  sort_multi Z.ltb [[2; 1]] 0 [0%nat] = Ok [[2; 1]] /\
  sort_multi Z.ltb [rev (map Z.of_nat (seq 0 17))] 0 [0%nat] = UB.
Proof. split; vm_compute; reflexivity. Qed.

(* descending *)
Theorem C133_descending : forall A (less : A -> A -> bool), strict_weak less -> forall l,
  exists l', sort_descending less l = Ok l' /\ Permutation l l' /\ sorted less (rev l').
Proof.
  intros A less SW l.
  assert (SW' : strict_weak (fun a b => less b a)).
  { constructor.
    - intro x. apply (sw_irrefl _ SW).
    - intros x y z H1 H2. apply (sw_trans _ SW z y x); auto.
    - intros x y z H. destruct (sw_neg _ SW z y x H); auto. }
  destruct (sort_sorts _ SW' l) as [l' [E [P S]]]. exists l'. split; auto. split; auto.
  intros i j x y Hij Hx Hy.
  assert (Hj : (j < length l')%nat). { rewrite <- rev_length. apply nth_error_Some. congruence. }
  assert (RV : forall k, (k < length l')%nat -> nth_error (rev l') k = nth_error l' (length l' - 1 - k)).
  { intros k Hk. rewrite (nth_error_nth' (rev l') x) by (rewrite rev_length; auto). rewrite rev_nth by auto.
    replace (length l' - Datatypes.S k)%nat with (length l' - 1 - k)%nat by lia. symmetry. apply nth_error_nth'. lia. }
  rewrite RV in Hx, Hy by lia. apply (S (length l' - 1 - j)%nat (length l' - 1 - i)%nat y x); auto. lia.
Qed.

Example C133_example :
  sort_multi Z.ltb [[3; 1; 2; 1]; [30; 10; 20; 11]; [5; 5]; [33; 11; 22; 12]] 0 [1%nat; 3%nat] = Ok [[1; 1; 2; 3]; [11; 10; 20; 30]; [5; 5]; [12; 11; 22; 33]]
  /\ sort_multi Z.ltb [[3; 1]; [1]] 0 [1%nat] = Contract
  /\ sort_multi Z.ltb [[3; 1]] 0 [] = Ok [[1; 3]]
  /\ sort_multi_by (fun r => fold_right Z.add 0 r) Z.ltb [[3; 1; 2]; [0; 9; 0]] [0%nat; 1%nat] = Ok [[2; 3; 1]; [0; 0; 9]]
  /\ sort_multi_by (fun r => nth 1 r 0) Z.ltb [[3; 1; 2]; [0; 9; 4]] [1%nat; 0%nat] = Ok [[1; 2; 3]; [9; 4; 0]]
  /\ sort_multi_by (fun r => fold_right Z.add 0 r) Z.ltb [[3; 1; 2]; [0; 9]] [0%nat; 1%nat] = Contract
  /\ sort_multi Z.ltb [rev (map Z.of_nat (seq 0 40)); map Z.of_nat (seq 100 40)] 0 [1%nat] = Ok [map Z.of_nat (seq 0 40); rev (map Z.of_nat (seq 100 40))]
  /\ sort_multi Z.ltb [[3; 1; 2]] 0 [0%nat; 0%nat] = Ok [[1; 2; 3]]
  /\ sort_descending Z.ltb [1; 3; 2] = Ok [3; 2; 1]
  /\ sort_by_descending (fun x => x mod 10) Z.ltb [11; 33; 12] = Ok [33; 12; 11].
Proof. vm_compute. repeat split. Qed.

Print Assumptions C133_one_list.
Print Assumptions C133_sort_multi_partial.
Print Assumptions C133_sizes.
Print Assumptions C133_sort_multi_by_partial.
Print Assumptions C133_sizes_by.
Print Assumptions C133_twice_refuted.
Print Assumptions C133_descending.

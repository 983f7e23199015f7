From Coq Require Import NArith List Bool Arith Lia Permutation Sorting.Sorted.
From Verif Require Import Base LPoolModel RadixModel RadixProofs RadixProps LNodesModel LNodesSpec.
Import ListNotations.
Open Scope nat_scope.

Lemma mem_In : forall i l, mem i l = true <-> In i l.
Proof. intros i l. unfold mem. rewrite existsb_exists. split; [intros (j & A & B); apply Nat.eqb_eq in B; subst; exact A|intros A; exists i; split; [exact A|apply Nat.eqb_refl]]. Qed.
Lemma mem_not : forall i l, mem i l = false <-> ~ In i l.
Proof. intros i l. rewrite <- mem_In. destruct (mem i l); split; congruence. Qed.
Lemma drop_In : forall l i j, NoDup l -> (In j (drop i l) <-> In j l /\ j <> i).
Proof.
  induction l as [|x l IH]; intros i j D; cbn; [tauto|]. inversion D as [|? ? N D']; subst. destruct (Nat.eqb_spec i x) as [->|E].
  - split; [intros J; split; [auto|intros ->; tauto]|intros [[->|J] K]; [congruence|exact J]].
  - cbn. rewrite (IH i j D'). intuition congruence.
Qed.
Lemma drop_perm : forall l i, In i l -> Permutation (i :: drop i l) l.
Proof.
  induction l as [|x l IH]; intros i J; [destruct J|]. cbn. destruct (Nat.eqb_spec i x) as [->|E]; [reflexivity|]. destruct J as [J|J]; [congruence|].
  rewrite perm_swap. constructor. exact (IH _ J).
Qed.
Lemma aget_some : forall {A} (l : list A) i x, nth_error l i = Some x -> aget l i = Ok x.
Proof. intros A l i x H. unfold aget. rewrite H. reflexivity. Qed.
Lemma nth_lset : forall {A} (l : list A) i j a, i < length l -> nth_error (lset l i a) j = if j =? i then Some a else nth_error l j.
Proof. induction l as [|x l IH]; intros i j a H; [cbn in H; lia|]. destruct i, j; cbn; try reflexivity. cbn in H. rewrite IH by lia. reflexivity. Qed.

Lemma nodup_r : forall (l r : list nat), NoDup (l ++ r) -> NoDup r.
Proof. induction l as [|x l IH]; cbn; intros r D; [exact D|]. inversion D; subst. auto. Qed.
Lemma nodup_l : forall (l r : list nat), NoDup (l ++ r) -> NoDup l.
Proof. induction l as [|x l IH]; cbn; intros r D; [constructor|]. inversion D as [|? ? N D']; subst. constructor; [intros J; apply N, in_or_app; auto|exact (IH _ D')]. Qed.

Fixpoint chain (a : list (option nat)) (h : option nat) (L : list nat) : Prop :=
  match L with [] => h = None | x :: L => h = Some x /\ exists nx, nth_error a x = Some nx /\ chain a nx L end.
Lemma chain_set : forall L a h x v, x < length a -> ~ In x L -> chain a h L -> chain (lset a x v) h L.
Proof.
  induction L as [|y L IH]; cbn; intros a h x v Lt N C; [exact C|]. destruct C as (-> & nx & E & C). split; [reflexivity|]. exists nx. split.
  - rewrite nth_lset by exact Lt. destruct (Nat.eqb_spec y x); [tauto|exact E].
  - apply IH; tauto.
Qed.

Section Good.
Variables (k : kind) (extra : nat).
Record good (s : st) (n : nat) (own : list nat) (c : list bool) (a : list (option nat)) (L : list nat) : Prop := {
  g_c : cells s = Some c; g_cl : length c = n; g_a : flist s = Some a; g_al : n <= length a; g_n : size s = n;
  g_max : (N.of_nat n < 2 ^ 32)%N; g_pos : 2 <= n;
  g_chain : chain a (head s) L; g_nd : NoDup (L ++ own); g_all : forall i, In i (L ++ own) <-> i < n;
  g_live : forall i, i < n -> nth_error c i = Some (mem i own);
  g_bal : tc k = false -> td k = false -> forall i, count_occ Nat.eq_dec (ctors s) i = count_occ Nat.eq_dec (dtors s) i + (if mem i own then 1 else 0);
  g_blocks : blocks s = nblocks k }.

Lemma good_own : forall s n own c a L, good s n own c a L -> NoDup own /\ forall i, In i own -> i < n.
Proof. intros s n own c a L G. split; [exact (nodup_r _ _ (g_nd _ _ _ _ _ _ G))|]. intros i J. apply (g_all _ _ _ _ _ _ G). apply in_or_app. auto. Qed.
Lemma good_len : forall s n own c a L, good s n own c a L -> length L + length own = n.
Proof.
  intros s n own c a L G. rewrite <- app_length. rewrite <- (seq_length n 0) at 1. apply Permutation_length. apply NoDup_Permutation; [exact (g_nd _ _ _ _ _ _ G)|apply seq_NoDup|].
  intros i. rewrite (g_all _ _ _ _ _ _ G), in_seq. lia.
Qed.
Lemma acquire_full : forall s n own c a, good s n own c a [] -> acquire k s = Contract.
Proof. intros s n own c a G. unfold acquire. rewrite (g_chain _ _ _ _ _ _ G). reflexivity. Qed.
Lemma acquire_good : forall s n own c a x L, good s n own c a (x :: L) ->
  exists s', acquire k s = Ok (s', x) /\ good s' n (x :: own) (lset c x true) a L.
Proof.
  intros s n own c a x L G. pose proof (g_chain _ _ _ _ _ _ G) as Ch. cbn in Ch. destruct Ch as (Hd & nx & E & Ch).
  assert (x < n) as Lt by (apply (g_all _ _ _ _ _ _ G); left; reflexivity).
  pose proof (g_nd _ _ _ _ _ _ G) as Nd. cbn in Nd. inversion Nd as [|? ? Nx Nd']; subst.
  assert (mem x own = false) as Mx by (apply mem_not; intros J; apply Nx, in_or_app; auto).
  unfold acquire. rewrite Hd, (g_a _ _ _ _ _ _ G), (g_c _ _ _ _ _ _ G). cbn [opt bind]. rewrite (aget_some _ _ _ E). cbn [bind].
  rewrite (aget_some _ _ _ (g_live _ _ _ _ _ _ G x Lt)), Mx. cbn [bind negb defined]. rewrite (g_n _ _ _ _ _ _ G). assert (x <? n = true) as Q by (apply Nat.ltb_lt; exact Lt). rewrite Q. cbn [contract bind].
  eexists. split; [reflexivity|]. destruct G as [Gc Gcl Ga Gal Gn Gm Gp Gch Gnd Gall Gl Gb Gbl]. constructor; cbn [cells flist size head ctors dtors blocks]; auto.
  - rewrite lset_length. exact Gcl.
  - apply (Permutation_NoDup (Permutation_middle L own x)). exact Gnd.
  - intros i. rewrite <- Gall. cbn. split; intros J.
    + apply in_app_or in J. destruct J as [J|[J|J]]; [right; apply in_or_app; auto|auto|right; apply in_or_app; auto].
    + apply in_or_app. cbn. destruct J as [J|J]; [auto|]. apply in_app_or in J. tauto.
  - intros i Li. rewrite nth_lset by lia. cbn. destruct (Nat.eqb_spec i x) as [->|Ne]; [reflexivity|]. exact (Gl i Li).
  - intros T D i. specialize (Gb T D i). rewrite T. cbn. destruct (Nat.eq_dec x i) as [->|Ne].
    + rewrite Nat.eqb_refl. cbn. rewrite Mx in Gb. lia.
    + destruct (Nat.eqb_spec i x); [congruence|]. exact Gb.
Qed.
Lemma release_good : forall s n own c a L i, good s n own c a L -> In i own ->
  exists s' a', release k s i = Ok s' /\ good s' n (drop i own) (lset c i false) a' (i :: L).
Proof.
  intros s n own c a L i G J. destruct (good_own _ _ _ _ _ _ G) as [No Lo]. pose proof (Lo i J) as Lt.
  unfold release. rewrite (g_n _ _ _ _ _ _ G). assert (i <? n = true) as Q by (apply Nat.ltb_lt; exact Lt). rewrite Q. cbn [contract bind].
  rewrite (g_c _ _ _ _ _ _ G), (g_a _ _ _ _ _ _ G). cbn [opt bind]. rewrite (aget_some _ _ _ (g_live _ _ _ _ _ _ G i Lt)).
  apply mem_In in J as M. rewrite M. cbn [defined bind]. pose proof (g_al _ _ _ _ _ _ G) as Al. rewrite aset_Ok by lia. cbn [bind].
  eexists. eexists. split; [reflexivity|]. destruct G as [Gc Gcl Ga Gal Gn Gm Gp Gch Gnd Gall Gl Gb Gbl].
  assert (Permutation (L ++ own) (i :: L ++ drop i own)) as P.
  { rewrite <- (drop_perm own i J) at 1. symmetry. apply Permutation_middle. }
  constructor; cbn [cells flist size head ctors dtors blocks]; auto.
  - rewrite lset_length. exact Gcl.
  - rewrite lset_length. exact Gal.
  - cbn. split; [reflexivity|]. exists (head s). split; [rewrite nth_lset, Nat.eqb_refl by lia; reflexivity|]. apply chain_set; [lia| |exact Gch].
    pose proof (Permutation_NoDup P Gnd) as N. inversion N as [|? ? N1 N2]; subst. intros K. apply N1, in_or_app. auto.
  - exact (Permutation_NoDup P Gnd).
  - intros j. rewrite <- Gall. cbn. split; intros K; [apply (Permutation_in _ (Permutation_sym P)); exact K|exact (Permutation_in _ P K)].
  - intros j Lj. rewrite nth_lset by lia. destruct (Nat.eqb_spec j i) as [->|Ne].
    + f_equal. symmetry. apply mem_not. rewrite drop_In by exact No. tauto.
    + rewrite (Gl j Lj). f_equal. apply eq_true_iff_eq. rewrite !mem_In, drop_In by exact No. tauto.
  - intros T D j. specialize (Gb T D j). rewrite D. cbn. destruct (Nat.eq_dec i j) as [->|Ne].
    + rewrite M in Gb. assert (mem j (drop j own) = false) as -> by (apply mem_not; rewrite drop_In by exact No; tauto). lia.
    + assert (mem j (drop i own) = mem j own) as -> by (apply eq_true_iff_eq; rewrite !mem_In, drop_In by exact No; intuition congruence). exact Gb.
Qed.

Lemma collect_ok : forall a cap L h fuel found, chain a h L -> length L <= fuel -> length found + length L <= cap ->
  collect fuel cap a h found = Ok (found ++ map N.of_nat L).
Proof.
  intros a cap. induction L as [|x L IH]; intros h fuel found C F Lc; cbn in C.
  - subst h. destruct fuel; cbn; rewrite app_nil_r; reflexivity.
  - destruct C as (-> & nx & E & C). cbn [length] in F, Lc. destruct fuel as [|fuel]; [lia|]. cbn [collect]. assert (length found <? cap = true) as Q by (apply Nat.ltb_lt; lia). rewrite Q. cbn [contract bind].
    rewrite (aget_some _ _ _ E). cbn [bind]. rewrite (IH nx fuel (found ++ [N.of_nat x]) C) by (rewrite ?app_length; cbn [length]; lia). rewrite <- app_assoc. reflexivity.
Qed.
Definition others (n : nat) (own : list nat) : list nat := filter (fun i => negb (mem i own)) (seq 0 n).
Lemma sorted_seq : forall f n a, StronglySorted N.le (map N.of_nat (filter f (seq a n))).
Proof.
  intros f. induction n as [|n IH]; intros a; cbn; [constructor|]. destruct (f a); [|apply IH]. cbn. constructor; [apply IH|]. apply Forall_forall. intros y Y.
  apply in_map_iff in Y. destruct Y as (z & <- & Z). apply filter_In in Z. destruct Z as [Z _]. apply in_seq in Z. lia.
Qed.
Lemma free_good : forall s n own c a L, good s n own c a L -> free_indices s = Ok (map N.of_nat (others n own)).
Proof.
  intros s n own c a L G. pose proof (good_len _ _ _ _ _ _ G) as Ln. unfold free_indices. rewrite (g_a _ _ _ _ _ _ G), (g_n _ _ _ _ _ _ G). cbn [opt bind].
  rewrite (collect_ok a n L) by (exact (g_chain _ _ _ _ _ _ G) || (cbn [length]; lia)). cbn [app bind].
  assert (Permutation L (others n own)) as P.
  { apply NoDup_Permutation; [exact (nodup_l _ _ (g_nd _ _ _ _ _ _ G))|apply NoDup_filter, seq_NoDup|]. intros i. unfold others. rewrite filter_In, in_seq, negb_true_iff, mem_not.
    pose proof (g_all _ _ _ _ _ _ G i) as A. rewrite in_app_iff in A. pose proof (g_nd _ _ _ _ _ _ G) as Nd. split.
    - intros J. split; [assert (i < n) by tauto; lia|]. intros K. clear -Nd J K. induction L as [|x L IH]; [destruct J|]. cbn in Nd. inversion Nd; subst. destruct J as [->|J]; [apply H1, in_or_app; auto|]. apply IH; assumption.
    - intros [J K]. assert (i < n) as Li by lia. apply A in Li. tauto. }
  destruct (C68_sorts (map N.of_nat L) (repeat 0%N (length (map N.of_nat L))) (length (map N.of_nat L))) as (so & tmp & E & Pm & S & _).
  - lia.
  - rewrite repeat_length. lia.
  - rewrite firstn_all. apply Forall_forall. intros y Y. apply in_map_iff in Y. destruct Y as (z & <- & Z). assert (z < n) by (apply (g_all _ _ _ _ _ _ G), in_or_app; auto). pose proof (g_max _ _ _ _ _ _ G). lia.
  - rewrite firstn_all in Pm. rewrite skipn_all, app_nil_r in E. rewrite E. cbn. f_equal. apply C68_unique; [|exact S|apply sorted_seq].
    rewrite <- Pm. apply Permutation_map. exact P.
Qed.

(* the loop visits the owned nodes *)
Fixpoint vloop (func : st -> nat -> list tev -> outcome (st * list tev * bool)) (l : list nat) (s : st) (tr : list tev) (n : nat) : outcome (st * list tev * nat) :=
  match l with
  | [] => Ok (s, tr, n)
  | i :: l =>
      let! c := opt (cells s) in
      let! live := aget c i in
      let! _ := defined live in
      let! r := func s i (tr ++ [Visit i]) in
      if snd r then vloop func l (fst (fst r)) (snd (fst r)) (n + 1) else Ok (fst (fst r), snd (fst r), n + 1)
  end.
Lemma bind_ext : forall {A B} (x : outcome A) (f g : A -> outcome B), (forall a, f a = g a) -> bind x f = bind x g.
Proof. intros A B [] f g H; cbn; auto. Qed.
Lemma loop_vloop : forall func own todo i P s tr n,
  loop func (P ++ map N.of_nat (filter (fun j => negb (mem j own)) (seq i todo))) todo i (length P) s tr n = vloop func (filter (fun j => mem j own) (seq i todo)) s tr n.
Proof.
  intros func own. induction todo as [|todo IH]; intros i P s tr n; [reflexivity|]. cbn [seq filter loop]. destruct (mem i own) eqn:M; cbn [negb].
  - assert ((length (P ++ map N.of_nat (filter (fun j => negb (mem j own)) (seq (S i) todo))) <=? length P) ||
            (N.of_nat i <? nth (length P) (P ++ map N.of_nat (filter (fun j => negb (mem j own)) (seq (S i) todo))) 0)%N = true) as ->.
    { rewrite app_nth2, Nat.sub_diag, app_length by lia. destruct (filter (fun j => negb (mem j own)) (seq (S i) todo)) as [|y r] eqn:F.
      - cbn. rewrite Nat.add_0_r, Nat.leb_refl. reflexivity.
      - apply orb_true_iff. right. cbn [map nth]. apply N.ltb_lt. assert (In y (filter (fun j => negb (mem j own)) (seq (S i) todo))) as Y by (rewrite F; left; reflexivity).
        apply filter_In in Y. destruct Y as [Y _]. apply in_seq in Y. lia. }
    cbn [vloop]. apply bind_ext. intros c. apply bind_ext. intros lv. apply bind_ext. intros []. apply bind_ext. intros r. destruct (snd r); [|reflexivity]. rewrite Nat.add_1_r. apply IH.
  - cbn [map]. assert ((length (P ++ N.of_nat i :: map N.of_nat (filter (fun j => negb (mem j own)) (seq (S i) todo))) <=? length P) ||
            (N.of_nat i <? nth (length P) (P ++ N.of_nat i :: map N.of_nat (filter (fun j => negb (mem j own)) (seq (S i) todo))) 0)%N = false) as ->.
    { rewrite app_nth2, Nat.sub_diag, app_length by lia. apply orb_false_iff. split; [apply Nat.leb_gt; cbn; lia|apply N.ltb_ge; cbn; lia]. }
    rewrite app_nth2, Nat.sub_diag by lia. cbn [nth]. rewrite N.eqb_refl. cbn [contract bind].
    specialize (IH (S i) (P ++ [N.of_nat i]) s tr n). rewrite app_length in IH. cbn [length] in IH. rewrite <- app_assoc in IH. rewrite Nat.add_1_r. exact IH.
Qed.
Lemma iterate_good : forall func s n own c a L, good s n own c a L -> iterate func s = vloop func (ascending n own) s [] 0.
Proof.
  intros func s n own c a L G. unfold iterate. rewrite (g_c _ _ _ _ _ _ G), (free_good _ _ _ _ _ _ G). cbn [bind]. rewrite (g_n _ _ _ _ _ _ G).
  exact (loop_vloop func own n 0 [] s [] 0).
Qed.
Lemma ascending_In : forall s n own c a L, good s n own c a L -> forall i, In i (ascending n own) <-> In i own.
Proof. intros s n own c a L G i. unfold ascending. rewrite filter_In, in_seq, mem_In. pose proof (proj2 (good_own _ _ _ _ _ _ G) i). intuition lia. Qed.
Lemma ascending_NoDup : forall n own, NoDup (ascending n own).
Proof. intros n own. apply NoDup_filter, seq_NoDup. Qed.
Lemma ascending_len : forall s n own c a L, good s n own c a L -> length (ascending n own) = length own.
Proof. intros s n own c a L G. apply Permutation_length, NoDup_Permutation; [apply ascending_NoDup|exact (proj1 (good_own _ _ _ _ _ _ G))|exact (ascending_In _ _ _ _ _ _ G)]. Qed.

(* destructors *)
Lemma destruct_all : forall l s c tr m, cells s = Some c -> NoDup l -> (forall i, In i l -> nth_error c i = Some true) ->
  exists s' tr', vloop (fun s i tr => let! s := destruct_node s i in Ok (s, tr, true)) l s tr m = Ok (s', tr', m + length l) /\
    ctors s' = ctors s /\ dtors s' = rev l ++ dtors s /\ blocks s' = blocks s /\ head s' = head s.
Proof.
  induction l as [|i l IH]; intros s c tr m Ec D Hl.
  - cbn. rewrite Nat.add_0_r. eauto 10.
  - inversion D as [|? ? N D']; subst. pose proof (Hl i (or_introl eq_refl)) as Hi. cbn [vloop]. rewrite Ec. cbn [opt bind]. rewrite (aget_some _ _ _ Hi). cbn [defined bind].
    unfold destruct_node at 1. rewrite Ec. cbn [opt bind]. rewrite (aget_some _ _ _ Hi). cbn [defined bind fst snd].
    destruct (IH (mks (Some (lset c i false)) (flist s) (size s) (head s) (ctors s) (i :: dtors s) (blocks s)) (lset c i false) (tr ++ [Visit i]) (m + 1)) as (s' & tr' & E & A & B & C1 & C2); [reflexivity|exact D'| |].
    + intros j J. rewrite nth_lset by (apply nth_error_Some; congruence). destruct (Nat.eqb_spec j i) as [->|]; [tauto|]. apply Hl. right. exact J.
    + exists s', tr'. rewrite E. cbn in *. split; [f_equal; f_equal; lia|]. repeat split; auto. rewrite B, <- app_assoc. reflexivity.
Qed.
(* release_all *)
Lemma release_each : forall l s n own c a L tr m, good s n own c a L -> NoDup l -> incl l own ->
  exists s' tr' own' c' a' L', vloop (fun s i tr => let! s := release k s i in Ok (s, tr ++ [Released i], true)) l s tr m = Ok (s', tr', m + length l) /\
    good s' n own' c' a' L' /\ forall j, In j own' <-> In j own /\ ~ In j l.
Proof.
  induction l as [|i l IH]; intros s n own c a L tr m G D Hl.
  - cbn. rewrite Nat.add_0_r. do 6 eexists. split; [reflexivity|]. split; [exact G|]. tauto.
  - inversion D as [|? ? N D']; subst. pose proof (Hl i (or_introl eq_refl)) as Hi. cbn [vloop]. rewrite (g_c _ _ _ _ _ _ G). cbn [opt bind].
    rewrite (aget_some _ _ _ (g_live _ _ _ _ _ _ G i (proj2 (good_own _ _ _ _ _ _ G) i Hi))). apply mem_In in Hi as M. rewrite M. cbn [defined bind].
    destruct (release_good _ _ _ _ _ _ _ G Hi) as (s1 & a1 & E & G1). rewrite E. cbn [bind fst snd]. pose proof (proj1 (good_own _ _ _ _ _ _ G)) as No.
    destruct (IH s1 n (drop i own) _ _ _ ((tr ++ [Visit i]) ++ [Released i]) (m + 1) G1 D') as (s' & tr' & own' & c' & a' & L' & E' & G' & O').
    + intros j J. apply drop_In; [exact No|]. split; [apply Hl; right; exact J|]. intros ->. tauto.
    + exists s', tr', own', c', a', L'. rewrite E'. cbn. split; [f_equal; f_equal; lia|]. split; [exact G'|]. intros j. rewrite O', drop_In by exact No. intuition congruence.
Qed.

(* visitors *)
Lemma owned_app : forall tr own tr', owned own (tr ++ tr') = owned (owned own tr) tr'.
Proof. induction tr as [|[i|i|i] tr IH]; intros own tr'; cbn; auto. Qed.
Lemma visits_app : forall tr tr', visits (tr ++ tr') = visits tr ++ visits tr'.
Proof. induction tr as [|[i|i|i] tr IH]; intros tr'; cbn; rewrite ?IH; reflexivity. Qed.
Lemma fresh_app : forall tr tr', fresh (tr ++ tr') = fresh tr ++ fresh tr'.
Proof. induction tr as [|[i|i|i] tr IH]; intros tr'; cbn; rewrite ?IH; reflexivity. Qed.
Lemma split_two : forall {A} (p : list A) x q p' y q', p ++ x :: q = p' ++ y :: q' ->
  (p = p' /\ x = y /\ q = q') \/ (exists r, p = p' ++ y :: r) \/ (exists r, q = r ++ y :: q').
Proof.
  intros A. induction p as [|z p IH]; intros x q p' y q' E; destruct p' as [|w p']; cbn in E; injection E as E1 E2.
  - left. auto.
  - subst. right. right. exists p'. reflexivity.
  - subst. right. left. exists p. reflexivity.
  - subst. destruct (IH _ _ _ _ _ E2) as [(-> & -> & ->)|[[r ->]|[r ->]]]; [left; auto|right; left; exists r; reflexivity|right; right; exists r; reflexivity].
Qed.
Definition fair (n : nat) (own : list nat) (tr : list tev) : Prop := forall p i q, tr = p ++ Acquired i :: q -> i < n /\ ~ In i (owned own p).
Lemma fair_snoc : forall n own tr e, fair n own tr -> (forall i, e = Acquired i -> i < n /\ ~ In i (owned own tr)) -> fair n own (tr ++ [e]).
Proof.
  intros n own tr e F He p i q E. symmetry in E. destruct (split_two _ _ _ _ _ _ E) as [(-> & X & _)|[[r ->]|[r R]]].
  - apply He. congruence.
  - rewrite <- app_assoc in E. cbn in E. apply app_inv_head in E. injection E as E. destruct r; discriminate.
  - subst q. rewrite app_comm_cons, app_assoc in E. apply app_inj_tail in E. exact (F p i r (eq_sym (proj1 E))).
Qed.
Lemma acts_good : forall own0 n l tr s c a L, permitted n own0 tr l -> good s n (owned own0 tr) c a L -> fair n own0 tr ->
  exists s' q c' a' L', acts k s l tr = Ok (s', tr ++ q) /\ visits q = [] /\ good s' n (owned own0 (tr ++ q)) c' a' L' /\ fair n own0 (tr ++ q) /\
    forall j, In j (owned own0 tr) -> ~ In j (visits tr) -> ~ In j (fresh tr) -> In j (owned own0 (tr ++ q)) /\ ~ In j (fresh (tr ++ q)).
Proof.
  intros own0 n. induction l as [|[|i] l IH]; intros tr s c a L Pm G F; cbn [permitted] in Pm.
  - exists s, [], c, a, L. rewrite app_nil_r. split; [reflexivity|]. split; [reflexivity|]. split; [exact G|]. split; [exact F|]. auto.
  - destruct Pm as [Ln Pm]. destruct L as [|x L]; [pose proof (good_len _ _ _ _ _ _ G) as X; cbn in X; lia|].
    destruct (acquire_good _ _ _ _ _ _ _ G) as (s1 & E & G1). cbn [acts]. rewrite E. cbn [bind fst snd].
    assert (x < n /\ ~ In x (owned own0 tr)) as Fx.
    { split; [apply (g_all _ _ _ _ _ _ G); left; reflexivity|]. intros J. pose proof (g_nd _ _ _ _ _ _ G) as Nd. cbn in Nd. inversion Nd; subst. apply H1, in_or_app. auto. }
    destruct (IH (tr ++ [Acquired x]) s1 (lset c x true) a L (Pm x)) as (s' & q & c' & a' & L' & E' & V & G' & F' & O').
    + rewrite owned_app. exact G1.
    + apply fair_snoc; [exact F|]. intros j X. injection X as <-. exact Fx.
    + exists s', (Acquired x :: q), c', a', L'. rewrite <- app_assoc in *. cbn [app] in *. split; [exact E'|]. split; [exact V|]. split; [exact G'|]. split; [exact F'|].
      intros j J1 J2 J3. rewrite owned_app, visits_app, fresh_app in O'. cbn in O'. apply O'; [right; exact J1|rewrite app_nil_r; exact J2|].
      intros J. apply in_app_or in J. destruct J as [J|[J|[]]]; [tauto|subst j; tauto].
  - destruct Pm as (Hi & Hv & Pm). destruct (release_good _ _ _ _ _ _ _ G Hi) as (s1 & a1 & E & G1). cbn [acts]. rewrite E. cbn [bind].
    destruct (IH (tr ++ [Released i]) s1 (lset c i false) a1 (i :: L) Pm) as (s' & q & c' & a' & L' & E' & V & G' & F' & O').
    + rewrite owned_app. exact G1.
    + apply fair_snoc; [exact F|]. discriminate.
    + exists s', (Released i :: q), c', a', L'. rewrite <- app_assoc in *. cbn [app] in *. split; [exact E'|]. split; [exact V|]. split; [exact G'|]. split; [exact F'|].
      intros j J1 J2 J3. rewrite owned_app, visits_app, fresh_app, !app_nil_r in O'. cbn in O'. apply O'; [|exact J2|exact J3].
      apply drop_In; [exact (proj1 (good_own _ _ _ _ _ _ G))|]. split; [exact J1|]. intros ->. tauto.
Qed.
Definition on (vis : visitor) (tr : list tev) : Prop := forall p i q, tr = p ++ Visit i :: q -> snd (vis (p ++ [Visit i])) = true.
Lemma on_app : forall vis tr q i, on vis tr -> snd (vis (tr ++ [Visit i])) = true -> visits q = [] -> on vis ((tr ++ [Visit i]) ++ q).
Proof.
  intros vis tr q i H Hi V p j r E. rewrite <- app_assoc in E. cbn in E. destruct (split_two _ _ _ _ _ _ E) as [(-> & X & _)|[[t ->]|[t ->]]].
  - injection X as ->. exact Hi.
  - exact (H p j t eq_refl).
  - rewrite visits_app in V. cbn in V. destruct (visits t); discriminate.
Qed.
Lemma visit_each : forall own0 n vis, obeys n own0 vis -> forall l tr s c a L m, good s n (owned own0 tr) c a L -> fair n own0 tr -> on vis tr -> NoDup l ->
  (forall j, In j l -> In j (owned own0 tr) /\ ~ In j (visits tr) /\ ~ In j (fresh tr)) ->
  exists s' tr' u c' a' L', vloop (visit k vis) l s tr m = Ok (s', tr', m + u) /\ u <= length l /\ visits tr' = visits tr ++ firstn u l /\
    good s' n (owned own0 tr') c' a' L' /\ fair n own0 tr' /\
    ((u = length l /\ on vis tr') \/ exists p i q, tr' = p ++ Visit i :: q /\ on vis p /\ visits q = [] /\ snd (vis (p ++ [Visit i])) = false).
Proof.
  intros own0 n vis Ob. induction l as [|i l IH]; intros tr s c a L m G F On D Hl.
  - exists s, tr, 0, c, a, L. cbn. rewrite Nat.add_0_r, app_nil_r. split; [reflexivity|]. split; [lia|]. split; [reflexivity|]. split; [exact G|]. split; [exact F|]. left. split; [reflexivity|exact On].
  - inversion D as [|? ? N D']; subst. destruct (Hl i (or_introl eq_refl)) as (H1 & H2 & H3). cbn [vloop]. rewrite (g_c _ _ _ _ _ _ G). cbn [opt bind].
    rewrite (aget_some _ _ _ (g_live _ _ _ _ _ _ G i (proj2 (good_own _ _ _ _ _ _ G) i H1))). apply mem_In in H1 as M. rewrite M. cbn [defined bind]. unfold visit at 1.
    assert (owned own0 (tr ++ [Visit i]) = owned own0 tr) as Eo by (rewrite owned_app; reflexivity).
    destruct (acts_good own0 n (fst (vis (tr ++ [Visit i]))) (tr ++ [Visit i]) s c a L (Ob tr i)) as (s1 & q & c1 & a1 & L1 & E & V & G1 & F1 & O1).
    + rewrite Eo. exact G.
    + apply fair_snoc; [exact F|discriminate].
    + rewrite E. cbn [bind fst snd]. destruct (snd (vis (tr ++ [Visit i]))) eqn:B.
      * destruct (IH ((tr ++ [Visit i]) ++ q) s1 c1 a1 L1 (m + 1) G1 F1 (on_app _ _ _ _ On B V) D') as (s' & tr' & u & c' & a' & L' & E' & U & V' & G' & F' & W).
        { intros j J. destruct (Hl j (or_intror J)) as (K1 & K2 & K3). rewrite Eo, visits_app, fresh_app in O1. cbn [visits fresh] in O1. rewrite app_nil_r in O1.
          assert (j <> i) as Ne by (intros ->; tauto).
          destruct (O1 j K1) as (X & Y); [intros Z; apply in_app_or in Z; destruct Z as [Z|[Z|[]]]; congruence|exact K3|]. split; [exact X|]. split; [|exact Y].
          rewrite !visits_app, V. cbn. rewrite app_nil_r. intros Z. apply in_app_or in Z. destruct Z as [Z|[Z|[]]]; congruence. }
        exists s', tr', (S u), c', a', L'. rewrite E'. split; [f_equal; f_equal; lia|]. split; [cbn; lia|]. split.
        { rewrite V', !visits_app, V. cbn. rewrite app_nil_r, <- app_assoc. reflexivity. }
        split; [exact G'|]. split; [exact F'|]. destruct W as [[W1 W2]|W]; [left; split; [cbn; lia|exact W2]|right; exact W].
      * exists s1, ((tr ++ [Visit i]) ++ q), 1, c1, a1, L1. split; [reflexivity|]. split; [cbn; lia|]. split.
        { rewrite !visits_app, V. cbn. rewrite app_nil_r. reflexivity. }
        split; [exact G1|]. split; [exact F1|]. right. exists tr, i, q. rewrite <- app_assoc. auto.
Qed.

(* initialize *)
Lemma link_ok : forall todo i a, i + todo <= length a ->
  exists a', link_loop todo i a = Ok a' /\ length a' = length a /\ forall j, nth_error a' j = if (i <=? j) && (j <? i + todo) then Some (Some (j + 1)) else nth_error a j.
Proof.
  induction todo as [|todo IH]; intros i a Hl; cbn [link_loop].
  - exists a. split; [reflexivity|]. split; [reflexivity|]. intros j. destruct (Nat.leb_spec i j), (Nat.ltb_spec j (i + 0)); cbn; try reflexivity. lia.
  - rewrite aset_Ok by lia. cbn [bind]. destruct (IH (i + 1) (lset a i (Some (i + 1)))) as (a' & E & Le & Nt); [rewrite lset_length; lia|].
    exists a'. split; [exact E|]. split; [rewrite Le, lset_length; reflexivity|]. intros j. rewrite Nt, nth_lset by lia.
    destruct (Nat.eqb_spec j i) as [->|Ne].
    + assert (i + 1 <=? i = false) as -> by (apply Nat.leb_gt; lia). cbn [andb]. rewrite Nat.leb_refl. assert (i <? i + S todo = true) as -> by (apply Nat.ltb_lt; lia). reflexivity.
    + destruct (Nat.leb_spec (i + 1) j), (Nat.leb_spec i j), (Nat.ltb_spec j (i + 1 + todo)), (Nat.ltb_spec j (i + S todo)); cbn [andb]; try reflexivity; lia.
Qed.
Lemma chain_seq : forall a m i, (forall j, i <= j -> j < i + m -> nth_error a j = Some (if j =? i + m - 1 then None else Some (j + 1))) -> 0 < m -> chain a (Some i) (seq i m).
Proof.
  intros a. induction m as [|m IH]; intros i H P; [lia|]. cbn [seq chain]. split; [reflexivity|]. exists (if i =? i + S m - 1 then None else Some (i + 1)). split; [apply H; lia|].
  destruct m as [|m].
  - assert (i =? i + 1 - 1 = true) as -> by (apply Nat.eqb_eq; lia). reflexivity.
  - assert (i =? i + S (S m) - 1 = false) as -> by (apply Nat.eqb_neq; lia). rewrite Nat.add_1_r. apply IH; [|lia]. intros j J1 J2. rewrite H by lia. f_equal.
    replace (S i + S m - 1) with (i + S (S m) - 1) by lia. reflexivity.
Qed.
Lemma nth_repeat : forall {A} (x : A) n i, i < n -> nth_error (repeat x n) i = Some x.
Proof. intros A x. induction n as [|n IH]; intros [|i] H; cbn; try reflexivity; try lia. apply IH. lia. Qed.
Lemma init_good : forall s n, 1 <= extra -> n <> 0 -> cells s = None -> blocks s = 0 ->
  (tc k = false -> td k = false -> forall i, count_occ Nat.eq_dec (ctors s) i = count_occ Nat.eq_dec (dtors s) i) ->
  if (N.of_nat n <=? max_nodes k)%N && (1 <? n)
  then exists s' c a L, initialize k extra s n = Ok s' /\ good s' n [] c a L
  else initialize k extra s n = Contract.
Proof.
  intros s n Ex Nz Ec Eb Bal. unfold initialize. assert (n =? 0 = false) as -> by (apply Nat.eqb_neq; exact Nz).
  destruct (N.leb_spec (N.of_nat n) (max_nodes k)) as [Mx|Mx]; cbn [andb contract bind]; [|reflexivity].
  destruct (Nat.ltb_spec 1 n) as [On|On]; cbn [contract bind]; [|reflexivity]. rewrite Ec. cbn [contract bind].
  destruct (link_ok (n - 1) 0 (repeat None (n - 1 + extra))) as (a & E & Le & Nt); [rewrite repeat_length; lia|]. rewrite E. cbn [bind].
  rewrite repeat_length in Le. rewrite aset_Ok by lia. cbn [bind]. eexists. exists (repeat false n), (lset a (n - 1) None), (seq 0 n). split; [reflexivity|].
  assert (max_nodes k < 2 ^ 32)%N as Mk by (unfold max_nodes; destruct (chk k); reflexivity).
  constructor; cbn [cells flist size head ctors dtors blocks]; auto.
  - apply repeat_length.
  - rewrite lset_length. lia.
  - lia.
  - apply chain_seq; [|lia]. intros j _ J. rewrite nth_lset by lia. cbn [Nat.add]. destruct (j =? n - 1) eqn:Ej; [reflexivity|]. apply Nat.eqb_neq in Ej. rewrite Nt.
    cbn [Nat.leb andb]. assert (j <? 0 + (n - 1) = true) as -> by (apply Nat.ltb_lt; lia). reflexivity.
  - rewrite app_nil_r. apply seq_NoDup.
  - intros i. rewrite app_nil_r, in_seq. lia.
  - intros i Hi. apply nth_repeat. exact Hi.
  - intros T D i. rewrite (Bal T D i). cbn. lia.
  - rewrite Eb. reflexivity.
Qed.
Definition clear_st (s : st) : Prop := cells s = None /\ size s = 0 /\ blocks s = 0 /\
  (tc k = false -> td k = false -> forall i, count_occ Nat.eq_dec (ctors s) i = count_occ Nat.eq_dec (dtors s) i).
Lemma count_rev : forall l i, count_occ Nat.eq_dec (rev l) i = count_occ Nat.eq_dec l i.
Proof. induction l as [|x l IH]; intros i; cbn; [reflexivity|]. rewrite count_occ_app, IH. cbn. destruct (Nat.eq_dec x i); lia. Qed.
Lemma count_one : forall l i, NoDup l -> count_occ Nat.eq_dec l i = if mem i l then 1 else 0.
Proof.
  intros l i D. destruct (mem i l) eqn:M.
  - apply NoDup_count_occ'; [exact D|]. apply mem_In. exact M.
  - apply count_occ_not_In. apply mem_not. exact M.
Qed.
Lemma destroy_good : forall s n own c a L, good s n own c a L -> exists s', destroy k s = Ok s' /\ clear_st s'.
Proof.
  intros s n own c a L G. unfold destroy. rewrite (g_c _ _ _ _ _ _ G). destruct (td k) eqn:T.
  - cbn [bind fst snd]. eexists. split; [reflexivity|]. unfold clear_st. cbn. rewrite (g_blocks _ _ _ _ _ _ G), Nat.sub_diag. repeat split. congruence.
  - rewrite (iterate_good _ _ _ _ _ _ _ G).
    destruct (destruct_all (ascending n own) s c [] 0 (g_c _ _ _ _ _ _ G) (ascending_NoDup n own)) as (s' & tr & E & A & B & C1 & C2).
    + intros i J. apply (ascending_In _ _ _ _ _ _ G) in J as J'. rewrite (g_live _ _ _ _ _ _ G i (proj2 (good_own _ _ _ _ _ _ G) i J')). apply mem_In in J'. rewrite J'. reflexivity.
    + rewrite E. cbn [bind fst snd]. eexists. split; [reflexivity|]. unfold clear_st. cbn. rewrite C1, (g_blocks _ _ _ _ _ _ G), Nat.sub_diag. repeat split. intros Tc Td i.
      rewrite A, B, count_occ_app, count_rev, (count_one (ascending n own)) by apply ascending_NoDup. rewrite (g_bal _ _ _ _ _ _ G Tc Td i).
      assert (mem i (ascending n own) = mem i own) as -> by (apply eq_true_iff_eq; rewrite !mem_In; apply (ascending_In _ _ _ _ _ _ G)). lia.
Qed.

Definition rep (s : st) (p : sp) : Prop := match p with None => clear_st s | Some (n, own) => exists c a L, good s n own c a L end.
Lemma step_ok : forall s p o, 1 <= extra -> rep s p -> allowed p o ->
  (refused k p o -> step k extra s o = Contract) /\
  (~ refused k p o -> exists s' r, step k extra s o = Ok (s', r) /\ expected p o r /\ rep s' (after p o r)).
Proof.
  intros s p o Ex R Al. destruct o as [n| | |i|vis| | |].
  - assert (largest k = max_nodes k) as LM by (unfold largest, max_nodes; destruct (chk k); reflexivity). cbn [step]. destruct p as [[m own]|]; cbn [refused]; rewrite ?LM.
    + destruct R as (c & a & L & G). unfold initialize. rewrite (g_c _ _ _ _ _ _ G). split.
      * intros Nz. assert (n =? 0 = false) as -> by (apply Nat.eqb_neq; exact Nz). destruct (_ <=? _)%N; [|reflexivity]. destruct (1 <? n); reflexivity.
      * intros Nz. destruct (Nat.eqb_spec n 0) as [->|]; [|tauto]. exists s, RUnit. cbn. split; [reflexivity|]. split; [reflexivity|]. eauto.
    + destruct R as (A & B & C & D). destruct (Nat.eqb_spec n 0) as [->|Nz].
      * split; [intros [X|X]; [discriminate|]|].
        -- exfalso. unfold max_nodes in X. destruct (chk k); cbn in X; lia.
        -- intros _. exists s, RUnit. cbn. split; [reflexivity|]. split; [reflexivity|]. repeat split; assumption.
      * pose proof (init_good s n Ex Nz A C D) as H. destruct (N.leb_spec (N.of_nat n) (max_nodes k)), (Nat.ltb_spec 1 n); cbn [andb] in H.
        -- split; [lia|]. intros _. destruct H as (s' & c & a & L & E & G). exists s', RUnit. rewrite E. cbn. split; [reflexivity|]. split; [reflexivity|].
           assert (n =? 0 = false) as -> by (apply Nat.eqb_neq; exact Nz). cbn. eauto.
        -- split; [intros _; rewrite H; reflexivity|]. intros X. exfalso. apply X. left. lia.
        -- split; [intros _; rewrite H; reflexivity|]. intros X. exfalso. apply X. right. assumption.
        -- split; [intros _; rewrite H; reflexivity|]. intros X. exfalso. apply X. right. assumption.
  - split; [destruct p as [[? ?]|]; intros []|]. intros _. cbn [step]. destruct p as [[m own]|].
    + destruct R as (c & a & L & G). destruct (destroy_good _ _ _ _ _ _ G) as (s' & E & C). exists s', RUnit. rewrite E. cbn. auto.
    + exists s, RUnit. unfold destroy. destruct R as (A & B & C & D). rewrite A. cbn. split; [reflexivity|]. split; [reflexivity|]. repeat split; assumption.
  - destruct p as [[n own]|]; [|destruct Al]. destruct R as (c & a & L & G). pose proof (good_len _ _ _ _ _ _ G) as Ln. cbn [step refused]. destruct L as [|x L].
    + rewrite (acquire_full _ _ _ _ _ G). split; [reflexivity|]. cbn in Ln. intros X. lia.
    + destruct (acquire_good _ _ _ _ _ _ _ G) as (s' & E & G'). rewrite E. cbn [bind fst snd]. cbn [length] in Ln. split; [lia|]. intros _. exists s', (RNode x). split; [reflexivity|]. split.
      * cbn. exists x. split; [reflexivity|]. split; [apply (g_all _ _ _ _ _ _ G); left; reflexivity|]. intros J. pose proof (g_nd _ _ _ _ _ _ G) as Nd. cbn in Nd. inversion Nd; subst. apply H1, in_or_app. auto.
      * cbn. eauto.
  - destruct p as [[n own]|]; [|destruct Al]. destruct R as (c & a & L & G). cbn in Al. split; [intros []|]. intros _. cbn [step].
    destruct (release_good _ _ _ _ _ _ _ G Al) as (s' & a' & E & G'). exists s', RUnit. rewrite E. cbn. split; [reflexivity|]. split; [reflexivity|]. eauto.
  - split; [destruct p as [[? ?]|]; intros []|]. intros _. cbn [step]. destruct p as [[n own]|].
    + destruct R as (c & a & L & G). cbn in Al. rewrite (iterate_good _ _ _ _ _ _ _ G).
      destruct (visit_each own n vis Al (ascending n own) [] s c a L 0 G) as (s' & tr & u & c' & a' & L' & E & U & V & G' & F & W).
      * intros p i q X. destruct p; discriminate.
      * intros p i q X. destruct p; discriminate.
      * apply ascending_NoDup.
      * intros j J. apply (ascending_In _ _ _ _ _ _ G) in J. cbn. tauto.
      * rewrite E. cbn [bind fst snd]. cbn in V. exists s', (RTrace tr (0 + u)). split; [reflexivity|]. split; [|cbn; eauto].
        cbn [expected]. exists tr, u. split; [reflexivity|]. split; [exact V|]. split; [rewrite V, firstn_length; lia|]. split; [|split].
        -- intros p i q X Sf. destruct W as [[_ On]|(p' & i' & q' & X' & On & Vq & Sf')].
           ++ rewrite (On _ _ _ X) in Sf. discriminate.
           ++ rewrite X in X'. destruct (split_two _ _ _ _ _ _ X') as [(-> & Y & ->)|[[r ->]|[r ->]]]; [exact Vq| |].
              ** exfalso. rewrite <- app_assoc in X'. cbn in X'. apply app_inv_head in X'. injection X' as X'. rewrite <- X', visits_app in Vq. cbn in Vq. destruct (visits r); discriminate.
              ** exfalso. rewrite app_comm_cons, app_assoc in X'. apply app_inv_tail in X'. rewrite (On p i r (eq_sym X')) in Sf. discriminate.
        -- intros Lt. destruct W as [[-> _]|(p' & i' & q' & X' & _ & _ & Sf')]; [lia|]. eauto.
        -- exact F.
    + destruct R as (A & B & C & D). exists s, (RTrace [] 0). unfold iterate. rewrite A. cbn. split; [reflexivity|]. split; [reflexivity|]. repeat split; assumption.
  - split; [destruct p as [[? ?]|]; intros []|]. intros _. cbn [step]. unfold release_all. destruct p as [[n own]|].
    + destruct R as (c & a & L & G). rewrite (iterate_good _ _ _ _ _ _ _ G).
      destruct (release_each (ascending n own) s n own c a L [] 0 G (ascending_NoDup n own)) as (s' & tr & own' & c' & a' & L' & E & G' & In').
      { intros j J. apply (ascending_In _ _ _ _ _ _ G). exact J. }
      assert (own' = []) as ->. { destruct own' as [|j own']; [reflexivity|]. exfalso. destruct (proj1 (In' j) (or_introl eq_refl)) as [J1 J2]. apply J2, (ascending_In _ _ _ _ _ _ G), J1. }
      rewrite E. cbn [bind fst snd]. exists s', (RNum (length own)). cbn [Nat.add]. rewrite (ascending_len _ _ _ _ _ _ G). split; [reflexivity|]. split; [reflexivity|]. cbn. eauto.
    + destruct R as (A & B & C & D). exists s, (RNum 0). unfold iterate. rewrite A. cbn. split; [reflexivity|]. split; [reflexivity|]. repeat split; assumption.
  - destruct p as [[n own]|]; [|destruct Al]. split; [intros []|]. intros _. destruct R as (c & a & L & G). exists s, (RBool (is_full s)). split; [reflexivity|]. split; [|cbn; eauto].
    cbn [expected]. f_equal. pose proof (good_len _ _ _ _ _ _ G) as Ln. pose proof (g_chain _ _ _ _ _ _ G) as Ch. unfold is_full. destruct L as [|x L]; cbn in Ch.
    + rewrite Ch. symmetry. apply Nat.eqb_eq. exact Ln.
    + destruct Ch as [-> _]. symmetry. apply Nat.eqb_neq. cbn in Ln. lia.
  - split; [destruct p as [[? ?]|]; intros []|]. intros _. exists s, (RNum (size s)). split; [reflexivity|]. destruct p as [[n own]|].
    + destruct R as (c & a & L & G). cbn. rewrite (g_n _ _ _ _ _ _ G). split; [reflexivity|]. eauto.
    + destruct R as (A & B & C & D). cbn. rewrite B. split; [reflexivity|]. repeat split; assumption.
Qed.
Lemma exec_rep : forall s p, 1 <= extra -> exec k extra s p -> rep s p.
Proof.
  intros s p Ex X. induction X as [|s p o s' r X IH Al E].
  - cbn. repeat split.
  - destruct (step_ok s p o Ex IH Al) as [A B].
    assert (~ refused k p o) as Nr by (intros J; rewrite (A J) in E; discriminate).
    destruct (B Nr) as (s2 & r2 & E2 & _ & R2). rewrite E in E2. injection E2 as <- <-. exact R2.
Qed.
End Good.

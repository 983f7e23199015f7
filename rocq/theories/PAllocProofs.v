From Coq Require Import NArith List Bool Arith Lia Permutation.
From Verif Require Import Base PAllocModel.
Import ListNotations.

(* the free slots of a pool, the one to be used next first *)
Definition fslots (a : pool) : list (option slot) := skipn (curr (free_list a)) (ptrs (free_list a)) ++ concat (map ptrs (free_list_next a)).
Definition wf_pool (bs : nat) (a : pool) : Prop :=
  length (ptrs (free_list a)) = bs /\ curr (free_list a) <= bs /\ Forall (fun b => curr b = 0 /\ length (ptrs b) = bs) (free_list_next a).

Lemma skipn_S_nth : forall A (l : list A) i x, nth_error l i = Some x -> skipn i l = x :: skipn (S i) l.
Proof. induction l as [|y l IH]; intros [|i] x H; try discriminate; cbn in H; [injection H as ->; reflexivity|]. cbn [skipn]. now apply IH. Qed.

Lemma palloc_ok : forall bs a n fs, 0 < bs -> wf_pool bs a -> fslots a = map Some fs ->
  match fs with
  | p :: fs' => exists a', palloc bs a n = Ok (Some p, a', n) /\ wf_pool bs a' /\ fslots a' = map Some fs'
  | [] => exists a', palloc bs a n = Ok (Some (n, 0), a', S n) /\ wf_pool bs a' /\ fslots a' = map Some (map (fun i => (n, i)) (seq 1 (bs - 1)))
  end.
Proof.
  intros bs [[c ps] nx] n fs Hbs [W1 [W2 W3]] F. cbn [free_list free_list_next curr ptrs fslots] in *. unfold fslots in F. cbn [free_list free_list_next curr ptrs] in F.
  unfold palloc. cbn [free_list free_list_next]. unfold can_pop. cbn [curr].
  assert (Pop : forall c ps nx, c < bs -> length ps = bs -> Forall (fun b => curr b = 0 /\ length (ptrs b) = bs) nx -> forall fs, skipn c ps ++ concat (map ptrs nx) = map Some fs ->
     exists p fs' , fs = p :: fs' /\ pop bs (mkPB c ps) = Ok (Some p, mkPB (S c) ps) /\ wf_pool bs (mkP (mkPB (S c) ps) nx) /\ fslots (mkP (mkPB (S c) ps) nx) = map Some fs').
  { clear. intros c ps nx Hc L W fs F. destruct (nth_error ps c) as [x|] eqn:E; [|apply nth_error_None in E; lia].
    rewrite (skipn_S_nth _ _ _ _ E) in F. destruct fs as [|p fs]; [discriminate|]. injection F as Fx F. subst x. exists p, fs. split; auto.
    unfold pop, can_pop. cbn [curr ptrs]. apply Nat.ltb_lt in Hc. rewrite Hc. cbn [contract bind]. unfold aget. rewrite E. cbn [bind].
    split; [reflexivity|]. split; [|exact F]. apply Nat.ltb_lt in Hc. split; [exact L|]. split; [cbn; lia|exact W]. }
  destruct (c <? bs) eqn:Ec; cbn [negb bind].
  - apply Nat.ltb_lt in Ec. destruct (Pop c ps nx Ec W1 W3 fs F) as [p [fs' [-> [P1 [P2 P3]]]]]. eexists. cbn [free_list]. rewrite P1. cbn [bind free_list_next]. eauto.
  - apply Nat.ltb_ge in Ec. assert (c = bs) by lia. subst c. rewrite skipn_all2 in F by lia. cbn [app] in F.
    unfold alloc_block, can_pop. cbn [free_list curr free_list_next]. rewrite Nat.ltb_irrefl. cbn [negb contract bind].
    destruct nx as [|[c' ps'] nx].
    + cbn in F. destruct fs; [|discriminate]. cbn [bind free_list free_list_next].
      destruct (Pop 0 (map (fun i => Some (n, i)) (seq 0 bs)) [] Hbs) with (fs := map (fun i => (n, i)) (seq 0 bs)) as [p [fs' [E [P1 [P2 P3]]]]]; auto.
      * now rewrite map_length, seq_length.
      * cbn. rewrite app_nil_r, map_map. reflexivity.
      * destruct bs as [|bs]; [lia|]. cbn [seq map] in E. injection E as <- <-. rewrite P1. cbn [bind]. eexists. split; [reflexivity|]. split; [exact P2|]. rewrite P3. cbn [Nat.sub]. now rewrite Nat.sub_0_r.
    + inversion W3 as [|? ? [B1 B2] W4]; subst. cbn [curr] in B1. subst c'. cbn [bind free_list free_list_next]. cbn [map concat ptrs] in F.
      destruct (Pop 0 ps' nx Hbs B2 W4 fs F) as [p [fs' [-> [P1 [P2 P3]]]]]. rewrite P1. cbn [bind]. eexists. eauto.
Qed.

Lemma pfree_ok : forall bs a p fs, 0 < bs -> wf_pool bs a -> fslots a = map Some fs -> exists a', pfree bs a p = Ok a' /\ wf_pool bs a' /\ fslots a' = map Some (p :: fs).
Proof.
  intros bs [[c ps] nx] p fs Hbs [W1 [W2 W3]] F. unfold fslots in F. cbn [free_list free_list_next curr ptrs] in *.
  assert (Push : forall c ps nx, 0 < c -> c <= bs -> length ps = bs -> Forall (fun b => curr b = 0 /\ length (ptrs b) = bs) nx -> exists b', push (mkPB c ps) p = Ok b' /\
     wf_pool bs (mkP b' nx) /\ fslots (mkP b' nx) = Some p :: skipn c ps ++ concat (map ptrs nx)).
  { clear. intros c ps nx H0 Hc L W. unfold push, can_push. cbn [curr ptrs]. apply Nat.ltb_lt in H0. rewrite H0. cbn [contract bind]. apply Nat.ltb_lt in H0.
    rewrite aset_Ok by lia. cbn [bind]. eexists. split; [reflexivity|]. split; [split; [cbn; now rewrite lset_length|split; [cbn; lia|exact W]]|].
    unfold fslots. cbn [free_list free_list_next curr ptrs]. destruct c as [|c]; [lia|]. cbn [Nat.sub]. rewrite Nat.sub_0_r.
    rewrite (skipn_S_nth _ _ _ (Some p)) by (apply lset_nth_eq; lia). cbn [app]. f_equal. f_equal.
    apply nth_ext_err. intros i. rewrite !nth_error_skipn. apply lset_nth_neq. lia. }
  unfold pfree. cbn [free_list free_list_next]. unfold can_push. cbn [curr].
  destruct (0 <? c) eqn:Ec; cbn [negb bind].
  - apply Nat.ltb_lt in Ec. destruct (Push c ps nx Ec W2 W1 W3) as [b' [P1 [P2 P3]]]. cbn [free_list free_list_next]. rewrite P1. cbn [bind]. eexists. split; [reflexivity|]. split; auto. rewrite P3. cbn [map]. now rewrite F.
  - apply Nat.ltb_ge in Ec. assert (c = 0) by lia. subst c. unfold move_free_block, can_push. cbn [free_list curr free_list_next ptrs Nat.ltb Nat.leb negb contract bind].
    destruct (Push bs ps (mkPB 0 ps :: nx) Hbs (le_n _) W1) as [b' [P1 [P2 P3]]]; [constructor; auto|]. rewrite P1. cbn [bind]. eexists. split; [reflexivity|]. split; auto.
    rewrite P3. cbn [map concat ptrs]. rewrite skipn_all2 by lia. cbn [app]. cbn [skipn] in F. now rewrite F.
Qed.

Section World.
  Variables (bs cls : nat -> nat).
  Hypothesis bs_pos : forall k, 0 < bs k.

  (* all slots of the arrays *)
  Definition slots_of (j k : nat) : list slot := map (fun i => (j, i)) (seq 0 (bs k)).
  Fixpoint all_slots (j : nat) (ks : list nat) : list slot := match ks with [] => [] | k :: ks => slots_of j k ++ all_slots (S j) ks end.
  Definition kind (ks : list nat) (p : slot) : nat := nth (fst p) ks 0.

  Record inv (w : world) (fss : list (list slot)) : Prop := {
    i_len : length fss = length (pools w);
    i_pool : forall i a, nth_error (pools w) i = Some a -> exists fs, nth_error fss i = Some fs /\ wf_pool (bs (cls i)) a /\ fslots a = map Some fs /\ forall p, In p fs -> kind (arrays w) p = cls i;
    i_all : Permutation (concat fss ++ live w) (all_slots 0 (arrays w)) }.

  Lemma in_slots : forall ks j p, In p (all_slots j ks) <-> exists k, nth_error ks (fst p - j) = Some k /\ j <= fst p /\ snd p < bs k.
  Proof.
    induction ks as [|k ks IH]; intros j p; cbn [all_slots].
    - split; [intros []|]. intros [k [H _]]. destruct (fst p - j); discriminate.
    - rewrite in_app_iff, IH. unfold slots_of. rewrite in_map_iff. destruct p as [c x]. cbn [fst snd]. split.
      + intros [[i [E Hi]]|[k' [H [H1 H2]]]].
        * injection E as <- <-. apply in_seq in Hi. rewrite Nat.sub_diag. exists k. cbn. split; auto. lia.
        * exists k'. replace (c - j) with (S (c - S j)) by lia. cbn. split; auto. lia.
      + intros [k' [H [H1 H2]]]. destruct (Nat.eq_dec c j) as [->|N].
        * rewrite Nat.sub_diag in H. injection H as ->. left. exists x. split; auto. apply in_seq. lia.
        * right. exists k'. replace (c - j) with (S (c - S j)) in H by lia. split; auto. lia.
  Qed.
  Lemma nodup_slots : forall ks j, NoDup (all_slots j ks).
  Proof.
    induction ks as [|k ks IH]; intros j; cbn [all_slots]; [constructor|].
    assert (D : forall l1 l2 : list slot, NoDup l1 -> NoDup l2 -> (forall x, In x l1 -> ~ In x l2) -> NoDup (l1 ++ l2)).
    { induction l1 as [|x l1 IHl]; intros l2 N1 N2 Dj; cbn; auto. inversion N1; subst. constructor; [|apply IHl; auto; intros; apply Dj; cbn; auto].
      rewrite in_app_iff. intros [H|H]; [auto|]. apply (Dj x); cbn; auto. }
    apply D; auto.
    - unfold slots_of. apply FinFun.Injective_map_NoDup; [|apply seq_NoDup]. intros x y H. congruence.
    - intros [c x] H1 H2. unfold slots_of in H1. apply in_map_iff in H1. destruct H1 as [i [E _]]. injection E as <- <-. apply in_slots in H2. destruct H2 as [k' [_ [H2 _]]]. cbn in H2. lia.
  Qed.
  Lemma all_slots_app : forall ks j k, all_slots j (ks ++ [k]) = all_slots j ks ++ slots_of (j + length ks) k.
  Proof.
    induction ks as [|k' ks IH]; intros j k; cbn [all_slots app length]; [now rewrite app_nil_r, Nat.add_0_r|]. rewrite IH, app_assoc. do 2 f_equal. lia.
  Qed.
  Lemma in_concat_nth : forall (fss : list (list slot)) i fs p, nth_error fss i = Some fs -> In p fs -> In p (concat fss).
  Proof. intros fss i fs p H I. apply in_concat. exists fs. split; auto. eapply nth_error_In; eauto. Qed.
  Lemma concat_lset : forall (fss : list (list slot)) i fs fs', nth_error fss i = Some fs -> forall ext, Permutation (ext ++ fs) fs' -> Permutation (concat (lset fss i fs')) (ext ++ concat fss).
  Proof.
    induction fss as [|f fss IH]; intros [|i] fs fs' H ext P; try discriminate; cbn in H.
    - injection H as ->. cbn [lset concat]. rewrite <- P, app_assoc. reflexivity.
    - cbn [lset concat]. rewrite (IH _ _ _ H ext P). rewrite !app_assoc. apply Permutation_app_tail. apply Permutation_app_comm.
  Qed.
  Lemma slot_eqb_eq : forall p q, slot_eqb p q = true <-> p = q.
  Proof. intros [a b] [c d]. unfold slot_eqb. cbn. rewrite andb_true_iff, !Nat.eqb_eq. split; [intros []; congruence|intros H; inversion H; auto]. Qed.
  Lemma kind_ext : forall ks k p, fst p < length ks -> kind (ks ++ [k]) p = kind ks p.
  Proof. intros ks k p H. unfold kind. now apply app_nth1. Qed.
  Lemma slot_range : forall ks p, In p (all_slots 0 ks) -> fst p < length ks.
  Proof. intros ks p H. apply in_slots in H. destruct H as [k [H _]]. rewrite Nat.sub_0_r in H. apply nth_error_Some. congruence. Qed.

  (* Alloc pops the stack of the pool, or makes a new array if there is none *)
  Lemma step_alloc : forall w fss i fs, inv w fss -> nth_error fss i = Some fs ->
    exists w' fss' p, step bs cls w (Alloc i) = Ok w' /\ inv w' fss' /\ live w' = p :: live w /\ ~ In p (live w) /\ kind (arrays w') p = cls i /\ snd p < bs (cls i) /\
      (forall j, j <> i -> nth_error fss' j = nth_error fss j) /\
      match fs with
      | q :: fs' => p = q /\ arrays w' = arrays w /\ nth_error fss' i = Some fs'
      | [] => p = (length (arrays w), 0) /\ arrays w' = arrays w ++ [cls i] /\ nth_error fss' i = Some (map (fun x => (length (arrays w), x)) (seq 1 (bs (cls i) - 1)))
      end.
  Proof.
    intros w fss i fs [I1 I2 I3] Hi.
    assert (Hl : i < length (pools w)) by (rewrite <- I1; apply nth_error_Some; congruence).
    destruct (nth_error (pools w) i) as [a|] eqn:Ha; [|apply nth_error_None in Ha; lia].
    destruct (I2 i a Ha) as [fs' [E1 [E2 [E3 E4]]]]. assert (fs' = fs) by congruence. subst fs'. clear E1.
    pose proof (palloc_ok (bs (cls i)) a (length (arrays w)) fs (bs_pos _) E2 E3) as PA.
    assert (Nd : NoDup (concat fss ++ live w)) by (eapply Permutation_NoDup; [symmetry; exact I3|apply nodup_slots]).
    assert (Rg : forall p, In p (concat fss ++ live w) -> fst p < length (arrays w)) by (intros p Hp; apply slot_range; eapply Permutation_in; eauto).
    cbn [step]. unfold aget. rewrite Ha. cbn [bind].
    destruct fs as [|p fs].
    - destruct PA as [a' [P1 [P2 P3]]]. rewrite P1. cbn [bind]. replace (length (arrays w) <? S (length (arrays w))) with true by (symmetry; apply Nat.ltb_lt; lia).
      set (n := length (arrays w)) in *. set (fs' := map (fun x => (n, x)) (seq 1 (bs (cls i) - 1))) in *.
      eexists _, (lset fss i fs'), (n, 0). split; [reflexivity|]. cbn [live arrays pools]. split; [|split; [reflexivity|split; [|split; [|split; [cbn; apply bs_pos|split; [|split; [auto|split; [auto|]]]]]]]].
      + split; cbn [pools arrays live].
        * now rewrite !lset_length.
        * intros j a0 Hj. destruct (Nat.eq_dec j i) as [->|Nj].
          { rewrite lset_nth_eq in Hj by lia. injection Hj as <-. exists fs'. rewrite lset_nth_eq by lia. split; auto. split; auto. split; auto.
            intros p Hp. unfold fs' in Hp. apply in_map_iff in Hp. destruct Hp as [x [<- _]]. unfold kind. cbn [fst]. unfold n. rewrite app_nth2, Nat.sub_diag by lia. reflexivity. }
          { rewrite lset_nth_neq in Hj by auto. destruct (I2 j a0 Hj) as [f [F1 [F2 [F3 F4]]]]. exists f. rewrite lset_nth_neq by auto. split; auto. split; auto. split; auto.
            intros p Hp. rewrite kind_ext; [auto|]. apply Rg. apply in_app_iff. left. eapply in_concat_nth; eauto. }
        * rewrite all_slots_app, Nat.add_0_l. fold n. rewrite (concat_lset fss i [] fs' Hi fs') by now rewrite app_nil_r.
          rewrite <- I3. assert (So : slots_of n (cls i) = (n, 0) :: fs').
          { unfold slots_of, fs'. destruct (bs (cls i)) eqn:Eb; [specialize (bs_pos (cls i)); lia|]. cbn [seq map Nat.sub]. now rewrite Nat.sub_0_r. }
          rewrite So. rewrite <- !Permutation_middle. constructor. rewrite <- app_assoc. apply Permutation_app_comm.
      + intros H. assert (n < n); [|lia]. apply (Rg (n, 0)). apply in_app_iff. auto.
      + unfold kind. cbn [fst]. unfold n. rewrite app_nth2, Nat.sub_diag by lia. reflexivity.
      + intros j Nj. apply lset_nth_neq; auto.
      + rewrite lset_nth_eq by lia. reflexivity.
    - destruct PA as [a' [P1 [P2 P3]]]. rewrite P1. cbn [bind]. rewrite Nat.ltb_irrefl.
      eexists _, (lset fss i fs), p. split; [reflexivity|]. cbn [live arrays pools].
      assert (Pm : Permutation (p :: concat (lset fss i fs)) (concat fss)).
      { clear - Hi. revert i Hi. induction fss as [|f fss IH]; intros [|i] Hi; try discriminate; cbn in Hi.
        - injection Hi as ->. reflexivity.
        - cbn [lset concat]. rewrite <- (IH _ Hi). apply Permutation_middle. }
      split; [|split; [reflexivity|split; [|split; [apply E4; cbn; auto|split; [|split; [|split; [auto|split; [auto|]]]]]]]].
      + split; cbn [pools arrays live].
        * now rewrite !lset_length.
        * intros j a0 Hj. destruct (Nat.eq_dec j i) as [->|Nj].
          { rewrite lset_nth_eq in Hj by lia. injection Hj as <-. exists fs. rewrite lset_nth_eq by lia. split; auto. split; auto. split; auto. intros; apply E4; cbn; auto. }
          { rewrite lset_nth_neq in Hj by auto. destruct (I2 j a0 Hj) as [f [F1 [F2 [F3 F4]]]]. exists f. rewrite lset_nth_neq by auto. auto. }
        * rewrite <- I3, <- Pm. rewrite <- Permutation_middle. reflexivity.
      + intros H. rewrite <- Pm in Nd. cbn in Nd. inversion Nd as [|? ? N1 N2]. apply N1. apply in_app_iff. auto.
      + assert (In p (all_slots 0 (arrays w))). { eapply Permutation_in; [exact I3|]. apply in_app_iff. left. eapply in_concat_nth; [exact Hi|left; auto]. }
        apply in_slots in H. destruct H as [k [H1 [_ H2]]]. rewrite Nat.sub_0_r in H1. specialize (E4 p (or_introl eq_refl)). unfold kind in E4. rewrite (nth_error_nth _ _ _ H1) in E4. congruence.
      + intros j Nj. apply lset_nth_neq; auto.
      + rewrite lset_nth_eq by lia. reflexivity.
  Qed.

  Lemma filter_remove : forall p l, NoDup l -> In p l -> Permutation (p :: filter (fun q => negb (slot_eqb p q)) l) l.
  Proof.
    intros p. induction l as [|q l IH]; intros N I; [destruct I|]. inversion N; subst. cbn [filter].
    destruct (slot_eqb p q) eqn:E; cbn [negb].
    - apply slot_eqb_eq in E. subst q. constructor. assert (F : filter (fun q => negb (slot_eqb p q)) l = l); [|now rewrite F].
      clear - H1. induction l as [|x l IH]; cbn; auto. destruct (slot_eqb p x) eqn:E; cbn.
      + apply slot_eqb_eq in E. subst. destruct H1. cbn; auto.
      + f_equal. apply IH. intros H. apply H1. cbn; auto.
    - destruct I as [->|I]; [assert (slot_eqb p p = true) by (now apply slot_eqb_eq); congruence|]. rewrite perm_swap. constructor. auto.
  Qed.

  Lemma step_free : forall w fss i fs p, inv w fss -> nth_error fss i = Some fs -> In p (live w) -> kind (arrays w) p = cls i ->
    exists w' fss', step bs cls w (Free i p) = Ok w' /\ inv w' fss' /\ Permutation (p :: live w') (live w) /\ arrays w' = arrays w /\
      nth_error fss' i = Some (p :: fs) /\ (forall j, j <> i -> nth_error fss' j = nth_error fss j).
  Proof.
    intros w fss i fs p [I1 I2 I3] Hi Hp Hk.
    assert (Hl : i < length (pools w)) by (rewrite <- I1; apply nth_error_Some; congruence).
    destruct (nth_error (pools w) i) as [a|] eqn:Ha; [|apply nth_error_None in Ha; lia].
    destruct (I2 i a Ha) as [fs' [E1 [E2 [E3 E4]]]]. assert (fs' = fs) by congruence. subst fs'. clear E1.
    assert (Nd : NoDup (live w)). { assert (N : NoDup (concat fss ++ live w)) by (eapply Permutation_NoDup; [symmetry; exact I3|apply nodup_slots]). clear - N. induction (concat fss); auto. inversion N; auto. }
    cbn [step]. unfold aget. rewrite Ha. cbn [bind].
    assert (Ex : existsb (slot_eqb p) (live w) = true) by (apply existsb_exists; exists p; split; auto; now apply slot_eqb_eq).
    rewrite Ex. unfold kind_of. unfold kind in Hk. rewrite Hk, Nat.eqb_refl. cbn [andb].
    destruct (pfree_ok (bs (cls i)) a p fs (bs_pos _) E2 E3) as [a' [P1 [P2 P3]]]. rewrite P1. cbn [bind].
    pose proof (filter_remove p (live w) Nd Hp) as Fr.
    eexists _, (lset fss i (p :: fs)). split; [reflexivity|]. cbn [live arrays pools]. split; [|split; [exact Fr|split; [reflexivity|split; [now rewrite lset_nth_eq by lia|intros; apply lset_nth_neq; auto]]]].
    split; cbn [pools arrays live].
    - now rewrite !lset_length.
    - intros j a0 Hj. destruct (Nat.eq_dec j i) as [->|Nj].
      + rewrite lset_nth_eq in Hj by lia. injection Hj as <-. exists (p :: fs). rewrite lset_nth_eq by lia. split; auto. split; auto. split; auto. intros q [<-|Hq]; auto.
      + rewrite lset_nth_neq in Hj by auto. destruct (I2 j a0 Hj) as [f [F1 [F2 [F3 F4]]]]. exists f. rewrite lset_nth_neq by auto. auto.
    - rewrite <- I3. rewrite (concat_lset fss i fs (p :: fs) Hi [p]) by reflexivity. revert Fr. generalize (filter (fun q => negb (slot_eqb p q)) (live w)).
      intros l Fr. rewrite <- Fr. cbn [app]. apply Permutation_middle.
  Qed.

  Lemma start_inv : forall n, inv (start bs cls n) (repeat [] n).
  Proof.
    intros n. split; cbn [start pools arrays live].
    - now rewrite repeat_length, map_length, seq_length.
    - intros i a H. assert (Hi : i < n). { rewrite <- (seq_length n 0), <- (map_length (fun i => new_pool (bs (cls i)))). apply nth_error_Some. congruence. }
      assert (a = new_pool (bs (cls i))).
      { rewrite nth_error_map in H. rewrite nth_error_nth' with (d := 0) in H by (now rewrite seq_length). rewrite seq_nth in H by auto. cbn in H. congruence. }
      subst a. exists []. split; [now rewrite nth_error_repeat|]. split; [|split; [|intros p []]].
      + unfold new_pool, empty_block. split; [cbn; now rewrite repeat_length|]. split; [cbn; lia|constructor].
      + unfold fslots, new_pool, empty_block. cbn. rewrite app_nil_r. apply skipn_all2. rewrite repeat_length. lia.
    - cbn. rewrite app_nil_r. assert (concat (repeat (@nil slot) n) = []) by (induction n; auto). rewrite H. constructor.
  Qed.
End World.

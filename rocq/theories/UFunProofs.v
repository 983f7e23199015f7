(* Proofs about cc::unique_function: every function owns a chain of blocks, the chains are disjoint and cover the heap. *)
From Coq Require Import NArith Arith List Bool Lia Permutation.
From Verif Require Import Base UFunModel UFunSpec OwnHeap.
Import ListNotations.

Lemma put_lset {T} (l : list T) : forall i x, put l i x = lset l i x.
Proof. induction l as [|a l IH]; intros [|i] x; cbn; try reflexivity. f_equal. apply IH. Qed.

(* ---- lists of chains ---- *)
Lemma concat_lset (ls : list (list nat)) : forall k old new, nth_error ls k = Some old ->
  Permutation (old ++ concat (lset ls k new)) (new ++ concat ls).
Proof.
  induction ls as [|a ls IH]; intros [|k] old new E; cbn in E; try discriminate.
  - injection E as ->. cbn. rewrite !app_assoc. apply Permutation_app_tail, Permutation_app_comm.
  - cbn. rewrite !app_assoc. rewrite (Permutation_app_comm old a), (Permutation_app_comm new a), <- !app_assoc.
    apply Permutation_app_head. apply IH, E.
Qed.
Lemma concat_snoc (ls : list (list nat)) x : concat (ls ++ [x]) = concat ls ++ x.
Proof. rewrite concat_app. cbn. rewrite app_nil_r. reflexivity. Qed.
Lemma in_concat_nth (ls : list (list nat)) k a b : nth_error ls k = Some a -> In b a -> In b (concat ls).
Proof. intros E I. apply in_concat. exists a. split; [apply (nth_error_In _ _ E)|exact I]. Qed.
Lemma concat_disjoint (ls : list (list nat)) j k a c b : NoDup (concat ls) -> j <> k ->
  nth_error ls j = Some a -> nth_error ls k = Some c -> In b a -> In b c -> False.
Proof.
  intros N D E F I J. pose proof (concat_lset ls j a [] E) as P. cbn in P.
  apply Permutation_sym in P. apply (Permutation_NoDup P) in N.
  assert (In b (concat (lset ls j []))) as K.
  { apply (in_concat_nth _ k c); [|exact J]. rewrite lset_nth_neq; [exact F|congruence]. }
  revert N I K. clear. induction a as [|x a IH]; intros N I K; [destruct I|].
  cbn in N. inversion N as [|? ? N1 N2]; subst. destruct I as [->|I]; [apply N1, in_app_iff; right; exact K|apply (IH N2 I K)].
Qed.
Lemma NoDup_app_parts (a b : list nat) : NoDup (a ++ b) -> NoDup a /\ NoDup b.
Proof.
  induction a as [|x a IH]; cbn; intros N; [split; [constructor|exact N]|]. inversion N as [|? ? N1 N2]; subst.
  destruct (IH N2) as [A B]. split; [constructor; [intros I; apply N1, in_app_iff; left; exact I|exact A]|exact B].
Qed.

Section UFun.
  Context {C X Y : Type}.
  Variable call : C -> X -> outcome (C * Y).
  Implicit Types h : heap C.

  Fixpoint holds h (u : ufun) (f : fn C) (bs : list nat) : Prop :=
    match bs with
    | [] => False
    | b :: r =>
        uctx u = Some b /\
        match f with
        | Plain c => unested u = false /\ r = [] /\ nth_error h b = Some (Some (ualloc u, Fun c))
        | Hollow => unested u = true /\ r = [] /\ exists v, nth_error h b = Some (Some (ualloc u, Nested v)) /\ uctx v = None
        | Wrapped f => unested u = true /\ exists v, nth_error h b = Some (Some (ualloc u, Nested v)) /\ holds h v f r
        end
    end.
  Definition owns h (u : ufun) (f : option (fn C)) (bs : list nat) : Prop :=
    match f with None => uctx u = None /\ bs = [] | Some f => holds h u f bs end.

  Lemma holds_frame h h' f : forall u bs, (forall b, In b bs -> nth_error h' b = nth_error h b) -> holds h u f bs -> holds h' u f bs.
  Proof.
    induction f as [c|f IH|]; intros u [|b r] E H; cbn in H |- *; try exact H.
    - rewrite (E b) by (left; reflexivity). exact H.
    - destruct H as (A & B & v & D & H). split; [exact A|]. split; [exact B|]. exists v. rewrite (E b) by (left; reflexivity).
      split; [exact D|]. apply IH; [intros d I; apply E; right; exact I|exact H].
    - rewrite (E b) by (left; reflexivity). exact H.
  Qed.
  Lemma owns_frame h h' u f bs : (forall b, In b bs -> nth_error h' b = nth_error h b) -> owns h u f bs -> owns h' u f bs.
  Proof. destruct f as [f|]; cbn; intros E H; [apply (holds_frame h _ _ _ _ E H)|exact H]. Qed.
  Lemma holds_bound h f : forall u bs, holds h u f bs -> forall b, In b bs -> b < length h.
  Proof.
    induction f as [c|f IH|]; intros u [|b r] H d I; cbn in H; try contradiction.
    - destruct H as (A & B & -> & E). destruct I as [->|[]]. apply nth_error_Some. rewrite E. discriminate.
    - destruct H as (A & B & v & E & H). destruct I as [->|I]; [apply nth_error_Some; rewrite E; discriminate|apply (IH _ _ H _ I)].
    - destruct H as (A & B & -> & v & E & _). destruct I as [->|[]]. apply nth_error_Some. rewrite E. discriminate.
  Qed.
  Lemma owns_bound h u f bs b : owns h u f bs -> In b bs -> b < length h.
  Proof. destruct f as [f|]; cbn; [intros H I; apply (holds_bound _ _ _ _ H _ I)|intros [_ ->] []]. Qed.

  (* destruction frees exactly the chain *)
  Lemma destroy_holds f : forall fuel h u bs, holds h u f bs -> NoDup bs -> S (length bs) <= fuel ->
    exists h', destroy fuel h u = Ok h' /\ length h' = length h /\
      (forall b, In b bs -> nth_error h' b = Some None) /\ (forall b, ~ In b bs -> nth_error h' b = nth_error h b).
  Proof.
    induction f as [c|f IH|]; intros fuel h u [|b r] H N F; cbn in H; try contradiction; (destruct fuel as [|fuel]; [cbn in F; lia|]).
    - destruct H as (A & B & -> & E). exists (lset h b None). cbn. rewrite A. unfold block. rewrite E. cbn. rewrite Nat.eqb_refl, B. cbn.
      split; [reflexivity|]. split; [apply lset_length|]. split.
      + intros d [->|[]]. apply lset_nth_eq. apply nth_error_Some. rewrite E. discriminate.
      + intros d I. apply lset_nth_neq. intros ->. apply I. left. reflexivity.
    - destruct H as (A & B & v & E & H). inversion N as [|? ? N1 N2]; subst.
      destruct (IH fuel h v r H N2) as (h' & D & L & P & Q); [cbn in F; lia|]. exists (lset h' b None).
      cbn. rewrite A. unfold block. rewrite E. cbn. rewrite Nat.eqb_refl, B. cbn. rewrite D. cbn.
      split; [reflexivity|]. split; [rewrite lset_length; exact L|].
      assert (b < length h') as Lb by (rewrite L; apply nth_error_Some; rewrite E; discriminate). split.
      + intros d [->|I]; [apply lset_nth_eq, Lb|]. destruct (Nat.eq_dec d b) as [->|Ne]; [apply lset_nth_eq, Lb|].
        rewrite lset_nth_neq by congruence. apply P, I.
      + intros d I. rewrite lset_nth_neq; [apply Q; intros J; apply I; right; exact J|intros ->; apply I; left; reflexivity].
    - destruct H as (A & B & -> & v & E & V). exists (lset h b None). cbn. rewrite A. unfold block. rewrite E. cbn.
      rewrite Nat.eqb_refl, B. cbn. destruct fuel as [|fuel]; [cbn in F; lia|]. cbn. rewrite V. cbn.
      split; [reflexivity|]. split; [apply lset_length|]. split.
      + intros d [->|[]]. apply lset_nth_eq. apply nth_error_Some. rewrite E. discriminate.
      + intros d I. apply lset_nth_neq. intros ->. apply I. left. reflexivity.
  Qed.
  Lemma invoke_holds f x : forall fuel h u bs, holds h u f bs -> NoDup bs -> S (length bs) <= fuel ->
    match apply call f x with
    | Some (Some (f', y)) => exists h', invoke call fuel h u x = Ok (h', y) /\ holds h' u f' bs /\ length h' = length h /\
        (forall b, ~ In b bs -> nth_error h' b = nth_error h b) /\
        (forall b, nth_error h' b = Some None <-> nth_error h b = Some None)
    | Some None => invoke call fuel h u x = Contract
    | None => True
    end.
  Proof.
    induction f as [c|f IH|]; intros fuel h u [|b r] H N F; cbn in H; try contradiction; (destruct fuel as [|fuel]; [cbn in F; lia|]).
    - destruct H as (A & B & -> & E). cbn. rewrite A. unfold block. rewrite E. cbn. rewrite B.
      destruct (call c x) as [[c' y]| | |]; try exact Logic.I. cbn. eexists. split; [reflexivity|].
      assert (b < length h) as Lb by (apply nth_error_Some; rewrite E; discriminate).
      split; [rewrite lset_nth_eq by exact Lb; repeat split; assumption|]. split; [apply lset_length|]. split.
      + intros d I. apply lset_nth_neq. intros ->. apply I. left. reflexivity.
      + intros d. destruct (Nat.eq_dec d b) as [->|Ne]; [rewrite lset_nth_eq by exact Lb; rewrite E; split; discriminate|].
        rewrite lset_nth_neq by congruence. reflexivity.
    - destruct H as (A & B & v & E & H). inversion N as [|? ? N1 N2]; subst.
      cbn. specialize (IH fuel h v r H N2). rewrite A. unfold block. rewrite E. cbn. rewrite B.
      assert (S (length r) <= fuel) as Fr by (cbn in F; lia). specialize (IH Fr).
      destruct (apply call f x) as [[[f' y]|]|]; [|exact IH|exact Logic.I].
      destruct IH as (h' & D & Hh & L & Q & Z). exists h'. split; [exact D|]. split; [|split; [exact L|split; [|exact Z]]].
      + split; [exact A|]. split; [exact B|]. exists v. split; [rewrite Q by exact N1; exact E|exact Hh].
      + intros d I. apply Q. intros J. apply I. right. exact J.
    - destruct H as (A & B & -> & v & E & V). cbn. rewrite A. unfold block. rewrite E. cbn. rewrite B.
      destruct fuel as [|fuel]; [cbn in F; lia|]. cbn. rewrite V. reflexivity.
  Qed.

  (* ---- the invariant ---- *)
  Record R (w : world C) (s : store C) (ch : list (list nat)) : Prop := mkR {
    R_len : length (objs w) = length (funs s);
    R_chn : length ch = length (funs s);
    R_var : vars w = callables s;
    R_obj : forall k bs, nth_error ch k = Some bs ->
      match nth_error (objs w) k, nth_error (funs s) k with
      | Some (Some u), Some (Some f) => owns (hp w) u f bs
      | Some None, Some None => bs = []
      | _, _ => False
      end;
    R_dis : NoDup (concat ch);
    R_all : forall b, b < length (hp w) -> In b (concat ch) \/ nth_error (hp w) b = Some None }.

  Lemma R_init : R (mkw [] [] []) (mks [] []) [].
  Proof. constructor; cbn; try reflexivity; [intros [|k] bs E; discriminate E|constructor|intros b L; lia]. Qed.
  Lemma R_fun w s ch k f : R w s ch -> sget (funs s) k = Some f ->
    exists u bs, get w k = Ok u /\ nth_error (objs w) k = Some (Some u) /\ nth_error (funs s) k = Some (Some f) /\
      nth_error ch k = Some bs /\ owns (hp w) u f bs.
  Proof.
    intros HR E. unfold sget in E. destruct (nth_error (funs s) k) as [[g|]|] eqn:F; try discriminate. injection E as ->.
    assert (k < length ch) as L by (rewrite (R_chn _ _ _ HR); apply nth_error_Some; rewrite F; discriminate).
    destruct (nth_error ch k) as [bs|] eqn:G; [|apply nth_error_None in G; lia].
    pose proof (R_obj _ _ _ HR k bs G) as H. rewrite F in H. unfold get.
    destruct (nth_error (objs w) k) as [[u|]|]; try contradiction. exists u, bs. repeat split; assumption || reflexivity.
  Qed.
  Lemma R_var_get w s ch v c : R w s ch -> sget (callables s) v = Some c -> var w v = Ok c.
  Proof.
    intros HR E. unfold var. rewrite (R_var _ _ _ HR). unfold sget in E.
    destruct (nth_error (callables s) v) as [[d|]|]; congruence.
  Qed.
  Lemma R_nodup w s ch k bs : R w s ch -> nth_error ch k = Some bs -> NoDup bs.
  Proof.
    intros HR E. pose proof (concat_lset ch k bs [] E) as P. cbn in P. apply Permutation_sym in P.
    apply (NoDup_app_parts _ _ (Permutation_NoDup P (R_dis _ _ _ HR))).
  Qed.
  Lemma R_fuel w s ch k bs u f : R w s ch -> nth_error ch k = Some bs -> owns (hp w) u f bs -> S (length bs) <= fuel_of (hp w).
  Proof.
    intros HR E H. unfold fuel_of. pose proof (R_nodup _ _ _ _ _ HR E) as N.
    assert (length bs <= length (seq 0 (length (hp w)))) as L.
    { apply (NoDup_incl_length N). intros b I. apply in_seq. pose proof (owns_bound _ _ _ _ _ H I). lia. }
    rewrite seq_length in L. lia.
  Qed.

  (* variables of the program *)
  Lemma R_vars w s ch vs : R w s ch -> R (mkw (hp w) (objs w) vs) (mks (funs s) vs) ch.
  Proof. intros [A B D E F G]. constructor; cbn; try assumption. reflexivity. Qed.
  (* a new empty function *)
  Lemma R_null w s ch u : R w s ch -> uctx u = None ->
    R (mkw (hp w) (objs w ++ [Some u]) (vars w)) (mks (funs s ++ [Some None]) (callables s)) (ch ++ [[]]).
  Proof.
    intros [A B D E F G] U. constructor; cbn; try assumption.
    - rewrite !app_length. cbn. lia.
    - rewrite !app_length. cbn. lia.
    - intros k bs K. apply nth_snoc in K as [K|[-> ->]].
      + assert (k < length ch) by (apply nth_error_Some; congruence). rewrite !nth_error_app1 by lia. apply E, K.
      + rewrite B, nth_app_new, <- A, nth_app_new. split; [exact U|reflexivity].
    - rewrite concat_snoc, app_nil_r. exact F.
    - rewrite concat_snoc, app_nil_r. exact G.
  Qed.
  (* the function k becomes a chain that is outside of the others *)
  Lemma R_set w s ch k u f bs h o g bs' : R w s ch ->
    nth_error (objs w) k = Some (Some u) -> nth_error (funs s) k = Some (Some f) -> nth_error ch k = Some bs ->
    (match o, g with Some u, Some f => owns h u f bs' | None, None => bs' = [] | _, _ => False end) ->
    NoDup (concat (lset ch k bs')) ->
    (forall b, In b (concat (lset ch k [])) -> nth_error h b = nth_error (hp w) b) ->
    (forall b, b < length h -> In b bs' \/ In b (concat (lset ch k [])) \/ nth_error h b = Some None) ->
    R (mkw h (lset (objs w) k o) (vars w)) (mks (lset (funs s) k g) (callables s)) (lset ch k bs').
  Proof.
    intros [A B D E F G] Ku Kf Kb O N Fr Al.
    assert (k < length ch) as L by (apply nth_error_Some; congruence).
    constructor; cbn; try assumption; try (rewrite !lset_length; assumption).
    - intros j cs J. apply lset_cases in J as [(<- & -> & _)|(Ne & J)].
      + rewrite !lset_nth_eq by lia. destruct o, g; exact O.
      + rewrite !lset_nth_neq by exact Ne. specialize (E j cs J).
        destruct (nth_error (objs w) j) as [[v|]|], (nth_error (funs s) j) as [[e|]|]; try exact E.
        apply (owns_frame (hp w)); [|exact E]. intros b I. apply Fr.
        apply (in_concat_nth _ j cs); [rewrite lset_nth_neq by exact Ne; exact J|exact I].
    - intros b Lb. assert (Permutation (concat (lset ch k bs')) (bs' ++ concat (lset ch k []))) as P.
      { assert (nth_error (lset ch k []) k = Some []) as K0 by (apply lset_nth_eq; exact L).
        pose proof (concat_lset (lset ch k []) k [] bs' K0) as P. rewrite lset_twice in P. exact P. }
      destruct (Al b Lb) as [I|[I|I]]; [left|left|right; exact I];
        (apply (Permutation_in _ (Permutation_sym P)), in_app_iff); [left|right]; exact I.
  Qed.
  Lemma rest (ch : list (list nat)) k bs : nth_error ch k = Some bs -> Permutation (concat ch) (bs ++ concat (lset ch k [])).
  Proof. intros E. apply Permutation_sym. exact (concat_lset ch k bs [] E). Qed.
  Lemma rest_nodup (ch : list (list nat)) k bs : nth_error ch k = Some bs -> NoDup (concat ch) -> NoDup (concat (lset ch k [])).
  Proof. intros E N. apply (NoDup_app_parts bs). apply (Permutation_NoDup (rest _ _ _ E) N). Qed.
  Lemma rest_out (ch : list (list nat)) k bs b : nth_error ch k = Some bs -> NoDup (concat ch) -> In b bs -> In b (concat (lset ch k [])) -> False.
  Proof.
    intros E N I J. apply (Permutation_NoDup (rest _ _ _ E)) in N. revert N I J. clear.
    induction bs as [|x a IH]; intros N I K; [destruct I|]. cbn in N. inversion N as [|? ? N1 N2]; subst.
    destruct I as [->|I]; [apply N1, in_app_iff; right; exact K|apply (IH N2 I K)].
  Qed.
  (* destruction *)
  Lemma R_free w s ch k u f bs o g : R w s ch ->
    nth_error (objs w) k = Some (Some u) -> nth_error (funs s) k = Some (Some f) -> nth_error ch k = Some bs ->
    (match o, g with Some u, Some None => uctx u = None | None, None => True | _, _ => False end) ->
    exists h, destroy (fuel_of (hp w)) (hp w) u = Ok h /\
      R (mkw h (lset (objs w) k o) (vars w)) (mks (lset (funs s) k g) (callables s)) (lset ch k []).
  Proof.
    intros HR Ku Kf Kb O. pose proof (R_obj _ _ _ HR k bs Kb) as H. rewrite Ku, Kf in H.
    pose proof (R_fuel _ _ _ _ _ _ _ HR Kb H) as Fu.
    assert (exists h', destroy (fuel_of (hp w)) (hp w) u = Ok h' /\ length h' = length (hp w) /\
      (forall b, In b bs -> nth_error h' b = Some None) /\ (forall b, ~ In b bs -> nth_error h' b = nth_error (hp w) b))
      as (h & D & L & P & Q).
    { destruct f as [f|]; cbn in H.
      - apply (destroy_holds f _ _ _ _ H (R_nodup _ _ _ _ _ HR Kb) Fu).
      - destruct H as [U ->]. exists (hp w). unfold fuel_of. cbn. rewrite U.
        split; [reflexivity|]. split; [reflexivity|]. split; [intros b []|reflexivity]. }
    exists h. split; [exact D|]. apply (R_set w s ch k u f bs); try assumption.
    - destruct o, g as [[g|]|]; cbn; try contradiction; [split; [exact O|reflexivity]|reflexivity].
    - apply (rest_nodup _ _ _ Kb), HR.
    - intros b I. apply Q. intros J. apply (rest_out ch k bs b Kb (R_dis _ _ _ HR) J I).
    - intros b Lb. destruct (in_dec Nat.eq_dec b bs) as [I|I]; [right; right; apply P, I|].
      rewrite L in Lb. destruct (R_all _ _ _ HR b Lb) as [J|J].
      + apply (Permutation_in _ (rest _ _ _ Kb)), in_app_iff in J as [J|J]; [contradiction|right; left; exact J].
      + right. right. rewrite (Q b I). exact J.
  Qed.
  (* a new block that holds a callable, or takes over the chain of the function k *)
  Lemma R_plain w s ch m c : R w s ch ->
    R (mkw (hp w ++ [Some (m, Fun c)]) (objs w ++ [Some (mku (Some (length (hp w))) false m)]) (vars w))
      (mks (funs s ++ [Some (Some (Plain c))]) (callables s)) (ch ++ [[length (hp w)]]).
  Proof.
    intros HR. pose proof HR as [A B D E F G].
    assert (forall b, In b (concat ch) -> b < length (hp w)) as Bd.
    { intros b I. apply in_concat in I as (bs & I & J). apply In_nth_error in I as [k K]. specialize (E k bs K).
      destruct (nth_error (objs w) k) as [[v|]|], (nth_error (funs s) k) as [[e|]|]; try contradiction;
        [apply (owns_bound _ _ _ _ _ E J)|subst; destruct J]. }
    constructor; cbn; try assumption; try (rewrite !app_length; cbn; lia).
    - intros k bs K. apply nth_snoc in K as [K|[-> ->]].
      + assert (k < length ch) by (apply nth_error_Some; congruence). rewrite !(nth_error_app1 (objs w)), !(nth_error_app1 (funs s)) by lia.
        specialize (E k bs K). destruct (nth_error (objs w) k) as [[v|]|], (nth_error (funs s) k) as [[e|]|]; try exact E.
        apply (owns_frame (hp w)); [|exact E]. intros b I. apply nth_error_app1. apply Bd, (in_concat_nth _ k bs _ K I).
      + rewrite B, nth_app_new, <- A, nth_app_new. cbn. rewrite nth_app_new. repeat split; reflexivity.
    - rewrite concat_snoc. apply (Permutation_NoDup (Permutation_cons_append _ _)). constructor; [|exact F].
      intros I. specialize (Bd _ I). lia.
    - intros b Lb. rewrite concat_snoc. rewrite app_length in Lb. cbn in Lb.
      destruct (Nat.eq_dec b (length (hp w))) as [->|Ne]; [left; apply in_app_iff; right; left; reflexivity|].
      assert (b < length (hp w)) as Lb' by lia. rewrite nth_error_app1 by exact Lb'.
      destruct (G b Lb') as [I|I]; [left; apply in_app_iff; left; exact I|right; exact I].
  Qed.
  (* the chain of j moves to the empty function k *)
  Lemma R_shift w s ch j k u f v v' : R w s ch -> j <> k ->
    nth_error (objs w) j = Some (Some u) -> nth_error (funs s) j = Some (Some f) ->
    nth_error (objs w) k = Some (Some v) -> nth_error (funs s) k = Some (Some None) -> uctx v' = None ->
    exists ch', R (mkw (hp w) (lset (lset (objs w) k (Some u)) j (Some v')) (vars w))
      (mks (lset (lset (funs s) k (Some f)) j (Some None)) (callables s)) ch'.
  Proof.
    intros HR Ne Ju Jf Kv Kf V. pose proof HR as [A B D E F G].
    assert (j < length (objs w)) as Lj by (apply nth_error_Some; congruence).
    assert (k < length (objs w)) as Lk by (apply nth_error_Some; congruence).
    destruct (nth_error ch j) as [bs|] eqn:Jb; [|apply nth_error_None in Jb; lia].
    destruct (nth_error ch k) as [cs|] eqn:Kb; [|apply nth_error_None in Kb; lia].
    pose proof (E j bs Jb) as Hj. rewrite Ju, Jf in Hj. pose proof (E k cs Kb) as Hk. rewrite Kv, Kf in Hk. destruct Hk as [_ ->].
    exists (lset (lset ch k bs) j []).
    assert (Permutation (concat (lset (lset ch k bs) j [])) (concat ch)) as P.
    { assert (nth_error (lset ch k bs) j = Some bs) as J1 by (rewrite lset_nth_neq by congruence; exact Jb).
      pose proof (concat_lset _ j bs [] J1) as P1. pose proof (concat_lset ch k [] bs Kb) as P2. cbn in P1, P2.
      rewrite P2 in P1. apply Permutation_app_inv_l in P1. exact P1. }
    constructor; cbn; try assumption; try (rewrite !lset_length; assumption).
    - intros i ds I. apply lset_cases in I as [(<- & -> & _)|(N1 & I)].
      + rewrite !lset_nth_eq by (rewrite lset_length; lia). split; [exact V|reflexivity].
      + rewrite !(lset_nth_neq _ j) by exact N1. apply lset_cases in I as [(<- & -> & _)|(N2 & I)].
        * rewrite !lset_nth_eq by lia. exact Hj.
        * rewrite !lset_nth_neq by exact N2. apply E, I.
    - apply (Permutation_NoDup (Permutation_sym P) F).
    - intros b Lb. destruct (G b Lb) as [I|I]; [left; apply (Permutation_in _ (Permutation_sym P) I)|right; exact I].
  Qed.
  (* the chain of k goes behind a new block *)
  Lemma R_wrap w s ch m k u f : R w s ch ->
    nth_error (objs w) k = Some (Some u) -> nth_error (funs s) k = Some (Some f) ->
    exists ch', R (mkw (hp w ++ [Some (m, Nested u)]) (lset (objs w) k (Some (cleared u)) ++ [Some (mku (Some (length (hp w))) true m)]) (vars w))
      (mks (lset (funs s) k (Some None) ++ [Some (Some (match f with Some f => Wrapped f | None => Hollow end))]) (callables s)) ch'.
  Proof.
    intros HR Ku Kf. pose proof HR as [A B D E F G].
    assert (k < length (objs w)) as Lk by (apply nth_error_Some; congruence).
    destruct (nth_error ch k) as [bs|] eqn:Kb; [|apply nth_error_None in Kb; lia].
    pose proof (E k bs Kb) as Hk. rewrite Ku, Kf in Hk.
    assert (forall b, In b (concat ch) -> b < length (hp w)) as Bd.
    { intros b I. apply in_concat in I as (cs & I & J). apply In_nth_error in I as [i K]. specialize (E i cs K).
      destruct (nth_error (objs w) i) as [[v|]|], (nth_error (funs s) i) as [[e|]|]; try contradiction;
        [apply (owns_bound _ _ _ _ _ E J)|subst; destruct J]. }
    set (h := hp w ++ [Some (m, Nested u)]).
    assert (forall b, In b (concat ch) -> nth_error h b = nth_error (hp w) b) as Fr by (intros b I; apply nth_error_app1, Bd, I).
    exists (lset ch k [] ++ [length (hp w) :: bs]).
    assert (Permutation (concat (lset ch k [] ++ [length (hp w) :: bs])) (length (hp w) :: concat ch)) as P.
    { rewrite concat_snoc. rewrite Permutation_app_comm. cbn. constructor. apply Permutation_sym, rest, Kb. }
    constructor; cbn [hp objs vars funs callables]; try assumption; try (rewrite !app_length, !lset_length; cbn; lia).
    - intros i ds I. apply nth_snoc in I as [I|[-> ->]].
      + assert (i < length (lset ch k [])) as Li by (apply nth_error_Some; congruence). rewrite lset_length in Li.
        rewrite (nth_error_app1 (lset (objs w) k _)), (nth_error_app1 (lset (funs s) k _)) by (rewrite lset_length; lia).
        apply lset_cases in I as [(<- & -> & _)|(N1 & I)].
        * rewrite !lset_nth_eq by lia. split; reflexivity.
        * rewrite !lset_nth_neq by exact N1. specialize (E i ds I).
          destruct (nth_error (objs w) i) as [[v|]|], (nth_error (funs s) i) as [[e|]|]; try exact E.
          apply (owns_frame (hp w)); [|exact E]. intros b J. apply Fr, (in_concat_nth _ i ds _ I J).
      + assert (length (lset ch k []) = length (lset (objs w) k (Some (cleared u)))) as L1 by (rewrite !lset_length; lia).
        assert (length (lset ch k []) = length (lset (funs s) k (Some None))) as L2 by (rewrite !lset_length; lia).
        match goal with |- match nth_error ?a ?i with _ => _ end =>
          assert (Ha : nth_error a i = nth_error a (length (lset (objs w) k (Some (cleared u))))) by (rewrite L1; reflexivity) end.
        rewrite Ha, nth_app_new, L2, nth_app_new. destruct f as [f|]; cbn in Hk |- *.
        * split; [reflexivity|]. split; [reflexivity|]. exists u. split; [apply nth_app_new|].
          apply (holds_frame (hp w)); [|exact Hk]. intros b J. apply Fr, (in_concat_nth _ k bs _ Kb J).
        * destruct Hk as [U ->]. split; [reflexivity|]. split; [reflexivity|]. split; [reflexivity|]. exists u. split; [apply nth_app_new|exact U].
    - apply (Permutation_NoDup (Permutation_sym P)). constructor; [intros I; specialize (Bd _ I); lia|exact F].
    - intros b Lb. unfold h in Lb. rewrite app_length in Lb. cbn in Lb.
      destruct (Nat.eq_dec b (length (hp w))) as [->|Ne]; [left; apply (Permutation_in _ (Permutation_sym P)); left; reflexivity|].
      assert (b < length (hp w)) as Lb' by lia. unfold h. rewrite nth_error_app1 by exact Lb'.
      destruct (G b Lb') as [I|I]; [left; apply (Permutation_in _ (Permutation_sym P)); right; exact I|right; exact I].
  Qed.

  Definition meets (r : outcome (world C * res Y)) (i : option (option (store C * res Y))) : Prop :=
    match i with
    | Some (Some (s, x)) => exists w ch, r = Ok (w, x) /\ R w s ch
    | Some None => r = Contract
    | None => True
    end.
  Ltac fin := eexists _, _; split; [reflexivity|].
  Lemma step_ok w s ch o : R w s ch -> meets (step call w o) (ideal call s o).
  Proof.
    intros HR. destruct o as [c|v x| |c m|v m|v m|k m|j|k j|k|k x|k]; cbn [ideal step].
    - rewrite <- (R_var _ _ _ HR). fin. apply R_vars, HR.
    - destruct (sget (callables s) v) as [c|] eqn:E; [|exact Logic.I]. rewrite (R_var_get _ _ _ _ _ HR E). cbn [bind].
      destruct (call c x) as [[c' y]| | |]; try exact Logic.I. rewrite put_lset. cbn [bind]. rewrite <- (R_var _ _ _ HR). fin. apply R_vars, HR.
    - fin. apply (R_null _ _ _ null HR eq_refl).
    - destruct m as [m|]; [|exact Logic.I]. cbn. fin. apply R_plain, HR.
    - destruct m as [m|]; [|exact Logic.I]. destruct (sget (callables s) v) as [c|] eqn:E; [|exact Logic.I].
      rewrite (R_var_get _ _ _ _ _ HR E). cbn. rewrite put_lset, <- (R_var _ _ _ HR). fin.
      apply (R_vars _ _ _ _ (R_plain _ _ _ m c HR)).
    - destruct m as [m|]; [|exact Logic.I]. destruct (sget (callables s) v) as [c|] eqn:E; [|exact Logic.I].
      rewrite (R_var_get _ _ _ _ _ HR E). cbn. rewrite put_lset, <- (R_var _ _ _ HR). fin.
      apply (R_vars _ _ _ _ (R_plain _ _ _ m c HR)).
    - destruct m as [m|]; [|exact Logic.I]. destruct (sget (funs s) k) as [f|] eqn:E; [|exact Logic.I].
      destruct (R_fun _ _ _ _ _ HR E) as (u & bs & -> & Ku & Kf & _ & _). cbn. rewrite put_lset, lset_app1 by (apply nth_error_Some; congruence).
      destruct (R_wrap _ _ _ m k u f HR Ku Kf) as [ch' H]. fin. exact H.
    - destruct (sget (funs s) j) as [f|] eqn:E; [|exact Logic.I].
      destruct (R_fun _ _ _ _ _ HR E) as (u & bs & -> & Ku & Kf & _ & _). cbn. rewrite put_lset.
      assert (j < length (objs w)) as Lj by (apply nth_error_Some; congruence). pose proof (R_len _ _ _ HR) as Le.
      destruct (R_shift _ _ _ j (length (objs w)) u f null (cleared u) (R_null _ _ _ null HR eq_refl)) as [ch' H]; cbn.
      + lia.
      + rewrite nth_error_app1 by lia. exact Ku.
      + rewrite nth_error_app1 by lia. exact Kf.
      + apply nth_app_new.
      + rewrite Le. apply nth_app_new.
      + reflexivity.
      + cbn in H. rewrite lset_app_new, Le, lset_app_new, !lset_app1 in H by lia. fin. exact H.
    - destruct (sget (funs s) k) as [f|] eqn:E; [|exact Logic.I]. destruct (sget (funs s) j) as [g|] eqn:E'; [|exact Logic.I].
      destruct (R_fun _ _ _ _ _ HR E) as (u & bs & -> & Ku & Kf & Kb & _). destruct (R_fun _ _ _ _ _ HR E') as (r & cs & -> & Ju & Jf & _ & _).
      cbn [bind]. rewrite !put_lset. destruct (Nat.eq_dec j k) as [->|Ne].
      + destruct (R_free _ _ _ k u f bs (Some (cleared r)) (Some None) HR Ku Kf Kb eq_refl) as (h & -> & H).
        cbn [bind]. rewrite !lset_twice. fin. exact H.
      + destruct (R_free _ _ _ k u f bs (Some null) (Some None) HR Ku Kf Kb eq_refl) as (h & -> & H). cbn [bind].
        assert (k < length (objs w)) as Lk by (apply nth_error_Some; congruence). pose proof (R_len _ _ _ HR) as Le.
        destruct (R_shift _ _ _ j k r g null (cleared r) H) as [ch' H']; cbn.
        * exact Ne.
        * rewrite lset_nth_neq by congruence. exact Ju.
        * rewrite lset_nth_neq by congruence. exact Jf.
        * apply lset_nth_eq, Lk.
        * apply lset_nth_eq. lia.
        * reflexivity.
        * cbn in H'. rewrite !lset_twice in H'. fin. exact H'.
    - destruct (sget (funs s) k) as [f|] eqn:E; [|exact Logic.I].
      destruct (R_fun _ _ _ _ _ HR E) as (u & bs & -> & Ku & Kf & Kb & _). cbn [bind]. rewrite put_lset.
      destruct (R_free _ _ _ k u f bs None None HR Ku Kf Kb Logic.I) as (h & -> & H). cbn [bind]. fin. exact H.
    - destruct (sget (funs s) k) as [f|] eqn:E; [|exact Logic.I].
      destruct (R_fun _ _ _ _ _ HR E) as (u & bs & -> & Ku & Kf & Kb & H). cbn [bind]. destruct f as [f|]; cbn in H.
      + pose proof (R_nodup _ _ _ _ _ HR Kb) as N. pose proof (R_fuel w s ch k bs u (Some f) HR Kb H) as Fu.
        pose proof (invoke_holds f x _ _ _ _ H N Fu) as IV. destruct (apply call f x) as [[[f' y]|]|]; [|rewrite IV; reflexivity|exact Logic.I].
        destruct IV as (h & -> & Hh & L & Q & Z). cbn [bind]. rewrite put_lset.
        assert (R (mkw h (lset (objs w) k (Some u)) (vars w)) (mks (lset (funs s) k (Some (Some f'))) (callables s)) (lset ch k bs)) as HR'.
        { apply (R_set w s ch k u (Some f) bs); try assumption.
          - rewrite lset_same by exact Kb. apply HR.
          - intros b J. apply Q. intros I. apply (rest_out ch k bs b Kb (R_dis _ _ _ HR) I J).
          - intros b Lb. rewrite L in Lb. destruct (R_all _ _ _ HR b Lb) as [J|J].
            + apply (Permutation_in _ (rest _ _ _ Kb)), in_app_iff in J as [J|J]; [left; exact J|right; left; exact J].
            + right. right. apply Z, J. }
        rewrite (lset_same _ _ _ _ Ku) in HR'. fin. exact HR'.
      + destruct H as [U _]. unfold fuel_of. cbn. rewrite U. reflexivity.
    - destruct (sget (funs s) k) as [f|] eqn:E; [|exact Logic.I].
      destruct (R_fun _ _ _ _ _ HR E) as (u & bs & -> & Ku & Kf & Kb & H). cbn [bind]. exists w, ch. split; [|exact HR].
      destruct f as [f|]; cbn in H.
      + destruct bs as [|b r]; [destruct f; destruct H|]. assert (uctx u = Some b) as -> by (destruct f; apply H). reflexivity.
      + destruct H as [-> _]. reflexivity.
  Qed.
  Lemma run_ok os : forall w s ch, R w s ch ->
    match irun call s os with
    | Some (Some (s, rs)) => exists w' ch, run call w os = Ok (w', rs) /\ R w' s ch
    | Some None => run call w os = Contract
    | None => True
    end.
  Proof.
    induction os as [|o os IH]; intros w s ch HR; cbn.
    - exists w, ch. split; [reflexivity|exact HR].
    - pose proof (step_ok w s ch o HR) as H. unfold meets in H. destruct (ideal call s o) as [[[s' r]|]|]; [|rewrite H; reflexivity|exact Logic.I].
      destruct H as (w' & ch' & -> & HR'). cbn. specialize (IH _ _ _ HR').
      destruct (irun call s' os) as [[[s2 rs]|]|]; [|rewrite IH; reflexivity|exact Logic.I].
      destruct IH as (w2 & ch2 & -> & HR2). cbn. exists w2, ch2. split; [reflexivity|exact HR2].
  Qed.
  Lemma R_leaks w s ch : R w s ch -> (forall k f, nth_error (funs s) k <> Some (Some (Some f))) -> forall b x, nth_error (hp w) b <> Some (Some x).
  Proof.
    intros HR N b x E. assert (b < length (hp w)) as L by (apply nth_error_Some; congruence).
    destruct (R_all _ _ _ HR b L) as [I|I]; [|congruence]. apply in_concat in I as (bs & I & J). apply In_nth_error in I as [k K].
    pose proof (R_obj _ _ _ HR k bs K) as H. destruct (nth_error (objs w) k) as [[u|]|], (nth_error (funs s) k) as [[[f|]|]|] eqn:F; try contradiction.
    - apply (N k f F).
    - destruct H as [_ ->]. destruct J.
    - subst. destruct J.
  Qed.
End UFun.

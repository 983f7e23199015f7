(* Proofs about cc::system_allocator. *)
From Coq Require Import NArith Arith List Bool Lia Permutation.
From Verif Require Import Base BitsModel BitsSpec BitsProofs AArrModel AArrProofs OwnHeap SysAllocModel SysAllocSpec.
Import ListNotations.
Open Scope N_scope.

Lemma put_lset : forall T (l : list T) i x, put l i x = lset l i x.
Proof. induction l; intros [|i] x; cbn; auto. f_equal. auto. Qed.

Lemma nth_error_ext_some : forall T (a b : list T), length a = length b -> (forall i, (i < length a)%nat -> nth_error a i = nth_error b i) -> a = b.
Proof.
  induction a as [|x a IH]; intros [|y b] L H; try discriminate; [reflexivity|].
  pose proof (H 0%nat ltac:(cbn; lia)) as E. cbn in E. injection E as ->. f_equal. apply IH; [cbn in L; lia|].
  intros i Hi. apply (H (S i)). cbn. lia.
Qed.

(* ---- sets of live blocks ---- *)
Lemma apart_sym : forall a b, apart a b = apart b a.
Proof. intros. unfold apart. apply orb_comm. Qed.
Fixpoint sep (l : list block) : Prop := match l with [] => True | b :: l => Forall (fun c => apart b c = true) l /\ sep l end.
Lemma sep_perm : forall a b, Permutation a b -> sep a -> sep b.
Proof.
  intros a b P. induction P; cbn [sep]; intros H; auto.
  - destruct H as (H1 & H2). split; [|auto]. apply (Permutation_Forall P). exact H1.
  - destruct H as (H1 & H2 & H3). inversion H1 as [|? ? A B]; subst. split; [constructor; [rewrite apart_sym; exact A|exact H2]|]. split; assumption.
Qed.
Definition fine (b : block) : Prop := bbase b <> 0 /\ bbase b + extent b <= 2 ^ 64.
Definition wfl (l : list block) : Prop := sep l /\ Forall fine l.
Lemma wfl_perm : forall a b, Permutation a b -> wfl a -> wfl b.
Proof. intros a b P (H1 & H2). split; [eapply sep_perm; eauto|eapply Permutation_Forall; eauto]. Qed.
Lemma apart_bases : forall a b, apart a b = true -> bbase a <> bbase b.
Proof. intros a b H E. unfold apart, extent in H. apply orb_true_iff in H. rewrite !N.leb_le in H. lia. Qed.
Lemma apart_inside : forall a b x, apart a b = true -> inside a x = true -> inside b x = false.
Proof.
  intros a b x H I. unfold inside in *. apply andb_true_iff in I. rewrite N.leb_le, N.ltb_lt in I. apply andb_false_iff. rewrite N.leb_gt, N.ltb_ge.
  unfold apart, extent in H. apply orb_true_iff in H. rewrite !N.leb_le in H. lia.
Qed.
Lemma remove_ok : forall l b, sep l -> In b l -> exists l', remove (bbase b) l = Some l' /\ Permutation l (b :: l').
Proof.
  induction l as [|c l IH]; intros b S I; [contradiction|]. cbn [remove]. destruct S as (S1 & S2). destruct I as [->|I].
  - rewrite N.eqb_refl. eauto.
  - rewrite Forall_forall in S1. pose proof (apart_bases _ _ (S1 _ I)) as N. apply N.eqb_neq in N. rewrite N.
    destruct (IH b S2 I) as (l' & -> & P). exists (c :: l'). split; [reflexivity|]. rewrite P. apply perm_swap.
Qed.
Lemma find_ok : forall l b, sep l -> In b l -> find (fun c => bbase c =? bbase b) l = Some b.
Proof.
  induction l as [|c l IH]; intros b S I; [contradiction|]. cbn [find]. destruct S as (S1 & S2). destruct I as [->|I].
  - rewrite N.eqb_refl. reflexivity.
  - rewrite Forall_forall in S1. pose proof (apart_bases _ _ (S1 _ I)) as N. apply N.eqb_neq in N. rewrite N. auto.
Qed.

(* blocks owned by the chunks *)
Definition blocks (own : list (option block)) : list block := flat_map (fun o => match o with Some b => [b] | None => [] end) own.
Lemma blocks_app : forall own b, Permutation (blocks (own ++ [Some b])) (b :: blocks own).
Proof. intros. unfold blocks. rewrite flat_map_app. cbn. rewrite Permutation_app_comm. reflexivity. Qed.
Lemma blocks_app_none : forall own, blocks (own ++ [None]) = blocks own.
Proof. intros. unfold blocks. rewrite flat_map_app. cbn. apply app_nil_r. Qed.
Lemma blocks_drop : forall own k b, nth_error own k = Some (Some b) -> Permutation (blocks own) (b :: blocks (lset own k None)).
Proof.
  induction own as [|o own IH]; intros [|k] b H; cbn [nth_error] in H; try discriminate.
  - injection H as ->. reflexivity.
  - cbn [lset blocks flat_map]. fold (blocks own) (blocks (lset own k None)). rewrite (IH _ _ H). destruct o; [apply perm_swap|reflexivity].
Qed.
Lemma blocks_in : forall own k b, nth_error own k = Some (Some b) -> In b (blocks own).
Proof. intros own k b H. apply in_flat_map. exists (Some b). split; [eapply nth_error_In; exact H|left; reflexivity]. Qed.
Lemma sep_two : forall own j k a b, sep (blocks own) -> j <> k -> nth_error own j = Some (Some a) -> nth_error own k = Some (Some b) -> apart a b = true.
Proof.
  intros own j k a b S N A B. pose proof (sep_perm _ _ (blocks_drop _ _ _ A) S) as (S1 & _).
  rewrite Forall_forall in S1. apply S1. apply (blocks_in _ k). rewrite lset_nth_neq by exact N. exact B.
Qed.

(* ---- accesses ---- *)
Lemma inside_iff : forall b a, inside b a = true <-> bbase b <= a < bbase b + blen b.
Proof. intros. unfold inside. rewrite andb_true_iff, N.leb_le, N.ltb_lt. tauto. Qed.
Lemma accessible_in : forall w b a, In b (live w) -> inside b a = true -> accessible w a = true.
Proof. intros w b a H I. apply existsb_exists. eauto. Qed.
Definition setmem (w : world) (m : N -> option N) : world := mkw m (live w) (ptrs w) (answers w).
Lemma store_bytes_ok : forall l w b a, In b (live w) -> bbase b <= a -> a + N.of_nat (length l) <= bbase b + blen b ->
  exists m, store_bytes w a l = Ok (setmem w m) /\
    (forall x, x < a \/ a + N.of_nat (length l) <= x -> m x = mem w x) /\
    (forall i v, nth_error l i = Some v -> m (a + N.of_nat i) = v).
Proof.
  induction l as [|v l IH]; intros w b a I L H; cbn [store_bytes length] in *.
  - exists (mem w). split; [destruct w; reflexivity|]. split; [reflexivity|intros [|i] v E; discriminate].
  - unfold store. rewrite (accessible_in w b) by (auto; apply inside_iff; lia). cbn [bind].
    destruct (IH (mkw (fun c => if c =? a then v else mem w c) (live w) (ptrs w) (answers w)) b (a + 1) I ltac:(lia) ltac:(lia)) as (m & E & M1 & M2).
    exists m. split; [exact E|]. cbn [mem] in *. split.
    + intros x Hx. rewrite M1 by lia. destruct (N.eqb_spec x a); [lia|reflexivity].
    + intros [|i] u Eu; cbn [nth_error] in Eu.
      * injection Eu as ->. rewrite N.add_0_r, M1 by lia. rewrite N.eqb_refl. reflexivity.
      * replace (a + N.of_nat (S i)) with (a + 1 + N.of_nat i) by lia. apply M2. exact Eu.
Qed.
Lemma load_bytes_ok : forall n w b a, In b (live w) -> bbase b <= a -> a + N.of_nat n <= bbase b + blen b ->
  exists l, load_bytes n w a = Ok l /\ length l = n /\ forall i, (i < n)%nat -> nth_error l i = Some (mem w (a + N.of_nat i)).
Proof.
  induction n as [|n IH]; intros w b a I L H; cbn [load_bytes].
  - exists []. repeat split. intros; lia.
  - unfold load. rewrite (accessible_in w b) by (auto; apply inside_iff; lia). cbn [bind].
    destruct (IH w b (a + 1) I ltac:(lia) ltac:(lia)) as (l & -> & Ll & Hl). cbn [bind]. eexists. split; [reflexivity|].
    split; [cbn; congruence|]. intros [|i] Hi; cbn [nth_error].
    + rewrite N.add_0_r. reflexivity.
    + rewrite Hl by lia. do 2 f_equal. lia.
Qed.
(* the word at address a *)
Definition word (m : N -> option N) (a x : N) : Prop := x < 2 ^ 64 /\ forall i, (i < 8)%nat -> m (a + N.of_nat i) = nth_error (le_bytes 8 x) i.
Lemma store8_ok : forall w b a x, In b (live w) -> bbase b <= a -> a + 8 <= bbase b + blen b -> a mod 8 = 0 -> x < 2 ^ 64 ->
  exists m, store8 w a x = Ok (setmem w m) /\ (forall y, y < a \/ a + 8 <= y -> m y = mem w y) /\ word m a x.
Proof.
  intros w b a x I L H A X. unfold store8. rewrite A. cbn [N.eqb defined bind].
  destruct (store_bytes_ok (map Some (le_bytes 8 x)) w b a I L) as (m & E & M1 & M2).
  { rewrite map_length, le_bytes_length. exact H. }
  rewrite map_length, le_bytes_length in M1. exists m. split; [exact E|]. split; [exact M1|]. split; [exact X|].
  intros i Hi. destruct (nth_error (le_bytes 8 x) i) eqn:En.
  - apply M2. rewrite nth_error_map, En. reflexivity.
  - apply nth_error_None in En. rewrite le_bytes_length in En. lia.
Qed.
Lemma load8_ok : forall w b a x, In b (live w) -> bbase b <= a -> a + 8 <= bbase b + blen b -> a mod 8 = 0 -> word (mem w) a x ->
  load8 w a = Ok x.
Proof.
  intros w b a x I L H A (X & W). unfold load8. rewrite A. cbn [N.eqb defined bind].
  destruct (load_bytes_ok 8 w b a I L H) as (l & -> & Ll & Hl). cbn [bind].
  assert (l = map Some (le_bytes 8 x)) as ->.
  { apply nth_error_ext_some; [rewrite map_length, le_bytes_length; exact Ll|]. intros i Hi. rewrite Ll in Hi. rewrite Hl, W by exact Hi.
    rewrite nth_error_map. destruct (nth_error (le_bytes 8 x) i) eqn:En; [reflexivity|]. apply nth_error_None in En. rewrite le_bytes_length in En. lia. }
  apply le_roundtrip. exact X.
Qed.

(* ---- the C runtime ---- *)
Definition bit (a : option (N * N)) : bool := match a with Some _ => true | None => false end.
Lemma lib_alloc_ok : forall w align n a r, answers w = a :: r -> wfl (live w) ->
  lib_alloc w align n = OutOfFuel \/
  match a with
  | None => lib_alloc w align n = Ok (mkw (mem w) (live w) (ptrs w) r, 0)
  | Some _ => exists b m, lib_alloc w align n = Ok (mkw m (b :: live w) (ptrs w) r, bbase b) /\
      n <= blen b /\ bbase b mod align = 0 /\ wfl (b :: live w) /\ forall x, inside b x = false -> m x = mem w x
  end.
Proof.
  intros w align n a r Ha W. unfold lib_alloc. rewrite Ha. destruct a as [[p u]|]; [|right; reflexivity].
  destruct (legal w align n (mkb p u)) eqn:L; [right|left; reflexivity]. exists (mkb p u). eexists. split; [reflexivity|].
  unfold legal in L. rewrite !andb_true_iff, negb_true_iff in L. destruct L as (((((L1 & L2) & L3) & L4) & L5) & L6).
  apply N.eqb_neq in L1. apply N.leb_le in L2, L3. apply N.eqb_eq in L5. rewrite forallb_forall in L6. destruct W as (W1 & W2).
  split; [exact L2|]. split; [exact L5|]. split.
  - split; [split; [apply Forall_forall; exact L6|exact W1]|constructor; [split; assumption|exact W2]].
  - intros x ->. reflexivity.
Qed.

Section S.
  Variable linux : bool.
  (* chunk c at address p lives in block b *)
  Definition held (m : N -> option N) (p : N) (c : chunk) (b : block) : Prop :=
    p <> 0 /\ p mod calign c = 0 /\
    (if linux then bbase b = p /\ N.of_nat (length (cbytes c)) <= blen b
     else bbase b + 16 <= p < 2 ^ 64 /\ p + N.of_nat (length (cbytes c)) <= bbase b + blen b /\ p mod 8 = 0 /\
          word m (p - 8) (bbase b) /\ word m (p - 16) (N.of_nat (length (cbytes c)))) /\
    (forall i v, nth_error (cbytes c) i = Some (Some v) -> m (p + N.of_nat i) = Some v).
  Lemma held_range : forall m p c b, held m p c b -> bbase b <= p /\ p + N.of_nat (length (cbytes c)) <= bbase b + blen b.
  Proof. intros m p c b (_ & _ & H & _). destruct linux; lia. Qed.
  Lemma word_agree : forall m m' a x, (forall i, (i < 8)%nat -> m' (a + N.of_nat i) = m (a + N.of_nat i)) -> word m a x -> word m' a x.
  Proof. intros m m' a x H (X & W). split; [exact X|]. intros i Hi. rewrite H by exact Hi. apply W. exact Hi. Qed.
  (* a change inside of the bytes of the chunk *)
  Lemma held_update : forall m m' p c c' b, held m p c b -> calign c' = calign c -> length (cbytes c') = length (cbytes c) ->
    (forall x, x < p \/ p + N.of_nat (length (cbytes c)) <= x -> m' x = m x) ->
    (forall i v, nth_error (cbytes c') i = Some (Some v) -> m' (p + N.of_nat i) = Some v) -> held m' p c' b.
  Proof.
    intros m m' p c c' b (H1 & H2 & H3 & H4) A L F B. unfold held. rewrite A, L. split; [exact H1|]. split; [exact H2|]. split; [|exact B].
    destruct linux; [exact H3|]. destruct H3 as (K1 & K2 & K3 & K4 & K5). split; [exact K1|]. split; [exact K2|]. split; [exact K3|].
    split; (eapply word_agree; [|eassumption]); intros i Hi; apply F; lia.
  Qed.
  (* a change outside of the block *)
  Lemma held_agree : forall m m' p c b, held m p c b -> (forall x, inside b x = true -> m' x = m x) -> held m' p c b.
  Proof.
    intros m m' p c b H F. pose proof (held_range _ _ _ _ H) as (R1 & R2). destruct H as (H1 & H2 & H3 & H4).
    split; [exact H1|]. split; [exact H2|]. split.
    - destruct linux; [exact H3|]. destruct H3 as (K1 & K2 & K3 & K4 & K5). split; [exact K1|]. split; [exact K2|]. split; [exact K3|].
      split; (eapply word_agree; [|eassumption]); intros i Hi; apply F; apply inside_iff; lia.
    - intros i v E. rewrite F; [apply H4; exact E|]. apply inside_iff.
      assert (i < length (cbytes c))%nat by (apply nth_error_Some; congruence). lia.
  Qed.

  Definition good (m : N -> option N) (p : N) (c : option (option chunk)) (o : option block) : Prop :=
    match c, o with
    | Some (Some c), Some b => held m p c b
    | Some None, None => p = 0
    | None, None => True
    | _, _ => False
    end.
  Definition RR (m : N -> option N) (l : list block) (ps : list N) (s : bstore) : Prop :=
    exists own, length own = length s /\ length ps = length s /\ Permutation l (blocks own) /\ wfl l /\
      forall k c o p, nth_error s k = Some c -> nth_error own k = Some o -> nth_error ps k = Some p -> good m p c o.

  Lemma nth_same : forall A B (a : list A) (b : list B) k x, length a = length b -> nth_error a k = Some x -> exists y, nth_error b k = Some y.
  Proof.
    intros A B a b k x L H. destruct (nth_error b k) eqn:E; [eauto|]. apply nth_error_None in E.
    assert (k < length a)%nat by (apply nth_error_Some; congruence). lia.
  Qed.
  Lemma sget_nth : forall s k c, sget s k = Some c -> nth_error s k = Some (Some c).
  Proof. intros s k c H. unfold sget in H. destruct (nth_error s k) as [[?|]|]; congruence. Qed.

  (* a chunk of the store and its block *)
  Lemma RR_get : forall m l ps s k c, RR m l ps s -> sget s k = Some (Some c) ->
    exists p b, nth_error ps k = Some p /\ In b l /\ held m p c b.
  Proof.
    intros m l ps s k c (own & L1 & L2 & P & W & H) Sk. apply sget_nth in Sk.
    destruct (nth_same _ _ s own k _ (eq_sym L1) Sk) as (o & Eo). destruct (nth_same _ _ s ps k _ (eq_sym L2) Sk) as (p & Ep).
    pose proof (H _ _ _ _ Sk Eo Ep) as G. destruct o as [b|]; [|contradiction]. exists p, b. split; [exact Ep|]. split; [|exact G].
    eapply Permutation_in; [symmetry; exact P|]. eapply blocks_in. exact Eo.
  Qed.
  Lemma RR_null : forall m l ps s k, RR m l ps s -> sget s k = Some None -> nth_error ps k = Some 0.
  Proof.
    intros m l ps s k (own & L1 & L2 & P & W & H) Sk. apply sget_nth in Sk.
    destruct (nth_same _ _ s own k _ (eq_sym L1) Sk) as (o & Eo). destruct (nth_same _ _ s ps k _ (eq_sym L2) Sk) as (p & Ep).
    pose proof (H _ _ _ _ Sk Eo Ep) as G. destruct o as [b|]; [contradiction|]. cbn [good] in G. congruence.
  Qed.
  Lemma RR_wfl : forall m l ps s, RR m l ps s -> wfl l.
  Proof. intros m l ps s (own & _ & _ & _ & W & _). exact W. Qed.
  Lemma RR_push_null : forall m l ps s, RR m l ps s -> RR m l (ps ++ [0]) (s ++ [Some None]).
  Proof.
    intros m l ps s (own & L1 & L2 & P & W & H). exists (own ++ [None]). rewrite !app_length, L1, L2, blocks_app_none.
    split; [reflexivity|]. split; [reflexivity|]. split; [exact P|]. split; [exact W|].
    intros k c o p Ec Eo Ep. destruct (Nat.lt_ge_cases k (length s)) as [Hk|Hk].
    - rewrite nth_error_app1 in Ec, Eo, Ep by lia. eauto.
    - apply nth_snoc in Ec. apply nth_snoc in Eo. apply nth_snoc in Ep.
      destruct Ec as [Ec|(-> & ->)]; [assert (k < length s)%nat by (apply nth_error_Some; congruence); lia|].
      destruct Eo as [Eo|(_ & ->)]; [assert (length s < length own)%nat by (apply nth_error_Some; congruence); lia|].
      destruct Ep as [Ep|(_ & ->)]; [assert (length s < length ps)%nat by (apply nth_error_Some; congruence); lia|]. reflexivity.
  Qed.
  Lemma RR_push : forall m m' l ps s p c b, RR m l ps s -> wfl (b :: l) -> (forall x, inside b x = false -> m' x = m x) ->
    held m' p c b -> RR m' (b :: l) (ps ++ [p]) (s ++ [Some (Some c)]).
  Proof.
    intros m m' l ps s p c b (own & L1 & L2 & P & W & H) W' F K. exists (own ++ [Some b]). rewrite !app_length, L1, L2.
    split; [reflexivity|]. split; [reflexivity|]. split; [rewrite blocks_app, P; reflexivity|]. split; [exact W'|].
    intros k c' o q Ec Eo Ep. destruct (Nat.lt_ge_cases k (length s)) as [Hk|Hk].
    - rewrite nth_error_app1 in Ec, Eo, Ep by lia. pose proof (H _ _ _ _ Ec Eo Ep) as G. destruct c' as [[c'|]|], o as [b'|]; try exact G.
      cbn [good] in *. apply (held_agree m); [exact G|]. intros x Hx. apply F.
      destruct W' as ((W1 & _) & _). rewrite Forall_forall in W1. apply (apart_inside b' b); [|exact Hx]. rewrite apart_sym. apply W1.
      eapply Permutation_in; [symmetry; exact P|]. eapply blocks_in. exact Eo.
    - apply nth_snoc in Ec. apply nth_snoc in Eo. apply nth_snoc in Ep.
      destruct Ec as [Ec|(-> & ->)]; [assert (k < length s)%nat by (apply nth_error_Some; congruence); lia|].
      destruct Eo as [Eo|(_ & ->)]; [assert (length s < length own)%nat by (apply nth_error_Some; congruence); lia|].
      destruct Ep as [Ep|(_ & ->)]; [assert (length s < length ps)%nat by (apply nth_error_Some; congruence); lia|]. exact K.
  Qed.
  Lemma RR_update : forall m m' l ps s k p c c', RR m l ps s -> sget s k = Some (Some c) -> nth_error ps k = Some p ->
    calign c' = calign c -> length (cbytes c') = length (cbytes c) ->
    (forall x, x < p \/ p + N.of_nat (length (cbytes c)) <= x -> m' x = m x) ->
    (forall i v, nth_error (cbytes c') i = Some (Some v) -> m' (p + N.of_nat i) = Some v) ->
    RR m' l ps (lset s k (Some (Some c'))).
  Proof.
    intros m m' l ps s k p c c' (own & L1 & L2 & P & W & H) Sk Pk A L F B. apply sget_nth in Sk. exists own. rewrite lset_length.
    split; [exact L1|]. split; [exact L2|]. split; [exact P|]. split; [exact W|].
    destruct (nth_same _ _ s own k _ (eq_sym L1) Sk) as (o & Eo). pose proof (H _ _ _ _ Sk Eo Pk) as G. destruct o as [b|]; [|contradiction].
    intros i ci oi pi Ec Eo' Ep. apply lset_cases in Ec. destruct Ec as [(<- & -> & _)|(N & Ec)].
    - assert (oi = Some b) as -> by congruence. assert (pi = p) as -> by congruence. cbn [good] in *. apply (held_update m m' p c); assumption.
    - pose proof (H _ _ _ _ Ec Eo' Ep) as Gi. destruct ci as [[ci|]|], oi as [bi|]; try exact Gi. cbn [good] in *.
      apply (held_agree m); [exact Gi|]. intros x Hx. apply F. pose proof (held_range _ _ _ _ G) as (R1 & R2).
      assert (inside b x = false) as Hf.
      { apply (apart_inside bi b); [|exact Hx]. apply (sep_two own i k); [|congruence|exact Eo'|exact Eo].
        apply (sep_perm _ _ P). apply W. }
      destruct (N.lt_ge_cases x p) as [?|Hge]; [left; assumption|]. right. apply not_true_iff_false in Hf. rewrite inside_iff in Hf. lia.
  Qed.
  (* dropping a chunk takes its block out of the set *)
  Lemma RR_free : forall m l ps s k c, RR m l ps s -> sget s k = Some (Some c) ->
    exists p b, nth_error ps k = Some p /\ In b l /\ held m p c b /\
      exists l', remove (bbase b) l = Some l' /\ RR m l' ps (lset s k None).
  Proof.
    intros m l ps s k c (own & L1 & L2 & P & W & H) Sk. apply sget_nth in Sk.
    destruct (nth_same _ _ s own k _ (eq_sym L1) Sk) as (o & Eo). destruct (nth_same _ _ s ps k _ (eq_sym L2) Sk) as (p & Ep).
    pose proof (H _ _ _ _ Sk Eo Ep) as G. destruct o as [b|]; [|contradiction]. exists p, b. split; [exact Ep|].
    assert (In b l) as I by (eapply Permutation_in; [symmetry; exact P|]; eapply blocks_in; exact Eo).
    split; [exact I|]. split; [exact G|]. destruct (remove_ok l b (proj1 W) I) as (l' & Er & Pl). exists l'. split; [exact Er|].
    exists (lset own k None). rewrite !lset_length. split; [exact L1|]. split; [exact L2|]. split.
    { apply (Permutation_cons_inv (a := b)). rewrite <- Pl, P. apply blocks_drop. exact Eo. }
    split. { pose proof (wfl_perm _ _ Pl W) as ((_ & W1) & W2). split; [exact W1|]. inversion W2; assumption. }
    intros i ci oi pi Ec Eoi Epi. apply lset_cases in Ec. destruct Ec as [(<- & -> & _)|(N & Ec)].
    - rewrite lset_nth_eq in Eoi by (apply nth_error_Some; congruence). injection Eoi as <-. exact Logic.I.
    - rewrite lset_nth_neq in Eoi by exact N. eauto.
  Qed.
  Lemma RR_free_null : forall m l ps s k, RR m l ps s -> sget s k = Some None -> RR m l ps (lset s k None).
  Proof.
    intros m l ps s k (own & L1 & L2 & P & W & H) Sk. apply sget_nth in Sk. exists own. rewrite lset_length.
    split; [exact L1|]. split; [exact L2|]. split; [exact P|]. split; [exact W|].
    intros i ci oi pi Ec Eo Ep. apply lset_cases in Ec. destruct Ec as [(<- & -> & _)|(N & Ec)]; [|eauto].
    pose proof (H _ _ _ _ Sk Eo Ep) as G. destruct oi; [contradiction|exact Logic.I].
  Qed.

  (* ---- the functions ---- *)
  Lemma pow2_max : forall k j, N.max (2 ^ k) (2 ^ j) = 2 ^ N.max k j.
  Proof.
    intros k j. destruct (N.le_ge_cases k j) as [H|H].
    - rewrite (N.max_r k j) by exact H. apply N.max_r. apply N.pow_le_mono_r; [discriminate|exact H].
    - rewrite (N.max_l k j) by exact H. apply N.max_l. apply N.pow_le_mono_r; [discriminate|exact H].
  Qed.
  Definition least (size : N) : N := if 16 <=? size then 16 else 8.
  Lemma least_pow : forall size, exists j, 3 <= j <= 4 /\ least size = 2 ^ j.
  Proof. intro size. unfold least. destruct (16 <=? size); [exists 4|exists 3]; split; try lia; reflexivity. Qed.
  Lemma mod_pow : forall p k j, k <= j -> p mod 2 ^ j = 0 -> p mod 2 ^ k = 0.
  Proof.
    intros p k j H E. replace j with (k + (j - k)) in E by lia. rewrite N.pow_add_r in E.
    rewrite N.mod_mul_r in E by (apply N.pow_nonzero; discriminate).
    apply N.eq_add_0 in E. apply E.
  Qed.

  Lemma malloc_ok : forall w s ps size align a r, answers w = a :: r -> RR (mem w) (live w) ps s -> request size align ->
    system_malloc linux w size align = OutOfFuel \/
    match a with
    | None => system_malloc linux w size align = Ok (mkw (mem w) (live w) (ptrs w) r, 0)
    | Some _ => exists m l p, system_malloc linux w size align = Ok (mkw m l (ptrs w) r, p) /\ p <> 0 /\
        RR m l (ps ++ [p]) (s ++ [Some (Some (mkchunk align (nulls (N.to_nat size))))]) /\
        exists b, In b l /\ held m p (mkchunk align (nulls (N.to_nat size))) b /\ (forall c, In c (live w) -> In c l /\ apart b c = true)
          /\ (forall x, inside b x = false -> m x = mem w x)
    end.
  Proof.
    intros w s ps size align a r Ha HR ((k & ->) & Hsz). unfold system_malloc. fold (least size). destruct (least_pow size) as (j & Hj & ->).
    rewrite pow2_max. set (kk := N.max k j).
    assert (Nn : forall i v, nth_error (nulls (N.to_nat size)) i <> Some (Some v)).
    { intros i v E. apply nth_error_In, repeat_spec in E. discriminate. }
    pose proof (RR_wfl _ _ _ _ HR) as W.
    assert (size + 2 ^ kk + 16 < 2 ^ 64) as Hfit.
    { unfold kk. rewrite <- pow2_max. assert (2 ^ j <= 16) by (change 16 with (2 ^ 4); apply N.pow_le_mono_r; [discriminate|lia]).
      revert Hsz H. generalize (2 ^ k) (2 ^ j). intros. lia. }
    assert (kk < 64) as Hkk by (apply (N.pow_lt_mono_r_iff 2); [lia|]; lia).
    destruct linux eqn:El.
    - destruct (lib_alloc_ok w (2 ^ kk) size a r Ha W) as [E|E]; [left; exact E|right]. destruct a as [aa|]; [|exact E].
      destruct E as (b & m & E & L & A & W' & F). exists m, (b :: live w), (bbase b). split; [exact E|].
      destruct W' as ((W1 & W2) & W3). pose proof W3 as W3'. inversion W3 as [|? ? (B1 & B2) W4]; subst. split; [exact B1|].
      assert (held m (bbase b) (mkchunk (2 ^ k) (nulls (N.to_nat size))) b) as K.
      { unfold held. rewrite El. cbn [calign cbytes]. unfold nulls at 1. rewrite repeat_length, N2Nat.id.
        split; [exact B1|]. split; [apply (mod_pow _ k kk); [lia|exact A]|]. split; [split; [reflexivity|exact L]|].
        intros i v Ev. destruct (Nn i v Ev). }
      split; [apply (RR_push (mem w)); auto; split; [split|]; assumption|].
      exists b. split; [left; reflexivity|]. split; [exact K|]. split; [|exact F].
      rewrite Forall_forall in W1. intros c Hc. split; [right; exact Hc|apply W1; exact Hc].
    - assert (wadd 64 (wadd 64 (wadd 64 size (2 ^ kk)) 8) 8 = size + 2 ^ kk + 16) as ->.
      { unfold wadd. rewrite (wrap_small 64 (size + 2 ^ kk)) by lia. rewrite (wrap_small 64 (size + 2 ^ kk + 8)) by lia. rewrite wrap_small by lia. lia. }
      destruct (lib_alloc_ok w 16 (size + 2 ^ kk + 16) a r Ha W) as [E|E]; [left; rewrite E; reflexivity|right]. destruct a as [aa|]; [|rewrite E; reflexivity].
      destruct E as (b & m & E & L & A & W' & F). rewrite E. cbn [bind].
      destruct W' as ((W1 & W2) & W3). pose proof W3 as W3'. inversion W3 as [|? ? (B1 & B2) W4]; subst.
      replace (bbase b =? 0) with false by (symmetry; apply N.eqb_neq; exact B1).
      assert (bbase b + blen b <= 2 ^ 64) as B3 by (unfold extent in B2; lia).
      assert (wadd 64 (wadd 64 (bbase b) 8) 8 = bbase b + 16) as ->.
      { unfold wadd. rewrite (wrap_small 64 (bbase b + 8)) by lia. rewrite wrap_small by lia. lia. }
      pose proof (pow2_pos kk) as Pk.
      rewrite (align_up_eq (bbase b + 16) kk Hkk) by lia.
      set (X := bbase b + 16 + 2 ^ kk - 1). assert (X mod 2 ^ kk < 2 ^ kk) as HX by (apply N.mod_lt; lia).
      set (p := X - X mod 2 ^ kk).
      assert (bbase b + 16 <= p <= X) as Hp by (unfold p; revert HX; generalize (X mod 2 ^ kk); intros r0 HX; unfold X; clear - HX; lia).
      assert (X = bbase b + 16 + 2 ^ kk - 1) as EX by reflexivity.
      assert (p mod 2 ^ kk = 0) as Hpm.
      { apply N.mod_divide; [lia|]. exists (X / 2 ^ kk). unfold p. pose proof (N.div_mod X (2 ^ kk) ltac:(lia)) as D.
        revert D. generalize (X / 2 ^ kk) (X mod 2 ^ kk). intros qq rr D. rewrite D. rewrite N.add_sub. apply N.mul_comm. }
      assert (p mod 8 = 0) as H8 by (change 8 with (2 ^ 3); apply (mod_pow _ 3 kk); [lia|exact Hpm]).
      assert (p < 2 ^ 64) as Hlt by lia. clearbody p X.
      rewrite (wsub_ge 64 p 8) by lia. rewrite (wsub_ge 64 (p - 8) 8) by lia.
      assert (forall q, 8 <= p -> q = p - 8 \/ q = p - 16 -> 16 <= p -> q mod 8 = 0) as M8.
      { intros q _ Hq H16. apply N.mod_divide in H8; [|discriminate]. destruct H8 as (z & Hz). apply N.mod_divide; [discriminate|].
        destruct Hq as [Hq|Hq]; subst q; [exists (z - 1)|exists (z - 2)]; lia. }
      set (w1 := mkw m (b :: live w) (ptrs w) r).
      destruct (store8_ok w1 b (p - 8) (bbase b)) as (m1 & -> & F1 & Wd1); [left; reflexivity|lia|lia|apply M8; lia|lia|].
      cbn [bind]. replace (p - 8 - 8) with (p - 16) by lia.
      destruct (store8_ok (setmem w1 m1) b (p - 16) size) as (m2 & -> & F2 & Wd2); [left; reflexivity|lia|lia|apply M8; lia|lia|].
      cbn [bind setmem live ptrs answers mem w1] in *. exists m2, (b :: live w), p. split; [reflexivity|]. split; [lia|].
      assert (forall x, inside b x = false -> m2 x = mem w x) as F3.
      { intros x Hx. apply not_true_iff_false in Hx. rewrite inside_iff in Hx. rewrite F2 by lia. rewrite F1 by lia.
        apply F. apply not_true_iff_false. rewrite inside_iff. exact Hx. }
      assert (held m2 p (mkchunk (2 ^ k) (nulls (N.to_nat size))) b) as K.
      { unfold held. rewrite El. cbn [calign cbytes]. unfold nulls at 1 2. rewrite repeat_length, N2Nat.id.
        split; [lia|]. split; [apply (mod_pow _ k kk); [lia|exact Hpm]|]. split.
        - split; [lia|]. split; [lia|]. split; [exact H8|]. split; [|exact Wd2].
          eapply word_agree; [|exact Wd1]. intros i Hi. apply F2. lia.
        - intros i v Ev. destruct (Nn i v Ev). }
      split; [apply (RR_push (mem w)); auto; split; [split|]; assumption|].
      exists b. split; [left; reflexivity|]. split; [exact K|]. split; [|exact F3].
      rewrite Forall_forall in W1. intros c Hc. split; [right; exact Hc|apply W1; exact Hc].
  Qed.

  Lemma msize_ok : forall w p c b, wfl (live w) -> In b (live w) -> held (mem w) p c b ->
    exists n, system_msize linux w p = Ok n /\ N.of_nat (length (cbytes c)) <= n /\ p + n <= bbase b + blen b /\
      (linux = false -> n = N.of_nat (length (cbytes c))).
  Proof.
    intros w p c b (W1 & W2) I (H1 & H2 & H3 & H4). unfold system_msize. replace (p =? 0) with false by (symmetry; apply N.eqb_neq; exact H1).
    destruct linux.
    - destruct H3 as (K1 & K2). subst p. unfold lib_usable_size. rewrite find_ok by assumption. exists (blen b). repeat split; auto; [lia|discriminate].
    - destruct H3 as (K1 & K2 & K3 & K4 & K5). rewrite Forall_forall in W2. destruct (W2 _ I) as (B1 & B2). unfold extent in B2.
      rewrite (wsub_ge 64 p 8) by lia. rewrite (wsub_ge 64 (p - 8) 8) by lia. replace (p - 8 - 8) with (p - 16) by lia.
      rewrite (load8_ok w b (p - 16) (N.of_nat (length (cbytes c)))); auto; try lia.
      + eexists. split; [reflexivity|]. split; [lia|]. split; [lia|reflexivity].
      + apply N.mod_divide in K3; [|discriminate]. destruct K3 as (z & Hz). apply N.mod_divide; [discriminate|]. exists (z - 2). lia.
  Qed.
  Lemma free_ok : forall w s ps k p c, RR (mem w) (live w) ps s -> sget s k = Some c -> nth_error ps k = Some p ->
    exists l, system_free linux w p = Ok (mkw (mem w) l (ptrs w) (answers w)) /\ RR (mem w) l ps (lset s k None).
  Proof.
    intros w s ps k p c HR Sk Pk. destruct c as [c|].
    - destruct (RR_free _ _ _ _ _ _ HR Sk) as (p' & b & Pk' & I & K & l' & Er & HR'). assert (p' = p) as -> by congruence.
      exists l'. split; [|exact HR']. destruct (RR_wfl _ _ _ _ HR) as (W1 & W2). rewrite Forall_forall in W2. destruct (W2 _ I) as (B1 & B2).
      destruct K as (H1 & H2 & H3 & H4). unfold system_free. replace (p =? 0) with false by (symmetry; apply N.eqb_neq; exact H1). destruct linux.
      + destruct H3 as (K1 & K2). subst p. unfold lib_free. replace (bbase b =? 0) with false by (symmetry; apply N.eqb_neq; exact B1).
        rewrite Er. reflexivity.
      + destruct H3 as (K1 & K2 & K3 & K4 & K5). rewrite wsub_ge by lia. rewrite (load8_ok w b (p - 8) (bbase b)); auto; try lia.
        * cbn [bind]. unfold lib_free. replace (bbase b =? 0) with false by (symmetry; apply N.eqb_neq; exact B1). rewrite Er. reflexivity.
        * apply N.mod_divide in K3; [|discriminate]. destruct K3 as (z & Hz). apply N.mod_divide; [discriminate|]. exists (z - 1). lia.
    - pose proof (RR_null _ _ _ _ _ HR Sk) as P0. assert (p = 0) as -> by congruence. exists (live w). split; [|apply RR_free_null; assumption].
      unfold system_free, lib_free. cbn [N.eqb]. destruct linux, w; reflexivity.
  Qed.

  Lemma firstn_nth : forall T (l : list T) n i, (i < n)%nat -> nth_error (firstn n l) i = nth_error l i.
  Proof. induction l; intros [|n] [|i] H; cbn; auto; try lia. apply IHl. lia. Qed.
  (* the bytes of a block copied into a fresh one *)
  Lemma realloc_ok : forall w s k p c size align a r, answers w = a :: r -> RR (mem w) (live w) (ptrs w) s ->
    sget s k = Some c -> nth_error (ptrs w) k = Some p -> request size align -> 0 < size ->
    system_realloc linux w p size align = OutOfFuel \/
    match a, c with
    | None, Some _ => True
    | None, None => exists l, system_realloc linux w p size align = Ok (mkw (mem w) l (ptrs w) r, 0) /\ RR (mem w) l (ptrs w) (lset s k None)
    | Some _, _ => exists m l q, system_realloc linux w p size align = Ok (mkw m l (ptrs w) r, q) /\ q <> 0 /\
        RR m l (ptrs w ++ [q]) (lset s k None ++ [Some (Some (resized c size align))])
    end.
  Proof.
    intros w s k p c size align a r Ha HR Sk Pk Hq Hs. unfold system_realloc. fold (least size).
    replace (0 <? size) with true by (symmetry; apply N.ltb_lt; exact Hs).
    assert (system_malloc linux w size (N.max align (least size)) = system_malloc linux w size align) as ->.
    { unfold system_malloc. fold (least size). rewrite <- N.max_assoc, N.max_id. reflexivity. }
    assert (k < length s)%nat as Hk by (apply nth_error_Some; rewrite (sget_nth _ _ _ Sk); discriminate).
    assert (length (ptrs w) = length s) as Lp by (destruct HR as (? & _ & L & _); exact L).
    destruct (malloc_ok w s (ptrs w) size align a r Ha HR Hq) as [E|E]; [left; rewrite E; reflexivity|].
    destruct a as [a|].
    - destruct E as (m & l & q & E & Hq0 & HR1 & b & Ib & Kb & Hsep & Fm). rewrite E. cbn [bind]. right.
      assert (sget (s ++ [Some (Some (mkchunk align (nulls (N.to_nat size))))]) k = Some c) as Sk1.
      { unfold sget. rewrite nth_error_app1 by exact Hk. rewrite (sget_nth _ _ _ Sk). reflexivity. }
      assert (nth_error (ptrs w ++ [q]) k = Some p) as Pk1 by (rewrite nth_error_app1 by lia; exact Pk).
      destruct c as [c|].
      + destruct (RR_get _ _ _ _ _ _ HR Sk) as (p' & b0 & Ep & I0 & K0). assert (p' = p) as -> by congruence.
        replace (p =? 0) with false by (symmetry; apply N.eqb_neq; apply K0). cbn [negb].
        set (w1 := mkw m l (ptrs w) r).
        destruct (Hsep _ I0) as (I0' & A0).
        assert (held m p c b0) as K0'.
        { apply (held_agree (mem w)); [exact K0|]. intros x Hx. apply Fm. apply (apart_inside b0 b); [rewrite apart_sym; exact A0|exact Hx]. }
        destruct (msize_ok w1 p c b0 (RR_wfl _ _ _ _ HR1) I0' K0') as (n & -> & N1 & N2 & _). cbn [bind].
        pose proof (held_range _ _ _ _ K0) as (R1 & R2). pose proof (held_range _ _ _ _ Kb) as (Q1 & Q2).
        cbn [cbytes] in Q2. unfold nulls in Q2. rewrite repeat_length, N2Nat.id in Q2.
        set (cnt := N.min n size).
        assert (memcpy w1 q p cnt = let! x := load_bytes (N.to_nat cnt) w1 p in store_bytes w1 q x) as ->.
        { unfold memcpy. replace (q =? 0) with false by (symmetry; apply N.eqb_neq; exact Hq0).
          replace (p =? 0) with false by (symmetry; apply N.eqb_neq; apply K0). cbn [negb andb defined bind].
          replace ((q + cnt <=? p) || (p + cnt <=? q)) with true; [reflexivity|]. symmetry. apply orb_true_iff. rewrite !N.leb_le.
          unfold apart, extent in A0. apply orb_true_iff in A0. rewrite !N.leb_le in A0. unfold cnt. lia. }
        destruct (load_bytes_ok (N.to_nat cnt) w1 b0 p I0' R1) as (xs & -> & Lx & Hx); [unfold cnt; lia|]. cbn [bind].
        destruct (store_bytes_ok xs w1 b q Ib Q1) as (m2 & -> & F2 & B2); [rewrite Lx; unfold cnt; lia|]. cbn [bind].
        assert (RR m2 l (ptrs w ++ [q]) (s ++ [Some (Some (resized (Some c) size align))])) as HR2.
        { rewrite <- (lset_app_new _ s (Some (Some (mkchunk align (nulls (N.to_nat size)))))).
          apply (RR_update m m2 l (ptrs w ++ [q]) _ (length s) q (mkchunk align (nulls (N.to_nat size)))).
          - exact HR1.
          - unfold sget. rewrite nth_app_new. reflexivity.
          - rewrite <- Lp. apply nth_app_new.
          - reflexivity.
          - cbn [cbytes resized]. unfold nulls. rewrite app_length, firstn_length, !repeat_length. lia.
          - cbn [cbytes]. unfold nulls. rewrite repeat_length, N2Nat.id. intros x Hxx. apply F2. rewrite Lx. unfold cnt. lia.
          - cbn [cbytes resized]. intros i v Ev. destruct (Nat.lt_ge_cases i (length (firstn (N.to_nat size) (cbytes c)))) as [Hi|Hi].
            + rewrite nth_error_app1 in Ev by exact Hi. rewrite firstn_length in Hi. rewrite firstn_nth in Ev by lia.
              assert (nth_error xs i = Some (Some v)) as Ex.
              { rewrite Hx by (unfold cnt; lia). f_equal. apply K0'. exact Ev. }
              apply (B2 _ _ Ex).
            + rewrite nth_error_app2 in Ev by exact Hi. apply nth_error_In, repeat_spec in Ev. discriminate. }
        assert (sget (s ++ [Some (Some (resized (Some c) size align))]) k = Some (Some c)) as Sk2.
        { unfold sget. rewrite nth_error_app1 by exact Hk. rewrite (sget_nth _ _ _ Sk). reflexivity. }
        destruct (free_ok (setmem w1 m2) _ (ptrs w ++ [q]) k p (Some c) HR2 Sk2 Pk1) as (l2 & -> & HR3). cbn [bind setmem mem ptrs answers w1].
        exists m2, l2, q. split; [reflexivity|]. split; [exact Hq0|]. rewrite lset_app1 in HR3 by exact Hk. exact HR3.
      + pose proof (RR_null _ _ _ _ _ HR Sk) as P0. assert (p = 0) as -> by congruence. cbn [N.eqb negb bind].
        destruct (free_ok (mkw m l (ptrs w) r) _ (ptrs w ++ [q]) k 0 None HR1 Sk1 Pk1) as (l2 & -> & HR3). cbn [bind mem ptrs answers].
        exists m, l2, q. split; [reflexivity|]. split; [exact Hq0|]. rewrite lset_app1 in HR3 by exact Hk.
        unfold resized. rewrite firstn_nil, Nat.sub_0_r. exact HR3.
    - rewrite E. cbn [bind]. right. destruct c as [c|]; [exact Logic.I|].
      pose proof (RR_null _ _ _ _ _ HR Sk) as P0. assert (p = 0) as -> by congruence. cbn [N.eqb negb bind].
      destruct (free_ok (mkw (mem w) (live w) (ptrs w) r) s (ptrs w) k 0 None HR Sk Pk) as (l2 & -> & HR3). cbn [bind mem ptrs answers].
      exists l2. split; [reflexivity|exact HR3].
  Qed.

  Definition R (w : world) (bits : list bool) (s : bstore) : Prop := RR (mem w) (live w) (ptrs w) s /\ bits = map bit (answers w).

  Lemma step_ok : forall w bits s o, R w bits s -> well_formed o ->
    match ideal s bits o with
    | Some (Some (s', r), bits') => step linux w o = OutOfFuel \/ exists w' r', step linux w o = Ok (w', r') /\ same linux r' r /\ R w' bits' s'
    | Some (None, _) => step linux w o = OutOfFuel \/ step linux w o = Contract
    | None => True
    end.
  Proof.
    intros w bits s o (HR & HB) Hf.
    assert (G : forall k c, sget s k = Some c -> exists p, nth_error (ptrs w) k = Some p /\ get w k = Ok p).
    { intros k c Sk. destruct HR as (own & _ & L & _). destruct (nth_same _ _ s (ptrs w) k _ (eq_sym L) (sget_nth _ _ _ Sk)) as (p & Ep).
      exists p. split; [exact Ep|]. apply aget_Ok. exact Ep. }
    assert (AL : forall size align (f : bool), request size align ->
      match bits with
      | true :: bits' => (let! r := system_malloc linux w size align in let! _ := contract (f || negb (snd r =? 0) || (size =? 0)) in give r) = OutOfFuel \/
           exists w', (let! r := system_malloc linux w size align in let! _ := contract (f || negb (snd r =? 0) || (size =? 0)) in give r) = Ok (w', RPtr true) /\
             R w' bits' (s ++ [Some (Some (mkchunk align (nulls (N.to_nat size))))])
      | false :: bits' =>
          if f || (size =? 0)
          then exists w', (let! r := system_malloc linux w size align in let! _ := contract (f || negb (snd r =? 0) || (size =? 0)) in give r) = Ok (w', RPtr false) /\
             R w' bits' (s ++ [Some None])
          else (let! r := system_malloc linux w size align in let! _ := contract (f || negb (snd r =? 0) || (size =? 0)) in give r) = Contract
      | [] => True
      end \/ system_malloc linux w size align = OutOfFuel).
    { intros size align f Hq. destruct (answers w) as [|a r] eqn:Ea; cbn [map] in HB; subst bits; [left; exact Logic.I|].
      destruct (malloc_ok w s (ptrs w) size align a r Ea HR Hq) as [E|E]; [right; exact E|left].
      destruct a as [a|]; cbn [bit].
      - destruct E as (m & l & p & E & Hp & HR1 & _). right. rewrite E. cbn [bind snd]. apply N.eqb_neq in Hp. rewrite Hp. cbn [negb].
        rewrite orb_true_r. cbn [orb contract bind give]. rewrite Hp. cbn [negb]. eexists. split; [reflexivity|]. split; [exact HR1|reflexivity].
      - rewrite E. cbn [bind snd N.eqb negb]. rewrite orb_false_r. destruct (f || (size =? 0)); cbn [contract bind give N.eqb negb]; [|reflexivity].
        eexists. split; [reflexivity|]. split; [apply RR_push_null; exact HR|reflexivity]. }
    assert (RE : forall k c size align (f : bool), sget s k = Some c -> request size align ->
      let e := (let! p := get w k in let! r := system_realloc linux w p size align in let! _ := contract (f || negb (snd r =? 0) || (size =? 0)) in give r) in
      if size =? 0 then exists w', e = Ok (w', RPtr false) /\ R w' bits (lset s k None ++ [Some None])
      else match bits with
           | true :: bits' => e = OutOfFuel \/ exists w', e = Ok (w', RPtr true) /\ R w' bits' (lset s k None ++ [Some (Some (resized c size align))])
           | false :: bits' =>
               match c with
               | None => e = OutOfFuel \/ if f then exists w', e = Ok (w', RPtr false) /\ R w' bits' (lset s k None ++ [Some None]) else e = Contract
               | Some _ => True
               end
           | [] => True
           end).
    { intros k c size align f Sk Hq e. destruct (G _ _ Sk) as (p & Ep & Gp). unfold e. rewrite Gp. cbn [bind].
      destruct (N.eqb_spec size 0) as [->|Hs].
      - unfold system_realloc. cbn [N.ltb N.compare bind].
        destruct (free_ok w s (ptrs w) k p c HR Sk Ep) as (l & -> & HR1). cbn [bind snd N.eqb negb]. rewrite orb_true_r. cbn [contract bind give N.eqb negb].
        eexists. split; [reflexivity|]. split; [apply RR_push_null; exact HR1|exact HB].
      - destruct (answers w) as [|a r] eqn:Ea; cbn [map] in HB; subst bits; [exact Logic.I|].
        destruct (realloc_ok w s k p c size align a r Ea HR Sk Ep Hq ltac:(lia)) as [E|E].
        { rewrite E. cbn [bind]. destruct a; cbn [bit]; [left; reflexivity|]. destruct c; [exact Logic.I|left; reflexivity]. }
        destruct a as [a|]; cbn [bit].
        + destruct E as (m & l & q & E & Hq0 & HR1). right. rewrite E. cbn [bind snd]. apply N.eqb_neq in Hq0. rewrite Hq0. cbn [negb].
          rewrite orb_true_r. cbn [orb contract bind give]. rewrite Hq0. cbn [negb]. eexists. split; [reflexivity|]. split; [exact HR1|reflexivity].
        + destruct c as [c|]; [exact Logic.I|]. right. destruct E as (l & E & HR1). rewrite E. cbn [bind snd N.eqb negb]. rewrite orb_false_r.
          rewrite ?orb_false_r. destruct f; cbn [contract bind give N.eqb negb]; [|reflexivity].
          eexists. split; [reflexivity|]. split; [apply RR_push_null; exact HR1|reflexivity]. }
    destruct o as [size align|size align|k size align|k size align|k|k|k i x|k i]; cbn [ideal step well_formed] in *.
    - destruct (AL size align true Hf) as [E|E]; cbn [orb] in E.
      2: { rewrite E. cbn [bind]. destruct bits as [|[] bits']; [exact Logic.I|left; reflexivity|cbn [orb]; left; reflexivity]. }
      assert (X : (let! r := system_malloc linux w size align in give r) =
                  (let! r := system_malloc linux w size align in let! _ := contract true in give r)) by reflexivity.
      rewrite X. destruct bits as [|[] bits']; [exact Logic.I| |].
      + destruct E as [E|(w' & E & HR')]; [left; exact E|right; exists w', (RPtr true); split; [exact E|split; [reflexivity|exact HR']]].
      + cbn [orb]. destruct E as (w' & E & HR'). right; exists w', (RPtr false); split; [exact E|split; [reflexivity|exact HR']].
    - destruct (AL size align false Hf) as [E|E]; cbn [orb] in E.
      2: { rewrite E. cbn [bind]. destruct bits as [|[] bits']; [exact Logic.I|left; reflexivity|cbn [orb]]. destruct (size =? 0); left; reflexivity. }
      destruct bits as [|[] bits']; [exact Logic.I| |].
      + destruct E as [E|(w' & E & HR')]; [left; exact E|right; exists w', (RPtr true); split; [exact E|split; [reflexivity|exact HR']]].
      + cbn [orb]. destruct (size =? 0); [|right; exact E]. destruct E as (w' & E & HR'). right; exists w', (RPtr false); split; [exact E|split; [reflexivity|exact HR']].
    - destruct (sget s k) as [c|] eqn:Sk; [|exact Logic.I]. pose proof (RE k c size align true Sk Hf) as E. cbn [orb] in E. rewrite put_lset.
      assert (X : (let! p := get w k in let! r := system_realloc linux w p size align in give r) =
                  (let! p := get w k in let! r := system_realloc linux w p size align in let! _ := contract true in give r)) by reflexivity.
      rewrite X. destruct (size =? 0).
      + destruct E as (w' & E & HR'). right; exists w', (RPtr false); split; [exact E|split; [reflexivity|exact HR']].
      + destruct bits as [|[] bits']; [exact Logic.I| |].
        * destruct E as [E|(w' & E & HR')]; [left; exact E|right; exists w', (RPtr true); split; [exact E|split; [reflexivity|exact HR']]].
        * destruct c; [exact Logic.I|]. destruct E as [E|(w' & E & HR')]; [left; exact E|right; exists w', (RPtr false); split; [exact E|split; [reflexivity|exact HR']]].
    - destruct (sget s k) as [c|] eqn:Sk; [|exact Logic.I]. pose proof (RE k c size align false Sk Hf) as E. cbn [orb] in E. rewrite put_lset.
      destruct (size =? 0).
      + destruct E as (w' & E & HR'). right; exists w', (RPtr false); split; [exact E|split; [reflexivity|exact HR']].
      + destruct bits as [|[] bits']; [exact Logic.I| |].
        * destruct E as [E|(w' & E & HR')]; [left; exact E|right; exists w', (RPtr true); split; [exact E|split; [reflexivity|exact HR']]].
        * destruct c; [exact Logic.I|]. exact E.
    - destruct (sget s k) as [c|] eqn:Sk; [|exact Logic.I]. destruct (G _ _ Sk) as (p & Ep & ->). cbn [bind].
      destruct (free_ok w s (ptrs w) k p c HR Sk Ep) as (l & -> & HR1). cbn [bind]. right. eexists _, _. split; [reflexivity|]. split; [reflexivity|].
      rewrite put_lset. split; [exact HR1|exact HB].
    - destruct (sget s k) as [c|] eqn:Sk; [|exact Logic.I]. destruct c as [c|].
      + destruct (RR_get _ _ _ _ _ _ HR Sk) as (p & b & Ep & Ib & K).
        assert (get w k = Ok p) as -> by (apply aget_Ok; exact Ep). cbn [bind].
        destruct (msize_ok w p c b (RR_wfl _ _ _ _ HR) Ib K) as (n & -> & N1 & _ & N2). cbn [bind]. right. eexists _, _. split; [reflexivity|].
        split; [|split; assumption]. cbn [same]. destruct linux; [exact N1|apply N2; reflexivity].
      + pose proof (RR_null _ _ _ _ _ HR Sk) as P0. assert (get w k = Ok 0) as -> by (apply aget_Ok; exact P0). cbn [bind].
        unfold system_msize. cbn [N.eqb bind]. right. eexists _, _. split; [reflexivity|]. split; [|split; assumption].
        cbn [same]. destruct linux; [lia|reflexivity].
    - destruct (sget s k) as [c|] eqn:Sk; [|exact Logic.I]. destruct c as [c|]; [|exact Logic.I].
      destruct (nth_error (cbytes c) (N.to_nat i)) as [y|] eqn:Ey; [|exact Logic.I].
      assert (N.to_nat i < length (cbytes c))%nat as Hi by (apply nth_error_Some; congruence).
      destruct (RR_get _ _ _ _ _ _ HR Sk) as (p & b & Ep & Ib & K). assert (get w k = Ok p) as -> by (apply aget_Ok; exact Ep). cbn [bind].
      pose proof (held_range _ _ _ _ K) as (R1 & R2). unfold SysAllocModel.store.
      rewrite (accessible_in w b) by (auto; apply inside_iff; lia). cbn [bind]. right. eexists _, _. split; [reflexivity|]. split; [reflexivity|].
      rewrite !put_lset. split; [|exact HB]. cbn [mem live ptrs]. apply (RR_update (mem w) _ _ _ _ _ p c); auto.
      + cbn [cbytes]. apply lset_length.
      + intros z Hz. destruct (N.eqb_spec z (p + i)); [lia|reflexivity].
      + cbn [cbytes]. intros q v Eq. apply lset_cases in Eq. destruct Eq as [(<- & Eq & _)|(N & Eq)].
        * rewrite N2Nat.id, N.eqb_refl. congruence.
        * destruct (N.eqb_spec (p + N.of_nat q) (p + i)); [lia|]. apply K. exact Eq.
    - destruct (sget s k) as [c|] eqn:Sk; [|exact Logic.I]. destruct c as [c|]; [|exact Logic.I].
      destruct (nth_error (cbytes c) (N.to_nat i)) as [y|] eqn:Ey; [|exact Logic.I]. destruct y as [y|]; [|exact Logic.I].
      assert (N.to_nat i < length (cbytes c))%nat as Hi by (apply nth_error_Some; congruence).
      destruct (RR_get _ _ _ _ _ _ HR Sk) as (p & b & Ep & Ib & K). assert (get w k = Ok p) as -> by (apply aget_Ok; exact Ep). cbn [bind].
      pose proof (held_range _ _ _ _ K) as (R1 & R2). unfold SysAllocModel.load.
      rewrite (accessible_in w b) by (auto; apply inside_iff; lia). cbn [bind]. right. eexists _, _. split; [reflexivity|].
      destruct K as (_ & _ & _ & K). specialize (K _ _ Ey). rewrite N2Nat.id in K. rewrite K. split; [reflexivity|]. split; assumption.
  Qed.

  Lemma run_ok : forall os w bits s, R w bits s -> Forall well_formed os ->
    match irun s bits os with
    | Some (Some (s', rs)) => run linux w os = OutOfFuel \/
        exists w' rs', run linux w os = Ok (w', rs') /\ Forall2 (same linux) rs' rs /\ RR (mem w') (live w') (ptrs w') s'
    | Some None => run linux w os = OutOfFuel \/ run linux w os = Contract
    | None => True
    end.
  Proof.
    induction os as [|o os IH]; intros w bits s HR F; cbn [irun run].
    { right. exists w, []. split; [reflexivity|]. split; [constructor|apply HR]. }
    inversion F as [|? ? Fa Fb]; subst. pose proof (step_ok w bits s o HR Fa) as S1.
    destruct (ideal s bits o) as [[[[s1 r]|] bits1]|]; [| |exact Logic.I].
    - destruct S1 as [E|(w1 & r1 & E & Sm & HR1)].
      + rewrite E. cbn [bind]. destruct (irun s1 bits1 os) as [[[s2 rs]|]|]; auto.
      + rewrite E. cbn [bind]. specialize (IH w1 bits1 s1 HR1 Fb). destruct (irun s1 bits1 os) as [[[s2 rs]|]|]; [| |exact Logic.I].
        * destruct IH as [E2|(w2 & rs2 & E2 & F2 & HR2)]; rewrite E2; cbn [bind]; [left; reflexivity|].
          right. eexists _, _. split; [reflexivity|]. split; [constructor; assumption|exact HR2].
        * destruct IH as [E2|E2]; rewrite E2; auto.
    - destruct S1 as [E|E]; rewrite E; auto.
  Qed.

  Lemma RR_placed : forall m l ps s, RR m l ps s -> placed ps s.
  Proof.
    intros m l ps s (own & L1 & L2 & P & W & H). split; [exact L2|].
    assert (F : forall k c p, nth_error ps k = Some p -> nth_error s k = Some (Some (Some c)) ->
              exists b, nth_error own k = Some (Some b) /\ held m p c b /\ fine b).
    { intros k c p Ep Ec. destruct (nth_same _ _ s own k _ (eq_sym L1) Ec) as (o & Eo). pose proof (H _ _ _ _ Ec Eo Ep) as G.
      destruct o as [b|]; [|contradiction]. exists b. split; [exact Eo|]. split; [exact G|]. destruct W as (_ & W2). rewrite Forall_forall in W2. apply W2.
      eapply Permutation_in; [symmetry; exact P|]. eapply blocks_in. exact Eo. }
    split.
    - intros k c p Ep Ec. destruct (F _ _ _ Ep Ec) as (b & Eo & K & B1 & B2). pose proof (held_range _ _ _ _ K). unfold extent in B2.
      split; [apply K|]. split; [apply K|lia].
    - intros j k c d p q N Ep Eq Ec Ed. destruct (F _ _ _ Ep Ec) as (b & Eo & K & _). destruct (F _ _ _ Eq Ed) as (b' & Eo' & K' & _).
      pose proof (held_range _ _ _ _ K). pose proof (held_range _ _ _ _ K').
      assert (apart b b' = true) as A by (apply (sep_two own j k); auto; apply (sep_perm _ _ P); apply W).
      unfold apart, extent in A. apply orb_true_iff in A. rewrite !N.leb_le in A. lia.
  Qed.
  Lemma RR_leaks : forall m l ps s, RR m l ps s -> (forall k c, nth_error s k <> Some (Some (Some c))) -> l = [].
  Proof.
    intros m l ps s (own & L1 & L2 & P & W & H) Hn. apply Permutation_nil. rewrite P. destruct (blocks own) as [|b bs] eqn:E; [reflexivity|].
    exfalso. assert (In b (blocks own)) as I by (rewrite E; left; reflexivity). apply in_flat_map in I. destruct I as (o & Io & Ib).
    destruct o as [b'|]; [|contradiction]. apply In_nth_error in Io. destruct Io as (k & Eo).
    destruct (nth_same _ _ own s k _ L1 Eo) as (c & Ec). destruct (nth_same _ _ own ps k _ (eq_trans L1 (eq_sym L2)) Eo) as (p & Ep).
    pose proof (H _ _ _ _ Ec Eo Ep) as G. destruct c as [[c|]|]; try contradiction. apply (Hn k c Ec).
  Qed.
  Lemma R_init : forall answers, R (init answers) (map bit answers) [].
  Proof.
    intro a. split; [|reflexivity]. exists []. repeat split; auto; try (constructor); try (intros [|k] c o p H; discriminate).
  Qed.
End S.

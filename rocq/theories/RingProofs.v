From Coq Require Import NArith Arith List Bool Lia.
From Verif Require Import Base Cells RingModel RingSpec.
Import ListNotations.
Open Scope N_scope.

Lemma land_mask : forall x k, N.land x (2 ^ k - 1) = x mod 2 ^ k.
Proof. intros. rewrite <- N.land_ones, N.ones_equiv, N.sub_1_r. reflexivity. Qed.

Lemma mod_mod_pow : forall x k, k <= 64 -> (x mod 2 ^ 64) mod 2 ^ k = x mod 2 ^ k.
Proof.
  intros x k H. replace 64 with (k + (64 - k)) by lia. rewrite N.pow_add_r.
  assert (2 ^ k <> 0) by (apply N.pow_nonzero; discriminate).
  assert (2 ^ (64 - k) <> 0) by (apply N.pow_nonzero; discriminate).
  rewrite N.mod_mul_r by auto. rewrite N.mul_comm, N.mod_add by auto. apply N.mod_mod. auto.
Qed.

(* wrap-around index below C *)
Definition wr (C x : N) : N := if x <? C then x else x - C.
(* distance of p behind b *)
Definition dist (C b p : N) : N := if b <=? p then p - b else p + C - b.

Lemma mod_wr : forall C x, x < 2 * C -> x mod C = wr C x.
Proof.
  intros C x H. unfold wr. destruct (N.ltb_spec x C).
  - apply N.mod_small; auto.
  - replace x with ((x - C) + 1 * C) at 1 by lia. rewrite N.mod_add by lia. apply N.mod_small. lia.
Qed.

Lemma pow_le64 : forall k, k <= 62 -> 2 ^ k <= 2 ^ 62.
Proof. intros. apply N.pow_le_mono_r; [discriminate|auto]. Qed.

Section P.
  Context {A : Type}.
  Implicit Types (r : ring A) (l : list A).

  Definition slot l (i : N) : cell A := match nth_error l (N.to_nat i) with Some v => Obj v | None => Raw end.

  (* r represents the deque l; capacity C = 2^k *)
  Definition rep_k (k : N) r l : Prop :=
    let C := 2 ^ k in
    k <= 62 /\ rmask r = C - 1 /\ rbegin r < C /\ N.of_nat (length l) < C /\
    rend r = wr C (rbegin r + N.of_nat (length l)) /\
    match rdata r with
    | Some d => length d = N.to_nat C /\
        forall p, p < C -> nth_error d (N.to_nat p) = Some (slot l (dist C (rbegin r) p))
    | None => k = 0
    end.
  Definition rep r l : Prop := exists k, rep_k k r l.

  Section K.
  Variables (k : N) (r : ring A) (l : list A).
  Hypothesis R : rep_k k r l.
  Let C := 2 ^ k.

  Lemma C_pos : 0 < C. Proof. apply pow2_pos. Qed.
  Lemma C_le : C <= 2 ^ 62. Proof. apply pow_le64. apply R. Qed.
  Lemma R_mask : rmask r = C - 1. Proof. apply R. Qed.
  Lemma R_b : rbegin r < C. Proof. apply R. Qed.
  Lemma R_len : N.of_nat (length l) < C. Proof. apply R. Qed.
  Lemma R_e : rend r = wr C (rbegin r + N.of_nat (length l)). Proof. apply R. Qed.
  Lemma R_e_lt : rend r < C.
  Proof. rewrite R_e. pose proof R_b. pose proof R_len. unfold wr. destruct (N.ltb_spec (rbegin r + N.of_nat (length l)) C); lia. Qed.

  Lemma msk_eq : forall x, msk r (wrap 64 x) = x mod C.
  Proof.
    intro x. unfold msk. rewrite R_mask. unfold C. rewrite land_mask. unfold wrap.
    apply mod_mod_pow. destruct R. lia.
  Qed.
  Lemma msk_small : forall x, x < C -> msk r x = x.
  Proof.
    intros x H. unfold msk. rewrite R_mask. unfold C. rewrite land_mask. apply N.mod_small. auto.
  Qed.
  Lemma msk_add : forall x y, x + y < 2 * C -> msk r (wadd 64 x y) = wr C (x + y).
  Proof. intros. unfold wadd. rewrite msk_eq. apply mod_wr. auto. Qed.

  Lemma C_div64 : exists q, 2 ^ 64 = q * C.
  Proof.
    exists (2 ^ (64 - k)). unfold C. rewrite <- N.pow_add_r. f_equal. destruct R. lia.
  Qed.
  Lemma msk_sub : forall x y, x < C -> y < C -> msk r (wsub 64 x y) = dist C y x.
  Proof.
    intros x y Hx Hy. unfold wsub. rewrite msk_eq.
    destruct C_div64 as [q Q]. pose proof C_le.
    assert (q <> 0) by (intro; subst; discriminate).
    replace (x + (2 ^ 64 - y)) with ((x + C - y) + (q - 1) * C) by nia.
    rewrite N.mod_add by lia. rewrite mod_wr by lia. unfold wr, dist.
    destruct (N.ltb_spec (x + C - y) C), (N.leb_spec y x); lia.
  Qed.

  Lemma one_lt : 1 < C \/ C = 1.
  Proof. pose proof C_pos. lia. Qed.
  Lemma msk_dec : forall x, x < C -> msk r (wsub 64 x 1) = if x =? 0 then C - 1 else x - 1.
  Proof.
    intros x Hx. destruct one_lt as [H1|H1].
    - rewrite msk_sub by lia. unfold dist. destruct (N.leb_spec 1 x), (N.eqb_spec x 0); lia.
    - unfold msk. rewrite R_mask, H1. change (1 - 1) with 0. rewrite N.land_0_r.
      destruct (N.eqb_spec x 0); lia.
  Qed.

  Lemma size_spec : size r = N.of_nat (length l).
  Proof.
    unfold size. rewrite msk_sub by (apply R_e_lt || apply R_b).
    rewrite R_e. pose proof R_b. pose proof R_len. unfold dist, wr.
    destruct (N.ltb_spec (rbegin r + N.of_nat (length l)) C);
    match goal with |- context [?a <=? ?b] => destruct (N.leb_spec a b) end; lia.
  Qed.

  Lemma empty_spec : empty r = match l with [] => true | _ => false end.
  Proof.
    unfold empty. rewrite R_e. pose proof R_b. pose proof R_len. unfold wr.
    destruct (N.ltb_spec (rbegin r + N.of_nat (length l)) C);
    match goal with |- context [?a =? ?b] => destruct (N.eqb_spec a b) end; destruct l; cbn [length] in *; auto; lia.
  Qed.

  Lemma at_capacity_spec : at_capacity r = (N.of_nat (length l) =? C - 1).
  Proof.
    unfold at_capacity. unfold wadd. rewrite msk_eq.
    assert (E : (wsub 64 (rend r) (rbegin r) + 1) mod C = (size r + 1) mod C).
    { unfold size. assert (Q : msk r (wsub 64 (rend r) (rbegin r)) = wsub 64 (rend r) (rbegin r) mod C).
      { unfold msk. rewrite R_mask. unfold C. apply land_mask. }
      rewrite Q. rewrite N.add_mod_idemp_l; auto. pose proof C_pos. lia. }
    rewrite E, size_spec. pose proof R_len. pose proof C_pos.
    rewrite mod_wr by lia. unfold wr.
    destruct (N.ltb_spec (N.of_nat (length l) + 1) C), (N.eqb_spec (N.of_nat (length l)) (C - 1));
    match goal with |- (?a =? ?b) = _ => destruct (N.eqb_spec a b) end; auto; lia.
  Qed.

  (* physical position of element i *)
  Lemma pos_lt : forall i, i < C -> wr C (rbegin r + i) < C.
  Proof. intros i Hi. pose proof R_b. unfold wr. destruct (N.ltb_spec (rbegin r + i) C); lia. Qed.
  Lemma dist_pos : forall i, i < C -> dist C (rbegin r) (wr C (rbegin r + i)) = i.
  Proof.
    intros i Hi. pose proof R_b. unfold wr, dist. destruct (N.ltb_spec (rbegin r + i) C);
    match goal with |- context [?a <=? ?b] => destruct (N.leb_spec a b) end; lia.
  Qed.
  Lemma dist_inj : forall p q, p < C -> q < C -> dist C (rbegin r) p = dist C (rbegin r) q -> p = q.
  Proof.
    intros p q Hp Hq. pose proof R_b. unfold dist.
    destruct (N.leb_spec (rbegin r) p), (N.leb_spec (rbegin r) q); lia.
  Qed.

  Lemma data_some : l <> [] -> exists d, rdata r = Some d.
  Proof.
    intro H. destruct R as [_ [_ [_ [L [_ D]]]]]. destruct (rdata r); eauto. subst k.
    destruct l; [congruence|]. cbn [length] in L. change (2 ^ 0) with 1 in L. lia.
  Qed.
  Lemma data_none : rdata r = None -> l = [].
  Proof.
    intro H. destruct R as [_ [_ [_ [L [_ D]]]]]. rewrite H in D. subst k.
    destruct l; auto. cbn [length] in L. change (2 ^ 0) with 1 in L. lia.
  Qed.
  Lemma data_get : forall d, rdata r = Some d -> length d = N.to_nat C /\
    forall p, p < C -> nth_error d (N.to_nat p) = Some (slot l (dist C (rbegin r) p)).
  Proof. intros d H. destruct R as [_ [_ [_ [_ [_ D]]]]]. rewrite H in D. exact D. Qed.

  Lemma data_elem : forall d i v, rdata r = Some d -> nth_error l i = Some v ->
    nth_error d (N.to_nat (wr C (rbegin r + N.of_nat i))) = Some (Obj v).
  Proof.
    intros d i v Hd Hv. pose proof R_len.
    assert (i < length l)%nat by (apply nth_error_Some; congruence).
    destruct (data_get d Hd) as [_ G]. rewrite G by (apply pos_lt; lia). rewrite dist_pos by lia.
    unfold slot. rewrite Nat2N.id, Hv. reflexivity.
  Qed.

  Lemma index_spec : forall i, index r i =
    match nth_error l (N.to_nat i) with Some v => Ok v | None => Contract end.
  Proof.
    intro i. unfold index. rewrite size_spec. pose proof R_len as RL. pose proof R_b as RB.
    destruct (nth_error l (N.to_nat i)) as [v|] eqn:E.
    - assert (H : (N.to_nat i < length l)%nat) by (apply nth_error_Some; congruence).
      destruct (N.ltb_spec i (N.of_nat (length l))); [|lia]. cbn [contract bind].
      destruct (data_some) as [d Hd]; [intro Hnil; rewrite Hnil in H; cbn in H; lia|].
      unfold deref. rewrite Hd. cbn [bind]. rewrite msk_add by lia.
      apply cread_Ok. rewrite <- (N2Nat.id i). apply data_elem; auto.
    - apply nth_error_None in E. destruct (N.ltb_spec i (N.of_nat (length l))); [lia|reflexivity].
  Qed.

  Lemma front_spec : front r = match l with v :: _ => Ok v | [] => Contract end.
  Proof.
    unfold front. rewrite empty_spec. destruct l as [|v t] eqn:E; [reflexivity|]. cbn [negb contract bind].
    rewrite <- E in *. destruct data_some as [d Hd]; [rewrite E; discriminate|].
    unfold deref. rewrite Hd. cbn [bind]. apply cread_Ok.
    replace (rbegin r) with (wr C (rbegin r + N.of_nat 0)).
    - apply data_elem; auto. rewrite E. reflexivity.
    - pose proof R_b. unfold wr. rewrite N.add_0_r. destruct (N.ltb_spec (rbegin r) C); lia.
  Qed.

  Lemma dec_end : l <> [] -> (if rend r =? 0 then C - 1 else rend r - 1) = wr C (rbegin r + N.of_nat (length l - 1)).
  Proof.
    intro H. assert (0 < length l)%nat by (destruct l; [congruence|cbn; lia]).
    rewrite R_e. pose proof R_b. pose proof R_len. unfold wr.
    destruct (N.ltb_spec (rbegin r + N.of_nat (length l)) C), (N.ltb_spec (rbegin r + N.of_nat (length l - 1)) C);
    match goal with |- context [?a =? 0] => destruct (N.eqb_spec a 0) end; lia.
  Qed.

  Lemma last_elem : forall v t, rev l = v :: t -> nth_error l (length l - 1) = Some v /\ l = rev t ++ [v].
  Proof.
    intros v t E. assert (L : l = rev t ++ [v]) by (rewrite <- (rev_involutive l), E; reflexivity).
    split; auto. rewrite L at 1. rewrite L. rewrite app_length. cbn [length].
    rewrite nth_error_app2 by lia. replace (length (rev t) + 1 - 1 - length (rev t))%nat with 0%nat by lia. reflexivity.
  Qed.

  Lemma back_spec : back r = match rev l with v :: _ => Ok v | [] => Contract end.
  Proof.
    unfold back. rewrite empty_spec. destruct (rev l) as [|v t] eqn:E.
    - assert (l = []) as -> by (rewrite <- (rev_involutive l), E; reflexivity). reflexivity.
    - destruct (last_elem v t E) as [EL LL].
      assert (NE : l <> []) by (intro Hn; rewrite Hn in E; discriminate).
      replace (match l with [] => true | _ => false end) with false by (destruct l; congruence).
      cbn [negb contract bind].
      destruct (data_some NE) as [d Hd]. unfold deref. rewrite Hd. cbn [bind].
      rewrite msk_dec by apply R_e_lt. rewrite dec_end by auto. apply cread_Ok. apply data_elem; auto.
  Qed.

  Definition arg_val (a : arg A) (v : A) : Prop :=
    match a with
    | Val x => x = v
    | Own p => exists i, nth_error l i = Some v /\ p = wr C (rbegin r + N.of_nat i)
    end.
  Lemma eval_spec : forall a v, arg_val a v -> eval r a = Ok v.
  Proof.
    intros [x|p] v H; cbn in *; [congruence|]. destruct H as [i [Hi ->]].
    destruct data_some as [d Hd]; [intro Hn; rewrite Hn in Hi; destruct i; discriminate|].
    unfold deref. rewrite Hd. cbn [bind]. apply cread_Ok. apply data_elem; auto.
  Qed.

  (* all i elements from the front have been destroyed / moved *)
  Definition drained (d : list (cell A)) (i : N) : Prop :=
    length d = N.to_nat C /\
    forall p, p < C -> nth_error d (N.to_nat p) = Some (if dist C (rbegin r) p <? i then Raw else slot l (dist C (rbegin r) p)).

  Lemma drained_0 : forall d, rdata r = Some d -> drained d 0.
  Proof.
    intros d H. destruct (data_get d H) as [L G]. split; auto. intros p Hp. rewrite G by auto.
    destruct (N.ltb_spec (dist C (rbegin r) p) 0); [lia|reflexivity].
  Qed.
  Lemma drained_step : forall d i x, drained d i -> i < C ->
    x = Raw \/ x = Husk ->
    drained (lset (lset d (N.to_nat (wr C (rbegin r + i))) x) (N.to_nat (wr C (rbegin r + i))) Raw) (i + 1).
  Proof.
    intros d i x [L G] Hi _. rewrite lset_lset. split; [rewrite lset_length; auto|].
    intros p Hp. rewrite lset_nth. pose proof (pos_lt i Hi) as PL.
    destruct (Nat.eqb_spec (N.to_nat (wr C (rbegin r + i))) (N.to_nat p)) as [E|NE].
    - assert (p = wr C (rbegin r + i)) by lia. subst p. rewrite dist_pos by auto.
      destruct (Nat.ltb_spec (N.to_nat (wr C (rbegin r + i))) (length d)); [|lia].
      destruct (N.ltb_spec i (i + 1)); [reflexivity|lia].
    - rewrite G by auto.
      assert (dist C (rbegin r) p <> i).
      { intro E. apply NE. f_equal. symmetry. apply dist_inj; auto. rewrite dist_pos; auto. }
      destruct (N.ltb_spec (dist C (rbegin r) p) i), (N.ltb_spec (dist C (rbegin r) p) (i + 1)); auto; lia.
  Qed.
  Lemma drained_get : forall d i v, drained d (N.of_nat i) -> nth_error l i = Some v ->
    nth_error d (N.to_nat (wr C (rbegin r + N.of_nat i))) = Some (Obj v).
  Proof.
    intros d i v [L G] Hv. pose proof R_len. assert (i < length l)%nat by (apply nth_error_Some; congruence).
    rewrite G by (apply pos_lt; lia). rewrite dist_pos by lia.
    destruct (N.ltb_spec (N.of_nat i) (N.of_nat i)); [lia|]. unfold slot. rewrite Nat2N.id, Hv. reflexivity.
  Qed.
  Lemma drained_all : forall d, drained d (N.of_nat (length l)) -> forall i, (i < length d)%nat -> nth_error d i = Some Raw.
  Proof.
    intros d [L G] i Hi. replace i with (N.to_nat (N.of_nat i)) by lia. rewrite G by lia.
    destruct (N.ltb_spec (dist C (rbegin r) (N.of_nat i)) (N.of_nat (length l))); auto.
    unfold slot. destruct (nth_error l (N.to_nat (dist C (rbegin r) (N.of_nat i)))) eqn:E; auto.
    assert (N.to_nat (dist C (rbegin r) (N.of_nat i)) < length l)%nat by (apply nth_error_Some; congruence). lia.
  Qed.

  Lemma destroy_loop_spec : forall n i d, (i + n = length l)%nat -> drained d (N.of_nat i) ->
    exists d', destroy_loop n (N.of_nat i) r d = Ok d' /\ drained d' (N.of_nat (length l)).
  Proof.
    induction n; intros i d E D.
    - exists d. split; auto. replace (length l) with i by lia. auto.
    - cbn [destroy_loop]. pose proof R_len. pose proof R_b. rewrite msk_add by lia.
      destruct (nth_error l i) as [v|] eqn:Ev; [|apply nth_error_None in Ev; lia].
      rewrite (destroy_Obj _ _ _ (drained_get d i v D Ev)). cbn [bind].
      replace (N.of_nat i + 1) with (N.of_nat (S i)) by lia. apply IHn; [lia|].
      replace (N.of_nat (S i)) with (N.of_nat i + 1) by lia.
      rewrite <- lset_lset with (x := Raw). apply drained_step; auto. lia.
  Qed.

  Lemma destroy_all_spec : exists o, destroy_all r = Ok o /\
    (o = None -> k = 0 /\ l = []) /\ forall d, o = Some d -> length d = N.to_nat C /\ (forall i, (i < length d)%nat -> nth_error d i = Some Raw).
  Proof.
    unfold destroy_all. rewrite size_spec, Nat2N.id. destruct (rdata r) as [d|] eqn:Ed.
    - destruct (destroy_loop_spec (length l) 0 d eq_refl (drained_0 d Ed)) as [d' [E D]].
      cbn [N.of_nat] in E. rewrite E. cbn [bind]. exists (Some d'). split; auto. split; [discriminate|].
      intros d0 H. inversion H; subst d0. split; [apply D|]. apply drained_all; auto.
    - pose proof (data_none Ed) as H.
      rewrite H. exists None. split; auto. split; [|discriminate]. split; auto.
      destruct R as [_ [_ [_ [_ [_ D]]]]]. rewrite Ed in D. auto.
  Qed.

  Lemma destructor_spec : destructor r = Ok tt.
  Proof.
    unfold destructor. destruct destroy_all_spec as [o [E [_ H]]]. rewrite E. cbn [bind].
    destruct o; auto. apply release_Ok. apply (H l0 eq_refl).
  Qed.

  Lemma clear_spec : exists r', clear r = Ok r' /\ rep_k k r' [].
  Proof.
    unfold clear. destruct destroy_all_spec as [o [E [H0 H]]]. rewrite E. cbn [bind].
    eexists. split; [reflexivity|]. pose proof C_pos as CP. fold C in CP.
    split; [apply R|]. cbn [rmask rbegin rend rdata length N.of_nat].
    split; [apply R_mask|]. split; [apply CP|]. split; [apply CP|]. split.
    - unfold wr. destruct (N.ltb_spec (0 + 0) (2 ^ k)); auto.
    - destruct o as [d|]; [|apply (H0 eq_refl)]. destruct (H d eq_refl) as [L G]. split; auto.
      intros p Hp. rewrite G by (rewrite L; unfold C; lia).
      unfold slot. destruct (N.to_nat (dist (2 ^ k) 0 p)); reflexivity.
  Qed.

  (* new storage that already holds the first i moved elements at offset off plus one extra element x at e *)
  Definition filled (nd : list (cell A)) (n : nat) (off i e : nat) (x : A) : Prop :=
    length nd = n /\
    forall q, (q < n)%nat -> nth_error nd q =
      Some (if (q =? e)%nat then Obj x
            else if (off <=? q)%nat && (q <? off + i)%nat
                 then match nth_error l (q - off) with Some v => Obj v | None => Raw end
                 else Raw).

  Lemma move_loop_spec : forall n i d nd N0 off e x, (i + n = length l)%nat -> drained d (N.of_nat i) ->
    filled nd N0 off i e x -> (off + length l <= N0)%nat -> (e < off \/ off + length l <= e)%nat ->
    exists d' nd', move_loop n (N.of_nat i) r d nd (N.of_nat off) = Ok (d', nd') /\
      drained d' (N.of_nat (length l)) /\ filled nd' N0 off (length l) e x.
  Proof.
    induction n; intros i d nd N0 off e x E D F HN HE.
    - exists d, nd. split; auto. replace (length l) with i by lia. auto.
    - cbn [move_loop]. pose proof R_len. pose proof R_b. rewrite msk_add by lia.
      destruct (nth_error l i) as [v|] eqn:Ev; [|apply nth_error_None in Ev; lia].
      rewrite (move_out_Ok _ _ _ (drained_get d i v D Ev)). cbn [bind].
      destruct F as [FL FG].
      replace (N.to_nat (N.of_nat i + N.of_nat off)) with (off + i)%nat by lia.
      rewrite construct_Ok.
      2:{ rewrite FG by lia. destruct (Nat.eqb_spec (off + i) e); [lia|].
          destruct (Nat.leb_spec off (off + i)); [|lia]. destruct (Nat.ltb_spec (off + i) (off + i)); [lia|]. reflexivity. }
      cbn [bind]. rewrite (destroy_Husk).
      2:{ apply lset_nth_eq. destruct D as [DL _]. rewrite DL. pose proof (pos_lt (N.of_nat i) ltac:(lia)). lia. }
      cbn [bind]. replace (N.of_nat i + 1) with (N.of_nat (S i)) by lia.
      apply (IHn (S i)); auto; try lia.
      + replace (N.of_nat (S i)) with (N.of_nat i + 1) by lia. apply drained_step; auto. lia.
      + split; [rewrite lset_length; auto|]. intros q Hq. rewrite lset_nth.
        destruct (Nat.eqb_spec (off + i) q) as [<-|NQ].
        * destruct (Nat.ltb_spec (off + i) (length nd)); [|lia].
          destruct (Nat.eqb_spec (off + i) e); [lia|].
          destruct (Nat.leb_spec off (off + i)); [|lia]. destruct (Nat.ltb_spec (off + i) (off + S i)); [|lia].
          cbn [andb]. replace (off + i - off)%nat with i by lia. rewrite Ev. reflexivity.
        * rewrite FG by auto. destruct (Nat.eqb_spec q e); auto.
          destruct (Nat.leb_spec off q); cbn [andb]; auto.
          destruct (Nat.ltb_spec q (off + i)), (Nat.ltb_spec q (off + S i)); auto; lia.
  Qed.

  Lemma grow_spec : forall front a v, arg_val a v -> N.of_nat (length l) = C - 1 -> k <= 60 ->
    exists r' k', grow front r a = Ok r' /\ k' <= k + 2 /\ (2 ^ k' <= 2 * N.of_nat (length l) + 4) /\
      rep_k k' r' (if front then v :: l else l ++ [v]).
  Proof.
    intros fr a v HA HL HK. unfold grow. rewrite at_capacity_spec, HL, N.eqb_refl. cbn [contract bind].
    rewrite R_mask. pose proof C_pos as CP. 
    assert (CB : C <= 2 ^ 60) by (apply N.pow_le_mono_r; [discriminate|auto]).
    assert (MK : exists k', (if C - 1 =? 0 then 3 else wadd 64 (wrap 64 (N.shiftl (C - 1) 1)) 1) = 2 ^ k' - 1
              /\ k' <= k + 2 /\ 2 ^ k' <= 2 * C + 2 /\ C < 2 ^ k').
    { destruct (N.eqb_spec (C - 1) 0).
      - exists 2. split; auto. assert (C = 1) by lia. change (2 ^ 2) with 4. split; [lia|]. lia.
      - exists (k + 1). rewrite N.shiftl_mul_pow2. change (2 ^ 1) with 2.
        rewrite N.pow_add_r. change (2 ^ 1) with 2. fold C.
        rewrite wrap_small by (change (2 ^ 64) with 18446744073709551616; change (2 ^ 60) with 1152921504606846976 in CB; lia).
        rewrite wadd_small by (change (2 ^ 64) with 18446744073709551616; change (2 ^ 60) with 1152921504606846976 in CB; lia).
        split; [lia|]. split; lia. }
    destruct MK as [k' [EM [K1 [K2 K3]]]]. rewrite EM, size_spec, (eval_spec a v HA). cbn [bind].
    set (C' := 2 ^ k') in *.
    assert (C'B : C' <= 2 ^ 62) by (apply N.pow_le_mono_r; [discriminate|lia]).
    assert (C64 : 2 ^ 62 < 2 ^ 64) by reflexivity.
    rewrite wadd_small by lia. replace (C' - 1 + 1) with C' by lia.
    set (s := length l) in *. rewrite Nat2N.id.
    set (e := if fr then 0%nat else s). set (off := if fr then 1%nat else 0%nat).
    assert (F0 : filled (lset (raw_storage (N.to_nat C')) e (Obj v)) (N.to_nat C') off 0 e v).
    { split; [rewrite lset_length, raw_storage_length; auto|]. intros q Hq. rewrite lset_nth, raw_storage_length.
      rewrite (Nat.eqb_sym q e). destruct (Nat.eqb_spec e q).
      - destruct (Nat.ltb_spec e (N.to_nat C')); [reflexivity|lia].
      - rewrite raw_storage_nth by auto. destruct (Nat.leb_spec off q); cbn [andb]; auto.
        destruct (Nat.ltb_spec q (off + 0)); [lia|]. reflexivity. }
    rewrite construct_Ok by (apply raw_storage_nth; unfold e; destruct fr; lia). cbn [bind].
    set (d0 := match rdata r with Some d => d | None => [] end).
    assert (MV : exists d' nd', move_loop s 0 r d0 (lset (raw_storage (N.to_nat C')) e (Obj v)) (if fr then 1 else 0) = Ok (d', nd')
              /\ (forall i, (i < length d')%nat -> nth_error d' i = Some Raw) /\ filled nd' (N.to_nat C') off s e v).
    { unfold d0. destruct (rdata r) as [d|] eqn:Ed.
      - destruct (move_loop_spec s 0 d _ (N.to_nat C') off e v eq_refl (drained_0 d Ed) F0) as [d' [nd' [E [D F]]]].
        + unfold off. destruct fr; lia.
        + unfold off, e. destruct fr; lia.
        + exists d', nd'. split; [|split; [apply drained_all|]; auto].
          rewrite <- E. unfold off. destruct fr; reflexivity.
      - pose proof (data_none Ed) as LN.
        assert (S0 : s = 0%nat) by (unfold s; rewrite LN; reflexivity).
        rewrite S0. exists [], (lset (raw_storage (N.to_nat C')) e (Obj v)). split; [reflexivity|].
        split; [cbn; lia|]. exact F0. }
    destruct MV as [d' [nd' [E [D F]]]]. rewrite E. cbn [bind]. rewrite (release_Ok d' D). cbn [bind].
    eexists. exists k'. split; [reflexivity|]. split; [auto|]. split; [lia|].
    assert (LL : length (if fr then v :: l else l ++ [v]) = S s).
    { destruct fr; [reflexivity|]. rewrite app_length. cbn. fold s. lia. }
    unfold rep_k. cbn [rmask rbegin rend rdata]. fold C'. rewrite LL.
    split; [lia|]. split; [auto|]. split; [lia|]. split; [lia|]. split.
    { rewrite wadd_small by lia. unfold wr. destruct (N.ltb_spec (0 + N.of_nat (S s)) C'); lia. }
    destruct F as [FL FG]. split; auto. intros p Hp. rewrite FG by lia.
    unfold dist. destruct (N.leb_spec 0 p); [|lia]. rewrite N.sub_0_r. f_equal. unfold slot.
    set (q := N.to_nat p). clearbody q. unfold e, off. destruct fr.
    - destruct q as [|q]; cbn [Nat.eqb nth_error]; [reflexivity|].
      cbn [Nat.leb andb]. replace (S q - 1)%nat with q by lia.
      destruct (Nat.ltb_spec (S q) (1 + s)); [reflexivity|].
      destruct (nth_error l q) eqn:Eq; auto. assert (q < length l)%nat by (apply nth_error_Some; congruence).
      unfold s in *; lia.
    - rewrite Nat.sub_0_r. cbn [Nat.leb andb plus].
      destruct (Nat.eqb_spec q s) as [->|N].
      + rewrite nth_error_app2 by (unfold s; lia). unfold s. rewrite Nat.sub_diag. reflexivity.
      + destruct (Nat.ltb_spec q s).
        * rewrite nth_error_app1 by (unfold s in *; lia). reflexivity.
        * destruct (nth_error (l ++ [v]) q) eqn:Eq; auto.
          assert (q < length (l ++ [v]))%nat by (apply nth_error_Some; congruence).
          rewrite app_length in *. cbn [length] in *. unfold s in *; lia.
  Qed.

  Lemma data_some_C : 1 < C -> exists d, rdata r = Some d.
  Proof.
    intro H. destruct R as [_ [_ [_ [_ [_ D]]]]]. destruct (rdata r); eauto. subst k.
    unfold C in H. change (2 ^ 0) with 1 in H. lia.
  Qed.

  Lemma new_end_eq : (msk r (wadd 64 (rend r) 1) =? rbegin r) = (N.of_nat (length l) =? C - 1).
  Proof.
    pose proof R_e_lt as EL. rewrite msk_add by lia. rewrite R_e. pose proof R_b. pose proof R_len. unfold wr.
    repeat match goal with |- context [?a <? ?b] => destruct (N.ltb_spec a b) end;
    repeat match goal with |- context [?a =? ?b] => destruct (N.eqb_spec a b) end; auto; lia.
  Qed.
  Lemma new_begin_eq : (msk r (wsub 64 (rbegin r) 1) =? rend r) = (N.of_nat (length l) =? C - 1).
  Proof.
    pose proof R_b. rewrite msk_dec by auto. rewrite R_e. pose proof R_len. pose proof C_pos. unfold wr. destruct (N.eqb_spec (rbegin r) 0);
    repeat match goal with |- context [?a <? ?b] => destruct (N.ltb_spec a b) end;
    repeat match goal with |- context [?a =? ?b] => destruct (N.eqb_spec a b) end; auto; lia.
  Qed.

  Lemma place_back : forall a v, arg_val a v -> N.of_nat (length l) <> C - 1 ->
    exists d', (let! d := deref r in let! v := eval r a in let! d := construct d (N.to_nat (rend r)) v in
               Ok (mkR (rbegin r) (msk r (wadd 64 (rend r) 1)) (rmask r) (Some d)))
      = Ok (mkR (rbegin r) (msk r (wadd 64 (rend r) 1)) (rmask r) (Some d')) /\
      rep_k k (mkR (rbegin r) (msk r (wadd 64 (rend r) 1)) (rmask r) (Some d')) (l ++ [v]).
  Proof.
    intros a v HA HN. pose proof R_len as RL. pose proof R_b as RB. pose proof R_e_lt as RE.
    destruct data_some_C as [d Hd]; [lia|]. unfold deref. rewrite Hd. cbn [bind].
    rewrite (eval_spec a v HA). cbn [bind]. destruct (data_get d Hd) as [DL DG].
    assert (DE : dist C (rbegin r) (rend r) = N.of_nat (length l)).
    { rewrite R_e. apply dist_pos. lia. }
    rewrite construct_Ok.
    2:{ rewrite DG by auto. rewrite DE. unfold slot. rewrite Nat2N.id.
        replace (nth_error l (length l)) with (@None A); auto. symmetry. apply nth_error_None. lia. }
    cbn [bind]. eexists. split; [reflexivity|].
    rewrite msk_add by lia.
    unfold rep_k. cbn [rmask rbegin rend rdata]. fold C. rewrite app_length. cbn [length].
    split; [apply R|]. split; [apply R_mask|]. split; auto. split; [lia|]. split.
    { rewrite R_e. unfold wr.
      repeat match goal with |- context [?a <? ?b] => destruct (N.ltb_spec a b) end; lia. }
    split; [rewrite lset_length; auto|]. intros p Hp. rewrite lset_nth.
    destruct (Nat.eqb_spec (N.to_nat (rend r)) (N.to_nat p)) as [E|NE].
    - assert (p = rend r) by lia. subst p. destruct (Nat.ltb_spec (N.to_nat (rend r)) (length d)); [|lia].
      rewrite DE. unfold slot. rewrite Nat2N.id. rewrite nth_error_app2 by lia. rewrite Nat.sub_diag. reflexivity.
    - rewrite DG by auto. f_equal. unfold slot.
      assert (dist C (rbegin r) p <> N.of_nat (length l)).
      { intro E. apply NE. f_equal. symmetry. apply dist_inj; auto. congruence. }
      destruct (Nat.lt_ge_cases (N.to_nat (dist C (rbegin r) p)) (length l)).
      + rewrite nth_error_app1 by auto. reflexivity.
      + replace (nth_error l (N.to_nat (dist C (rbegin r) p))) with (@None A) by (symmetry; apply nth_error_None; lia).
        replace (nth_error (l ++ [v]) (N.to_nat (dist C (rbegin r) p))) with (@None A); auto.
        symmetry. apply nth_error_None. rewrite app_length. cbn. lia.
  Qed.

  Lemma place_front : forall a v, arg_val a v -> N.of_nat (length l) <> C - 1 ->
    let b := msk r (wsub 64 (rbegin r) 1) in
    exists d', (let! d := deref r in let! v := eval r a in let! d := construct d (N.to_nat b) v in
               Ok (mkR b (rend r) (rmask r) (Some d)))
      = Ok (mkR b (rend r) (rmask r) (Some d')) /\
      rep_k k (mkR b (rend r) (rmask r) (Some d')) (v :: l).
  Proof.
    intros a v HA HN b. pose proof R_len as RL. pose proof R_b as RB. pose proof R_e_lt as RE.
    destruct data_some_C as [d Hd]; [lia|]. unfold deref. rewrite Hd. cbn [bind].
    rewrite (eval_spec a v HA). cbn [bind]. destruct (data_get d Hd) as [DL DG].
    assert (Bv : b = if rbegin r =? 0 then C - 1 else rbegin r - 1) by (apply msk_dec; auto).
    assert (BC : b < C) by (rewrite Bv; destruct (N.eqb_spec (rbegin r) 0); lia).
    assert (DE : dist C (rbegin r) b = C - 1).
    { rewrite Bv. unfold dist. destruct (N.eqb_spec (rbegin r) 0);
      match goal with |- context [?a <=? ?b] => destruct (N.leb_spec a b) end; lia. }
    rewrite construct_Ok.
    2:{ rewrite DG by auto. rewrite DE. unfold slot.
        replace (nth_error l (N.to_nat (C - 1))) with (@None A); auto. symmetry. apply nth_error_None. lia. }
    cbn [bind]. eexists. split; [reflexivity|].
    unfold rep_k. cbn [rmask rbegin rend rdata]. fold C. cbn [length].
    split; [apply R|]. split; [apply R_mask|]. split; auto. split; [lia|]. split.
    { rewrite R_e, Bv. unfold wr.
      repeat match goal with |- context [?a <? ?b] => destruct (N.ltb_spec a b) end; 
      repeat match goal with H : context [?a =? ?b] |- _ => destruct (N.eqb_spec a b)
        | |- context [?a =? ?b] => destruct (N.eqb_spec a b) end; lia. }
    split; [rewrite lset_length; auto|]. intros p Hp. rewrite lset_nth.
    destruct (Nat.eqb_spec (N.to_nat b) (N.to_nat p)) as [E|NE].
    - assert (p = b) by lia. subst p. destruct (Nat.ltb_spec (N.to_nat b) (length d)); [|lia].
      unfold dist. rewrite N.leb_refl, N.sub_diag. reflexivity.
    - rewrite DG by auto. f_equal. unfold slot.
      assert (DD : dist C b p = dist C (rbegin r) p + 1).
      { assert (p <> b) by lia. rewrite Bv in *. unfold dist. destruct (N.eqb_spec (rbegin r) 0);
        repeat match goal with |- context [?a <=? ?b] => destruct (N.leb_spec a b) end; lia. }
      rewrite DD. replace (N.to_nat (dist C (rbegin r) p + 1)) with (S (N.to_nat (dist C (rbegin r) p))) by lia.
      reflexivity.
  Qed.

  Lemma emplace_back_spec : forall a v, arg_val a v -> k <= 60 ->
    exists r' k', emplace_back r a = Ok r' /\ rep_k k' r' (l ++ [v]) /\
      (k' = k \/ k' <= k + 2 /\ 2 ^ k' <= 2 * N.of_nat (length l) + 4).
  Proof.
    intros a v HA HK. unfold emplace_back. rewrite new_end_eq.
    destruct (N.eqb_spec (N.of_nat (length l)) (C - 1)) as [E|NE]; cbn [negb].
    - destruct (grow_spec false a v HA E HK) as [r' [k' [E' [K1 [K2 RR]]]]]. exists r', k'. auto.
    - destruct (place_back a v HA NE) as [d' [E' RR]]. rewrite E'. eexists. exists k. split; [reflexivity|]. auto.
  Qed.
  Lemma emplace_front_spec : forall a v, arg_val a v -> k <= 60 ->
    exists r' k', emplace_front r a = Ok r' /\ rep_k k' r' (v :: l) /\
      (k' = k \/ k' <= k + 2 /\ 2 ^ k' <= 2 * N.of_nat (length l) + 4).
  Proof.
    intros a v HA HK. unfold emplace_front. rewrite new_begin_eq.
    destruct (N.eqb_spec (N.of_nat (length l)) (C - 1)) as [E|NE]; cbn [negb].
    - destruct (grow_spec true a v HA E HK) as [r' [k' [E' [K1 [K2 RR]]]]]. exists r', k'. auto.
    - destruct (place_front a v HA NE) as [d' [E' RR]]. rewrite E'. eexists. exists k. split; [reflexivity|]. auto.
  Qed.
  Lemma emplace_back_stable_spec : forall a v, arg_val a v ->
    if N.of_nat (length l) =? capacity r then emplace_back_stable r a = Contract
    else exists r', emplace_back_stable r a = Ok r' /\ rep_k k r' (l ++ [v]).
  Proof.
    intros a v HA. unfold capacity. rewrite R_mask. unfold emplace_back_stable. rewrite at_capacity_spec.
    destruct (N.eqb_spec (N.of_nat (length l)) (C - 1)) as [E|NE]; [reflexivity|]. cbn [negb contract bind].
    destruct (place_back a v HA NE) as [d' [E' RR]]. rewrite E'. eexists. split; [reflexivity|]. auto.
  Qed.
  Lemma emplace_front_stable_spec : forall a v, arg_val a v ->
    if N.of_nat (length l) =? capacity r then emplace_front_stable r a = Contract
    else exists r', emplace_front_stable r a = Ok r' /\ rep_k k r' (v :: l).
  Proof.
    intros a v HA. unfold capacity. rewrite R_mask. unfold emplace_front_stable. rewrite at_capacity_spec.
    destruct (N.eqb_spec (N.of_nat (length l)) (C - 1)) as [E|NE]; [reflexivity|]. cbn [negb contract bind].
    destruct (place_front a v HA NE) as [d' [E' RR]]. rewrite E'. eexists. split; [reflexivity|]. auto.
  Qed.

  Lemma own_spec : forall i, own r i =
    match nth_error l (N.to_nat i) with Some v => Ok (Own (wr C (rbegin r + i))) | None => Contract end.
  Proof.
    intro i. unfold own. rewrite size_spec. pose proof R_len as RL. pose proof R_b as RB.
    destruct (nth_error l (N.to_nat i)) as [v|] eqn:E.
    - assert (H : (N.to_nat i < length l)%nat) by (apply nth_error_Some; congruence).
      destruct (N.ltb_spec i (N.of_nat (length l))); [|lia]. cbn [contract bind].
      rewrite msk_add by lia. reflexivity.
    - apply nth_error_None in E. destruct (N.ltb_spec i (N.of_nat (length l))); [lia|reflexivity].
  Qed.
  Lemma own_val : forall i v, nth_error l (N.to_nat i) = Some v -> arg_val (Own (wr C (rbegin r + i))) v.
  Proof. intros i v H. exists (N.to_nat i). rewrite N2Nat.id. auto. Qed.

  Lemma pop_back_spec : match rev l with
    | [] => pop_back r = Contract
    | v :: t => exists r', pop_back r = Ok (v, r') /\ rep_k k r' (rev t) end.
  Proof.
    unfold pop_back. rewrite empty_spec. destruct (rev l) as [|v t] eqn:E.
    - assert (l = []) as -> by (rewrite <- (rev_involutive l), E; reflexivity). reflexivity.
    - destruct (last_elem v t E) as [EL LL].
      assert (NE : l <> []) by (intro Hn; rewrite Hn in E; discriminate).
      replace (match l with [] => true | _ => false end) with false by (destruct l; congruence).
      cbn [negb contract bind].
      destruct (data_some NE) as [d Hd]. unfold deref. rewrite Hd. cbn [bind].
      rewrite msk_dec by apply R_e_lt. rewrite dec_end by auto.
      pose proof (data_elem d _ v Hd EL) as DE.
      rewrite (move_out_Ok _ _ _ DE). cbn [bind].
      destruct (data_get d Hd) as [DL DG]. pose proof R_len as RL. pose proof R_b as RB.
      assert (LT : length l = S (length (rev t))) by (rewrite LL, app_length; cbn; lia).
      set (q := wr C (rbegin r + N.of_nat (length l - 1))) in *.
      assert (QC : q < C) by (apply pos_lt; lia).
      rewrite destroy_Husk by (apply lset_nth_eq; rewrite DL; lia). cbn [bind].
      eexists. split; [reflexivity|].
      unfold rep_k. cbn [rmask rbegin rend rdata]. fold C.
      split; [apply R|]. split; [apply R_mask|]. split; auto. split; [lia|]. split.
      { unfold q. f_equal. lia. }
      rewrite lset_lset. split; [rewrite lset_length; auto|]. intros p Hp. rewrite lset_nth.
      assert (DQ : dist C (rbegin r) q = N.of_nat (length l - 1)) by (apply dist_pos; lia).
      destruct (Nat.eqb_spec (N.to_nat q) (N.to_nat p)) as [Eq|Nq].
      + assert (p = q) by lia. subst p. destruct (Nat.ltb_spec (N.to_nat q) (length d)); [|lia].
        rewrite DQ. unfold slot. replace (nth_error (rev t) (N.to_nat (N.of_nat (length l - 1)))) with (@None A); auto.
        symmetry. apply nth_error_None. lia.
      + rewrite DG by auto. f_equal. unfold slot.
        assert (dist C (rbegin r) p <> N.of_nat (length l - 1)).
        { intro Ed. apply Nq. f_equal. symmetry. apply dist_inj; auto. congruence. }
        destruct (Nat.lt_ge_cases (N.to_nat (dist C (rbegin r) p)) (length (rev t))).
        * rewrite LL. rewrite nth_error_app1 by auto. reflexivity.
        * replace (nth_error l (N.to_nat (dist C (rbegin r) p))) with (@None A) by (symmetry; apply nth_error_None; lia).
          replace (nth_error (rev t) (N.to_nat (dist C (rbegin r) p))) with (@None A); auto.
          symmetry. apply nth_error_None. lia.
  Qed.

  Lemma pop_front_spec : match l with
    | [] => pop_front r = Contract
    | v :: t => exists r', pop_front r = Ok (v, r') /\ rep_k k r' t end.
  Proof.
    unfold pop_front. rewrite empty_spec. destruct l as [|v t] eqn:E; [reflexivity|]. cbn [negb contract bind].
    rewrite <- E in *. destruct data_some as [d Hd]; [rewrite E; discriminate|].
    unfold deref. rewrite Hd. cbn [bind].
    destruct (data_get d Hd) as [DL DG]. pose proof R_len as RL. pose proof R_b as RB.
    assert (D0 : dist C (rbegin r) (rbegin r) = 0) by (unfold dist; rewrite N.leb_refl; lia).
    rewrite (move_out_Ok _ _ v).
    2:{ rewrite DG by auto. rewrite D0, E. reflexivity. }
    cbn [bind]. rewrite destroy_Husk by (apply lset_nth_eq; rewrite DL; lia). cbn [bind].
    assert (LT : length l = S (length t)) by (rewrite E; reflexivity).
    rewrite msk_add by lia.
    eexists. split; [reflexivity|].
    unfold rep_k. cbn [rmask rbegin rend rdata]. fold C.
    split; [apply R|]. split; [apply R_mask|]. split; [apply pos_lt; lia|]. split; [lia|]. split.
    { rewrite R_e. unfold wr.
      repeat match goal with |- context [?a <? ?b] => destruct (N.ltb_spec a b) end; lia. }
    rewrite lset_lset. split; [rewrite lset_length; auto|]. intros p Hp. rewrite lset_nth.
    destruct (Nat.eqb_spec (N.to_nat (rbegin r)) (N.to_nat p)) as [Eq|Nq].
    - assert (p = rbegin r) by lia. subst p. destruct (Nat.ltb_spec (N.to_nat (rbegin r)) (length d)); [|lia].
      assert (DQ : dist C (wr C (rbegin r + 1)) (rbegin r) = C - 1).
      { unfold dist, wr. repeat match goal with |- context [?a <? ?b] => destruct (N.ltb_spec a b) end;
        repeat match goal with |- context [?a <=? ?b] => destruct (N.leb_spec a b) end; lia. }
      rewrite DQ. unfold slot. replace (nth_error t (N.to_nat (C - 1))) with (@None A); auto.
      symmetry. apply nth_error_None. lia.
    - rewrite DG by auto. f_equal.
      assert (DD : dist C (rbegin r) p = dist C (wr C (rbegin r + 1)) p + 1).
      { assert (p <> rbegin r) by lia. unfold dist, wr.
        repeat match goal with |- context [?a <? ?b] => destruct (N.ltb_spec a b) end;
        repeat match goal with |- context [?a <=? ?b] => destruct (N.leb_spec a b) end; lia. }
      rewrite DD. unfold slot. rewrite E.
      replace (N.to_nat (dist C (wr C (rbegin r + 1)) p + 1)) with (S (N.to_nat (dist C (wr C (rbegin r + 1)) p))) by lia.
      reflexivity.
  Qed.

  Lemma copy_loop_spec : forall n i nd N0, (i + n = length l)%nat -> (length l <= N0)%nat -> length nd = N0 ->
    (forall q, (q < N0)%nat -> nth_error nd q = Some (if (q <? i)%nat then slot l (N.of_nat q) else Raw)) ->
    exists nd', copy_loop n (N.of_nat i) r nd = Ok nd' /\ length nd' = N0 /\
      (forall q, (q < N0)%nat -> nth_error nd' q = Some (slot l (N.of_nat q))).
  Proof.
    induction n; intros i nd N0 E HN HL G.
    - exists nd. split; auto. split; auto. intros q Hq. rewrite G by auto.
      destruct (Nat.ltb_spec q i); auto. unfold slot. rewrite Nat2N.id.
      replace (nth_error l q) with (@None A); auto. symmetry. apply nth_error_None. lia.
    - cbn [copy_loop]. pose proof R_len. pose proof R_b.
      destruct (nth_error l i) as [v|] eqn:Ev; [|apply nth_error_None in Ev; lia].
      destruct data_some as [d Hd]; [intro Hn; rewrite Hn in Ev; destruct i; discriminate|].
      unfold deref. rewrite Hd. cbn [bind]. rewrite msk_add by lia.
      rewrite (cread_Ok _ _ _ (data_elem d i v Hd Ev)). cbn [bind]. rewrite Nat2N.id.
      rewrite construct_Ok.
      2:{ rewrite G by lia. destruct (Nat.ltb_spec i i); [lia|reflexivity]. }
      cbn [bind]. replace (N.of_nat i + 1) with (N.of_nat (S i)) by lia. apply IHn; auto; try lia.
      + rewrite lset_length. auto.
      + intros q Hq. rewrite lset_nth. destruct (Nat.eqb_spec i q) as [<-|NQ].
        * destruct (Nat.ltb_spec i (length nd)); [|lia]. destruct (Nat.ltb_spec i (S i)); [|lia].
          unfold slot. rewrite Nat2N.id, Ev. reflexivity.
        * rewrite G by auto. destruct (Nat.ltb_spec q i), (Nat.ltb_spec q (S i)); auto; lia.
  Qed.

  Lemma copy_ctor_spec : exists r', copy_ctor r = Ok r' /\ rep_k k r' l.
  Proof.
    unfold copy_ctor. rewrite size_spec. pose proof R_len as RL. pose proof C_le as CL. pose proof C_pos as CP.
    assert (E0 : N.land (wsub 64 (N.of_nat (length l)) 0) (rmask r) = N.of_nat (length l)).
    { change (N.land ?x (rmask r)) with (msk r x). rewrite msk_sub by lia. unfold dist.
      destruct (N.leb_spec 0 (N.of_nat (length l))); lia. }
    rewrite E0, Nat2N.id, R_mask.
    assert (CC : 2 ^ 62 < 2 ^ 64) by reflexivity.
    rewrite wadd_small by lia. replace (C - 1 + 1) with C by lia.
    destruct (copy_loop_spec (length l) 0 (raw_storage (N.to_nat C)) (N.to_nat C) eq_refl ltac:(lia) (raw_storage_length _)) as [nd [E [L G]]].
    { intros q Hq. rewrite raw_storage_nth by auto. destruct (Nat.ltb_spec q 0); [lia|reflexivity]. }
    cbn [N.of_nat] in E. rewrite E. cbn [bind]. eexists. split; [reflexivity|].
    unfold rep_k. cbn [rmask rbegin rend rdata]. fold C.
    split; [apply R|]. split; auto. split; [lia|]. split; auto. split.
    { unfold wr. destruct (N.ltb_spec (0 + N.of_nat (length l)) C); lia. }
    split; auto. intros p Hp. rewrite G by lia. unfold dist. destruct (N.leb_spec 0 p); [|lia].
    rewrite N.sub_0_r, N2Nat.id. reflexivity.
  Qed.
  End K.

  Lemma init_rep : rep_k 0 (@init A) [].
  Proof. unfold rep_k. cbn. repeat split; auto; lia. Qed.

  (* after n operations the capacity is bounded linearly *)
  Definition inv (n : nat) r l : Prop :=
    exists k, rep_k k r l /\ 2 ^ k <= 2 * N.of_nat n + 4 /\ (length l <= n)%nat.

  Lemma pow_bound : forall k m, 2 ^ k <= m -> m <= 2 ^ 60 -> k <= 60.
  Proof.
    intros k m H1 H2. apply N.pow_le_mono_r_iff with (a := 2); [reflexivity|lia].
  Qed.

  Lemma step_spec : forall o n r l, inv n r l -> N.of_nat n < 2 ^ 58 ->
    match ideal_step l o with
    | Some (l', v) => exists r', step r o = Ok (r', v) /\ inv (S n) r' l'
    | None => step r o = Contract
    end.
  Proof.
    intros o n r l [k [R [B L]]] HN.
    assert (HK : k <= 60).
    { eapply pow_bound; [exact B|]. change (2 ^ 60) with 1152921504606846976. change (2 ^ 58) with 288230376151711744 in HN. lia. }
    destruct o; cbn [step ideal_step].
    - destruct (emplace_back_spec k r l R (Val v) v eq_refl HK) as [r' [k' [E [RR KK]]]]. rewrite E. cbn [bind].
      exists r'. split; auto. exists k'. split; auto. split; [destruct KK as [->|[_ KK]]; lia|rewrite app_length; cbn; lia].
    - rewrite (own_spec k r l R). destruct (nth_error l (N.to_nat i)) as [v|] eqn:Ev; [|reflexivity]. cbn [bind].
      destruct (emplace_back_spec k r l R _ v (own_val k r l i v Ev) HK) as [r' [k' [E [RR KK]]]]. rewrite E. cbn [bind].
      exists r'. split; auto. exists k'. split; auto. split; [destruct KK as [->|[_ KK]]; lia|rewrite app_length; cbn; lia].
    - destruct (emplace_front_spec k r l R (Val v) v eq_refl HK) as [r' [k' [E [RR KK]]]]. rewrite E. cbn [bind].
      exists r'. split; auto. exists k'. split; auto. split; [destruct KK as [->|[_ KK]]; lia|cbn; lia].
    - rewrite (own_spec k r l R). destruct (nth_error l (N.to_nat i)) as [v|] eqn:Ev; [|reflexivity]. cbn [bind].
      destruct (emplace_front_spec k r l R _ v (own_val k r l i v Ev) HK) as [r' [k' [E [RR KK]]]]. rewrite E. cbn [bind].
      exists r'. split; auto. exists k'. split; auto. split; [destruct KK as [->|[_ KK]]; lia|cbn; lia].
    - pose proof (pop_back_spec k r l R) as P. destruct (rev l) as [|v t] eqn:E; [rewrite P; reflexivity|].
      destruct P as [r' [E' RR]]. rewrite E'. cbn [bind]. exists r'. split; auto. exists k. split; auto. split; [lia|].
      assert (length l = length (rev (v :: t))) by (rewrite <- E, !rev_length; auto). rewrite rev_length in *. cbn [length] in *. lia.
    - pose proof (pop_front_spec k r l R) as P. destruct l as [|v t] eqn:E; [rewrite P; reflexivity|].
      destruct P as [r' [E' RR]]. rewrite E'. cbn [bind]. exists r'. split; auto. exists k. split; auto.
      cbn [length] in *. split; lia.
    - destruct (clear_spec k r l R) as [r' [E RR]]. rewrite E. cbn [bind]. exists r'. split; auto.
      exists k. split; auto. cbn [length]. split; lia.
  Qed.

  Lemma run_spec : forall os n r l, inv n r l -> N.of_nat (n + length os) < 2 ^ 58 ->
    match ideal_run l os with
    | Some (l', vs) => exists r', run r os = Ok (r', vs) /\ rep r' l'
    | None => run r os = Contract
    end.
  Proof.
    induction os as [|o os IH]; intros n r l I HN; cbn [run ideal_run].
    - exists r. split; auto. destruct I as [k [R _]]. exists k. auto.
    - cbn [length] in HN. pose proof (step_spec o n r l I ltac:(lia)) as S.
      destruct (ideal_step l o) as [[l1 v]|]; [|rewrite S; reflexivity].
      destruct S as [r1 [E1 I1]]. rewrite E1. cbn [bind].
      specialize (IH (Datatypes.S n) r1 l1 I1 ltac:(lia)).
      destruct (ideal_run l1 os) as [[l2 vs]|]; [|rewrite IH; reflexivity].
      destruct IH as [r2 [E2 R2]]. rewrite E2. cbn [bind]. exists r2. auto.
  Qed.

  Lemma run_init : forall os, N.of_nat (length os) < 2 ^ 58 ->
    match ideal_run [] os with
    | Some (l', vs) => exists r', run init os = Ok (r', vs) /\ rep r' l'
    | None => run init os = Contract
    end.
  Proof.
    intros os H. apply (run_spec os 0 init []); auto.
    exists 0. split; [apply init_rep|]. cbn. lia.
  Qed.

  Lemma observe_spec : forall r l, rep r l ->
    size r = N.of_nat (length l) /\ empty r = (match l with [] => true | _ => false end) /\
    front r = (match l with v :: _ => Ok v | [] => Contract end) /\
    back r = (match rev l with v :: _ => Ok v | [] => Contract end) /\
    (forall i, index r i = match nth_error l (N.to_nat i) with Some v => Ok v | None => Contract end) /\
    destructor r = Ok tt.
  Proof.
    intros r l [k R]. split; [eapply size_spec; eauto|]. split; [eapply empty_spec; eauto|].
    split; [eapply front_spec; eauto|]. split; [eapply back_spec; eauto|]. split; [intro; eapply index_spec; eauto|].
    eapply destructor_spec; eauto.
  Qed.

  Lemma copy_move_spec : forall r l, rep r l ->
    (exists r', copy_ctor r = Ok r' /\ rep r' l) /\
    (rep (fst (move_ctor r)) l /\ rep (snd (move_ctor r)) []) /\
    (forall this m, rep this m -> exists t s, move_assign this r = Ok (t, s) /\ rep t l /\ rep s []).
  Proof.
    intros r l [k R]. split; [|split].
    - destruct (copy_ctor_spec k r l R) as [r' [E RR]]. exists r'. split; auto. exists k; auto.
    - split; [exists k; auto|exists 0; apply init_rep].
    - intros this m [k' R']. unfold move_assign. rewrite (destructor_spec _ _ _ R'). cbn [bind].
      exists r, init. split; auto. split; [exists k; auto|exists 0; apply init_rep].
  Qed.

  (* the stable variants never grow and fail exactly at capacity *)
  Lemma stable_spec : forall r l v, rep r l ->
    (if N.of_nat (length l) =? capacity r then emplace_back_stable r (Val v) = Contract
     else exists r', emplace_back_stable r (Val v) = Ok r' /\ rep r' (l ++ [v]) /\ capacity r' = capacity r) /\
    (if N.of_nat (length l) =? capacity r then emplace_front_stable r (Val v) = Contract
     else exists r', emplace_front_stable r (Val v) = Ok r' /\ rep r' (v :: l) /\ capacity r' = capacity r).
  Proof.
    intros r l v [k R].
    pose proof (emplace_back_stable_spec k r l R (Val v) v eq_refl) as B.
    pose proof (emplace_front_stable_spec k r l R (Val v) v eq_refl) as F.
    destruct (N.of_nat (length l) =? capacity r); [auto|].
    destruct B as [b [EB RB]]. destruct F as [f [EF RF]]. split.
    - exists b. split; auto. split; [exists k; auto|]. unfold capacity. rewrite (R_mask _ _ _ RB), (R_mask _ _ _ R). auto.
    - exists f. split; auto. split; [exists k; auto|]. unfold capacity. rewrite (R_mask _ _ _ RF), (R_mask _ _ _ R). auto.
  Qed.
End P.

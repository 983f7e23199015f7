From Coq Require Import NArith ZArith Arith List Bool Lia.
From Verif Require Import Base Tagged VariModel VariSpec.
Import ListNotations.
Local Open Scope nat_scope.

Section P.
  Context {A : Type}.
  Variable ts : list nat.
  Notation R := (@rep (variant A) (content A) (shape ts)).

  (* ---- positions ---- *)
  Lemma pos_of_spec : forall us T p, pos_of us T = Some p -> p < length us /\ nth_error us p = Some T.
  Proof.
    induction us as [|U us IH]; intros T p H; cbn in H; [discriminate|]. destruct (Nat.eqb_spec U T) as [->|N].
    - injection H as <-. cbn. split; [lia|auto].
    - destruct (pos_of us T) eqn:E; [|discriminate]. injection H as <-. destruct (IH _ _ E). cbn. split; [lia|auto].
  Qed.
  Lemma pos_of_alt : forall us T, existsb (Nat.eqb T) us = true <-> exists p, pos_of us T = Some p.
  Proof.
    induction us as [|U us IH]; intro T; cbn.
    - split; [discriminate|intros (p & H); discriminate].
    - rewrite Nat.eqb_sym. destruct (Nat.eqb_spec U T) as [->|N]; cbn; [split; [eauto|auto]|].
      rewrite IH. split; intros (p & H); [rewrite H; eauto|destruct (pos_of us T); [eauto|discriminate]].
  Qed.
  Lemma iot_rv : forall us T i, (iot_loop (T, RV) us i =
    match pos_of us T with Some p => i + 1 + Z.of_nat p | None => i + Z.of_nat (length us) end)%Z.
  Proof.
    induction us as [|U us IH]; intros T i; cbn [iot_loop pos_of length]; [lia|]. unfold same. cbn [fst snd].
    rewrite Nat.eqb_sym. destruct (Nat.eqb_spec U T); [lia|]. rewrite IH. destruct (pos_of us T); lia.
  Qed.
  Lemma iot_ref : forall us T c i, c <> RV -> (iot_loop (T, c) us i = i + Z.of_nat (length us))%Z.
  Proof.
    induction us as [|U us IH]; intros T c i H; cbn [iot_loop length]; [lia|]. unfold same at 1. cbn [fst snd].
    destruct c; [congruence| | |]; (rewrite IH by auto; lia).
  Qed.
  Lemma index_rv : forall T p, pos_of ts T = Some p -> index_of_type ts (T, RV) = Z.of_nat p.
  Proof.
    intros T p H. unfold index_of_type. rewrite iot_rv, H. destruct (pos_of_spec _ _ _ H) as (L & _).
    destruct (Z.eqb_spec (-1 + 1 + Z.of_nat p) (Z.of_nat (length ts))); lia.
  Qed.
  (* a type that is not an alternative, or a reference type, gets the index of the last alternative *)
  Lemma index_missing : forall T c, ts <> [] -> c <> RV \/ pos_of ts T = None ->
    index_of_type ts (T, c) = Z.of_nat (length ts - 1).
  Proof.
    intros T c H D. unfold index_of_type.
    assert (E : (iot_loop (T, c) ts (-1) = -1 + Z.of_nat (length ts))%Z).
    { destruct D as [D|D]; [apply iot_ref; auto|]. destruct c; try (apply iot_ref; discriminate). rewrite iot_rv, D. auto. }
    rewrite E. destruct ts; [congruence|]. cbn [length].
    destruct (Z.eqb_spec (-1 + Z.of_nat (S (length l))) (Z.of_nat (S (length l)))); lia.
  Qed.
  Lemma destroy_pos_ok : forall us p, p < length us -> destroy_pos us (N.of_nat p) = Some p.
  Proof.
    induction us as [|U us IH]; intros p H; cbn [length] in H; [lia|]. cbn [destroy_pos].
    destruct p; [auto|]. destruct (N.eqb_spec (N.of_nat (S p)) 0); [lia|]. destruct us; [cbn in H; lia|].
    replace (N.of_nat (S p) - 1)%N with (N.of_nat p) by lia. rewrite IH by lia. auto.
  Qed.
  Lemma visit_pos_ok : forall us p, p < length us -> visit_pos us (N.of_nat p) = p.
  Proof.
    induction us as [|U us IH]; intros p H; cbn [length] in H; [lia|]. cbn [visit_pos].
    destruct us; [cbn in H; lia|]. destruct p; [auto|]. destruct (N.ltb_spec 0 (N.of_nat (S p))); [|lia].
    replace (N.of_nat (S p) - 1)%N with (N.of_nat p) by lia. rewrite IH by lia. auto.
  Qed.

  Hypothesis Hlen : (N.of_nat (length ts) <= 256)%N.

  Lemma alt_pos : forall T, alt ts T = true -> pos_of ts T = Some (position ts T) /\ position ts T < length ts /\
    nth_error ts (position ts T) = Some T.
  Proof.
    intros T H. apply pos_of_alt in H. destruct H as (p & H). unfold position. rewrite H.
    destruct (pos_of_spec _ _ _ H). auto.
  Qed.
  Lemma idx_byte : forall p, p < length ts -> Z.to_N (Z.of_nat p mod 256) = N.of_nat p.
  Proof. intros p H. rewrite Z.mod_small by lia. lia. Qed.
  Lemma position_inj : forall T U, alt ts T = true -> alt ts U = true -> position ts T = position ts U -> T = U.
  Proof. intros T U H1 H2 E. destruct (alt_pos _ H1) as (_ & _ & N1). destruct (alt_pos _ H2) as (_ & _ & N2). congruence. Qed.

  (* ---- stores ---- *)
  Definition wf (w : store A) : Prop := forall k c, look w k = Some c -> alt ts (typ c) = true.
  Lemma look_nth : forall (w : store A) k c, look w k = Some c -> nth_error w k = Some (Some c).
  Proof. intros w k c. unfold look. destruct (nth_error w k); congruence. Qed.
  Lemma put_upd : forall (w : store A) k c, put w k c = upd w k c.
  Proof. reflexivity. Qed.
  Lemma rshape : forall (w : store A) k c, look w k = Some c -> nth_error (R w) k = Some (Some (shape ts c)).
  Proof. intros w k c H. apply rep_nth, look_nth. auto. Qed.
  Lemma look_lt : forall (w : store A) k c, look w k = Some c -> k < length w.
  Proof. intros w k c H. apply look_nth in H. eapply nth_lt; eauto. Qed.
  Lemma wf_put : forall w k c, wf w -> alt ts (typ c) = true -> wf (put w k c).
  Proof.
    intros w k c H Hc j d Hj. unfold look, put in Hj. destruct (Nat.eq_dec j k) as [->|N].
    - destruct (le_lt_dec (length w) k) as [L|L].
      + assert (X : nth_error (lset w k (Some c)) k = None) by (apply nth_error_None; rewrite lset_length; auto).
        rewrite X in Hj. discriminate.
      + rewrite lset_nth_eq in Hj by auto. congruence.
    - rewrite lset_nth_neq in Hj by auto. apply (H j). auto.
  Qed.
  Lemma wf_add : forall w c, wf w -> alt ts (typ c) = true -> wf (w ++ [Some c]).
  Proof.
    intros w c H Hc j d Hj. unfold look in Hj. destruct (nth_error (w ++ [Some c]) j) as [x|] eqn:E; [|discriminate].
    destruct (lt_dec j (length w)) as [L|L].
    - rewrite nth_error_app1 in E by auto. subst x. apply (H j). unfold look. rewrite E. auto.
    - rewrite nth_error_app2 in E by lia. destruct (j - length w) as [|n] eqn:D; cbn in E; [congruence|].
      destruct n; discriminate.
  Qed.
  Lemma wf_del : forall w k, wf w -> wf (lset w k None).
  Proof.
    intros w k H j d Hj. unfold look in Hj. destruct (Nat.eq_dec j k) as [->|N].
    - destruct (le_lt_dec (length w) k) as [L|L].
      + assert (X : nth_error (lset w k None) k = None) by (apply nth_error_None; rewrite lset_length; auto).
        rewrite X in Hj. discriminate.
      + rewrite lset_nth_eq in Hj by auto. discriminate.
    - rewrite lset_nth_neq in Hj by auto. apply (H j). auto.
  Qed.

  Lemma kill_ok : forall w k c, wf w -> look w k = Some c ->
    kill ts (R w) k = Ok (upd (R w) k (mkv (idx (shape ts c)) TRaw)).
  Proof.
    intros w k c W H. pose proof (rshape _ _ _ H) as N. destruct (alt_pos _ (W _ _ H)) as (P1 & P2 & P3).
    unfold kill. rewrite (var_Ok _ _ _ N). cbn [bind]. unfold shape at 1 2. cbn [idx]. rewrite destroy_pos_ok by auto.
    unfold shape at 1 2. cbn [dat idx]. destruct (val c); cbn [tkill]; rewrite Nat.eqb_refl; auto.
  Qed.

  (* an argument in the world of the variants *)
  Definition good_src (w : store A) (T : nat) (s : src A) (v : A) (w2 : store A) (k : nat) : Prop :=
    match s with
    | Ext u => u = v /\ w2 = w
    | Own j p mv => p = position ts T /\ j <> k /\ look w j = Some (mkc T (Some v)) /\ w2 = (if mv then put w j (mkc T None) else w)
    end.
  (* filling variable k, whose storage is raw, from a source *)
  Lemma fill_ok : forall (w w2 : store A) W k T s v i0, alt ts T = true -> good_src w T s v w2 k ->
    (forall j, j <> k -> nth_error W j = nth_error (R w) j) -> nth_error W k = Some (Some (mkv i0 TRaw)) ->
    (let! W1 := set_idx W k (Z.of_nat (position ts T)) in
     match pos_of ts T with None => Contract | Some _ => let! m := fetch W1 s in place ts (snd m) k T (fst m) end) =
    Ok (upd (match s with Own j _ true => upd W j (shape ts (mkc T None)) | _ => W end) k (shape ts (mkc T (Some v)))).
  Proof.
    intros w w2 W k T s v i0 HT G Hj Hk. destruct (alt_pos _ HT) as (P1 & P2 & P3).
    unfold set_idx. rewrite (var_Ok _ _ _ Hk). cbn [bind dat]. rewrite P1, idx_byte by auto.
    pose proof (nth_upd_eq _ _ (mkv (N.of_nat (position ts T)) TRaw) _ Hk) as Hk2.
    destruct s as [u|j p mv]; cbn [fetch good_src] in *.
    - destruct G as (-> & _). cbn [bind fst snd]. unfold place. rewrite P1, (var_Ok _ _ _ Hk2). cbn [bind dat tplace idx].
      rewrite upd_upd. auto.
    - destruct G as (-> & N & Lj & _). pose proof (rshape _ _ _ Lj) as Nj.
      assert (Nj2 : nth_error (upd W k (mkv (N.of_nat (position ts T)) TRaw)) j = Some (Some (shape ts (mkc T (Some v))))).
      { rewrite nth_upd_neq by auto. rewrite Hj by auto. auto. }
      rewrite (var_Ok _ _ _ Nj2). cbn [bind]. destruct mv.
      + unfold shape at 1. cbn [dat val typ ttake]. rewrite Nat.eqb_refl. cbn [bind fst snd].
        unfold place. rewrite P1. erewrite var_Ok by (rewrite nth_upd_neq by auto; exact Hk2). cbn [bind dat tplace idx].
        f_equal. rewrite (upd_swap _ j k) by auto. rewrite upd_upd. rewrite (upd_swap _ k j) by auto. auto.
      + unfold shape at 1. cbn [dat val typ tread]. rewrite Nat.eqb_refl. cbn [bind fst snd].
        unfold place. rewrite P1, (var_Ok _ _ _ Hk2). cbn [bind dat tplace idx]. rewrite upd_upd. auto.
  Qed.

  Lemma emplace_ok : forall w w2 k c T s v, wf w -> look w k = Some c -> alt ts T = true -> good_src w T s v w2 k ->
    emplace ts (R w) k T s = Ok (R (put w2 k (mkc T (Some v)))).
  Proof.
    intros w w2 k c T s v W Hk HT G. unfold emplace. rewrite (kill_ok _ _ _ W Hk). cbn [bind].
    destruct (alt_pos _ HT) as (P1 & P2 & P3). rewrite (index_rv _ _ P1).
    replace (0 <=? Z.of_nat (position ts T))%Z with true by (symmetry; apply Z.leb_le; lia). cbn [contract bind].
    pose proof (rshape _ _ _ Hk) as Nk.
    rewrite (fill_ok w w2 (upd (R w) k (mkv (idx (shape ts c)) TRaw)) k T s v (idx (shape ts c)));
      [|auto|auto|intros j N; apply nth_upd_neq; auto|eapply nth_upd_eq; exact Nk].
    f_equal. rewrite put_upd, rep_upd. destruct s as [u|j p []]; cbn [good_src] in G.
    - destruct G as (_ & ->). rewrite upd_upd. auto.
    - destruct G as (_ & N & _ & ->). rewrite put_upd, rep_upd. rewrite (upd_swap _ k j) by auto. rewrite upd_upd. auto.
    - destruct G as (_ & N & _ & ->). rewrite upd_upd. auto.
  Qed.

  Lemma arg_ok : forall w T cat a v w2 k, wf w -> alt ts T = true -> take w T a = Some (v, w2) ->
    (match a with AGet j _ => j <> k | _ => True end) ->
    exists s, arg_src ts (R w) (T, cat) a = Ok s /\ good_src w T s v w2 k.
  Proof.
    intros w T cat a v w2 k W HT H N. destruct a as [u|j mv]; cbn [take arg_src] in *.
    - injection H as <- <-. eexists. split; [reflexivity|]. cbn. auto.
    - destruct (look w j) as [[U [x|]]|] eqn:L; try discriminate. destruct (Nat.eqb_spec U T) as [->|]; [|discriminate].
      assert (x = v) by congruence. assert (w2 = if mv then put w j (mkc T None) else w) by congruence. subst x.
      destruct (alt_pos _ HT) as (P1 & P2 & P3).
      unfold is, decay. cbn [fst]. rewrite (var_Ok _ _ _ (rshape _ _ _ L)). cbn [bind]. rewrite (index_rv _ _ P1).
      unfold shape at 1. cbn [idx typ].
      replace (Z.of_N (N.of_nat (position ts T)) =? Z.of_nat (position ts T))%Z with true by (symmetry; apply Z.eqb_eq; lia).
      cbn [contract bind]. rewrite P1. eexists. split; [reflexivity|]. cbn. auto.
  Qed.

  Lemma new_fill_ok : forall w w2 T s v, alt ts T = true -> good_src w T s v w2 (length w) ->
    (let! W1 := set_idx (add (R w) (mkv 0 TRaw)) (length (R w)) (Z.of_nat (position ts T)) in
     match pos_of ts T with None => Contract | Some _ => let! m := fetch W1 s in place ts (snd m) (length (R w)) T (fst m) end) =
    Ok (R (w2 ++ [Some (mkc T (Some v))])).
  Proof.
    intros w w2 T s v HT G.
    assert (HX : forall j, j <> length (R w) -> nth_error (add (R w) (@mkv A 0 TRaw)) j = nth_error (R w) j).
    { intros j N. unfold add. destruct (lt_dec j (length (R w))) as [L|L]; [apply nth_error_app1; auto|].
      rewrite nth_error_app2 by lia. destruct (j - length (R w)) as [|n] eqn:D; [lia|]. cbn.
      assert (nth_error (R w) j = None) by (apply nth_error_None; lia). destruct n; cbn; auto. }
    rewrite (fill_ok w w2 _ (length (R w)) T s v 0); [|auto|rewrite rep_length; auto|exact HX|apply nth_add_new].
    f_equal. destruct s as [u|j p []]; cbn [good_src] in G.
    - destruct G as (_ & ->). rewrite upd_add_new. change (w ++ [Some (mkc T (Some v))]) with (add w (mkc T (Some v))). rewrite rep_add. auto.
    - destruct G as (_ & N & L & ->). pose proof (look_lt _ _ _ L) as Lt. rewrite upd_add by (rewrite rep_length; auto).
      replace (length (R w)) with (length (upd (R w) j (shape ts (mkc T None)))) by apply upd_length.
      rewrite upd_add_new. change (put w j (mkc T None) ++ [Some (mkc T (Some v))]) with (add (upd w j (mkc T None)) (mkc T (Some v))).
      rewrite rep_add, rep_upd. auto.
    - destruct G as (_ & N & L & ->). rewrite upd_add_new. change (w ++ [Some (mkc T (Some v))]) with (add w (mkc T (Some v))). rewrite rep_add. auto.
  Qed.

  Lemma is_ok : forall w k c T, wf w -> look w k = Some c -> alt ts T = true -> is ts (R w) k T = Ok (typ c =? T).
  Proof.
    intros w k c T W H HT. destruct (alt_pos _ HT) as (P1 & P2 & P3). unfold is. rewrite (var_Ok _ _ _ (rshape _ _ _ H)). cbn [bind].
    rewrite (index_rv _ _ P1). unfold shape. cbn [idx]. f_equal.
    destruct (Nat.eqb_spec (typ c) T) as [E|N].
    - apply Z.eqb_eq. rewrite E. lia.
    - apply Z.eqb_neq. intro E. apply N. apply position_inj; [eapply W; eauto|auto|lia].
  Qed.
  Lemma get_ok : forall w k T v, wf w -> look w k = Some (mkc T (Some v)) -> get ts (R w) k T = Ok v.
  Proof.
    intros w k T v W H. pose proof (W _ _ H) as HT. cbn [typ] in HT. unfold get. rewrite (is_ok _ _ _ _ W H HT). cbn [bind typ].
    rewrite Nat.eqb_refl. cbn [contract bind]. destruct (alt_pos _ HT) as (P1 & _). rewrite P1, (var_Ok _ _ _ (rshape _ _ _ H)). cbn [bind].
    unfold shape. cbn [dat val typ tread]. rewrite Nat.eqb_refl. auto.
  Qed.

  Lemma visited : forall w k c, wf w -> look w k = Some c -> visit_pos ts (idx (shape ts c)) = position ts (typ c).
  Proof. intros w k c W H. destruct (alt_pos _ (W _ _ H)) as (_ & P & _). unfold shape. cbn [idx]. apply visit_pos_ok. auto. Qed.

  Lemma step_ok : forall (w : store A) o w' r, wf w -> ideal ts w o = Some (w', r) -> supported ts o = true ->
    step ts (R w) o = Ok (R w', r) /\ wf w'.
  Proof.
    intros w o w' r W H U. unfold ret in *.
    destruct o as [v|T a|j mv|k T a|k T a|k j mv|k|k T|k T|k T d|k]; cbn [ideal step] in *.
    - assert (D : ts = [] \/ exists T l, ts = T :: l) by (clear; destruct ts; eauto).
      destruct D as [Et|(T & l & Et)]; rewrite Et in H; [discriminate|]. unfold ret in H.
      assert (w' = w ++ [Some (mkc T (Some v))]) by congruence. assert (r = RUnit) by congruence. subst w' r. clear H.
      assert (HT : alt ts T = true) by (unfold alt; rewrite Et; cbn; rewrite Nat.eqb_refl; auto).
      destruct (alt_pos _ HT) as (P1 & P2 & P3).
      assert (P0 : position ts T = 0) by (unfold position; rewrite Et; cbn; rewrite Nat.eqb_refl; auto). split.
      + assert (ND : new_default ts (R w) v = place ts (add (R w) (mkv 0 TRaw)) (length (R w)) T v) by (unfold new_default; rewrite Et; auto).
        rewrite ND. unfold place. rewrite P1.
        rewrite (var_Ok _ _ _ (nth_add_new _ _)). cbn [bind dat tplace idx]. unfold unit_. cbn [bind]. rewrite upd_add_new.
        change (w ++ [Some (mkc T (Some v))]) with (add w (mkc T (Some v))). rewrite rep_add.
        assert (S0 : shape ts (mkc T (Some v)) = mkv 0 (TObj 0 v)) by (unfold shape; cbn [typ val]; rewrite P0; auto).
        rewrite S0, P0. auto.
      + apply wf_add; auto.
    - destruct (alt ts (decay T)) eqn:HT; [|discriminate]. destruct (take w (decay T) a) as [[v w2]|] eqn:E; [|discriminate].
      injection H as <- <-. destruct T as (T, ct). unfold decay in *. cbn [fst snd] in *.
      assert (HT' : alt ts T = true) by auto.
      destruct (arg_ok w T ct a v w2 (length w) W HT' E) as (s & E1 & G).
      { destruct a as [|j mv]; auto. cbn in E. destruct (look w j) eqn:L; [|discriminate]. pose proof (look_lt _ _ _ L). lia. }
      rewrite E1. cbn [bind]. unfold new_from, decay. cbn [fst].
      assert (EI : index_of_type ts (T, ct) = Z.of_nat (position ts T)).
      { destruct (alt_pos _ HT') as (P1 & P2 & P3). destruct ct; [apply index_rv; auto| | |];
          (rewrite index_missing; [|destruct ts; [cbn in P2; lia|discriminate]|left; discriminate];
           cbn in U; unfold last_first in U; rewrite P1 in U; apply Nat.eqb_eq in U; lia). }
      rewrite EI. replace (0 <=? Z.of_nat (position ts T))%Z with true by (symmetry; apply Z.leb_le; lia). cbn [contract bind].
      rewrite (new_fill_ok w w2 T s v HT' G). split; [auto|]. apply wf_add; [|auto].
      destruct s as [u|j p []]; cbn in G; [destruct G as (_ & ->)|destruct G as (_ & _ & _ & ->)|destruct G as (_ & _ & _ & ->)]; auto.
      apply wf_put; auto.
    - destruct (look w j) as [[T [v|]]|] eqn:L; try discriminate. injection H as <- <-.
      pose proof (W _ _ L) as HT. cbn [typ] in HT. pose proof (look_lt _ _ _ L) as Lt. destruct (alt_pos _ HT) as (P1 & P2 & P3).
      unfold new_variant. erewrite var_Ok by (apply nth_add; exact (rshape _ _ _ L)). cbn [bind].
      rewrite (visited _ _ _ W L). cbn [typ]. rewrite P3, (index_rv _ _ P1).
      replace (0 <=? Z.of_nat (position ts T))%Z with true by (symmetry; apply Z.leb_le; lia). cbn [contract bind].
      pose proof (new_fill_ok w (if mv then put w j (mkc T None) else w) T (Own j (position ts T) mv) v HT) as F.
      cbn [good_src] in F. specialize (F ltac:(repeat split; auto; lia)). rewrite P1 in F. rewrite F. split; [auto|].
      apply wf_add; auto. destruct mv; auto. apply wf_put; auto.
    - destruct (alt ts T) eqn:HT; [|discriminate]. destruct (look w k) as [c|] eqn:Lk; [|discriminate].
      destruct (take w T a) as [[v w2]|] eqn:E; [|discriminate]. injection H as <- <-. cbn [supported separate] in U.
      destruct (arg_ok w T RV a v w2 k W HT E) as (s & E1 & G).
      { destruct a as [|j mv]; auto. cbn in U. intros ->. rewrite Nat.eqb_refl in U. discriminate. }
      rewrite E1. cbn [bind]. rewrite (emplace_ok w w2 k c T s v) by auto. split; [auto|]. apply wf_put; [|auto].
      destruct s as [u|j p []]; cbn in G; [destruct G as (_ & ->)|destruct G as (_ & _ & _ & ->)|destruct G as (_ & _ & _ & ->)]; auto.
      apply wf_put; auto.
    - destruct T as (T, ct). unfold decay in *. cbn [fst] in *.
      destruct (alt ts T) eqn:HT; [|discriminate]. destruct (look w k) as [c|] eqn:Lk; [|discriminate].
      destruct (take w T a) as [[v w2]|] eqn:E; [|discriminate]. injection H as <- <-. cbn [supported separate] in U.
      destruct (arg_ok w T ct a v w2 k W HT E) as (s & E1 & G).
      { destruct a as [|j mv]; auto. cbn in U. intros ->. rewrite Nat.eqb_refl in U. discriminate. }
      rewrite E1. cbn [bind]. unfold assign_from, decay. cbn [fst].
      assert (EI : (0 <=? index_of_type ts (T, ct))%Z = true).
      { apply Z.leb_le. destruct (alt_pos _ HT) as (P1 & P2 & P3). destruct ct; [rewrite (index_rv _ _ P1); lia| | |];
          (rewrite index_missing; [lia|destruct ts; [cbn in P2; lia|discriminate]|left; discriminate]). }
      rewrite EI. cbn [contract bind]. rewrite (emplace_ok w w2 k c T s v) by auto. split; [auto|]. apply wf_put; [|auto].
      destruct s as [u|j p []]; cbn in G; [destruct G as (_ & ->)|destruct G as (_ & _ & _ & ->)|destruct G as (_ & _ & _ & ->)]; auto.
      apply wf_put; auto.
    - destruct (look w k) as [c|] eqn:Lk; [|discriminate]. destruct (look w j) as [[T [v|]]|] eqn:Lj; try discriminate.
      cbn [supported] in U. destruct (Nat.eqb_spec k j) as [|N]; [discriminate|]. injection H as <- <-.
      pose proof (W _ _ Lj) as HT. cbn [typ] in HT. destruct (alt_pos _ HT) as (P1 & P2 & P3).
      unfold assign_variant. rewrite (var_Ok _ _ _ (rshape _ _ _ Lj)). cbn [bind]. rewrite (visited _ _ _ W Lj). cbn [typ]. rewrite P3.
      rewrite (emplace_ok w (if mv then put w j (mkc T None) else w) k c T (Own j (position ts T) mv) v); auto.
      + split; [auto|]. apply wf_put; auto. destruct mv; auto. apply wf_put; auto.
      + cbn. auto.
    - destruct (look w k) as [c|] eqn:L; [|discriminate]. injection H as <- <-. split.
      + unfold destroy. rewrite (kill_ok _ _ _ W L). cbn [bind]. erewrite var_Ok by (eapply nth_upd_eq; exact (rshape _ _ _ L)).
        cbn [bind dat tfree]. unfold unit_. cbn [bind]. rewrite del_upd. change (lset w k None) with (del w k). rewrite rep_del. auto.
      + apply wf_del. auto.
    - destruct (look w k) as [c|] eqn:L; [|discriminate]. injection H as <- <-. rewrite (is_ok _ _ _ _ W L U). auto.
    - destruct (look w k) as [[X [v|]]|] eqn:L; try discriminate. destruct (Nat.eqb_spec X T) as [->|]; [|discriminate].
      injection H as <- <-. rewrite (get_ok _ _ _ _ W L). auto.
    - destruct (alt ts T) eqn:HT; [|discriminate]. destruct (look w k) as [[X xv]|] eqn:L; [|discriminate].
      unfold get_or. destruct (alt_pos _ HT) as (P1 & _). rewrite P1, (is_ok _ _ _ _ W L HT). cbn [bind typ].
      destruct (Nat.eqb_spec X T) as [->|N].
      + destruct xv as [v|]; [|discriminate]. injection H as <- <-. rewrite (get_ok _ _ _ _ W L). auto.
      + destruct xv; injection H as <- <-; auto.
    - destruct (look w k) as [[X [v|]]|] eqn:L; try discriminate. injection H as <- <-. unfold visit.
      rewrite (var_Ok _ _ _ (rshape _ _ _ L)). cbn [bind]. rewrite (visited _ _ _ W L). cbn [typ].
      pose proof (W _ _ L) as HT. cbn [typ] in HT. destruct (alt_pos _ HT) as (P1 & P2 & P3). rewrite P3.
      unfold shape. cbn [dat val typ tread]. rewrite Nat.eqb_refl. auto.
  Qed.

  Lemma run_ok : forall os (w : store A) w' rs, wf w -> ideal_run ts w os = Some (w', rs) -> forallb (supported ts) os = true ->
    run ts (R w) os = Ok (R w', rs) /\ wf w'.
  Proof.
    induction os as [|o os IH]; intros w w' rs W H U; cbn [ideal_run run forallb] in *.
    - injection H as <- <-. auto.
    - apply andb_true_iff in U. destruct U as (U1 & U2). destruct (ideal ts w o) as [[w1 r]|] eqn:E; [|discriminate].
      destruct (ideal_run ts w1 os) as [[w2 rs']|] eqn:E2; [|discriminate]. injection H as <- <-.
      destruct (step_ok _ _ _ _ W E U1) as (E3 & W1). rewrite E3. cbn [bind fst snd].
      destruct (IH _ _ _ W1 E2 U2) as (E4 & W2). rewrite E4. auto.
  Qed.
End P.

From Coq Require Import ZArith Arith List Bool Lia.
From Verif Require Import Base SPtrModel SPtrSpec.
Import ListNotations.

(* ---- sums over lists ---- *)
Lemma sum_lset : forall {X} (f : X -> nat) l k x y, nth_error l k = Some x ->
  list_sum (map f (lset l k y)) + f x = list_sum (map f l) + f y.
Proof.
  intros X f. unfold list_sum. induction l as [|a l IH]; intros [|k] x y H; cbn in *; try discriminate.
  - injection H as ->. lia.
  - specialize (IH k x y H). lia.
Qed.
Lemma sum_ge : forall {X} (f : X -> nat) l k x, nth_error l k = Some x -> f x <= list_sum (map f l).
Proof.
  intros X f. unfold list_sum. induction l as [|a l IH]; intros [|k] x H; cbn in *; try discriminate.
  - injection H as ->. lia.
  - specialize (IH k x H). lia.
Qed.
Lemma sum_rev : forall o fs, held o (rev fs) = held o fs.
Proof. intros o fs. unfold held. rewrite map_rev. induction (map (holds o) fs) as [|a l IH]; auto. cbn [rev]. rewrite list_sum_app, IH. unfold list_sum. cbn. lia. Qed.
Lemma held_cons : forall o p fs, held o (p :: fs) = holds o p + held o fs.
Proof. reflexivity. Qed.
Lemma held_repeat : forall o n, held o (repeat None n) = 0.
Proof. intros o n. unfold held. induction n; cbn; auto. Qed.
Lemma lset_lset : forall {X} (l : list X) k x y, lset (lset l k x) k y = lset l k y.
Proof. induction l; intros [|k] x y; cbn; auto. f_equal. auto. Qed.
Lemma lset_swap : forall {X} (l : list X) k j x y, k <> j -> lset (lset l k x) j y = lset (lset l j y) k x.
Proof. induction l; intros [|k] [|j] x y H; cbn; auto; [lia|]. f_equal. auto. Qed.
Lemma lset_same : forall {X} (l : list X) k x, nth_error l k = Some x -> lset l k x = l.
Proof. induction l; intros [|k] x H; cbn in *; try discriminate; [congruence|]. f_equal. auto. Qed.
Lemma nth_lt : forall {X} (l : list X) k x, nth_error l k = Some x -> k < length l.
Proof. intros. apply nth_error_Some. congruence. Qed.
Lemma holds_self : forall c, holds c (Some c) = 1.
Proof. intro. unfold holds. rewrite Nat.eqb_refl. auto. Qed.
Lemma holds_pos : forall o p, holds o p <> 0 -> p = Some o.
Proof. intros o [c|]; cbn; [|lia]. destruct (Nat.eqb_spec c o); [congruence|lia]. Qed.

(* ---- graphs ---- *)
Definition kill (g : graph) (o : nat) : graph := mkg (gvars g) (lset (gheap g) o None).
Lemma owners_kill : forall g c fs o, nth_error (gheap g) c = Some (Some fs) -> owners (kill g c) o + held o fs = owners g o.
Proof.
  intros g c fs o H. unfold owners, kill. cbn [gvars gheap].
  pose proof (sum_lset (fun x => match x with Some fs => held o fs | None => 0 end) _ _ _ None H) as E. cbn in E. lia.
Qed.
Lemma owners_write : forall g l p0 p o, gread g l = Some p0 -> owners (gwrite g l p) o + holds o p0 = owners g o + holds o p.
Proof.
  intros g [v|c i] p0 p o H; cbn in H.
  - destruct (nth_error (gvars g) v) as [[q|]|] eqn:E; try discriminate. injection H as <-. unfold owners. cbn [gwrite gvars gheap].
    pose proof (sum_lset (fun v => match v with Some p => holds o p | None => 0 end) _ _ _ (Some p) E) as X. cbn in X. lia.
  - cbn [gwrite]. destruct (nth_error (gheap g) c) as [[fs|]|] eqn:E; try discriminate. unfold owners. cbn [gvars gheap].
    pose proof (sum_lset (fun x => match x with Some fs => held o fs | None => 0 end) _ _ _ (Some (lset fs i p)) E) as X. cbn in X.
    pose proof (sum_lset (holds o) _ _ _ p H) as Y. unfold held in *. lia.
Qed.
Lemma alive_write : forall g l p o, alive (gwrite g l p) o <-> alive g o.
Proof.
  intros g [v|c i] p o; cbn [gwrite]; [reflexivity|]. destruct (nth_error (gheap g) c) as [[fs|]|] eqn:E; try reflexivity.
  unfold alive. cbn [gheap]. destruct (Nat.eq_dec c o) as [<-|N].
  - rewrite lset_nth_eq by (eapply nth_lt; eauto). rewrite E. split; eauto.
  - rewrite lset_nth_neq by auto. reflexivity.
Qed.
Lemma heap_write_length : forall g l p, length (gheap (gwrite g l p)) = length (gheap g).
Proof. intros g [v|c i] p; cbn; auto. destruct (nth_error (gheap g) c) as [[fs|]|]; cbn; rewrite ?lset_length; auto. Qed.
Lemma read_write_eq : forall g l p0 p, gread g l = Some p0 -> gread (gwrite g l p) l = Some p.
Proof.
  intros g [v|c i] p0 p H; cbn in *.
  - destruct (nth_error (gvars g) v) as [[q|]|] eqn:E; try discriminate. cbn [gvars]. rewrite lset_nth_eq by (eapply nth_lt; eauto). auto.
  - destruct (nth_error (gheap g) c) as [[fs|]|] eqn:E; try discriminate. cbn [gheap]. rewrite lset_nth_eq by (eapply nth_lt; eauto).
    rewrite lset_nth_eq by (eapply nth_lt; eauto). auto.
Qed.
Lemma read_write_neq : forall g l r p, l <> r -> gread (gwrite g l p) r = gread g r.
Proof.
  intros g l r p N. destruct l as [v|c i]; destruct r as [u|d j]; cbn [gwrite].
  - cbn. rewrite lset_nth_neq by congruence. auto.
  - reflexivity.
  - destruct (nth_error (gheap g) c) as [[fs|]|]; reflexivity.
  - destruct (nth_error (gheap g) c) as [[fs|]|] eqn:E; try reflexivity. cbn. destruct (Nat.eq_dec c d) as [<-|M].
    + rewrite lset_nth_eq by (eapply nth_lt; eauto). rewrite E, lset_nth_neq by congruence. auto.
    + rewrite lset_nth_neq by auto. auto.
Qed.
Lemma write_write : forall g l p q, gwrite (gwrite g l p) l q = gwrite g l q.
Proof.
  intros g [v|c i] p q; cbn.
  - rewrite lset_lset. auto.
  - destruct (nth_error (gheap g) c) as [[fs|]|] eqn:E; cbn; [|rewrite E; auto..].
    rewrite lset_nth_eq by (eapply nth_lt; eauto). rewrite !lset_lset. auto.
Qed.
Lemma write_same : forall g l p, gread g l = Some p -> gwrite g l p = g.
Proof.
  intros [vs h] [v|c i] p H; cbn in *.
  - destruct (nth_error vs v) as [[q|]|] eqn:E; try discriminate. rewrite lset_same by congruence. auto.
  - destruct (nth_error h c) as [[fs|]|] eqn:E; try discriminate. rewrite (lset_same fs) by auto. rewrite lset_same by auto. auto.
Qed.
Lemma write_swap : forall g l r p q, l <> r -> gwrite (gwrite g l p) r q = gwrite (gwrite g r q) l p.
Proof.
  intros [vs h] l r p q N. destruct l as [v|c i]; destruct r as [u|d j]; cbn.
  - rewrite lset_swap by congruence. auto.
  - destruct (nth_error h d) as [[fs|]|]; auto.
  - destruct (nth_error h c) as [[fs|]|]; auto.
  - destruct (nth_error h c) as [[fs|]|] eqn:E; destruct (nth_error h d) as [[fs'|]|] eqn:E'; cbn; rewrite ?E, ?E'; auto.
    + destruct (Nat.eq_dec c d) as [<-|M].
      * rewrite !lset_nth_eq by (eapply nth_lt; eauto). rewrite !lset_lset.
        assert (fs' = fs) by congruence. subst. rewrite lset_swap by congruence. auto.
      * rewrite !lset_nth_neq by auto. rewrite E, E'. cbn. rewrite lset_swap by auto. auto.
    + rewrite lset_nth_neq by congruence. rewrite E'. auto.
    + rewrite lset_nth_neq by congruence. rewrite E'. auto.
    + rewrite lset_nth_neq by congruence. rewrite E. auto.
    + rewrite lset_nth_neq by congruence. rewrite E. auto.
Qed.

(* a graph in which pointers point to live objects, and every live object has an owner *)
Definition closed (g : graph) : Prop := forall o, owners g o <> 0 -> alive g o.
Definition settled (g : graph) : Prop := forall o, alive g o -> owners g o <> 0.
Lemma read_owner : forall g l c, gread g l = Some (Some c) -> owners g c <> 0.
Proof.
  intros g [v|o i] c H; cbn in H; unfold owners.
  - destruct (nth_error (gvars g) v) as [[q|]|] eqn:E; try discriminate. injection H as ->.
    pose proof (sum_ge (fun v => match v with Some p => holds c p | None => 0 end) _ _ _ E) as X. cbn [holds] in X. rewrite Nat.eqb_refl in X. lia.
  - destruct (nth_error (gheap g) o) as [[fs|]|] eqn:E; try discriminate.
    pose proof (sum_ge (fun x => match x with Some fs => held c fs | None => 0 end) _ _ _ E) as X. cbn in X.
    pose proof (sum_ge (holds c) _ _ _ H) as Y. rewrite holds_self in Y. unfold held in *. lia.
Qed.

(* ---- collection ---- *)
Inductive steps : graph -> graph -> Prop :=
| s_refl : forall g, steps g g
| s_step : forall g g1 g2, collect1 g g1 -> steps g1 g2 -> steps g g2.
Lemma steps_trans : forall a b, steps a b -> forall c, steps b c -> steps a c.
Proof. induction 1; intros; auto. eapply s_step; eauto. Qed.
Lemma steps_collects : forall a b, steps a b -> settled b -> collects a b.
Proof. induction 1; intro S; [apply collects_done; auto|eapply collects_step; eauto]. Qed.
Lemma collects_steps : forall a b, collects a b -> steps a b /\ settled b.
Proof. induction 1; [split; [constructor|auto]|]. destruct IHcollects. split; auto. eapply s_step; eauto. Qed.
Lemma kill_field : forall g o c fs, nth_error (gheap (kill g o)) c = Some (Some fs) -> o <> c /\ nth_error (gheap g) c = Some (Some fs).
Proof.
  intros g o c fs H. unfold kill in H. cbn [gheap] in H. destruct (Nat.eq_dec o c) as [<-|N].
  - destruct (lt_dec o (length (gheap g))) as [L|L]; [rewrite lset_nth_eq in H by auto; discriminate|].
    assert (X : nth_error (lset (gheap g) o None) o = None) by (apply nth_error_None; rewrite lset_length; lia). congruence.
  - rewrite lset_nth_neq in H by auto. auto.
Qed.
Lemma alive_kill : forall g o c, alive (kill g o) c <-> o <> c /\ alive g c.
Proof.
  intros g o c. split.
  - intros (fs & H). apply kill_field in H. destruct H. split; auto. exists fs. auto.
  - intros (N & fs & H). exists fs. unfold kill. cbn [gheap]. rewrite lset_nth_neq by auto. auto.
Qed.
Lemma owners_kill_le : forall g c o, owners (kill g c) o <= owners g o.
Proof.
  intros g c o. destruct (nth_error (gheap g) c) as [[fs|]|] eqn:E.
  - pose proof (owners_kill _ _ _ o E). lia.
  - unfold kill. rewrite lset_same by auto. destruct g; auto.
  - unfold kill. assert (lset (gheap g) c None = gheap g) as ->; [|destruct g; auto].
    revert E. generalize c. induction (gheap g); intros [|k] E; cbn in *; auto; try discriminate. f_equal. auto.
Qed.
Lemma read_kill : forall g o l p, gread (kill g o) l = Some p -> gread g l = Some p /\ (match l with LFld c _ => c <> o | _ => True end).
Proof.
  intros g o [v|c i] p H; cbn [gread] in *; [auto|].
  destruct (nth_error (gheap (kill g o)) c) as [[fs|]|] eqn:E; try discriminate. apply kill_field in E. destruct E as (N & E). rewrite E. auto.
Qed.
Lemma read_kill_neq : forall g o l, (match l with LFld c _ => c <> o | _ => True end) -> gread (kill g o) l = gread g l.
Proof. intros g o [v|c i] N; cbn; auto. rewrite lset_nth_neq by auto. auto. Qed.
Lemma write_kill : forall g o l p, (match l with LFld c _ => c <> o | _ => True end) -> gwrite (kill g o) l p = kill (gwrite g l p) o.
Proof.
  intros g o [v|c i] p N; [reflexivity|]. unfold kill. cbn. rewrite lset_nth_neq by auto.
  destruct (nth_error (gheap g) c) as [[fs|]|]; cbn; auto. f_equal. apply lset_swap. auto.
Qed.
Lemma read_steps : forall a b, steps a b -> forall l p, gread b l = Some p -> gread a l = Some p.
Proof. induction 1 as [|a a1 b C S IH]; auto. intros l p H. apply IH in H. destruct C as [o A O]. apply read_kill in H. tauto. Qed.
Lemma alive_steps : forall a b, steps a b -> forall o, alive b o -> alive a o.
Proof. induction 1 as [|a a1 b C S IH]; auto. intros o H. apply IH in H. destruct C as [c A O]. apply alive_kill in H. tauto. Qed.
Lemma owners_steps : forall a b, steps a b -> forall o, owners b o <= owners a o.
Proof. induction 1 as [|a a1 b C S IH]; auto. intros o. specialize (IH o). destruct C as [c A O]. pose proof (owners_kill_le a c o). unfold kill in *. lia. Qed.

(* collection has one result *)
Lemma collect_first : forall a b, collects a b -> forall a1, collect1 a a1 -> collects a1 b.
Proof.
  induction 1 as [g S|g g2 b C2 C IH]; intros g1 C1.
  - destruct C1 as [o A O]. exfalso. eapply S; eauto.
  - destruct C1 as [o A O]. destruct C2 as [o2 A2 O2]. destruct (Nat.eq_dec o o2) as [->|N]; auto.
    assert (X : collect1 (kill g o2) (kill (kill g o2) o)).
    { apply collect1_intro; [apply alive_kill; auto|]. pose proof (owners_kill_le g o2 o). unfold kill in *. lia. }
    assert (Y : collect1 (kill g o) (kill (kill g o) o2)).
    { apply collect1_intro; [apply alive_kill; auto|]. pose proof (owners_kill_le g o o2). unfold kill in *. lia. }
    specialize (IH _ X). eapply collects_step; [exact Y|]. unfold kill in *. cbn [gvars gheap] in *. rewrite lset_swap by auto. auto.
Qed.
Lemma collects_unique : forall g a, collects g a -> forall b, collects g b -> a = b.
Proof.
  induction 1 as [g S|g g1 a C1 C IH]; intros b B.
  - destruct B as [|? ? ? C1]; auto. destruct C1 as [o A O]. exfalso. eapply S; eauto.
  - apply IH. eapply collect_first; eauto.
Qed.
(* a change of the graph that does not matter for what is collected *)
Lemma collects_map : forall (f : graph -> graph) (Q : graph -> Prop),
  (forall a, Q a -> settled a -> settled (f a)) ->
  (forall a o, Q (kill a o) -> alive a o -> owners a o = 0 -> Q a /\ alive (f a) o /\ owners (f a) o = 0 /\ f (kill a o) = kill (f a) o) ->
  forall a b, collects a b -> Q b -> collects (f a) (f b).
Proof.
  intros f Q F1 F2 a b C. assert (X : Q b -> Q a /\ collects (f a) (f b)); [|intro; apply X; auto].
  induction C as [g S|g g1 b C1 C IH]; intro H.
  - split; auto. apply collects_done. apply F1; auto.
  - destruct (IH H) as (H1 & E). destruct C1 as [o A O]. destruct (F2 _ _ H1 A O) as (Qa & A1 & O1 & E1). split; auto.
    eapply collects_step; [apply collect1_intro; eauto|]. fold (kill (f g) o). rewrite <- E1. auto.
Qed.

(* ---- objects that are not collected while l is null ---- *)
Definition prot (g : graph) (P : nat -> Prop) : Prop :=
  forall x, P x -> alive g x /\ exists l, gread g l = Some (Some x) /\ (match l with LFld z _ => P z | _ => True end).
Lemma prot_kill : forall g P o, prot g P -> owners g o = 0 -> ~ P o.
Proof. intros g P o H O X. destruct (H _ X) as (_ & l & E & _). eapply read_owner; eauto. Qed.
Lemma prot_step : forall g P o, prot g P -> owners g o = 0 -> prot (kill g o) P.
Proof.
  intros g P o H O x X. destruct (H _ X) as (A & l & E & Pl). pose proof (prot_kill _ _ _ H O) as N. split.
  - apply alive_kill. split; auto. intros ->. auto.
  - exists l. split; auto. rewrite read_kill_neq; auto. destruct l; auto. intros ->. auto.
Qed.
Definition guarded (g : graph) (l : loc) : Prop := exists P, prot g P /\ (match l with LFld o _ => P o | _ => True end).
Lemma guard_follow : forall g l is l0, closed g -> gfollow g l0 is = Some l -> guarded (gwrite g l None) l0 -> guarded (gwrite g l None) l.
Proof.
  intros g l. induction is as [|i is IH]; intros l0 C H G; cbn in H.
  - injection H as ->. auto.
  - destruct (gread g l0) as [[c|]|] eqn:E; try discriminate.
    assert (D : l0 = l \/ l0 <> l) by (destruct l0 as [v|o k], l as [u|p j]; try (right; discriminate);
      [destruct (Nat.eq_dec v u)|destruct (Nat.eq_dec o p), (Nat.eq_dec k j)]; subst; auto; right; congruence).
    destruct D as [->|N]; auto. apply (IH (LFld c i)); auto. destruct G as (P & HP & Hl). exists (fun x => P x \/ x = c). split; [|auto].
    intros x [X| ->].
    + destruct (HP _ X) as (A & l1 & E1 & P1). split; auto. exists l1. split; auto. destruct l1; auto.
    + split; [apply alive_write, C; eapply read_owner; eauto|]. exists l0. split; [rewrite read_write_neq by auto; auto|].
      destruct l0; auto.
Qed.
Lemma guard_denotes : forall g e l p, closed g -> denotes g e l p -> guarded (gwrite g l None) l.
Proof.
  intros g e l p C (H & _). eapply guard_follow; eauto. exists (fun _ => False). split; auto. intros x [].
Qed.

(* ---- release ---- *)
Section Rel.
  Variable l : loc.          (* the pointer that is being dropped: it still holds c0 in memory *)
  Variable c0 : option nat.
  Definition stale (o : nat) (fs : list (option nat)) : list (option nat) :=
    match l with LFld c i => if c =? o then lset fs i c0 else fs | LVar _ => fs end.
  Definition is_dead (x : cell) : Prop := match x with Live _ _ => False | _ => True end.
  Record RepH (h : list cell) (g : graph) (pe : nat -> nat) (D : list nat) : Prop := mkRepH {
    r_len : length h = length (gheap g);
    r_live : forall o fs, nth_error (gheap g) o = Some (Some fs) -> nth_error h o = Some (Live (Z.of_nat (owners g o + pe o)) (stale o fs));
    r_dead : forall o, nth_error (gheap g) o = Some None -> exists x, nth_error h o = Some x /\ is_dead x /\ (~ In o D -> x = Freed);
    r_closed : forall o, owners g o + pe o <> 0 -> alive g o;
    r_set : forall o, alive g o -> owners g o + pe o <> 0 }.
  Definition nlive (g : graph) : nat := list_sum (map (fun x : option (list (option nat)) => match x with Some _ => 1 | None => 0 end) (gheap g)).
  Lemma nlive_kill : forall g o, alive g o -> nlive g = S (nlive (kill g o)).
  Proof.
    intros g o (fs & H). unfold nlive, kill. cbn [gheap].
    pose proof (sum_lset (fun x : option (list (option nat)) => match x with Some _ => 1 | None => 0 end) _ _ _ None H) as E. cbn in E. lia.
  Qed.
  Lemma nlive_steps : forall a b, steps a b -> nlive b <= nlive a.
  Proof. induction 1 as [|a a1 b C S IH]; auto. destruct C as [o A O]. pose proof (nlive_kill a o A). unfold kill in *. lia. Qed.
  Lemma steps_len : forall a b, steps a b -> length (gheap b) = length (gheap a).
  Proof. induction 1 as [|a a1 b C S IH]; auto. destruct C as [o A O]. cbn [gheap] in IH. rewrite lset_length in IH. auto. Qed.
  Lemma RepH_ext : forall h g pe pe' D, (forall o, pe o = pe' o) -> RepH h g pe D -> RepH h g pe' D.
  Proof.
    intros h g pe pe' D E [r1 r2 r3 r4 r5]. constructor; auto.
    - intros o fs H. rewrite <- E. auto.
    - intros o H. apply r4. rewrite E. auto.
    - intros o H. rewrite <- E. auto.
  Qed.
  (* a dead cell may be overwritten by a dead cell *)
  Lemma RepH_dead : forall h g pe D c x, RepH h g pe D -> ~ alive g c -> is_dead x -> (x = Freed \/ In c D) -> RepH (lset h c x) g pe D.
  Proof.
    intros h g pe D c x [r1 r2 r3 r4 r5] N X F. constructor; auto.
    - rewrite lset_length. auto.
    - intros o fs H. rewrite lset_nth_neq; auto. intros ->. apply N. exists fs. auto.
    - intros o H. destruct (Nat.eq_dec c o) as [<-|M].
      + exists x. rewrite lset_nth_eq by (rewrite r1; eapply nth_lt; eauto). repeat split; auto. intro; tauto.
      + rewrite lset_nth_neq by auto. auto.
  Qed.
  Lemma RepH_weak : forall h g pe D c, RepH h g pe (c :: D) -> (exists fs, nth_error (gheap g) c = Some fs) -> nth_error h c = Some Freed -> RepH h g pe D.
  Proof.
    intros h g pe D c [r1 r2 r3 r4 r5] _ F. constructor; auto. intros o H. destruct (r3 o H) as (x & E & X & Y). exists x. repeat split; auto.
    intro NI. destruct (Nat.eq_dec o c) as [->|M]; [congruence|]. apply Y. intros [|]; auto.
  Qed.
  Lemma RepH_more : forall h g pe D c, RepH h g pe D -> RepH h g pe (c :: D).
  Proof.
    intros h g pe D c [r1 r2 r3 r4 r5]. constructor; auto. intros o H. destruct (r3 o H) as (x & E & X & Y). exists x. repeat split; auto.
    intro NI. apply Y. intro. apply NI. right. auto.
  Qed.

  (* the loop over the members *)
  Definition members fuel c := fix members (todo : list (option nat)) (h : list cell) : outcome (list cell) :=
    match todo with
    | [] => Ok h
    | p :: todo =>
        let h := lset h c (Dying (rev todo)) in
        match p with
        | None => members todo h
        | Some d => let! h := release fuel h d in members todo h
        end
    end.

  Definition release_spec fuel := forall h g pe D P c,
    RepH h g (fun o => holds o (Some c) + pe o) D -> prot g P -> (match l with LFld o _ => P o | _ => True end) -> nlive g < fuel ->
    exists h' g', release fuel h c = Ok h' /\ RepH h' g' pe D /\ steps g g' /\ prot g' P.

  Lemma members_ok : forall fuel c, release_spec fuel -> forall todo h g pe D P,
    RepH h g (fun o => held o todo + pe o) (c :: D) -> ~ alive g c -> prot g P -> (match l with LFld o _ => P o | _ => True end) ->
    nlive g < fuel ->
    exists h' g', members fuel c todo h = Ok h' /\ RepH h' g' pe (c :: D) /\ steps g g' /\ prot g' P.
  Proof.
    intros fuel c IH. induction todo as [|p todo IHt]; intros h g pe D P R N HP Hl F; cbn [members].
    - exists h, g. split; [auto|split; [exact R|split; [constructor|auto]]].
    - set (h1 := lset h c (Dying (rev todo))).
      assert (R1 : RepH h1 g (fun o => held o (p :: todo) + pe o) (c :: D)) by (apply RepH_dead; cbn; auto).
      destruct p as [d|].
      + assert (R2 : RepH h1 g (fun o => holds o (Some d) + (held o todo + pe o)) (c :: D)).
        { eapply RepH_ext; [|exact R1]. intro o. cbn beta. rewrite held_cons. lia. }
        destruct (IH _ _ _ _ P d R2 HP Hl F) as (h2 & g2 & E2 & R3 & S2 & HP2).
        rewrite E2. cbn [bind]. destruct (IHt h2 g2 pe D P R3) as (h3 & g3 & E3 & R4 & S3 & HP3); auto.
        * intro A. apply N. eapply alive_steps; eauto.
        * pose proof (nlive_steps _ _ S2). lia.
        * exists h3, g3. split; [auto|split; [auto|split; [eapply steps_trans; eauto|auto]]].
      + apply IHt; auto.
  Qed.

  Lemma release_ok : forall fuel, release_spec fuel.
  Proof.
    induction fuel as [|fuel IH]; intros h g pe D P c R HP Hl F; [lia|].
    assert (A : alive g c) by (apply (r_closed _ _ _ _ R); rewrite holds_self; lia). destruct A as (fs & A).
    pose proof (r_live _ _ _ _ R _ _ A) as Hc. cbn beta in Hc. rewrite holds_self in Hc.
    change (release (S fuel) h c) with (match nth_error h c with
      | Some (Live rc fs) => let! _ := defined (- 2 ^ 31 <? rc)%Z in
          if (rc - 1 =? 0)%Z then let! h := members fuel c (rev fs) (lset h c (Dying fs)) in Ok (lset h c Freed)
          else Ok (lset h c (Live (rc - 1) fs))
      | _ => UB end).
    rewrite Hc. replace (- 2 ^ 31 <? Z.of_nat (owners g c + (1 + pe c)))%Z with true by (symmetry; apply Z.ltb_lt; lia). cbn [defined bind].
    destruct (Z.eqb_spec (Z.of_nat (owners g c + (1 + pe c)) - 1) 0) as [Z0|Z0].
    - assert (O : owners g c = 0) by lia.
      assert (St : stale c fs = fs).
      { unfold stale. destruct l as [v|o i]; auto. destruct (Nat.eqb_spec o c) as [->|]; auto. exfalso. eapply prot_kill; eauto. }
      rewrite St in *.
      assert (C1 : collect1 g (kill g c)) by (apply collect1_intro; [exists fs; auto|auto]).
      assert (Nc : ~ alive (kill g c) c) by (intro X; apply alive_kill in X; tauto).
      destruct (members_ok fuel c IH (rev fs) (lset h c (Dying fs)) (kill g c) pe D P) as (h' & g' & E & R' & S & HP').
      + destruct R as [r1 r2 r3 r4 r5]. constructor.
        * unfold kill. cbn [gheap]. rewrite !lset_length. auto.
        * intros o fs' H. apply kill_field in H. destruct H as (M & H). rewrite lset_nth_neq by auto. rewrite (r2 _ _ H).
          pose proof (owners_kill _ _ _ o A) as X. rewrite sum_rev. cbn [holds]. destruct (Nat.eqb_spec c o); [lia|]. do 3 f_equal. lia.
        * intros o H. destruct (Nat.eq_dec c o) as [<-|M].
          -- exists (Dying fs). rewrite lset_nth_eq by (rewrite r1; eapply nth_lt; eauto). repeat split; auto. intro X. exfalso. apply X. left. auto.
          -- unfold kill in H. cbn [gheap] in H. rewrite lset_nth_neq in H by auto. destruct (r3 o H) as (x & E & X & Y). exists x.
             rewrite lset_nth_neq by auto. repeat split; auto. intro NI. apply Y. intro. apply NI. right. auto.
        * intros o H. pose proof (owners_kill _ _ _ o A) as X. rewrite sum_rev in H. apply alive_kill.
          assert (c <> o). { intros <-. rewrite O in X. assert (held c fs = 0) by lia. lia. }
          split; auto. apply r4. cbn [holds]. destruct (Nat.eqb_spec c o); [congruence|]. lia.
        * intros o H. apply alive_kill in H. destruct H as (M & H). specialize (r5 o H). pose proof (owners_kill _ _ _ o A) as X.
          rewrite sum_rev. cbn [holds] in r5. destruct (Nat.eqb_spec c o); [congruence|]. lia.
      + auto.
      + apply prot_step; auto.
      + auto.
      + pose proof (nlive_kill g c (ex_intro _ fs A)). lia.
      + rewrite E. cbn [bind]. exists (lset h' c Freed), g'. split; auto. split.
        * assert (Lc : c < length h').
          { rewrite (r_len _ _ _ _ R'), (steps_len _ _ S). unfold kill. cbn [gheap]. rewrite lset_length. eapply nth_lt; eauto. }
          assert (R2 : RepH (lset h' c Freed) g' pe (c :: D)).
          { apply RepH_dead; auto; [|cbn; auto]. intro X. apply Nc. eapply alive_steps; eauto. }
          apply (RepH_weak _ _ _ _ c); auto.
          -- destruct (nth_error (gheap g') c) eqn:Q; eauto. apply nth_error_None in Q. rewrite (r_len _ _ _ _ R') in Lc. lia.
          -- apply lset_nth_eq. auto.
        * split; auto. eapply s_step; eauto.
    - eexists. exists g. split; [reflexivity|]. split; [|split; [constructor|auto]].
      destruct R as [r1 r2 r3 r4 r5]. constructor.
      + rewrite lset_length. auto.
      + intros o fs' H. destruct (Nat.eq_dec c o) as [<-|M].
        * rewrite lset_nth_eq by (rewrite r1; eapply nth_lt; eauto). assert (fs' = fs) by congruence. subst fs'. do 2 f_equal. lia.
        * rewrite lset_nth_neq by auto. rewrite (r2 _ _ H). cbn [holds]. destruct (Nat.eqb_spec c o); [congruence|]. auto.
      + intros o H. rewrite lset_nth_neq; auto. intros <-. congruence.
      + intros o H. apply r4. lia.
      + intros o H. destruct (Nat.eq_dec c o) as [<-|M]; [lia|]. specialize (r5 o H). cbn [holds] in r5. destruct (Nat.eqb_spec c o); [congruence|]. auto.
  Qed.
End Rel.

(* ---- states ---- *)
Definition Rp (st : state) (g : graph) (z : nat -> Z) : Prop :=
  vars st = gvars g /\ length (heap st) = length (gheap g) /\
  forall o x, nth_error (gheap g) o = Some x ->
    nth_error (heap st) o = Some (match x with Some fs => Live (Z.of_nat (owners g o) + z o) fs | None => Freed end).
Lemma Rp_rep : forall st g, represents st g <-> Rp st g (fun _ => 0%Z).
Proof.
  intros st g. unfold represents, Rp, cell_of. split; intros (V & L & H); repeat split; auto; intros o x E; rewrite (H o x E);
    destruct x; auto; do 2 f_equal; lia.
Qed.
Lemma Rp_ext : forall st g z z', (forall o, z o = z' o) -> Rp st g z -> Rp st g z'.
Proof. intros st g z z' E (V & L & H). repeat split; auto. intros o x X. rewrite <- E. auto. Qed.
Lemma read_ok : forall st g z l p, Rp st g z -> gread g l = Some p -> read st l = Ok p.
Proof.
  intros st g z [v|o i] p (V & L & H) E; cbn in *.
  - rewrite V. destruct (nth_error (gvars g) v) as [[q|]|]; congruence.
  - destruct (nth_error (gheap g) o) as [[fs|]|] eqn:X; try discriminate. rewrite (H _ _ X), E. auto.
Qed.
Lemma write_ok : forall st g z l p0 p, Rp st g z -> gread g l = Some p0 ->
  exists st', write st l p = Ok st' /\ Rp st' (gwrite g l p) (fun o => z o + Z.of_nat (holds o p0) - Z.of_nat (holds o p))%Z.
Proof.
  intros st g z l p0 p (V & L & H) E. pose proof (fun o => owners_write g l p0 p o E) as W.
  destruct l as [v|c i]; cbn [write gread] in *.
  - destruct (nth_error (gvars g) v) as [[q|]|] eqn:X; try discriminate. rewrite V, X. eexists. split; [reflexivity|].
    cbn [gwrite]. split; [cbn; congruence|]. split; [auto|]. cbn [vars heap gvars gheap]. intros o x Y. rewrite (H _ _ Y). specialize (W o). cbn [gwrite] in W.
    destruct x; auto. do 2 f_equal. lia.
  - destruct (nth_error (gheap g) c) as [[fs|]|] eqn:X; try discriminate. rewrite (H _ _ X).
    pose proof (nth_lt _ _ _ E) as Li. apply Nat.ltb_lt in Li. rewrite Li. eexists. split; [reflexivity|].
    cbn [gwrite] in *. rewrite X in *. split; [auto|]. cbn [vars heap gvars gheap]. split; [rewrite !lset_length; auto|].
    intros o x Y. specialize (W o). destruct (Nat.eq_dec c o) as [<-|N].
    + rewrite lset_nth_eq in Y by (eapply nth_lt; eauto). injection Y as <-. rewrite lset_nth_eq by (rewrite L; eapply nth_lt; eauto). do 2 f_equal. lia.
    + rewrite lset_nth_neq in Y by auto. rewrite lset_nth_neq by auto. rewrite (H _ _ Y). destruct x; auto. do 2 f_equal. lia.
Qed.
Lemma steps_vars : forall a b, steps a b -> gvars b = gvars a.
Proof. induction 1 as [|a a1 b C S IH]; auto. destruct C. auto. Qed.
Lemma steps_read : forall a b, steps a b -> forall l, (match l with LFld o _ => alive b o | _ => True end) -> gread b l = gread a l.
Proof.
  intros a b S [v|o i] H; cbn [gread].
  - rewrite (steps_vars _ _ S). auto.
  - destruct H as (fs & H). rewrite H. assert (X : forall a b, steps a b -> nth_error (gheap b) o = Some (Some fs) -> nth_error (gheap a) o = Some (Some fs)).
    { clear. induction 1 as [|a a1 b C S IH]; auto. intro H. apply IH in H. destruct C as [c A O]. apply kill_field in H. tauto. }
    rewrite (X _ _ S H). auto.
Qed.

Lemma drop_ok : forall st g l p, Rp st g (fun _ => 0%Z) -> closed g -> settled g -> gread g l = Some p -> guarded (gwrite g l None) l ->
  exists st' g' c0, drop st l = Ok st' /\ collects (gwrite g l None) g' /\ closed g' /\ gread g' l = Some None /\
    Rp st' (gwrite g' l c0) (fun o => - Z.of_nat (holds o c0))%Z /\ (p <> None -> dec_refcount st l = Ok st').
Proof.
  intros st g l p R C Se E (P & HP & Hl). unfold drop. rewrite (read_ok _ _ _ _ _ R E). cbn [bind]. destruct p as [c|].
  2:{ exists st, g, None. pose proof (write_same _ _ _ E) as W. rewrite W. split; [auto|]. split; [apply collects_done; auto|].
      split; auto. split; auto. split; [eapply Rp_ext; [|exact R]; intro; cbn; lia|congruence]. }
  unfold dec_refcount. rewrite (read_ok _ _ _ _ _ R E). cbn [bind].
  pose proof (fun o => owners_write g l (Some c) None o E) as W.
  destruct R as (V & L & H).
  assert (RH : RepH l (Some c) (heap st) (gwrite g l None) (fun o => holds o (Some c) + 0) []).
  { constructor.
    - rewrite heap_write_length. auto.
    - intros o fs Hf. specialize (W o). cbn [holds] in W. unfold stale. destruct l as [v|a i]; cbn [gwrite gheap] in *.
      + rewrite (H _ _ Hf). do 2 f_equal. cbn [holds]. lia.
      + cbn [gread] in E. destruct (nth_error (gheap g) a) as [[fa|]|] eqn:Ea; try discriminate. cbn [gheap] in *.
        destruct (Nat.eqb_spec a o) as [<-|N].
        * rewrite lset_nth_eq in Hf by (eapply nth_lt; eauto). injection Hf as <-. rewrite (H _ _ Ea). rewrite lset_lset; rewrite (lset_same fa i (Some c)) by exact E.
          do 2 f_equal. cbn [holds]. lia.
        * rewrite lset_nth_neq in Hf by auto. rewrite (H _ _ Hf). do 2 f_equal. cbn [holds]. lia.
    - intros o Hf. assert (nth_error (gheap g) o = Some None).
      { destruct l as [v|a i]; cbn [gwrite gheap] in *; auto. destruct (nth_error (gheap g) a) as [[fa|]|] eqn:Ea; auto. cbn [gheap] in Hf.
        destruct (Nat.eq_dec a o) as [<-|N]; [rewrite lset_nth_eq in Hf by (eapply nth_lt; eauto); discriminate|rewrite lset_nth_neq in Hf by auto; auto]. }
      exists Freed. split; [exact (H _ _ H0)|split; cbn; auto].
    - intros o Ho. apply alive_write. apply C. specialize (W o). cbn [holds] in W. cbn [holds] in Ho. lia.
    - intros o Ho. assert (Ha : alive g o) by (apply (alive_write g l None); auto). specialize (Se _ Ha). specialize (W o). cbn [holds] in W. cbn [holds]. lia. }
  destruct (release_ok l (Some c) (S (length (heap st))) (heap st) _ (fun _ => 0) [] P c RH HP Hl) as (h' & g' & E1 & R1 & S1 & HP1).
  { assert (X : forall h : list (option (list (option nat))), list_sum (map (fun x => match x with Some _ => 1 | None => 0 end) h) <= length h).
    { unfold list_sum. induction h as [|[x|] h IH]; cbn; lia. }
    unfold nlive. specialize (X (gheap (gwrite g l None))). rewrite heap_write_length in X. rewrite L. lia. }
  rewrite E1. cbn [bind].
  assert (Al : match l with LFld o _ => alive g' o | _ => True end) by (destruct l; auto; apply HP1; auto).
  assert (G' : gread g' l = Some None) by (rewrite (steps_read _ _ S1 _ Al); eapply read_write_eq; eauto).
  assert (C' : closed g') by (intros o Ho; apply (r_closed _ _ _ _ _ _ R1); cbn beta; lia).
  assert (CC : collects (gwrite g l None) g').
  { apply steps_collects; auto. intros o Ho. pose proof (r_set _ _ _ _ _ _ R1 o Ho) as X; cbn beta in X. lia. }
  assert (Rs : Rp (mks (vars st) h') (gwrite g' l (Some c)) (fun o => - Z.of_nat (holds o (Some c)))%Z).
  { pose proof (fun o => owners_write g' l None (Some c) o G') as W'. destruct R1 as [r1 r2 r3 r4 r5]. cbn beta in *. split; [|split]; cbn [vars heap].
    - pose proof (steps_vars _ _ S1) as SV. destruct l as [v|a i]; cbn [gwrite gvars] in *.
      + rewrite SV, lset_lset. cbn in E. destruct (nth_error (gvars g) v) as [[q|]|] eqn:Q; try discriminate. rewrite lset_same by congruence. auto.
      + destruct (nth_error (gheap g') a) as [[fa|]|]; cbn [gvars]; destruct (nth_error (gheap g) a) as [[fb|]|]; cbn [gvars] in SV; congruence.
    - rewrite heap_write_length. auto.
    - intros o x X. specialize (W' o). cbn [holds] in W'. destruct l as [v|a i]; cbn [gwrite gheap] in *.
      + destruct x as [fs|].
        * rewrite (r2 _ _ X). do 2 f_equal. cbn [holds]. lia.
        * destruct (r3 _ X) as (y & Y & _ & F). rewrite F in Y by auto. auto.
      + destruct (nth_error (gheap g') a) as [[fa|]|] eqn:Ea; try (destruct Al; congruence). cbn [gheap] in *.
        destruct (Nat.eq_dec a o) as [<-|N].
        * rewrite lset_nth_eq in X by (eapply nth_lt; eauto). injection X as <-. rewrite (r2 _ _ Ea). unfold stale. rewrite Nat.eqb_refl. do 2 f_equal. cbn [holds]. lia.
        * rewrite lset_nth_neq in X by auto. destruct x as [fs|].
          -- rewrite (r2 _ _ X). unfold stale. destruct (Nat.eqb_spec a o); [congruence|]. do 2 f_equal. cbn [holds]. lia.
          -- destruct (r3 _ X) as (y & Y & _ & F). rewrite F in Y by auto. auto. }
  assert (Dflt : exists st' c0, (match nth_error h' c with Some Freed => write (mks (vars st) h') l None | _ => Ok (mks (vars st) h') end) = Ok st' /\
            Rp st' (gwrite g' l c0) (fun o => - Z.of_nat (holds o c0))%Z).
  { assert (GW : gread (gwrite g' l (Some c)) l = Some (Some c)) by (eapply read_write_eq; eauto).
    destruct (nth_error h' c) as [[| |]|] eqn:Q; try (exists (mks (vars st) h'), (Some c); auto; fail).
    destruct (write_ok _ _ _ _ _ None Rs GW) as (st2 & E2 & R2). exists st2, None. split; auto. rewrite write_write in R2.
    eapply Rp_ext; [|exact R2]. intro o. cbn [holds]. lia. }
  destruct Dflt as (st' & c0 & E2 & R2). exists st', g', c0. rewrite E2. auto 10.
Qed.

(* ---- operations ---- *)
Lemma loc_eqb_spec : forall a b, reflect (a = b) (loc_eqb a b).
Proof.
  intros [v|o i] [u|p j]; cbn; try (constructor; congruence).
  - destruct (Nat.eqb_spec v u); constructor; congruence.
  - destruct (Nat.eqb_spec o p), (Nat.eqb_spec i j); constructor; congruence.
Qed.
Lemma follow_ok : forall st g z is l l', Rp st g z -> gfollow g l is = Some l' -> follow st l is = Ok l'.
Proof.
  intros st g z. induction is as [|i is IH]; intros l l' R H; cbn in *; [congruence|].
  destruct (gread g l) as [[c|]|] eqn:E; try discriminate. rewrite (read_ok _ _ _ _ _ R E). cbn [bind]. auto.
Qed.
Lemma at_ok : forall st g z e l p, Rp st g z -> denotes g e l p -> at_ st e = Ok l.
Proof.
  intros st g z e l p R (F & E). unfold at_. rewrite (follow_ok _ _ _ _ _ _ R F). cbn [bind]. rewrite (read_ok _ _ _ _ _ R E). auto.
Qed.
Lemma inc_ok : forall st g p, Rp st g (fun o => - Z.of_nat (holds o p))%Z -> (forall c, p = Some c -> alive g c /\ (Z.of_nat (owners g c) < 2 ^ 31)%Z) ->
  exists st', inc st p = Ok st' /\ Rp st' g (fun _ => 0%Z).
Proof.
  intros st g [c|] R A.
  2:{ exists st. split; auto. }
  destruct (A c eq_refl) as ((fs & F) & B). destruct R as (V & L & H). cbn [inc]. rewrite (H _ _ F), holds_self.
  replace (Z.of_nat (owners g c) + - Z.of_nat 1 + 1)%Z with (Z.of_nat (owners g c)) by lia.
  assert (X : (Z.of_nat (owners g c) <? 2 ^ 31)%Z = true) by (apply Z.ltb_lt; auto). rewrite X. cbn [defined bind]. eexists. split; [reflexivity|].
  split; [auto|]. split; [cbn [heap]; rewrite lset_length; auto|]. cbn [heap]. intros o x Y. destruct (Nat.eq_dec c o) as [<-|N].
  - rewrite lset_nth_eq by (rewrite L; eapply nth_lt; eauto). rewrite F in Y. injection Y as <-. do 2 f_equal. lia.
  - rewrite lset_nth_neq by auto. rewrite (H _ _ Y). destruct x; auto. do 2 f_equal. cbn [holds]. destruct (Nat.eqb_spec c o); [congruence|lia].
Qed.

Definition addv (g : graph) (p : option nat) : graph := mkg (gvars g ++ [Some p]) (gheap g).
Lemma owners_addv : forall g p o, owners (addv g p) o = owners g o + holds o p.
Proof. intros. unfold owners, addv. cbn [gvars gheap]. rewrite map_app, list_sum_app. unfold list_sum at 2. cbn. lia. Qed.
Lemma read_addv : forall g p l q, gread g l = Some q -> gread (addv g p) l = Some q.
Proof.
  intros g p [v|o i] q E; cbn in *; auto. destruct (nth_error (gvars g) v) as [x|] eqn:X; try discriminate.
  rewrite nth_error_app1 by (eapply nth_lt; eauto). rewrite X. auto.
Qed.
Lemma write_addv : forall g p l q r, gread g l = Some r -> gwrite (addv g p) l q = addv (gwrite g l q) p.
Proof.
  intros g p [v|o i] q r E; cbn in *.
  - unfold addv. cbn. f_equal. destruct (nth_error (gvars g) v) as [x|] eqn:X; try discriminate. apply lset_app1. eapply nth_lt; eauto.
  - destruct (nth_error (gheap g) o) as [[fs|]|]; auto.
Qed.
Lemma Rp_addv : forall st g p, Rp st g (fun _ => 0%Z) -> Rp (add_var st p) (addv g p) (fun o => - Z.of_nat (holds o p))%Z.
Proof.
  intros st g p (V & L & H). split; [cbn; congruence|]. split; [auto|]. cbn [add_var heap]. intros o x X. rewrite owners_addv. cbn [addv gheap] in X.
  rewrite (H _ _ X). destruct x; auto. do 2 f_equal. lia.
Qed.

Definition Good (st : state) (g : graph) : Prop := Rp st g (fun _ => 0%Z) /\ closed g /\ settled g.
Lemma closed_len : forall g o, closed g -> owners g o <> 0 -> o < length (gheap g).
Proof. intros g o C H. destruct (C _ H) as (fs & F). eapply nth_lt; eauto. Qed.
Lemma collects_settled : forall a b, collects a b -> settled b.
Proof. intros a b C. apply collects_steps in C. tauto. Qed.

Lemma good_addv : forall st g p, Rp st (addv g p) (fun _ => 0%Z) -> closed g -> settled g -> (forall c, p = Some c -> alive g c) -> Good st (addv g p).
Proof.
  intros st g p R C S A. split; auto. split.
  - intros o H. rewrite owners_addv in H. destruct (Nat.eq_dec (owners g o) 0) as [Z|N].
    + assert (P : holds o p <> 0) by lia. apply holds_pos in P. destruct (A _ P) as (fs & F). exists fs. auto.
    + destruct (C _ N) as (fs & F). exists fs. auto.
  - intros o (fs & H). rewrite owners_addv. assert (X : alive g o) by (exists fs; auto). specialize (S _ X). lia.
Qed.

Lemma reset_good : forall st g l p g', Good st g -> gread g l = Some p -> guarded (gwrite g l None) l -> collects (gwrite g l None) g' ->
  exists st1 st', drop st l = Ok st1 /\ (p <> None -> dec_refcount st l = Ok st1) /\ write st1 l None = Ok st' /\ Good st' g' /\
    exists c0, Rp st1 (gwrite g' l c0) (fun o => - Z.of_nat (holds o c0))%Z /\ gread g' l = Some None.
Proof.
  intros st g l p g' (R & C & S) E G K. destruct (drop_ok _ _ _ _ R C S E G) as (st1 & g1 & c0 & D & K1 & C1 & E1 & R1 & D2).
  pose proof (collects_unique _ _ K _ K1); subst g1. assert (E2 : gread (gwrite g' l c0) l = Some c0) by (eapply read_write_eq; eauto).
  destruct (write_ok _ _ _ _ _ None R1 E2) as (st' & W & R2). exists st1, st'. split; auto. split; auto. split; auto. split; eauto.
  rewrite write_write, (write_same _ _ _ E1) in R2. split; [|split; auto; eapply collects_settled; eauto].
  eapply Rp_ext; [|exact R2]. intro o. cbn [holds]. lia.
Qed.

Lemma survive_read : forall g l r q g', gread g r = Some q -> l <> r -> collects (gwrite g l None) g' -> survives g l r -> gread g' r = Some q.
Proof.
  intros g l r q g' E N K (g1 & K1 & X). pose proof (collects_unique _ _ K _ K1); subst g1. destruct (gread g' r) as [q'|] eqn:Y; [|congruence].
  apply collects_steps in K. destruct K as (K & _). apply (read_steps _ _ K) in Y. rewrite read_write_neq in Y by auto. congruence.
Qed.

Lemma copy_collects : forall g l r q g', gread g' l = Some None -> gread g' r = Some q -> collects (gwrite g l None) g' ->
  collects (gwrite g l q) (gwrite g' l q).
Proof.
  intros g l r q g' E F K. rewrite <- (write_write g l None q).
  apply (collects_map (fun a => gwrite a l q) (fun a => gread a l = Some None /\ gread a r = Some q)); auto.
  - intros a (A1 & A2) S o A. apply (proj1 (alive_write _ _ _ _)) in A. specialize (S _ A). pose proof (owners_write a l None q o A1) as W. cbn [holds] in W. lia.
  - intros a o (A1 & A2) A O. apply read_kill in A1. apply read_kill in A2. destruct A1 as (A1 & B1), A2 as (A2 & B2).
    split; auto. split; [apply alive_write; auto|]. split.
    + pose proof (owners_write a l None q o A1) as W. cbn [holds] in W. assert (holds o q = 0); [|lia].
      destruct (Nat.eq_dec (holds o q) 0) as [|X]; auto. apply holds_pos in X. subst q. apply read_owner in A2. lia.
    + rewrite write_kill; auto.
Qed.
Lemma move_collects : forall g l r q g', l <> r -> gread g' l = Some None -> gread g' r = Some q -> collects (gwrite g l None) g' ->
  collects (gwrite (gwrite g r None) l q) (gwrite (gwrite g' r None) l q).
Proof.
  intros g l r q g' N E F K. replace (gwrite (gwrite g r None) l q) with (gwrite (gwrite (gwrite g l None) r None) l q).
  2:{ rewrite (write_swap g l r) by auto. apply write_write. }
  assert (W : forall a o, gread a l = Some None -> gread a r = Some q -> owners (gwrite (gwrite a r None) l q) o = owners a o).
  { intros a o A1 A2. pose proof (owners_write a r q None o A2) as W1.
    assert (A3 : gread (gwrite a r None) l = Some None) by (rewrite read_write_neq; auto).
    pose proof (owners_write _ l None q o A3) as W2. cbn [holds] in *. lia. }
  apply (collects_map (fun a => gwrite (gwrite a r None) l q) (fun a => gread a l = Some None /\ gread a r = Some q)); auto.
  - intros a (A1 & A2) S o A. rewrite W by auto. apply S. apply (proj1 (alive_write _ _ _ _)) in A. apply (proj1 (alive_write _ _ _ _)) in A. auto.
  - intros a o (A1 & A2) A O. apply read_kill in A1. apply read_kill in A2. destruct A1 as (A1 & B1), A2 as (A2 & B2).
    split; auto. split; [apply alive_write, alive_write; auto|]. split; [rewrite W; auto|]. rewrite !write_kill; auto.
Qed.
Definition endv (g : graph) (v : nat) : graph := mkg (lset (gvars g) v None) (gheap g).
Lemma owners_endv : forall g v o, gread g (LVar v) = Some None -> owners (endv g v) o = owners g o.
Proof.
  intros g v o E. cbn in E. destruct (nth_error (gvars g) v) as [[p|]|] eqn:X; try discriminate. injection E as ->.
  unfold owners, endv. cbn [gvars gheap]. pose proof (sum_lset (fun v => match v with Some p => holds o p | None => 0 end) _ _ _ None X) as Y. cbn [holds] in Y. lia.
Qed.
Lemma end_collects : forall g v g', gread g' (LVar v) = Some None -> collects (gwrite g (LVar v) None) g' -> collects (endv g v) (endv g' v).
Proof.
  intros g v g' E K. replace (endv g v) with (endv (gwrite g (LVar v) None) v) by (unfold endv; cbn; rewrite lset_lset; auto).
  apply (collects_map (fun a => endv a v) (fun a => gread a (LVar v) = Some None)); auto.
  - intros a A S o H. rewrite owners_endv by auto. apply S. exact H.
  - intros a o A H O. split; [exact A|]. split; [exact H|]. split; [rewrite owners_endv; auto|reflexivity].
Qed.

Lemma step_ok : forall st g o g' r, Good st g -> ideal survives g o g' r -> exists st', step st o = Ok (st', r) /\ Good st' g'.
Proof.
  intros st g o g' r G I. pose proof G as (R & C & S). destruct I.
  - eexists. split; [reflexivity|]. apply good_addv; auto; [|congruence]. eapply Rp_ext; [|apply Rp_addv; exact R]. intro; cbn; lia.
  - eexists. split; [reflexivity|].
    assert (O0 : owners g (length (gheap g)) = 0).
    { destruct (Nat.eq_dec (owners g (length (gheap g))) 0); auto. exfalso. pose proof (closed_len _ _ C n0). lia. }
    assert (OW : forall o, owners (mkg (gvars g ++ [Some (Some (length (gheap g)))]) (gheap g ++ [Some (repeat None n)])) o = owners g o + holds o (Some (length (gheap g)))).
    { intro o. unfold owners. cbn [gvars gheap]. rewrite !map_app, !list_sum_app. unfold list_sum at 2 4. cbn [map fold_right]. rewrite held_repeat. lia. }
    destruct R as (V & L & H). split; [|split].
    + split; [cbn; congruence|]. split; [cbn; rewrite !app_length; cbn; lia|]. cbn [make heap]. intros o x X. rewrite OW.
      cbn [gheap] in X. destruct (lt_eq_lt_dec o (length (gheap g))) as [[Y| ->]|Y].
      * rewrite nth_error_app1 in X by auto. rewrite nth_error_app1 by lia. rewrite (H _ _ X). destruct x; auto. do 2 f_equal. cbn [holds].
        destruct (Nat.eqb_spec (length (gheap g)) o); lia.
      * rewrite nth_error_app2, Nat.sub_diag in X by lia. injection X as <-. rewrite nth_error_app2 by lia. rewrite L, Nat.sub_diag. cbn [nth_error].
        rewrite O0, holds_self. auto.
      * apply nth_lt in X. rewrite app_length in X. cbn in X. lia.
    + intros o X. rewrite OW in X. unfold alive. cbn [gheap]. destruct (Nat.eq_dec (length (gheap g)) o) as [<-|N].
      * exists (repeat None n). rewrite nth_error_app2, Nat.sub_diag by lia. auto.
      * cbn [holds] in X. destruct (Nat.eqb_spec (length (gheap g)) o); [congruence|]. destruct (C o) as (fs & F); [lia|]. exists fs.
        rewrite nth_error_app1; auto. eapply nth_lt; eauto.
    + intros o (fs & X). cbn [gheap] in X. rewrite OW. destruct (lt_eq_lt_dec o (length (gheap g))) as [[Y| ->]|Y].
      * rewrite nth_error_app1 in X by auto. assert (A : alive g o) by (exists fs; auto). specialize (S _ A). lia.
      * rewrite holds_self. lia.
      * apply nth_lt in X. rewrite app_length in X. cbn in X. lia.
  - subst g1. destruct H as (F & E). assert (DD : denotes g e l p) by (split; auto). cbn [step]. rewrite (at_ok _ _ _ _ _ _ R DD). cbn [bind]. unfold new_move.
    rewrite (read_ok _ _ _ _ _ R E). cbn [bind]. pose proof (Rp_addv _ _ p R) as R1. pose proof (read_addv _ p _ _ E) as E1.
    destruct (write_ok _ _ _ _ _ None R1 E1) as (st' & W & R2). rewrite W. cbn [unit_ bind]. exists st'. split; auto.
    assert (X : forall o, owners (addv (gwrite g l None) p) o = owners g o).
    { intro o. rewrite owners_addv. pose proof (owners_write g l p None o E). cbn [holds] in *. lia. }
    rewrite (write_addv _ _ _ _ _ E) in R2. split; [eapply Rp_ext; [|exact R2]; intro; cbn [holds]; lia|]. split.
    + intros o O. fold (addv (gwrite g l None) p) in O. rewrite X in O. apply (alive_write g l None) . auto.
    + intros o A. fold (addv (gwrite g l None) p). rewrite X. apply S. apply (alive_write g l None). exact A.
  - pose proof H as (F & E). cbn [step]. rewrite (at_ok _ _ _ _ _ _ R H). cbn [bind]. unfold new_copy.
    rewrite (read_ok _ _ _ _ _ R E). cbn [bind]. pose proof (Rp_addv _ _ p R) as R1.
    assert (Al : forall c, p = Some c -> alive g c) by (intros c ->; apply C; eapply read_owner; eauto).
    destruct (inc_ok _ _ _ R1) as (st' & I & R2).
    { intros c ->. split; [exact (Al c eq_refl)|]. rewrite owners_addv, holds_self. cbn in H0. lia. }
    rewrite I. exists st'. split; auto. apply good_addv; auto.
  - pose proof H as (F & E). pose proof H0 as (F0 & E0). cbn [step]. rewrite (at_ok _ _ _ _ _ _ R H0), (at_ok _ _ _ _ _ _ R H). cbn [bind]. unfold move_assign.
    destruct H2 as (gs & K & X).
    destruct (reset_good _ _ _ _ _ G E (guard_denotes _ _ _ _ C H) K) as (st1 & _ & D & _ & _ & (_ & C1 & S1) & c0 & R1 & E1).
    pose proof (survive_read _ _ _ _ _ E0 H1 K (ex_intro _ gs (conj K X))) as E2.
    rewrite D. cbn [bind]. assert (E3 : gread (gwrite gs l c0) r = Some q) by (rewrite read_write_neq; auto).
    rewrite (read_ok _ _ _ _ _ R1 E3). cbn [bind].
    assert (E4 : gread (gwrite gs l c0) l = Some c0) by (eapply read_write_eq; eauto).
    destruct (write_ok _ _ _ _ _ q R1 E4) as (st2 & W2 & R2). rewrite write_write in R2. rewrite W2. cbn [bind].
    assert (E5 : gread (gwrite gs l q) r = Some q) by (rewrite read_write_neq; auto).
    destruct (write_ok _ _ _ _ _ None R2 E5) as (st3 & W3 & R3). rewrite W3. cbn [unit_ bind]. exists st3. split; auto.
    rewrite (write_swap gs l r) in R3 by auto. pose proof (move_collects _ _ _ _ _ H1 E1 E2 K) as K2.
    pose proof (collects_unique _ _ H3 _ K2); subst g'. split; [eapply Rp_ext; [|exact R3]; intro; cbn [holds]; lia|].
    split; [|eapply collects_settled; eauto]. intros o O. apply alive_write, alive_write, C1.
    pose proof (owners_write gs r q None o E2) as W4. assert (A3 : gread (gwrite gs r None) l = Some None) by (rewrite read_write_neq; auto).
    pose proof (owners_write _ l None q o A3) as W5. cbn [holds] in *. lia.
  - pose proof H as (F & E). cbn [step]. rewrite (at_ok _ _ _ _ _ _ R H0), (at_ok _ _ _ _ _ _ R H). cbn [bind]. unfold move_assign.
    destruct (reset_good _ _ _ _ _ G E (guard_denotes _ _ _ _ C H) H1) as (st1 & _ & D & _ & _ & (_ & C1 & S1) & c0 & R1 & E1).
    rewrite D. cbn [bind]. assert (E4 : gread (gwrite g' l c0) l = Some c0) by (eapply read_write_eq; eauto).
    rewrite (read_ok _ _ _ _ _ R1 E4). cbn [bind].
    destruct (write_ok _ _ _ _ _ c0 R1 E4) as (st2 & W2 & R2). rewrite write_write in R2. rewrite W2. cbn [bind].
    destruct (write_ok _ _ _ _ _ None R2 E4) as (st3 & W3 & R3). rewrite W3. cbn [unit_ bind]. exists st3. split; auto.
    rewrite write_write, (write_same _ _ _ E1) in R3. split; auto. eapply Rp_ext; [|exact R3]. intro; cbn [holds]; lia.
  - pose proof H as (F & E). pose proof H0 as (F0 & E0). cbn [step]. rewrite (at_ok _ _ _ _ _ _ R H0), (at_ok _ _ _ _ _ _ R H). cbn [bind]. unfold copy_assign.
    destruct (loc_eqb_spec l r); [congruence|]. destruct H2 as (gs & K & X).
    destruct (reset_good _ _ _ _ _ G E (guard_denotes _ _ _ _ C H) K) as (st1 & _ & D & _ & _ & (_ & C1 & S1) & c0 & R1 & E1).
    pose proof (survive_read _ _ _ _ _ E0 H1 K (ex_intro _ gs (conj K X))) as E2.
    rewrite D. cbn [bind]. assert (E3 : gread (gwrite gs l c0) r = Some q) by (rewrite read_write_neq; auto).
    rewrite (read_ok _ _ _ _ _ R1 E3). cbn [bind].
    assert (E4 : gread (gwrite gs l c0) l = Some c0) by (eapply read_write_eq; eauto).
    destruct (write_ok _ _ _ _ _ q R1 E4) as (st2 & W2 & R2). rewrite write_write in R2. rewrite W2. cbn [bind].
    pose proof (copy_collects _ _ _ _ _ E1 E2 K) as K2. pose proof (collects_unique _ _ H4 _ K2); subst g'.
    assert (W4 : forall o, owners (gwrite gs l q) o = owners gs o + holds o q).
    { intro o. pose proof (owners_write gs l None q o E1) as W4. cbn [holds] in *. lia. }
    destruct (inc_ok st2 (gwrite gs l q) q) as (st3 & I & R3).
    { eapply Rp_ext; [|exact R2]. intro; cbn [holds]; lia. }
    { intros c ->. split; [apply alive_write, C1; eapply read_owner; eauto|]. rewrite W4, holds_self. cbn in H3.
      apply collects_steps in K. destruct K as (K & _). pose proof (owners_steps _ _ K c). pose proof (owners_write g l p None c E) as W5. cbn [holds] in W5. lia. }
    rewrite I. cbn [unit_ bind]. exists st3. split; auto. split; auto. split; [|eapply collects_settled; eauto].
    intros o O. apply alive_write, C1. rewrite W4 in O. destruct (Nat.eq_dec (holds o q) 0) as [Z|Z]; [lia|].
    apply holds_pos in Z. subst q. eapply read_owner; eauto.
  - cbn [step]. rewrite (at_ok _ _ _ _ _ _ R H0), (at_ok _ _ _ _ _ _ R H). cbn [bind]. unfold copy_assign.
    destruct (loc_eqb_spec l l); [|congruence]. exists st. auto.
  - pose proof H as (F & E). cbn [step]. rewrite (at_ok _ _ _ _ _ _ R H). cbn [bind]. unfold reset. rewrite (read_ok _ _ _ _ _ R E). cbn [bind].
    destruct (reset_good _ _ _ _ _ G E (guard_denotes _ _ _ _ C H) H0) as (st1 & st' & D & D2 & W & G' & _). destruct p as [c|].
    + rewrite D2 by discriminate. cbn [bind]. rewrite W. exists st'. auto.
    + exists st. split; auto. rewrite (write_same _ _ _ E) in H0. pose proof (collects_unique _ _ H0 _ (collects_done _ S)). subst. auto.
  - pose proof H as (F & E). cbn [step]. rewrite (at_ok _ _ _ _ _ _ R H). cbn [bind]. unfold set_null.
    destruct (reset_good _ _ _ _ _ G E (guard_denotes _ _ _ _ C H) H0) as (st1 & st' & D & D2 & W & G' & _).
    rewrite D. cbn [bind]. rewrite W. exists st'. auto.
  - cbn [step]. unfold destroy. destruct (drop_ok _ _ _ _ R C S H) as (st1 & gs & c0 & D & K & C1 & E1 & R1 & _).
    { exists (fun _ => False). split; auto. intros x []. }
    rewrite D. cbn [bind unit_]. pose proof (end_collects _ _ _ E1 K) as K2. pose proof (collects_unique _ _ H0 _ K2); subst g'.
    eexists. split; [reflexivity|]. destruct R1 as (V & L & HH). split; [|split].
    + split; [cbn [vars endv gvars]; rewrite V; cbn [gwrite gvars]; apply lset_lset|]. split; [auto|]. cbn [heap endv gheap]. intros o x X. fold (endv gs v).
      rewrite (owners_endv _ _ _ E1). rewrite (HH _ _ X). destruct x; auto. do 2 f_equal. pose proof (owners_write gs (LVar v) None c0 o E1) as W. cbn [holds] in *. lia.
    + intros o O. rewrite owners_endv in O by auto. exact (C1 _ O).
    + eapply collects_settled; eauto.
  - pose proof H as (F & E). cbn [step]. rewrite (at_ok _ _ _ _ _ _ R H). cbn [bind]. unfold refcount. rewrite (read_ok _ _ _ _ _ R E). cbn [bind].
    exists st. split; auto. destruct p as [c|]; auto. destruct (C c) as (fs & A); [eapply read_owner; eauto|]. destruct R as (V & L & HH). rewrite (HH _ _ A). cbn [bind count]. do 3 f_equal. lia.
  - pose proof H as (F & E). cbn [step]. rewrite (at_ok _ _ _ _ _ _ R H). cbn [bind]. unfold refcount. rewrite (read_ok _ _ _ _ _ R E). cbn [bind].
    exists st. split; auto. destruct p as [c|]; auto. destruct (C c) as (fs & A); [eapply read_owner; eauto|]. destruct R as (V & L & HH). rewrite (HH _ _ A). cbn [bind count]. do 4 f_equal. lia.
  - pose proof H as (F & E). cbn [step]. rewrite (at_ok _ _ _ _ _ _ R H). cbn [bind]. rewrite (read_ok _ _ _ _ _ R E). cbn [bind].
    exists st. split; auto. destruct p; auto.
  - pose proof H as (F & E). pose proof H0 as (F0 & E0). cbn [step]. rewrite (at_ok _ _ _ _ _ _ R H), (at_ok _ _ _ _ _ _ R H0). cbn [bind].
    rewrite (read_ok _ _ _ _ _ R E), (read_ok _ _ _ _ _ R E0). cbn [bind]. exists st. split; auto. destruct (ptr_eqb p q); auto.
Qed.
Lemma run_ok : forall os st g g' rs, Good st g -> ideal_run survives g os g' rs -> exists st', run st os = Ok (st', rs) /\ Good st' g'.
Proof.
  induction os as [|o os IH]; intros st g g' rs G I; inversion I; subst; clear I.
  - exists st. auto.
  - match goal with H : ideal _ _ _ _ _ |- _ => destruct (step_ok _ _ _ _ _ G H) as (st1 & E & G1) end.
    match goal with H : ideal_run _ _ _ _ _ |- _ => destruct (IH _ _ _ _ G1 H) as (st2 & E2 & G2) end.
    exists st2. cbn [run]. rewrite E. cbn [bind fst snd]. rewrite E2. auto.
Qed.
Lemma good_empty : Good (mks [] []) no_graph.
Proof.
  split; [|split].
  - split; auto. split; auto. intros [|o] x H; discriminate.
  - intros o H. exfalso. apply H. reflexivity.
  - intros [|o] (fs & H); discriminate.
Qed.

Lemma collects_total : forall g, exists g', collects g g'.
Proof.
  assert (X : forall n g, nlive g = n -> exists g', collects g g').
  { induction n as [|n IH]; intros g H.
    - exists g. apply collects_done. intros o A. apply nlive_kill in A. lia.
    - assert (D : settled g \/ exists o, alive g o /\ owners g o = 0).
      { destruct (existsb (fun o => match nth_error (gheap g) o with Some (Some _) => owners g o =? 0 | _ => false end) (seq 0 (length (gheap g)))) eqn:Q.
        - right. apply existsb_exists in Q. destruct Q as (o & _ & Q). destruct (nth_error (gheap g) o) as [[fs|]|] eqn:F; try discriminate.
          apply Nat.eqb_eq in Q. exists o. split; auto. exists fs. auto.
        - left. intros o (fs & F) Z. assert (T : existsb (fun o => match nth_error (gheap g) o with Some (Some _) => owners g o =? 0 | _ => false end) (seq 0 (length (gheap g))) = true).
          { apply existsb_exists. exists o. split; [apply in_seq; split; [lia|]; eapply nth_lt; eauto|]. rewrite F, Z. auto. }
          congruence. }
      destruct D as [S|(o & A & Z)]; [exists g; apply collects_done; auto|].
      destruct (IH (kill g o)) as (g' & K); [apply nlive_kill in A; lia|]. exists g'. eapply collects_step; [apply collect1_intro; eauto|]. exact K. }
  intro g. exact (X _ g eq_refl).
Qed.

(* what happens when the right hand side does not survive *)
Lemma lost_read : forall g l r q g' c0 st z, gread g r = Some q -> l <> r -> collects (gwrite g l None) g' -> ~ survives g l r ->
  Rp st (gwrite g' l c0) z -> read st r = UB.
Proof.
  intros g l r q g' c0 st z E N K X (V & L & H).
  assert (E0 : gread (gwrite g l None) r = Some q) by (rewrite read_write_neq; auto).
  assert (Y : gread g' r = None) by (destruct (gread g' r) eqn:Y; auto; exfalso; apply X; exists g'; split; auto; congruence).
  apply collects_steps in K. destruct K as (K & _).
  destruct r as [v|o i].
  - rewrite (steps_read _ _ K) in Y by exact Logic.I. congruence.
  - assert (D : ~ alive g' o) by (intro A; rewrite (steps_read _ _ K) in Y by exact A; congruence).
    assert (LT : o < length (gheap g')).
    { cbn in E. destruct (nth_error (gheap g) o) as [x|] eqn:W; try discriminate. rewrite (steps_len _ _ K), heap_write_length. eapply nth_lt; eauto. }
    cbn [read]. destruct (nth_error (gheap g') o) as [[fs|]|] eqn:W; [exfalso; apply D; exists fs; auto| |apply nth_error_None in W; lia].
    assert (W1 : nth_error (gheap (gwrite g' l c0)) o = Some None).
    { destruct l as [v|a j]; cbn [gwrite gheap]; auto. destruct (nth_error (gheap g') a) as [[fa|]|] eqn:Q; auto. cbn [gheap].
      rewrite lset_nth_neq; auto. intros ->. congruence. }
    rewrite (H _ _ W1). auto.
Qed.
Lemma lost_ub : forall st g e f l r p q, Good st g -> denotes g e l p -> denotes g f r q -> l <> r -> ~ survives g l r ->
  step st (MoveAssign e f) = UB /\ step st (CopyAssign e f) = UB.
Proof.
  intros st g e f l r p q G De Df N X. pose proof G as (R & C & S). cbn [step]. rewrite (at_ok _ _ _ _ _ _ R De), (at_ok _ _ _ _ _ _ R Df). cbn [bind].
  unfold move_assign, copy_assign. destruct (loc_eqb_spec l r); [congruence|].
  destruct (drop_ok _ _ _ _ R C S (proj2 De) (guard_denotes _ _ _ _ C De)) as (st1 & g1 & c0 & D & K & _ & _ & R1 & _).
  rewrite D. cbn [bind]. rewrite (lost_read _ _ _ _ _ _ _ _ (proj2 Df) N K X R1). auto.
Qed.
Lemma run_app : forall os st os' st' rs, run st os = Ok (st', rs) ->
  run st (os ++ os') = (let! y := run st' os' in Ok (fst y, rs ++ snd y)).
Proof.
  induction os as [|o os IH]; intros st os' st' rs H; cbn in *.
  - injection H as <- <-. destruct (run st os') as [[s t]| | |]; auto.
  - destruct (step st o) as [[s1 r1]| | |]; try discriminate. cbn [bind fst snd] in *.
    destruct (run s1 os) as [[s2 r2]| | |] eqn:E; try discriminate. cbn [bind fst snd] in H. injection H as <- <-.
    rewrite (IH _ os' _ _ E). destruct (run s2 os') as [[s t]| | |]; auto.
Qed.

(* collecting by computation, for examples *)
Fixpoint gc (n : nat) (g : graph) : graph :=
  match n with
  | O => g
  | S n => match find (fun o => match nth_error (gheap g) o with Some (Some _) => owners g o =? 0 | _ => false end) (seq 0 (length (gheap g))) with
           | Some o => gc n (kill g o)
           | None => g
           end
  end.
Definition settledb (g : graph) : bool :=
  forallb (fun o => match nth_error (gheap g) o with Some (Some _) => negb (owners g o =? 0) | _ => true end) (seq 0 (length (gheap g))).
Lemma gc_collects : forall n g, settledb (gc n g) = true -> collects g (gc n g).
Proof.
  assert (S1 : forall g, settledb g = true -> settled g).
  { intros g H o (fs & F) Z. unfold settledb in H. rewrite forallb_forall in H.
    assert (X : In o (seq 0 (length (gheap g)))) by (apply in_seq; split; [lia|]; eapply nth_lt; eauto).
    specialize (H _ X). rewrite F, Z in H. discriminate. }
  induction n as [|n IH]; intros g H; cbn [gc] in *; [apply collects_done, S1; auto|].
  destruct (find _ _) as [o|] eqn:F; [|apply collects_done, S1; auto].
  apply find_some in F. destruct F as (_ & F). destruct (nth_error (gheap g) o) as [[fs|]|] eqn:E; try discriminate. apply Nat.eqb_eq in F.
  eapply collects_step; [apply collect1_intro with (o := o); auto; exists fs; auto|]. apply IH. auto.
Qed.

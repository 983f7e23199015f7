From Coq Require Import NArith ZArith List Bool Arith Lia Permutation.
From Verif Require Import Base HashModel SetModel SetSpec BucketProofs SetProofs KeysModel.
From Verif Require MapModel.
Import ListNotations.
Open Scope N_scope.

Lemma list_eq_refl : forall {A} (eq : A -> A -> bool), (forall x, eq x x = true) -> forall l, list_eq eq l l = true.
Proof. intros A eq R. induction l as [|x l IH]; cbn; [reflexivity|]. rewrite R, IH. reflexivity. Qed.
Lemma list_eq_sym : forall {A} (eq : A -> A -> bool), (forall x y, eq x y = true -> eq y x = true) -> forall a b, list_eq eq a b = true -> list_eq eq b a = true.
Proof. intros A eq R. induction a as [|x a IH]; intros [|y b] H; cbn in *; try discriminate; auto. apply andb_prop in H as [H1 H2]. rewrite (R _ _ H1), (IH _ H2). reflexivity. Qed.
Lemma list_eq_trans : forall {A} (eq : A -> A -> bool), (forall x y z, eq x y = true -> eq y z = true -> eq x z = true) ->
  forall a b c, list_eq eq a b = true -> list_eq eq b c = true -> list_eq eq a c = true.
Proof.
  intros A eq R. induction a as [|x a IH]; intros [|y b] [|z c] H K; cbn in *; try discriminate; auto.
  apply andb_prop in H as [H1 H2]. apply andb_prop in K as [K1 K2]. rewrite (R _ _ _ H1 K1), (IH _ _ H2 K2). reflexivity.
Qed.
Lemma list_eqb_eq : forall a b, list_eq N.eqb a b = true -> a = b.
Proof. induction a as [|x a IH]; intros [|y b] H; cbn in *; try discriminate; auto. apply andb_prop in H as [H1 H2]. apply N.eqb_eq in H1. f_equal; auto. Qed.
Lemma hash_seq_eq : forall {A} (eq : A -> A -> bool) (h : A -> N), (forall x y, eq x y = true -> h x = h y) ->
  forall a b, list_eq eq a b = true -> hash_seq h a = hash_seq h b.
Proof.
  intros A eq h R a. unfold hash_seq. generalize 0 as r. induction a as [|x a IH]; intros r [|y b] H; cbn in *; try discriminate; auto.
  apply andb_prop in H as [H1 H2]. rewrite (R _ _ H1). apply IH. exact H2.
Qed.

(* Sets with another comparison *)
Section Mixed.
Context {T U : Type} (hash : T -> N) (eqb : T -> T -> bool) (conv : U -> T) (eq2 : T -> U -> bool).
Hypothesis EH : equiv_hash eqb hash.
Lemma contains2_spec : forall s l u, rep hash eqb s l -> (forall e, eq2 e u = true -> hash e = hash (conv u)) ->
  contains2 hash conv eq2 s u = Ok (existsb (fun e => eq2 e u) l).
Proof.
  intros s l u R H. unfold contains2, contains. pose proof R as [O [D Z]]. rewrite Z. destruct l as [|e l]; [reflexivity|].
  destruct (N.eqb_spec (N.of_nat (length (e :: l))) 0); [cbn [length] in *; lia|]. pose proof (rep_nonempty hash eqb _ _ _ R) as NE.
  rewrite (get_location_Ok hash) by auto. cbn [bind]. rewrite Nat2N.id. destruct (bucket_get hash (entries s) (conv u) NE) as [b E].
  rewrite (proj2 (aget_Ok _ _ _) E). cbn [bind]. f_equal. destruct O as [P L]. rewrite <- (existsb_perm _ _ _ _ P). eapply exists_bucket; eauto.
  intros x Hx. unfold loc. rewrite (H x Hx). reflexivity.
Qed.
Lemma remove_loop_ext : forall (p q : T -> T -> bool) v w l rest prev i, (forall e, In e rest -> p e v = q e w) ->
  remove_loop p l prev i rest v = remove_loop q l prev i rest w.
Proof. intros p q v w l. induction rest as [|e rest IH]; intros prev i H; cbn; [reflexivity|]. rewrite (H e (or_introl eq_refl)). destruct (q e w); [reflexivity|]. apply IH. intros x J. apply H. right. exact J. Qed.
Lemma remove_ext : forall (p q : T -> T -> bool) s v w, hash v = hash w -> (forall e, In e (concat (entries s)) -> p e v = q e w) ->
  remove hash p s v = remove hash q s w.
Proof.
  intros p q s v w Hh H. unfold remove. destruct (ssize s =? 0); [reflexivity|]. unfold get_location. rewrite Hh. destruct (contract _); cbn [bind]; auto.
  destruct (aget (entries s) _) as [l| | |] eqn:E; cbn [bind]; auto. apply aget_Ok in E.
  assert (forall e, In e l -> p e v = q e w) as Hl. { intros e J. apply H. apply in_concat. exists l. split; [exact (nth_error_In _ _ E)|exact J]. }
  destruct l as [|e l]; [reflexivity|]. rewrite (Hl e (or_introl eq_refl)). destruct (q e w); [reflexivity|]. rewrite (remove_loop_ext p q v w (e :: l) (e :: l) 0%nat 0%nat Hl). reflexivity.
Qed.
Lemma remove2_none : forall s l u, rep hash eqb s l -> existsb (fun e => eq2 e u) l = false -> remove2 hash conv eq2 s u = Ok (s, false).
Proof.
  intros s l u R H. unfold remove2, remove. pose proof R as [O [D Z]]. rewrite Z. destruct l as [|e0 l]; [reflexivity|].
  destruct (N.eqb_spec (N.of_nat (length (e0 :: l))) 0); [cbn [length] in *; lia|]. pose proof (rep_nonempty hash eqb _ _ _ R) as NE.
  rewrite (get_location_Ok hash) by auto. cbn [bind]. rewrite Nat2N.id. destruct (bucket_get hash (entries s) (conv u) NE) as [b E].
  rewrite (proj2 (aget_Ok _ _ _) E). cbn [bind]. destruct O as [P L].
  assert (forall e, In e b -> eq2 e u = false) as Hb.
  { intros e J. destruct (eq2 e u) eqn:X; [|reflexivity]. rewrite <- H. symmetry. apply existsb_exists. exists e. split; [|exact X]. apply (Permutation_in e P). apply in_concat. exists b. split; [exact (nth_error_In _ _ E)|exact J]. }
  assert (forall rest prev i, (forall e, In e rest -> eq2 e u = false) -> remove_loop (fun e _ => eq2 e u) b prev i rest (conv u) = Ok (b, false)) as Rl.
  { induction rest as [|e rest IH]; intros prev i He; cbn; [reflexivity|]. rewrite (He e (or_introl eq_refl)). apply IH. intros x J. apply He. right. exact J. }
  destruct b as [|e b]; [reflexivity|]. rewrite (Hb e (or_introl eq_refl)). rewrite (Rl (e :: b) 0%nat 0%nat Hb). reflexivity.
Qed.
End Mixed.
Lemma ideal_run_forall : forall {T} (eqb : T -> T -> bool) (P : T -> Prop) os l l' bs, ideal_run eqb l os = Some (l', bs) -> Forall P l ->
  (forall v, In (Add v) os -> P v) -> Forall P l'.
Proof.
  intros T eqb P. induction os as [|o os IH]; intros l l' bs E Fl Ho; cbn in E.
  - injection E as <- _. exact Fl.
  - destruct (ideal_step eqb l o) as [[l1 b]|] eqn:S; [|discriminate]. destruct (ideal_run eqb l1 os) as [[l2 bs2]|] eqn:R; [|discriminate]. injection E as <- _.
    apply (IH l1 l2 bs2 R); [|intros v J; apply Ho; right; exact J].
    destruct o as [v|v|v| |n]; cbn in S.
    + destruct (SetSpec.mem eqb v l); injection S as <- _; [exact Fl|]. constructor; [apply Ho; left; reflexivity|exact Fl].
    + injection S as <- _. apply Forall_forall. intros x J. apply filter_In in J as [J _]. rewrite Forall_forall in Fl. auto.
    + injection S as <- _. exact Fl.
    + injection S as <- _. constructor.
    + destruct n, l; try discriminate; injection S as <- _; exact Fl.
Qed.

(* integers *)
Open Scope Z_scope.
Lemma conv_mod : forall t z b, 0 <= b -> b <= bits t -> conv_to t z mod 2 ^ b = z mod 2 ^ b.
Proof.
  intros t z b B1 B2. assert (forall m k, (m - k * 2 ^ b) mod 2 ^ b = m mod 2 ^ b) as Md.
  { intros m k. rewrite Zminus_mod, Z_mod_mult, Z.sub_0_r. apply Zmod_mod. }
  assert (2 ^ bits t = 2 ^ (bits t - b) * 2 ^ b) as E by (rewrite <- Z.pow_add_r by lia; f_equal; lia).
  assert ((z mod 2 ^ bits t) mod 2 ^ b = z mod 2 ^ b) as E2.
  { rewrite (Z.mod_eq z (2 ^ bits t)) by (apply Z.pow_nonzero; lia). rewrite E at 1. replace (2 ^ (bits t - b) * 2 ^ b * (z / 2 ^ bits t)) with ((2 ^ (bits t - b) * (z / 2 ^ bits t)) * 2 ^ b) by ring. apply Md. }
  unfold conv_to. cbv zeta. destruct (sgn t && _); [|exact E2]. rewrite E at 2. rewrite Md. exact E2.
Qed.
Lemma common_bits : forall a b, bits a <= bits (common a b) /\ bits b <= bits (common a b).
Proof.
  intros a b. unfold common. cbv zeta.
  assert (bits a <= bits (promote a)) as A by (unfold promote; destruct (Z.ltb_spec (bits a) 32); cbn; lia).
  assert (bits b <= bits (promote b)) as B by (unfold promote; destruct (Z.ltb_spec (bits b) 32); cbn; lia).
  destruct (Bool.eqb _ _).
  - destruct (Z.ltb_spec (bits (promote a)) (bits (promote b))); lia.
  - destruct (sgn (promote a)).
    + destruct (Z.leb_spec (bits (promote a)) (bits (promote b))); lia.
    + destruct (Z.leb_spec (bits (promote b)) (bits (promote a))); lia.
Qed.
Lemma int_eq_mod : forall a b x y, 0 <= bits a -> int_eq a b x y = true -> x mod 2 ^ bits a = y mod 2 ^ bits a.
Proof.
  intros a b x y B H. unfold int_eq in H. apply Z.eqb_eq in H. destruct (common_bits a b) as [C _].
  rewrite <- (conv_mod (common a b) x (bits a) B C), <- (conv_mod (common a b) y (bits a) B C), H. reflexivity.
Qed.
Lemma int_eq_hash : forall a b x y, 0 <= bits a -> int_eq a b x y = true -> int_hash a x = int_hash a (conv_to a y).
Proof. intros a b x y B H. unfold int_hash. rewrite conv_mod by lia. f_equal. apply (int_eq_mod a b); assumption. Qed.
Lemma kint_lawful : forall t, 0 <= bits t -> equiv_hash (int_eq t t) (int_hash t).
Proof.
  intros t B. constructor.
  - intros x. unfold int_eq. apply Z.eqb_refl.
  - intros x y H. unfold int_eq in *. rewrite Z.eqb_sym. exact H.
  - intros x y z H K. unfold int_eq in *. apply Z.eqb_eq in H, K. apply Z.eqb_eq. congruence.
  - intros x y H. unfold int_hash. f_equal. exact (int_eq_mod t t x y B H).
Qed.
Lemma conv_val : forall t x y, conv_to t x = x -> conv_to t y = y -> x mod 2 ^ bits t = y mod 2 ^ bits t -> x = y.
Proof. intros t x y Hx Hy E. rewrite <- Hx, <- Hy. unfold conv_to. cbv zeta. rewrite E. reflexivity. Qed.
Lemma conv_conv : forall t x, 0 <= bits t -> conv_to t (conv_to t x) = conv_to t x.
Proof. intros t x B. unfold conv_to at 1. cbv zeta. rewrite conv_mod by lia. reflexivity. Qed.

(* growing a map keeps its entries *)
Lemma in_lset : forall {A} (l : list A) i x y, In y (lset l i x) -> y = x \/ In y l.
Proof. intros A. induction l as [|z l IH]; intros [|i] x y H; cbn in *; auto; destruct H as [H|H]; auto. destruct (IH _ _ _ H); auto. Qed.
Section Room.
Context {K V : Type} (hash : K -> N).
Lemma rehash_bucket_In : forall (l : list (MapModel.ent K V)) es es', MapModel.rehash_bucket hash l es = Ok es' -> forall e, In e (concat es') -> In e (concat es) \/ In e l.
Proof.
  induction l as [|x l IH]; intros es es' E e J; cbn [MapModel.rehash_bucket] in E; [injection E as <-; auto|].
  destruct (MapModel.get_location _ _ _) as [i| | |]; cbn [bind] in E; try discriminate. destruct (aget es _) as [b| | |] eqn:G; cbn [bind] in E; try discriminate.
  apply aget_Ok in G. destruct (aset es _ _) as [es1| | |] eqn:A; cbn [bind] in E; try discriminate. destruct (IH _ _ E e J) as [J1|J1]; [|right; right; exact J1].
  unfold aset in A. destruct (_ <? _)%nat; [|discriminate]. injection A as <-. apply in_concat in J1 as (c & C1 & C2). apply in_lset in C1 as [->|C1].
  - destruct C2 as [->|C2]; [right; left; reflexivity|]. left. apply in_concat. exists b. split; [exact (nth_error_In _ _ G)|exact C2].
  - left. apply in_concat. eauto.
Qed.
Lemma rehash_In : forall old (es es' : list (list (MapModel.ent K V))), MapModel.rehash hash old es = Ok es' -> forall e, In e (concat es') -> In e (concat es) \/ In e (concat old).
Proof.
  induction old as [|l old IH]; intros es es' E e J; cbn [MapModel.rehash] in E; [injection E as <-; auto|].
  destruct (MapModel.rehash_bucket hash l es) as [es1| | |] eqn:R; cbn [bind] in E; try discriminate. cbn [concat]. rewrite in_app_iff.
  destruct (IH _ _ E e J) as [J1|J1]; [|auto]. destruct (rehash_bucket_In _ _ _ R e J1); auto.
Qed.
Lemma make_room_In : forall m m' : MapModel.map K V, MapModel.make_room hash m = Ok m' -> forall e, In e (concat (MapModel.entries m')) -> In e (concat (MapModel.entries m)).
Proof.
  intros m m' E e J. unfold MapModel.make_room in E. destruct (_ || _)%bool; [|injection E as <-; exact J]. unfold MapModel.reserve in E. destruct (_ <=? _)%N; [injection E as <-; exact J|].
  destruct (MapModel.pad _ _ _) as [c| | |]; cbn [bind] in E; try discriminate. unfold MapModel.reserve_ in E. destruct (contract _); cbn [bind] in E; try discriminate.
  destruct (MapModel.rehash _ _ _) as [es| | |] eqn:R; cbn [bind] in E; try discriminate. injection E as <-. cbn in J. destruct (rehash_In _ _ _ R e J) as [X|X]; [|exact X].
  exfalso. apply in_concat in X as (b & B1 & B2). apply repeat_spec in B1. subst b. destruct B2.
Qed.
End Room.

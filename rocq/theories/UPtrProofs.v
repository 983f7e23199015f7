(* Proofs for UPtr: the shared_ptr model with all reference counts one. *)
From Coq Require Import ZArith Arith List Bool Lia.
From Verif Require Import Base SPtrModel SPtrSpec SPtrProofs UPtrModel UPtrSpec.
Import ListNotations.
Local Open Scope nat_scope.

Definition er (x : cell) : ucell := match x with Live _ fs => ULive fs | Dying fs => UDying fs | Freed => UFreed end.
Definition erase (st : state) : ustate := mku (vars st) (map er (heap st)).
Definition one (x : cell) : Prop := match x with Live rc _ => rc = 1%Z | _ => True end.
Definition ones (h : list cell) : Prop := forall o x, nth_error h o = Some x -> one x.
Lemma map_lset : forall {A B} (f : A -> B) l k x, map f (lset l k x) = lset (map f l) k (f x).
Proof. induction l; intros [|k] x; cbn; auto. f_equal. auto. Qed.
Lemma ones_lset : forall h k x, ones h -> one x -> ones (lset h k x).
Proof.
  intros h k x H X o y E. destruct (Nat.eq_dec k o) as [<-|N].
  - destruct (Nat.lt_ge_cases k (length h)) as [L|L]; [rewrite lset_nth_eq in E by auto; congruence|].
    apply nth_lt in E. rewrite lset_length in E. lia.
  - rewrite lset_nth_neq in E by auto. eauto.
Qed.

Lemma release_erase : forall fuel h c h', ones h -> release fuel h c = Ok h' ->
  ufree fuel (map er h) c = Ok (map er h') /\ ones h' /\ length h' = length h /\ nth_error h' c = Some Freed.
Proof.
  induction fuel as [|fuel IH]; intros h c h' O H; [discriminate|]. cbn [release ufree] in *.
  rewrite nth_error_map. destruct (nth_error h c) as [[rc fs| |]|] eqn:E; try discriminate. cbn [option_map er].
  assert (rc = 1%Z) by exact (O _ _ E). subst rc. change (- 2 ^ 31 <? 1)%Z with true in H. change (1 - 1 =? 0)%Z with true in H. cbn [defined bind] in H.
  match type of H with (let! h := ?m (rev fs) _ in _) = _ => set (members := m) in * end.
  match goal with |- (let! h := ?m (rev fs) _ in _) = _ /\ _ => set (umembers := m) end.
  assert (M : forall todo h1 h2, ones h1 -> members todo h1 = Ok h2 -> umembers todo (map er h1) = Ok (map er h2) /\ ones h2 /\ length h2 = length h1).
  { induction todo as [|p todo IHt]; intros h1 h2 O1 H1; cbn in *; [injection H1 as <-; auto|].
    change (UDying (rev todo)) with (er (Dying (rev todo))). rewrite <- map_lset.
    assert (O2 : ones (lset h1 c (Dying (rev todo)))) by (apply ones_lset; cbn; auto).
    destruct p as [d|].
    - fold members in H1. fold umembers. destruct (release fuel (lset h1 c (Dying (rev todo))) d) as [h3| | |] eqn:R; try discriminate. cbn [bind] in H1.
      destruct (IH _ _ _ O2 R) as (U & O3 & L3 & _). rewrite U. cbn [bind]. destruct (IHt _ _ O3 H1) as (U4 & O4 & L4). split; auto. split; auto.
      rewrite L4, L3, lset_length. auto.
    - destruct (IHt _ _ O2 H1) as (U4 & O4 & L4). split; auto. split; auto. rewrite L4, lset_length. auto. }
  destruct (members (rev fs) (lset h c (Dying fs))) as [h2| | |] eqn:Q; try discriminate. cbn [bind] in H. injection H as <-.
  assert (O2 : ones (lset h c (Dying fs))) by (apply ones_lset; cbn; auto).
  destruct (M _ _ _ O2 Q) as (U & O3 & L3). change (UDying fs) with (er (Dying fs)). rewrite <- map_lset, U. cbn [bind].
  change UFreed with (er Freed). rewrite <- map_lset. split; auto. rewrite lset_length in L3. split; [apply ones_lset; cbn; auto|].
  split; [rewrite lset_length; auto|]. apply lset_nth_eq. rewrite L3. eapply nth_lt; eauto.
Qed.

Lemma read_erase : forall st l, uread (erase st) l = read st l.
Proof.
  intros st [v|o i]; cbn; auto. rewrite nth_error_map. destruct (nth_error (heap st) o) as [[| |]|]; auto.
Qed.
Definition bindo {A B} (f : A -> B) (x : outcome A) : outcome B := match x with Ok a => Ok (f a) | Contract => Contract | UB => UB | OutOfFuel => OutOfFuel end.
Lemma write_erase : forall st l p, uwrite (erase st) l p = bindo erase (write st l p).
Proof.
  intros st [v|o i] p; cbn [uwrite write]; cbn [erase uvars uheap].
  - destruct (nth_error (vars st) v) as [[x|]|]; auto.
  - rewrite nth_error_map. destruct (nth_error (heap st) o) as [[rc fs| |]|]; auto. cbn [option_map er]. destruct (i <? length fs); auto. cbn [bindo]. unfold erase. cbn [vars heap]. rewrite map_lset. reflexivity.
Qed.
Lemma write_ones : forall st l p st', ones (heap st) -> write st l p = Ok st' -> ones (heap st').
Proof.
  intros st [v|o i] p st' O H; cbn [write] in H.
  - destruct (nth_error (vars st) v) as [[x|]|]; try discriminate. injection H as <-. auto.
  - destruct (nth_error (heap st) o) as [[rc fs| |]|] eqn:E; try discriminate. destruct (i <? length fs); try discriminate. injection H as <-. cbn.
    apply ones_lset; auto. exact (O _ _ E).
Qed.
Lemma follow_erase : forall is st l, ufollow (erase st) l is = follow st l is.
Proof.
  induction is as [|i is IH]; intros st l; cbn [ufollow follow]; auto. rewrite read_erase. destruct (read st l) as [[c|]| | |]; cbn; auto.
Qed.
Lemma at_erase : forall st e, uat (erase st) e = at_ st e.
Proof. intros. unfold uat, at_. rewrite follow_erase. destruct (follow st (LVar (fst e)) (snd e)); cbn [bind]; auto. rewrite read_erase. auto. Qed.
(* free leaves _ptr dangling, dec_refcount sets it to null *)
Lemma write_twice : forall st l p q st1, write st l p = Ok st1 -> write st1 l q = write st l q.
Proof.
  intros st [v|o i] p q st1 H; cbn [write] in H.
  - destruct (nth_error (vars st) v) as [[x|]|] eqn:E; try discriminate. injection H as <-. cbn [write vars heap]. rewrite lset_nth_eq by (eapply nth_lt; eauto).
    rewrite E, lset_lset. auto.
  - destruct (nth_error (heap st) o) as [[rc fs| |]|] eqn:E; try discriminate. destruct (i <? length fs) eqn:L; try discriminate. injection H as <-. cbn [write vars heap].
    rewrite lset_nth_eq by (eapply nth_lt; eauto). rewrite E, lset_length, L, !lset_lset. auto.
Qed.
Lemma write_read_neq : forall st l p st1 r, l <> r -> write st l p = Ok st1 -> read st1 r = read st r.
Proof.
  intros st l p st1 r N H. destruct l as [v|o i]; cbn [write] in H.
  - destruct (nth_error (vars st) v) as [[x|]|] eqn:E; try discriminate. injection H as <-. destruct r as [u|]; cbn; auto.
    rewrite lset_nth_neq by congruence. auto.
  - destruct (nth_error (heap st) o) as [[rc fs| |]|] eqn:E; try discriminate. destruct (i <? length fs) eqn:L; try discriminate. injection H as <-.
    destruct r as [u|a j]; cbn; auto. destruct (Nat.eq_dec o a) as [<-|]; [|rewrite lset_nth_neq; auto].
    rewrite lset_nth_eq by (eapply nth_lt; eauto). rewrite E. rewrite lset_nth_neq by congruence. auto.
Qed.
Lemma drop_erase : forall st l st1, ones (heap st) -> drop st l = Ok st1 ->
  exists st0, udrop (erase st) l = Ok (erase st0) /\ ones (heap st0) /\ ones (heap st1) /\
    (st1 = st0 \/ write st0 l None = Ok st1).
Proof.
  intros st l st1 O H. unfold drop in H. unfold udrop. rewrite read_erase. destruct (read st l) as [[c|]| | |] eqn:E; try discriminate; cbn [bind] in *.
  - unfold dec_refcount in H. rewrite E in H. cbn [bind] in H.
    destruct (release (S (length (heap st))) (heap st) c) as [h| | |] eqn:R; try discriminate. cbn [bind] in H.
    destruct (release_erase _ _ _ _ O R) as (U & O1 & _ & F). unfold erase at 1 2 3. cbn [uheap uvars]. rewrite map_length, U. cbn [bind].
    exists (mks (vars st) h). rewrite F in H. split; auto. split; auto. split; [eapply write_ones; [|eauto]; auto|auto].
  - injection H as <-. exists st. auto 10.
Qed.

Lemma step_erase : forall st o st' r, ones (heap st) -> step st (shared_op o) = Ok (st', r) -> ustep (erase st) o = Ok (erase st', r) /\ ones (heap st').
Proof.
  intros st o st' r O H. destruct o; cbn [shared_op step ustep] in *.
  - injection H as <- <-. auto.
  - injection H as <- <-. split.
    + unfold umake, make, erase. cbn. rewrite map_app, map_length. auto.
    + cbn. intros k x E. destruct (Nat.lt_ge_cases k (length (heap st))) as [L|L]; [rewrite nth_error_app1 in E by auto; eauto|].
      rewrite nth_error_app2 in E by auto. destruct (k - length (heap st)) as [|m]; cbn in E; [injection E as <-; cbn; auto|destruct m; discriminate].
  - rewrite at_erase. destruct (at_ st e) as [l| | |]; try discriminate. cbn [bind] in *. unfold new_move in H. unfold unew_move. rewrite read_erase.
    destruct (read st l) as [p| | |]; try discriminate. cbn [bind] in *. change (uadd (erase st) p) with (erase (add_var st p)). rewrite write_erase.
    destruct (write (add_var st p) l None) as [st1| | |] eqn:W; try discriminate. cbn in *. injection H as <- <-. split; auto. eapply write_ones; [|eauto]. auto.
  - rewrite !at_erase. destruct (at_ st f) as [b| | |]; try discriminate. cbn [bind] in *. destruct (at_ st e) as [a| | |]; try discriminate. cbn [bind] in *.
    unfold move_assign in H. unfold umove_assign. destruct (drop st a) as [st1| | |] eqn:D; try discriminate. cbn [bind] in H.
    destruct (drop_erase _ _ _ O D) as (st0 & U & O0 & O1 & X). rewrite U. cbn [bind]. rewrite read_erase.
    destruct (read st1 b) as [p| | |] eqn:P; try discriminate. cbn [bind] in H.
    destruct (write st1 a p) as [st2| | |] eqn:W2; try discriminate. cbn [bind] in H.
    destruct (write st2 b None) as [st3| | |] eqn:W3; try discriminate. cbn [uunit bind] in H. injection H as <- <-.
    assert (O3 : ones (heap st3)) by (eapply write_ones; [|eauto]; eapply write_ones; [|eauto]; auto).
    split; auto. destruct X as [<-|X].
    { rewrite P. cbn [bind]. rewrite write_erase, W2. cbn [bindo bind]. rewrite write_erase, W3. auto. }
    assert (W2' : write st0 a p = Ok st2) by (rewrite <- (write_twice _ _ _ p _ X); auto).
    destruct (loc_eqb_spec a b) as [<-|N].
    + assert (W3' : write st0 a None = Ok st3) by (rewrite <- (write_twice _ _ _ None _ W2'); auto).
      assert (R0 : exists c, read st0 a = Ok c).
      { destruct a as [v|k i]; cbn [write read] in X |- *.
        - destruct (nth_error (vars st0) v) as [[x|]|]; try discriminate. eauto.
        - destruct (nth_error (heap st0) k) as [[rc fs| |]|]; try discriminate. destruct (Nat.ltb_spec i (length fs)) as [L|L]; try discriminate.
          destruct (nth_error fs i) eqn:Q; eauto. apply nth_error_None in Q. lia. }
      destruct R0 as (c & R0). rewrite R0. cbn [bind]. rewrite write_erase.
      assert (W4 : exists st4, write st0 a c = Ok st4).
      { destruct a as [v|k i]; cbn [write read] in X |- *.
        - destruct (nth_error (vars st0) v) as [[x|]|]; try discriminate. eauto.
        - destruct (nth_error (heap st0) k) as [[rc fs| |]|]; try discriminate. destruct (i <? length fs); try discriminate. eauto. }
      destruct W4 as (st4 & W4). rewrite W4. cbn [bindo bind]. rewrite write_erase, (write_twice _ _ _ None _ W4), W3'. auto.
    + rewrite <- (write_read_neq _ _ _ _ _ N X), P. cbn [bind]. rewrite write_erase, W2'. cbn [bindo bind]. rewrite write_erase, W3. auto.
  - rewrite at_erase. destruct (at_ st e) as [l| | |]; try discriminate. cbn [bind] in *. unfold set_null in H. unfold ureset.
    destruct (drop st l) as [st1| | |] eqn:D; try discriminate. cbn [bind] in H.
    destruct (drop_erase _ _ _ O D) as (st0 & U & O0 & O1 & X). rewrite U. cbn [bind].
    destruct (write st1 l None) as [st2| | |] eqn:W; try discriminate. cbn [unit_ bind] in H. injection H as <- <-.
    assert (W' : write st0 l None = Ok st2) by (destruct X as [<-|X]; auto; rewrite <- (write_twice _ _ _ None _ X); auto).
    rewrite write_erase, W'. split; auto. eapply write_ones; [|eauto]. auto.
  - unfold destroy in H. unfold udestroy. destruct (drop st (LVar v)) as [st1| | |] eqn:D; try discriminate. cbn [bind unit_] in H. injection H as <- <-.
    destruct (drop_erase _ _ _ O D) as (st0 & U & O0 & O1 & X). rewrite U. cbn [bind uunit]. split; [|auto]. do 2 f_equal. unfold erase. cbn.
    destruct X as [<-|X]; auto. cbn in X. destruct (nth_error (vars st0) v) as [[x|]|]; try discriminate. injection X as <-. cbn. rewrite lset_lset. auto.
  - rewrite at_erase. destruct (at_ st e) as [l| | |]; try discriminate. cbn [bind] in *. rewrite read_erase.
    destruct (read st l) as [p| | |]; try discriminate. cbn [bind] in *. injection H as <- <-. auto.
  - rewrite !at_erase. destruct (at_ st e) as [l| | |]; try discriminate. cbn [bind] in *. destruct (at_ st f) as [l2| | |]; try discriminate. cbn [bind] in *.
    rewrite !read_erase. destruct (read st l) as [p| | |]; try discriminate. cbn [bind] in *. destruct (read st l2) as [q| | |]; try discriminate. cbn [bind] in *.
    injection H as <- <-. auto.
Qed.
Lemma run_erase : forall os st st' rs, ones (heap st) -> run st (map shared_op os) = Ok (st', rs) -> urun (erase st) os = Ok (erase st', rs) /\ ones (heap st').
Proof.
  induction os as [|o os IH]; intros st st' rs O H; cbn [map run urun] in *; [injection H as <- <-; auto|].
  destruct (step st (shared_op o)) as [[s1 r1]| | |] eqn:E; try discriminate. cbn [bind fst snd] in H.
  destruct (run s1 (map shared_op os)) as [[s2 r2]| | |] eqn:E2; try discriminate. cbn [bind fst snd] in H. injection H as <- <-.
  destruct (step_erase _ _ _ _ O E) as (U & O1). rewrite U. cbn [bind fst snd]. destruct (IH _ _ _ O1 E2) as (U2 & O2). rewrite U2. auto.
Qed.
Lemma rep_erase : forall st g, Rp st g (fun _ => 0%Z) -> urepresents (erase st) g.
Proof.
  intros st g (V & L & H). split; auto. cbn [erase uheap]. apply nth_ext_err. intro o. rewrite !nth_error_map.
  destruct (nth_error (gheap g) o) as [x|] eqn:X; [rewrite (H _ _ X); destruct x; auto|].
  apply nth_error_None in X. assert (Y : nth_error (heap st) o = None) by (apply nth_error_None; lia). rewrite Y. auto.
Qed.
Lemma urun_app : forall os st os' st' rs, urun st os = Ok (st', rs) ->
  urun st (os ++ os') = (let! y := urun st' os' in Ok (fst y, rs ++ snd y)).
Proof.
  induction os as [|o os IH]; intros st os' st' rs H; cbn in *.
  - injection H as <- <-. destruct (urun st os') as [[s t]| | |]; auto.
  - destruct (ustep st o) as [[s1 r1]| | |]; try discriminate. cbn [bind fst snd] in *.
    destruct (urun s1 os) as [[s2 r2]| | |] eqn:E; try discriminate. cbn [bind fst snd] in H. injection H as <- <-.
    rewrite (IH _ os' _ _ E). destruct (urun s2 os') as [[s t]| | |]; auto.
Qed.
Lemma ulost : forall st g e f l r p q, Good st g -> ones (heap st) -> denotes g e l p -> denotes g f r q -> l <> r -> ~ survives g l r ->
  ustep (erase st) (UMoveAssign e f) = UB.
Proof.
  intros st g e f l r p q G O De Df N X. pose proof G as (R & C & S). cbn [ustep]. rewrite !at_erase, (at_ok _ _ _ _ _ _ R De), (at_ok _ _ _ _ _ _ R Df). cbn [bind].
  unfold umove_assign.
  destruct (drop_ok _ _ _ _ R C S (proj2 De) (guard_denotes _ _ _ _ C De)) as (st1 & g1 & c0 & D & K & _ & _ & R1 & _).
  pose proof (lost_read _ _ _ _ _ _ _ _ (proj2 Df) N K X R1) as LR.
  destruct (drop_erase _ _ _ O D) as (st0 & U & O0 & O1 & Y). rewrite U. cbn [bind]. rewrite read_erase.
  destruct Y as [<-|Y]; [rewrite LR; auto|]. rewrite <- (write_read_neq _ _ _ _ _ N Y), LR. auto.
Qed.

Lemma owner_unique : forall g a b c, owners g c <= 1 -> gread g a = Some (Some c) -> gread g b = Some (Some c) -> a = b.
Proof.
  intros g a b c O A B. destruct (loc_eqb_spec a b) as [|N]; auto. exfalso.
  pose proof (owners_write g a (Some c) None c A) as W. rewrite holds_self in W. cbn [holds] in W.
  assert (X : gread (gwrite g a None) b = Some (Some c)) by (rewrite read_write_neq; auto). apply read_owner in X. lia.
Qed.
Lemma gfollow_app : forall g is l i, gfollow g l (is ++ [i]) =
  match gfollow g l is with Some l0 => match gread g l0 with Some (Some c) => Some (LFld c i) | _ => None end | None => None end.
Proof.
  induction is as [|j is IH]; intros l i; cbn; auto. destruct (gread g l) as [[c|]|]; auto.
Qed.
Lemma no_own_cycle : forall g c i v is, owners g c <= 1 -> gread g (LFld c i) = Some (Some c) -> gfollow g (LVar v) is <> Some (LFld c i).
Proof.
  intros g c i v is O E. induction is as [|j is IH] using rev_ind; [discriminate|]. intro H. rewrite gfollow_app in H.
  destruct (gfollow g (LVar v) is) as [l0|] eqn:F; try discriminate. destruct (gread g l0) as [[d|]|] eqn:R; try discriminate.
  injection H as -> ->. apply IH. rewrite (owner_unique _ _ _ _ O E R). auto.
Qed.
Lemma head_lost : forall g e l c i q, (forall o, owners g o <= 1) -> denotes g e l (Some c) -> gread g (LFld c i) = Some q ->
  l <> LFld c i /\ ~ survives g l (LFld c i).
Proof.
  intros g e l c i q O (F & E) R. split.
  - intros ->. eapply no_own_cycle; eauto.
  - intros (gs & K & X). apply collects_steps in K. destruct K as (K & S). apply X. cbn [gread].
    destruct (nth_error (gheap gs) c) as [[fs|]|] eqn:Y; auto. exfalso.
    assert (A : alive gs c) by (exists fs; auto). specialize (S _ A). pose proof (owners_steps _ _ K c) as L.
    pose proof (owners_write g l (Some c) None c E) as W. rewrite holds_self in W. cbn [holds] in W. specialize (O c). lia.
Qed.
Lemma ones_owners : forall st g, Good st g -> ones (heap st) -> forall o, owners g o <= 1.
Proof.
  intros st g ((V & L & H) & C & S) O o. destruct (Nat.eq_dec (owners g o) 0) as [Z|N]; [lia|]. destruct (C _ N) as (fs & F).
  pose proof (O _ _ (H _ _ F)) as X. cbn in X. lia.
Qed.

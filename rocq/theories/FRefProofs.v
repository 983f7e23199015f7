(* Proofs about references to callables, streams and ranges. *)
From Coq Require Import NArith Arith List Bool Lia.
From Verif Require Import Base FRefModel FRefSpec OwnHeap.
Import ListNotations.

Lemma put_lset : forall T (l : list T) i x, put l i x = lset l i x.
Proof. induction l; intros [|i] x; cbn; auto. f_equal. auto. Qed.
Lemma map_lset : forall T U (f : T -> U) l i x, map f (lset l i x) = lset (map f l) i (f x).
Proof. induction l; intros [|i] x; cbn; auto. f_equal. auto. Qed.

Lemma Forall2_impl : forall T U (P Q : T -> U -> Prop), (forall x y, P x y -> Q x y) -> forall l m, Forall2 P l m -> Forall2 Q l m.
Proof. induction 2; constructor; auto. Qed.

Section P.
  Context {A : Type}.
  Notation ent := (ent A). Notation world := (world A). Notation ist := (ist A).

  Definition ab (e : ent) : thing A := match e with Sink _ l => TSink l | Fn sp t c => TFn sp t c | _ => TAdapter end.
  Definition kind (e : ent) : ent := match e with Sink sp _ => Sink sp [] | Fn sp t _ => Fn sp t 0 | e => e end.
  Definition kat (es : list (option ent)) (k : nat) : option ent :=
    match nth_error es k with Some (Some e) => Some (kind e) | _ => None end.
  Definition shape (es : list (option ent)) (k : nat) (r : route) : Prop :=
    match kat es k with
    | None => True
    | Some (Fn true t _) => r = mkr [k; t] (Some (k, false)) (To t)
    | Some (Each t) => (t < length es)%nat /\ exists t', r = mkr [k; t; t'] (Some (t, true)) (To t') /\
                         (kat es t = None \/ kat es t = Some (Fn false t' 0))
    | Some (ShiftAll t) | Some (ShiftEach t) => r = mkr [k; t] None (To t)
    | Some Nop => r = mkr [k] None Nowhere
    | _ => False
    end.
  Definition rel (es : list (option ent)) (f : fref) (r : option route) : Prop :=
    match f, r with
    | None, None => True
    | Some (TFun g), Some r => r = mkr [] None (Global g)
    | Some (TObj k), Some r => (k < length es)%nat /\ In k (needs r) /\ shape es k r
    | _, _ => False
    end.
  Definition mono (es es' : list (option ent)) : Prop :=
    (length es <= length es')%nat /\ forall k, (k < length es)%nat -> kat es' k = kat es k \/ kat es' k = None.
  Lemma rel_mono : forall es es' f r, mono es es' -> rel es f r -> rel es' f r.
  Proof.
    intros es es' [[k|g]|] [r|] (L & M) H; cbn [rel] in *; auto. destruct H as (Hk & Hi & HS).
    split; [lia|]. split; [exact Hi|]. unfold shape in *.
    destruct (M k Hk) as [-> | ->]; [|exact Logic.I].
    destruct (kat es k) as [[sp l|[|] t c|t|t|t|]|]; auto.
    destruct HS as (Ht & t' & E & K). split; [lia|]. exists t'. split; [exact E|].
    destruct (M t Ht) as [-> | ->]; auto.
  Qed.
  Lemma mono_refl : forall es, mono es es.
  Proof. intros es. split; auto. Qed.
  Lemma mono_trans : forall a b c, mono a b -> mono b c -> mono a c.
  Proof.
    intros a b c (L1 & M1) (L2 & M2). split; [lia|]. intros k H.
    destruct (M2 k ltac:(lia)) as [-> | ->]; auto.
  Qed.
  Lemma mono_app : forall es x, mono es (es ++ [x]).
  Proof.
    intros es x. split; [rewrite app_length; lia|]. intros k H. left. unfold kat. rewrite nth_error_app1 by lia. reflexivity.
  Qed.
  Lemma mono_die : forall es k, mono es (lset es k None).
  Proof.
    intros es k. split; [rewrite lset_length; lia|]. intros j H. unfold kat. rewrite lset_nth.
    destruct (k =? j)%nat; auto. destruct (k <? length es)%nat; auto.
  Qed.
  Lemma mono_set : forall es k e e', nth_error es k = Some (Some e) -> kind e = kind e' -> mono es (lset es k (Some e')).
  Proof.
    intros es k e e' H K. split; [rewrite lset_length; lia|]. intros j Hj. left. unfold kat. rewrite lset_nth.
    destruct (Nat.eqb_spec k j) as [<-|]; auto. rewrite H. destruct (Nat.ltb_spec k (length es)); [|lia]. congruence.
  Qed.

  Definition R (w : world) (s : ist) : Prop :=
    things s = map (option_map ab) (ents w) /\ views s = ranges w /\ globals s = statics w /\ Forall2 (rel (ents w)) (refs w) (routes s).

  Lemma ent_at_nth : forall (w : world) k e, ent_at w k = Ok e <-> nth_error (ents w) k = Some (Some e).
  Proof. intros. unfold ent_at. destruct (nth_error (ents w) k) as [[x|]|]; split; intro H; inversion H; auto. Qed.
  Lemma look_ent : forall (w : world) s k x, R w s -> look (things s) k = Some x ->
    exists e, ent_at w k = Ok e /\ ab e = x.
  Proof.
    intros w s k x (T & _) H. unfold look in H. rewrite T, nth_error_map in H.
    destruct (nth_error (ents w) k) as [[e|]|] eqn:E; cbn in H; try discriminate.
    injection H as <-. exists e. split; [apply ent_at_nth; exact E|reflexivity].
  Qed.
  Lemma ent_look : forall (w : world) s k e, R w s -> ent_at w k = Ok e -> look (things s) k = Some (ab e).
  Proof. intros w s k e (T & _) H. apply ent_at_nth in H. unfold look. rewrite T, nth_error_map, H. reflexivity. Qed.
  Lemma ent_lt : forall (w : world) k e, ent_at w k = Ok e -> (k < length (ents w))%nat.
  Proof. intros w k e H. apply ent_at_nth in H. apply nth_error_Some. congruence. Qed.
  Lemma ab_sink : forall e l, ab e = TSink l -> exists sp, e = Sink sp l.
  Proof. intros e l H. destruct e; cbn in H; try discriminate. injection H as ->. eauto. Qed.
  Lemma ab_fn : forall e sp t c, ab e = TFn sp t c -> e = Fn sp t c.
  Proof. intros e sp' t' c' H. destruct e; cbn in H; try discriminate. injection H as -> -> ->. reflexivity. Qed.

  Lemma ent_set : forall (w : world) k j e, ent_at (set_ent w k e) j =
    if (k =? j)%nat then if (k <? length (ents w))%nat then Ok e else UB else ent_at w j.
  Proof.
    intros w k j e. unfold ent_at, set_ent, set_ents. cbn [ents]. rewrite lset_nth. destruct (k =? j)%nat; [|reflexivity].
    destruct (k <? length (ents w))%nat; reflexivity.
  Qed.
  Lemma ent_set_eq : forall (w : world) k e0 e, ent_at w k = Ok e0 -> ent_at (set_ent w k e) k = Ok e.
  Proof.
    intros w k e0 e H. rewrite ent_set, Nat.eqb_refl. apply ent_lt in H. destruct (Nat.ltb_spec k (length (ents w))); [reflexivity|lia].
  Qed.
  Lemma ent_set_neq : forall (w : world) k j e, k <> j -> ent_at (set_ent w k e) j = ent_at w j.
  Proof. intros w k j e H. rewrite ent_set. destruct (Nat.eqb_spec k j); [contradiction|reflexivity]. Qed.
  Lemma set_same : forall (w : world) k e, ent_at w k = Ok e -> set_ent w k e = w.
  Proof.
    intros [es rs qs gs] k e H. apply ent_at_nth in H. unfold set_ent, set_ents. cbn [ents refs ranges statics] in *. f_equal.
    revert k H. induction es as [|x es IH]; intros [|k] H; cbn in *; try discriminate; f_equal; [congruence|auto].
  Qed.
  Lemma set_twice : forall (w : world) k e e', set_ent (set_ent w k e) k e' = set_ent w k e'.
  Proof.
    intros [es rs qs gs] k e e'. unfold set_ent, set_ents. cbn [ents refs ranges statics]. f_equal.
    revert k. induction es as [|x es IH]; intros [|k]; cbn; f_equal; auto.
  Qed.
  Lemma set_comm : forall (w : world) k j e e', k <> j -> set_ent (set_ent w k e) j e' = set_ent (set_ent w j e') k e.
  Proof.
    intros [es rs qs gs] k j e e' H. unfold set_ent, set_ents. cbn [ents refs ranges statics]. f_equal.
    revert k j H. induction es as [|x es IH]; intros [|k] [|j] H; cbn; auto; try contradiction. f_equal. auto.
  Qed.

  Lemma append_ok : forall (w : world) t sp l xs, ent_at w t = Ok (Sink sp l) -> append w t xs = Ok (set_ent w t (Sink sp (l ++ xs))).
  Proof. intros w t sp l xs H. unfold append. rewrite H. reflexivity. Qed.
  Lemma each_append : forall xs (w : world) t sp l, ent_at w t = Ok (Sink sp l) ->
    each (fun w x => append w t [x]) w xs = Ok (set_ent w t (Sink sp (l ++ xs))).
  Proof.
    induction xs as [|x xs IH]; intros w t sp l H; cbn [each].
    - rewrite app_nil_r, set_same by exact H. reflexivity.
    - rewrite (append_ok w t sp l [x] H). cbn [bind]. rewrite (IH _ t sp (l ++ [x])) by (eapply ent_set_eq; exact H).
      rewrite set_twice, <- app_assoc. reflexivity.
  Qed.
  Lemma each_call : forall xs (w : world) k t c sp l, ent_at w k = Ok (Fn false t c) -> ent_at w t = Ok (Sink sp l) ->
    each (call_elem k) w xs = Ok (set_ent (set_ent w k (Fn false t (c + N.of_nat (length xs)))) t (Sink sp (l ++ xs))).
  Proof.
    induction xs as [|x xs IH]; intros w k t c sp l HK HT.
    - cbn [each length]. rewrite app_nil_r, N.add_0_r, (set_same w k) by exact HK. rewrite set_same by exact HT. reflexivity.
    - assert (D : k <> t) by (intros ->; congruence). cbn [each]. unfold call_elem at 1. rewrite HK. cbn [bind].
      rewrite (append_ok _ t sp l [x]) by (rewrite ent_set_neq by exact D; exact HT). cbn [bind].
      rewrite (IH _ k t (c + 1)%N sp (l ++ [x])).
      + f_equal. rewrite (set_comm _ t k) by congruence. rewrite set_twice, set_twice.
        rewrite <- app_assoc. cbn [app length]. do 3 f_equal. lia.
      + rewrite ent_set_neq by congruence. eapply ent_set_eq; exact HK.
      + eapply ent_set_eq. rewrite ent_set_neq by exact D. exact HT.
  Qed.
  Lemma visit_each : forall (Inv : world -> Prop) f k sp l,
    (forall w, Inv w -> ent_at w k = Ok (Sink sp l)) -> (forall w x w', Inv w -> f w x = Ok w' -> Inv w') ->
    forall todo i w, Inv w -> (i + todo = length l)%nat -> visit f k (length l) i todo w = each f w (skipn i l).
  Proof.
    intros Inv f k sp l HE HP. induction todo as [|todo IH]; intros i w HI L; cbn [visit].
    - rewrite skipn_all2 by lia. reflexivity.
    - rewrite (HE w HI). cbn [bind]. rewrite Nat.eqb_refl. cbn [defined bind].
      destruct (nth_error l i) as [x|] eqn:E; [|apply nth_error_None in E; lia].
      unfold aget. rewrite E. cbn [bind].
      assert (HS : skipn i l = x :: skipn (S i) l).
      { clear - E. revert i E. induction l; intros [|i] E; cbn in *; try discriminate; [congruence|]. rewrite (IHl i E). reflexivity. }
      rewrite HS. cbn [each]. destruct (f w x) as [w'| | |] eqn:F; cbn [bind]; try reflexivity.
      apply IH; [eapply HP; eauto|lia].
  Qed.

  Lemma R_set : forall (w : world) s k e e', R w s -> ent_at w k = Ok e -> kind e = kind e' ->
    R (set_ent w k e') (mks (put (things s) k (Some (ab e'))) (routes s) (views s) (globals s)).
  Proof.
    intros w s k e e' (T & V & G & F) H K. apply ent_at_nth in H. unfold R, set_ent, set_ents. cbn [things views globals routes ents ranges refs statics].
    split; [rewrite put_lset, T, map_lset; reflexivity|]. split; [exact V|]. split; [exact G|].
    eapply Forall2_impl; [|exact F]. intros f r. apply rel_mono. eapply mono_set; eauto.
  Qed.
  Lemma R_static : forall (w : world) s g l xs, R w s -> nth_error (globals s) g = Some l ->
    call_static g w xs = Ok (mkw (ents w) (refs w) (ranges w) (lset (statics w) g (l ++ xs))) /\
    R (mkw (ents w) (refs w) (ranges w) (lset (statics w) g (l ++ xs))) (mks (things s) (routes s) (views s) (put (globals s) g (l ++ xs))).
  Proof.
    intros w s g l xs (T & V & G & F) H. unfold call_static, aget. rewrite <- G, H. split; [reflexivity|].
    unfold R. cbn. rewrite put_lset. auto.
  Qed.
  Lemma each_static : forall xs (w : world) g l, nth_error (statics w) g = Some l ->
    each (fun w x => call_static g w [x]) w xs = Ok (mkw (ents w) (refs w) (ranges w) (lset (statics w) g (l ++ xs))).
  Proof.
    induction xs as [|x xs IH]; intros [es rs qs gs] g l H; cbn [each statics ents refs ranges] in *.
    - rewrite app_nil_r. do 2 f_equal. clear - H. revert g H. induction gs; intros [|g] H; cbn in *; try discriminate; f_equal; [congruence|auto].
    - unfold call_static at 1, aget. cbn [statics]. rewrite H. cbn [bind]. rewrite (IH _ g (l ++ [x])).
      + cbn [ents refs ranges statics]. rewrite <- app_assoc. do 2 f_equal.
        clear. revert g. induction gs; intros [|g]; cbn; f_equal; auto.
      + cbn [statics]. apply lset_nth_eq. apply nth_error_Some. congruence.
  Qed.
  (* two updates of the abstract store *)
  Lemma R_call : forall (w : world) s k t c c' spk sp l xs, R w s -> ent_at w k = Ok (Fn spk t c) -> ent_at w t = Ok (Sink sp l) ->
    R (set_ent (set_ent w k (Fn spk t c')) t (Sink sp (l ++ xs)))
      (mks (put (put (things s) k (Some (TFn spk t c'))) t (Some (TSink (l ++ xs)))) (routes s) (views s) (globals s)).
  Proof.
    intros w s k t c c' spk sp l xs HR HK HT. assert (D : k <> t) by (intros ->; congruence).
    pose proof (R_set w s k _ (Fn spk t c') HR HK eq_refl) as H1.
    refine (R_set _ _ t (Sink sp l) (Sink sp (l ++ xs)) H1 _ eq_refl). rewrite ent_set_neq by exact D. exact HT.
  Qed.

  Lemma alive_ent : forall (w : world) s k, R w s -> alive s k = true -> exists e, ent_at w k = Ok e.
  Proof.
    intros w s k HR H. unfold alive in H. destruct (look (things s) k) as [x|] eqn:E; [|discriminate].
    destruct (look_ent w s k x HR E) as (e & He & _). eauto.
  Qed.
  Lemma look_count : forall (w : world) s k sp t c n per, R w s -> ent_at w k = Ok (Fn sp t c) ->
    count (things s) (Some (k, per)) n = put (things s) k (Some (TFn sp t (c + (if per then N.of_nat n else 1)))).
  Proof. intros w s k sp t c n per HR H. unfold count. rewrite (ent_look w s k _ HR H). reflexivity. Qed.
  Lemma arrive_to : forall s s' t xs, arrive s (To t) xs = Some s' ->
    exists l : list A, look (things s) t = Some (TSink l) /\ s' = mks (put (things s) t (Some (TSink (l ++ xs)))) (routes s) (views s) (globals s).
  Proof.
    intros s s' t xs H. cbn [arrive] in H. destruct (look (things s) t) as [[l| |]|]; try discriminate. injection H as <-. eauto.
  Qed.
  (* a lambda on the way and the sink at the end *)
  Lemma counted_to : forall (w : world) s s' k per t sp c xs, R w s -> ent_at w k = Ok (Fn sp t c) ->
    arrive (mks (count (things s) (Some (k, per)) (length xs)) (routes s) (views s) (globals s)) (To t) xs = Some s' ->
    exists sps l, ent_at w t = Ok (Sink sps l) /\
      R (set_ent (set_ent w k (Fn sp t (c + (if per then N.of_nat (length xs) else 1)))) t (Sink sps (l ++ xs))) s'.
  Proof.
    intros w s s' k per t sp c xs HR HK H. rewrite (look_count w s k sp t c _ per HR HK) in H.
    apply arrive_to in H. destruct H as (l & HL & ->). cbn [things routes views globals] in *.
    set (c' := (c + (if per then N.of_nat (length xs) else 1))%N) in *.
    pose proof (R_set w s k _ (Fn sp t c') HR HK eq_refl) as H1.
    destruct (look_ent _ _ t _ H1 HL) as (e & He & Hab). apply ab_sink in Hab. destruct Hab as (sps & ->).
    assert (D : k <> t). { intros ->. rewrite (ent_set_eq w t _ _ HK) in He. discriminate. }
    rewrite ent_set_neq in He by exact D. exists sps, l. split; [exact He|]. eapply R_call; eauto.
  Qed.

  Lemma deliver_ok : forall (w : world) s f r xs s', R w s -> rel (ents w) f (Some r) -> deliver s r xs = Some s' ->
    exists w', invoke f w xs = Ok w' /\ R w' s'.
  Proof.
    intros w s [[k|g]|] r xs s' HR HF HD; cbn [rel] in HF; try contradiction.
    - destruct HF as (Hk & Hin & HS). unfold deliver in HD.
      destruct (forallb (alive s) (needs r)) eqn:AL; [|discriminate]. rewrite forallb_forall in AL.
      destruct (alive_ent w s k HR (AL _ Hin)) as (e & He). cbn [invoke]. unfold call_span. rewrite He. cbn [bind].
      unfold shape, kat in HS. pose proof (proj1 (ent_at_nth _ _ _) He) as Hn. rewrite Hn in HS.
      destruct e as [sp l|[|] t c|t|t|t|]; cbn [kind] in HS; try contradiction.
      + subst r. cbn [needs counter goal] in *.
        destruct (counted_to w s s' k false t true c xs HR He HD) as (sps & l & HT & HR').
        assert (D : k <> t) by (intros ->; congruence).
        rewrite (append_ok _ t sps l xs) by (rewrite ent_set_neq by exact D; exact HT). eauto.
      + destruct HS as (Ht & t' & -> & K). cbn [needs counter goal] in *.
        destruct (alive_ent w s t HR (AL t ltac:(cbn; auto))) as (e & Het).
        destruct K as [K|K]; unfold kat in K; rewrite (proj1 (ent_at_nth _ _ _) Het) in K; [discriminate|].
        injection K as K. destruct e; cbn in K; try discriminate. injection K as -> ->.
        destruct (counted_to w s s' t true t' false c xs HR Het HD) as (sps & l & HT & HR').
        rewrite (each_call xs w t t' c sps l Het HT). eauto.
      + subst r. cbn [needs counter goal count] in *. apply arrive_to in HD. destruct HD as (l & HL & ->).
        destruct (look_ent w s t _ HR HL) as (e & Het & Hab). apply ab_sink in Hab. destruct Hab as (sp & ->).
        rewrite (append_ok w t sp l xs Het). eexists. split; [reflexivity|]. exact (R_set w s t _ (Sink sp (l ++ xs)) HR Het eq_refl).
      + subst r. cbn [needs counter goal count] in *. apply arrive_to in HD. destruct HD as (l & HL & ->).
        destruct (look_ent w s t _ HR HL) as (e & Het & Hab). apply ab_sink in Hab. destruct Hab as (sp & ->).
        rewrite (each_append xs w t sp l Het). eexists. split; [reflexivity|]. exact (R_set w s t _ (Sink sp (l ++ xs)) HR Het eq_refl).
      + subst r. cbn [needs counter goal count arrive] in *. injection HD as <-. exists w. split; [reflexivity|]. destruct s; exact HR.
    - subst r. unfold deliver in HD. cbn in HD. destruct (nth_error (globals s) g) as [l|] eqn:E; [|discriminate]. injection HD as <-.
      cbn [invoke]. destruct (R_static w s g l xs HR E) as (-> & HR'). eauto.
  Qed.

  Lemma Forall2_nth : forall T U (P : T -> U -> Prop) l m, Forall2 P l m -> forall i,
    match nth_error l i, nth_error m i with Some x, Some y => P x y | None, None => True | _, _ => False end.
  Proof. induction 1; intros [|i]; cbn; auto. apply IHForall2. Qed.
  Lemma Forall2_lset : forall T U (P : T -> U -> Prop) l m, Forall2 P l m -> forall i x y, P x y -> Forall2 P (lset l i x) (lset m i y).
  Proof. induction 1; intros [|i] u v Huv; cbn; constructor; auto. Qed.

  Definition good (w : world) (o : op A) (v : option (option (ist * res A))) : Prop :=
    match v with
    | None => True
    | Some None => step w o = Contract
    | Some (Some (s, r)) => exists w', step w o = Ok (w', r) /\ R w' s
    end.

  Lemma R_ent : forall (w : world) s x, R w s -> R (add_ent w x) (mks (things s ++ [option_map ab x]) (routes s) (views s) (globals s)).
  Proof.
    intros w s x (T & V & G & F). unfold R, add_ent, set_ents. cbn. split; [rewrite map_app, T; reflexivity|]. split; [exact V|]. split; [exact G|].
    eapply Forall2_impl; [|exact F]. intros f r. apply rel_mono. apply mono_app.
  Qed.
  Lemma R_ref : forall (w : world) s f r, R w s -> rel (ents w) f r -> R (add_ref w f) (mks (things s) (routes s ++ [r]) (views s) (globals s)).
  Proof.
    intros w s f r (T & V & G & F) H. unfold R, add_ref. cbn. split; [exact T|]. split; [exact V|]. split; [exact G|].
    apply Forall2_app; [exact F|]. constructor; [exact H|constructor].
  Qed.
  Lemma R_len : forall (w : world) s, R w s -> length (things s) = length (ents w).
  Proof. intros w s (T & _). rewrite T, map_length. reflexivity. Qed.
  Lemma kat_new : forall es (x : option ent), kat (es ++ [x]) (length es) = option_map kind x.
  Proof. intros. unfold kat. rewrite nth_error_app2, Nat.sub_diag by lia. cbn. destruct x; reflexivity. Qed.
  Lemma kat_old : forall es (x : option ent) k, (k < length es)%nat -> kat (es ++ [x]) k = kat es k.
  Proof. intros. unfold kat. rewrite nth_error_app1 by lia. reflexivity. Qed.
  Lemma direct : forall (w : world) k t c, ent_at w k = Ok (Fn true t c) ->
    rel (ents w) (Some (TObj k)) (Some (mkr [k; t] (Some (k, false)) (To t))).
  Proof.
    intros w k t c H. cbn [rel needs]. split; [apply (ent_lt w k _ H)|]. split; [left; reflexivity|].
    unfold shape, kat. rewrite (proj1 (ent_at_nth _ _ _) H). reflexivity.
  Qed.

  Lemma write_ok : forall (w : world) s r xs, R w s ->
    match match nth_error (routes s) r with
          | Some (Some r) => match deliver s r xs with Some s => Some (Some s) | None => None end
          | Some None => Some None
          | None => None
          end with
    | None => True
    | Some None => (let! f := aget (refs w) r in invoke f w xs) = Contract
    | Some (Some s) => exists w', (let! f := aget (refs w) r in invoke f w xs) = Ok w' /\ R w' s
    end.
  Proof.
    intros w s r xs HR. pose proof HR as (_ & _ & _ & F). pose proof (Forall2_nth _ _ _ _ _ F r) as H.
    unfold aget. destruct (nth_error (refs w) r) as [f|], (nth_error (routes s) r) as [[ro|]|]; try contradiction; auto.
    - destruct (deliver s ro xs) as [s'|] eqn:E; [|exact Logic.I]. cbn [bind]. eapply deliver_ok; eauto.
    - destruct f as [[k|g]|]; try contradiction. reflexivity.
  Qed.

  Lemma make_ok : forall (w : world) s k (keep : bool), R w s ->
    match match look (things s) k with
          | None => None
          | Some x =>
              let fresh := mks (things s ++ [if keep then Some TAdapter else None]) (routes s) (views s) (globals s) in
              let add (s : ist) r := Some (mks (things s) (routes s ++ [Some r]) (views s) (globals s)) in
              match x with
              | TFn true t _ => add s (mkr [k; t] (Some (k, false)) (To t))
              | TFn false t _ => add fresh (mkr [length (things s); k; t] (Some (k, true)) (To t))
              | TSink _ => add fresh (mkr [length (things s); k] None (To k))
              | TAdapter => None
              end
          end with
    | None => True
    | Some s => exists w', make w k (negb keep) = Ok w' /\ R w' s
    end.
  Proof.
    intros w s k keep HR. destruct (look (things s) k) as [x|] eqn:E; [|exact Logic.I].
    destruct (look_ent w s k x HR E) as (e & He & <-). pose proof (R_len w s HR) as L. pose proof (ent_lt w k e He) as Hk.
    assert (NEW : forall c r, ab c = TAdapter -> rel (ents w ++ [if keep then Some c else None]) (Some (TObj (length (ents w)))) (Some r) ->
      R (add_ref (add_ent w (if negb keep then None else Some c)) (Some (TObj (length (ents w)))))
        (mks (things s ++ [if keep then Some TAdapter else None]) (routes s ++ [Some r]) (views s) (globals s))).
    { intros c r Hc Hr. pose proof (R_ent w s (if keep then Some c else None) HR) as H1.
      assert (EQ : option_map ab (if keep then Some c else None) = if keep then Some TAdapter else None) by (destruct keep; cbn; congruence).
      rewrite EQ in H1. destruct keep; cbn [negb] in *; exact (R_ref _ _ _ _ H1 Hr). }
    unfold make. rewrite He. cbn [bind].
    destruct e as [[|] l|[|] t c|t|t|t|]; cbn [ab]; try exact Logic.I; eexists; (split; [reflexivity|]); rewrite ?L; cbn [things routes views globals].
    - apply (NEW (ShiftAll k) _ eq_refl). cbn [rel needs]. split; [rewrite app_length; cbn; lia|]. split; [left; reflexivity|].
      unfold shape. rewrite kat_new. destruct keep; cbn; auto.
    - apply (NEW (ShiftEach k) _ eq_refl). cbn [rel needs]. split; [rewrite app_length; cbn; lia|]. split; [left; reflexivity|].
      unfold shape. rewrite kat_new. destruct keep; cbn; auto.
    - apply R_ref; [exact HR|]. eapply direct; eauto.
    - apply (NEW (Each k) _ eq_refl). cbn [rel needs]. split; [rewrite app_length; cbn; lia|]. split; [left; reflexivity|].
      unfold shape. rewrite kat_new. destruct keep; cbn [option_map kind]; auto.
      split; [rewrite app_length; lia|]. exists t. split; [reflexivity|]. right. rewrite kat_old by exact Hk. unfold kat.
      rewrite (proj1 (ent_at_nth _ _ _) He). reflexivity.
  Qed.

  Lemma step_ok : forall (w : world) s o, R w s -> good w o (ideal s o).
  Proof.
    intros w s o HR. pose proof HR as (T & V & G & F). pose proof (R_len w s HR) as L.
    destruct o; cbn [ideal]; unfold good, step.
    - (* NewSink *) eexists. split; [reflexivity|]. exact (R_ent w s (Some (Sink sp [])) HR).
    - (* NewFn *) destruct (look (things s) t) as [x|] eqn:E; [|exact Logic.I].
      destruct (look_ent w s t x HR E) as (e & He & <-). destruct e as [sp' l| | | | |]; cbn [ab good]; try exact Logic.I.
      rewrite He. cbn [bind]. eexists. split; [reflexivity|]. exact (R_ent w s (Some (Fn sp t 0)) HR).
    - (* Die *) destruct (look (things s) k) as [x|] eqn:E; [|exact Logic.I].
      destruct (look_ent w s k x HR E) as (e & He & <-). rewrite He. cbn [bind good]. eexists. split; [reflexivity|].
      unfold R, set_ents. cbn. split; [rewrite put_lset, T, map_lset; reflexivity|]. split; [exact V|]. split; [exact G|].
      eapply Forall2_impl; [|exact F]. intros f r. apply rel_mono, mono_die.
    - (* RefTo *) destruct (look (things s) k) as [x|] eqn:E; [|exact Logic.I].
      destruct (look_ent w s k x HR E) as (e & He & <-). destruct e as [sp' l|[|] t c| | | |]; cbn [ab good]; try exact Logic.I.
      rewrite He. cbn [bind]. eexists. split; [reflexivity|]. apply R_ref; [exact HR|]. eapply direct; eauto.
    - (* RefFun *) destruct g as [g|]; cbn [good fun_ref bind]; [|reflexivity]. eexists. split; [reflexivity|].
      apply R_ref; [exact HR|reflexivity].
    - (* DefRef *) eexists. split; [reflexivity|]. apply R_ref; [exact HR|exact Logic.I].
    - (* DefStream *) eexists. split; [reflexivity|]. rewrite L.
      refine (R_ref (add_ent w None) _ _ _ (R_ent w s None HR) _). cbn [rel needs add_ent set_ents ents]. rewrite app_length. cbn [length].
      split; [lia|]. split; [left; reflexivity|]. unfold shape. rewrite kat_new. exact Logic.I.
    - (* Make *) pose proof (make_ok w s k true HR) as H. cbn [negb] in H. cbv zeta in H. unfold good.
      destruct (look (things s) k) as [[l|[|] t c|]|]; try exact Logic.I; destruct H as (w' & -> & H); cbn [bind]; eauto.
    - (* MakeTemp *) pose proof (make_ok w s k false HR) as H. cbn [negb] in H. cbv zeta in H. unfold good.
      destruct (look (things s) k) as [[l|[|] t c|]|]; try exact Logic.I; destruct H as (w' & -> & H); cbn [bind]; eauto.
    - (* Copy *) pose proof (Forall2_nth _ _ _ _ _ F r) as H. unfold aget.
      destruct (nth_error (refs w) r), (nth_error (routes s) r); try contradiction; [|exact Logic.I].
      cbn [bind good]. eexists. split; [reflexivity|]. apply R_ref; auto.
    - (* Assign *) pose proof (Forall2_nth _ _ _ _ _ F r) as H. pose proof (Forall2_nth _ _ _ _ _ F r') as H'. unfold aget.
      destruct (nth_error (refs w) r), (nth_error (routes s) r); try contradiction; [|exact Logic.I].
      destruct (nth_error (refs w) r'), (nth_error (routes s) r'); try contradiction; [|exact Logic.I].
      cbn [bind good]. eexists. split; [reflexivity|]. unfold R. cbn. rewrite put_lset. split; [exact T|]. split; [exact V|]. split; [exact G|].
      apply Forall2_lset; auto.
    - (* Put *) pose proof (write_ok w s r [x] HR) as H. unfold good.
      destruct (nth_error (routes s) r) as [[ro|]|]; [|rewrite H; reflexivity|exact Logic.I].
      destruct (deliver s ro [x]); [|exact Logic.I]. destruct H as (w' & -> & H). cbn [bind]. eauto.
    - (* PutAll *) pose proof (write_ok w s r xs HR) as H. unfold good.
      destruct (nth_error (routes s) r) as [[ro|]|]; [|rewrite H; reflexivity|exact Logic.I].
      destruct (deliver s ro xs); [|exact Logic.I]. destruct H as (w' & -> & H). cbn [bind]. eauto.
    - (* RangeOf *) destruct (look (things s) k) as [x|] eqn:E; [|exact Logic.I].
      destruct (look_ent w s k x HR E) as (e & He & <-). destruct e as [sp' l| | | | |]; cbn [ab good]; try exact Logic.I.
      rewrite He. cbn [bind]. eexists. split; [reflexivity|]. unfold R. cbn. rewrite V. auto.
    - (* RangeEmpty *) eexists. split; [reflexivity|]. unfold R. cbn. rewrite V. auto.
    - (* Visit *) destruct (look (things s) k) as [x|] eqn:E; [|exact Logic.I].
      destruct (look_ent w s k x HR E) as (e & He & <-). destruct e as [sp' l|[|] t c| | | |]; cbn [ab good]; try exact Logic.I.
      rewrite He. cbn [bind]. unfold aget. rewrite <- V.
      assert (DEL : forall l s', deliver s (mkr [k; t] (Some (k, true)) (To t)) l = Some s' -> exists sps l0,
        ent_at w t = Ok (Sink sps l0) /\ exists w', each (call_elem k) w l = Ok w' /\ R w' s').
      { intros l s' H. unfold deliver in H. cbn [needs counter goal] in H. destruct (forallb _ _); [|discriminate].
        destruct (counted_to w s s' k true t false c l HR He H) as (sps & l0 & HT & HR'). exists sps, l0. split; [exact HT|].
        rewrite (each_call l w k t c sps l0 He HT). eauto. }
      destruct (nth_error (views s) q) as [[v|]|] eqn:EV; [| |exact Logic.I]; cbn [bind].
      + destruct (look (things s) v) as [y|] eqn:E2; [|exact Logic.I].
        destruct (look_ent w s v y HR E2) as (e2 & He2 & <-). destruct e2 as [spv l| | | | |]; cbn [ab]; try exact Logic.I.
        destruct (Nat.eqb_spec v t) as [|D]; [exact Logic.I|].
        destruct (deliver s _ l) as [s'|] eqn:ED; [|exact Logic.I].
        destruct (DEL l s' ED) as (sps & l0 & HT & w' & EW & HR'). unfold for_each. rewrite He2. cbn [bind].
        rewrite (visit_each (fun w => ent_at w v = Ok (Sink spv l) /\ (exists c, ent_at w k = Ok (Fn false t c))) (call_elem k) v spv l).
        * cbn [skipn]. rewrite EW. cbn [bind]. eauto.
        * intros ? (H & _). exact H.
        * intros w0 x w1 (Hv & c0 & Hk) H. unfold call_elem in H. rewrite Hk in H. cbn [bind] in H. unfold append in H.
          assert (K : k <> v) by congruence.
          destruct (ent_at (set_ent w0 k (Fn false t (c0 + 1))) t) as [e3| | |] eqn:E3; cbn [bind] in H; try discriminate.
          destruct e3; try discriminate. injection H as <-. split.
          -- rewrite ent_set_neq by congruence. rewrite ent_set_neq by congruence. exact Hv.
          -- exists (c0 + 1)%N. destruct (Nat.eq_dec k t) as [->|Dk]; [rewrite (ent_set_eq w0 t _ _ Hk) in E3; discriminate|].
             rewrite ent_set_neq by congruence. eapply ent_set_eq; eauto.
        * eauto.
        * reflexivity.
      + destruct (deliver s _ []) as [s'|] eqn:ED; [|exact Logic.I].
        destruct (DEL [] s' ED) as (sps & l0 & HT & w' & EW & HR'). cbn [each] in EW. injection EW as ->. cbn [for_each bind]. eauto.
    - (* VisitFun *) unfold aget. rewrite <- V. destruct g as [g|].
      2:{ cbn [good]. destruct (nth_error (views s) q); [|exact Logic.I]. reflexivity. }
      cbn [fun_ref bind].
      assert (DEL : forall l s', arrive s (Global g) l = Some s' -> exists w', each (fun w x => call_static g w [x]) w l = Ok w' /\ R w' s').
      { intros l s' H. cbn [arrive] in H. destruct (nth_error (globals s) g) as [l0|] eqn:E; [|discriminate]. injection H as <-.
        rewrite (each_static l w g l0) by congruence. eexists. split; [reflexivity|]. apply R_static; assumption. }
      destruct (nth_error (views s) q) as [[v|]|] eqn:EV; [| |exact Logic.I]; cbn [bind].
      + destruct (look (things s) v) as [y|] eqn:E2; [|exact Logic.I].
        destruct (look_ent w s v y HR E2) as (e2 & He2 & <-). destruct e2 as [spv l| | | | |]; cbn [ab]; try exact Logic.I.
        destruct (arrive s (Global g) l) as [s'|] eqn:ED; [|exact Logic.I]. destruct (DEL l s' ED) as (w' & EW & HR').
        unfold for_each. rewrite He2. cbn [bind].
        rewrite (visit_each (fun w => ent_at w v = Ok (Sink spv l)) (fun w x => call_static g w [x]) v spv l).
        * cbn [skipn]. rewrite EW. cbn [bind good]. eauto.
        * auto.
        * intros w0 x w1 Hv H. unfold call_static in H. destruct (aget (statics w0) g); cbn [bind] in H; try discriminate.
          injection H as <-. exact Hv.
        * exact He2.
        * reflexivity.
      + destruct (arrive s (Global g) []) as [s'|] eqn:ED; [|exact Logic.I]. destruct (DEL [] s' ED) as (w' & EW & HR').
        cbn [each] in EW. injection EW as ->. cbn [for_each bind good]. eauto.
    - (* Contents *) destruct (look (things s) k) as [x|] eqn:E; [|exact Logic.I].
      destruct (look_ent w s k x HR E) as (e & He & <-). destruct e; cbn [ab good]; try exact Logic.I. rewrite He. cbn [bind]. eauto.
    - (* Calls *) destruct (look (things s) k) as [x|] eqn:E; [|exact Logic.I].
      destruct (look_ent w s k x HR E) as (e & He & <-). destruct e; cbn [ab good]; try exact Logic.I. rewrite He. cbn [bind]. eauto.
    - (* Static *) unfold aget. rewrite <- G. destruct (nth_error (globals s) g); [|exact Logic.I]. cbn [bind good]. eauto.
  Qed.

  Lemma run_ok : forall os (w : world) s, R w s ->
    match irun s os with
    | None => True
    | Some None => run w os = Contract
    | Some (Some (s, rs)) => exists w', run w os = Ok (w', rs) /\ R w' s
    end.
  Proof.
    induction os as [|o os IH]; intros w s HR; cbn [irun run]; [eauto|].
    pose proof (step_ok w s o HR) as H. unfold good in H. destruct (ideal s o) as [[[s1 r]|]|]; [| |exact Logic.I].
    - destruct H as (w1 & -> & HR1). cbn [bind]. specialize (IH w1 s1 HR1). destruct (irun s1 os) as [[[s2 rs]|]|]; [| |exact Logic.I].
      + destruct IH as (w2 & -> & HR2). cbn [bind]. eauto.
      + rewrite IH. reflexivity.
    - rewrite H. reflexivity.
  Qed.
End P.

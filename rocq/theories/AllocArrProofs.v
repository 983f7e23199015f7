(* Proofs about cc::alloc_array. *)
From Coq Require Import NArith Arith List Bool Lia.
From Verif Require Import Base Cells AllocArrModel AllocArrSpec OwnHeap.
Import ListNotations.
Open Scope N_scope.

Lemma put_lset : forall T (l : list T) i x, put l i x = lset l i x.
Proof. induction l; intros [|i] x; cbn; auto. f_equal. auto. Qed.

Section P.
  Context {A : Type} (eqb : A -> A -> bool) (sz : N) (dflt : A) (tc td : bool).
  Context (Hsz : 0 < sz) (Htd : tc = true -> td = true).
  Notation cells := (list (cell A)).
  Notation objcells := (map (@Obj A)).

  Definition ocell (v : option A) : cell A := match v with Some x => Obj x | None => Raw end.
  Notation ocells := (map ocell).
  Lemma ocells_some : forall l, ocells (map Some l) = objcells l.
  Proof. intro l. rewrite map_map. reflexivity. Qed.
  Lemma ocells_none : forall n, ocells (repeat None n) = repeat Raw n.
  Proof. induction n; cbn; congruence. Qed.

  Lemma construct_from_spec : forall (l pre : list A) src k,
    (forall i x, nth_error l i = Some x -> src (length pre + i)%nat = Ok x) ->
    construct_from (length l) (length pre) src (objcells pre ++ repeat Raw (length l + k)) = Ok (objcells (pre ++ l) ++ repeat Raw k).
  Proof.
    induction l as [|x l IH]; intros pre src k H; cbn [length construct_from].
    - rewrite app_nil_r. reflexivity.
    - rewrite <- (Nat.add_0_r (length pre)) at 1. rewrite (H 0%nat x eq_refl). cbn [bind].
      rewrite construct_Ok.
      2: { rewrite nth_error_app2 by (rewrite map_length; lia). rewrite map_length, Nat.sub_diag. reflexivity. }
      cbn [bind]. specialize (IH (pre ++ [x]) src k). rewrite app_length in IH. cbn [length] in IH.
      replace (length pre + 1)%nat with (S (length pre)) in IH by lia.
      replace (pre ++ x :: l) with ((pre ++ [x]) ++ l) by (rewrite <- app_assoc; reflexivity).
      rewrite <- IH.
      + f_equal. rewrite map_app. cbn [map]. rewrite <- app_assoc. cbn [app repeat Nat.add].
        rewrite <- (map_length (@Obj A) pre). generalize (objcells pre). clear.
        induction l0; cbn; [reflexivity|]. f_equal. assumption.
      + intros i y E. replace (S (length pre) + i)%nat with (length pre + S i)%nat by lia. apply H. exact E.
  Qed.
  Lemma destroy_reverse_spec : forall (l : list A) k,
    destroy_reverse (length l) (objcells l ++ repeat Raw k) = Ok (repeat Raw (length l + k)).
  Proof.
    induction l as [|x l IH] using rev_ind; intro k; [reflexivity|].
    rewrite app_length. cbn [length]. rewrite Nat.add_1_r. cbn [destroy_reverse].
    rewrite map_app. cbn [map]. rewrite <- app_assoc. cbn [app].
    rewrite (destroy_Obj _ _ x).
    2: { rewrite nth_error_app2 by (rewrite map_length; lia). rewrite map_length, Nat.sub_diag. reflexivity. }
    cbn [bind].
    assert (lset (objcells l ++ Obj x :: repeat Raw k) (length l) Raw = objcells l ++ repeat Raw (S k)) as ->.
    { cbn [repeat]. rewrite <- (map_length (@Obj A) l). generalize (objcells l). clear.
      induction l; cbn; [reflexivity|]. f_equal. assumption. }
    rewrite IH. do 2 f_equal. lia.
  Qed.
  Lemma release_raw : forall n, @release A (repeat Raw n) = Ok tt.
  Proof.
    intro n. unfold release. replace (forallb is_raw (repeat (@Raw A) n)) with true; [reflexivity|].
    symmetry. apply forallb_forall. intros x H. apply repeat_spec in H. subst. reflexivity.
  Qed.

  Definition full (l : list (option A)) : Prop := exists l', l = map Some l'.
  Definition ok (a : aarr) (c : option (block A)) (x : seq A) : Prop :=
    aall a = fst x /\
    match c with
    | None => asize a = 0 /\ snd x = []
    | Some c => c = (fst x, ocells (snd x)) /\ asize a = N.of_nat (length (snd x)) /\ N.of_nat (length (snd x)) * sz < 2 ^ 64
                /\ (td = false -> full (snd x))
    end.
  Notation rep := (rep adata ok).
  Notation good := (good adata ok).
  Definition R (w : world A) (s : store A) : Prop := rep None (hp w) (objs w) s.

  Lemma sget_nth : forall (s : store A) k l, sget s k = Some l -> nth_error s k = Some (Some l).
  Proof. intros s k l H. unfold sget in H. destruct (nth_error s k) as [[?|]|]; congruence. Qed.
  Lemma get_nth : forall (w : world A) k a, nth_error (objs w) k = Some (Some a) -> get w k = Ok a.
  Proof. intros w k a H. unfold get. rewrite H. reflexivity. Qed.

  Lemma destroy_ok : forall h a x, good h (Some a) (Some x) -> destroy_arr td h a = Ok (drop h (adata a)).
  Proof.
    intros h a [m l] G. unfold destroy_arr. destruct (adata a) as [b|] eqn:P.
    - destruct (good_blk _ _ _ _ _ _ G P) as (c & E & Q0 & Q1 & Q2 & Q3 & Q4). cbn [fst snd] in *. subst c.
      cbn [cells_of]. rewrite E. cbn [bind].
      assert (b < length h)%nat as Hb by (apply nth_error_Some; congruence).
      destruct td.
      + cbn [bind put_cells]. rewrite E. cbn [free]. rewrite lset_nth_eq by exact Hb. rewrite Q0, Nat.eqb_refl.
        cbn [defined bind drop]. rewrite lset_twice. reflexivity.
      + destruct (Q4 eq_refl) as (l' & ->). rewrite ocells_some. rewrite map_length in Q2. rewrite Q2, Nat2N.id.
        pose proof (destroy_reverse_spec l' 0) as D. cbn [repeat] in D. rewrite app_nil_r, Nat.add_0_r in D. rewrite D.
        cbn [bind put_cells]. rewrite E. cbn [free]. rewrite lset_nth_eq by exact Hb. rewrite Q0, Nat.eqb_refl.
        cbn [defined bind drop]. rewrite release_raw. cbn [bind]. rewrite lset_twice. reflexivity.
    - destruct (good_null _ _ _ _ _ G P) as (_ & Q & _). rewrite Q. cbn [cells_of bind N.to_nat destroy_reverse].
      destruct td; reflexivity.
  Qed.

  Lemma build_ok : forall h m (l : list A) src n, n = N.of_nat (length l) -> n * sz < 2 ^ 64 ->
    (forall i x, nth_error l i = Some x -> src (h ++ [Some (m, raw_storage (length l))]) i = Ok x) ->
    build sz h m n (Some src) = Ok (h ++ [Some (m, ocells (map Some l))], mka (Some (length h)) n m).
  Proof.
    intros h m l src n -> Hl Hs. unfold build, alloc, wmul. rewrite wrap_small by exact Hl. rewrite N.div_mul by lia.
    rewrite Nat2N.id, nth_app_new.
    pose proof (construct_from_spec l [] (src (h ++ [Some (m, raw_storage (length l))])) 0 Hs) as C.
    cbn [length map app repeat] in C. rewrite Nat.add_0_r, app_nil_r in C. change (repeat Raw (length l)) with (@raw_storage A (length l)) in C. unfold Cells.cells, block, heap in *. rewrite C. cbn [bind].
    rewrite lset_app_new, ocells_some. reflexivity.
  Qed.
  Lemma build_raw : forall (h : heap A) m n, n * sz < 2 ^ 64 ->
    build sz h m n None = Ok (h ++ [Some (m, ocells (repeat None (N.to_nat n)))], mka (Some (length h)) n m).
  Proof.
    intros h m n Hl. unfold build, alloc, wmul. rewrite wrap_small by exact Hl. rewrite N.div_mul by lia.
    rewrite nth_app_new. cbn [bind]. rewrite lset_app_new, ocells_none. reflexivity.
  Qed.
  Lemma map_repeat_some : forall (x : A) n, map Some (repeat x n) = repeat (Some x) n.
  Proof. induction n; cbn; congruence. Qed.
  Lemma build_fill : forall (h : heap A) m n src x, n * sz < 2 ^ 64 ->
    src (h ++ [Some (m, raw_storage (N.to_nat n))]) = (fun _ => Ok x) ->
    build sz h m n (Some src) = Ok (h ++ [Some (m, ocells (repeat (Some x) (N.to_nat n)))], mka (Some (length h)) n m).
  Proof.
    intros h m n src x Hn Hs. rewrite <- map_repeat_some.
    apply build_ok; rewrite ?repeat_length, ?N2Nat.id; auto.
    intros i y E. pose proof (f_equal (fun f => f i) Hs) as Q. cbv beta in Q. rewrite ?repeat_length. etransitivity; [exact Q|]. apply nth_error_In in E. apply repeat_spec in E. congruence.
  Qed.
  Lemma ok_fresh : forall m n l b, n = N.of_nat (length l) -> n * sz < 2 ^ 64 -> (td = false -> full l) ->
    ok (mka (Some b) n m) (Some (m, ocells l)) (m, l).
  Proof. intros m n l b -> Hn Hf. unfold ok. cbn [aall asize fst snd]. auto. Qed.
  Lemma full_fill : forall n (x : A), full (repeat (Some x) n).
  Proof. intros. exists (repeat x n). symmetry. apply map_repeat_some. Qed.
  Lemma defaults_ok : forall (h : heap A) m n, n * sz < 2 ^ 64 ->
    let l := repeat (if tc then None else Some dflt) (N.to_nat n) in
    build sz h m n (defaults dflt tc) = Ok (h ++ [Some (m, ocells l)], mka (Some (length h)) n m) /\ (td = false -> full l).
  Proof.
    intros h m n Hn. unfold defaults. destruct tc.
    - split; [apply build_raw; exact Hn|]. intro E. rewrite Htd in E by reflexivity. discriminate.
    - split; [apply build_fill; [exact Hn|reflexivity]|]. intros _. apply full_fill.
  Qed.

  Lemma good_data : forall h a x, good h (Some a) (Some x) ->
    aall a = fst x /\ asize a = N.of_nat (length (snd x)) /\ N.of_nat (length (snd x)) * sz < 2 ^ 64 /\ cells_of h (adata a) = Ok (ocells (snd x)).
  Proof.
    intros h a [m l] G. destruct (adata a) as [b|] eqn:P.
    - destruct (good_blk _ _ _ _ _ _ G P) as (c & E & Q0 & Q1 & Q2 & Q3 & Q4). cbn [fst snd] in *. subst c. cbn [cells_of]. rewrite E. auto.
    - destruct (good_null _ _ _ _ _ G P) as (Q0 & Q1 & Q2). cbn [fst snd] in *. subst l. rewrite Q1. repeat split; auto.
  Qed.
  Lemma elements_good : forall h a x i v, good h (Some a) (Some x) -> nth_error (snd x) i = Some (Some v) -> elements a h i = Ok v.
  Proof.
    intros h a x i v G E. destruct (good_data _ _ _ G) as (_ & _ & _ & C). unfold elements. rewrite C. cbn [bind].
    apply cread_Ok. rewrite nth_error_map, E. reflexivity.
  Qed.
  Lemma index_good : forall w a x i, good (hp w) (Some a) (Some x) ->
    match nth_error (snd x) (N.to_nat i) with
    | Some (Some v) => index w a i = Ok v
    | Some None => True
    | None => index w a i = Contract
    end.
  Proof.
    intros w a x i G. unfold index. destruct (good_data _ _ _ G) as (_ & L & _ & C). rewrite L.
    destruct (nth_error (snd x) (N.to_nat i)) as [[v|]|] eqn:E; auto.
    - assert (N.to_nat i < length (snd x))%nat by (apply nth_error_Some; congruence).
      replace (i <? N.of_nat (length (snd x))) with true by (symmetry; apply N.ltb_lt; lia). cbn [contract bind].
      eapply elements_good; eauto.
    - apply nth_error_None in E. replace (i <? N.of_nat (length (snd x))) with false by (symmetry; apply N.ltb_ge; lia). reflexivity.
  Qed.

  Lemma loops : forall (l r pre pre' : list (option A)) f g b,
    length l = length r -> length pre = length pre' -> same eqb l r = Some b ->
    (forall i x, nth_error (pre ++ l) (N.to_nat i) = Some (Some x) -> f i = Ok x) ->
    (forall i x, nth_error (pre' ++ r) (N.to_nat i) = Some (Some x) -> g i = Ok x) ->
    eq_loop eqb (length l) (N.of_nat (length pre)) f g = Ok b /\
    ne_loop eqb (length l) (N.of_nat (length pre)) f g = Ok (negb b).
  Proof.
    induction l as [|x l IH]; intros [|y r] pre pre' f g b L L' Hb Hf Hg; try discriminate; cbn [same] in Hb.
    { injection Hb as <-. split; reflexivity. }
    destruct x as [x|]; [|discriminate]. destruct y as [y|]; [|discriminate].
    cbn [length eq_loop ne_loop].
    assert (f (N.of_nat (length pre)) = Ok x) as ->.
    { apply Hf. rewrite Nat2N.id, nth_error_app2, Nat.sub_diag by lia. reflexivity. }
    assert (g (N.of_nat (length pre)) = Ok y) as ->.
    { apply Hg. rewrite Nat2N.id, L', nth_error_app2, Nat.sub_diag by lia. reflexivity. }
    cbn [bind]. destruct (eqb x y); cbn [negb]; [|injection Hb as <-; split; reflexivity].
    specialize (IH r (pre ++ [Some x]) (pre' ++ [Some y]) f g b). rewrite !app_length in IH. cbn [length] in IH.
    replace (N.of_nat (length pre) + 1) with (N.of_nat (length pre + 1)) by lia. apply IH.
    - cbn in L. lia.
    - lia.
    - exact Hb.
    - intros i z E. rewrite <- app_assoc in E. apply Hf. exact E.
    - intros i z E. rewrite <- app_assoc in E. apply Hg. exact E.
  Qed.

  Lemma ok_null : forall m, ok (null m) None (m, []).
  Proof. intro m. unfold ok. auto. Qed.

  (* the value of an argument, read after the block of another array (if any) was given back and a new one made *)
  Lemma eval_ok : forall w s x v h c, R w s -> argval s x = Some v ->
    (forall j i, x = Elem j i -> forall o y, nth_error (objs w) j = Some (Some o) -> good (hp w) (Some o) (Some y) -> good h (Some o) (Some y)) ->
    eval w x (h ++ [c]) = Ok v.
  Proof.
    intros w s x v h c HR Hx Hh. destruct x as [x|j i]; cbn [argval eval] in *; [congruence|].
    destruct (sget s j) as [[m l]|] eqn:Sj; [|discriminate].
    destruct (rep_get _ _ _ _ _ _ _ _ HR ltac:(discriminate) (sget_nth _ _ _ Sj)) as (o & Oj & Gj & _).
    rewrite (get_nth _ _ _ Oj). cbn [bind]. apply (elements_good _ _ (m, l)).
    - apply good_app. apply (Hh j i eq_refl); assumption.
    - cbn [snd]. destruct (nth_error l (N.to_nat i)) as [[?|]|]; congruence.
  Qed.

  Lemma add_ok : forall w s m l n src, R w s -> n = N.of_nat (length l) -> n * sz < 2 ^ 64 -> (td = false -> full l) ->
    build sz (hp w) m n src = Ok (hp w ++ [Some (m, ocells l)], mka (Some (length (hp w))) n m) ->
    exists w', add w (build sz (hp w) m n src) = Ok w' /\ R w' (s ++ [Some (m, l)]).
  Proof.
    intros w s m l n src HR Hn Hf Hl E. rewrite E. cbn [add bind]. eexists. split; [reflexivity|].
    apply new_fresh; [exact HR|reflexivity|]. apply ok_fresh; assumption.
  Qed.

  Lemma reset_ok : forall w s k m n src l x, R w s -> n = N.of_nat (length l) -> n * sz < 2 ^ 64 -> (td = false -> full l) ->
    sget s k = Some x ->
    (forall a h m, nth_error (objs w) k = Some (Some a) -> h = drop (hp w) (adata a) ->
       build sz h m n src = Ok (h ++ [Some (m, ocells l)], mka (Some (length h)) n m)) ->
    match m with
    | Some m => exists w', reset sz td w k (Some m) n src = Ok (w', RUnit) /\ R w' (put s k (Some (m, l)))
    | None => reset sz td w k None n src = Contract
    end.
  Proof.
    intros w s k m n src l x HR Hn Hf Hl Sk HB.
    destruct (rep_get _ _ _ _ _ _ _ _ HR ltac:(discriminate) (sget_nth _ _ _ Sk)) as (a & Na & G & Hk).
    destruct (rep_drop _ _ _ _ _ _ _ HR Na) as (D & _).
    unfold reset. rewrite (get_nth _ _ _ Na). cbn [bind]. rewrite (destroy_ok _ _ _ G). cbn [bind].
    destruct m as [m|]; cbn [with_allocator]; [|reflexivity].
    destruct (N.ltb_spec 0 n) as [Hz|Hz].
    - rewrite (HB a _ m Na eq_refl). cbn [bind]. eexists. split; [reflexivity|]. rewrite put_lset.
      apply close_fresh; [exact D|exact Hk|reflexivity|]. apply ok_fresh; assumption.
    - eexists. split; [reflexivity|]. rewrite put_lset. assert (l = []) as -> by (destruct l; [reflexivity|cbn in Hn; lia]).
      apply close_null; [exact D|exact Hk|reflexivity|apply ok_null].
  Qed.

  Lemma len_fill : forall n (x : option A), n = N.of_nat (length (repeat x (N.to_nat n))).
  Proof. intros. rewrite repeat_length, N2Nat.id. reflexivity. Qed.

  Lemma step_ok : forall w s o, R w s -> fits sz o -> no_self o -> uninit_ok td o ->
    match ideal eqb sz dflt tc s o with
    | Some (Some (s', r)) => exists w', step eqb sz dflt tc td w o = Ok (w', r) /\ R w' s'
    | Some None => step eqb sz dflt tc td w o = Contract
    | None => True
    end.
  Proof.
    intros w s o HR Hf Hn Hu.
    assert (G : forall k x, sget s k = Some x -> exists a, get w k = Ok a /\ nth_error (objs w) k = Some (Some a) /\
       good (hp w) (Some a) (Some x) /\ (k < length (objs w))%nat).
    { intros k x Sk. destruct (rep_get _ _ _ _ _ _ _ _ HR ltac:(discriminate) (sget_nth _ _ _ Sk)) as (a & Na & Ga & Hk).
      exists a. split; [apply get_nth; exact Na|]. auto. }
    assert (CMP : forall k j xk xj a r b, sget s k = Some xk -> sget s j = Some xj ->
        good (hp w) (Some a) (Some xk) -> good (hp w) (Some r) (Some xj) ->
        length (snd xk) = length (snd xj) -> same eqb (snd xk) (snd xj) = Some b ->
        eq_loop eqb (N.to_nat (asize a)) 0 (fun i => elements a (hp w) (N.to_nat i)) (index w r) = Ok b /\
        ne_loop eqb (N.to_nat (asize a)) 0 (fun i => elements a (hp w) (N.to_nat i)) (index w r) = Ok (negb b)).
    { intros k j xk xj a r b Sk Sj Gk Gj L E. destruct (good_data _ _ _ Gk) as (_ & Lk & _). rewrite Lk, Nat2N.id.
      apply (loops (snd xk) (snd xj) [] []); auto.
      - intros i v Q. cbn [app] in Q. eapply elements_good; eauto.
      - intros i v Q. cbn [app] in Q. pose proof (index_good _ _ _ i Gj) as I. rewrite Q in I. exact I. }
    destruct o as [m|n m|n m|n x m|vs m|j|k j|k|k m n|k m n x|k n x|k i|k i x|k j|k j|k|k|k]; cbn [ideal step fits no_self uninit_ok] in *.
    - (* New *) destruct m as [m|]; cbn [with_allocator]; [|reflexivity]. eexists. split; [reflexivity|].
      apply new_null; [exact HR|reflexivity|apply ok_null].
    - (* NewSized *) destruct m as [m|]; cbn [with_allocator]; [|reflexivity].
      destruct (defaults_ok (hp w) m n Hf) as (E & F).
      destruct (add_ok w s m _ n _ HR (len_fill _ _) Hf F E) as (w' & E' & HR'). rewrite E'. cbn [bind]. eauto.
    - (* Uninit *) destruct m as [m|]; cbn [with_allocator]; [|reflexivity].
      destruct (add_ok w s m _ n None HR (len_fill _ None) Hf) as (w' & E' & HR').
      + intro E. destruct Hu as [Hu| ->]; [congruence|]. exists []. reflexivity.
      + apply build_raw. exact Hf.
      + rewrite E'. cbn [bind]. eauto.
    - (* Filled *) destruct (argval s x) as [v|] eqn:Hx; [|exact Logic.I].
      destruct m as [m|]; cbn [with_allocator]; [|reflexivity].
      destruct (add_ok w s m (repeat (Some v) (N.to_nat n)) n (Some (fun h _ => eval w x h)) HR (len_fill _ _) Hf (fun _ => full_fill _ _)) as (w' & E' & HR').
      + apply build_fill; [exact Hf|]. rewrite (eval_ok w s x v (hp w) _ HR Hx); auto.
      + rewrite E'. cbn [bind]. eauto.
    - (* NewFrom *) destruct m as [m|]; cbn [with_allocator]; [|reflexivity].
      destruct (add_ok w s m (map Some vs) (N.of_nat (length vs)) (Some (values vs)) HR) as (w' & E' & HR').
      + rewrite map_length. reflexivity.
      + exact Hf.
      + intros _. exists vs. reflexivity.
      + apply build_ok; auto. intros i x Q. unfold values. apply aget_Ok. exact Q.
      + rewrite E'. cbn [bind]. eauto.
    - (* MoveNew *) destruct (sget s j) as [[m l]|] eqn:Sj; [|exact Logic.I]. destruct (G _ _ Sj) as (a & Ga & Na & Go & Hj).
      rewrite Ga. cbn [bind]. eexists. split; [reflexivity|]. rewrite put_lset.
      apply (new_steal _ _ _ _ _ _ a (m, l)); auto; [apply sget_nth; exact Sj|apply ok_null].
    - (* MoveAssign *)
      destruct (sget s k) as [xk|] eqn:Sk; [|exact Logic.I]. destruct xk as [mk lk].
      destruct (sget s j) as [[m l]|] eqn:Sj; [|exact Logic.I].
      destruct (G _ _ Sk) as (a & Ga & Na & Go & Hk). destruct (G _ _ Sj) as (r & Gr & Nr & Gor & Hj).
      rewrite Ga. cbn [bind]. rewrite (destroy_ok _ _ _ Go). cbn [bind]. rewrite Gr. cbn [bind]. eexists. split; [reflexivity|].
      destruct (rep_drop _ _ _ _ _ _ _ HR Na) as (D & _). rewrite !put_lset. unfold R. cbn [hp objs].
      destruct (Nat.eq_dec j k) as [->|N].
      + rewrite !lset_twice. apply close_null; [exact D|exact Hk|reflexivity|apply ok_null].
      + apply close_null; [|rewrite lset_length; exact Hj|reflexivity|apply ok_null].
        apply (steal _ _ _ _ _ _ j r r (m, l) (m, l)); auto. apply sget_nth; exact Sj.
    - (* Destroy *)
      destruct (sget s k) as [[m l]|] eqn:Sk; [|exact Logic.I]. destruct (G _ _ Sk) as (a & Ga & Na & Go & Hk).
      rewrite Ga. cbn [bind]. rewrite (destroy_ok _ _ _ Go). cbn [bind]. eexists. split; [reflexivity|].
      rewrite put_lset. apply close_gone; [|exact Hk]. apply (rep_drop _ _ _ _ _ _ _ HR Na).
    - (* Reset *)
      destruct (sget s k) as [[mk lk]|] eqn:Sk; [|exact Logic.I].
      pose proof (reset_ok w s k m n (defaults dflt tc) (repeat (if tc then None else Some dflt) (N.to_nat n)) (mk, lk) HR (len_fill _ _) Hf) as K.
      assert (F : td = false -> full (repeat (if tc then None else Some dflt) (N.to_nat n))) by apply (proj2 (defaults_ok [] 0 n Hf)).
      specialize (K F Sk (fun a h m _ _ => proj1 (defaults_ok h m n Hf))). destruct m; exact K.
    - (* ResetVal *)
      destruct (sget s k) as [[mk lk]|] eqn:Sk; [|exact Logic.I].
      destruct (argval s x) as [v|] eqn:Hx; [|exact Logic.I].
      pose proof (reset_ok w s k m n (Some (fun h _ => eval w x h)) (repeat (Some v) (N.to_nat n)) (mk, lk) HR (len_fill _ _) Hf (fun _ => full_fill _ _) Sk) as K.
      assert (Q : match m with
          | Some m => exists w', reset sz td w k (Some m) n (Some (fun h _ => eval w x h)) = Ok (w', RUnit) /\ R w' (put s k (Some (m, repeat (Some v) (N.to_nat n))))
          | None => reset sz td w k None n (Some (fun h _ => eval w x h)) = Contract
          end).
      { apply K. intros a h m' Na ->. apply build_fill; [exact Hf|].
        rewrite (eval_ok w s x v _ _ HR Hx); auto. intros j i -> o y Oj Gj.
        apply (proj2 (rep_drop _ _ _ _ _ _ _ HR Na) j); auto. }
      destruct m; exact Q.
    - (* Resize *)
      destruct (sget s k) as [[mk lk]|] eqn:Sk; [|exact Logic.I]. destruct (G _ _ Sk) as (a & Ga & Na & Go & Hk).
      destruct (argval s x) as [v|] eqn:Hx; [|exact Logic.I].
      rewrite Ga. cbn [bind]. rewrite (destroy_ok _ _ _ Go). cbn [bind].
      destruct (rep_drop _ _ _ _ _ _ _ HR Na) as (D & DG).
      destruct (good_data _ _ _ Go) as (Em & _). cbn [fst] in Em.
      rewrite (build_fill _ (aall a) n _ v Hf).
      + cbn [bind]. eexists. split; [reflexivity|]. rewrite put_lset, Em.
        apply close_fresh; [exact D|exact Hk|reflexivity|]. apply ok_fresh; [apply len_fill|exact Hf|intros _; apply full_fill].
      + rewrite (eval_ok w s x v _ _ HR Hx); auto. intros j i -> o y Oj Gj. apply (DG j); auto.
    - (* Get *)
      destruct (sget s k) as [[m l]|] eqn:Sk; [|exact Logic.I]. destruct (G _ _ Sk) as (a & Ga & Na & Go & Hk).
      rewrite Ga. cbn [bind]. pose proof (index_good _ _ _ i Go) as I. cbn [snd] in I.
      destruct (nth_error l (N.to_nat i)) as [[v|]|]; [| exact Logic.I|]; rewrite I; cbn [bind]; [eauto|reflexivity].
    - (* Set_ *)
      destruct (sget s k) as [[m l]|] eqn:Sk; [|exact Logic.I]. destruct (G _ _ Sk) as (a & Ga & Na & Go & Hk).
      rewrite Ga. cbn [bind]. destruct (good_data _ _ _ Go) as (Em & L & Hb & C). cbn [fst snd] in *. rewrite L.
      destruct (nth_error l (N.to_nat i)) as [v|] eqn:Ev.
      + assert (N.to_nat i < length l)%nat as Hi by (apply nth_error_Some; congruence).
        replace (i <? N.of_nat (length l)) with true by (symmetry; apply N.ltb_lt; lia). cbn [contract bind]. rewrite C. cbn [bind].
        assert (Q : (v = None -> tc = true) -> exists w' : world A,
          (let! c := assign_elem tc (ocells l) (N.to_nat i) x in Ok (mkw (put_cells (hp w) (adata a) c) (objs w), @RUnit A)) = Ok (w', RUnit) /\
          R w' (put s k (Some (m, put l (N.to_nat i) (Some x))))).
        { intro Hv. assert (assign_elem tc (ocells l) (N.to_nat i) x = Ok (lset (ocells l) (N.to_nat i) (Obj x))) as ->.
          { unfold assign_elem. rewrite nth_error_map, Ev. cbn [option_map]. destruct v as [v|]; cbn [ocell].
            - apply (assign_Obj _ _ v). rewrite nth_error_map, Ev. reflexivity.
            - rewrite Hv by reflexivity. reflexivity. }
          cbn [bind]. eexists. split; [reflexivity|]. rewrite !put_lset.
          assert (lset (ocells l) (N.to_nat i) (Obj x) = ocells (lset l (N.to_nat i) (Some x))) as ->.
          { generalize (N.to_nat i) as q. clear. induction l; intros [|q]; cbn; auto. f_equal. auto. }
          destruct (adata a) as [b|] eqn:P.
          - destruct (good_blk _ _ _ _ _ _ Go P) as (c & E & Q0 & Q1 & Q2 & Q3 & Q4). cbn [fst snd] in *. subst c.
            cbn [put_cells]. rewrite E.
            pose proof (rep_upd _ _ _ _ _ k a a (m, lset l (N.to_nat i) (Some x)) b (m, ocells (lset l (N.to_nat i) (Some x))) HR Na P P) as U.
            rewrite (lset_same _ (objs w)) in U by exact Na. apply U.
            unfold ok. cbn [fst snd]. rewrite lset_length. repeat split; auto. intro T. destruct (Q4 T) as (l' & ->).
            exists (lset l' (N.to_nat i) x). clear. generalize (N.to_nat i) as q. induction l'; intros [|q]; cbn; auto. f_equal. auto.
          - destruct (good_null _ _ _ _ _ Go P) as (_ & _ & Z). cbn [snd] in Z. subst l. cbn in Hi. lia. }
        destruct v as [v|]; [apply Q; discriminate|]. destruct tc; [|exact Logic.I]. apply Q. reflexivity.
      + apply nth_error_None in Ev. replace (i <? N.of_nat (length l)) with false by (symmetry; apply N.ltb_ge; lia). reflexivity.
    - (* Eq *)
      destruct (sget s k) as [[mk lk]|] eqn:Sk; [|exact Logic.I]. destruct (sget s j) as [[mj lj]|] eqn:Sj; [|exact Logic.I].
      destruct (G _ _ Sk) as (a & Ga & Na & Go & Hk). destruct (G _ _ Sj) as (r & Gr & Nr & Gor & Hj).
      rewrite Ga, Gr. cbn [bind]. destruct (good_data _ _ _ Go) as (_ & La & _). destruct (good_data _ _ _ Gor) as (_ & Lr & _).
      cbn [snd] in *. rewrite (N.eqb_compare (asize a)), La, Lr, <- N.eqb_compare.
      destruct (Nat.eqb_spec (length lk) (length lj)) as [E|E].
      + rewrite E, N.eqb_refl. rewrite <- E, <- La. destruct (same eqb lk lj) as [b|] eqn:Eb; [|exact Logic.I].
        rewrite (proj1 (CMP _ _ _ _ _ _ b Sk Sj Go Gor E Eb)). cbn [bind]. eauto.
      + replace (N.of_nat (length lk) =? N.of_nat (length lj)) with false by (symmetry; apply N.eqb_neq; lia). cbn [bind]. eauto.
    - (* Ne *)
      destruct (sget s k) as [[mk lk]|] eqn:Sk; [|exact Logic.I]. destruct (sget s j) as [[mj lj]|] eqn:Sj; [|exact Logic.I].
      destruct (G _ _ Sk) as (a & Ga & Na & Go & Hk). destruct (G _ _ Sj) as (r & Gr & Nr & Gor & Hj).
      rewrite Ga, Gr. cbn [bind]. destruct (good_data _ _ _ Go) as (_ & La & _). destruct (good_data _ _ _ Gor) as (_ & Lr & _).
      cbn [snd] in *. rewrite (N.eqb_compare (asize a)), La, Lr, <- N.eqb_compare.
      destruct (Nat.eqb_spec (length lk) (length lj)) as [E|E].
      + rewrite E, N.eqb_refl. rewrite <- E, <- La. destruct (same eqb lk lj) as [b|] eqn:Eb; [|exact Logic.I].
        rewrite (proj2 (CMP _ _ _ _ _ _ b Sk Sj Go Gor E Eb)). cbn [bind]. eauto.
      + replace (N.of_nat (length lk) =? N.of_nat (length lj)) with false by (symmetry; apply N.eqb_neq; lia). cbn [bind]. eauto.
    - (* Size *)
      destruct (sget s k) as [[m l]|] eqn:Sk; [|exact Logic.I]. destruct (G _ _ Sk) as (a & Ga & Na & Go & Hk).
      rewrite Ga. cbn [bind]. destruct (good_data _ _ _ Go) as (_ & L & _). cbn [snd] in L. rewrite L. eauto.
    - (* Bytes *)
      destruct (sget s k) as [[m l]|] eqn:Sk; [|exact Logic.I]. destruct (G _ _ Sk) as (a & Ga & Na & Go & Hk).
      rewrite Ga. cbn [bind]. destruct (good_data _ _ _ Go) as (_ & L & B & _). cbn [snd] in L, B. rewrite L.
      unfold wmul. rewrite wrap_small by exact B. eauto.
    - (* Allocator *)
      destruct (sget s k) as [[m l]|] eqn:Sk; [|exact Logic.I]. destruct (G _ _ Sk) as (a & Ga & Na & Go & Hk).
      rewrite Ga. cbn [bind]. destruct (good_data _ _ _ Go) as (Em & _). cbn [fst] in Em. rewrite Em. eauto.
  Qed.

  Lemma run_ok : forall os w s, R w s -> Forall (fits sz) os -> Forall no_self os -> Forall (uninit_ok td) os ->
    match irun eqb sz dflt tc s os with
    | Some (Some (s', rs)) => exists w', run eqb sz dflt tc td w os = Ok (w', rs) /\ R w' s'
    | Some None => run eqb sz dflt tc td w os = Contract
    | None => True
    end.
  Proof.
    induction os as [|o os IH]; intros w s HR F1 F2 F3; cbn [irun run]; [eauto|].
    inversion F1 as [|? ? Fa Fb]; subst. inversion F2 as [|? ? Na Nb]; subst. inversion F3 as [|? ? Ua Ub]; subst.
    pose proof (step_ok w s o HR Fa Na Ua) as S1. destruct (ideal eqb sz dflt tc s o) as [[[s1 r]|]|]; [| |exact Logic.I].
    + destruct S1 as (w1 & E1 & R1). rewrite E1. cbn [bind]. specialize (IH w1 s1 R1 Fb Nb Ub).
      destruct (irun eqb sz dflt tc s1 os) as [[[s2 rs]|]|]; [| |exact Logic.I].
      * destruct IH as (w2 & E2 & R2). rewrite E2. cbn [bind]. eauto.
      * rewrite IH. reflexivity.
    + rewrite S1. reflexivity.
  Qed.
End P.

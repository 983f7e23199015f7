(* Theorems about reading a range of E as elements of type T (C138). *)
From Coq Require Import NArith ZArith List Lia Bool Arith.
Import ListNotations.
From Verif Require Import Base RangeModel.
Open Scope N_scope.

(* what an element at address p is as a T: itself, its T part or what it converts to *)
Definition as_T (m : memory) (ty : types) (p : N) : option (list N) :=
  match rel ty with
  | Same => Some (bytes_at m p (N.to_nat (sizeT ty)))
  | Base o => Some (bytes_at m (p + o) (N.to_nat (sizeT ty)))
  | Derived (Some f) | Other (Some f) => Some (f (bytes_at m p (N.to_nat (sizeE ty))))
  | Derived None | Other None => None
  end.
(* every type has a size, and a part is not larger than the whole *)
Definition sized (ty : types) : Prop :=
  1 <= sizeT ty /\ match rel ty with Same => sizeE ty = sizeT ty | Base o => o + sizeT ty <= sizeE ty | _ => True end.
(* addrs is an array of n elements at a *)
Definition laid_out (k : range_kind) (ty : types) (a : N) (addrs : list N) : Prop :=
  k = Linked \/ addrs = array_at (sizeE ty) a (length addrs).

(* ---------- arrays ---------- *)
Lemma array_len : forall s a n, length (array_at s a n) = n.
Proof. intros. unfold array_at. rewrite map_length, seq_length. reflexivity. Qed.
Lemma array_cons : forall s a n, array_at s a (S n) = a :: array_at s (a + s) n.
Proof.
  intros. unfold array_at. cbn [seq map]. f_equal; [lia|]. rewrite <- seq_shift, map_map. apply map_ext. intro i. lia.
Qed.
Lemma array_nth : forall s n a i, (i < n)%nat -> nth_error (array_at s a n) i = Some (a + s * N.of_nat i).
Proof.
  intros s n. induction n as [|n IH]; intros a i H; [lia|]. rewrite array_cons. destruct i; cbn [nth_error]; [f_equal; lia|].
  rewrite IH by lia. f_equal. lia.
Qed.
Lemma chunks_array : forall m s n p, chunks m p s n = map (fun q => bytes_at m q (N.to_nat s)) (array_at s p n).
Proof. intros m s n. induction n as [|n IH]; intro p; [reflexivity|]. rewrite array_cons. cbn [chunks map]. f_equal. apply IH. Qed.
Lemma array_shift : forall s n a o, array_at s (a + o) n = map (fun p => p + o) (array_at s a n).
Proof. intros. unfold array_at. rewrite map_map. apply map_ext. intro i. lia. Qed.

(* ================= C138 ================= *)

(* push_back_range appends the elements, unless the range is a non-const container of objects derived from T *)
Theorem C138_push_back_range : forall m k ty a addrs l, sized ty -> laid_out k ty a addrs ->
  (k <> Container \/ constE ty = true \/ forall o, rel ty <> Base o) ->
  push_back_range m k ty addrs = Runs l -> map Some l = map (as_T m ty) addrs.
Proof.
  intros m k ty a addrs l (Z & S) L H R. unfold push_back_range in R.
  destruct (is_contiguous_range k (mkty (sizeE ty) (sizeT ty) (rel ty) (constE ty) false)) eqn:E.
  - destruct (converts (mkty (sizeE ty) (sizeT ty) (rel ty) (constE ty) true)) eqn:Cv; [|discriminate]. injection R as <-.
    assert (Sm : rel ty = Same).
    { destruct k; cbn in E.
      - destruct (rel ty); try discriminate. reflexivity.
      - unfold static_casts, keeps_const in E. cbn in E. destruct (constE ty) eqn:Ec; [discriminate|].
        unfold converts in Cv. cbn in Cv. destruct (rel ty) as [|o|f|f] eqn:Er; try reflexivity; try discriminate.
        destruct H as [H|[H|H]]; [congruence|congruence|]. exfalso. apply (H o). reflexivity.
      - discriminate. }
    assert (Lo : addrs = array_at (sizeE ty) a (length addrs)). { destruct L as [->|L]; [discriminate E|exact L]. }
    rewrite Sm in S. unfold as_T, cast. rewrite Sm. destruct addrs as [|a0 t]; [reflexivity|].
    assert (a0 = a). { cbn [length] in Lo. rewrite array_cons in Lo. congruence. } subst a0.
    rewrite chunks_array, <- S, <- Lo. rewrite map_map. reflexivity.
  - unfold as_T. destruct (rel ty) as [|o|[f|]|[f|]] eqn:Er; try discriminate; injection R as <-; rewrite map_map; apply map_ext; intro p;
      unfold push_back, cast; rewrite Er; reflexivity.
Qed.

Lemma bytes_head : forall m p n, (1 <= n)%nat -> hd_error (bytes_at m p n) = Some (m p).
Proof. intros m p [|n] H; [lia|reflexivity]. Qed.

(* a non-const container of derived objects is read correctly exactly if there is at most one or the derived class adds nothing *)
Theorem C138_derived_exact : forall ty o a n, sized ty -> rel ty = Base o -> constE ty = false ->
  ((forall m, exists l, push_back_range m Container ty (array_at (sizeE ty) a n) = Runs l /\
                        map Some l = map (as_T m ty) (array_at (sizeE ty) a n))
   <-> (n <= 1)%nat \/ sizeE ty = sizeT ty).
Proof.
  intros ty o a n (Z & S) Er Ec. rewrite Er in S.
  assert (R : forall m, push_back_range m Container ty (array_at (sizeE ty) a n) =
    Runs (match array_at (sizeE ty) a n with [] => [] | a :: _ => chunks m (a + o) (sizeT ty) n end)).
  { intro m. unfold push_back_range, is_contiguous_range, static_casts, converts, keeps_const, cast. cbn [rel constE constT sizeE sizeT].
    rewrite Er, Ec. cbn [negb orb andb]. rewrite array_len. reflexivity. }
  assert (W : forall m, map (as_T m ty) (array_at (sizeE ty) a n) = map (fun p => Some (bytes_at m (p + o) (N.to_nat (sizeT ty)))) (array_at (sizeE ty) a n)).
  { intro m. apply map_ext. intro p. unfold as_T. rewrite Er. reflexivity. }
  split.
  - intro H. destruct (le_lt_dec n 1) as [|Hn]; [auto|]. right. destruct (N.eq_dec (sizeE ty) (sizeT ty)) as [|Ne]; [auto|]. exfalso.
    destruct (H (fun x => if x =? a + o + sizeT ty then 1 else 0)) as (l & R' & Q). rewrite R in R'. injection R' as <-. rewrite W in Q.
    destruct n as [|[|n]]; [lia|lia|]. rewrite !array_cons in Q. cbn [map chunks] in Q. injection Q as Q _.
    apply (f_equal (@hd_error N)) in Q. rewrite !bytes_head in Q by lia.
    rewrite N.eqb_refl in Q. destruct (N.eqb_spec (a + sizeE ty + o) (a + o + sizeT ty)); [lia|discriminate].
  - intros Hn m. rewrite R, W. eexists. split; [reflexivity|].
    destruct n as [|n]; [reflexivity|]. rewrite (array_cons (sizeE ty) a n). rewrite chunks_array. destruct Hn as [Hn|Hn].
    + assert (n = 0%nat) by lia. subst n. rewrite array_cons. reflexivity.
    + rewrite <- (array_cons (sizeE ty) a n), <- Hn, array_shift, !map_map. reflexivity.
Qed.

(* when the call is rejected *)
Theorem C138_push_back_range_compiles : forall m k ty addrs,
  push_back_range m k ty addrs = HardError <->
  (k = Container /\ constE ty = false /\ exists f, rel ty = Derived f) \/ rel ty = Derived None \/ rel ty = Other None.
Proof.
  intros m k [sE sT r cE cT] addrs. unfold push_back_range, is_contiguous_range, static_casts, converts, keeps_const. cbn [rel constE constT sizeE sizeT].
  destruct k, r as [|o|[f|]|[f|]], cE; cbn; split; intro H; try discriminate; try solve [auto 6]; try solve [left; repeat split; eauto];
    destruct H as [(H1 & H2 & g & H3)|[H|H]]; discriminate.
Qed.
(* a range of T's own base class whose elements convert to T is rejected only because the container is not const *)
Theorem C138_rejects_convertible_refuted : exists ty m addrs l,
  push_back_range m Container ty addrs = HardError /\
  push_back_range m Container (mkty (sizeE ty) (sizeT ty) (rel ty) true (constT ty)) addrs = Runs l /\
  push_back_range m Linked ty addrs = Runs l /\ map Some l = map (as_T m ty) addrs /\ span_of Container ty 0 1 = HardError.
Proof.
  exists (mkty 1 2 (Derived (Some (fun b => b ++ [0]))) false false), (fun x => x), [5; 6], [[5; 0]; [6; 0]].
  vm_compute. auto 6.
Qed.

(* const and non-const containers with the same elements, struct B { char x; }; struct D : B { char y; }; *)
Definition tyBD (c : bool) : types := mkty 2 1 (Base 0) c false.
Definition memBD : memory := fun x => nth (N.to_nat x) [1; 2; 3; 4] 0.
Theorem C138_derived_refuted :
  push_back_range memBD Container (tyBD false) [0; 2] = Runs [[1]; [2]] /\
  push_back_range memBD Container (tyBD true) [0; 2] = Runs [[1]; [3]] /\
  push_back_range memBD CArray (tyBD false) [0; 2] = Runs [[1]; [3]] /\
  map (as_T memBD (tyBD false)) [0; 2] = [Some [1]; Some [3]].
Proof. vm_compute. auto. Qed.

(* ---------- spans ---------- *)
(* element i of the view is the T part of element i of the array, wherever that is stored *)
Definition sees (ty : types) (a : N) (n : nat) (v : aview) : Prop :=
  vsize v = n /\ forall m i, (i < n)%nat -> Some (view_at m ty v i) = as_T m ty (a + sizeE ty * N.of_nat i).

Theorem C138_span : forall k ty a n v, sized ty -> span_of k ty a n = Runs v ->
  (sees ty a n v <-> rel ty = Same \/ (n <= 1)%nat \/ sizeE ty = sizeT ty).
Proof.
  intros k ty a n v (Z & S) H.
  assert (V : v = mkview (cast ty a) n (sizeT ty) /\ (rel ty = Same \/ exists o, rel ty = Base o)).
  { unfold span_of, is_contiguous_range, static_casts, converts, cast in *. destruct k, (rel ty); try discriminate;
      destruct (keeps_const ty); try discriminate; cbn in H; injection H as <-; eauto. }
  destruct V as (-> & Er). unfold sees, view_at, as_T, cast. cbn [vdata vsize vstride]. destruct Er as [Er|(o & Er)]; rewrite Er in *.
  - split; [auto|]. intros _. split; [auto|]. intros m i Hi. rewrite S. reflexivity.
  - split.
    + intros (_ & Q). destruct (le_lt_dec n 1) as [|Hn]; [auto|]. right. right. destruct (N.eq_dec (sizeE ty) (sizeT ty)) as [|Ne]; [auto|]. exfalso.
      specialize (Q (fun x => if x =? a + o + sizeT ty then 1 else 0) 1%nat Hn). injection Q as Q.
      apply (f_equal (@hd_error N)) in Q. rewrite !bytes_head in Q by lia.
      match type of Q with Some (if ?x then _ else _) = Some (if ?y then _ else _) => destruct x eqn:X; destruct y eqn:Y end; try discriminate.
      * apply N.eqb_eq in X, Y. lia.
      * apply N.eqb_neq in X. lia.
    + intro D. split; [auto|]. intros m i Hi. f_equal. f_equal. destruct D as [D|[D|D]]; [discriminate| |rewrite D; lia].
      assert (i = 0%nat) by lia. subst i. lia.
Qed.
(* strided_span built from a container is not better, although it could be: with the stride of E it sees all elements *)
Theorem C138_strided_span : forall ty a n v, sized ty ->
  (forall k, strided_span_of k ty a n = Runs v -> (sees ty a n v <-> rel ty = Same \/ (n <= 1)%nat \/ sizeE ty = sizeT ty)) /\
  (strided_span_with ty a n (sizeE ty) = Runs v -> sees ty a n v).
Proof.
  intros ty a n v Sz. split; [intros k; apply C138_span; auto|]. intro H. unfold strided_span_with, converts, cast in H.
  destruct (rel ty) as [|o|f|f] eqn:Er; rewrite ?andb_false_r in H; try discriminate; rewrite andb_true_r in H; destruct (keeps_const ty); try discriminate; injection H as <-;
    (split; [reflexivity|]); intros m i Hi; unfold view_at, as_T; rewrite Er; cbn [vdata vstride]; f_equal; f_equal. lia.
Qed.
(* when a span can be built: only a pointer to a base class makes overload resolution choose something that fails *)
Theorem C138_span_compiles : forall k ty a n,
  (span_of k ty a n = HardError <-> k = Container /\ keeps_const ty = true /\ exists f, rel ty = Derived f) /\
  ((exists v, span_of k ty a n = Runs v) <-> keeps_const ty = true /\
     (k = CArray /\ rel ty = Same \/ k = Container /\ (rel ty = Same \/ exists o, rel ty = Base o))).
Proof.
  intros k ty a n. unfold span_of, is_contiguous_range, static_casts, converts.
  split; split.
  - destruct k, (rel ty); try discriminate; destruct (keeps_const ty); try discriminate; cbn; intro H; try discriminate; eauto.
  - intros (-> & -> & f & ->). reflexivity.
  - intros (v & H). destruct k, (rel ty); try discriminate; destruct (keeps_const ty); try discriminate; cbn in H; try discriminate; eauto 6.
  - intros (-> & [(-> & ->)|(-> & [->|(o & ->)])]); cbn; eauto.
Qed.
Theorem C138_span_refuted : exists v, span_of Container (tyBD false) 0 2 = Runs v /\ view_at memBD (tyBD false) v 1 = [2] /\
  as_T memBD (tyBD false) 2 = Some [3].
Proof. eexists. vm_compute. auto. Qed.

(* non-vacuity *)
Example C138_same : exists l, push_back_range memBD Container (mkty 2 2 Same false false) [0; 2] = Runs l /\ l = [[1; 2]; [3; 4]].
Proof. eexists. vm_compute. auto. Qed.
Example C138_second_base : push_back_range memBD Container (mkty 2 1 (Base 1) true false) [0; 2] = Runs [[2]; [4]] /\
  sized (mkty 2 1 (Base 1) true false) /\ span_of Container (mkty 4 1 (Base 2) false true) 0 1 = Runs (mkview 2 1 1).
Proof. split; [reflexivity|]. split; [split; cbn; lia|reflexivity]. Qed.
Example C138_strided_ok : exists v, strided_span_with (tyBD false) 0 2 2 = Runs v /\ view_at memBD (tyBD false) v 1 = [3].
Proof. eexists. vm_compute. auto. Qed.
Example C138_const_array : span_of CArray (mkty 2 2 Same false true) 0 2 = Runs (mkview 0 2 2) /\
  is_contiguous_range CArray (mkty 2 2 Same false true) = false /\ span_of CArray (mkty 2 2 Same true false) 0 2 = NoMatch.
Proof. auto. Qed.

Print Assumptions C138_push_back_range.
Print Assumptions C138_derived_exact.
Print Assumptions C138_span.
Print Assumptions C138_strided_span.

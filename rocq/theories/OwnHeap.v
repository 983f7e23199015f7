(* Objects that each own at most one block of a heap: a representation invariant against a list of ideal
   objects, with lemmas for freeing, allocating, moving and changing blocks.  Blocks are named by position;
   a freed block is None.  Used for the proofs about owning containers; no property is stated in terms of it. *)
From Coq Require Import NArith Arith List Bool Lia.
From Verif Require Import Base.
Import ListNotations.

Lemma nth_app_new : forall T (l : list T) x, nth_error (l ++ [x]) (length l) = Some x.
Proof. intros. rewrite nth_error_app2, Nat.sub_diag by lia. reflexivity. Qed.
Lemma lset_app_new : forall T (l : list T) x y, lset (l ++ [x]) (length l) y = l ++ [y].
Proof. induction l; intros; cbn; auto. f_equal. auto. Qed.
Lemma nth_snoc : forall T (l : list T) x i y, nth_error (l ++ [x]) i = Some y ->
  nth_error l i = Some y \/ (i = length l /\ y = x).
Proof.
  intros T l x i y H. destruct (Nat.lt_ge_cases i (length l)).
  - rewrite nth_error_app1 in H by lia. auto.
  - rewrite nth_error_app2 in H by lia. destruct (i - length l)%nat as [|k] eqn:E.
    + right. split; [lia|]. cbn in H. congruence.
    + destruct k; discriminate.
Qed.
Lemma lset_same : forall T (l : list T) i x, nth_error l i = Some x -> lset l i x = l.
Proof. induction l; intros [|i] x H; cbn in *; try discriminate; f_equal; auto; congruence. Qed.
Lemma lset_twice : forall T (l : list T) i x y, lset (lset l i x) i y = lset l i y.
Proof. induction l; intros [|i] x y; cbn; auto. f_equal. auto. Qed.
Lemma lset_swap : forall T (l : list T) i j x y, i <> j -> lset (lset l i x) j y = lset (lset l j y) i x.
Proof. induction l; intros [|i] [|j] x y H; cbn; auto; try congruence. f_equal. apply IHl. congruence. Qed.
Lemma lset_cases : forall T (l : list T) i j x y, nth_error (lset l i x) j = Some y ->
  (i = j /\ y = x /\ (i < length l)%nat) \/ (i <> j /\ nth_error l j = Some y).
Proof.
  intros T l i j x y H. rewrite lset_nth in H. destruct (Nat.eqb_spec i j) as [E|E]; [|auto].
  destruct (Nat.ltb_spec i (length l)); [|discriminate]. left. repeat split; auto. congruence.
Qed.

Section O.
  Context {B O X : Type}.
  Context (ptr : O -> option nat).
  Context (ok : O -> option B -> X -> Prop).

  Definition blk (h : list (option B)) (p : option nat) : option B :=
    match p with Some b => match nth_error h b with Some c => c | None => None end | None => None end.
  Definition good (h : list (option B)) (o : option O) (x : option X) : Prop :=
    match o, x with
    | None, None => True
    | Some o, Some x => (ptr o <> None -> blk h (ptr o) <> None) /\ ok o (blk h (ptr o)) x
    | _, _ => False
    end.
  (* e: an object being replaced that owns nothing at the moment *)
  Definition rep (e : option nat) (h : list (option B)) (os : list (option O)) (s : list (option X)) : Prop :=
    length os = length s /\
    (forall i o x, Some i <> e -> nth_error os i = Some o -> nth_error s i = Some x -> good h o x) /\
    (forall i j o o' b, Some i <> e -> Some j <> e -> nth_error os i = Some (Some o) ->
       nth_error os j = Some (Some o') -> ptr o = Some b -> ptr o' = Some b -> i = j) /\
    (forall b c, nth_error h b = Some (Some c) ->
       exists i o, Some i <> e /\ nth_error os i = Some (Some o) /\ ptr o = Some b).

  Lemma rep_empty : rep None [] [] [].
  Proof.
    split; [reflexivity|]. split; [|split].
    - intros [|i] o l _ H; discriminate.
    - intros [|i] j a a' b _ _ H; discriminate.
    - intros [|b] c H; discriminate.
  Qed.
  Lemma rep_length : forall e h os s, rep e h os s -> length os = length s.
  Proof. intros e h os s R. apply R. Qed.

  Lemma rep_get : forall e h os s k x, rep e h os s -> Some k <> e -> nth_error s k = Some (Some x) ->
    exists o, nth_error os k = Some (Some o) /\ good h (Some o) (Some x) /\ (k < length os)%nat.
  Proof.
    intros e h os s k x (R1 & R2 & _) He H. assert (k < length s)%nat as L by (apply nth_error_Some; congruence).
    destruct (nth_error os k) as [o|] eqn:Eo.
    - specialize (R2 _ _ _ He Eo H). destruct o as [o|]; [|destruct R2]. exists o. split; [reflexivity|]. split; [exact R2|lia].
    - apply nth_error_None in Eo. lia.
  Qed.
  Lemma good_blk : forall h o x b, good h (Some o) (Some x) -> ptr o = Some b -> exists c, nth_error h b = Some (Some c) /\ ok o (Some c) x.
  Proof.
    intros h o x b (G1 & G2) P. rewrite P in G1, G2. cbn [blk] in *.
    destruct (nth_error h b) as [[c|]|] eqn:E; eauto; exfalso; apply G1; congruence.
  Qed.
  Lemma good_null : forall h o x, good h (Some o) (Some x) -> ptr o = None -> ok o None x.
  Proof. intros h o x (_ & G) P. rewrite P in G. exact G. Qed.

  (* a block with a living owner other than i does not belong to object i *)
  Lemma rep_other : forall e h os s i j o o' b, rep e h os s -> Some i <> e -> Some j <> e -> i <> j ->
    nth_error os i = Some (Some o) -> nth_error os j = Some (Some o') -> ptr o = Some b -> ptr o' <> Some b.
  Proof. intros e h os s i j o o' b (_ & _ & R3 & _) Hi Hj N Oi Oj P Q. apply N. exact (R3 i j o o' b Hi Hj Oi Oj P Q). Qed.

  Lemma good_lset : forall h b c o x, ptr o <> Some b -> good h (Some o) (Some x) -> good (lset h b c) (Some o) (Some x).
  Proof.
    intros h b c o x N G. unfold good in *. replace (blk (lset h b c) (ptr o)) with (blk h (ptr o)); [exact G|].
    destruct (ptr o) as [b'|]; [|reflexivity]. cbn [blk]. rewrite lset_nth_neq by congruence. reflexivity.
  Qed.
  Lemma good_app : forall h c o x, good h (Some o) (Some x) -> good (h ++ [c]) (Some o) (Some x).
  Proof.
    intros h c o x G. destruct (ptr o) as [b|] eqn:P.
    - destruct (good_blk _ _ _ _ G P) as (d & E & K). unfold good. rewrite P. cbn [blk].
      rewrite nth_error_app1 by (apply nth_error_Some; congruence). rewrite E. split; [discriminate|exact K].
    - pose proof (good_null _ _ _ G P). unfold good. rewrite P. split; [congruence|]. assumption.
  Qed.

  (* object k gives up its block *)
  Definition drop (h : list (option B)) (p : option nat) : list (option B) :=
    match p with Some b => lset h b None | None => h end.
  Lemma drop_length : forall h p, length (drop h p) = length h.
  Proof. intros h [b|]; [apply lset_length|reflexivity]. Qed.
  Lemma rep_drop : forall h os s k o, rep None h os s -> nth_error os k = Some (Some o) ->
    rep (Some k) (drop h (ptr o)) os s /\
    (forall j o' x, j <> k -> nth_error os j = Some (Some o') -> good h (Some o') (Some x) -> good (drop h (ptr o)) (Some o') (Some x)).
  Proof.
    intros h os s k o R Ho.
    assert (GG : forall j o' x, j <> k -> nth_error os j = Some (Some o') -> good h (Some o') (Some x) ->
       good (drop h (ptr o)) (Some o') (Some x)).
    { intros j o' x N Oj G. destruct (ptr o) as [b|] eqn:P; [|exact G]. cbn [drop]. apply good_lset; [|exact G].
      apply (rep_other _ _ _ _ k j o o' b R); try discriminate; auto. }
    split; [|exact GG]. destruct R as (R1 & R2 & R3 & R4). split; [exact R1|]. split; [|split].
    - intros i [o'|] [x|] Hi Oi Si; try exact (R2 i _ _ ltac:(discriminate) Oi Si).
      apply (GG i); [congruence|exact Oi|]. apply (R2 i); [discriminate|exact Oi|exact Si].
    - intros i j a a' b _ _. apply R3; discriminate.
    - intros b c H. destruct (ptr o) as [b'|] eqn:P; cbn [drop] in H.
      + apply lset_cases in H. destruct H as [(_ & H & _)|(N & H)]; [discriminate|].
        destruct (R4 _ _ H) as (i & a & _ & Q1 & Q2). exists i, a. split; [|auto]. intro E. injection E as ->. congruence.
      + destruct (R4 _ _ H) as (i & a & _ & Q1 & Q2). exists i, a. split; [|auto]. intro E. injection E as ->. congruence.
  Qed.

  (* closing the hole *)
  Lemma close_null : forall h os s k o x, rep (Some k) h os s -> (k < length os)%nat -> ptr o = None -> ok o None x ->
    rep None h (lset os k (Some o)) (lset s k (Some x)).
  Proof.
    intros h os s k o x (R1 & R2 & R3 & R4) Hk P K. split; [|split; [|split]].
    - rewrite !lset_length. exact R1.
    - intros i o' x' _ Oi Si. apply lset_cases in Oi. apply lset_cases in Si.
      destruct Oi as [(-> & -> & _)|(N & Oi)]; destruct Si as [(M & -> & _)|(M & Si)]; try congruence.
      + unfold good. rewrite P. split; [congruence|exact K].
      + apply (R2 i); auto. congruence.
    - intros i j a a' b _ _ Oi Oj Pi Pj. apply lset_cases in Oi. apply lset_cases in Oj.
      destruct Oi as [(-> & E & _)|(N & Oi)]; [congruence|]. destruct Oj as [(-> & E & _)|(M & Oj)]; [congruence|].
      apply (R3 i j a a' b); auto; congruence.
    - intros b c H. destruct (R4 _ _ H) as (i & a & Q0 & Q1 & Q2). exists i, a. split; [discriminate|]. split; [|exact Q2].
      rewrite lset_nth_neq by congruence. exact Q1.
  Qed.
  Lemma close_gone : forall h os s k, rep (Some k) h os s -> (k < length os)%nat ->
    rep None h (lset os k None) (lset s k None).
  Proof.
    intros h os s k (R1 & R2 & R3 & R4) Hk. split; [|split; [|split]].
    - rewrite !lset_length. exact R1.
    - intros i o' x' _ Oi Si. apply lset_cases in Oi. apply lset_cases in Si.
      destruct Oi as [(-> & -> & _)|(N & Oi)]; destruct Si as [(M & -> & _)|(M & Si)]; try congruence; [exact I|].
      apply (R2 i); auto. congruence.
    - intros i j a a' b _ _ Oi Oj Pi Pj. apply lset_cases in Oi. apply lset_cases in Oj.
      destruct Oi as [(-> & E & _)|(N & Oi)]; [congruence|]. destruct Oj as [(-> & E & _)|(M & Oj)]; [congruence|].
      apply (R3 i j a a' b); auto; congruence.
    - intros b c H. destruct (R4 _ _ H) as (i & a & Q0 & Q1 & Q2). exists i, a. split; [discriminate|]. split; [|exact Q2].
      rewrite lset_nth_neq by congruence. exact Q1.
  Qed.
  Lemma owned_lt : forall e h os s i o b, rep e h os s -> Some i <> e -> nth_error os i = Some (Some o) -> ptr o = Some b -> (b < length h)%nat.
  Proof.
    intros e h os s i o b (R1 & R2 & _) Hi Oi P. destruct (nth_error s i) as [[x|]|] eqn:E.
    - specialize (R2 i _ _ Hi Oi E). destruct (good_blk _ _ _ _ R2 P) as (c & Q & _). apply nth_error_Some. congruence.
    - destruct (R2 i _ _ Hi Oi E).
    - apply nth_error_None in E. assert (i < length os)%nat by (apply nth_error_Some; congruence). lia.
  Qed.
  Lemma close_fresh : forall h os s k o x c, rep (Some k) h os s -> (k < length os)%nat -> ptr o = Some (length h) -> ok o (Some c) x ->
    rep None (h ++ [Some c]) (lset os k (Some o)) (lset s k (Some x)).
  Proof.
    intros h os s k o x c R Hk P K. pose proof (fun i o b H => owned_lt _ _ _ _ i o b R H) as old. destruct R as (R1 & R2 & R3 & R4). split; [|split; [|split]].
    - rewrite !lset_length. exact R1.
    - intros i o' x' _ Oi Si. apply lset_cases in Oi. apply lset_cases in Si.
      destruct Oi as [(-> & -> & _)|(N & Oi)]; destruct Si as [(M & -> & _)|(M & Si)]; try congruence.
      + unfold good. rewrite P. cbn [blk]. rewrite nth_app_new. split; [discriminate|exact K].
      + assert (Some i <> Some k) as Hi by congruence. pose proof (R2 i _ _ Hi Oi Si) as G.
        destruct o' as [o'|], x' as [x'|]; try exact G. apply good_app. exact G.
    - intros i j a a' b _ _ Oi Oj Pi Pj. apply lset_cases in Oi. apply lset_cases in Oj.
      destruct Oi as [(-> & E & _)|(N & Oi)]; destruct Oj as [(<- & E' & _)|(M & Oj)]; try congruence.
      + injection E as ->. assert (b < length h)%nat by (apply (old j a'); congruence). rewrite P in Pi. injection Pi as <-. lia.
      + injection E' as ->. assert (b < length h)%nat by (apply (old i a); congruence). rewrite P in Pj. injection Pj as <-. lia.
      + apply (R3 i j a a' b); auto; congruence.
    - intros b d H. apply nth_snoc in H. destruct H as [H|[-> _]].
      + destruct (R4 _ _ H) as (i & a & Q0 & Q1 & Q2). exists i, a. split; [discriminate|]. split; [|exact Q2].
        rewrite lset_nth_neq by congruence. exact Q1.
      + exists k, o. split; [discriminate|]. split; [apply lset_nth_eq; exact Hk|exact P].
  Qed.
  (* object k takes over the block of object j; then j is the hole *)
  Lemma steal : forall h os s k j o o' x x', rep (Some k) h os s -> (k < length os)%nat -> j <> k ->
    nth_error os j = Some (Some o) -> nth_error s j = Some (Some x) ->
    ptr o' = ptr o -> (forall c, ok o c x -> ok o' c x') ->
    rep (Some j) h (lset os k (Some o')) (lset s k (Some x')).
  Proof.
    intros h os s k j o o' x x' (R1 & R2 & R3 & R4) Hk Hj Oj Sj P K. split; [|split; [|split]].
    - rewrite !lset_length. exact R1.
    - intros i oi xi Hi Oi Si. apply lset_cases in Oi. apply lset_cases in Si.
      destruct Oi as [(-> & -> & _)|(N & Oi)]; destruct Si as [(M & -> & _)|(M & Si)]; try congruence.
      + assert (Some j <> Some i) as Q by congruence. destruct (R2 j _ _ Q Oj Sj) as (G1 & G2).
        unfold good. rewrite P. split; [exact G1|]. apply K. exact G2.
      + apply (R2 i); auto. congruence.
    - intros i i' a a' b Hi Hi' Oi Oi' Pi Pi'. apply lset_cases in Oi. apply lset_cases in Oi'.
      destruct Oi as [(-> & E & _)|(N & Oi)]; destruct Oi' as [(<- & E' & _)|(M & Oi')]; try congruence.
      + injection E as ->. exfalso. apply Hi'. f_equal. apply (R3 i' j a' o b); auto; congruence.
      + injection E' as ->. exfalso. apply Hi. f_equal. apply (R3 i j a o b); auto; congruence.
      + apply (R3 i i' a a' b); auto; congruence.
    - intros b c H. destruct (R4 _ _ H) as (i & a & Q0 & Q1 & Q2). destruct (Nat.eq_dec i j) as [->|N].
      + exists k, o'. split; [congruence|]. split; [apply lset_nth_eq; exact Hk|]. congruence.
      + exists i, a. split; [congruence|]. split; [|exact Q2]. rewrite lset_nth_neq by congruence. exact Q1.
  Qed.
  (* object k changes the contents of its block *)
  Lemma rep_upd : forall h os s k o o' x' b c, rep None h os s -> nth_error os k = Some (Some o) -> ptr o = Some b ->
    ptr o' = Some b -> ok o' (Some c) x' ->
    rep None (lset h b (Some c)) (lset os k (Some o')) (lset s k (Some x')).
  Proof.
    intros h os s k o o' x' b c R Ok_ P P' K.
    assert (b < length h)%nat as Hb by (apply (owned_lt _ _ _ _ k o b R); [discriminate|assumption|assumption]).
    assert (k < length os)%nat as Hk by (apply nth_error_Some; congruence).
    pose proof (fun j o' => rep_other _ _ _ _ k j o o' b R ltac:(discriminate) ltac:(discriminate)) as other.
    destruct R as (R1 & R2 & R3 & R4). split; [|split; [|split]].
    - rewrite !lset_length. exact R1.
    - intros i oi xi Hi Oi Si. apply lset_cases in Oi. apply lset_cases in Si.
      destruct Oi as [(-> & -> & _)|(N & Oi)]; destruct Si as [(M & -> & _)|(M & Si)]; try congruence.
      + unfold good. rewrite P'. cbn [blk]. rewrite lset_nth_eq by exact Hb. split; [discriminate|exact K].
      + pose proof (R2 i _ _ Hi Oi Si) as G. destruct oi as [oi|], xi as [xi|]; try exact G.
        apply good_lset; [|exact G]. apply (other i oi); auto.
    - intros i j a a' b' _ _ Oi Oj Pi Pj. apply lset_cases in Oi. apply lset_cases in Oj.
      destruct Oi as [(-> & E & _)|(N & Oi)]; destruct Oj as [(<- & E' & _)|(M & Oj)]; try congruence.
      + injection E as ->. exfalso. apply (other j a'); auto; congruence.
      + injection E' as ->. exfalso. apply (other i a); auto; congruence.
      + apply (R3 i j a a' b'); auto; discriminate.
    - intros b' d H. apply lset_cases in H. destruct H as [(<- & _ & _)|(N & H)].
      + exists k, o'. split; [discriminate|]. split; [apply lset_nth_eq; exact Hk|exact P'].
      + destruct (R4 _ _ H) as (i & a & Q0 & Q1 & Q2). destruct (Nat.eq_dec k i) as [<-|M]; [congruence|].
        exists i, a. split; [discriminate|]. split; [|exact Q2]. rewrite lset_nth_neq by congruence. exact Q1.
  Qed.
  (* a new object is a hole at the end *)
  Lemma new_hole : forall h os s o x, rep None h os s -> rep (Some (length os)) h (os ++ [o]) (s ++ [x]).
  Proof.
    intros h os s o x (R1 & R2 & R3 & R4). split; [|split; [|split]].
    - rewrite !app_length. cbn. lia.
    - intros i o' l Hi Ho Hl. apply nth_snoc in Ho. destruct Ho as [Ho|[E _]]; [|congruence].
      apply nth_snoc in Hl. destruct Hl as [Hl|[E _]].
      + apply (R2 i); auto. discriminate.
      + assert (i < length os)%nat by (apply nth_error_Some; congruence). lia.
    - intros i j a1 a2 b Hi Hj Oi Oj. apply nth_snoc in Oi. destruct Oi as [Oi|[E _]]; [|congruence].
      apply nth_snoc in Oj. destruct Oj as [Oj|[E _]]; [|congruence]. apply R3; auto; discriminate.
    - intros b c H. destruct (R4 _ _ H) as (i & a1 & _ & Q1 & Q2). exists i, a1.
      assert (i < length os)%nat by (apply nth_error_Some; congruence).
      split; [intro E; injection E; lia|]. split; [|exact Q2]. rewrite nth_error_app1 by lia. exact Q1.
  Qed.
  Lemma new_null : forall h os s o x, rep None h os s -> ptr o = None -> ok o None x ->
    rep None h (os ++ [Some o]) (s ++ [Some x]).
  Proof.
    intros h os s o x R P K.
    pose proof (close_null _ _ _ _ o x (new_hole _ _ _ None None R) ltac:(rewrite app_length; cbn; lia) P K) as C.
    rewrite lset_app_new in C. rewrite (rep_length _ _ _ _ R), lset_app_new in C. exact C.
  Qed.
  Lemma new_fresh : forall h os s o x c, rep None h os s -> ptr o = Some (length h) -> ok o (Some c) x ->
    rep None (h ++ [Some c]) (os ++ [Some o]) (s ++ [Some x]).
  Proof.
    intros h os s o x c R P K.
    pose proof (close_fresh _ _ _ _ o x c (new_hole _ _ _ None None R) ltac:(rewrite app_length; cbn; lia) P K) as C.
    rewrite lset_app_new in C. rewrite (rep_length _ _ _ _ R), lset_app_new in C. exact C.
  Qed.
  (* a new object takes over the block of object j, which keeps nothing *)
  Lemma new_steal : forall h os s j o x o1 x1 o2 x2, rep None h os s ->
    nth_error os j = Some (Some o) -> nth_error s j = Some (Some x) ->
    ptr o1 = ptr o -> (forall c, ok o c x -> ok o1 c x1) -> ptr o2 = None -> ok o2 None x2 ->
    rep None h (lset os j (Some o2) ++ [Some o1]) (lset s j (Some x2) ++ [Some x1]).
  Proof.
    intros h os s j o x o1 x1 o2 x2 R Oj Sj P K P2 K2.
    assert (j < length os)%nat as Hj by (apply nth_error_Some; congruence).
    pose proof (rep_length _ _ _ _ R) as L.
    pose proof (steal _ _ _ _ j o o1 x x1 (new_hole _ _ _ None None R) ltac:(rewrite app_length; cbn; lia) ltac:(lia)
      ltac:(rewrite nth_error_app1 by lia; exact Oj) ltac:(rewrite nth_error_app1 by lia; exact Sj) P K) as C.
    apply (close_null _ _ _ _ o2 x2) in C; [|rewrite lset_length, app_length; cbn; lia|exact P2|exact K2].
    rewrite lset_app_new in C. rewrite L, lset_app_new in C. rewrite !lset_app1 in C by lia. exact C.
  Qed.
  Lemma rep_none_left : forall h os s, rep None h os s -> (forall k x, nth_error s k = Some x -> x = None) ->
    forall b c, nth_error h b = Some c -> c = None.
  Proof.
    intros h os s (R1 & R2 & R3 & R4) Hn b [c|] Hc; [|reflexivity]. exfalso.
    destruct (R4 _ _ Hc) as (i & a & _ & Ho & Ha). destruct (nth_error s i) as [x|] eqn:El.
    - pose proof (R2 i _ _ ltac:(discriminate) Ho El) as G. rewrite (Hn _ _ El) in G. exact G.
    - apply nth_error_None in El. assert (i < length os)%nat by (apply nth_error_Some; congruence). lia.
  Qed.
End O.

From Coq Require Import NArith ZArith List Bool Arith Lia.
From Verif Require Import Base Sha1Model StrModel StrSpec StrProofs SboModel SboSpec.
Import ListNotations.
Open Scope nat_scope.

Notation ofn := N.of_nat.
Ltac pw := change (2 ^ 60)%N with 1152921504606846976%N in *; change (2 ^ 61)%N with 2305843009213693952%N in *;
  change (2 ^ 63)%N with 9223372036854775808%N in *; change (2 ^ 64)%N with 18446744073709551616%N in *.
Ltac sz := repeat rewrite ?app_length, ?map_length, ?repeat_length, ?firstn_length, ?skipn_length in *; cbn [length] in *;
  repeat rewrite ?app_length, ?map_length, ?repeat_length, ?firstn_length, ?skipn_length in *; cbn [length] in *.

Lemma nth_mid : forall A (p q : list A) c n, n = length p -> nth_error (p ++ c :: q) n = Some c.
Proof. intros. subst. rewrite nth_error_app2 by lia. now rewrite Nat.sub_diag. Qed.
Lemma lset_mid : forall A (p q : list A) c x n, n = length p -> lset (p ++ c :: q) n x = p ++ x :: q.
Proof. intros A p. induction p as [|y p IH]; intros q c x n ->; cbn; auto. f_equal. now apply IH. Qed.
Lemma firstn_at : forall A (p q : list A) n, n = length p -> firstn n (p ++ q) = p.
Proof. intros. subst. rewrite firstn_app, Nat.sub_diag, firstn_all. cbn. apply app_nil_r. Qed.
Lemma skipn_at : forall A (p q : list A) n, n = length p -> skipn n (p ++ q) = q.
Proof. intros. subst. rewrite skipn_app, skipn_all, Nat.sub_diag. reflexivity. Qed.

(* ---- bytes ---- *)
Lemma bget_mid : forall p q c i, i = ofn (length p) -> bget (p ++ Some c :: q) i = Ok c.
Proof. intros. subst. unfold bget, aget. rewrite Nat2N.id, nth_mid by auto. reflexivity. Qed.
Lemma bset_mid : forall p q x c i, i = ofn (length p) -> bset (p ++ x :: q) i c = Ok (p ++ Some c :: q).
Proof.
  intros. subst. unfold bset. rewrite aset_Ok by (sz; lia). rewrite Nat2N.id, lset_mid by auto. reflexivity.
Qed.
Lemma bread_mid : forall p m q o n, o = ofn (length p) -> n = ofn (length m) -> bread (p ++ m ++ q) o n = Ok m.
Proof.
  intros. subst. unfold bread. destruct (N.leb_spec (ofn (length p) + ofn (length m)) (ofn (length (p ++ m ++ q)))); [|sz; lia].
  rewrite !Nat2N.id, skipn_at, firstn_at by auto. reflexivity.
Qed.
Lemma bwrite_mid : forall p m q m' o, o = ofn (length p) -> length m' = length m -> bwrite (p ++ m ++ q) o m' = Ok (p ++ m' ++ q).
Proof.
  intros. subst. unfold bwrite. destruct (N.leb_spec (ofn (length p) + ofn (length m')) (ofn (length (p ++ m ++ q)))); [|sz; lia].
  rewrite Nat2N.id, firstn_at by auto. do 3 f_equal. rewrite app_assoc. apply skipn_at. sz. lia.
Qed.
Lemma chars_some : forall l, chars (map Some l) = Ok l.
Proof. induction l; cbn; auto. rewrite IHl. reflexivity. Qed.
Lemma fresh_split : forall a b, repeat (@None N) (a + b) = repeat None a ++ repeat None b.
Proof. intros. apply repeat_app. Qed.

Lemma le_bytes_length : forall n v, length (le_bytes n v) = n.
Proof. induction n; intros; cbn; auto. Qed.
Lemma le_round : forall n v, (v < 256 ^ ofn n)%N -> le_load (le_bytes n v) = v.
Proof.
  induction n; intros v H.
  - cbn in H. cbn. lia.
  - change (le_load (le_bytes (S n) v)) with ((v mod 256) + 256 * le_load (le_bytes n (v / 256)))%N.
    rewrite IHn.
    + pose proof (N.div_mod v 256). lia.
    + rewrite Nat2N.inj_succ, N.pow_succ_r' in H. apply N.div_lt_upper_bound; lia.
Qed.
Lemma read_write_cap : forall c u, (c < 2 ^ 64)%N -> read_cap (write_cap c u) = Ok c.
Proof.
  intros. unfold read_cap, write_cap.
  assert (E : firstn 8 (map Some (le_bytes 8 c) ++ skipn 8 u) = map Some (le_bytes 8 c)).
  { apply firstn_at. now rewrite map_length, le_bytes_length. }
  rewrite app_length, map_length, le_bytes_length, E, chars_some.
  unfold defined. cbn [Nat.leb Nat.add bind].
  rewrite le_round; [reflexivity|]. change (256 ^ ofn 8)%N with (2 ^ 64)%N. auto.
Qed.
Lemma write_cap_length : forall c u, 8 <= length u -> length (write_cap c u) = length u.
Proof. intros. unfold write_cap. rewrite app_length, map_length, le_bytes_length, skipn_length. lia. Qed.

(* ---- loops ---- *)
Lemma copy_up_spec : forall z p y w dst src, dst = ofn (length p) -> src = ofn (length p + length y) ->
  copy_up (length z) dst src (p ++ y ++ map Some z ++ w) = Ok (p ++ map Some z ++ skipn (length z) (y ++ map Some z) ++ w).
Proof.
  induction z as [|a z IH]; intros p y w dst src -> ->.
  - cbn. now rewrite app_nil_r.
  - cbn [length copy_up map].
    replace (p ++ y ++ (Some a :: map Some z) ++ w) with ((p ++ y) ++ Some a :: (map Some z ++ w))
      by (rewrite <- !app_assoc; reflexivity).
    rewrite bget_mid by (sz; lia). cbn [bind].
    destruct y as [|y0 y].
    + rewrite app_nil_r. rewrite bset_mid by auto. cbn [bind].
      replace (p ++ Some a :: (map Some z ++ w)) with ((p ++ [Some a]) ++ [] ++ map Some z ++ w) by (rewrite <- !app_assoc; reflexivity).
      rewrite IH by (sz; lia). f_equal. rewrite <- !app_assoc. cbn [app skipn]. reflexivity.
    + replace ((p ++ y0 :: y) ++ Some a :: map Some z ++ w) with (p ++ y0 :: (y ++ Some a :: map Some z ++ w)) by (rewrite <- !app_assoc; reflexivity).
      rewrite bset_mid by auto. cbn [bind].
      replace (p ++ Some a :: y ++ Some a :: map Some z ++ w) with ((p ++ [Some a]) ++ (y ++ [Some a]) ++ map Some z ++ w)
        by (rewrite <- !app_assoc; reflexivity).
      rewrite IH by (sz; lia). f_equal. rewrite <- !app_assoc. cbn [app skipn]. reflexivity.
Qed.
Lemma copy_down_spec : forall z p y w dst src, dst = ofn (length p + length z + length y) -> src = ofn (length p + length z) ->
  copy_down (length z) dst src (p ++ map Some z ++ y ++ w) = Ok (p ++ firstn (length y) (map Some z ++ y) ++ map Some z ++ w).
Proof.
  induction z as [|a z IH] using rev_ind; intros p y w dst src -> ->.
  - cbn [length copy_down map app]. now rewrite firstn_all.
  - rewrite app_length. cbn [length]. replace (length z + 1) with (S (length z)) by lia. cbn [copy_down].
    rewrite map_app. cbn [map].
    replace (p ++ (map Some z ++ [Some a]) ++ y ++ w) with ((p ++ map Some z) ++ Some a :: (y ++ w)) by (rewrite <- !app_assoc; reflexivity).
    rewrite bget_mid by (sz; lia). cbn [bind].
    destruct y as [|y1 y2 _] using rev_ind.
    + cbn [app]. rewrite bset_mid by (sz; lia). cbn [bind].
      replace ((p ++ map Some z) ++ Some a :: w) with (p ++ map Some z ++ [] ++ Some a :: w) by (rewrite <- !app_assoc; reflexivity).
      rewrite IH by (sz; lia). f_equal. cbn [length firstn app]. rewrite <- !app_assoc. reflexivity.
    + replace ((p ++ map Some z) ++ Some a :: (y2 ++ [y1]) ++ w) with ((p ++ map Some z ++ Some a :: y2) ++ y1 :: w)
        by (repeat (rewrite <- !app_assoc; cbn [app]); reflexivity).
      rewrite bset_mid by (sz; lia). cbn [bind].
      replace ((p ++ map Some z ++ Some a :: y2) ++ Some a :: w) with (p ++ map Some z ++ (Some a :: y2) ++ (Some a :: w))
        by (repeat (rewrite <- !app_assoc; cbn [app]); reflexivity).
      rewrite IH by (sz; lia). f_equal. f_equal.
      rewrite <- !app_assoc. cbn [app]. f_equal.
      transitivity (firstn (length (Some a :: y2)) ((map Some z ++ Some a :: y2) ++ [y1])).
      * rewrite (firstn_app _ (map Some z ++ Some a :: y2) [y1]). replace (length (Some a :: y2) - length (map Some z ++ Some a :: y2)) with 0 by (sz; lia).
        cbn [firstn]. now rewrite app_nil_r.
      * rewrite app_length. cbn [length]. rewrite Nat.add_1_r, <- !app_assoc. reflexivity.
Qed.
Lemma fill_up_spec : forall m p q i c, i = ofn (length p) -> fill_up (length m) i c (p ++ m ++ q) = Ok (p ++ repeat (Some c) (length m) ++ q).
Proof.
  induction m as [|x m IH]; intros p q i c ->; [reflexivity|].
  cbn [length fill_up app]. rewrite bset_mid by auto. cbn [bind].
  replace (p ++ Some c :: m ++ q) with ((p ++ [Some c]) ++ m ++ q) by (rewrite <- app_assoc; reflexivity).
  rewrite IH by (sz; lia). rewrite <- app_assoc. reflexivity.
Qed.
Lemma map_up_spec : forall f l p q p' m' q' i, i = ofn (length p) -> i = ofn (length p') -> length m' = length l ->
  map_up f (length l) i (p ++ map Some l ++ q) (p' ++ m' ++ q') = Ok (p' ++ map Some (map f l) ++ q').
Proof.
  induction l as [|a l IH]; intros p q p' [|x' m'] q' i -> H H'; try discriminate; [reflexivity|].
  cbn [length map_up map app]. rewrite bget_mid by auto. cbn [bind]. rewrite bset_mid by auto. cbn [bind].
  replace (p ++ Some a :: map Some l ++ q) with ((p ++ [Some a]) ++ map Some l ++ q) by (rewrite <- app_assoc; reflexivity).
  replace (p' ++ Some (f a) :: m' ++ q') with ((p' ++ [Some (f a)]) ++ m' ++ q') by (rewrite <- app_assoc; reflexivity).
  rewrite IH by (sz; lia). rewrite <- app_assoc. reflexivity.
Qed.
Lemma map_own_spec : forall f l p q i, i = ofn (length p) ->
  map_own f (length l) i (p ++ map Some l ++ q) = Ok (p ++ map Some (map f l) ++ q).
Proof.
  induction l as [|a l IH]; intros p q i ->; [reflexivity|].
  cbn [length map_own map app]. rewrite bget_mid by auto. cbn [bind]. rewrite bset_mid by auto. cbn [bind].
  replace (p ++ Some (f a) :: map Some l ++ q) with ((p ++ [Some (f a)]) ++ map Some l ++ q) by (rewrite <- app_assoc; reflexivity).
  rewrite IH by (sz; lia). rewrite <- app_assoc. reflexivity.
Qed.
Lemma scan_up_spec : forall pr l p q i, i = ofn (length p) ->
  scan_up pr (length l) i (p ++ map Some l ++ q) = Ok (i + ofn (length l - length (drop_while pr l)))%N.
Proof.
  intros pr. assert (D : forall l, length (drop_while pr l) <= length l).
  { induction l; cbn; auto. destruct (pr a); cbn; lia. }
  induction l as [|a l IH]; intros p q i ->; [cbn; now rewrite N.add_0_r|].
  cbn [length scan_up map app]. rewrite bget_mid by auto. cbn [bind drop_while].
  destruct (pr a).
  - replace (p ++ Some a :: map Some l ++ q) with ((p ++ [Some a]) ++ map Some l ++ q) by (rewrite <- app_assoc; reflexivity).
    rewrite IH by (sz; lia). f_equal. specialize (D l). lia.
  - cbn [length]. rewrite Nat.sub_diag. now rewrite N.add_0_r.
Qed.
Lemma scan_down_spec : forall pr l p q i, i = ofn (length p) ->
  scan_down pr (length l) i (p ++ map Some l ++ q) = Ok (ofn (length (drop_while_end pr l))).
Proof.
  intros pr l. induction l as [|a l IH] using rev_ind; intros p q i ->; [reflexivity|].
  rewrite app_length. cbn [length]. rewrite Nat.add_1_r. cbn [scan_down]. rewrite map_app. cbn [map].
  replace (p ++ (map Some l ++ [Some a]) ++ q) with ((p ++ map Some l) ++ Some a :: q) by (rewrite <- !app_assoc; reflexivity).
  rewrite bget_mid by (sz; lia). cbn [bind].
  unfold drop_while_end. rewrite rev_app_distr. cbn [rev app drop_while]. destruct (pr a).
  - replace ((p ++ map Some l) ++ Some a :: q) with (p ++ map Some l ++ (Some a :: q)) by (rewrite <- !app_assoc; reflexivity).
    rewrite IH by auto. reflexivity.
  - rewrite rev_length. cbn [length]. rewrite rev_length. reflexivity.
Qed.
Lemma drop_while_split : forall p l, l = firstn (length l - length (drop_while p l)) l ++ drop_while p l.
Proof.
  intros p. assert (D : forall l, length (drop_while p l) <= length l).
  { induction l; cbn; auto. destruct (p a); cbn; lia. }
  induction l as [|a l IH]; [reflexivity|]. cbn [drop_while]. destruct (p a).
  - specialize (D l). cbn [length]. rewrite Nat.sub_succ_l by auto. cbn [firstn app]. now rewrite <- IH.
  - now rewrite Nat.sub_diag.
Qed.
Lemma drop_while_end_split : forall p l, exists d, l = drop_while_end p l ++ d.
Proof.
  intros. unfold drop_while_end. pose proof (drop_while_split p (rev l)) as E. apply (f_equal (@rev N)) in E.
  rewrite rev_involutive, rev_app_distr in E. eauto.
Qed.

Lemma map_rep : forall A B (f : A -> B) x n, map f (repeat x n) = repeat (f x) n.
Proof. induction n; cbn; f_equal; auto. Qed.
Lemma bset_head : forall x q c, bset (x :: q) 0 c = Ok (Some c :: q).
Proof. intros. apply (bset_mid [] q x c 0). reflexivity. Qed.
Lemma bget_head : forall c q, bget (Some c :: q) 0 = Ok c.
Proof. reflexivity. Qed.
Lemma len_lt : forall l n, (len l < n)%N -> (ofn (length l) < n)%N.
Proof. auto. Qed.

Section S.
  Variable sc : N.
  Hypothesis Hsc : (7 <= sc < 2 ^ 60)%N.

  Definition rep (s : sbo) (l : list N) (t : bool) : Prop :=
    length (un s) = N.to_nat (sc + 1) /\ ssz s = len l /\
    exists x rest, (t = true -> x = Some 0%N) /\
      match loc s with
      | LSbo => un s = map Some l ++ x :: rest
      | LHeap b => b = map Some l ++ x :: rest /\
                   exists c, read_cap (un s) = Ok c /\ c = ofn (length l + length rest) /\ (sc < c < 2 ^ 61)%N
      | LNull => False
      end.

  Lemma rep_open : forall s l t, rep s l t -> exists c x rest,
    buffer s = Ok (map Some l ++ x :: rest) /\ capacity sc s = Ok c /\ ssz s = len l /\
    c = ofn (length l + length rest) /\ (sc <= c < 2 ^ 61)%N /\ (t = true -> x = Some 0%N) /\
    (forall l' x' rest' n t', length l' + length rest' = length l + length rest -> n = len l' -> (t' = true -> x' = Some 0%N) ->
       rep (put s (map Some l' ++ x' :: rest') n) l' t').
  Proof.
    intros s l t (Hu & Hs & x & rest & Hx & H). destruct (loc s) as [|b|] eqn:EL; [| |easy].
    - exists sc, x, rest. unfold buffer, capacity, is_short. rewrite EL, H.
      assert (E : sc = ofn (length l + length rest)).
      { rewrite H in Hu. sz. lia. }
      repeat split; auto; try (pw; lia).
      + unfold put. rewrite EL. cbn [un]. rewrite H in Hu. sz. lia.
      + unfold put. rewrite EL. cbn [ssz]. auto.
      + unfold put. rewrite EL. cbn [loc un]. eauto.
    - destruct H as (-> & c & Hc & -> & Hb). eexists _, x, rest. unfold buffer, capacity, is_short. rewrite EL.
      split; [reflexivity|]. split; [exact Hc|]. repeat split; auto; try (pw; lia).
      + unfold put. rewrite EL. exact Hu.
      + unfold put. rewrite EL. auto.
      + unfold put. rewrite EL. cbn [loc un]. exists x', rest'. split; auto. split; auto.
        eexists. split; [exact Hc|]. split; [f_equal; lia|auto].
  Qed.
  Lemma rep_heap : forall s l x rest nc n t, length (un s) = N.to_nat (sc + 1) -> (sc < nc < 2 ^ 61)%N ->
    nc = ofn (length l + length rest) -> n = len l -> (t = true -> x = Some 0%N) ->
    rep (set_heap s (map Some l ++ x :: rest) n nc) l t.
  Proof.
    intros s l x rest nc n t Hu Hn E -> Hx. unfold set_heap. split; [|split].
    - cbn [un]. rewrite write_cap_length; auto. rewrite Hu. lia.
    - reflexivity.
    - cbn [loc un]. exists x, rest. split; auto. split; auto. exists nc. split; auto. apply read_write_cap. pw. lia.
  Qed.
  Lemma rep_un : forall s l t, rep s l t -> length (un s) = N.to_nat (sc + 1).
  Proof. now intros s l t (H & _). Qed.
  Lemma rep_weaken : forall s l t t', rep s l t -> (t' = true -> t = true) -> rep s l t'.
  Proof. intros s l t t' (H & H1 & x & rest & Hx & H2) I. split; auto. split; auto. exists x, rest. split; auto. Qed.
  Lemma rep_init : rep (sinit sc) [] true.
  Proof.
    split; [|split]; cbn [un ssz sinit loc].
    - unfold zeros. now rewrite repeat_length.
    - reflexivity.
    - unfold zeros. replace (N.to_nat (sc + 1)) with (S (N.to_nat sc)) by lia. cbn. eauto.
  Qed.
  Lemma rep_shows : forall s l t, rep s l t -> shows sc s l t.
  Proof.
    intros s l t H. destruct (rep_open _ _ _ H) as (c & x & rest & Hb & Hc & Hs & -> & Hbd & Hx & _).
    split; [|split; [|split]]; auto.
    - unfold contents. rewrite Hb. cbn [bind]. rewrite Hs.
      pose proof (bread_mid [] (map Some l) (x :: rest) 0%N (len l) eq_refl) as W. cbn [app] in W.
      rewrite W by (unfold len; sz; auto). cbn [bind]. apply chars_some.
    - eexists. split; [exact Hc|]. unfold len. lia.
    - intros T. eexists. split; [exact Hb|]. rewrite nth_mid by (sz; auto). f_equal. auto.
  Qed.

  (* peel the facts of a representation *)
  Ltac op H := destruct (rep_open _ _ _ H) as (cap & x & rest & Hb & Hc & Hs & Ec & Bc & Hx & P).
  Ltac split_rest r y := destruct r as [|y r]; [exfalso; sz; unfold len in *; pw; lia|].

  Lemma fresh_S : forall n, (n < 2 ^ 61)%N -> fresh (wadd 64 n 1) = repeat None (S (N.to_nat n)).
  Proof. intros. unfold fresh. rewrite wadd_small by (pw; lia). f_equal. lia. Qed.
  Lemma len_app : forall a b, len (a ++ b) = (len a + len b)%N.
  Proof. intros. unfold len. rewrite app_length. lia. Qed.

  Lemma reserve_force_rep : forall s l t nc, rep s l t -> (sc < nc < 2 ^ 61)%N -> (len l <= nc)%N ->
    exists s', reserve_force s nc = Ok s' /\ rep s' l t /\ capacity sc s' = Ok nc.
  Proof.
    intros s l t nc H Hn Hl. op H. unfold reserve_force. rewrite Hb. cbn [bind]. rewrite Hs.
    rewrite wadd_small by (unfold len in *; pw; lia).
    replace (map Some l ++ x :: rest) with ([] ++ (map Some l ++ [x]) ++ rest) by (cbn [app]; rewrite <- app_assoc; reflexivity).
    rewrite bread_mid by (unfold len; sz; lia). cbn [bind].
    rewrite fresh_S by lia.
    replace (S (N.to_nat nc)) with (length (map Some l ++ [x]) + (N.to_nat nc - length l)) by (unfold len in *; sz; lia).
    rewrite fresh_split.
    pose proof (bwrite_mid [] (repeat None (length (map Some l ++ [x]))) (repeat None (N.to_nat nc - length l)) (map Some l ++ [x]) 0%N eq_refl) as W.
    cbn [app] in W. rewrite W by (now rewrite repeat_length). cbn [bind]. rewrite <- app_assoc. cbn [app].
    eexists. split; [reflexivity|]. split.
    - apply rep_heap; auto. eapply rep_un; eauto. unfold len in *. sz. lia.
    - unfold capacity, is_short, set_heap. cbn [loc un]. apply read_write_cap. pw. lia.
  Qed.
  Lemma reserve_rep : forall s l t n, rep s l t -> (n < 2 ^ 61)%N ->
    exists s' c, reserve sc s n = Ok s' /\ rep s' l t /\ capacity sc s' = Ok c /\ (n <= c)%N.
  Proof.
    intros s l t n H Hn. op H. unfold reserve. rewrite Hc. cbn [bind]. destruct (N.leb_spec n cap).
    - eexists s, cap. auto.
    - destruct (reserve_force_rep s l t n) as (s' & E & R & C); auto. lia. unfold len. lia.
      exists s', n. repeat split; auto; try lia; apply R.
  Qed.

  (* room: after opening, the rest has at least k bytes *)
  Lemma push_back_rep : forall s l t c, rep s l t -> (len l < 2 ^ 60)%N ->
    exists s', push_back sc s c = Ok s' /\ rep s' (l ++ [c]) true.
  Proof.
    intros s l t c H Hl. unfold push_back.
    assert (G : exists s' c', (let! cap := capacity sc s in (if (ssz s =? cap)%N then reserve_force s (wrap 64 (N.shiftl cap 1)) else Ok s)) = Ok s'
             /\ rep s' l t /\ capacity sc s' = Ok c' /\ (len l < c')%N).
    { op H. rewrite Hc. cbn [bind]. rewrite Hs. destruct (N.eqb_spec (len l) cap) as [E|E].
      - rewrite N.shiftl_mul_pow2, wrap_small by (change (2 ^ 1)%N with 2%N; pw; lia). change (2 ^ 1)%N with 2%N.
        destruct (reserve_force_rep s l t (cap * 2)) as (s' & E' & R & C); auto; try (pw; lia).
        exists s', (cap * 2)%N. repeat split; auto; try lia; apply R.
      - exists s, cap. repeat split; auto; try apply H. unfold len in *. lia. }
    destruct G as (s' & c' & G & R & C & L).
    assert (G2 : forall B (k : sbo -> outcome B), (let! cap := capacity sc s in let! s0 := (if (ssz s =? cap)%N then reserve_force s (wrap 64 (N.shiftl cap 1)) else Ok s) in k s0) = k s').
    { intros. destruct (capacity sc s); cbn [bind] in *; try discriminate. rewrite G. reflexivity. }
    rewrite G2. clear G G2 H. op R. rewrite Hb. cbn [bind]. rewrite Hs, C in *. injection Hc as ->.
    split_rest rest y.
    rewrite bset_mid by (unfold len; sz; auto). cbn [bind].
    rewrite wadd_small by (pw; lia).
    replace (map Some l ++ Some c :: y :: rest) with (map Some (l ++ [c]) ++ y :: rest) by (rewrite map_app, <- app_assoc; reflexivity).
    rewrite bset_mid by (unfold len; sz; lia). cbn [bind]. eexists. split; [reflexivity|].
    apply P; auto; unfold len; sz; lia.
  Qed.

  Lemma pop_back_rep : forall s l c t, rep s (l ++ [c]) t -> exists s', pop_back s = Ok s' /\ rep s' l true.
  Proof.
    intros s l c t H. op H. unfold pop_back. rewrite Hs, len_app. change (len [c]) with 1%N.
    destruct (N.eqb_spec (len l + 1) 0); [lia|]. cbn [negb contract bind].
    rewrite wsub_ge by (unfold len in *; sz; pw; lia). replace (len l + 1 - 1)%N with (len l) by lia.
    rewrite Hb. cbn [bind]. rewrite map_app, <- app_assoc. cbn [map app].
    rewrite bset_mid by (unfold len; sz; auto). cbn [bind]. eexists. split; [reflexivity|].
    apply P; auto. sz. lia.
  Qed.

  Lemma resize_rep : forall s l t n c, rep s l t -> (n < 2 ^ 60)%N ->
    exists s', resize sc s n c = Ok s' /\ rep s' (firstn (N.to_nat n) l ++ repeat c (N.to_nat n - length l)) true.
  Proof.
    intros s l t n c H Hn. unfold resize. destruct (reserve_rep s l t n) as (s' & c' & E & R & C & L); auto; [pw; lia|].
    rewrite E. cbn [bind]. clear E H. op R. rewrite Hb. cbn [bind]. rewrite C in Hc. injection Hc as ->. rewrite Hs.
    destruct (N.ltb_spec (len l) n) as [G|G].
    - set (k := N.to_nat n - length l). assert (K : exists m r2, x :: rest = m ++ r2 /\ length m = k).
      { exists (firstn k (x :: rest)), (skipn k (x :: rest)). split. now rewrite firstn_skipn. sz. unfold len in *. lia. }
      destruct K as (m & r2 & E2 & E3). rewrite E2.
      replace (N.to_nat (n - len l)) with k by (unfold len in *; lia).
      rewrite bwrite_mid by (unfold len; sz; auto). cbn [bind].
      destruct r2 as [|y r2]. { exfalso. apply (f_equal (@length _)) in E2. sz. unfold len in *. lia. }
      rewrite app_assoc. replace (map Some l ++ repeat (Some c) k) with (map Some (l ++ repeat c k)) by (rewrite map_app, map_rep; auto).
      assert (Lk : length (l ++ repeat c k) = N.to_nat n) by (sz; unfold len in *; lia).
      rewrite bset_mid by (rewrite map_length; lia).
      cbn [bind]. eexists. split; [reflexivity|]. rewrite firstn_all2 by (unfold len in *; lia).
      apply P; auto. { apply (f_equal (@length _)) in E2. sz. lia. } { unfold len. lia. }
    - cbn [bind]. replace (N.to_nat n - length l) with 0 by (unfold len in *; lia). cbn [repeat]. rewrite app_nil_r.
      replace (map Some l) with (map Some (firstn (N.to_nat n) l) ++ map Some (skipn (N.to_nat n) l)) by (now rewrite <- map_app, firstn_skipn).
      rewrite <- app_assoc.
      assert (Lk : length (firstn (N.to_nat n) l) = N.to_nat n) by (sz; unfold len in *; lia).
      destruct (map Some (skipn (N.to_nat n) l) ++ x :: rest) as [|y r2] eqn:E2. { destruct (skipn (N.to_nat n) l); discriminate. }
      rewrite bset_mid by (rewrite map_length; lia). cbn [bind]. eexists. split; [reflexivity|].
      apply P; auto; unfold len; try lia. apply (f_equal (@length _)) in E2. sz. unfold len in *. lia.
  Qed.

  Lemma clear_rep : forall s, length (un s) = N.to_nat (sc + 1) -> rep (clear s) [] true.
  Proof.
    intros s H. split; [|split]; cbn [clear un ssz loc].
    - rewrite write_cap_length; auto. lia.
    - reflexivity.
    - unfold write_cap. cbn. eauto.
  Qed.

  Lemma rep_heap_inv : forall s l t, rep s l t -> is_short s = false ->
    exists b c x rest, loc s = LHeap b /\ b = map Some l ++ x :: rest /\ read_cap (un s) = Ok c /\ c = ofn (length l + length rest)
      /\ (sc < c < 2 ^ 61)%N /\ (t = true -> x = Some 0%N).
  Proof.
    intros s l t (Hu & Hs & x & rest & Hx & H) Sh. unfold is_short in Sh. destruct (loc s); try easy.
    destruct H as (-> & c & A & B & C). eauto 12.
  Qed.

  (* memcpy of the first size + 1 bytes into an inline buffer *)
  Lemma to_sbo : forall u l x rest t, length u = N.to_nat (sc + 1) -> (len l <= sc)%N -> (t = true -> x = Some 0%N) ->
    exists u', (let! old := bread (map Some l ++ x :: rest) 0 (wadd 64 (len l) 1) in bwrite u 0 old) = Ok u' /\ rep (mkS LSbo (len l) u') l t.
  Proof.
    intros u l x rest t Hu Hl Hx.
    replace (map Some l ++ x :: rest) with ([] ++ (map Some l ++ [x]) ++ rest) by (cbn [app]; rewrite <- app_assoc; reflexivity).
    rewrite bread_mid by (rewrite ?wadd_small by (pw; lia); unfold len; sz; lia). cbn [bind].
    rewrite <- (firstn_skipn (length l + 1) u).
    pose proof (bwrite_mid [] (firstn (length l + 1) u) (skipn (length l + 1) u) (map Some l ++ [x]) 0%N eq_refl) as W.
    cbn [app] in W. rewrite W by (unfold len in *; sz; lia). eexists. split; [reflexivity|].
    rewrite <- app_assoc. cbn [app]. split; [|split]; cbn [un ssz loc].
    - unfold len in *. sz. lia.
    - reflexivity.
    - eauto.
  Qed.
  (* the same into a new heap block of n + 1 bytes *)
  Lemma to_heap : forall u l x rest t, length u = N.to_nat (sc + 1) -> (sc < len l < 2 ^ 61)%N -> (t = true -> x = Some 0%N) ->
    exists nb, (let! old := bread (map Some l ++ x :: rest) 0 (wadd 64 (len l) 1) in bwrite (fresh (wadd 64 (len l) 1)) 0 old) = Ok nb /\
      rep (mkS (LHeap nb) (len l) (write_cap (len l) u)) l t.
  Proof.
    intros u l x rest t Hu Hl Hx.
    replace (map Some l ++ x :: rest) with ([] ++ (map Some l ++ [x]) ++ rest) by (cbn [app]; rewrite <- app_assoc; reflexivity).
    rewrite bread_mid by (rewrite ?wadd_small by (pw; lia); unfold len; sz; lia). cbn [bind].
    rewrite fresh_S by lia.
    pose proof (bwrite_mid [] (repeat None (S (N.to_nat (len l)))) [] (map Some l ++ [x]) 0%N eq_refl) as W.
    cbn [app] in W. rewrite !app_nil_r in W. rewrite W by (unfold len; sz; lia). eexists. split; [reflexivity|].
    split; [|split]; cbn [un ssz loc].
    - rewrite write_cap_length; auto. lia.
    - reflexivity.
    - exists x, []. split; auto. split; auto. exists (len l). split; [apply read_write_cap; pw; lia|].
      split; [unfold len; cbn [length]; lia|lia].
  Qed.
  Lemma bind_bind : forall A B C (a : outcome A) (f : A -> outcome B) (g : B -> outcome C),
    bind (bind a f) g = bind a (fun x => bind (f x) g).
  Proof. intros. destruct a; reflexivity. Qed.

  Lemma shrink_rep : forall s l t, rep s l t -> exists s', shrink_to_fit sc s = Ok s' /\ rep s' l t.
  Proof.
    intros s l t H. unfold shrink_to_fit. destruct (is_short s) eqn:Sh; [eauto|].
    destruct (rep_heap_inv _ _ _ H Sh) as (b & c & x & rest & Hl & Eb & Hc & Ec & Bc & Hx).
    assert (Hs : ssz s = len l) by apply H. pose proof (rep_un _ _ _ H) as Hu.
    unfold capacity. rewrite Sh, Hc. cbn [bind]. rewrite Hs.
    destruct (N.eqb_spec (len l) c); [eauto|].
    unfold buffer. rewrite Hl, Eb. cbn [bind].
    destruct (N.leb_spec (len l) sc).
    - destruct (to_sbo (un s) l x rest t) as (u' & E & R); auto.
      rewrite <- (bind_bind _ _ _ (bread _ _ _) (fun old => bwrite (un s) 0 old) (fun u => Ok (mkS LSbo (len l) u))).
      rewrite E. cbn [bind]. eauto.
    - destruct (to_heap (un s) l x rest t) as (nb & E & R); auto. { unfold len in *. lia. }
      rewrite <- (bind_bind _ _ _ (bread _ _ _) (fun old => bwrite (fresh (wadd 64 (len l) 1)) 0 old) (fun nb => Ok (set_heap s nb (len l) (len l)))).
      rewrite E. cbn [bind]. eauto.
  Qed.
  Lemma copy_ctor_rep : forall s l t, rep s l t -> exists s', copy_ctor sc s = Ok s' /\ rep s' l t.
  Proof.
    intros s l t H. unfold copy_ctor. destruct (is_short s) eqn:Sh.
    { eexists. split; [reflexivity|]. destruct s as [[|b|] n u]; try discriminate. exact H. }
    destruct (rep_heap_inv _ _ _ H Sh) as (b & c & x & rest & Hl & Eb & Hc & Ec & Bc & Hx).
    assert (Hs : ssz s = len l) by apply H.
    assert (Z : length (zeros sc) = N.to_nat (sc + 1)) by (unfold zeros; now rewrite repeat_length).
    unfold buffer. rewrite Hl, Eb, Hs. cbn [bind].
    destruct (N.leb_spec (len l) sc).
    - destruct (to_sbo (zeros sc) l x rest t) as (u' & E & R); auto.
      rewrite <- (bind_bind _ _ _ (bread _ _ _) (fun old => bwrite (zeros sc) 0 old) (fun u => Ok (mkS LSbo (len l) u))).
      rewrite E. cbn [bind]. eauto.
    - destruct (to_heap (zeros sc) l x rest t) as (nb & E & R); auto. { unfold len in *. lia. }
      rewrite <- (bind_bind _ _ _ (bread _ _ _) (fun old => bwrite (fresh (wadd 64 (len l) 1)) 0 old) (fun nb => Ok (mkS (LHeap nb) (len l) (write_cap (len l) (zeros sc))))).
      rewrite E. cbn [bind]. eauto.
  Qed.
  Lemma copy_assign_rep : forall s s0 l t, rep s l t -> length (un s0) = N.to_nat (sc + 1) ->
    exists s', copy_assign sc s0 s = Ok s' /\ rep s' l t.
  Proof.
    intros s s0 l t H Hu0. unfold copy_assign. destruct (is_short s) eqn:Sh.
    { eexists. split; [reflexivity|]. destruct s as [[|b|] n u]; try discriminate. exact H. }
    destruct (rep_heap_inv _ _ _ H Sh) as (b & c & x & rest & Hl & Eb & Hc & Ec & Bc & Hx).
    assert (Hs : ssz s = len l) by apply H.
    unfold buffer. rewrite Hl, Eb, Hs. cbn [bind].
    destruct (N.leb_spec (len l) sc).
    - destruct (to_sbo (un s0) l x rest t) as (u' & E & R); auto.
      rewrite <- (bind_bind _ _ _ (bread _ _ _) (fun old => bwrite (un s0) 0 old) (fun u => Ok (mkS LSbo (len l) u))).
      rewrite E. cbn [bind]. eauto.
    - destruct (to_heap (un s0) l x rest t) as (nb & E & R); auto. { unfold len in *. lia. }
      rewrite <- (bind_bind _ _ _ (bread _ _ _) (fun old => bwrite (fresh (wadd 64 (len l) 1)) 0 old) (fun nb => Ok (set_heap s0 nb (len l) (len l)))).
      rewrite E. cbn [bind]. eauto.
  Qed.
  Lemma move_rep : forall s u l t, rep s l t -> length u = N.to_nat (sc + 1) -> is_short s = false -> exists c, read_cap (un s) = Ok c /\
    rep (mkS (loc s) (ssz s) (write_cap c u)) l t.
  Proof.
    intros s u l t H Hu Sh. destruct (rep_heap_inv _ _ _ H Sh) as (b & c & x & rest & Hl & Eb & Hc & Ec & Bc & Hx).
    exists c. split; auto. rewrite Hl, Eb. split; [|split]; cbn [un ssz loc].
    - rewrite write_cap_length; auto. lia.
    - apply H.
    - exists x, rest. split; auto. split; auto. exists c. split; auto. apply read_write_cap. pw. lia.
  Qed.
  Lemma move_ctor_rep : forall s l t, rep s l t -> exists n r, move_ctor sc s = Ok (n, r) /\ rep n l t /\ length (un r) = N.to_nat (sc + 1).
  Proof.
    intros s l t H. unfold move_ctor. destruct (is_short s) eqn:Sh.
    { do 2 eexists. split; [reflexivity|]. split. destruct s as [[|b|] n u]; try discriminate. exact H. eapply rep_un; eauto. }
    destruct (move_rep s (zeros sc) l t) as (c & E & R); auto. { unfold zeros. now rewrite repeat_length. }
    rewrite E. cbn [bind]. do 2 eexists. split; [reflexivity|]. split; auto. eapply (rep_un s); eauto.
  Qed.
  Lemma move_assign_rep : forall s0 s l t, rep s l t -> length (un s0) = N.to_nat (sc + 1) ->
    exists n r, move_assign s0 s = Ok (n, r) /\ rep n l t /\ length (un r) = N.to_nat (sc + 1).
  Proof.
    intros s0 s l t H Hu0. unfold move_assign. destruct (is_short s) eqn:Sh.
    { do 2 eexists. split; [reflexivity|]. split. destruct s as [[|b|] n u]; try discriminate. exact H. eapply rep_un; eauto. }
    destruct (move_rep s (if is_short s0 then un s0 else write_cap 0 (un s0)) l t) as (c & E & R); auto.
    { destruct (is_short s0); auto. rewrite write_cap_length; auto. lia. }
    rewrite E. cbn [bind]. do 2 eexists. split; [reflexivity|]. split; auto. eapply (rep_un s); eauto.
  Qed.

  Lemma uninit_rep : forall n, (n < 2 ^ 60)%N -> exists s m y r, uninitialized sc n = Ok s /\ length m = N.to_nat n /\
    buffer s = Ok (m ++ y :: r) /\ y = Some 0%N /\ ssz s = n /\ (forall l, length l = N.to_nat n -> rep (put s (map Some l ++ y :: r) n) l true).
  Proof.
    intros n Hn. unfold uninitialized. destruct (reserve_rep (sinit sc) [] true n) as (s & c & E & R & C & L); auto using rep_init; [pw; lia|].
    rewrite E. cbn [bind]. op R. rewrite Hb. cbn [bind map app]. rewrite C in Hc. injection Hc as ->.
    cbn [length plus] in Ec.
    assert (K : exists m y r, x :: rest = m ++ y :: r /\ length m = N.to_nat n).
    { exists (firstn (N.to_nat n) (x :: rest)). destruct (skipn (N.to_nat n) (x :: rest)) as [|y r] eqn:Q.
      - apply (f_equal (@length _)) in Q. sz. lia.
      - exists y, r. split. now rewrite <- Q, firstn_skipn. sz. lia. }
    destruct K as (m & y & r & E2 & E3). rewrite E2. rewrite bset_mid by lia. cbn [bind].
    eexists _, m, (Some 0%N), r. split; [reflexivity|]. split; auto.
    assert (LE : forall b n, ssz (put s b n) = n /\ buffer (put s b n) = Ok b /\ (forall b' n', put (put s b n) b' n' = put s b' n')).
    { intros. unfold buffer in Hb. unfold put, buffer. destruct (loc s); try discriminate; cbn; auto. }
    split; [apply LE|]. split; auto. split; [apply LE|].
    intros l Hl. destruct (LE (m ++ Some 0%N :: r) n) as (_ & _ & ->). apply P; auto. 2: unfold len; lia.
    apply (f_equal (@length _)) in E2. sz. lia.
  Qed.
  Lemma put_ssz : forall s b n b', buffer s = Ok b -> ssz (put s b' n) = n /\ buffer (put s b' n) = Ok b'.
  Proof. intros. unfold buffer in *. unfold put. destruct (loc s); try discriminate; cbn; auto. Qed.

  Lemma of_chars_rep : forall l, (len l < 2 ^ 60)%N -> exists s, of_chars sc l = Ok s /\ rep s l true.
  Proof.
    intros l Hl. unfold of_chars. fold (len l).
    assert (Z : length (zeros sc) = N.to_nat (sc + 1)) by (unfold zeros; now rewrite repeat_length).
    destruct (N.leb_spec (len l) sc).
    - cbn [buffer loc bind]. change (un (mkS LSbo (len l) (zeros sc))) with (zeros sc). 
      assert (Q : zeros sc = repeat (Some 0%N) (length l) ++ Some 0%N :: repeat (Some 0%N) (N.to_nat sc - length l)).
      { unfold zeros. replace (N.to_nat (sc + 1)) with (length l + S (N.to_nat sc - length l)) by (unfold len in *; lia). rewrite repeat_app. reflexivity. }
      rewrite Q. pose proof (bwrite_mid [] (repeat (Some 0%N) (length l)) (Some 0%N :: repeat (Some 0%N) (N.to_nat sc - length l)) (map Some l) 0%N eq_refl) as W.
      cbn [app] in W. rewrite W by (sz; auto). cbn [bind]. rewrite bset_mid by (sz; auto). cbn [bind].
      eexists. split; [reflexivity|]. split; [|split]; cbn [un ssz loc put].
      + unfold len in *. sz. lia.
      + reflexivity.
      + eauto.
    - cbn [buffer loc bind]. rewrite fresh_S by (pw; lia).
      replace (S (N.to_nat (len l))) with (length l + 1) by (unfold len; lia). rewrite fresh_split.
      pose proof (bwrite_mid [] (repeat None (length l)) (repeat None 1) (map Some l) 0%N eq_refl) as W.
      cbn [app] in W. rewrite W by (sz; auto). cbn [bind repeat]. rewrite bset_mid by (sz; auto). cbn [bind].
      eexists. split; [reflexivity|]. split; [|split]; cbn [un ssz loc put].
      + rewrite write_cap_length; auto. lia.
      + reflexivity.
      + exists (Some 0%N), []. split; auto. split; auto. exists (len l). split; [apply read_write_cap; pw; lia|]. unfold len in *. cbn [length]. pw. lia.
  Qed.

  Lemma nonnil : forall A (m : list A) y r, exists z s, m ++ y :: r = z :: s /\ S (length s) = length m + S (length r).
  Proof. intros A [|a m] y r; cbn [app]; do 2 eexists; split; try reflexivity; sz; lia. Qed.
  Lemma wsub_len : forall a b, (b <= a < 2 ^ 61)%N -> wsub 64 a b = (a - b)%N.
  Proof. intros. apply wsub_ge; pw; lia. Qed.

  (* loops over the whole string *)
  Lemma capitalize_rep : forall s l t, rep s l t -> exists s', capitalize s = Ok s' /\ rep s' (capital l) t.
  Proof.
    intros s l t H. op H. unfold capitalize. rewrite Hb. cbn [bind]. rewrite Hs. destruct l as [|a l].
    - eexists. split; [reflexivity|]. cbn [map app] in *. apply (P [] x rest); auto.
    - replace (0 <? len (a :: l))%N with true by (symmetry; apply N.ltb_lt; unfold len; cbn; lia).
      cbn [map app]. rewrite bget_head. cbn [bind]. rewrite bset_head. cbn [bind].
      replace (N.to_nat (len (a :: l)) - 1) with (length l) by (unfold len; cbn; lia).
      change (Some (to_upper a) :: map Some l ++ x :: rest) with ([Some (to_upper a)] ++ map Some l ++ x :: rest).
      rewrite map_own_spec by auto. cbn [bind]. eexists. split; [reflexivity|].
      change ([Some (to_upper a)] ++ map Some (map to_lower l) ++ x :: rest) with (map Some (to_upper a :: map to_lower l) ++ x :: rest).
      assert (E : to_upper a :: map to_lower l = capital (a :: l)).
      { cbn. f_equal. unfold to_upper, upper, is_lower. destruct ((97 <=? a) && (a <=? 122))%N eqn:E; auto. 
        apply andb_true_iff in E. destruct E as [E _]. apply N.leb_le in E. lia.
        apply map_ext. intros c. unfold to_lower, lower, is_upper. destruct ((65 <=? c) && (c <=? 90))%N eqn:E; auto. 
        apply andb_true_iff in E. destruct E as [E _]. apply N.leb_le in E. lia. }
      rewrite E. apply P; auto. cbn. sz. auto. unfold len, capital. sz. auto.
  Qed.
  Lemma lower_eq : forall l, map to_lower l = map lower l.
  Proof.
    intros. apply map_ext. intros c. unfold to_lower, lower, is_upper. destruct ((65 <=? c) && (c <=? 90))%N eqn:E; auto.
    apply andb_true_iff in E. destruct E as [E _]. apply N.leb_le in E. lia.
  Qed.
  Lemma upper_eq : forall a, to_upper a = upper a.
  Proof.
    intros a. unfold to_upper, upper, is_lower. destruct ((97 <=? a) && (a <=? 122))%N eqn:E; auto.
    apply andb_true_iff in E. destruct E as [E _]. apply N.leb_le in E. lia.
  Qed.
  Lemma replace_char_rep : forall s l t a b, rep s l t ->
    exists s', replace_char s a b = Ok s' /\ rep s' (map (fun c => if (c =? a)%N then b else c) l) t.
  Proof.
    intros s l t a b H. op H. unfold replace_char. rewrite Hb. cbn [bind]. rewrite Hs.
    replace (N.to_nat (len l)) with (length l) by (unfold len; lia).
    pose proof (map_own_spec (fun c => if (c =? a)%N then b else c) l [] (x :: rest) 0%N eq_refl) as W. cbn [app] in W. rewrite W.
    cbn [bind]. eexists. split; [reflexivity|]. apply P; auto; unfold len; sz; auto.
  Qed.
  Lemma mapped_rep : forall f s l t, rep s l t -> (len l < 2 ^ 60)%N -> exists s', mapped sc f s = Ok s' /\ rep s' (map f l) true.
  Proof.
    intros f s l t H Hl. op H. unfold mapped. rewrite Hs. destruct (uninit_rep (len l) Hl) as (r & m & y & q & E & Lm & Hbr & Hy & Sr & K).
    rewrite E. cbn [bind]. rewrite Hb. cbn [bind]. rewrite Hbr. cbn [bind].
    replace (N.to_nat (len l)) with (length l) in * by (unfold len; lia).
    pose proof (map_up_spec f l [] (x :: rest) [] m (y :: q) 0%N eq_refl eq_refl Lm) as W. cbn [app] in W. rewrite W.
    cbn [bind]. eexists. split; [reflexivity|]. rewrite Sr. apply K. now rewrite map_length.
  Qed.
  Lemma capitalized_rep : forall s l t, rep s l t -> (len l < 2 ^ 60)%N -> exists s', capitalized sc s = Ok s' /\ rep s' (capital l) true.
  Proof.
    intros s l t H Hl. op H. unfold capitalized. rewrite Hs. destruct (uninit_rep (len l) Hl) as (r & m & y & q & E & Lm & Hbr & Hy & Sr & K).
    rewrite E. cbn [bind]. rewrite Hb. cbn [bind]. rewrite Hbr. cbn [bind]. destruct l as [|a l].
    - destruct m; [|discriminate]. eexists. split; [reflexivity|]. cbn [map app] in *. rewrite Sr. apply (K []). auto.
    - destruct m as [|m0 m]; [unfold len in Lm; cbn [length] in Lm; lia|].
      replace (0 <? len (a :: l))%N with true by (symmetry; apply N.ltb_lt; unfold len; cbn; lia).
      cbn [map app]. rewrite bget_head. cbn [bind]. rewrite bset_head. cbn [bind].
      replace (N.to_nat (len (a :: l)) - 1) with (length l) by (unfold len; cbn; lia).
      pose proof (map_up_spec to_lower l [Some a] (x :: rest) [Some (to_upper a)] m (y :: q) 1%N eq_refl eq_refl) as W. cbn [app] in W. rewrite W.
      2: { unfold len in Lm. cbn in Lm. lia. }
      cbn [bind]. eexists. split; [reflexivity|]. rewrite Sr, lower_eq, upper_eq. apply (K (upper a :: map lower l)).
      cbn. sz. unfold len. cbn. lia.
  Qed.
  Lemma fill_rep : forall s l t c n, rep s l t -> (match n with Some n => n < 2 ^ 60 | None => True end)%N ->
    exists s', fill sc s c n = Ok s' /\
      rep s' (repeat c (match n with Some n => N.to_nat n | None => length l end)) (match n with Some _ => true | None => t end).
  Proof.
    intros s l t c n H Hn. unfold fill.
    assert (G : exists s0 m y q, length m = (match n with Some n => N.to_nat n | None => length l end) /\
      ((let n := match n with Some n => n | None => SIZE_MAX end in
        let! cap := capacity sc s in
        (if (n <=? cap)%N then let! b := buffer s in let! b := bset b n 0 in Ok (put s b n)
         else if negb (n =? SIZE_MAX)%N then
           let! _ := contract (sc <=? n)%N in
           let! b := bset (fresh (wadd 64 n 1)) n 0 in Ok (set_heap s b n n)
         else Ok s)) = Ok s0) /\ buffer s0 = Ok (m ++ y :: q) /\ ssz s0 = ofn (length m) /\
      forall l', length l' = length m -> rep (put s0 (map Some l' ++ y :: q) (len l')) l' (match n with Some _ => true | None => t end)).
    { op H. rewrite Hc. cbn [bind]. destruct n as [n|].
      - destruct (N.leb_spec n cap) as [L|L].
        + rewrite Hb. cbn [bind].
          assert (K : exists m y r, map Some l ++ x :: rest = m ++ y :: r /\ length m = N.to_nat n).
          { exists (firstn (N.to_nat n) (map Some l ++ x :: rest)). destruct (skipn (N.to_nat n) (map Some l ++ x :: rest)) as [|y r] eqn:Q.
            - apply (f_equal (@length _)) in Q. sz. lia.
            - exists y, r. split. now rewrite <- Q, firstn_skipn. sz. lia. }
          destruct K as (m & y & r & E2 & E3). rewrite E2 in *. rewrite bset_mid by lia. cbn [bind].
          destruct (put_ssz s _ n (m ++ Some 0%N :: r) Hb) as [Q1 Q2].
          exists (put s (m ++ Some 0%N :: r) n), m, (Some 0%N), r. split; auto. split; auto. split; auto.
          split. { rewrite Q1. lia. }
          intros l' Hl'. assert (PP : put (put s (m ++ Some 0%N :: r) n) (map Some l' ++ Some 0%N :: r) (len l') = put s (map Some l' ++ Some 0%N :: r) (len l')).
          { unfold put. destruct (loc s) eqn:EL; cbn [loc un]; try reflexivity. now rewrite EL. }
          rewrite PP. apply P; auto. apply (f_equal (@length _)) in E2. sz. lia.
        + replace (n =? SIZE_MAX)%N with false by (symmetry; apply N.eqb_neq; unfold SIZE_MAX; pw; lia). cbn [negb].
          replace (sc <=? n)%N with true by (symmetry; apply N.leb_le; lia). cbn [contract bind].
          rewrite fresh_S by (pw; lia). replace (S (N.to_nat n)) with (N.to_nat n + 1) by lia. rewrite fresh_split. cbn [repeat].
          rewrite bset_mid by (rewrite repeat_length; lia). cbn [bind].
          eexists _, (repeat None (N.to_nat n)), (Some 0%N), []. split. { now rewrite repeat_length. } split; [reflexivity|].
          split; [reflexivity|]. split. { cbn [ssz set_heap]. rewrite repeat_length. lia. }
          intros l' Hl'. rewrite repeat_length in Hl'.
          change (put (set_heap s (repeat None (N.to_nat n) ++ [Some 0%N]) n n) (map Some l' ++ [Some 0%N]) (len l')) with (set_heap s (map Some l' ++ [Some 0%N]) (len l') n).
          apply rep_heap; auto. eapply rep_un; eauto. pw; lia. cbn [length]. lia.
      - replace (SIZE_MAX <=? cap)%N with false by (symmetry; apply N.leb_gt; unfold SIZE_MAX; pw; lia).
        rewrite N.eqb_refl. cbn [negb].
        eexists s, (map Some l), x, rest. split. { now rewrite map_length. } split; [reflexivity|]. split; auto.
        split. { rewrite Hs. now rewrite map_length. } intros l' Hl'. rewrite map_length in Hl'. apply P; auto. }
    destruct G as (s0 & m & y & q & Lm & E & Hb0 & S0 & K). cbv zeta in *.
    destruct (capacity sc s); cbn [bind] in *; try discriminate. rewrite E. cbn [bind]. rewrite Hb0. cbn [bind]. rewrite S0, Nat2N.id.
    pose proof (fill_up_spec m [] (y :: q) 0%N c eq_refl) as W. cbn [app] in W. rewrite W. cbn [bind]. eexists. split; [reflexivity|].
    rewrite <- Lm. replace (repeat (Some c) (length m)) with (map Some (repeat c (length m))) by apply map_rep.
    replace (ofn (length m)) with (len (repeat c (length m))) by (unfold len; now rewrite repeat_length). apply K. now rewrite repeat_length.
  Qed.

  (* removing at the ends *)
  Lemma remove_prefix_app : forall s a z t, rep s (a ++ z) t -> exists s', remove_prefix s (len a) = Ok s' /\ rep s' z (t && (len a =? 0)%N).
  Proof.
    intros s a z t H. op H. unfold remove_prefix. rewrite Hs, len_app.
    replace (len a <=? len a + len z)%N with true by (symmetry; apply N.leb_le; lia). cbn [contract bind]. rewrite Hb. cbn [bind].
    replace (N.to_nat (len a + len z - len a)) with (length z) by (unfold len; lia). rewrite map_app, <- app_assoc.
    pose proof (copy_up_spec z [] (map Some a) (x :: rest) 0%N (len a) eq_refl) as W. cbn [app length plus] in W. rewrite W by (now rewrite map_length).
    cbn [bind]. eexists. split; [reflexivity|]. rewrite wsub_len by (unfold len in *; sz; lia). replace (len a + len z - len a)%N with (len z) by lia.
    destruct (nonnil _ (skipn (length z) (map Some a ++ map Some z)) x rest) as (y & r & E & Lr). rewrite E.
    apply P; auto. { sz. lia. }
    intros T. apply andb_true_iff in T. destruct T as [T1 T2]. apply N.eqb_eq in T2. destruct a; [|discriminate T2]. cbn [map app] in E.
    rewrite skipn_all2 in E by (sz; lia). injection E as <- <-. auto.
  Qed.
  Lemma remove_suffix_app : forall s a z t n, rep s (a ++ z) t -> n = len z -> exists s',
    (let! b := buffer s in Ok (put s b (wsub 64 (ssz s) n))) = Ok s' /\ rep s' a (t && (n =? 0)%N).
  Proof.
    intros s a z t n H ->. op H. rewrite Hb. cbn [bind]. eexists. split; [reflexivity|]. rewrite Hs, len_app, wsub_len by (unfold len in *; sz; lia).
    replace (len a + len z - len z)%N with (len a) by lia. rewrite map_app, <- app_assoc.
    destruct (nonnil _ (map Some z) x rest) as (y & r & E & Lr). rewrite E. apply P; auto. sz. lia.
    intros T. apply andb_true_iff in T. destruct T as [T1 T2]. apply N.eqb_eq in T2. destruct z; [|discriminate T2].
    injection E as <- <-. auto.
  Qed.
  Lemma split_at : forall (l : list N) n, (n <= len l)%N -> exists a z, l = a ++ z /\ len a = n /\ a = firstn (N.to_nat n) l /\ z = skipn (N.to_nat n) l.
  Proof. intros l n H. exists (firstn (N.to_nat n) l), (skipn (N.to_nat n) l). rewrite firstn_skipn. split; auto. unfold len in *. sz. split; auto. lia. Qed.
  Lemma remove_prefix_rep : forall s l t n, rep s l t -> (n <= len l)%N ->
    exists s', remove_prefix s n = Ok s' /\ rep s' (skipn (N.to_nat n) l) (t && (n =? 0)%N).
  Proof. intros s l t n H L. destruct (split_at l n L) as (a & z & E & La & _ & <-). rewrite E in H. rewrite <- La. now apply remove_prefix_app. Qed.
  Lemma remove_suffix_rep : forall s l t n, rep s l t -> (n <= len l)%N ->
    exists s', remove_suffix s n = Ok s' /\ rep s' (firstn (length l - N.to_nat n) l) (t && (n =? 0)%N).
  Proof.
    intros s l t n H L. destruct (split_at l (len l - n)) as (a & z & E & La & Ea & Ez); [lia|].
    replace (length l - N.to_nat n) with (N.to_nat (len l - n)) by (unfold len; lia). rewrite <- Ea.
    unfold remove_suffix. assert (Hs : ssz s = len l) by apply H. replace (n <=? ssz s)%N with true by (symmetry; apply N.leb_le; lia). cbn [contract bind].
    rewrite E in H. apply remove_suffix_app with z; auto. assert (len l = len a + len z)%N by (rewrite E; apply len_app). lia.
  Qed.

  Lemma view_rep : forall s l t, rep s l t -> view_of s = Ok (of_list l).
  Proof.
    intros s l t H. op H. unfold view_of. rewrite Hb. cbn [bind]. rewrite Hs.
    pose proof (bread_mid [] (map Some l) (x :: rest) 0%N (len l) eq_refl) as W. cbn [app] in W.
    rewrite W by (unfold len; now rewrite map_length). cbn [bind]. now rewrite chars_some.
  Qed.

  Lemma list_eqb_spec : forall a b, list_eqb a b = true <-> a = b.
  Proof. intros. unfold list_eqb. destruct (list_eq_dec N.eq_dec a b); split; auto; discriminate. Qed.
  Lemma prefixb_spec : forall p l, prefixb p l = true <-> exists z, l = p ++ z.
  Proof.
    intros. unfold prefixb. rewrite list_eqb_spec. split.
    - intros E. exists (skipn (length p) l). rewrite E at 1. now rewrite firstn_skipn.
    - intros (z & ->). now rewrite firstn_at.
  Qed.
  Lemma suffixb_spec : forall p l, suffixb p l = true <-> exists z, l = z ++ p.
  Proof.
    intros. unfold suffixb. rewrite prefixb_spec. split.
    - intros (z & E). exists (rev z). rewrite <- (rev_involutive l), E, rev_app_distr, rev_involutive. auto.
    - intros (z & ->). exists (rev z). now rewrite rev_app_distr.
  Qed.
  Lemma remove_prefix_str_rep : forall s l t p, rep s l t -> (len l < 2 ^ 60)%N -> prefixb p l = true ->
    exists s', remove_prefix_str s p = Ok s' /\ rep s' (skipn (length p) l) (t && (len p =? 0)%N).
  Proof.
    intros s l t p H Hl Hp. apply prefixb_spec in Hp. destruct Hp as (z & ->). rewrite skipn_at by auto.
    unfold remove_prefix_str. rewrite (view_rep _ _ _ H). cbn [bind].
    destruct (starts_with_spec (of_list (p ++ z)) (of_list p)) as (r & E & I).
    { apply valid_of_list. unfold len in Hl. pw. lia. } { apply valid_of_list. rewrite len_app in Hl. unfold len in Hl. pw. lia. }
    rewrite E. cbn [bind]. rewrite !contents_of_list in I. assert (r = true) by (apply I; eauto). subst r. cbn [contract bind].
    apply remove_prefix_app. exact H.
  Qed.
  Lemma remove_suffix_str_rep : forall s l t p, rep s l t -> (len l < 2 ^ 60)%N -> suffixb p l = true ->
    exists s', remove_suffix_str s p = Ok s' /\ rep s' (firstn (length l - length p) l) (t && (len p =? 0)%N).
  Proof.
    intros s l t p H Hl Hp. apply suffixb_spec in Hp. destruct Hp as (z & ->). rewrite firstn_at by (sz; lia).
    unfold remove_suffix_str. rewrite (view_rep _ _ _ H). cbn [bind].
    destruct (ends_with_spec (of_list (z ++ p)) (of_list p)) as (r & E & I).
    { apply valid_of_list. unfold len in Hl. pw. lia. } { apply valid_of_list. rewrite len_app in Hl. unfold len in Hl. pw. lia. }
    rewrite E. cbn [bind]. rewrite !contents_of_list in I. assert (r = true) by (apply I; eauto). subst r. cbn [contract bind].
    apply remove_suffix_app with p; auto.
  Qed.

  (* trimming *)
  Lemma drop_while_ex : forall p l, exists a, l = a ++ drop_while p l.
  Proof. intros. eexists. apply drop_while_split. Qed.
  Lemma trim_start_rep : forall s l t p, rep s l t -> exists s', trim_start s p = Ok s' /\ rep s' (drop_while p l) t.
  Proof.
    intros s l t p H. op H. unfold trim_start. rewrite Hb. cbn [bind]. rewrite Hs.
    replace (N.to_nat (len l)) with (length l) by (unfold len; lia).
    pose proof (scan_up_spec p l [] (x :: rest) 0%N eq_refl) as W. cbn [app] in W. rewrite W. cbn [bind]. clear W.
    destruct (drop_while_ex p l) as (a & E). set (z := drop_while p l) in *. clearbody z. subst l.
    replace (0 + ofn (length (a ++ z) - length z))%N with (len a) by (unfold len; sz; lia).
    destruct (N.eqb_spec (len a) 0) as [A|A].
    - destruct a; [|discriminate A]. eexists. split; [reflexivity|]. exact H.
    - rewrite len_app. replace (N.to_nat (len a + len z - len a)) with (length z) by (unfold len; lia). rewrite map_app, <- app_assoc.
      pose proof (copy_up_spec z [] (map Some a) (x :: rest) 0%N (len a) eq_refl) as W. cbn [app length plus] in W. rewrite W by (now rewrite map_length).
      cbn [bind]. rewrite wsub_len by (unfold len in *; sz; lia). replace (len a + len z - len a)%N with (len z) by lia.
      destruct (nonnil _ (skipn (length z) (map Some a ++ map Some z)) x rest) as (y & r & E & Lr). rewrite E.
      rewrite bset_mid by (unfold len; sz; auto). cbn [bind]. eexists. split; [reflexivity|]. apply P; auto. sz. lia.
  Qed.
  Lemma trim_end_rep : forall s l t p, rep s l t -> exists s', trim_end s p = Ok s' /\ rep s' (drop_while_end p l) true.
  Proof.
    intros s l t p H. op H. unfold trim_end. rewrite Hb. cbn [bind]. rewrite Hs.
    replace (N.to_nat (len l)) with (length l) by (unfold len; lia).
    pose proof (scan_down_spec p l [] (x :: rest) 0%N eq_refl) as W. cbn [app] in W. rewrite W. cbn [bind]. clear W.
    destruct (drop_while_end_split p l) as (z & E). set (a := drop_while_end p l) in *. clearbody a. subst l.
    rewrite map_app, <- app_assoc. destruct (nonnil _ (map Some z) x rest) as (y & r & E & Lr). rewrite E.
    rewrite bset_mid by (sz; auto). cbn [bind]. eexists. split; [reflexivity|]. apply P; auto. sz. lia.
  Qed.
  Lemma trim_rep : forall s l t p, rep s l t -> exists s', trim s p = Ok s' /\ rep s' (drop_while_end p (drop_while p l)) true.
  Proof.
    intros s l t p H. op H. unfold trim. rewrite Hb. cbn [bind]. rewrite Hs.
    replace (N.to_nat (len l)) with (length l) by (unfold len; lia).
    pose proof (scan_up_spec p l [] (x :: rest) 0%N eq_refl) as W. cbn [app] in W. rewrite W. cbn [bind]. clear W.
    destruct (drop_while_ex p l) as (a & E). set (z := drop_while p l) in *. clearbody z. subst l.
    replace (0 + ofn (length (a ++ z) - length z))%N with (len a) by (unfold len; sz; lia).
    rewrite len_app, wsub_len by (unfold len in *; sz; lia). replace (N.to_nat (len a + len z - len a)) with (length z) by (unfold len; lia).
    rewrite map_app, <- app_assoc. rewrite (scan_down_spec p z (map Some a) (x :: rest) (len a)) by (now rewrite map_length). cbn [bind].
    destruct (drop_while_end_split p z) as (w & E). set (m := drop_while_end p z) in *. clearbody m. subst z.
    rewrite map_app, <- app_assoc, Nat2N.id.
    pose proof (copy_up_spec m [] (map Some a) (map Some w ++ x :: rest) 0%N (len a) eq_refl) as W. cbn [app length plus] in W. rewrite W by (now rewrite map_length).
    cbn [bind]. clear W. rewrite app_assoc.
    destruct (nonnil _ (skipn (length m) (map Some a ++ map Some m) ++ map Some w) x rest) as (y & r & E & Lr).
    rewrite <- !app_assoc in *. rewrite E.
    rewrite bset_mid by (sz; auto). cbn [bind]. eexists. split; [reflexivity|]. apply P; auto. sz. lia.
  Qed.

  (* room for n characters in all: the bytes behind the string split after n - |l| of them *)
  Lemma room : forall l x (rest : buf) n, (len l <= n)%N -> (n <= ofn (length l + length rest))%N ->
    exists m y r, x :: rest = m ++ y :: r /\ length m = N.to_nat n - length l /\ length r = length l + length rest - N.to_nat n.
  Proof.
    intros l x rest n H1 H2. set (k := N.to_nat n - length l). unfold len in *. exists (firstn k (x :: rest)).
    destruct (skipn k (x :: rest)) as [|y r] eqn:Q.
    - apply (f_equal (@length _)) in Q. sz. lia.
    - exists y, r. split. now rewrite <- Q, firstn_skipn. apply (f_equal (@length _)) in Q. sz. lia.
  Qed.
  Lemma pad_end_rep : forall s l t n c, rep s l t -> (n < 2 ^ 60)%N ->
    exists s', pad_end sc s n c = Ok s' /\ rep s' (l ++ repeat c (N.to_nat n - length l)) t.
  Proof.
    intros s l t n c H Hn. assert (Hs0 : ssz s = len l) by apply H. unfold pad_end. rewrite Hs0. destruct (N.leb_spec n (len l)) as [L|L].
    { eexists. split; [reflexivity|]. replace (N.to_nat n - length l) with 0 by (unfold len in *; lia). cbn. rewrite app_nil_r. auto. }
    destruct (reserve_rep s l t n) as (s' & c' & E & R & C & L2); auto; [pw; lia|]. rewrite E. cbn [bind].
    op R. rewrite C in Hc. injection Hc as ->. rewrite Hb. cbn [bind]. rewrite Hs.
    destruct (room l x rest n) as (m & y & r & E2 & Lm & Lr); try lia. rewrite E2.
    replace (N.to_nat (n - len l)) with (length m) by (unfold len in *; lia). rewrite fill_up_spec by (now rewrite map_length). cbn [bind].
    rewrite <- Lm, <- map_rep, app_assoc, <- map_app.
    assert (Ln : len (l ++ repeat c (length m)) = n) by (unfold len in *; sz; lia).
    rewrite bset_mid by (rewrite map_length; unfold len in Ln; lia). cbn [bind]. eexists. split; [reflexivity|]. apply P; auto. sz. unfold len in *. lia.
  Qed.
  Lemma pad_start_rep : forall s l t n c, rep s l t -> (n < 2 ^ 60)%N ->
    exists s', pad_start sc s n c = Ok s' /\ rep s' (repeat c (N.to_nat n - length l) ++ l) t.
  Proof.
    intros s l t n c H Hn. assert (Hs0 : ssz s = len l) by apply H. unfold pad_start. rewrite Hs0. destruct (N.leb_spec n (len l)) as [L|L].
    { eexists. split; [reflexivity|]. replace (N.to_nat n - length l) with 0 by (unfold len in *; lia). auto. }
    destruct (reserve_rep s l t n) as (s' & c' & E & R & C & L2); auto; [pw; lia|]. rewrite E. cbn [bind].
    op R. rewrite C in Hc. injection Hc as ->. rewrite Hb. cbn [bind]. rewrite Hs.
    destruct (room l x rest n) as (m & y & r & E2 & Lm & Lr); try lia. rewrite E2.
    replace (N.to_nat (len l)) with (length l) by (unfold len in *; lia).
    pose proof (copy_down_spec l [] m (y :: r) n (len l)) as W. cbn [app length plus] in W.
    rewrite W by (unfold len in *; lia). cbn [bind]. clear W.
    set (f := firstn (length m) (map Some l ++ m)). assert (Lf : length f = length m) by (subst f; sz; lia). clearbody f.
    replace (N.to_nat (n - len l)) with (length f) by (unfold len in *; lia).
    pose proof (fill_up_spec f [] (map Some l ++ y :: r) 0%N c eq_refl) as W. cbn [app] in W. rewrite W. cbn [bind].
    rewrite <- Lm, Lf, <- map_rep, app_assoc, <- map_app.
    assert (Ln : len (repeat c (length m) ++ l) = n) by (unfold len in *; sz; lia).
    rewrite bset_mid by (rewrite map_length; unfold len in Ln; lia). cbn [bind]. eexists. split; [reflexivity|]. apply P; auto. sz. unfold len in *. lia.
  Qed.

  (* elements *)
  Lemma get_rep : forall s l t i, rep s l t -> (i < len l)%N -> get s i = Ok (nth (N.to_nat i) l 0%N).
  Proof.
    intros s l t i H L. op H. unfold get. rewrite Hs. replace (i <? len l)%N with true by (symmetry; apply N.ltb_lt; lia). cbn [contract bind].
    rewrite Hb. cbn [bind]. destruct (nth_split l 0%N (n := N.to_nat i)) as (a & b & E & La); [unfold len in L; lia|].
    rewrite E at 1. rewrite map_app, <- app_assoc. cbn [map app]. rewrite bget_mid by (sz; lia). auto.
  Qed.
  Lemma front_rep : forall s l t, rep s l t -> len l <> 0%N -> front s = Ok (hd 0%N l).
  Proof.
    intros s l t H L. op H. unfold front. rewrite Hs. replace (0 <? len l)%N with true by (symmetry; apply N.ltb_lt; lia). cbn [contract bind].
    rewrite Hb. cbn [bind]. destruct l; [now destruct L|]. reflexivity.
  Qed.
  Lemma back_rep : forall s l t, rep s l t -> len l <> 0%N -> back s = Ok (List.last l 0%N).
  Proof.
    intros s l t H L. destruct l as [|c l _] using rev_ind; [now destruct L|]. op H. unfold back. rewrite Hs. replace (0 <? len (l ++ [c]))%N with true by (symmetry; apply N.ltb_lt; lia). cbn [contract bind].
    rewrite Hb. cbn [bind]. rewrite last_last, wsub_len by (unfold len in *; sz; lia). rewrite map_app, <- app_assoc. cbn [map app].
    rewrite bget_mid by (unfold len; sz; lia). auto.
  Qed.
  Lemma set_at_rep : forall s l t i c, rep s l t -> (i < len l)%N ->
    exists s', set_at s i c = Ok s' /\ rep s' (firstn (N.to_nat i) l ++ [c] ++ skipn (N.to_nat i + 1) l) t.
  Proof.
    intros s l t i c H L. op H. unfold set_at. rewrite Hs. replace (i <? len l)%N with true by (symmetry; apply N.ltb_lt; lia). cbn [contract bind].
    rewrite Hb. cbn [bind]. destruct (nth_split l 0%N (n := N.to_nat i)) as (a & b & E & La); [unfold len in L; lia|].
    set (y := nth (N.to_nat i) l 0%N) in *. clearbody y. subst l. rewrite firstn_at by auto.
    replace (skipn (N.to_nat i + 1) (a ++ y :: b)) with b.
    2: { change (y :: b) with ([y] ++ b). rewrite app_assoc, skipn_at; auto. sz. lia. }
    rewrite map_app, <- app_assoc. cbn [map app]. rewrite bset_mid by (sz; lia). cbn [bind]. eexists. split; [reflexivity|].
    replace (map Some a ++ Some c :: map Some b ++ x :: rest) with (map Some (a ++ c :: b) ++ x :: rest) by (rewrite map_app, <- app_assoc; auto).
    apply P; auto; unfold len; sz; lia.
  Qed.

  (* appending *)
  Definition arg_is (l : list N) (a : sarg) (r : list N) : Prop :=
    match a with SVal v => r = v | SOwn o n => (o + n <= len l)%N /\ r = firstn (N.to_nat n) (skipn (N.to_nat o) l) end.
  Lemma arg_len : forall l a r, arg_is l a r -> slen a = len r.
  Proof. intros l [v|o n] r; cbn; [intros ->; auto|]. intros (H & ->). unfold len in *. sz. lia. Qed.
  Lemma own_split : forall l o n, (o + n <= len l)%N -> exists p q, l = p ++ firstn (N.to_nat n) (skipn (N.to_nat o) l) ++ q /\ len p = o.
  Proof.
    intros l o n H. exists (firstn (N.to_nat o) l), (skipn (N.to_nat n) (skipn (N.to_nat o) l)).
    rewrite !firstn_skipn. split; auto. unfold len in *. sz. lia.
  Qed.
  Lemma sread_arg : forall l a r w, arg_is l a r -> sread (map Some l ++ w) a = Ok (map Some r).
  Proof.
    intros l [v|o n] r w H; cbn in *; [now subst|]. destruct H as (H & Er). destruct (own_split l o n H) as (p & q & E & Lp).
    rewrite <- Er in E. rewrite E, !map_app, <- !app_assoc. apply bread_mid. { unfold len in Lp. now rewrite map_length. }
    pose proof (arg_len l (SOwn o n) r (conj H Er)) as Q. cbn in Q. rewrite Q, map_length. reflexivity.
  Qed.
  Lemma memcpy_end : forall l a r m q, arg_is l a r -> length m = length r ->
    memcpy_in (map Some l ++ m ++ q) (len l) a = Ok (map Some l ++ map Some r ++ q).
  Proof.
    intros l [v|o n] r m q H Lm; cbn [memcpy_in].
    - cbn in H. subst. apply bwrite_mid. now rewrite map_length. now rewrite map_length.
    - pose proof (sread_arg l (SOwn o n) r (m ++ q) H) as E. cbn [sread] in E. cbn in H. destruct H as (H & Er).
      replace (o + n <=? len l)%N with true by (symmetry; apply N.leb_le; lia). rewrite orb_true_r. cbn [orb defined bind].
      rewrite E. cbn [bind]. apply bwrite_mid; now rewrite map_length.
  Qed.
  Lemma shl1 : forall c, (c < 2 ^ 61)%N -> wrap 64 (N.shiftl c 1) = (2 * c)%N.
  Proof. intros. rewrite N.shiftl_mul_pow2. change (2 ^ 1)%N with 2%N. rewrite wrap_small by (pw; lia). lia. Qed.

  Lemma append_rep : forall s l t a r, rep s l t -> arg_is l a r -> (len (l ++ r) < 2 ^ 60)%N ->
    exists s', append sc s a = Ok s' /\ rep s' (l ++ r) true.
  Proof.
    intros s l t a r H A B. op H. unfold append. rewrite Hs, (arg_len _ _ _ A). rewrite len_app in B.
    rewrite wadd_small by (pw; lia). rewrite Hc. cbn [bind]. rewrite Hb. cbn [bind].
    destruct (N.leb_spec (len l + len r) cap) as [L|L].
    - destruct (room l x rest (len l + len r)) as (m & y & q & E2 & Lm & Lq); try lia. rewrite E2.
      rewrite (memcpy_end l a r m (y :: q) A) by (unfold len in *; lia). cbn [bind]. rewrite app_assoc, <- map_app.
      rewrite bset_mid by (unfold len; sz; lia). cbn [bind]. eexists. split; [reflexivity|]. apply P; auto; unfold len in *; sz; lia.
    - replace (sc <=? cap)%N with true by (symmetry; apply N.leb_le; lia). cbn [contract bind].
      rewrite shl1 by lia. set (nc := if (2 * cap <? len l + len r)%N then (len l + len r)%N else (2 * cap)%N).
      assert (Bn : (sc < nc < 2 ^ 61)%N /\ (len l + len r <= nc)%N).
      { subst nc. unfold len in *. destruct (N.ltb_spec (2 * cap) (ofn (length l) + ofn (length r))); pw; lia. }
      clearbody nc.
      pose proof (bread_mid [] (map Some l) (x :: rest) 0%N (len l) eq_refl) as W. cbn [app] in W.
      rewrite W by (unfold len; now rewrite map_length). cbn [bind]. clear W.
      rewrite fresh_S by lia.
      replace (S (N.to_nat nc)) with (length l + (length r + (1 + (N.to_nat nc - length l - length r)))) by (unfold len in *; lia).
      rewrite !fresh_split. change (repeat (@None N) 1) with [@None N].
      set (q := repeat None (N.to_nat nc - length l - length r)). assert (Lq : length q = N.to_nat nc - length l - length r) by (subst q; now rewrite repeat_length). clearbody q.
      pose proof (bwrite_mid [] (repeat None (length l)) (repeat None (length r) ++ [None] ++ q) (map Some l) 0%N eq_refl) as W. cbn [app] in W |- *.
      rewrite W by (sz; auto). cbn [bind]. clear W. rewrite (sread_arg l a r _ A). cbn [bind].
      rewrite bwrite_mid by (unfold len; sz; auto). cbn [bind]. rewrite app_assoc, <- map_app.
      rewrite bset_mid by (unfold len; sz; lia). cbn [bind]. eexists. split; [reflexivity|].
      apply rep_heap; auto; try tauto; try (unfold len in *; sz; lia). eapply rep_un; eauto.
  Qed.

  Lemma concat_rep : forall s l t r, rep s l t -> (len (r ++ l) < 2 ^ 60)%N ->
    exists s', concat_front sc r s = Ok s' /\ rep s' (r ++ l) true.
  Proof.
    intros s l t r H B. op H. unfold concat_front. fold (len r). rewrite Hs. rewrite wadd_small by (rewrite len_app in B; pw; lia). rewrite <- len_app.
    destruct (uninit_rep (len (r ++ l)) B) as (s' & m & y & q & E & Lm & Hbr & Hy & Sr & K). rewrite E. cbn [bind]. rewrite Hbr. cbn [bind].
    assert (Em : exists m1 m2, m = m1 ++ m2 /\ length m1 = length r /\ length m2 = length l).
    { exists (firstn (length r) m), (skipn (length r) m). rewrite firstn_skipn. unfold len in Lm. sz. split; auto. lia. }
    destruct Em as (m1 & m2 & -> & L1 & L2). rewrite <- app_assoc.
    pose proof (bwrite_mid [] m1 (m2 ++ y :: q) (map Some r) 0%N eq_refl) as W. cbn [app] in W. rewrite W by (now rewrite map_length). cbn [bind]. clear W.
    rewrite Hb. cbn [bind].
    pose proof (bread_mid [] (map Some l) (x :: rest) 0%N (len l) eq_refl) as W. cbn [app] in W.
    rewrite W by (unfold len; now rewrite map_length). cbn [bind]. clear W.
    rewrite bwrite_mid by (unfold len; now rewrite map_length). cbn [bind]. eexists. split; [reflexivity|].
    rewrite Sr, app_assoc, <- map_app. apply K. unfold len. sz. lia.
  Qed.

  (* replacing a part *)
  Definition before (pos : N) (g : sarg) : Prop := match g with SVal _ => True | SOwn o n => (o + n <= pos)%N end.
  Lemma arg_before : forall a w g r, arg_is (a ++ w) g r -> before (len a) g -> arg_is a g r.
  Proof.
    intros a w [v|o n] r H B; cbn in *; auto. destruct H as (_ & ->). split; auto.
    rewrite skipn_app, firstn_app. replace (N.to_nat n - length (skipn (N.to_nat o) a)) with 0 by (unfold len in B; sz; lia).
    cbn [firstn]. apply app_nil_r.
  Qed.
  Lemma replace_app : forall s a m z t g r, rep s (a ++ m ++ z) t -> (len (a ++ m ++ z) < 2 ^ 60)%N -> (len (a ++ r ++ z) < 2 ^ 60)%N ->
    arg_is (a ++ m ++ z) g r ->
    (forall c, capacity sc s = Ok c -> before (len a) g \/ (len m <> len r /\ c < len (a ++ r ++ z)))%N ->
    exists s', replace sc s (len a) (len m) g = Ok s' /\ rep s' (a ++ r ++ z) t.
  Proof.
    intros s a m z t g r H B1 B2 Ha Hg. op H. specialize (Hg _ Hc). unfold replace. rewrite !len_app in *. rewrite Hs.
    replace (len a <=? len a + (len m + len z))%N with true by (symmetry; apply N.leb_le; lia).
    rewrite (wadd_small 64 (len a) (len m)) by (pw; lia).
    replace (len a + len m <=? len a + (len m + len z))%N with true by (symmetry; apply N.leb_le; lia). cbn [contract bind].
    rewrite Hb. cbn [bind]. rewrite (arg_len _ _ _ Ha). rewrite !map_app, <- !app_assoc.
    destruct (N.eqb_spec (len m) (len r)) as [E|E].
    - destruct Hg as [Hg|Hg]; [|lia]. pose proof (arg_before _ _ _ _ Ha Hg) as Hl.
      rewrite (memcpy_end a g r (map Some m) _ Hl) by (unfold len in *; sz; lia). cbn [bind]. eexists. split; [reflexivity|].
      replace (map Some a ++ map Some r ++ map Some z ++ x :: rest) with (map Some (a ++ r ++ z) ++ x :: rest) by (rewrite !map_app, <- !app_assoc; auto).
      apply P; auto; unfold len in *; sz; lia.
    - rewrite (wsub_len (len a + (len m + len z)) (len m)) by (pw; lia).
      replace (len a + (len m + len z) - len m)%N with (len a + len z)%N by lia.
      rewrite (wsub_len (len a + len z) (len a)) by (pw; lia). replace (len a + len z - len a)%N with (len z) by lia.
      rewrite (wadd_small 64 (len a + len z) (len r)) by (pw; lia). rewrite Hc. cbn [bind].
      destruct (N.ltb_spec cap (len a + len z + len r)) as [L|L].
      + rewrite shl1 by lia. set (nc := if (2 * cap <? len a + len z + len r)%N then (len a + len z + len r)%N else (2 * cap)%N).
        assert (Bn : (sc < nc < 2 ^ 61)%N /\ (len a + len z + len r <= nc)%N).
        { subst nc. destruct (N.ltb_spec (2 * cap) (len a + len z + len r)); unfold len in *; pw; lia. }
        clearbody nc.
        pose proof (bread_mid [] (map Some a) (map Some m ++ map Some z ++ x :: rest) 0%N (len a) eq_refl) as W. cbn [app] in W.
        rewrite W by (unfold len; now rewrite map_length). cbn [bind]. clear W.
        rewrite fresh_S by lia.
        replace (S (N.to_nat nc)) with (length a + (length r + (length z + (1 + (N.to_nat nc - length a - length r - length z))))) by (unfold len in *; lia).
        rewrite !fresh_split. change (repeat (@None N) 1) with [@None N].
        set (q := repeat None (N.to_nat nc - length a - length r - length z)).
        assert (Lq : length q = N.to_nat nc - length a - length r - length z) by (subst q; now rewrite repeat_length). clearbody q.
        pose proof (bwrite_mid [] (repeat None (length a)) (repeat None (length r) ++ repeat None (length z) ++ [None] ++ q) (map Some a) 0%N eq_refl) as W. cbn [app] in W |- *.
        rewrite W by (sz; auto). cbn [bind]. clear W.
        pose proof (sread_arg _ g r (x :: rest) Ha) as W. rewrite !map_app, <- !app_assoc in W. rewrite W. cbn [bind]. clear W.
        rewrite bwrite_mid by (unfold len; sz; auto). cbn [bind].
        pose proof (bread_mid (map Some a ++ map Some m) (map Some z) (x :: rest) (len a + len m)%N (len z)) as W. rewrite <- app_assoc in W.
        rewrite W by (unfold len; sz; lia). cbn [bind]. clear W.
        rewrite (wadd_small 64 (len a) (len r)) by (pw; lia).
        rewrite (app_assoc (map Some a)). rewrite bwrite_mid by (unfold len; sz; lia). cbn [bind].
        rewrite (app_assoc _ (map Some z)), <- !map_app.
        rewrite bset_mid by (unfold len; sz; lia). cbn [bind]. eexists. split; [reflexivity|]. rewrite <- (app_assoc a).
        apply rep_heap; auto; try tauto; try (unfold len in *; sz; lia). eapply rep_un; eauto.
      + destruct Hg as [Hg|Hg]; [|lia]. pose proof (arg_before _ _ _ _ Ha Hg) as Hl.
        assert (Zl : N.to_nat (len z) = length z) by (unfold len; lia). rewrite Zl.
        destruct (N.ltb_spec (len m) (len r)) as [G|G].
        * destruct (room (a ++ m ++ z) x rest (len a + len z + len r)) as (mm & y & q & E2 & Lm & Lq).
          { rewrite !len_app. lia. } { unfold len in *. sz. lia. }
          rewrite E2.
          pose proof (copy_down_spec z (map Some a ++ map Some m) mm (y :: q) (len a + len z + len r)%N (len a + (len m + len z))%N) as W. rewrite <- !app_assoc in W.
          rewrite W by (unfold len in *; sz; lia). cbn [bind]. clear W.
          set (f := firstn (length mm) (map Some z ++ mm)). assert (Lf : length f = length mm) by (subst f; sz; lia). clearbody f.
          pose proof (memcpy_end a g r (map Some m ++ f) (map Some z ++ y :: q) Hl) as W. rewrite <- !app_assoc in W.
          rewrite W by (unfold len in *; sz; lia). cbn [bind]. clear W.
          rewrite (app_assoc (map Some a)), (app_assoc _ (map Some z)), <- !map_app.
          rewrite bset_mid by (unfold len; sz; lia). cbn [bind]. eexists. split; [reflexivity|]. rewrite <- (app_assoc a).
          apply P; auto; unfold len in *; sz; lia.
        * assert (Em : exists m1 m2, map Some m = m1 ++ m2 /\ length m1 = length r).
          { exists (firstn (length r) (map Some m)), (skipn (length r) (map Some m)). rewrite firstn_skipn. unfold len in *. sz. split; auto. lia. }
          destruct Em as (m1 & m2 & Em & L1). rewrite Em. rewrite (wadd_small 64 (len a) (len r)) by (pw; lia).
          assert (L2 : length m = length m1 + length m2) by (apply (f_equal (@length _)) in Em; sz; auto).
          pose proof (copy_up_spec z (map Some a ++ m1) m2 (x :: rest) (len a + len r)%N (len a + len m)%N) as W. rewrite <- !app_assoc in W |- *.
          rewrite W by (unfold len in *; sz; lia). cbn [bind]. clear W.
          rewrite <- (app_assoc (map Some a)). rewrite (memcpy_end a g r m1 _ Hl) by (unfold len; sz; auto). cbn [bind].
          destruct (nonnil _ (skipn (length z) (m2 ++ map Some z)) x rest) as (y & q & E2 & Lq). rewrite E2.
          rewrite (app_assoc (map Some a)), (app_assoc _ (map Some z)), <- !map_app.
          rewrite bset_mid by (unfold len; sz; lia). cbn [bind]. eexists. split; [reflexivity|]. rewrite <- (app_assoc a).
          apply P; auto; unfold len in *; sz; lia.
  Qed.
  Lemma splice_split : forall l pos cnt r, (pos + cnt <= len l)%N -> exists a m z, l = a ++ m ++ z /\ len a = pos /\ len m = cnt /\ splice pos cnt l r = a ++ r ++ z.
  Proof.
    intros l pos cnt r H. exists (firstn (N.to_nat pos) l), (firstn (N.to_nat cnt) (skipn (N.to_nat pos) l)), (skipn (N.to_nat cnt) (skipn (N.to_nat pos) l)).
    rewrite !firstn_skipn. split; auto. unfold splice. rewrite skipn_skipn. unfold len in *. sz. split; [lia|]. split; [lia|auto].
  Qed.
  Lemma replace_rep : forall s l t pos cnt r, rep s l t -> (len l < 2 ^ 60)%N -> (pos + cnt <= len l)%N -> (len (splice pos cnt l r) < 2 ^ 60)%N ->
    exists s', replace sc s pos cnt (SVal r) = Ok s' /\ rep s' (splice pos cnt l r) t.
  Proof.
    intros s l t pos cnt r H B1 L B2. destruct (splice_split l pos cnt r L) as (a & m & z & E & <- & <- & Es). rewrite Es in *. rewrite E in H, B1.
    apply replace_app; auto; [reflexivity|left; exact I].
  Qed.
  Lemma replaced_rep : forall s l t pos cnt r, rep s l t -> (len l < 2 ^ 60)%N -> (pos + cnt <= len l)%N -> (len (splice pos cnt l r) < 2 ^ 60)%N ->
    exists s', replaced sc s pos cnt (SVal r) = Ok s' /\ rep s' (splice pos cnt l r) true.
  Proof.
    intros s l t pos cnt r H B1 L B2. destruct (splice_split l pos cnt r L) as (a & m & z & E & <- & <- & Es). rewrite Es in *. rewrite E in H, B1. clear E Es L l.
    op H. unfold replaced. rewrite !len_app in *. rewrite Hs.
    replace (len a <=? len a + (len m + len z))%N with true by (symmetry; apply N.leb_le; lia).
    rewrite (wadd_small 64 (len a) (len m)) by (pw; lia).
    replace (len a + len m <=? len a + (len m + len z))%N with true by (symmetry; apply N.leb_le; lia). cbn [contract bind].
    rewrite Hb. cbn [bind slen]. fold (len r). rewrite !map_app, <- !app_assoc.
    rewrite (wsub_len (len a + (len m + len z)) (len m)) by (pw; lia).
    replace (len a + (len m + len z) - len m)%N with (len a + len z)%N by lia.
    rewrite (wsub_len (len a + len z) (len a)) by (pw; lia). replace (len a + len z - len a)%N with (len z) by lia.
    rewrite (wadd_small 64 (len a + len z) (len r)) by (pw; lia).
    destruct (uninit_rep (len a + len z + len r)) as (s' & w & y & q & E & Lw & Hbr & Hy & Sr & K); [lia|]. rewrite E. cbn [bind]. rewrite Hbr. cbn [bind].
    assert (Em : exists w1 w2 w3, w = w1 ++ w2 ++ w3 /\ length w1 = length a /\ length w2 = length r /\ length w3 = length z).
    { exists (firstn (length a) w), (firstn (length r) (skipn (length a) w)), (skipn (length r) (skipn (length a) w)). rewrite !firstn_skipn. unfold len in *. sz. split; auto. lia. }
    destruct Em as (w1 & w2 & w3 & -> & L1 & L2 & L3). rewrite <- !app_assoc.
    pose proof (bread_mid [] (map Some a) (map Some m ++ map Some z ++ x :: rest) 0%N (len a) eq_refl) as W. cbn [app] in W.
    rewrite W by (unfold len; now rewrite map_length). cbn [bind]. clear W.
    pose proof (bwrite_mid [] w1 (w2 ++ w3 ++ y :: q) (map Some a) 0%N eq_refl) as W. cbn [app] in W.
    rewrite W by (sz; auto). cbn [bind sread]. clear W.
    rewrite bwrite_mid by (unfold len; sz; auto). cbn [bind].
    pose proof (bread_mid (map Some a ++ map Some m) (map Some z) (x :: rest) (len a + len m)%N (len z)) as W. rewrite <- app_assoc in W.
    rewrite W by (unfold len; sz; lia). cbn [bind]. clear W.
    rewrite (wadd_small 64 (len a) (len r)) by (pw; lia).
    rewrite (app_assoc (map Some a)). rewrite bwrite_mid by (unfold len; sz; lia). cbn [bind].
    rewrite (app_assoc _ (map Some z)), <- !map_app. eexists. split; [reflexivity|]. rewrite <- (app_assoc a), Sr. apply K. unfold len. sz. lia.
  Qed.

  (* replacing every occurrence *)
  Lemma subst_short : forall f old new l, length l < length old -> subst f old new l = l.
  Proof.
    induction f as [|f IH]; intros old new l L; cbn [subst]; auto. destruct l as [|c l]; auto.
    destruct (prefixb old (c :: l)) eqn:E.
    - apply prefixb_spec in E. destruct E as (z & E). rewrite E in L. sz. lia.
    - f_equal. apply IH. cbn in L. lia.
  Qed.
  Lemma subst_grow : forall f old new l, length old <= length new -> length l <= length (subst f old new l).
  Proof.
    induction f as [|f IH]; intros old new l L; cbn [subst]; auto. destruct l as [|c l]; auto.
    destruct (prefixb old (c :: l)) eqn:E.
    - apply prefixb_spec in E. destruct E as (z & E). rewrite E, skipn_at by auto. sz. specialize (IH old new z L). lia.
    - cbn. specialize (IH old new l L). lia.
  Qed.
  Lemma view_hit : forall d todo old, (len (d ++ todo) < 2 ^ 60)%N -> length old <= length todo ->
    exists w, subview (of_list (d ++ todo)) (len d) (len old) = Ok w /\ veq w (of_list old) = Ok (prefixb old todo).
  Proof.
    intros d todo old B L. assert (V : valid (of_list (d ++ todo))) by (apply valid_of_list; unfold len in B; pw; lia).
    rewrite len_app in B. pose proof (subview_spec (of_list (d ++ todo)) (len d) (len old) V) as S.
    replace (len d + len old <=? vsize (of_list (d ++ todo)))%N with true in S by (symmetry; apply N.leb_le; unfold len; cbn; sz; lia).
    destruct S as (w & E & Vw & Sw & Cw); [unfold len in *; pw; lia|]. exists w. split; auto.
    destruct (veq_spec w (of_list old) Vw) as (r & E2 & I). { apply valid_of_list. unfold len in B. pw. lia. }
    rewrite E2. f_equal. rewrite Cw, !contents_of_list, skipn_at in I by (unfold len; lia).
    replace (N.to_nat (len old)) with (length old) in I by (unfold len; lia). unfold prefixb.
    destruct (list_eqb old (firstn (length old) todo)) eqn:Q.
    - apply list_eqb_spec in Q. apply I. auto.
    - destruct r; auto. assert (firstn (length old) todo = old) by (apply I; auto). rewrite (proj2 (list_eqb_spec old _)) in Q; auto.
  Qed.
  Lemma replace_loop_rep : forall old new t fuel s d todo f, old <> [] -> rep s (d ++ todo) t -> (len old < 2 ^ 60)%N -> (len (d ++ todo) < 2 ^ 60)%N ->
    length todo < fuel -> length todo <= f -> (len (d ++ subst f old new todo) < 2 ^ 60)%N ->
    exists s', replace_loop sc fuel s (len d) old new = Ok s' /\ rep s' (d ++ subst f old new todo) t.
  Proof.
    intros old new t. induction fuel as [|fuel IH]; intros s d todo f Ho H Bo B1 Lf Lg B2; [lia|].
    assert (Hs : ssz s = len (d ++ todo)) by apply H. cbn [replace_loop]. fold (len old). rewrite Hs.
    rewrite len_app in *. rewrite wadd_small by (pw; lia). destruct (N.leb_spec (len d + len old) (len d + len todo)) as [L|L].
    2: { rewrite subst_short by (unfold len in L; lia). eauto. }
    rewrite (view_rep _ _ _ H). cbn [bind].
    destruct (view_hit d todo old) as (w & E1 & E2). { rewrite len_app. auto. } { unfold len in L. lia. }
    rewrite E1. cbn [bind]. rewrite E2. cbn [bind].
    destruct f as [|f]. { destruct todo; [|cbn in Lg; lia]. destruct old; [easy|]. unfold len in L. cbn [length] in L. lia. }
    destruct todo as [|c todo]. { destruct old; [easy|]. unfold len in L. cbn [length] in L. lia. }
    cbn [subst] in *. destruct (prefixb old (c :: todo)) eqn:Pf.
    - apply prefixb_spec in Pf. destruct Pf as (z & Ez). rewrite Ez in *. rewrite skipn_at in * by auto.
      rewrite !len_app in *. assert (Lo : 1 <= length old) by (destruct old; [easy|cbn; lia]).
      assert (B3 : (len d + (len new + len z) < 2 ^ 60)%N).
      { destruct (Nat.le_gt_cases (length old) (length new)) as [G|G].
        - pose proof (subst_grow f old new z G). unfold len in *. lia.
        - unfold len in *. lia. }
      destruct (replace_app s d old z t (SVal new) new) as (s' & E3 & R); auto; [rewrite !len_app; auto..|reflexivity|left; exact I|].
      rewrite E3. cbn [bind]. fold (len new). rewrite wadd_small by (pw; lia). rewrite <- len_app.
      rewrite app_assoc in R |- *. apply IH; auto; rewrite ?len_app; try (sz; lia).
    - rewrite wadd_small by (pw; lia). change 1%N with (len [c]). rewrite <- len_app.
      change (d ++ c :: todo) with (d ++ [c] ++ todo) in H. change (d ++ c :: subst f old new todo) with (d ++ [c] ++ subst f old new todo).
      rewrite app_assoc in H |- *. apply IH; auto; rewrite ?len_app; try (cbn in Lf, Lg; lia); unfold len in *; cbn [length] in *; lia.
  Qed.
  Lemma replace_all_rep : forall s l t old new, rep s l t -> (len l < 2 ^ 60)%N -> len old <> 0%N -> (len (subst (length l) old new l) < 2 ^ 60)%N ->
    exists s', replace_all sc s old new = Ok s' /\ rep s' (subst (length l) old new l) t.
  Proof.
    intros s l t old new H B1 Ho B2. assert (Hs : ssz s = len l) by apply H. unfold replace_all. fold (len old).
    destruct (N.eqb_spec (len old) 0); [easy|]. cbn [negb contract bind]. rewrite Hs. destruct (N.ltb_spec (len l) (len old)) as [L|L].
    - rewrite subst_short by (unfold len in L; lia). eauto.
    - change 0%N with (len []). apply (replace_loop_rep old new t _ s [] l); auto; try lia. { intros ->. now apply Ho. } unfold len. lia.
  Qed.
  Lemma clamped_hit : forall d todo old, (len (d ++ todo) < 2 ^ 60)%N -> (len old < 2 ^ 60)%N ->
    veq (subview_clamped (of_list (d ++ todo)) (len d) (len old)) (of_list old) = Ok (prefixb old todo).
  Proof.
    intros d todo old B Bo. destruct (Nat.le_gt_cases (length old) (length todo)) as [L|L].
    - destruct (view_hit d todo old B L) as (w & E1 & E2). rewrite len_app in B.
      replace (subview_clamped (of_list (d ++ todo)) (len d) (len old)) with w; auto.
      unfold subview in E1. unfold subview_clamped. cbn [of_list vsize mem off] in *. fold (len (d ++ todo)) in *. rewrite len_app in *.
      rewrite wadd_small in * by (pw; lia).
      destruct (N.leb_spec (len d) (len d + len todo)); [|lia]. destruct (N.leb_spec (len d + len old) (len d + len todo)); [|unfold len in *; lia].
      cbn [contract bind] in E1. injection E1 as <-. destruct (N.ltb_spec (len d + len todo) (len d)); [lia|].
      destruct (N.ltb_spec (len d + len todo) (len d + len old)); [lia|]. auto.
    - replace (prefixb old todo) with false.
      + rewrite len_app in B. unfold subview_clamped. cbn [of_list vsize mem off]. fold (len (d ++ todo)). rewrite len_app.
        rewrite wadd_small by (pw; lia). destruct (N.ltb_spec (len d + len todo) (len d)); [lia|].
        destruct (N.ltb_spec (len d + len todo) (len d + len old)); [|unfold len in *; lia]. rewrite wsub_len by (pw; lia).
        unfold veq, equals. cbn [vsize of_list]. destruct (N.eqb_spec (len d + len todo - len d) (ofn (length old))); [unfold len in *; lia|auto].
      + destruct (prefixb old todo) eqn:E; auto. apply prefixb_spec in E. destruct E as (z & ->). sz. lia.
  Qed.
  Lemma replaced_loop_rep : forall old new s t fuel d todo r acc f, old <> [] -> rep s (d ++ todo) t -> rep r acc true ->
    (len old < 2 ^ 60)%N -> (len (d ++ todo) < 2 ^ 60)%N -> length todo < fuel -> length todo <= f -> (len (acc ++ subst f old new todo) < 2 ^ 60)%N ->
    exists s', replaced_loop sc fuel s r (len d) old new = Ok s' /\ rep s' (acc ++ subst f old new todo) true.
  Proof.
    intros old new s t. induction fuel as [|fuel IH]; intros d todo r acc f Ho H Hr Bo B1 Lf Lg B2; [lia|].
    assert (Hs : ssz s = len (d ++ todo)) by apply H. cbn [replaced_loop]. fold (len old). rewrite Hs.
    destruct todo as [|c todo].
    { rewrite app_nil_r, N.ltb_irrefl. destruct f; cbn [subst]; rewrite app_nil_r; eauto. }
    replace (len d <? len (d ++ c :: todo))%N with true by (symmetry; apply N.ltb_lt; unfold len; sz; lia).
    rewrite (view_rep _ _ _ H). cbn [bind]. rewrite clamped_hit by auto. cbn [bind].
    destruct f as [|f]; [cbn in Lg; lia|]. cbn [subst] in *. destruct (prefixb old (c :: todo)) eqn:Pf.
    - apply prefixb_spec in Pf. destruct Pf as (z & Ez). rewrite Ez in *. rewrite skipn_at in * by auto.
      rewrite !len_app in *. assert (Lo : 1 <= length old) by (destruct old; [easy|cbn; lia]).
      destruct (append_rep r acc true (SVal new) new) as (r' & E3 & R); auto. { reflexivity. } { rewrite len_app. lia. }
      rewrite E3. cbn [bind]. rewrite wadd_small by (pw; lia). rewrite <- len_app. rewrite app_assoc in H |- *.
      apply IH; auto; rewrite ?len_app; try lia; sz; lia.
    - clear Hs. op H. rewrite Hb. cbn [bind]. rewrite map_app, <- app_assoc. cbn [map app]. rewrite bget_mid by (now rewrite map_length). cbn [bind].
      rewrite !len_app in *. destruct (push_back_rep r acc true c) as (r' & E3 & R); auto. { lia. }
      rewrite E3. cbn [bind]. rewrite wadd_small by (unfold len in *; pw; lia). change 1%N with (len [c]). rewrite <- len_app.
      change (d ++ c :: todo) with (d ++ [c] ++ todo) in H. change (acc ++ c :: subst f old new todo) with (acc ++ [c] ++ subst f old new todo).
      rewrite app_assoc in H |- *. apply IH; auto; rewrite ?len_app; try (cbn in Lf, Lg; lia); unfold len in *; cbn [length] in *; lia.
  Qed.

  (* ---- one operation ---- *)
  Lemma guard_some : forall A b (x y : A), guard b x = Some y -> b = true /\ x = y.
  Proof. intros A [] x y E; [injection E as <-|discriminate]; auto. Qed.
  Lemma fits_some : forall l t y, fits l t = Some y -> (len l < 2 ^ 60)%N /\ y = (l, t, RUnit).
  Proof. intros l t y E. apply guard_some in E. destruct E as (E & <-). apply N.ltb_lt in E. auto. Qed.
  Definition done (s : outcome (sbo * res)) (l : list N) (t : bool) (r : res) : Prop :=
    (len l < 2 ^ 60)%N /\ exists s', s = Ok (s', r) /\ rep s' l t.
  Lemma done_ru : forall o l t, (exists s', o = Ok s' /\ rep s' l t) -> (len l < 2 ^ 60)%N -> done (ru o) l t RUnit.
  Proof. intros o l t (s' & -> & R) B. split; auto. exists s'. auto. Qed.
  Ltac g1 E := apply guard_some in E; let Q := fresh "Q" in destruct E as (Q & E); injection E as <- <- <-.
  Ltac gf E := apply fits_some in E; let Q := fresh "Q" in destruct E as (Q & E); injection E as -> -> ->.
  Lemma drop_while_len : forall p l, length (drop_while p l) <= length l.
  Proof. induction l; cbn; auto. destruct (p a); cbn; lia. Qed.
  Lemma drop_while_end_len : forall p l, length (drop_while_end p l) <= length l.
  Proof. intros. unfold drop_while_end. rewrite rev_length. rewrite <- (rev_length l). apply drop_while_len. Qed.
  Lemma step_rep : forall s l t o l' t' r, rep s l t -> (len l < 2 ^ 60)%N -> ideal l t o = Some (l', t', r) -> done (step sc s o) l' t' r.
  Proof.
    intros s l t o l' t' r H B E. destruct o; cbn [ideal step] in *.
    - gf E. apply done_ru; auto. eapply push_back_rep; eauto.
    - gf E. apply done_ru; auto. eapply append_rep; eauto. reflexivity.
    - destruct (N.leb_spec (o + n) (len l)); [|discriminate]. gf E. apply done_ru; auto. eapply append_rep; eauto. split; auto.
    - g1 E. apply negb_true_iff, N.eqb_neq in Q. destruct l as [|c l _] using rev_ind; [now destruct Q|].
      rewrite removelast_last. apply done_ru. eapply pop_back_rep; eauto. rewrite len_app in B. lia.
    - g1 E. apply N.ltb_lt in Q. apply done_ru. eapply resize_rep; eauto. unfold len in *. sz. lia.
    - g1 E. apply N.ltb_lt in Q. apply done_ru; auto. destruct (reserve_rep s l t n) as (s' & c & E & R & _); auto. pw; lia. eauto.
    - injection E as <- <- <-. split. reflexivity. eexists. split; [reflexivity|]. apply clear_rep. eapply rep_un; eauto.
    - injection E as <- <- <-. apply done_ru; auto. apply shrink_rep; auto.
    - destruct n as [n|].
      + g1 E. apply N.ltb_lt in Q. apply done_ru. apply (fill_rep s l t c (Some n)); auto. unfold len. sz. lia.
      + injection E as <- <- <-. apply done_ru. apply (fill_rep s l t c None); auto. unfold len. sz. auto.
    - injection E as <- <- <-. apply done_ru. apply capitalize_rep; auto. destruct l; auto. unfold len in *. cbn in *. sz. auto.
    - injection E as <- <- <-. apply done_ru. apply replace_char_rep; auto. unfold len in *. sz. auto.
    - g1 E. apply N.leb_le in Q. apply done_ru. apply remove_prefix_rep; auto. unfold len in *. sz. lia.
    - g1 E. apply done_ru. apply remove_prefix_str_rep; auto. unfold len in *. sz. lia.
    - g1 E. apply N.leb_le in Q. apply done_ru. apply remove_suffix_rep; auto. unfold len in *. sz. lia.
    - g1 E. apply done_ru. apply remove_suffix_str_rep; auto. unfold len in *. sz. lia.
    - injection E as <- <- <-. apply done_ru. apply trim_start_rep; auto. pose proof (drop_while_len p l). unfold len in *. lia.
    - injection E as <- <- <-. apply done_ru. eapply trim_end_rep; eauto. pose proof (drop_while_end_len p l). unfold len in *. lia.
    - injection E as <- <- <-. apply done_ru. eapply trim_rep; eauto. pose proof (drop_while_len p l). pose proof (drop_while_end_len p (drop_while p l)). unfold len in *. lia.
    - g1 E. apply N.ltb_lt in Q. apply done_ru. eapply pad_start_rep; eauto. unfold len in *. sz. lia.
    - g1 E. apply N.ltb_lt in Q. apply done_ru. eapply pad_end_rep; eauto. unfold len in *. sz. lia.
    - destruct (N.leb_spec (pos + cnt) (len l)); [|discriminate]. gf E. apply done_ru; auto. eapply replace_rep; eauto.
    - destruct (N.leb_spec pos (len l)); [|discriminate]. gf E. apply done_ru; auto. unfold insert. eapply replace_rep; eauto. lia.
    - destruct (N.eqb_spec (len old) 0); [discriminate|]. gf E. apply done_ru; auto. eapply replace_all_rep; eauto.
    - g1 E. apply N.ltb_lt in Q. split; auto. erewrite get_rep by eauto. cbn. eauto.
    - g1 E. apply N.ltb_lt in Q. apply done_ru. apply set_at_rep; auto. unfold len in *. sz. lia.
    - g1 E. apply negb_true_iff, N.eqb_neq in Q. split; auto. erewrite front_rep by eauto. cbn. eauto.
    - g1 E. apply negb_true_iff, N.eqb_neq in Q. split; auto. erewrite back_rep by eauto. cbn. eauto.
    - injection E as <- <- <-. split; auto. assert (Hs : ssz s = len l) by apply H. rewrite Hs. eauto.
  Qed.

  (* ---- stores ---- *)
  Definition wrep1 (x : option sbo) (i : istr) : Prop :=
    match i, x with
    | Dead, None => True
    | Moved, Some s => length (un s) = N.to_nat (sc + 1)
    | Val l t, Some s => rep s l t /\ (len l < 2 ^ 60)%N
    | _, _ => False
    end.
  Definition wrep (w : world) (i : list istr) : Prop := Forall2 wrep1 w i.
  Lemma wrep_nth : forall w i k x, wrep w i -> nth_error i k = Some x -> exists y, nth_error w k = Some y /\ wrep1 y x.
  Proof. intros w i k x H. revert k. induction H; intros [|k] E; try discriminate; cbn in *; [injection E as <-; eauto|auto]. Qed.
  Lemma wrep_set : forall w i k x y, wrep w i -> wrep1 y x -> wrep (lset w k y) (iset i k x).
  Proof. intros w i k x y H R. revert k. induction H; intros [|k]; cbn; constructor; auto; apply IHForall2. Qed.
  Lemma wrep_app : forall w i x y, wrep w i -> wrep1 y x -> wrep (w ++ [y]) (i ++ [x]).
  Proof. intros. apply Forall2_app; auto. Qed.
  Lemma wrep_val : forall w i k l t, wrep w i -> iget i k = Some (l, t) -> exists s, gets w k = Ok s /\ rep s l t /\ (len l < 2 ^ 60)%N.
  Proof.
    intros w i k l t H E. unfold iget in E. destruct (nth_error i k) as [[| |l' t']|] eqn:N; try discriminate. injection E as -> ->.
    destruct (wrep_nth _ _ _ _ H N) as ([s|] & E & R); [|easy]. exists s. unfold gets. rewrite E. auto.
  Qed.
  Lemma wrep_live : forall w i k, wrep w i -> ilive i k = true -> exists s, gets w k = Ok s /\ length (un s) = N.to_nat (sc + 1).
  Proof.
    intros w i k H E. unfold ilive in E. destruct (nth_error i k) as [[| |l' t']|] eqn:N; try discriminate;
      destruct (wrep_nth _ _ _ _ H N) as ([s|] & E' & R); try easy; exists s; unfold gets; rewrite E'; split; auto.
    destruct R as [R _]. eapply rep_un; eauto.
  Qed.
  Lemma iset_id : forall i k x, nth_error i k = Some x -> iset i k x = i.
  Proof. induction i; intros [|k] x E; try discriminate; cbn in *; [injection E as ->; auto|f_equal; auto]. Qed.
  Lemma from_some : forall i k f y, from i k f = Some y -> exists l t, iget i k = Some (l, t) /\ f l t = Some y.
  Proof. intros i k f y E. unfold from in E. destruct (iget i k) as [[l t]|]; [eauto|discriminate]. Qed.
  Lemma inew_some : forall i l t y, inew i l t = Some y -> (len l < 2 ^ 60)%N /\ y = (i ++ [Val l t], RUnit).
  Proof. intros i l t y E. apply guard_some in E. destruct E as (E & <-). apply N.ltb_lt in E. auto. Qed.
  Lemma added_rep : forall w i o l t, wrep w i -> (exists s, o = Ok s /\ rep s l t) -> (len l < 2 ^ 60)%N ->
    exists w', added w o = Ok (w', RUnit) /\ wrep w' (i ++ [Val l t]).
  Proof. intros w i o l t H (s & -> & R) B. eexists. split; [reflexivity|]. apply wrep_app; cbn; auto. Qed.
  Lemma wstep_rep : forall w i o i' r, wrep w i -> iwstep i o = Some (i', r) -> exists w', wstep sc w o = Ok (w', r) /\ wrep w' i'.
  Proof.
    intros w i o i' r H E. destruct o; cbn [iwstep wstep] in *.
    - destruct (nth_error i k) as [[| |l t]|] eqn:N; try discriminate.
      + destruct o; try discriminate. injection E as <- <-. destruct (wrep_nth _ _ _ _ H N) as ([s|] & E' & R); [|easy].
        unfold gets. rewrite E'. cbn [bind step]. eexists. split; [reflexivity|]. apply wrep_set; auto. cbn. split; [|reflexivity].
        apply clear_rep. exact R.
      + assert (E2 : exists l' t', ideal l t o = Some (l', t', r) /\ i' = iset i k (Val l' t')).
        { destruct (ideal l t o) as [[[l' t'] r']|]; [injection E as <- <-; eauto|discriminate]. }
        destruct E2 as (l' & t' & E2 & ->). destruct (wrep_nth _ _ _ _ H N) as ([s|] & E' & R); [|easy]. destruct R as [R B].
        unfold gets. rewrite E'. cbn [bind]. destruct (step_rep s l t o l' t' r R B E2) as (B' & s' & E3 & R'). rewrite E3. cbn [bind].
        eexists. split; [reflexivity|]. apply wrep_set; auto. cbn. auto.
    - apply inew_some in E. destruct E as (B & E). injection E as -> ->. apply added_rep; auto. eexists. split; [reflexivity|apply rep_init].
    - apply inew_some in E. destruct E as (B & E). injection E as -> ->. apply added_rep; auto. now apply of_chars_rep.
    - destruct (N.ltb_spec n (2 ^ 60)) as [Q|Q]; unfold ok_size in E; [rewrite (proj2 (N.ltb_lt _ _) Q) in E|rewrite (proj2 (N.ltb_ge _ _) Q) in E; discriminate].
      apply inew_some in E. destruct E as (B & E). injection E as -> ->. apply added_rep; auto. unfold filled.
      destruct (resize_rep (sinit sc) [] true n c rep_init Q) as (s & E & R). exists s. split; auto.
      rewrite firstn_nil, Nat.sub_0_r in R. exact R.
    - apply from_some in E. destruct E as (l & t & G & E). apply inew_some in E. destruct E as (B & E). injection E as -> ->.
      destruct (wrep_val _ _ _ _ _ H G) as (s & Es & R & _). rewrite Es. cbn [bind]. apply added_rep; auto. now apply copy_ctor_rep.
    - apply from_some in E. destruct E as (l & t & G & E). apply inew_some in E. destruct E as (B & E). injection E as -> ->.
      destruct (wrep_val _ _ _ _ _ H G) as (s & Es & R & _). rewrite Es. cbn [bind]. destruct (move_ctor_rep s l t R) as (n & s' & E & Rn & L).
      rewrite E. cbn [bind]. eexists. split; [reflexivity|]. apply wrep_app; [apply wrep_set; auto|]. cbn. auto.
    - destruct (ilive i k) eqn:Lk; [|discriminate]. apply from_some in E. destruct E as (l & t & G & E). injection E as <- <-.
      destruct (wrep_live _ _ _ H Lk) as (s0 & Es0 & L0). destruct (wrep_val _ _ _ _ _ H G) as (s & Es & R & B). rewrite Es0. cbn [bind]. rewrite Es. cbn [bind].
      destruct (Nat.eqb_spec k j) as [->|NE].
      + eexists. split; [reflexivity|]. rewrite iset_id; auto. unfold iget in G. destruct (nth_error i j) as [[| |]|]; try discriminate. now injection G as -> ->.
      + destruct (copy_assign_rep s s0 l t R L0) as (s' & E & R'). rewrite E. cbn [bind]. eexists. split; [reflexivity|]. apply wrep_set; auto. cbn. auto.
    - destruct (ilive i k) eqn:Lk; [|discriminate]. destruct (Nat.eqb_spec k j) as [->|NE]; [discriminate|]. cbn [negb andb] in E.
      apply from_some in E. destruct E as (l & t & G & E). injection E as <- <-.
      destruct (wrep_live _ _ _ H Lk) as (s0 & Es0 & L0). destruct (wrep_val _ _ _ _ _ H G) as (s & Es & R & B). rewrite Es0. cbn [bind]. rewrite Es. cbn [bind].
      destruct (move_assign_rep s0 s l t R L0) as (n & s' & E & Rn & L). rewrite E. cbn [bind]. eexists. split; [reflexivity|].
      apply wrep_set; auto. apply wrep_set; auto. cbn. auto.
    - destruct (ilive i k) eqn:Lk; [|discriminate]. injection E as <- <-. destruct (wrep_live _ _ _ H Lk) as (s0 & Es0 & L0). rewrite Es0. cbn [bind].
      eexists. split; [reflexivity|]. apply wrep_set; auto. reflexivity.
    - apply from_some in E. destruct E as (l & t & G & E). apply inew_some in E. destruct E as (B & E). injection E as -> ->.
      destruct (wrep_val _ _ _ _ _ H G) as (s & Es & R & B1). rewrite Es. cbn [bind]. apply added_rep; auto. eapply mapped_rep; eauto.
    - apply from_some in E. destruct E as (l & t & G & E). apply inew_some in E. destruct E as (B & E). injection E as -> ->.
      destruct (wrep_val _ _ _ _ _ H G) as (s & Es & R & B1). rewrite Es. cbn [bind]. apply added_rep; auto. eapply capitalized_rep; eauto.
    - apply from_some in E. destruct E as (l0 & t & G & E). destruct (N.leb_spec (pos + cnt) (len l0)); [|discriminate].
      apply inew_some in E. destruct E as (B & E). injection E as -> ->.
      destruct (wrep_val _ _ _ _ _ H G) as (s & Es & R & B1). rewrite Es. cbn [bind]. apply added_rep; auto. eapply replaced_rep; eauto.
    - apply from_some in E. destruct E as (l & t & G & E). destruct (N.eqb_spec (len old) 0) as [Z|Z]; [discriminate|].
      apply inew_some in E. destruct E as (B & E). injection E as -> ->.
      destruct (wrep_val _ _ _ _ _ H G) as (s & Es & R & B1). rewrite Es. cbn [bind]. fold (len old).
      destruct (N.eqb_spec (len old) 0); [easy|]. cbn [negb contract bind]. assert (Hs : ssz s = len l) by apply R. rewrite Hs.
      destruct (N.ltb_spec (len l) (len old)) as [L|L]; (apply added_rep; auto).
      + replace (len old <=? len l)%N with false by (symmetry; apply N.leb_gt; lia). rewrite orb_false_r.
        rewrite subst_short by (unfold len in L; lia). now apply copy_ctor_rep.
      + replace (len old <=? len l)%N with true by (symmetry; apply N.leb_le; lia). rewrite orb_true_r.
        change 0%N with (len []). change (subst (length l) old new l) with ([] ++ subst (length l) old new l).
        eapply replaced_loop_rep; cbn [app]; eauto using rep_init; try lia. { intros ->. now apply Z. } unfold len. lia.
    - apply from_some in E. destruct E as (l0 & t & G & E). apply inew_some in E. destruct E as (B & E). injection E as -> ->.
      destruct (wrep_val _ _ _ _ _ H G) as (s & Es & R & B1). rewrite Es. cbn [bind]. apply added_rep; auto. eapply concat_rep; eauto.
  Qed.
  Lemma wrun_rep : forall os w i i' rs, wrep w i -> iwrun i os = Some (i', rs) -> exists w', wrun sc w os = Ok (w', rs) /\ wrep w' i'.
  Proof.
    induction os as [|o os IH]; intros w i i' rs H E; cbn [iwrun wrun] in *.
    - injection E as <- <-. eauto.
    - destruct (iwstep i o) as [[i1 r]|] eqn:E1; [|discriminate]. destruct (iwrun i1 os) as [[i2 rs2]|] eqn:E2; [|discriminate].
      injection E as <- <-. destruct (wstep_rep _ _ _ _ _ H E1) as (w1 & W1 & H1). rewrite W1. cbn [bind].
      destruct (IH _ _ _ _ H1 E2) as (w2 & W2 & H2). rewrite W2. cbn [bind]. eauto.
  Qed.
  Lemma wrep_agrees : forall w i, wrep w i -> Forall2 (agrees sc) w i.
  Proof.
    intros w i H. induction H; constructor; auto. destruct y, x; cbn in *; try easy. exists s. split; auto. apply rep_shows. tauto.
  Qed.
End S.

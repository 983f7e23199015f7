(* Proofs about vectors of trivially copyable elements. *)
From Coq Require Import NArith Arith List Bool Lia.
From Verif Require Import Base TVecModel TVecSpec OwnHeap.
Import ListNotations.
Open Scope N_scope.

Ltac big := unfold limit in *; change (2 ^ 48) with 281474976710656 in *; change (2 ^ 49) with 562949953421312 in *;
  change (2 ^ 63) with 9223372036854775808 in *; change (2 ^ 64) with 18446744073709551616 in *; change (2 ^ 15) with 32768 in *.
Lemma put_lset : forall T (l : list T) i x, put l i x = lset l i x.
Proof. induction l; intros [|i] x; cbn; auto. f_equal. auto. Qed.
Lemma values_map : forall A (l : list (option A)) vs, values l = Some vs -> l = map Some vs.
Proof.
  induction l as [|[x|] l IH]; intros vs H; cbn [values] in H; try discriminate.
  - injection H as <-. reflexivity.
  - destruct (values l); [|discriminate]. injection H as <-. cbn [map]. f_equal. auto.
Qed.

Section B.
  Context {A : Type}.
  Notation cells := (list (option A)).
  Lemma wr_mid : forall (l r : cells) y x, wr (l ++ y :: r) (length l) x = Ok (l ++ x :: r).
  Proof.
    intros l r y x. unfold wr. rewrite app_length. cbn [length]. destruct (Nat.ltb_spec (length l) (length l + S (length r))); [|lia].
    f_equal. induction l; cbn; auto. f_equal. apply IHl. lia.
  Qed.
  Lemma wr_in : forall (l r : cells) i x, (i < length l)%nat -> wr (l ++ r) i x = Ok (lset l i x ++ r).
  Proof.
    intros l r i x H. unfold wr. rewrite app_length. destruct (Nat.ltb_spec i (length l + length r)); [|lia].
    rewrite lset_app1 by lia. reflexivity.
  Qed.
  Lemma rd_in : forall (l r : cells) i x, nth_error l i = Some (Some x) -> rd (l ++ r) i = Ok x.
  Proof.
    intros l r i x H. unfold rd. rewrite nth_error_app1 by (apply nth_error_Some; congruence). rewrite H. reflexivity.
  Qed.
  Lemma wrs_mid : forall (l X Z xs : cells), length X = length xs -> wrs (l ++ X ++ Z) (length l) xs = Ok (l ++ xs ++ Z).
  Proof.
    intros l X Z xs H. unfold wrs. rewrite !app_length. destruct (Nat.leb_spec (length l + length xs) (length l + (length X + length Z))); [|lia].
    f_equal. rewrite firstn_app, Nat.sub_diag, firstn_O, app_nil_r, firstn_all. f_equal. f_equal.
    rewrite app_assoc, skipn_app, app_length. rewrite skipn_all2 by (rewrite app_length; lia).
    replace (length l + length xs - (length l + length X))%nat with 0%nat by lia. reflexivity.
  Qed.
  Lemma split_rest : forall n (r : cells), (n <= length r)%nat -> exists X Z, r = X ++ Z /\ length X = n.
  Proof. intros n r H. exists (firstn n r), (skipn n r). split; [symmetry; apply firstn_skipn|]. rewrite firstn_length. lia. Qed.
  Lemma copy_end : forall (l r xs : cells), (length xs <= length r)%nat ->
    exists r', copy_range xs (length l) (l ++ r) = Ok ((l ++ xs) ++ r') /\ (length xs + length r' = length r)%nat.
  Proof.
    intros l r xs H. destruct (split_rest _ _ H) as (X & Z & -> & L). exists Z. rewrite app_length. split; [|lia].
    destruct xs as [|x xs].
    - destruct X; [|discriminate]. cbn [copy_range app]. rewrite app_nil_r. reflexivity.
    - cbn [copy_range]. rewrite wrs_mid by exact L. rewrite app_assoc. reflexivity.
  Qed.
  Lemma slice_mid : forall (l X Z : cells), slice (l ++ X ++ Z) (length l) (length X) = Ok X.
  Proof.
    intros. unfold slice. rewrite !app_length. destruct (Nat.leb_spec (length l + length X) (length l + (length X + length Z))); [|lia].
    f_equal. rewrite skipn_app, skipn_all, Nat.sub_diag. cbn [app skipn]. rewrite firstn_app, Nat.sub_diag, firstn_O, app_nil_r, firstn_all. reflexivity.
  Qed.
  Lemma insert_cells : forall (l1 l2 r : cells) xs, (length xs <= length r)%nat ->
    exists c r', relocate (length l1 + length xs) (length l1) (length l2) ((l1 ++ l2) ++ r) = Ok c /\
      length c = length ((l1 ++ l2) ++ r) /\
      (xs <> [] -> copy_range xs (length l1) c = Ok ((l1 ++ xs ++ l2) ++ r')) /\ (length xs + length r' = length r)%nat.
  Proof.
    intros l1 l2 r xs H. destruct l2 as [|y l2].
    - cbn [length relocate]. rewrite app_nil_r. destruct (split_rest _ _ H) as (X & Z & -> & L). exists (l1 ++ X ++ Z), Z.
      split; [reflexivity|]. split; [reflexivity|]. rewrite app_length. split; [|lia]. intro N. destruct xs; [congruence|]. cbn [copy_range].
      rewrite wrs_mid by exact L. rewrite app_nil_r, <- app_assoc. reflexivity.
    - remember (y :: l2) as m eqn:Em.
      assert (forall c : cells, relocate (length l1 + length xs) (length l1) (length m) c = let! ys := slice c (length l1) (length m) in wrs c (length l1 + length xs) ys) as Rl
        by (intro; rewrite Em; reflexivity).
      rewrite Rl. rewrite <- app_assoc, slice_mid. cbn [bind].
      assert (length xs + length m <= length (m ++ r))%nat as Hm by (rewrite app_length; lia).
      destruct (split_rest (length xs) (m ++ r)) as (X & Y & E & LX); [lia|]. rewrite E in *. rewrite app_length in Hm.
      destruct (split_rest (length m) Y) as (Y1 & Y2 & -> & LY); [lia|].
      assert (length (m ++ r) = length (X ++ Y1 ++ Y2)) as LL by (rewrite E; reflexivity). rewrite !app_length in LL.
      exists (l1 ++ X ++ m ++ Y2), Y2. rewrite app_assoc, <- LX, <- app_length, wrs_mid by exact LY. rewrite <- !app_assoc.
      split; [reflexivity|]. rewrite !app_length. split; [lia|]. split; [|lia].
      intro N. destruct xs; [congruence|]. cbn [copy_range]. rewrite wrs_mid by exact LX. reflexivity.
  Qed.
  Lemma fill_ok : forall n x (l r : cells), (n <= length r)%nat ->
    exists r', fill n (length l) x (l ++ r) = Ok ((l ++ repeat (Some x) n) ++ r') /\ (n + length r' = length r)%nat.
  Proof.
    induction n as [|n IH]; intros x l r H; cbn [fill repeat].
    - exists r. rewrite app_nil_r. auto.
    - destruct r as [|y r]; [cbn in H; lia|]. rewrite wr_mid. cbn [bind]. destruct (IH x (l ++ [Some x]) r) as (r' & E & L); [cbn in H; lia|].
      rewrite app_length, Nat.add_1_r in E. rewrite <- !app_assoc in E. cbn [app] in E. exists r'. rewrite E. rewrite <- !app_assoc. cbn [app length]. split; [reflexivity|lia].
  Qed.
  Lemma shift_ok : forall (vs : list A) (l1 mid r : cells) k, N.of_nat (length mid) = k -> mid <> [] ->
    N.of_nat (length (l1 ++ mid ++ map Some vs)) < 2 ^ 64 ->
    exists t, shift (length vs) (length l1) k (l1 ++ mid ++ map Some vs ++ r) = Ok (l1 ++ map Some vs ++ t) /\ length t = (length mid + length r)%nat.
  Proof.
    induction vs as [|v vs IH]; intros l1 mid r k Hk Hm B; cbn [length shift map app].
    - exists (mid ++ r). rewrite app_length. auto.
    - destruct mid as [|m mid]; [congruence|]. rewrite wadd_small by (rewrite !app_length in B; cbn [length] in *; lia).
      assert (rd (l1 ++ (m :: mid) ++ Some v :: map Some vs ++ r) (N.to_nat (N.of_nat (length l1) + k)) = Ok v) as ->.
      { unfold rd. rewrite app_assoc, nth_error_app2 by (rewrite app_length; lia). rewrite app_length.
        replace (N.to_nat (N.of_nat (length l1) + k) - (length l1 + length (m :: mid)))%nat with 0%nat by lia. reflexivity. }
      cbn [bind app]. rewrite wr_mid. cbn [bind]. destruct (IH (l1 ++ [Some v]) (mid ++ [Some v]) r k) as (t & E & L).
      + rewrite app_length. cbn [length] in *. lia.
      + destruct mid; discriminate.
      + rewrite !app_length in *. cbn [length map] in *. lia.
      + rewrite app_length, Nat.add_1_r in E. rewrite <- !app_assoc in E. cbn [app] in E. exists t. rewrite E. split; [reflexivity|].
        rewrite L, app_length. cbn [length]. lia.
  Qed.
  Lemma remove_ok : forall p (l kept : list A) (junk r : cells),
    exists t, let l' := kept ++ filter (fun v => negb (p v)) l in
      remove_loop p (length l) (length kept + length junk) (length kept) (map Some kept ++ junk ++ map Some l ++ r) = Ok (map Some l' ++ t, length l') /\
      length (map Some l' ++ t) = length (map Some kept ++ junk ++ map Some l ++ r).
  Proof.
    intro p. induction l as [|v l IH]; intros kept junk r; cbn [length remove_loop filter map app].
    - exists (junk ++ r). rewrite app_nil_r. split; reflexivity.
    - assert (rd (map Some kept ++ junk ++ Some v :: map Some l ++ r) (length kept + length junk) = Ok v) as ->.
      { unfold rd. rewrite app_assoc, nth_error_app2 by (rewrite app_length, map_length; lia). rewrite app_length, map_length, Nat.sub_diag. reflexivity. }
      cbn [bind]. destruct (p v) eqn:Pv; cbn [negb].
      + destruct (IH kept (junk ++ [Some v]) r) as (t & E & L). exists t. rewrite app_length, Nat.add_1_r, Nat.add_succ_r in E.
        rewrite <- !app_assoc in E, L. cbn [app] in E, L. cbn beta zeta in *. split; [exact E|exact L].
      + set (F := filter (fun v => negb (p v)) l) in *.
        assert (forall t : cells, length (map Some (kept ++ v :: F) ++ t) = (length kept + S (length F) + length t)%nat) as LF
          by (intro; rewrite app_length, map_length, app_length; reflexivity).
        destruct junk as [|j junk].
        * cbn [length]. rewrite Nat.add_0_r, Nat.eqb_refl. cbn [bind]. destruct (IH (kept ++ [v]) [] r) as (t & E & L). exists t.
          cbn beta zeta in *. replace ((kept ++ [v]) ++ F) with (kept ++ v :: F) in * by (rewrite <- app_assoc; reflexivity).
          replace (map Some (kept ++ [v])) with (map Some kept ++ [Some v]) in * by (rewrite map_app; reflexivity).
          rewrite <- !app_assoc in *. cbn [app] in *. rewrite app_length in E. cbn [length] in E. rewrite Nat.add_0_r, Nat.add_1_r in E.
          split; [exact E|exact L].
        * cbn [length]. destruct (Nat.eqb_spec (length kept) (length kept + S (length junk))); [lia|]. cbn [app].
          pose proof (wr_mid (map Some kept) (junk ++ Some v :: map Some l ++ r) j (Some v)) as Ew. rewrite map_length in Ew. rewrite Ew. cbn [bind].
          destruct (IH (kept ++ [v]) (junk ++ [Some v]) r) as (t & E & L). exists t.
          cbn beta zeta in *. replace ((kept ++ [v]) ++ F) with (kept ++ v :: F) in * by (rewrite <- app_assoc; reflexivity).
          replace (map Some (kept ++ [v])) with (map Some kept ++ [Some v]) in * by (rewrite map_app; reflexivity).
          rewrite <- !app_assoc in *. cbn [app] in *. rewrite !app_length in E. cbn [length] in E.
          replace (length kept + 1 + (length junk + 1))%nat with (S (length kept + S (length junk))) in E by lia.
          replace (length kept + 1)%nat with (S (length kept)) in E by lia.
          split; [rewrite (app_length kept (v :: F)); exact E|]. rewrite L. rewrite !app_length. cbn [length]. rewrite !app_length. reflexivity.
  Qed.
End B.

Section P.
  Context {A : Type} (sz : N) (dflt : A) (SZ : 0 < sz < 2 ^ 15).
  Notation cells := (list (option A)).
  Notation block := (@block A).
  Notation heap := (@heap A).
  Definition cellsof (ob : option block) : cells := match ob with None => [] | Some (_, c) => c end.
  Definition setc (ob : option block) (c : cells) : option block := match ob with None => None | Some (a, _) => Some (a, c) end.
  Definition owner (a : nat) (ob : option block) : Prop := match ob with None => True | Some (a', _) => a' = a end.
  Definition ok (v : vec) (ob : option block) (x : ivec A) : Prop :=
    al v = ia x /\ vcap v = ic x /\ vsize v = len x /\ ic x <= 2 ^ 49 /\ owner (al v) ob /\
    exists rest, cellsof ob = il x ++ rest /\ N.of_nat (length (il x ++ rest)) = ic x.
  Definition stp (h : heap) (p : option nat) (ob : option block) : Prop :=
    match p, ob with None, None => True | Some b, Some c => nth_error h b = Some (Some c) | _, _ => False end.
  (* the block changes, or is replaced by a new one, or is given back *)
  Definition same (h : heap) (p : option nat) (h' : heap) (ob' : option block) : Prop :=
    match p, ob' with None, None => h' = h | Some b, Some c => h' = lset h b (Some c) | _, _ => False end.
  Definition tr (h : heap) (p : option nat) (h' : heap) (p' : option nat) (ob' : option block) : Prop :=
    (p' = p /\ same h p h' ob') \/
    (exists c, p' = Some (length h) /\ ob' = Some c /\ h' = drop h p ++ [Some c]) \/
    (p' = None /\ ob' = None /\ h' = drop h p).
  Notation rep := (rep (@vdata) ok).
  Notation good := (good (@vdata) ok).
  Definition R (w : world (A:=A)) (s : store A) : Prop := rep None (hp w) (objs w) s.

  Lemma good_stp : forall h v x, good h (Some v) (Some x) -> exists ob, stp h (vdata v) ob /\ ok v ob x.
  Proof.
    intros h v x G. destruct (vdata v) as [b|] eqn:P.
    - destruct (good_blk _ _ _ _ _ _ G P) as (c & E & K). exists (Some c). split; assumption.
    - exists None. split; [exact Logic.I|]. exact (good_null _ _ _ _ _ G P).
  Qed.
  Lemma stp_good : forall h v ob x, stp h (vdata v) ob -> ok v ob x -> good h (Some v) (Some x).
  Proof.
    intros h v ob x S K. unfold OwnHeap.good, blk. unfold stp in S. destruct (vdata v) as [b|], ob as [c|]; try contradiction.
    - rewrite S. split; [discriminate|exact K].
    - split; [congruence|exact K].
  Qed.
  Lemma tr_refl : forall h p ob, stp h p ob -> tr h p h p ob.
  Proof.
    intros h p ob S. left. split; [reflexivity|]. unfold stp, same in *. destruct p, ob; try contradiction; auto.
    symmetry. apply lset_same. exact S.
  Qed.
  Lemma tr_same : forall h p h1 p1 ob1 h2 ob2, tr h p h1 p1 ob1 -> same h1 p1 h2 ob2 -> tr h p h2 p1 ob2.
  Proof.
    intros h p h1 p1 ob1 h2 ob2 [(-> & T)|[(c & -> & -> & ->)|(-> & -> & ->)]] S.
    - left. split; [reflexivity|]. unfold same in *. destruct p, ob1, ob2; try contradiction; subst; auto. apply lset_twice.
    - right. left. unfold same in S. destruct ob2 as [c2|]; [|contradiction]. exists c2. split; [reflexivity|]. split; [reflexivity|].
      rewrite S. rewrite <- (drop_length h p). apply lset_app_new.
    - right. right. unfold same in S. destruct ob2; [contradiction|]. subst. auto.
  Qed.
  Lemma with_ok : forall T h (v : vec) ob (f : cells -> outcome (cells * T)) c r, stp h (vdata v) ob -> owner (al v) ob ->
    f (cellsof ob) = Ok (c, r) -> length c = length (cellsof ob) ->
    exists h', with_cells h v f = Ok (h', r) /\ same h (vdata v) h' (setc ob c) /\ stp h' (vdata v) (setc ob c) /\
      cellsof (setc ob c) = c /\ owner (al v) (setc ob c).
  Proof.
    intros T h v ob f c r S O E L. unfold with_cells, stp, same in *. destruct (vdata v) as [b|], ob as [[a c0]|]; try contradiction; cbn [cellsof setc] in *.
    - rewrite S, E. cbn [bind]. eexists. split; [reflexivity|]. split; [reflexivity|]. split; [|auto].
      apply lset_nth_eq. apply nth_error_Some. congruence.
    - rewrite E. cbn [bind]. eexists. split; [reflexivity|]. destruct c; [|discriminate]. auto.
  Qed.
  Lemma on_ok : forall h (v : vec) ob f c, stp h (vdata v) ob -> owner (al v) ob -> f (cellsof ob) = Ok c -> length c = length (cellsof ob) ->
    exists h', on_cells h v f = Ok h' /\ same h (vdata v) h' (setc ob c) /\ stp h' (vdata v) (setc ob c) /\
      cellsof (setc ob c) = c /\ owner (al v) (setc ob c).
  Proof.
    intros h v ob f c S O E L. destruct (with_ok unit h v ob (fun c => let! c := f c in Ok (c, tt)) c tt S O) as (h' & Eh & H); [rewrite E; reflexivity|exact L|].
    exists h'. unfold on_cells. rewrite Eh. cbn [bind]. auto.
  Qed.
  Lemma room_ok : forall n, n * sz < 2 ^ 64 -> room sz n = N.to_nat n.
  Proof. intros n H. unfold room, wmul. rewrite wrap_small by exact H. rewrite N.div_mul by lia. reflexivity. Qed.
  Lemma fits : forall n, n <= 2 ^ 49 -> n * sz < 2 ^ 64.
  Proof. intros n H. big. nia. Qed.
  Lemma free_ok : forall h p ob a, stp h p ob -> owner a ob -> free a p h = Ok (drop h p).
  Proof.
    intros h p ob a S O. unfold free, stp in *. destruct p as [b|], ob as [[a' c]|]; try contradiction; [|reflexivity].
    rewrite S. cbn [owner] in O. subst. rewrite Nat.eqb_refl. reflexivity.
  Qed.
  Lemma cells_ok : forall h p ob, stp h p ob -> cells_at h p = Ok (cellsof ob).
  Proof. intros h p ob S. unfold cells_at, stp in *. destruct p as [b|], ob as [[a c]|]; try contradiction; [rewrite S|]; reflexivity. Qed.
  Lemma realloc_ok : forall h p ob a n, stp h p ob -> owner a ob -> n <= 2 ^ 49 ->
    exists p' h' ob', realloc sz a p n h = Ok (p', h') /\ tr h p h' p' ob' /\ stp h' p' ob' /\ owner a ob' /\
      cellsof ob' = firstn (N.to_nat n) (cellsof ob ++ repeat None (N.to_nat n)).
  Proof.
    intros h p ob a n S O B. pose proof (fits n B) as F. unfold realloc. rewrite room_ok by exact F.
    unfold wmul. rewrite wrap_small by exact F. destruct (N.ltb_spec 0 (n * sz)).
    - rewrite (cells_ok _ _ _ S). cbn [bind]. set (c := firstn _ _).
      assert (free a p (h ++ [Some (a, c)]) = Ok (drop h p ++ [Some (a, c)])) as ->.
      { rewrite (free_ok _ _ ob); auto.
        - unfold drop. destruct p as [b|]; [|reflexivity]. rewrite lset_app1; [reflexivity|]. unfold stp in S. destruct ob; [|contradiction].
          apply nth_error_Some. congruence.
        - unfold stp in *. destruct p as [b|], ob; try contradiction; auto. rewrite nth_error_app1; auto. apply nth_error_Some. congruence. }
      cbn [bind]. rewrite app_length, drop_length. cbn [length]. replace (length h + 1 - 1)%nat with (length h) by lia.
      eexists _, _, (Some (a, c)). split; [reflexivity|]. split; [|split; [|split; reflexivity]].
      + right. left. exists (a, c). auto.
      + cbn [stp]. rewrite <- (drop_length h p). apply nth_app_new.
    - rewrite (free_ok _ _ ob) by assumption. cbn [bind]. eexists _, _, None. split; [reflexivity|]. assert (n = 0) by nia. subst.
      split; [right; right; auto|]. cbn. auto.
  Qed.

  Definition L (e : outcome (heap * vec)) (h : heap) (v : vec) (x' : ivec A) : Prop :=
    exists h' v' ob', e = Ok (h', v') /\ tr h (vdata v) h' (vdata v') ob' /\ stp h' (vdata v') ob' /\ ok v' ob' x'.
  Lemma L_refl : forall h v ob x, stp h (vdata v) ob -> ok v ob x -> L (Ok (h, v)) h v x.
  Proof. intros h v ob x S K. exists h, v, ob. split; [reflexivity|]. split; [apply tr_refl; exact S|]. auto. Qed.
  Lemma len_cap : forall v ob x, ok v ob x -> len x <= ic x.
  Proof. intros v ob x (_ & _ & _ & _ & _ & r & _ & E). rewrite app_length in E. unfold len. lia. Qed.

  Lemma reserve_ok : forall h v ob x n, stp h (vdata v) ob -> ok v ob x ->
    if n <=? limit then L (reserve sz h v n) h v (mki (ia x) (grown x n) (il x)) else reserve sz h v n = Contract.
  Proof.
    intros h v ob x n S K. unfold reserve. fold limit. destruct (N.leb_spec n limit) as [B|B]; [|reflexivity]. cbn [contract bind].
    pose proof (len_cap _ _ _ K) as LC. pose proof K as (K1 & K2 & K3 & K4 & K5 & r & K6 & K7). unfold grown. rewrite K2. destruct (N.leb_spec n (ic x)) as [C|C].
    - apply L_refl with ob; auto.
    - rewrite N.shiftl_mul_pow2. change (2 ^ 1) with 2. rewrite wrap_small by (big; lia).
      replace (if ic x * 2 <? n then n else ic x * 2) with (N.max (2 * ic x) n) by (destruct (N.ltb_spec (ic x * 2) n); lia).
      destruct (realloc_ok h (vdata v) ob (al v) (N.max (2 * ic x) n) S K5) as (p' & h' & ob' & E & T & S' & O' & C'); [big; lia|].
      rewrite E. cbn [bind]. eexists _, _, ob'. split; [reflexivity|]. cbn [vdata]. split; [exact T|]. split; [exact S'|].
      unfold ok. cbn [al vcap vsize ia ic il]. split; [exact K1|]. split; [reflexivity|]. split; [exact K3|]. split; [big; lia|]. split; [exact O'|].
      set (m := N.to_nat (N.max (2 * ic x) n)) in *. exists (firstn (m - length (il x)) (r ++ repeat None m)).
      rewrite C', K6, <- app_assoc. rewrite app_length in K7.
      assert (length (il x) <= m)%nat by (unfold m; lia). split.
      + rewrite firstn_app, (firstn_all2 (n:=m)) by lia. reflexivity.
      + rewrite app_length, firstn_length, app_length, repeat_length. unfold m in *. lia.
  Qed.
  (* change the elements of a vector that has room for them *)
  Lemma L_on : forall h v h1 v1 ob1 x f r l' n, tr h (vdata v) h1 (vdata v1) ob1 -> stp h1 (vdata v1) ob1 -> ok v1 ob1 x ->
    f (cellsof ob1) = Ok (l' ++ r) -> length (l' ++ r) = length (cellsof ob1) -> n = N.of_nat (length l') ->
    exists h2, on_cells h1 v1 f = Ok h2 /\ L (Ok (h2, sized v1 n)) h v (mki (ia x) (ic x) l').
  Proof.
    intros h v h1 v1 ob1 x f r l' n T S (K1 & K2 & K3 & K4 & K5 & r0 & K6 & K7) E Le Hn.
    destruct (on_ok h1 v1 ob1 f _ S K5 E Le) as (h2 & E2 & S2 & P2 & C2 & O2). exists h2. split; [exact E2|].
    eexists _, _, (setc ob1 (l' ++ r)). split; [reflexivity|]. cbn [sized vdata]. split; [apply (tr_same _ _ _ _ _ _ _ T S2)|]. split; [exact P2|].
    unfold ok, len. cbn [al vcap vsize ia ic il sized]. split; [exact K1|]. split; [exact K2|]. split; [exact Hn|]. split; [exact K4|]. split; [exact O2|].
    exists r. split; [exact C2|]. rewrite Le, K6. exact K7.
  Qed.
  Lemma at_ok : forall h v ob x i y, stp h (vdata v) ob -> ok v ob x -> value_at (il x) i = Some y -> at_ h v i = Ok y.
  Proof.
    intros h v ob x i y S (_ & _ & _ & _ & _ & r & K6 & _) V. unfold at_. rewrite (cells_ok _ _ _ S). cbn [bind]. rewrite K6.
    unfold value_at in V. destruct (nth_error (il x) (N.to_nat i)) as [z|] eqn:E; [|discriminate]. subst z. apply rd_in. exact E.
  Qed.
  Lemma eval_ok : forall h v ob x a y, stp h (vdata v) ob -> ok v ob x -> argval (il x) a = Some y -> eval h v a = Ok y.
  Proof. intros h v ob x [z|i] y S K V; cbn [argval eval] in *; [congruence|]. apply (at_ok h v ob x); auto. Qed.
  Lemma ok_size : forall v ob x, ok v ob x -> vsize v = len x.
  Proof. intros v ob x K. apply K. Qed.
  Lemma ok_small : forall v ob x, ok v ob x -> len x <= 2 ^ 49 /\ N.to_nat (vsize v) = length (il x).
  Proof. intros v ob x K. pose proof (len_cap _ _ _ K). destruct K as (_ & _ & K3 & K4 & _). split; [lia|]. rewrite K3. unfold len. lia. Qed.
  Lemma L_end : forall h v h1 v1 ob1 x y, tr h (vdata v) h1 (vdata v1) ob1 -> stp h1 (vdata v1) ob1 -> ok v1 ob1 x -> len x < ic x ->
    exists h2, on_cells h1 v1 (fun c => wr c (N.to_nat (vsize v1)) (Some y)) = Ok h2 /\
      L (Ok (h2, sized v1 (wadd 64 (vsize v1) 1))) h v (mki (ia x) (ic x) (il x ++ [Some y])).
  Proof.
    intros h v h1 v1 ob1 x y T S K B. pose proof (ok_small _ _ _ K) as (B1 & B2). pose proof (ok_size _ _ _ K) as B3.
    pose proof K as (K1 & K2 & K3 & K4 & K5 & r & K6 & K7). rewrite app_length in K7. unfold len in B.
    destruct r as [|z r]; [cbn [length] in K7; lia|]. apply (L_on h v h1 v1 ob1 x _ r); auto.
    - rewrite B2, K6, wr_mid, <- app_assoc. reflexivity.
    - rewrite K6, !app_length. cbn [length]. lia.
    - rewrite B3, wadd_small by (big; lia). rewrite app_length. cbn [length]. unfold len. lia.
  Qed.
  Lemma emplace_ok : forall h v ob x a y, stp h (vdata v) ob -> ok v ob x -> argval (il x) a = Some y ->
    (len x < ic x -> L (emplace_back sz h v a) h v (mki (ia x) (ic x) (il x ++ [Some y]))) /\
    (ic x <= len x -> ic x <= limit -> L (emplace_back sz h v a) h v (mki (ia x) (N.max 1 (2 * ic x)) (il x ++ [Some y]))).
  Proof.
    intros h v ob x a y S K V. pose proof (ok_small _ _ _ K) as (B1 & B2). pose proof (len_cap _ _ _ K) as LC. unfold emplace_back. rewrite (eval_ok _ _ _ _ _ _ S K V). cbn [bind].
    pose proof K as (K1 & K2 & K3 & K4 & K5 & r & K6 & K7). split.
    - intro B. rewrite K2, K3. destruct (N.eqb_spec (len x) (ic x)); [lia|].
      destruct (L_end h v h v ob x y (tr_refl _ _ _ S) S K B) as (h2 & E & Le). rewrite <- K3, E. cbn [bind]. exact Le.
    - intros B Bl. rewrite K2, K3. destruct (N.eqb_spec (len x) (ic x)) as [Ef|]; [|lia].
      rewrite N.shiftl_mul_pow2. change (2 ^ 1) with 2. rewrite wrap_small by (big; lia).
      replace (if ic x =? 0 then 1 else ic x * 2) with (N.max 1 (2 * ic x)) by (destruct (N.eqb_spec (ic x) 0); lia).
      set (nc := N.max 1 (2 * ic x)) in *. assert (ic x < nc <= 2 ^ 49) as Bn by (unfold nc; big; lia).
      assert (r = []) as -> by (rewrite app_length in K7; unfold len in Ef; destruct r; [reflexivity|cbn [length] in K7; lia]).
      rewrite app_nil_r in K6, K7. destruct (N.leb_spec sz 512) as [Z|Z].
      + destruct (realloc_ok h (vdata v) ob (al v) nc S K5) as (p' & h' & ob' & E & T & S' & O' & C'); [lia|]. rewrite E. cbn [bind].
        set (v1 := mkv (al v) p' (len x) nc). assert (ok v1 ob' (mki (ia x) nc (il x))) as K'.
        { unfold ok. cbn. split; [exact K1|]. split; [reflexivity|]. split; [reflexivity|]. split; [lia|]. split; [exact O'|].
          exists (firstn (N.to_nat nc - length (il x)) (repeat None (N.to_nat nc))).
          rewrite C', K6. rewrite firstn_app, (firstn_all2 (n:=N.to_nat nc)) by lia. split; [reflexivity|]. rewrite app_length, firstn_length, repeat_length. lia. }
        destruct (L_end h v h' v1 ob' _ y T S' K') as (h2 & E2 & L2); [unfold len in *; cbn [il ic]; lia|].
        replace (N.to_nat (len x)) with (N.to_nat (vsize v1)) by reflexivity. rewrite E2. cbn [bind]. exact L2.
      + unfold alloc. rewrite room_ok by (apply fits; lia). set (c0 := repeat None (N.to_nat nc)).
        set (v1 := mkv (al v) (Some (length h)) (len x) nc).
        assert (stp (h ++ [Some (al v, c0)]) (vdata v1) (Some (al v, c0))) as S1 by apply nth_app_new.
        assert (length c0 = N.to_nat nc) as L0 by apply repeat_length.
        destruct (on_ok _ v1 _ (fun c => wr c (N.to_nat (len x)) (Some y)) (lset c0 (N.to_nat (len x)) (Some y)) S1 eq_refl) as (h1 & E1 & S2 & S3 & C3 & O3).
        { cbn [cellsof]. unfold wr. destruct (Nat.ltb_spec (N.to_nat (len x)) (length c0)); [reflexivity|lia]. }
        { apply lset_length. }
        rewrite E1. cbn [bind]. cbn [same vdata v1] in S2. cbn [setc] in S2. rewrite lset_app_new in S2. cbn [setc] in S3, C3.
        assert (stp h1 (vdata v) ob) as S4.
        { subst h1. unfold stp in *. destruct (vdata v) as [b|], ob; try contradiction; auto. rewrite nth_error_app1; auto. apply nth_error_Some. congruence. }
        unfold view. rewrite (cells_ok _ _ _ S4). cbn [bind]. rewrite K6. replace (N.to_nat (len x)) with (length (il x)) by (unfold len; lia).
        pose proof (slice_mid [] (il x) []) as Sl. cbn [app length] in Sl. rewrite app_nil_r in Sl. rewrite Sl. cbn [bind].
        set (c1 := lset c0 (N.to_nat (len x)) (Some y)) in *.
        assert (exists t, c1 = firstn (length (il x)) c0 ++ Some y :: t) as (t & Ht).
        { exists (skipn (1 + length (il x)) c0). unfold c1. replace (N.to_nat (len x)) with (length (il x)) by (unfold len; lia).
          assert (length (il x) < length c0)%nat as Lt by (unfold len in Ef; lia). revert Lt. clear. generalize (length (il x)). induction c0 as [|z c IH]; intros [|n] H; cbn in *; try lia; auto. f_equal. apply IH. lia. }
        assert (length (firstn (length (il x)) c0) = length (il x)) as Lf by (rewrite firstn_length; unfold len in Ef; lia).
        assert (copy_range (il x) 0 c1 = Ok ((il x ++ [Some y]) ++ t)) as Ec.
        { rewrite Ht. destruct (il x) as [|z m] eqn:Ex; [reflexivity|]. cbn [copy_range].
          pose proof (wrs_mid [] (firstn (length (z :: m)) c0) (Some y :: t) (z :: m)) as W. rewrite app_nil_l in W. change (length (@nil (option A))) with 0%nat in W. rewrite W by exact Lf. rewrite <- app_assoc. reflexivity. }
        assert (length ((il x ++ [Some y]) ++ t) = length c0) as Lc.
        { transitivity (length c1); [|apply lset_length]. rewrite Ht, !app_length. cbn [length]. lia. }
        destruct (on_ok h1 v1 (Some (al v, c1)) (copy_range (il x) 0) _ S3 eq_refl Ec) as (h2 & E2 & S5 & S6 & C6 & O6).
        { cbn [cellsof]. rewrite Lc. unfold c1. symmetry. apply lset_length. }
        rewrite E2. cbn [bind]. cbn [same vdata v1 setc] in S5. rewrite S2, lset_app_new in S5. cbn [setc cellsof] in *.
        assert (stp h2 (vdata v) ob) as S7.
        { subst h2. unfold stp in *. destruct (vdata v) as [b|], ob; try contradiction; auto. rewrite nth_error_app1; auto. apply nth_error_Some. congruence. }
        rewrite (free_ok _ _ ob) by assumption. cbn [bind].
        assert (drop h2 (vdata v) = drop h (vdata v) ++ [Some (al v, (il x ++ [Some y]) ++ t)]) as Dh.
        { subst h2. unfold drop. destruct (vdata v) as [b|]; [|reflexivity]. rewrite lset_app1; [reflexivity|]. unfold stp in S. destruct ob; [|contradiction]. apply nth_error_Some. congruence. }
        eexists _, _, (Some (al v, (il x ++ [Some y]) ++ t)). split; [reflexivity|]. rewrite Dh. cbn [sized vdata v1]. split; [|split].
        * right. left. eauto.
        * cbn [stp]. rewrite <- (drop_length h (vdata v)). apply nth_app_new.
        * unfold ok, len. cbn [al vcap vsize ia ic il sized v1 owner cellsof]. split; [exact K1|]. split; [reflexivity|]. split.
          -- rewrite wadd_small by (unfold len in *; big; lia). rewrite app_length. cbn [length]. lia.
          -- split; [lia|]. split; [reflexivity|]. exists t. split; [reflexivity|]. rewrite Lc, L0. lia.
  Qed.
  Lemma stable_ok : forall h v ob x a y, stp h (vdata v) ob -> ok v ob x -> argval (il x) a = Some y ->
    if len x <? ic x then L (emplace_back_stable h v a) h v (mki (ia x) (ic x) (il x ++ [Some y])) else emplace_back_stable h v a = Contract.
  Proof.
    intros h v ob x a y S K V. unfold emplace_back_stable. pose proof K as (K1 & K2 & K3 & _). rewrite K2, K3.
    destruct (N.ltb_spec (len x) (ic x)) as [B|B]; [|reflexivity]. cbn [contract bind]. rewrite (eval_ok _ _ _ _ _ _ S K V). cbn [bind].
    destruct (L_end h v h v ob x y (tr_refl _ _ _ S) S K B) as (h2 & E & Le). rewrite <- K3, E. cbn [bind]. exact Le.
  Qed.
  Lemma rest_room : forall v ob x r n, ok v ob x -> cellsof ob = il x ++ r -> len x + N.of_nat n <= ic x -> (n <= length r)%nat.
  Proof.
    intros v ob x r n (_ & _ & _ & _ & _ & r' & K6 & K7) E B. rewrite <- K6, E, app_length in K7. unfold len in B. lia.
  Qed.
  Lemma grown_ge : forall (x : ivec A) n, n <= grown x n.
  Proof. intros x n. unfold grown. destruct (N.leb_spec n (ic x)); lia. Qed.
  Lemma push_range_ok : forall h v ob x (l : list A), stp h (vdata v) ob -> ok v ob x -> l <> [] -> N.of_nat (length l) < 2 ^ 63 \/ len x + N.of_nat (length l) <= limit ->
    if len x + N.of_nat (length l) <=? limit
    then L (push_back_range sz h v l) h v (mki (ia x) (grown x (len x + N.of_nat (length l))) (il x ++ map Some l))
    else push_back_range sz h v l = Contract.
  Proof.
    intros h v ob x l S K Hl B. pose proof (ok_small _ _ _ K) as (B1 & _). unfold push_back_range. destruct l as [|z l0] eqn:El; [congruence|]. rewrite <- El in *. clear El Hl.
    rewrite (ok_size _ _ _ K), wadd_small by (big; lia).
    pose proof (reserve_ok h v ob x (len x + N.of_nat (length l)) S K) as Hr. destruct (N.leb_spec (len x + N.of_nat (length l)) limit) as [C|C].
    - destruct Hr as (h1 & v1 & ob1 & E & T & S1 & K1). rewrite E. cbn [bind]. pose proof (ok_small _ _ _ K1) as (_ & B4). pose proof (ok_size _ _ _ K1) as B3.
      cbn [il] in B4. unfold len in B3. cbn [il] in B3. fold (len x) in B3. pose proof K1 as (_ & _ & _ & _ & _ & r & K6 & _). cbn [il] in K6.
      assert (length (map Some l) <= length r)%nat as Lr.
      { apply (rest_room v1 ob1 _ _ _ K1 K6). rewrite map_length. unfold len. cbn [il ic]. apply grown_ge. }
      destruct (copy_end (il x) r (map Some l) Lr) as (r' & Ec & Lc).
      destruct (L_on h v h1 v1 ob1 _ (copy_range (map Some l) (N.to_nat (vsize v1))) r' (il x ++ map Some l) (len x + N.of_nat (length l)) T S1 K1) as (h2 & E2 & L2).
      + rewrite B4, K6. exact Ec.
      + rewrite K6, !app_length. lia.
      + rewrite app_length, map_length. unfold len. lia.
      + rewrite E2. cbn [bind]. rewrite B3, wadd_small by (big; lia). exact L2.
    - rewrite Hr. reflexivity.
  Qed.
  Lemma insert_ok : forall h v ob x i (l : list A), stp h (vdata v) ob -> ok v ob x -> i <= len x -> l <> [] -> N.of_nat (length l) < 2 ^ 63 \/ len x + N.of_nat (length l) <= limit ->
    if len x + N.of_nat (length l) <=? limit
    then L (insert_range_at sz h v i l) h v (mki (ia x) (grown x (len x + N.of_nat (length l))) (firstn (N.to_nat i) (il x) ++ map Some l ++ skipn (N.to_nat i) (il x)))
    else insert_range_at sz h v i l = Contract.
  Proof.
    intros h v ob x i l S K Hi Hl B. pose proof (ok_small _ _ _ K) as (B1 & _). unfold insert_range_at. rewrite (ok_size _ _ _ K).
    destruct (N.leb_spec i (len x)); [|lia]. cbn [contract bind]. destruct l as [|z l0] eqn:El; [congruence|]. rewrite <- El in *. assert (map Some l <> []) as Hm by (rewrite El; discriminate). clear El Hl.
    rewrite wadd_small by (big; lia).
    pose proof (reserve_ok h v ob x (len x + N.of_nat (length l)) S K) as Hr. destruct (N.leb_spec (len x + N.of_nat (length l)) limit) as [C|C].
    - destruct Hr as (h1 & v1 & ob1 & E & T & S1 & K1). rewrite E. cbn [bind]. pose proof (ok_size _ _ _ K1) as B3.
      unfold len in B3. cbn [il] in B3. fold (len x) in B3. rewrite B3. pose proof K1 as (Q1 & Q2 & Q3 & Q4 & Q5 & r & K6 & K7). cbn [il] in K6.
      assert (length (map Some l) <= length r)%nat as Lr.
      { apply (rest_room v1 ob1 _ _ _ K1 K6). rewrite map_length. unfold len. cbn [il ic]. apply grown_ge. }
      rewrite wsub_ge by (big; lia). set (l1 := firstn (N.to_nat i) (il x)). set (l2 := skipn (N.to_nat i) (il x)).
      assert (length l1 = N.to_nat i) as L1 by (unfold l1; rewrite firstn_length; unfold len in *; lia).
      assert (length l2 = N.to_nat (len x - i)) as L2 by (unfold l2; rewrite skipn_length; unfold len in *; lia).
      assert (il x = l1 ++ l2) as Ex by (symmetry; apply firstn_skipn).
      destruct (insert_cells l1 l2 r (map Some l) Lr) as (c & r' & Er & Lc & Ec & Le).
      rewrite <- L1, <- L2. rewrite map_length in Er.
      destruct (on_ok h1 v1 ob1 (relocate (length l1 + length l) (length l1) (length l2)) c S1 Q5) as (h2 & E2 & S2 & S3 & C3 & O3); [rewrite K6, Ex; exact Er|rewrite K6, Ex; exact Lc|].
      rewrite E2. cbn [bind].
      destruct (on_ok h2 v1 (setc ob1 c) (copy_range (map Some l) (length l1)) ((l1 ++ map Some l ++ l2) ++ r') S3 O3) as (h3 & E3 & S4 & S5 & C5 & O5).
      { rewrite C3. apply Ec. exact Hm. }
      { rewrite C3, Lc, !app_length. lia. }
      rewrite E3. cbn [bind]. eexists _, _, _. split; [reflexivity|]. cbn [sized vdata]. split; [eapply tr_same; [eapply tr_same; [exact T|exact S2]|exact S4]|].
      split; [exact S5|]. unfold ok, len. cbn [al vcap vsize ia ic il sized]. split; [exact Q1|]. split; [exact Q2|]. split.
      + rewrite wadd_small by (unfold len in *; big; lia). rewrite !app_length, map_length. unfold len in *. lia.
      + split; [exact Q4|]. split; [exact O5|]. exists r'. split; [exact C5|]. cbn [il ic] in K7. etransitivity; [|exact K7]. rewrite Ex, !app_length. lia.
    - rewrite Hr. reflexivity.
  Qed.
  Lemma L_cut : forall h v ob x l' t n, stp h (vdata v) ob -> ok v ob x -> il x = l' ++ t -> n = N.of_nat (length l') ->
    L (Ok (h, sized v n)) h v (mki (ia x) (ic x) l').
  Proof.
    intros h v ob x l' t n S (K1 & K2 & K3 & K4 & K5 & r & K6 & K7) E Hn. exists h, (sized v n), ob. split; [reflexivity|]. split; [apply tr_refl; exact S|].
    split; [exact S|]. unfold ok, len. cbn [al vcap vsize ia ic il sized]. split; [exact K1|]. split; [exact K2|]. split; [exact Hn|]. split; [exact K4|]. split; [exact K5|].
    exists (t ++ r). rewrite E, <- app_assoc in K6, K7. auto.
  Qed.
  Lemma removelast_split : forall (l : cells), l <> [] -> exists y, l = removelast l ++ [y] /\ nth_error l (length l - 1) = Some y /\ length (removelast l) = (length l - 1)%nat.
  Proof.
    intros l H. destruct (exists_last H) as (l' & y & ->). exists y. rewrite removelast_last, app_length. cbn [length]. rewrite Nat.add_sub.
    split; [reflexivity|]. split; [apply nth_app_new|reflexivity].
  Qed.
  Lemma pop_ok : forall h v ob x, stp h (vdata v) ob -> ok v ob x -> len x <> 0 -> L (pop_back h v) h v (mki (ia x) (ic x) (removelast (il x))).
  Proof.
    intros h v ob x S K H. pose proof (ok_small _ _ _ K) as (B1 & _). unfold pop_back. rewrite (ok_size _ _ _ K). destruct (N.ltb_spec 0 (len x)); [|lia]. cbn [contract bind].
    destruct (removelast_split (il x)) as (y & E & _ & Le); [intro Q; apply H; unfold len; rewrite Q; reflexivity|].
    apply (L_cut h v ob x _ [y]); auto. rewrite wsub_ge by (big; lia). unfold len in *. lia.
  Qed.
  Lemma resize_ok : forall h v ob x n y, stp h (vdata v) ob -> ok v ob x ->
    if (n <=? ic x) || (n <=? limit)
    then L (resize sz h v n y) h v (mki (ia x) (grown x n) (firstn (N.to_nat n) (il x) ++ repeat (Some y) (N.to_nat (n - len x))))
    else resize sz h v n y = Contract.
  Proof.
    intros h v ob x n y S K. unfold resize. pose proof K as (K1 & K2 & _). rewrite K2.
    assert (if (n <=? ic x) || (n <=? limit) then L (if ic x <? n then reserve sz h v n else Ok (h, v)) h v (mki (ia x) (grown x n) (il x)) else
            (if ic x <? n then reserve sz h v n else Ok (h, v)) = Contract) as Hr.
    { pose proof (reserve_ok h v ob x n S K) as Q. unfold grown in *. destruct (N.leb_spec n (ic x)), (N.ltb_spec (ic x) n); try lia; cbn [orb].
      - apply L_refl with ob; auto.
      - exact Q. }
    destruct ((n <=? ic x) || (n <=? limit)); [|rewrite Hr; reflexivity].
    destruct Hr as (h1 & v1 & ob1 & E & T & S1 & Q). rewrite E. cbn [bind]. pose proof (ok_small _ _ _ Q) as (_ & B4). cbn [il] in B4.
    pose proof Q as (_ & _ & _ & _ & _ & r & K6 & K7). cbn [il] in K6. rewrite B4.
    replace (N.to_nat n - length (il x))%nat with (N.to_nat (n - len x)) by (unfold len; lia). set (m := N.to_nat (n - len x)).
    assert (m <= length r)%nat as Lm.
    { destruct (N.le_gt_cases n (len x)); [unfold m; lia|]. apply (rest_room v1 ob1 _ _ _ Q K6). pose proof (grown_ge x n). unfold m, len in *. cbn [il ic]. lia. }
    destruct (fill_ok m y (il x) r Lm) as (r' & Ef & Lf). destruct (N.le_gt_cases n (len x)) as [B|B].
    - assert (m = 0%nat) as Em by (unfold m; lia). rewrite Em in *. cbn [fill repeat] in *.
      destruct (L_on h v h1 v1 ob1 _ (fun c => Ok c) (skipn (N.to_nat n) (il x) ++ r) (firstn (N.to_nat n) (il x)) n T S1 Q) as (h2 & E2 & L2).
      + rewrite K6. rewrite app_assoc, firstn_skipn. reflexivity.
      + rewrite K6. rewrite app_assoc, firstn_skipn. reflexivity.
      + rewrite firstn_length. unfold len in B. lia.
      + change (fill 0 (length (il x)) y) with (fun c : cells => Ok c). rewrite E2. cbn [bind]. rewrite app_nil_r. exact L2.
    - destruct (L_on h v h1 v1 ob1 _ (fill m (length (il x)) y) r' (il x ++ repeat (Some y) m) n T S1 Q) as (h2 & E2 & L2).
      + rewrite K6. exact Ef.
      + rewrite K6, !app_length, repeat_length. lia.
      + rewrite app_length, repeat_length. unfold m, len in *. lia.
      + rewrite E2. cbn [bind]. rewrite firstn_all2 by (unfold len in B; lia). exact L2.
  Qed.
  Lemma shrink_ok : forall h v ob x, stp h (vdata v) ob -> ok v ob x -> L (shrink_to_fit sz h v) h v (mki (ia x) (len x) (il x)).
  Proof.
    intros h v ob x S K. pose proof (ok_small _ _ _ K) as (B1 & _). unfold shrink_to_fit. pose proof K as (K1 & K2 & K3 & K4 & K5 & r & K6 & K7). rewrite K2, K3.
    destruct (N.eqb_spec (len x) (ic x)) as [E|E].
    - apply L_refl with ob; auto. rewrite E. exact K.
    - destruct (realloc_ok h (vdata v) ob (al v) (len x) S K5) as (p' & h' & ob' & Er & T & S' & O' & C'); [lia|]. rewrite Er. cbn [bind].
      eexists _, _, ob'. split; [reflexivity|]. cbn [vdata]. split; [exact T|]. split; [exact S'|]. unfold ok, len. cbn [al vcap vsize ia ic il].
      split; [exact K1|]. split; [reflexivity|]. split; [reflexivity|]. split; [exact B1|]. split; [exact O'|]. exists []. rewrite app_nil_r. split; [|reflexivity].
      rewrite C', K6. unfold len. rewrite Nnat.Nat2N.id, <- app_assoc, firstn_app, firstn_all, Nat.sub_diag, firstn_O, app_nil_r. reflexivity.
  Qed.
  Lemma remove_all_ok : forall h v ob x p l, stp h (vdata v) ob -> ok v ob x -> values (il x) = Some l ->
    let l' := filter (fun v => negb (p v)) l in
    exists h' v', remove_all h v p = Ok (h', v', len x - N.of_nat (length l')) /\ L (Ok (h', v')) h v (mki (ia x) (ic x) (map Some l')).
  Proof.
    intros h v ob x p l S K V l'. pose proof (ok_small _ _ _ K) as (B1 & B2). pose proof K as (K1 & K2 & K3 & K4 & K5 & r & K6 & K7).
    apply values_map in V. destruct (remove_ok p l [] [] r) as (t & E & Le). cbn [app map length Nat.add] in E, Le. fold l' in E, Le.
    rewrite V in K6. destruct (with_ok nat h v ob (remove_loop p (length l) 0 0) (map Some l' ++ t) (length l') S K5) as (h2 & E2 & S2 & S3 & C3 & O3).
    { rewrite K6. exact E. } { rewrite K6. exact Le. }
    assert (length l = length (il x)) as Ll by (rewrite V, map_length; reflexivity).
    assert (length l' <= length l)%nat as Lf by (unfold l'; clear; induction l as [|z l IH]; cbn; [lia|destruct (p z); cbn; lia]).
    exists h2, (sized v (N.of_nat (length l'))). unfold remove_all. rewrite B2, <- Ll, E2. cbn [bind]. rewrite K3, wsub_ge by (unfold len in *; big; lia). split; [reflexivity|].
    eexists _, _, _. split; [reflexivity|]. cbn [sized vdata]. split; [eapply tr_same; [apply tr_refl; exact S|exact S2]|]. split; [exact S3|].
    unfold ok, len. cbn [al vcap vsize ia ic il sized]. rewrite map_length. split; [exact K1|]. split; [exact K2|]. split; [reflexivity|]. split; [exact K4|]. split; [exact O3|].
    exists t. split; [exact C3|]. rewrite Le, <- K7, V, !app_length. reflexivity.
  Qed.
  Lemma cut_ok : forall h v ob x i n l, stp h (vdata v) ob -> ok v ob x -> 0 < n -> i + n <= len x ->
    values (skipn (N.to_nat (i + n)) (il x)) = Some l ->
    exists h2, on_cells h v (shift (length l) (N.to_nat i) n) = Ok h2 /\ L (Ok (h2, sized v (len x - n))) h v (mki (ia x) (ic x) (firstn (N.to_nat i) (il x) ++ map Some l)).
  Proof.
    intros h v ob x i n l S K Hn B V. pose proof (ok_small _ _ _ K) as (B1 & B2). apply values_map in V. pose proof K as (_ & _ & _ & _ & _ & r & K6 & _).
    set (l1 := firstn (N.to_nat i) (il x)) in *. set (mid := firstn (N.to_nat n) (skipn (N.to_nat i) (il x))).
    assert (il x = l1 ++ mid ++ map Some l) as Ex.
    { rewrite <- V. unfold l1, mid. rewrite <- (firstn_skipn (N.to_nat i) (il x)) at 1. f_equal. rewrite <- (firstn_skipn (N.to_nat n) (skipn (N.to_nat i) (il x))) at 1. f_equal.
      rewrite N2Nat.inj_add. generalize (N.to_nat i) (N.to_nat n) (il x). clear. intros a b l. revert a. induction l as [|z l IH]; intros [|a]; cbn; rewrite ?skipn_nil; auto. }
    assert (length l1 = N.to_nat i) as L1 by (unfold l1; rewrite firstn_length; unfold len in *; lia).
    assert (length mid = N.to_nat n) as Lm by (unfold mid; rewrite firstn_length, skipn_length; unfold len in *; lia).
    destruct (shift_ok l l1 mid r n) as (t & Es & Lt).
    - lia.
    - intro Q. rewrite Q in Lm. cbn [length] in Lm. lia.
    - rewrite <- Ex. unfold len in B1. big. lia.
    - rewrite <- L1. assert (len x = N.of_nat (length l1 + (length mid + length l))) as Lx by (unfold len; rewrite Ex, !app_length, map_length; reflexivity).
      apply (L_on h v h v ob x (shift (length l) (length l1) n) t (l1 ++ map Some l) (len x - n) (tr_refl _ _ _ S) S K).
      + rewrite K6, Ex, <- !app_assoc. exact Es.
      + rewrite K6, Ex, !app_length, map_length. lia.
      + rewrite app_length, map_length. lia.
  Qed.
  Lemma values_len : forall (l : cells) vs, values l = Some vs -> length vs = length l.
  Proof. intros l vs H. rewrite (values_map _ _ _ H), map_length. reflexivity. Qed.
  Lemma remove_range_ok : forall h v ob x i n, stp h (vdata v) ob -> ok v ob x -> 0 < n < 2 ^ 63 ->
    if (len x <=? i) || (len x <? i + n) then remove_range h v i n = Contract
    else forall l, values (skipn (N.to_nat (i + n)) (il x)) = Some l -> L (remove_range h v i n) h v (mki (ia x) (ic x) (firstn (N.to_nat i) (il x) ++ map Some l)).
  Proof.
    intros h v ob x i n S K Hn. pose proof (ok_small _ _ _ K) as (B1 & B2). unfold remove_range. rewrite (ok_size _ _ _ K). destruct (N.eqb_spec n 0); [lia|].
    destruct (N.leb_spec (len x) i) as [B|B]; cbn [orb].
    - destruct (N.ltb_spec i (len x)); [lia|]. reflexivity.
    - destruct (N.ltb_spec i (len x)); [|lia]. cbn [contract bind]. rewrite wadd_small by (big; lia).
      destruct (N.ltb_spec (len x) (i + n)), (N.leb_spec (i + n) (len x)); try lia; [reflexivity|]. cbn [contract bind]. intros l V.
      destruct (cut_ok h v ob x i n l S K) as (h2 & E & L2); [lia|assumption|exact V|]. rewrite wsub_ge by (big; lia).
      apply values_len in V. rewrite skipn_length in V. replace (N.to_nat (len x - n) - N.to_nat i)%nat with (length l) by (unfold len; lia). rewrite E. cbn [bind]. exact L2.
  Qed.
  Lemma remove_at_ok : forall h v ob x i, stp h (vdata v) ob -> ok v ob x ->
    if len x <=? i then remove_at h v i = Contract
    else forall l, values (skipn (1 + N.to_nat i) (il x)) = Some l -> L (remove_at h v i) h v (mki (ia x) (ic x) (firstn (N.to_nat i) (il x) ++ map Some l)).
  Proof.
    intros h v ob x i S K. pose proof (ok_small _ _ _ K) as (B1 & B2). unfold remove_at. rewrite (ok_size _ _ _ K).
    destruct (N.leb_spec (len x) i) as [B|B]; destruct (N.ltb_spec i (len x)); try lia; [reflexivity|]. cbn [contract bind]. intros l V.
    replace (1 + N.to_nat i)%nat with (N.to_nat (i + 1)) in V by lia.
    destruct (cut_ok h v ob x i 1 l S K) as (h2 & E & L2); [lia|lia|exact V|]. rewrite wsub_ge by (big; lia).
    apply values_len in V. rewrite skipn_length in V. replace (N.to_nat (len x) - (N.to_nat i + 1))%nat with (length l) by (unfold len; lia). rewrite E. cbn [bind]. exact L2.
  Qed.
  Lemma set_ok : forall h v h1 v1 ob1 x i y, tr h (vdata v) h1 (vdata v1) ob1 -> stp h1 (vdata v1) ob1 -> ok v1 ob1 x -> i < len x ->
    exists h2 ob2, on_cells h1 v1 (fun c => wr c (N.to_nat i) (Some y)) = Ok h2 /\ tr h (vdata v) h2 (vdata v1) ob2 /\ stp h2 (vdata v1) ob2 /\
      ok v1 ob2 (mki (ia x) (ic x) (lset (il x) (N.to_nat i) (Some y))).
  Proof.
    intros h v h1 v1 ob1 x i y T S K B. pose proof K as (K1 & K2 & K3 & K4 & K5 & r & K6 & K7). unfold len in B.
    destruct (on_ok h1 v1 ob1 (fun c => wr c (N.to_nat i) (Some y)) (lset (il x) (N.to_nat i) (Some y) ++ r) S K5) as (h2 & E & S2 & S3 & C3 & O3).
    { rewrite K6. apply wr_in. lia. } { rewrite K6, !app_length, lset_length. reflexivity. }
    exists h2, (setc ob1 (lset (il x) (N.to_nat i) (Some y) ++ r)). split; [exact E|]. split; [eapply tr_same; eassumption|]. split; [exact S3|].
    unfold ok, len. cbn [ia ic il]. rewrite lset_length. split; [exact K1|]. split; [exact K2|]. split; [exact K3|]. split; [exact K4|]. split; [exact O3|].
    exists r. split; [exact C3|]. rewrite app_length, lset_length, <- app_length. exact K7.
  Qed.
  Lemma remove_unordered_ok : forall h v ob x i a b, stp h (vdata v) ob -> ok v ob x -> i < len x -> value_at (il x) i = Some a -> value_at (il x) (len x - 1) = Some b ->
    L (remove_at_unordered h v i) h v (mki (ia x) (ic x) (removelast (lset (il x) (N.to_nat i) (Some b)))).
  Proof.
    intros h v ob x i a b S K B Va Vb. pose proof (ok_small _ _ _ K) as (B1 & B2). unfold remove_at_unordered. rewrite (ok_size _ _ _ K). destruct (N.ltb_spec i (len x)); [|lia]. cbn [contract bind].
    rewrite wsub_ge by (big; lia). rewrite (at_ok _ _ _ _ _ _ S K Va), (at_ok _ _ _ _ _ _ S K Vb). cbn [bind].
    destruct (set_ok h v h v ob x i b (tr_refl _ _ _ S) S K B) as (h1 & ob1 & E1 & T1 & S1 & K1). rewrite E1. cbn [bind].
    destruct (set_ok h v h1 v ob1 _ (len x - 1) a T1 S1 K1) as (h2 & ob2 & E2 & T2 & S2 & K2); [unfold len in *; cbn [il]; rewrite lset_length; lia|]. rewrite E2. cbn [bind]. cbn [ia ic il] in K2.
    set (l1 := lset (il x) (N.to_nat i) (Some b)) in *. assert (length l1 = length (il x)) as Ll by apply lset_length.
    destruct (pop_ok h2 v ob2 _ S2 K2) as (h3 & v3 & ob3 & E3 & T3 & S3 & K3); [unfold len in *; cbn [il]; rewrite lset_length; lia|]. cbn [ia ic il] in K3.
    rewrite E3. unfold pop_back in E3. destruct (contract (0 <? vsize v)) as [[]| | |]; try discriminate. cbn [bind] in E3. injection E3 as <- <-.
    exists h2, (sized v (wsub 64 (vsize v) 1)), ob2. split; [reflexivity|]. split; [exact T2|]. split; [exact S2|].
    assert (removelast (lset l1 (N.to_nat (len x - 1)) (Some a)) = removelast l1) as Er.
    { destruct (removelast_split l1) as (y & Ey & _ & Ly); [intro Q; rewrite Q in Ll; unfold len in *; cbn [length] in Ll; lia|].
      rewrite Ey at 1. replace (N.to_nat (len x - 1)) with (length (removelast l1)) by (unfold len in *; lia). rewrite lset_app_new, removelast_last. reflexivity. }
    rewrite Er in K3. destruct (vdata v) eqn:P; cbn [sized vdata] in S3; rewrite ?P in S3; unfold stp in S2, S3; destruct ob2, ob3; try contradiction; [|exact K3].
    rewrite S2 in S3. injection S3 as ->. exact K3.
  Qed.

  (* the whole store *)
  Lemma close_L : forall h os (s : store A) k v h' v' ob' x', rep None h os s -> nth_error os k = Some (Some v) ->
    tr h (vdata v) h' (vdata v') ob' -> ok v' ob' x' -> rep None h' (lset os k (Some v')) (lset s k (Some x')).
  Proof.
    intros h os s k v h' v' ob' x' HR Nk T K. assert (k < length os)%nat as Hk by (apply nth_error_Some; congruence).
    destruct T as [(P & T)|[(c & P & -> & ->)|(P & -> & ->)]].
    - unfold same in T. destruct (vdata v) as [b|] eqn:Ev, ob' as [c|]; try contradiction; subst h'.
      + apply (rep_upd _ _ _ _ _ _ v v' _ b c HR Nk); auto.
      + destruct (rep_drop _ _ _ _ _ _ _ HR Nk) as (HR' & _). rewrite Ev in HR'. cbn [drop] in HR'. apply close_null; auto.
    - destruct (rep_drop _ _ _ _ _ _ _ HR Nk) as (HR' & _). apply close_fresh; auto. rewrite drop_length. exact P.
    - destruct (rep_drop _ _ _ _ _ _ _ HR Nk) as (HR' & _). apply close_null; auto.
  Qed.
  Lemma new_L : forall h os (s : store A) h' v' ob' x', rep None h os s ->
    tr h None h' (vdata v') ob' -> ok v' ob' x' -> rep None h' (os ++ [Some v']) (s ++ [Some x']).
  Proof.
    intros h os s h' v' ob' x' HR T K. destruct T as [(P & T)|[(c & P & -> & ->)|(P & -> & ->)]].
    - unfold same in T. destruct ob' as [c|]; [contradiction|]. subst h'. apply new_null; auto.
    - cbn [drop]. apply new_fresh; auto.
    - cbn [drop]. apply new_null; auto.
  Qed.
  Lemma empty_ok : forall a, ok (empty a) None (mki a 0 []).
  Proof. intro a. unfold ok. cbn. repeat split; try lia. exists []. auto. Qed.
  Lemma step_get : forall w s k x, R w s -> nth_error s k = Some (Some x) ->
    exists v ob, get w k = Ok v /\ nth_error (objs w) k = Some (Some v) /\ stp (hp w) (vdata v) ob /\ ok v ob x.
  Proof.
    intros w s k x HR Hx. destruct (rep_get _ _ _ _ _ _ _ _ HR ltac:(discriminate) Hx) as (v & Nv & G & _). destruct (good_stp _ _ _ G) as (ob & S & K).
    exists v, ob. unfold get. rewrite Nv. auto.
  Qed.
  Lemma step_upd : forall w s k x f x', R w s -> nth_error s k = Some (Some x) ->
    (forall v ob, nth_error (objs w) k = Some (Some v) -> stp (hp w) (vdata v) ob -> ok v ob x -> L (f (hp w) v) (hp w) v x') ->
    exists w', upd w k f = Ok (w', RUnit) /\ R w' (put s k (Some x')).
  Proof.
    intros w s k x f x' HR Hx Hf. destruct (step_get w s k x HR Hx) as (v & ob & E & Nv & S & K). unfold upd. rewrite E. cbn [bind].
    destruct (Hf v ob Nv S K) as (h' & v' & ob' & Ef & T & S' & K'). rewrite Ef. cbn [bind]. eexists. split; [reflexivity|].
    rewrite put_lset. apply (close_L _ _ _ _ _ _ _ _ _ HR Nv T K').
  Qed.
  Lemma step_updc : forall w s k x f, R w s -> nth_error s k = Some (Some x) ->
    (forall v ob, stp (hp w) (vdata v) ob -> ok v ob x -> f (hp w) v = Contract) -> upd w k f = Contract.
  Proof.
    intros w s k x f HR Hx Hf. destruct (step_get w s k x HR Hx) as (v & ob & E & Nv & S & K). unfold upd. rewrite E. cbn [bind].
    rewrite (Hf v ob S K). reflexivity.
  Qed.
  Lemma step_new : forall w s e x', R w s -> L e (hp w) (empty 0) x' -> exists w', (let! (h, v) := e in fresh w h v) = Ok (w', RUnit) /\ R w' (s ++ [Some x']).
  Proof.
    intros w s e x' HR (h' & v' & ob' & E & T & S & K). rewrite E. cbn [bind]. eexists. split; [reflexivity|]. apply (new_L _ _ _ _ _ _ _ HR T K).
  Qed.
  Lemma value_ok : forall w s k x i, R w s -> nth_error s k = Some (Some x) ->
    if len x <=? i then exists v, get w k = Ok v /\ vsize v = len x
    else forall y, value_at (il x) i = Some y -> exists v, get w k = Ok v /\ vsize v = len x /\ at_ (hp w) v i = Ok y.
  Proof.
    intros w s k x i HR Hx. destruct (step_get w s k x HR Hx) as (v & ob & E & Nv & S & K). pose proof (ok_size _ _ _ K).
    destruct (len x <=? i); [eauto|]. intros y V. exists v. rewrite (at_ok _ _ _ _ _ _ S K V). auto.
  Qed.
  Lemma raw_ok : forall (h : heap) a n, n <= 2 ^ 49 -> let v := mkv a (Some (length h)) n n in let c := repeat None (N.to_nat n) in
    alloc sz a n h = (Some (length h), h ++ [Some (a, c)]) /\ tr h None (h ++ [Some (a, c)]) (vdata v) (Some (a, c)) /\
    stp (h ++ [Some (a, c)]) (vdata v) (Some (a, c)) /\ ok v (Some (a, c)) (mki a n c).
  Proof.
    intros h a n B v c. unfold alloc. rewrite room_ok by (apply fits; exact B). split; [reflexivity|]. split; [right; left; exists (a, c); auto|].
    split; [apply nth_app_new|]. unfold ok, len. cbn [v c al vcap vsize ia ic il owner cellsof]. unfold c. rewrite repeat_length. split; [reflexivity|]. split; [reflexivity|]. split; [lia|]. split; [exact B|]. split; [reflexivity|]. exists []. rewrite app_nil_r, repeat_length, N2Nat.id. auto.
  Qed.
  Lemma sized_ok : forall h a n, n <= limit -> exists h1,
    on_cells (h ++ [Some (a, repeat None (N.to_nat n))]) (mkv a (Some (length h)) n n) (wrs_zero sz dflt n) = Ok h1 /\
    L (Ok (h1, mkv a (Some (length h)) n n)) h (empty 0) (mki a n (repeat (Some dflt) (N.to_nat n))).
  Proof.
    intros h a n B. destruct (raw_ok h a n) as (_ & T & S & K); [big; lia|].
    destruct (L_on h (empty 0) _ _ _ _ (wrs_zero sz dflt n) [] (repeat (Some dflt) (N.to_nat n)) n T S K) as (h1 & E & L1).
    - cbn [cellsof]. unfold wrs_zero. rewrite room_ok by (apply fits; big; lia).
      pose proof (wrs_mid [] (repeat (@None A) (N.to_nat n)) [] (repeat (Some dflt) (N.to_nat n))) as W. rewrite app_nil_l, app_nil_r in W. change (length (@nil (option A))) with 0%nat in W.
      rewrite W by (rewrite !repeat_length; reflexivity). reflexivity.
    - cbn [cellsof]. rewrite app_nil_r, !repeat_length. reflexivity.
    - rewrite repeat_length. lia.
    - exists h1. split; [exact E|]. exact L1.
  Qed.
  Lemma stp_app : forall h p ob c, stp h p ob -> stp (h ++ [c]) p ob.
  Proof. intros h p ob c S. unfold stp in *. destruct p, ob; try contradiction; auto. rewrite nth_error_app1; auto. apply nth_error_Some. congruence. Qed.
  (* copy the elements of u behind nothing *)
  Lemma copy_ok : forall h v h1 v1 ob1 x u obu y, tr h (vdata v) h1 (vdata v1) ob1 -> stp h1 (vdata v1) ob1 -> ok v1 ob1 x ->
    stp h1 (vdata u) obu -> ok u obu y -> len y <= ic x ->
    exists h2, (let! xs := view h1 u 0 (N.to_nat (vsize u)) in on_cells h1 v1 (copy_range xs 0)) = Ok h2 /\
      L (Ok (h2, sized v1 (vsize u))) h v (mki (ia x) (ic x) (il y)).
  Proof.
    intros h v h1 v1 ob1 x u obu y T S K Su Ku B. pose proof (ok_small _ _ _ Ku) as (_ & B2). pose proof (ok_size _ _ _ Ku) as B3.
    unfold view. rewrite (cells_ok _ _ _ Su). cbn [bind]. pose proof Ku as (_ & _ & _ & _ & _ & ru & U6 & _). rewrite U6, B2.
    pose proof (slice_mid [] (il y) ru) as Sl. cbn [app length] in Sl. rewrite Sl. cbn [bind].
    pose proof K as (_ & _ & _ & _ & _ & r & K6 & K7). destruct (copy_end [] (il x ++ r) (il y)) as (r' & E & Le); [unfold len in B; lia|]. cbn [app length] in E.
    apply (L_on h v h1 v1 ob1 x (copy_range (il y) 0) r' (il y) (vsize u) T S K).
    - rewrite K6. exact E.
    - rewrite K6, app_length. lia.
    - exact B3.
  Qed.

  Lemma step_ok : forall w s o, R w s ->
    match ideal dflt s o with
    | Some (Some (s', r)) => exists w', step sz dflt w o = Ok (w', r) /\ R w' s'
    | Some None => step sz dflt w o = Contract
    | None => True
    end.
  Proof.
    intros w s o HR.
    Local Ltac obj HR k x v ob E Nv S K Hx :=
      match goal with |- context [nth_error ?s k] => destruct (nth_error s k) as [[x|]|] eqn:Hx; [|exact Logic.I|exact Logic.I] end;
      destruct (step_get _ _ _ _ HR Hx) as (v & ob & E & Nv & S & K).
    destruct o as [a|a n|a n|a n x0|a l|j|k j|j|k j|k|k a n|k y|k y|k l|k i l|k|k|k n|k n|k n y|k|k|k p|k i n|k i|k i|k i|k i y|k|k|k|k|k]; cbn [ideal step].
    - (* New *) eexists. split; [reflexivity|]. apply (new_null _ _ _ _ _ _ _ HR); [reflexivity|]. apply empty_ok.
    - (* Sized *) destruct (N.leb_spec n limit) as [B|B]; [|exact Logic.I]. destruct (raw_ok (hp w) a n) as (E & _); [big; lia|]. rewrite E. cbn [bind].
      destruct (sized_ok (hp w) a n B) as (h1 & E1 & L1). match goal with |- context [on_cells ?X ?V ?F] => replace (on_cells X V F) with (Ok h1) by (symmetry; exact E1) end. cbn [bind]. exact (step_new w s _ _ HR L1).
    - (* Uninit *) destruct (N.leb_spec n limit) as [B|B]; [|exact Logic.I]. destruct (raw_ok (hp w) a n) as (E & T & S & K); [big; lia|]. rewrite E.
      eexists. split; [reflexivity|]. apply (new_L _ _ _ _ _ _ _ HR T K).
    - (* Filled *) pose proof (resize_ok (hp w) (empty a) None _ n x0 Logic.I (empty_ok a)) as H. cbn [ia ic il] in H. unfold grown, len in H. cbn [ic il length] in H.
      change (N.of_nat 0) with 0 in H. rewrite N.sub_0_r in H. destruct (N.leb_spec n limit) as [B|B].
      + rewrite orb_true_r in H. rewrite firstn_nil in H. cbn [app] in H. replace (if n <=? 0 then 0 else N.max (2 * 0) n) with n in H by (destruct (N.leb_spec n 0); lia).
        exact (step_new w s _ _ HR H).
      + destruct (N.leb_spec n 0); [lia|]. cbn [orb] in H. rewrite H. reflexivity.
    - (* Of *) set (n := N.of_nat (length l)). pose proof (reserve_ok (hp w) (empty a) None _ n Logic.I (empty_ok a)) as H. destruct (N.leb_spec n limit) as [B|B]; [|rewrite H; reflexivity].
      cbn [ia ic il] in H. unfold grown in H. cbn [ic] in H. replace (if n <=? 0 then 0 else N.max (2 * 0) n) with n in H by (destruct (N.leb_spec n 0); lia).
      destruct H as (h1 & v1 & ob1 & E & T & S & K). rewrite E. cbn [bind]. pose proof K as (_ & _ & _ & _ & _ & r & K6 & K7). cbn [il ic app] in K6, K7.
      destruct (copy_end [] r (map Some l)) as (r' & Ec & Le); [rewrite map_length; unfold n in K7; lia|]. cbn [app length] in Ec.
      destruct (L_on (hp w) (empty a) h1 v1 ob1 _ (copy_range (map Some l) 0) r' (map Some l) n T S K) as (h2 & E2 & L2).
      + rewrite K6. exact Ec.
      + rewrite K6, app_length. exact Le.
      + rewrite map_length. reflexivity.
      + rewrite E2. cbn [bind]. exact (step_new w s _ _ HR L2).
    - (* MoveNew *) obj HR j x v ob E Nv Sx K Hx. rename Sx into S. rewrite E. cbn [bind]. eexists. split; [reflexivity|]. rewrite put_lset.
      apply (new_steal _ _ _ _ _ _ v x v x (empty 0) _ HR Nv Hx); auto. apply empty_ok.
    - (* MoveAssign *) obj HR k x v ob E Nv Sx K Hx. rename Sx into S. obj HR j y u obu Eu Nu Su Ku Hy. rewrite E. cbn [bind]. rewrite (free_ok _ _ ob) by (auto; apply K). cbn [bind]. rewrite Eu. cbn [bind].
      eexists. split; [reflexivity|]. rewrite !put_lset. cbn [hp objs]. unfold R. cbn [hp objs]. assert (k < length (objs w))%nat as Hk by (apply nth_error_Some; congruence).
      destruct (rep_drop _ _ _ _ _ _ _ HR Nv) as (HR' & _). destruct (Nat.eq_dec j k) as [->|Hj].
      + rewrite !lset_twice. apply close_null; auto. apply empty_ok.
      + pose proof (steal _ _ _ _ _ k j u u y y HR' Hk Hj Nu Hy eq_refl (fun c H => H)) as HR2.
        apply close_null; auto; [rewrite lset_length; apply nth_error_Some; congruence|apply empty_ok].
    - (* CopyNew *) obj HR j y u obu Eu Nu Su Ku Hy. destruct (ia y =? 0)%nat; [|exact Logic.I]. rewrite Eu. cbn [bind]. rewrite (ok_size _ _ _ Ku).
      pose proof (reserve_ok (hp w) (empty 0) None _ (len y) Logic.I (empty_ok 0)) as H. destruct (N.leb_spec (len y) limit) as [B|B]; [|rewrite H; reflexivity].
      cbn [ia ic il] in H. unfold grown in H. cbn [ic] in H. replace (if len y <=? 0 then 0 else N.max (2 * 0) (len y)) with (len y) in H by (destruct (N.leb_spec (len y) 0); lia).
      destruct H as (h1 & v1 & ob1 & E & T & S & K). rewrite E. cbn [bind].
      assert (stp h1 (vdata u) obu) as Su1.
      { destruct T as [(_ & T)|[(c & _ & _ & ->)|(_ & _ & ->)]]; [|apply stp_app; exact Su|exact Su]. cbn in T. destruct ob1; [contradiction|]. subst h1. exact Su. }
      destruct (copy_ok (hp w) (empty 0) h1 v1 ob1 _ u obu y T S K Su1 Ku) as (h2 & E2 & L2); [cbn [ic]; lia|].
      rewrite (ok_size _ _ _ Ku) in E2, L2. destruct (view h1 u 0 (N.to_nat (len y))); cbn [bind] in E2; try discriminate. cbn [bind]. rewrite E2. cbn [bind].
      exact (step_new w s _ _ HR L2).
    - (* CopyAssign *) destruct (nth_error s k) as [[x|]|] eqn:Hx; [|exact Logic.I|exact Logic.I]. obj HR j y u obu Eu Nu Su Ku Hy.
      destruct ((ia x =? 0) && (ia y =? 0))%nat eqn:Ea; [|exact Logic.I]. apply andb_prop in Ea. destruct Ea as (Ea & _). apply Nat.eqb_eq in Ea.
      rewrite Eu. cbn [bind]. apply (step_upd w s k x _ _ HR Hx). intros v ob Nv S K. pose proof K as (K1 & K2 & K3 & K4 & K5 & _). pose proof (ok_small _ _ _ Ku) as (Bu & _).
      destruct (Nat.eqb_spec k j) as [->|Hj].
      + rewrite Hx in Hy. injection Hy as <-. pose proof (len_cap _ _ _ K). rewrite N.max_l by lia. apply L_refl with ob; auto. destruct x; cbn in *; subst; exact K.
      + rewrite K2, (ok_size _ _ _ Ku). destruct (N.ltb_spec (ic x) (len y)) as [B|B].
        * rewrite (free_ok _ _ ob) by assumption. cbn [bind]. set (h1 := drop (hp w) (vdata v)).
          destruct (raw_ok h1 (al v) (len y)) as (E & T & S1 & Q1); [lia|]. rewrite E. cbn [bind]. set (c := repeat None (N.to_nat (len y))) in *.
          assert (length h1 = length (hp w)) as Lh by apply drop_length.
          assert (tr (hp w) (vdata v) (h1 ++ [Some (al v, c)]) (Some (length h1)) (Some (al v, c))) as T' by (right; left; exists (al v, c); rewrite Lh; auto).
          assert (stp (h1 ++ [Some (al v, c)]) (vdata u) obu) as Su1.
          { apply stp_app. destruct (rep_drop _ _ _ _ _ _ _ HR Nv) as (_ & GG). pose proof (GG j u y ltac:(congruence) Nu (stp_good _ _ _ _ Su Ku)) as G. fold h1 in G.
            destruct (vdata u) as [b|] eqn:Pu; [|destruct obu; exact Su].
            unfold stp in *. destruct obu as [cu|]; [|contradiction]. unfold h1, drop in *. destruct (vdata v) as [b'|] eqn:Pv; [|exact Su].
            rewrite lset_nth_neq; [exact Su|]. intro Eb. destruct HR as (_ & _ & R3 & _). apply Hj. apply (R3 k j v u b'); auto; try discriminate. congruence. }
          assert (ok (mkv (al v) (Some (length h1)) (vsize v) (len y)) (Some (al v, c)) (mki (ia x) (len y) (firstn (N.to_nat (len x)) c))) as Q2.
          { unfold ok, len. cbn [al vcap vsize ia ic il owner cellsof]. split; [exact K1|]. split; [reflexivity|]. pose proof (len_cap _ _ _ K) as LC. assert (length c = N.to_nat (len y)) as Lc by apply repeat_length.
            rewrite firstn_length. split; [rewrite K3; unfold len in *; lia|]. split; [exact Bu|]. split; [reflexivity|]. exists (skipn (N.to_nat (len x)) c). unfold len. rewrite firstn_skipn. split; [reflexivity|]. rewrite Lc. unfold len. lia. }
          destruct (copy_ok (hp w) v (h1 ++ [Some (al v, c)]) (mkv (al v) (Some (length h1)) (vsize v) (len y)) (Some (al v, c)) _ u obu y T' S1 Q2 Su1 Ku) as (h2 & E2 & L2); [cbn [ic]; lia|].
          rewrite (ok_size _ _ _ Ku) in E2, L2. destruct (view (h1 ++ [Some (al v, c)]) u 0 (N.to_nat (len y))); cbn [bind] in E2; try discriminate. cbn [bind]. rewrite E2. cbn [bind].
          cbn [ia ic il] in L2. rewrite N.max_r by lia. rewrite <- Ea. exact L2.
        * cbn [bind]. destruct (copy_ok (hp w) v (hp w) v ob x u obu y (tr_refl _ _ _ S) S K Su Ku) as (h2 & E2 & L2); [exact B|].
          rewrite (ok_size _ _ _ Ku) in E2, L2. destruct (view (hp w) u 0 (N.to_nat (len y))); cbn [bind] in E2; try discriminate. cbn [bind]. rewrite E2. cbn [bind].
          rewrite N.max_l by lia. rewrite <- Ea. exact L2.
    - (* Destroy *) obj HR k x v ob E Nv Sx K Hx. rename Sx into S. rewrite E. cbn [bind]. rewrite (free_ok _ _ ob) by (auto; apply K). cbn [bind]. eexists. split; [reflexivity|]. rewrite put_lset.
      destruct (rep_drop _ _ _ _ _ _ _ HR Nv) as (HR' & _). apply close_gone; auto. apply nth_error_Some. congruence.
    - (* ResetReserve *) destruct (nth_error s k) as [[x|]|] eqn:Hx; [|exact Logic.I|exact Logic.I].
      assert (forall v ob, stp (hp w) (vdata v) ob -> ok v ob x ->
        exists v1, match vdata v with Some _ => let! h := free (al v) (vdata v) (hp w) in Ok (h, empty (al v)) | None => Ok (hp w, v) end = Ok (drop (hp w) (vdata v), v1) /\
          vdata v1 = None /\ vsize v1 = 0 /\ vcap v1 = 0) as Hc.
      { intros v ob S K. rewrite (free_ok _ _ ob) by (auto; apply K). unfold stp in S. destruct (vdata v) as [b|] eqn:P, ob; try contradiction; cbn [bind].
        - eexists. split; [reflexivity|]. auto.
        - exists v. split; [reflexivity|]. destruct K as (_ & K2 & K3 & _ & _ & r & K6 & K7). cbn [cellsof] in K6. symmetry in K6. apply app_eq_nil in K6. destruct K6 as (Q1 & ->).
          unfold len in K3. rewrite Q1 in *. cbn in *. rewrite K2. auto. }
      destruct a as [a|].
      + assert (forall v ob, stp (hp w) (vdata v) ob -> ok v ob x -> exists v1 : vec, vdata v1 = None /\ vsize v1 = 0 /\ vcap v1 = 0 /\
          (let! (h, v) := match vdata v with Some _ => let! h := free (al v) (vdata v) (hp w) in Ok (h, empty (al v)) | None => Ok (hp w, v) end in reserve sz h (mkv a (vdata v) (vsize v) (vcap v)) n) =
          reserve sz (drop (hp w) (vdata v)) (empty a) n) as Hd.
        { intros v ob S K. destruct (Hc v ob S K) as (v1 & E & P1 & P2 & P3). exists v1. rewrite E. cbn [bind]. rewrite P1, P2, P3. auto. }
        pose proof (fun h => reserve_ok h (empty a) None _ n Logic.I (empty_ok a)) as H. destruct (N.leb_spec n limit) as [B|B].
        * apply (step_upd w s k x _ _ HR Hx). intros v ob Nv S K. destruct (Hd v ob S K) as (v1 & _ & _ & _ & E). rewrite E.
          destruct (H (drop (hp w) (vdata v))) as (h2 & v2 & ob2 & E2 & T2 & S2 & K2). exists h2, v2, ob2. split; [exact E2|]. split; [|split; [exact S2|]].
          -- destruct T2 as [(P & T2)|[(c & P & -> & ->)|(P & -> & ->)]].
             ++ cbn in T2. destruct ob2; [contradiction|]. right. right. auto.
             ++ right. left. exists c. rewrite drop_length in P. auto.
             ++ right. right. auto.
          -- cbn [ia ic il] in K2. unfold grown in K2. cbn [ic] in K2. replace (if n <=? 0 then 0 else N.max (2 * 0) n) with n in K2 by (destruct (N.leb_spec n 0); lia). exact K2.
        * apply (step_updc w s k x _ HR Hx). intros v ob S K. destruct (Hd v ob S K) as (v1 & _ & _ & _ & E). rewrite E. apply H.
      + apply (step_updc w s k x _ HR Hx). intros v ob S K. destruct (Hc v ob S K) as (v1 & E & _). rewrite E. reflexivity.
    - (* Emplace *) destruct (nth_error s k) as [[x|]|] eqn:Hx; [|exact Logic.I|exact Logic.I]. destruct (argval (il x) y) as [z|] eqn:V; [|exact Logic.I].
      destruct (N.ltb_spec (len x) (ic x)) as [B|B]; [|destruct (N.leb_spec (ic x) limit) as [C|C]; [|exact Logic.I]].
      + apply (step_upd w s k x _ _ HR Hx). intros v ob Nv S K. apply (emplace_ok _ _ _ _ _ _ S K V). exact B.
      + apply (step_upd w s k x _ _ HR Hx). intros v ob Nv S K. apply (emplace_ok _ _ _ _ _ _ S K V); assumption.
    - (* EmplaceStable *) destruct (nth_error s k) as [[x|]|] eqn:Hx; [|exact Logic.I|exact Logic.I]. destruct (argval (il x) y) as [z|] eqn:V; [|exact Logic.I].
      destruct (len x <? ic x) eqn:B.
      + apply (step_upd w s k x _ _ HR Hx). intros v ob Nv S K. pose proof (stable_ok _ _ _ _ _ _ S K V) as H. rewrite B in H. exact H.
      + apply (step_updc w s k x _ HR Hx). intros v ob S K. pose proof (stable_ok _ _ _ _ _ _ S K V) as H. rewrite B in H. exact H.
    - (* PushRange *) destruct (nth_error s k) as [[x|]|] eqn:Hx; [|exact Logic.I|exact Logic.I]. cbv zeta. destruct (N.eqb_spec (N.of_nat (length l)) 0) as [Z|Z].
      + destruct l; [|cbn in Z; lia]. apply (step_upd w s k x _ _ HR Hx). intros v ob Nv S K. apply L_refl with ob; auto.
      + assert (l <> []) as Hl by (intros ->; apply Z; reflexivity). destruct (len x + N.of_nat (length l) <=? limit) eqn:B; [|destruct (N.ltb_spec (N.of_nat (length l)) (2 ^ 63)) as [C|C]; [|exact Logic.I]].
        * apply (step_upd w s k x _ _ HR Hx). intros v ob Nv S K. pose proof (push_range_ok _ _ _ _ l S K Hl (or_intror (proj1 (N.leb_le _ _) B))) as H. rewrite B in H. exact H.
        * apply (step_updc w s k x _ HR Hx). intros v ob S K. pose proof (push_range_ok _ _ _ _ l S K Hl (or_introl C)) as H. rewrite B in H. exact H.
    - (* InsertRange *) destruct (nth_error s k) as [[x|]|] eqn:Hx; [|exact Logic.I|exact Logic.I]. cbv zeta. destruct (N.ltb_spec (len x) i) as [I|I].
      { apply (step_updc w s k x _ HR Hx). intros v ob S K. unfold insert_range_at. rewrite (ok_size _ _ _ K). destruct (N.leb_spec i (len x)); [lia|reflexivity]. }
      destruct (N.eqb_spec (N.of_nat (length l)) 0) as [Z|Z].
      + destruct l; [|cbn in Z; lia]. apply (step_upd w s k x _ _ HR Hx). intros v ob Nv S K. unfold insert_range_at. rewrite (ok_size _ _ _ K). destruct (N.leb_spec i (len x)); [|lia]. apply L_refl with ob; auto.
      + assert (l <> []) as Hl by (intros ->; apply Z; reflexivity). destruct (len x + N.of_nat (length l) <=? limit) eqn:B; [|destruct (N.ltb_spec (N.of_nat (length l)) (2 ^ 63)) as [C|C]; [|exact Logic.I]].
        * apply (step_upd w s k x _ _ HR Hx). intros v ob Nv S K. pose proof (insert_ok _ _ _ _ i l S K I Hl (or_intror (proj1 (N.leb_le _ _) B))) as H. rewrite B in H. exact H.
        * apply (step_updc w s k x _ HR Hx). intros v ob S K. pose proof (insert_ok _ _ _ _ i l S K I Hl (or_introl C)) as H. rewrite B in H. exact H.
    - (* Pop *) destruct (nth_error s k) as [[x|]|] eqn:Hx; [|exact Logic.I|exact Logic.I]. destruct (N.eqb_spec (len x) 0) as [B|B].
      + apply (step_updc w s k x _ HR Hx). intros v ob S K. unfold pop_back. rewrite (ok_size _ _ _ K), B. reflexivity.
      + apply (step_upd w s k x _ _ HR Hx). intros v ob Nv S K. apply (pop_ok _ _ _ _ S K B).
    - (* GetPop *) obj HR k x v ob E Nv Sx K Hx. rename Sx into S. pose proof (ok_small _ _ _ K) as (B1 & _). rewrite E. cbn [bind]. unfold get_and_pop_back. rewrite (ok_size _ _ _ K). destruct (N.eqb_spec (len x) 0) as [B|B].
      + rewrite B. reflexivity.
      + destruct (value_at (il x) (len x - 1)) as [y|] eqn:V; [|exact Logic.I]. destruct (N.ltb_spec 0 (len x)); [|lia]. cbn [contract bind]. rewrite wsub_ge by (big; lia).
        rewrite (at_ok _ _ _ _ _ _ S K V). cbn [bind]. eexists. split; [reflexivity|]. rewrite put_lset.
        destruct (pop_ok _ _ _ _ S K B) as (h' & v' & ob' & Ep & T & S' & K'). unfold pop_back in Ep. rewrite (ok_size _ _ _ K) in Ep. destruct (N.ltb_spec 0 (len x)); [|lia]. cbn [contract bind] in Ep.
        injection Ep as <- <-. rewrite wsub_ge in T, K' by (big; lia). apply (close_L _ _ _ _ _ _ _ _ _ HR Nv T K').
    - (* Reserve *) destruct (nth_error s k) as [[x|]|] eqn:Hx; [|exact Logic.I|exact Logic.I]. destruct (n <=? limit) eqn:B.
      + apply (step_upd w s k x _ _ HR Hx). intros v ob Nv S K. pose proof (reserve_ok _ _ _ _ n S K) as H. rewrite B in H. exact H.
      + apply (step_updc w s k x _ HR Hx). intros v ob S K. pose proof (reserve_ok _ _ _ _ n S K) as H. rewrite B in H. exact H.
    - (* Resize *) destruct (nth_error s k) as [[x|]|] eqn:Hx; [|exact Logic.I|exact Logic.I]. destruct ((n <=? ic x) || (n <=? limit)) eqn:B.
      + apply (step_upd w s k x _ _ HR Hx). intros v ob Nv S K. pose proof (resize_ok _ _ _ _ n dflt S K) as H. rewrite B in H. exact H.
      + apply (step_updc w s k x _ HR Hx). intros v ob S K. pose proof (resize_ok _ _ _ _ n dflt S K) as H. rewrite B in H. exact H.
    - (* ResizeTo *) destruct (nth_error s k) as [[x|]|] eqn:Hx; [|exact Logic.I|exact Logic.I]. destruct ((n <=? ic x) || (n <=? limit)) eqn:B.
      + apply (step_upd w s k x _ _ HR Hx). intros v ob Nv S K. pose proof (resize_ok _ _ _ _ n y S K) as H. rewrite B in H. exact H.
      + apply (step_updc w s k x _ HR Hx). intros v ob S K. pose proof (resize_ok _ _ _ _ n y S K) as H. rewrite B in H. exact H.
    - (* Clear *) destruct (nth_error s k) as [[x|]|] eqn:Hx; [|exact Logic.I|exact Logic.I]. apply (step_upd w s k x _ _ HR Hx). intros v ob Nv S K. apply (L_cut _ _ _ _ [] (il x) 0 S K); reflexivity.
    - (* Shrink *) destruct (nth_error s k) as [[x|]|] eqn:Hx; [|exact Logic.I|exact Logic.I]. apply (step_upd w s k x _ _ HR Hx). intros v ob Nv S K. apply (shrink_ok _ _ _ _ S K).
    - (* RemoveAll *) obj HR k x v ob E Nv Sx K Hx. rename Sx into S. destruct (values (il x)) as [l|] eqn:V; [|exact Logic.I]. cbv zeta. rewrite E. cbn [bind].
      destruct (remove_all_ok _ _ _ _ p l S K V) as (h' & v' & Er & h2 & v2 & ob2 & E2 & T & S' & K'). rewrite Er. cbn [bind]. injection E2 as -> ->. eexists. split; [reflexivity|]. rewrite put_lset.
      apply (close_L _ _ _ _ _ _ _ _ _ HR Nv T K').
    - (* RemoveRange *) destruct (nth_error s k) as [[x|]|] eqn:Hx; [|exact Logic.I|exact Logic.I]. destruct (N.eqb_spec n 0) as [Z|Z].
      { subst. apply (step_upd w s k x _ _ HR Hx). intros v ob Nv S K. apply L_refl with ob; auto. }
      destruct (N.leb_spec (2 ^ 63) n) as [B|B]; [exact Logic.I|]. destruct ((len x <=? i) || (len x <? i + n)) eqn:C.
      + apply (step_updc w s k x _ HR Hx). intros v ob S K. pose proof (remove_range_ok _ _ _ _ i n S K ltac:(lia)) as H. rewrite C in H. exact H.
      + destruct (values (skipn (N.to_nat (i + n)) (il x))) as [l|] eqn:V; [|exact Logic.I]. apply (step_upd w s k x _ _ HR Hx). intros v ob Nv S K.
        pose proof (remove_range_ok _ _ _ _ i n S K ltac:(lia)) as H. rewrite C in H. exact (H l V).
    - (* RemoveAt *) destruct (nth_error s k) as [[x|]|] eqn:Hx; [|exact Logic.I|exact Logic.I]. destruct (len x <=? i) eqn:C.
      + apply (step_updc w s k x _ HR Hx). intros v ob S K. pose proof (remove_at_ok _ _ _ _ i S K) as H. rewrite C in H. exact H.
      + destruct (values (skipn (1 + N.to_nat i) (il x))) as [l|] eqn:V; cbn [Nat.add] in V; rewrite V; [|exact Logic.I]. apply (step_upd w s k x _ _ HR Hx). intros v ob Nv S K.
        pose proof (remove_at_ok _ _ _ _ i S K) as H. rewrite C in H. exact (H l V).
    - (* RemoveUnordered *) destruct (nth_error s k) as [[x|]|] eqn:Hx; [|exact Logic.I|exact Logic.I]. destruct (N.leb_spec (len x) i) as [C|C].
      + apply (step_updc w s k x _ HR Hx). intros v ob S K. unfold remove_at_unordered. rewrite (ok_size _ _ _ K). destruct (N.ltb_spec i (len x)); [lia|reflexivity].
      + destruct (value_at (il x) i) as [a|] eqn:Va; [|exact Logic.I]. destruct (value_at (il x) (len x - 1)) as [b|] eqn:Vb; [|exact Logic.I].
        apply (step_upd w s k x _ _ HR Hx). intros v ob Nv S K. rewrite put_lset. apply (remove_unordered_ok _ _ _ _ _ a b S K); assumption.
    - (* Get *) obj HR k x v ob E Nv Sx K Hx. rename Sx into S. unfold look. rewrite E. cbn [bind]. rewrite (ok_size _ _ _ K). destruct (N.leb_spec (len x) i), (N.ltb_spec i (len x)); try lia; [reflexivity|].
      destruct (value_at (il x) i) as [y|] eqn:V; [|exact Logic.I]. cbn [contract bind]. rewrite (at_ok _ _ _ _ _ _ S K V). cbn [bind]. eauto.
    - (* Set *) destruct (nth_error s k) as [[x|]|] eqn:Hx; [|exact Logic.I|exact Logic.I]. destruct (N.leb_spec (len x) i) as [C|C].
      + apply (step_updc w s k x _ HR Hx). intros v ob S K. rewrite (ok_size _ _ _ K). destruct (N.ltb_spec i (len x)); [lia|reflexivity].
      + apply (step_upd w s k x _ _ HR Hx). intros v ob Nv S K. rewrite (ok_size _ _ _ K). destruct (N.ltb_spec i (len x)); [|lia]. cbn [contract bind].
        destruct (set_ok _ v _ _ _ _ i y (tr_refl _ _ _ S) S K C) as (h2 & ob2 & E & T & S2 & K2). rewrite E. cbn [bind]. rewrite put_lset. exists h2, v, ob2. auto.
    - (* Front *) obj HR k x v ob E Nv Sx K Hx. rename Sx into S. unfold look. rewrite E. cbn [bind]. rewrite (ok_size _ _ _ K). destruct (N.leb_spec (len x) 0), (N.eqb_spec (len x) 0); try lia; [reflexivity|].
      destruct (value_at (il x) 0) as [y|] eqn:V; [|exact Logic.I]. cbn [negb contract bind]. rewrite (at_ok _ _ _ _ _ _ S K V). cbn [bind]. eauto.
    - (* Back *) obj HR k x v ob E Nv Sx K Hx. rename Sx into S. pose proof (ok_small _ _ _ K) as (B1 & _). unfold look. rewrite E. cbn [bind]. rewrite (ok_size _ _ _ K). destruct (N.eqb_spec (len x) 0) as [B|B]; [reflexivity|].
      destruct (N.leb_spec (len x) (len x - 1)); [lia|]. destruct (value_at (il x) (len x - 1)) as [y|] eqn:V; [|exact Logic.I]. cbn [negb contract bind]. rewrite wsub_ge by (big; lia).
      rewrite (at_ok _ _ _ _ _ _ S K V). cbn [bind]. eauto.
    - obj HR k x v ob E Nv Sx K Hx. rename Sx into S. unfold look. rewrite E. cbn [bind]. rewrite (ok_size _ _ _ K). eauto.
    - obj HR k x v ob E Nv Sx K Hx. rename Sx into S. unfold look. rewrite E. cbn [bind]. destruct K as (_ & -> & _). eauto.
    - obj HR k x v ob E Nv Sx K Hx. rename Sx into S. unfold look. rewrite E. cbn [bind]. destruct K as (-> & _). eauto.
  Qed.
  Lemma run_ok : forall os w s, R w s ->
    match irun dflt s os with
    | Some (Some (s', rs)) => exists w', run sz dflt w os = Ok (w', rs) /\ R w' s'
    | Some None => run sz dflt w os = Contract
    | None => True
    end.
  Proof.
    induction os as [|o os IH]; intros w s HR; cbn [irun run].
    - exists w. auto.
    - pose proof (step_ok w s o HR) as H. destruct (ideal dflt s o) as [[[s1 r]|]|]; [|rewrite H; reflexivity|exact Logic.I].
      destruct H as (w1 & E & HR1). rewrite E. cbn [bind]. specialize (IH w1 s1 HR1). destruct (irun dflt s1 os) as [[[s2 rs]|]|]; [|rewrite IH; reflexivity|exact Logic.I].
      destruct IH as (w2 & E2 & HR2). rewrite E2. cbn [bind]. eauto.
  Qed.
End P.

From Coq Require Import NArith List Bool Arith Lia.
From Verif Require Import Base SStrModel SStrSpec.
Import ListNotations.
Open Scope N_scope.
Arguments N.mul : simpl never.
Arguments N.add : simpl never.
Arguments N.pow : simpl never.

(* ---- heap ---- *)
Lemma lookup_lt : forall h b x, lookup h b = Some x -> (b < length h)%nat.
Proof. intros h b x E. unfold lookup in E. destruct (nth_error h b) eqn:Q; [|discriminate]. apply nth_error_Some. congruence. Qed.
Lemma lookup_new : forall h x, lookup (h ++ [x]) (length h) = x.
Proof. intros h x. unfold lookup. rewrite nth_error_app2, Nat.sub_diag by lia. reflexivity. Qed.
Lemma lookup_old : forall h x b, b <> length h -> lookup (h ++ [x]) b = lookup h b.
Proof.
  intros h x b L. unfold lookup. destruct (Nat.lt_ge_cases b (length h)); [now rewrite nth_error_app1|].
  rewrite nth_error_app2 by lia. destruct (b - length h)%nat eqn:Q; [lia|]. cbn.
  rewrite (proj2 (nth_error_None h b)) by lia. destruct n; reflexivity.
Qed.
Lemma lookup_ge : forall h b, (length h <= b)%nat -> lookup h b = None.
Proof. intros h b L. unfold lookup. now rewrite (proj2 (nth_error_None h b)). Qed.
Lemma lookup_set_eq : forall h b x, (b < length h)%nat -> lookup (lset h b x) b = x.
Proof. intros h b x L. unfold lookup. now rewrite lset_nth_eq. Qed.
Lemma lookup_set_ne : forall h b c x, b <> c -> lookup (lset h b x) c = lookup h c.
Proof. intros h b c x L. unfold lookup. now rewrite lset_nth_neq. Qed.

(* ---- one stream ---- *)
Definition own (h : heap) (s : stream) (cs : list N) (T : N) : Prop :=
  curr s = length cs /\ cap s < 2 ^ 63 /\ N.of_nat (length cs) <= T /\ cap s <= 2 * T /\ N.of_nat (length cs) <= cap s /\
  match data s with
  | None => cap s = 0
  | Some b => exists blk, lookup h b = Some blk /\ length blk = N.to_nat (cap s) /\ firstn (length cs) blk = map Some cs
  end.
(* from h, s to h', s': other blocks are untouched, the old one is freed if it is left, the new one is new *)
Definition frame (h : heap) (s : option nat) (h' : heap) (s' : option nat) : Prop :=
  (forall b, s <> Some b -> s' <> Some b -> lookup h' b = lookup h b) /\
  (forall b, s = Some b -> s' <> Some b -> lookup h' b = None) /\
  (forall b, s' = Some b -> s <> Some b -> lookup h b = None).

Lemma frame_refl : forall h s, frame h s h s.
Proof. intros h s. repeat split; intros; auto; contradiction. Qed.
Lemma own_mono : forall h s cs T T', own h s cs T -> T <= T' -> own h s cs T'.
Proof. unfold own. intros h s cs T T' (A & B & C & D & E & F) L. repeat split; auto; lia. Qed.
Lemma own_frame : forall h h' s cs T, own h s cs T -> (forall b, data s = Some b -> lookup h' b = lookup h b) -> own h' s cs T.
Proof.
  unfold own. intros h h' s cs T (A & B & C & D & E & F) H. repeat split; auto. destruct (data s) as [b|]; auto.
  destruct F as (blk & F1 & F2). exists blk. rewrite H; auto.
Qed.
Lemma own_init : forall h T, own h init [] T.
Proof. intros h T. unfold own. cbn. repeat split; auto; lia. Qed.
Lemma known_map : forall cs, known (map Some cs) = Ok cs.
Proof. induction cs as [|c cs IH]; cbn; auto. now rewrite IH. Qed.
Lemma own_null : forall h s cs T, own h s cs T -> data s = None -> cs = [].
Proof. intros h s cs T (A & B & C & D & E & F) H. rewrite H in F. destruct cs; auto. cbn in E. lia. Qed.
Lemma to_string_ok : forall h s cs T, own h s cs T -> to_string s h = Ok cs.
Proof.
  intros h s cs T O. pose proof O as (A & B & C & D & E & F). unfold to_string, empty. rewrite A. destruct cs as [|c cs]; auto.
  destruct (data s) as [b|] eqn:Q; [|apply (own_null _ _ _ _ O) in Q; discriminate].
  destruct F as (blk & F1 & F2 & F3). cbn [length Nat.eqb]. unfold read. rewrite F1.
  destruct (Nat.leb_spec (S (length cs)) (length blk)) as [L|L]; [|rewrite F2 in L; cbn in E; lia]. cbn [defined bind].
  change (S (length cs)) with (length (c :: cs)). rewrite F3. apply known_map.
Qed.

Lemma dealloc_ok : forall h s cs T, own h s cs T ->
  exists h', dealloc (data s) h = Ok h' /\ (forall b, data s <> Some b -> lookup h' b = lookup h b) /\ (forall b, data s = Some b -> lookup h' b = None) /\
    (forall b, lookup h b = None -> lookup h' b = None) /\ length h' = length h.
Proof.
  intros h s cs T (A & B & C & D & E & F). unfold dealloc. destruct (data s) as [b|].
  - destruct F as (blk & F1 & F2 & F3). rewrite F1. pose proof (lookup_lt _ _ _ F1) as L. exists (lset h b None). split; auto. repeat split.
    + intros c H. apply lookup_set_ne. congruence.
    + intros c H. injection H as <-. now apply lookup_set_eq.
    + intros c H. destruct (Nat.eq_dec b c); [subst; now apply lookup_set_eq|]. now rewrite lookup_set_ne.
    + apply lset_length.
  - exists h. repeat split; auto; congruence.
Qed.

(* memcpy of the contents of a stream to a new or other block *)
Lemma memcpy_ok : forall h d blk r cs T, own h r cs T -> cs <> [] -> lookup h d = Some blk -> data r <> Some d -> (length cs <= length blk)%nat ->
  memcpy h (Some d) (data r) (curr r) = Ok (lset h d (Some (map Some cs ++ skipn (length cs) blk))).
Proof.
  intros h d blk r cs T O NE Ld Nd L. pose proof O as (A & B & C & D & E & F).
  destruct (data r) as [b|] eqn:Q; [|apply (own_null _ _ _ _ O) in Q; contradiction].
  destruct F as (rblk & F1 & F2 & F3). unfold memcpy. destruct (Nat.eqb_spec d b); [congruence|]. cbn [negb defined bind].
  unfold read. rewrite F1, A. destruct (Nat.leb_spec (length cs) (length rblk)) as [X|X]; [|lia]. cbn [defined bind]. rewrite F3.
  unfold write. rewrite Ld. rewrite map_length. destruct (Nat.leb_spec (0 + length cs) (length blk)); [|lia]. cbn [defined bind]. reflexivity.
Qed.

Lemma reserve_ok : forall h s cs T n, own h s cs T ->
  (exists s' h', reserve s n h = Ok (s', h') /\ own h' s' cs (T + n) /\ frame h (data s) h' (data s') /\
     (N.of_nat (length cs) + n < 2 ^ 64 -> N.of_nat (length cs) + n <= cap s')) \/
  (reserve s n h = Contract /\ 2 ^ 63 <= 2 * (T + n)).
Proof.
  intros h s cs T n O. pose proof O as (A & B & C & D & E & F). unfold reserve, size. rewrite A.
  set (req := wadd 64 (N.of_nat (length cs)) n).
  assert (R1 : req <= N.of_nat (length cs) + n) by (unfold req, wadd, wrap; apply N.mod_le, N.pow_nonzero; discriminate).
  assert (R2 : N.of_nat (length cs) + n < 2 ^ 64 -> req = N.of_nat (length cs) + n) by (intro; now apply wadd_small).
  clearbody req. destruct (N.leb_spec req (cap s)) as [L|L].
  - left. exists s, h. split; auto. split; [apply (own_mono _ _ _ T); auto; lia|]. split; [apply frame_refl|]. intro H. rewrite <- R2; auto.
  - assert (W : 2 ^ 64 = 2 * 2 ^ 63) by reflexivity.
    assert (TW : wrap 64 (N.shiftl (cap s) 1) = 2 * cap s).
    { rewrite N.shiftl_mul_pow2. change (2 ^ 1) with 2. rewrite wrap_small by lia. lia. }
    rewrite TW. set (nc := if 2 * cap s <? req then req else 2 * cap s).
    assert (NC : req <= nc /\ nc <= 2 * (T + n)).
    { unfold nc. destruct (N.ltb_spec (2 * cap s) req); lia. }
    clearbody nc. destruct NC as [NC1 NC2]. unfold alloc. destruct (N.ltb_spec nc (2 ^ 63)) as [S1|S1]; cbn [contract bind]; [|right; split; auto; lia].
    left. set (h1 := h ++ [Some (repeat None (N.to_nat nc))]).
    assert (O1 : own h1 s cs T).
    { apply (own_frame h); auto. intros b Hb. rewrite Hb in F. destruct F as (blk & F1 & _). apply lookup_lt in F1. apply lookup_old. lia. }
    assert (NE : data s <> Some (length h)).
    { intro Q. rewrite Q in F. destruct F as (blk & F1 & _). apply lookup_lt in F1. lia. }
    assert (ML : exists (h2 : heap) blk, (if empty s then @Ok heap h1 else memcpy h1 (Some (length h)) (data s) (length cs)) = Ok h2 /\ lookup h2 (length h) = Some blk /\
       length blk = N.to_nat nc /\ firstn (length cs) blk = map Some cs /\ forall b, b <> length h -> lookup h2 b = lookup h1 b).
    { unfold empty. rewrite A. destruct cs as [|c cs'].
      - exists h1, (repeat None (N.to_nat nc)). cbn. split; auto. split; [apply lookup_new|]. rewrite repeat_length. auto.
      - change (length (c :: cs') =? 0)%nat with false. cbn [negb].
        rewrite <- A. rewrite (memcpy_ok h1 (length h) (repeat None (N.to_nat nc)) s (c :: cs') T); auto.
        + exists (lset h1 (length h) (Some (map Some (c :: cs') ++ skipn (length (c :: cs')) (repeat None (N.to_nat nc))))).
          exists (map Some (c :: cs') ++ skipn (length (c :: cs')) (repeat None (N.to_nat nc))). split; auto.
          split; [apply lookup_set_eq; unfold h1; rewrite app_length; cbn; lia|]. split.
          * rewrite app_length, map_length, skipn_length, repeat_length. assert (N.of_nat (length (c :: cs')) <= nc) by lia. lia.
          * split; [|intros b Hb; apply lookup_set_ne; auto].
            rewrite ?A. rewrite firstn_app, map_length, Nat.sub_diag, firstn_O, app_nil_r. rewrite <- (map_length Some (c :: cs')). apply firstn_all.
        + discriminate.
        + apply lookup_new.
        + rewrite repeat_length. lia. }
    destruct ML as (h2 & blk & -> & L2 & Lb & Fb & Fr). cbn [bind].
    assert (O2 : own h2 s cs T).
    { apply (own_frame h1); auto. intros b Hb. apply Fr. congruence. }
    destruct (dealloc_ok h2 s cs T O2) as (h3 & -> & D1 & D2 & D3 & D4). cbn [bind].
    exists (mkS (Some (length h)) (length cs) nc), h3. split; [reflexivity|]. split; [|split].
    + unfold own. cbn [data curr cap]. repeat split; auto; try lia. exists blk. split; auto. rewrite D1; auto.
    + repeat split; cbn [data]; intros b H1 H2.
      * rewrite D1 by auto. rewrite Fr by congruence. apply lookup_old. congruence.
      * apply D2; auto.
      * injection H1 as <-. apply lookup_ge. lia.
    + cbn [cap]. intro H. specialize (R2 H). lia.
Qed.

Lemma write_end : forall h s cs T sv, own h s cs T -> N.of_nat (length cs) + N.of_nat (length sv) <= cap s -> sv <> [] ->
  exists h', write h (data s) (curr s) (map Some sv) = Ok h' /\ (forall T', N.of_nat (length cs + length sv) <= T' -> cap s <= 2 * T' ->
      own h' (mkS (data s) (curr s + length sv) (cap s)) (cs ++ sv) T') /\
    frame h (data s) h' (data s).
Proof.
  intros h s cs T sv (A & B & C & D & E & F) L NE. unfold write. destruct (data s) as [b|] eqn:Q.
  - destruct F as (blk & F1 & F2 & F3). rewrite F1, A, map_length. destruct (Nat.leb_spec (length cs + length sv) (length blk)); [|lia]. cbn [defined bind].
    exists (lset h b (Some (firstn (length cs) blk ++ map Some sv ++ skipn (length cs + length sv) blk))). split; auto. split.
    + intros T' T1 T2. unfold own. cbn [data curr cap]. rewrite app_length. repeat split; auto; try lia.
      exists (firstn (length cs) blk ++ map Some sv ++ skipn (length cs + length sv) blk). split; [apply lookup_set_eq; eapply lookup_lt; eauto|]. split.
      * rewrite !app_length, map_length, skipn_length, firstn_length. lia.
      * rewrite F3, map_app, app_assoc. rewrite <- (map_length Some cs), <- (map_length Some sv), <- app_length. rewrite firstn_app, Nat.sub_diag, firstn_O, app_nil_r. apply firstn_all.
    + split; [|split]; intros c H1 H2; try contradiction. apply lookup_set_ne. congruence.
  - rewrite F in L. destruct sv; [contradiction|]. cbn in L. lia.
Qed.
Lemma frame_trans_same : forall h a h' b h'', frame h a h' b -> frame h' b h'' b -> frame h a h'' b.
Proof.
  intros h a h' b h'' (F1 & F2 & F3) (G1 & G2 & G3). split; [|split]; intros c H1 H2.
  - rewrite G1 by auto. auto.
  - rewrite G1 by auto. auto.
  - apply F3; auto.
Qed.

Definition good (r : outcome (stream * heap)) (h : heap) (s : stream) (cs : list N) (T : N) : Prop :=
  (exists s' h', r = Ok (s', h') /\ own h' s' cs T /\ frame h (data s) h' (data s')) \/ (r = Contract /\ 2 ^ 63 <= 2 * T).

Lemma append_ok : forall h s cs T sv, own h s cs T -> N.of_nat (length sv) < 2 ^ 63 -> good (append s sv h) h s (cs ++ sv) (T + N.of_nat (length sv)).
Proof.
  intros h s cs T sv O L. unfold append. destruct sv as [|c sv']; [left; exists s, h; rewrite app_nil_r; split; auto; split; [apply (own_mono _ _ _ T); auto; lia|apply frame_refl]|].
  set (sv := c :: sv') in *. assert (NE : sv <> []) by discriminate. clearbody sv.
  destruct (reserve_ok h s cs T (N.of_nat (length sv)) O) as [(s' & h' & -> & O' & F & R)|[-> X]]; cbn [bind]; [|right; auto].
  left. pose proof O' as (A & B & C & D & E & _). pose proof O as (_ & B0 & _ & _ & E0 & _).
  assert (R' : N.of_nat (length cs) + N.of_nat (length sv) <= cap s').
  { apply R. change (2 ^ 64) with (2 ^ 63 + 2 ^ 63). lia. }
  destruct (write_end h' s' cs _ sv O' R' NE) as (h'' & -> & OW & F'). cbn [bind].
  exists (mkS (data s') (curr s' + length sv) (cap s')), h''. split; auto. split.
  - apply OW; [|lia]. destruct O as (_ & _ & C0 & _). lia.
  - cbn [data]. eapply frame_trans_same; eauto.
Qed.
Lemma put_append : forall s c h, put s c h = append s [c] h.
Proof.
  intros s c h. unfold put, append. cbn [length map]. change (N.of_nat 1) with 1. destruct (reserve s 1 h) as [[s' h']| | |]; cbn [bind]; auto.
  destruct (write h' (data s') (curr s') [Some c]) as [h''| | |]; cbn [bind]; auto. now rewrite Nat.add_1_r.
Qed.

(* a copy: the source is untouched as its block is another one *)
Lemma copy_new : forall h r cs T, own h r cs T -> cs <> [] ->
  exists h', (let! (d, h1) := alloc (size r) h in let! h1 := memcpy h1 (Some d) (data r) (curr r) in Ok (d, h1)) = Ok (length h, h') /\
    own h' (mkS (Some (length h)) (curr r) (size r)) cs T /\ (forall b, b <> length h -> lookup h' b = lookup h b) /\ lookup h (length h) = None.
Proof.
  intros h r cs T O NE. pose proof O as (A & B & C & D & E & F). unfold alloc, size. rewrite A.
  destruct (N.ltb_spec (N.of_nat (length cs)) (2 ^ 63)) as [L|L]; [|lia]. cbn [contract bind].
  set (h1 := h ++ [Some (repeat None (N.to_nat (N.of_nat (length cs))))]).
  assert (O1 : own h1 r cs T).
  { apply (own_frame h); auto. intros b Hb. rewrite Hb in F. destruct F as (blk & F1 & _). apply lookup_lt in F1. apply lookup_old. lia. }
  assert (ND : data r <> Some (length h)).
  { intro Q. rewrite Q in F. destruct F as (blk & F1 & _). apply lookup_lt in F1. lia. }
  rewrite <- A. rewrite (memcpy_ok h1 (length h) (repeat None (N.to_nat (N.of_nat (length cs)))) r cs T); auto.
  - cbn [bind]. eexists. split; [reflexivity|]. split; [|split].
    + unfold own. cbn [data curr cap]. rewrite A. repeat split; auto; try lia.
      exists (map Some cs ++ skipn (length cs) (repeat None (N.to_nat (N.of_nat (length cs))))). split; [apply lookup_set_eq; unfold h1; rewrite app_length; cbn; lia|]. split.
      * rewrite app_length, map_length, skipn_length, repeat_length. lia.
      * rewrite firstn_app, map_length, Nat.sub_diag, firstn_O, app_nil_r. rewrite <- (map_length Some cs). apply firstn_all.
    + intros b Hb. rewrite lookup_set_ne by auto. apply lookup_old; auto.
    + apply lookup_ge. lia.
  - apply lookup_new.
  - rewrite repeat_length. lia.
Qed.
Lemma copy_ctor_ok : forall h r cs T, own h r cs T ->
  exists s h', copy_ctor r h = Ok (s, h') /\ own h' s cs T /\ frame h None h' (data s).
Proof.
  intros h r cs T O. pose proof O as (A & _). unfold copy_ctor, empty. rewrite A. destruct cs as [|c cs'] eqn:Ec.
  - exists init, h. split; auto. split; [apply own_init|apply frame_refl].
  - rewrite <- Ec in *. replace (length cs =? 0)%nat with false by (subst; reflexivity). assert (NE : cs <> []) by (subst; discriminate).
    destruct (copy_new h r cs T O NE) as (h' & E & O' & F & G). rewrite <- A. unfold size in *.
    destruct (alloc (N.of_nat (curr r)) h) as [[d h1]| | |]; try discriminate. cbn [bind] in *.
    destruct (memcpy h1 (Some d) (data r) (curr r)) as [h2| | |]; try discriminate. cbn [bind] in *. injection E as -> ->.
    eexists _, h'. split; [reflexivity|]. split; auto. cbn [data]. split; [|split]; intros b H1 H2; try discriminate.
    + apply F. congruence.
    + injection H1 as <-. auto.
Qed.
Lemma copy_assign_ok : forall h s r cs ds T, own h s cs T -> own h r ds T -> (forall b, data s = Some b -> data r <> Some b) ->
  exists s' h', copy_assign s r h = Ok (s', h') /\ own h' s' ds T /\ frame h (data s) h' (data s').
Proof.
  intros h s r cs ds T Os Or Dj. pose proof Os as (A & B & C & D & E & F). pose proof Or as (A' & B' & C' & D' & E' & F').
  unfold copy_assign. unfold size at 1. rewrite A'. destruct (N.ltb_spec (cap s) (N.of_nat (length ds))) as [L|L].
  - assert (NE : ds <> []) by (destruct ds; [cbn in L; lia|discriminate]).
    destruct (dealloc_ok h s cs T Os) as (h1 & -> & D1 & D2 & D3 & D4). cbn [bind].
    assert (O1 : own h1 r ds T). { apply (own_frame h); auto. intros b Hb. apply D1. intro Q. now apply (Dj b). }
    destruct (copy_new h1 r ds T O1 NE) as (h2 & E2 & O2 & F2 & G2).
    destruct (alloc (size r) h1) as [[d h3]| | |]; try discriminate. cbn [bind data curr cap] in *.
    unfold empty. rewrite A'. destruct (Nat.eqb_spec (length ds) 0) as [Z|Z]; [destruct ds; [contradiction|discriminate]|].
    rewrite A' in *. destruct (memcpy h3 (Some d) (data r) (length ds)) as [h4| | |]; try discriminate. cbn [bind] in *. injection E2 as -> ->.
    eexists _, h2. split; [reflexivity|]. split; auto. cbn [data]. split; [|split]; intros b H1 H2.
    + rewrite F2 by congruence. apply D1. auto.
    + rewrite F2 by congruence. apply D2. auto.
    + injection H1 as <-. apply lookup_ge. lia.
  - cbn [bind]. unfold empty. rewrite A'. destruct (Nat.eqb_spec (length ds) 0) as [Z|Z].
    + cbn [bind]. exists (mkS (data s) (length ds) (cap s)), h. split; auto. split; [|apply frame_refl].
      destruct ds; [|discriminate]. unfold own. cbn [data curr cap length]. repeat split; auto; try lia. destruct (data s); auto. destruct F as (blk & F1 & F2 & F3). exists blk. cbn. auto.
    + assert (NE : ds <> []) by (destruct ds; [contradiction|discriminate]).
      destruct (data s) as [b|] eqn:Q; [|rewrite F in L; lia]. destruct F as (blk & F1 & F2 & F3).
      rewrite <- A'. rewrite (memcpy_ok h b blk r ds T); auto; [|lia]. cbn [bind].
      eexists _, _. split; [reflexivity|]. split.
      * unfold own. cbn [data curr cap]. repeat split; auto; try lia. exists (map Some ds ++ skipn (length ds) blk).
        split; [apply lookup_set_eq; eapply lookup_lt; eauto|]. split; [rewrite app_length, map_length, skipn_length; lia|].
        rewrite firstn_app, map_length, Nat.sub_diag, firstn_O, app_nil_r. rewrite <- (map_length Some ds). apply firstn_all.
      * cbn [data]. split; [|split]; intros c H1 H2; try contradiction. apply lookup_set_ne. congruence.
Qed.

(* ---- the world ---- *)
Definition var (w : world) (i : nat) : option stream := match nth_error (vars w) i with Some (Some s) => Some s | _ => None end.
Definition Inv (w : world) (v : ideal) (T : N) : Prop :=
  length (vars w) = length v /\
  (forall i, match var w i, get v i with None, None => True | Some s, Some cs => own (mem w) s cs T | _, _ => False end) /\
  (forall i j s r b, var w i = Some s -> var w j = Some r -> data s = Some b -> data r = Some b -> i = j) /\
  (forall b blk, lookup (mem w) b = Some blk -> exists i s, var w i = Some s /\ data s = Some b).

Lemma var_store : forall w i s h j, (i < length (vars w))%nat -> var (store w i s h) j = if (i =? j)%nat then s else var w j.
Proof.
  intros w i s h j L. unfold var, store. cbn [vars]. rewrite lset_nth. destruct (Nat.eqb_spec i j); auto.
  destruct (Nat.ltb_spec i (length (vars w))); [|lia]. destruct s; auto.
Qed.
Lemma get_lset : forall v i x j, (i < length v)%nat -> get (lset v i x) j = if (i =? j)%nat then x else get v j.
Proof.
  intros v i x j L. unfold get. rewrite lset_nth. destruct (Nat.eqb_spec i j); auto. destruct (Nat.ltb_spec i (length v)); [auto|lia].
Qed.
Lemma get_lt : forall v i x, get v i = Some x -> (i < length v)%nat.
Proof. intros v i x E. unfold get in E. destruct (nth_error v i) eqn:Q; [|discriminate]. apply nth_error_Some. congruence. Qed.
Lemma free_lt : forall v i, free v i = true -> (i < length v)%nat /\ get v i = None.
Proof. intros v i E. unfold free, get in *. destruct (nth_error v i) as [[x|]|] eqn:Q; try discriminate. split; auto. apply nth_error_Some. congruence. Qed.
Lemma obj_ok : forall w v T i cs, Inv w v T -> get v i = Some cs -> exists s, obj w i = Ok s /\ var w i = Some s /\ own (mem w) s cs T.
Proof.
  intros w v T i cs (_ & I & _ & _) G. specialize (I i). rewrite G in I. unfold obj, var in *. destruct (nth_error (vars w) i) as [[s|]|]; try contradiction. eauto.
Qed.
Lemma raw_ok : forall w v T i, Inv w v T -> free v i = true -> raw w i = Ok tt /\ var w i = None.
Proof.
  intros w v T i (L & I & _ & _) F. destruct (free_lt v i F) as [L' G]. specialize (I i). rewrite G in I. unfold raw, var in *.
  destruct (nth_error (vars w) i) as [[s|]|] eqn:Q; try contradiction; auto. apply nth_error_None in Q. lia.
Qed.
Lemma Inv_mono : forall w v T T', Inv w v T -> T <= T' -> Inv w v T'.
Proof.
  intros w v T T' (L & I & D & K) H. split; [|split; [|split]]; auto. intro i. specialize (I i). destruct (var w i), (get v i); auto. eapply own_mono; eauto.
Qed.
(* replace variable i, framed *)
Lemma option_eq_dec : forall (b : nat) (o : option nat), {o = Some b} + {o <> Some b}.
Proof. intros b [c|]; [destruct (Nat.eq_dec c b); [left|right]; congruence|right; discriminate]. Qed.
Definition dat (o : option stream) : option nat := match o with Some s => data s | None => None end.
Lemma Inv_store : forall w v T T' i s' h' x, Inv w v T -> T <= T' -> (i < length v)%nat ->
  frame (mem w) (dat (var w i)) h' (dat s') ->
  match s', x with None, None => True | Some s, Some cs => own h' s cs T' | _, _ => False end ->
  Inv (store w i s' h') (lset v i x) T'.
Proof.
  intros w v T T' i s' h' x (L & I & D & K) HT Li (F1 & F2 & F3) O.
  assert (Lw : (i < length (vars w))%nat) by lia.
  assert (LK : forall j s b, i <> j -> var w j = Some s -> data s = Some b -> exists blk, lookup (mem w) b = Some blk).
  { intros j s b N1 V1 D1. specialize (I j). rewrite V1 in I. destruct (get v j); [|contradiction]. destruct I as (_ & _ & _ & _ & _ & X). rewrite D1 in X. destruct X as (blk & X & _). eauto. }
  assert (NE : forall j s b, i <> j -> var w j = Some s -> data s = Some b -> dat (var w i) <> Some b /\ dat s' <> Some b).
  { intros j s b N1 V1 D1. assert (X : dat (var w i) <> Some b).
    { intro Q. destruct (var w i) as [si|] eqn:Vi; [|discriminate]. apply N1. eapply D; eauto. }
    split; auto. intro Q. specialize (F3 b Q X). destruct (LK j s b N1 V1 D1) as [blk E]. congruence. }
  split; [|split; [|split]].
  - unfold store. cbn [vars]. now rewrite !lset_length.
  - intro j. rewrite var_store, get_lset by auto. destruct (Nat.eqb_spec i j) as [->|N1]; auto.
    specialize (I j). destruct (var w j) as [s|] eqn:V, (get v j) as [cs|]; auto. cbn [mem store].
    apply (own_mono _ _ _ T); auto. apply (own_frame (mem w)); auto. intros b Hb. destruct (NE j s b N1 V Hb). apply F1; auto.
  - intros j k s r b. rewrite !var_store by auto. destruct (Nat.eqb_spec i j) as [<-|N1], (Nat.eqb_spec i k) as [<-|N2]; intros V1 V2 D1 D2; auto.
    + subst s'. destruct (NE k r b N2 V2 D2) as [_ X]. cbn in X. congruence.
    + subst s'. destruct (NE j s b N1 V1 D1) as [_ X]. cbn in X. congruence.
    + eapply D; eauto.
  - intros b blk E. cbn [mem store] in E. destruct (option_eq_dec b (dat s')) as [Q|Q].
    + destruct s' as [s|]; [|discriminate]. exists i, s. rewrite var_store, Nat.eqb_refl by auto. auto.
    + destruct (option_eq_dec b (dat (var w i))) as [R|R]; [rewrite (F2 b R Q) in E; discriminate|].
      rewrite F1 in E by auto. destruct (K b blk E) as (j & s & V & Dj). exists j, s. rewrite var_store by auto.
      destruct (Nat.eqb_spec i j) as [<-|]; auto. rewrite V in R. cbn in R. contradiction.
Qed.
Lemma lset_lset : forall {A} (l : list A) i x y, lset (lset l i x) i y = lset l i y.
Proof. induction l as [|a l IH]; intros [|i] x y; cbn; auto. now rewrite IH. Qed.
(* move from j to the free i *)
Lemma Inv_move : forall w v T i j r cs h, Inv (mkW (vars w) h) v T -> (i < length v)%nat -> i <> j -> var w i = None -> get v i = None -> var w j = Some r -> get v j = Some cs ->
  Inv (store (store w i (Some r) h) j (Some init) h) (lset (lset v i (Some cs)) j (Some [])) T.
Proof.
  intros w v T i j r cs h (L & I & D & K) Li N1 Vi Gi Vj Gj. cbn [vars mem] in *.
  assert (Lj : (j < length v)%nat) by (eapply get_lt; eauto).
  assert (VV : forall k, var (mkW (vars w) h) k = var w k) by reflexivity.
  assert (VS : forall k, var (store (store w i (Some r) h) j (Some init) h) k = if (j =? k)%nat then Some init else if (i =? k)%nat then Some r else var w k).
  { intro k. rewrite var_store; [|unfold store; cbn [vars]; rewrite lset_length; lia]. rewrite var_store by lia. reflexivity. }
  pose proof (I j) as Ij. rewrite VV, Vj, Gj in Ij.
  split; [|split; [|split]].
  - unfold store. cbn [vars]. now rewrite !lset_length.
  - intro k. rewrite VS. rewrite get_lset by (rewrite lset_length; lia). rewrite get_lset by lia.
    destruct (Nat.eqb_spec j k) as [<-|N2]; [apply own_init|]. destruct (Nat.eqb_spec i k) as [<-|N3]; [exact Ij|]. apply I.
  - intros a b s t c. rewrite !VS. destruct (Nat.eqb_spec j a) as [<-|A1]; [intros H; injection H as <-; discriminate|].
    destruct (Nat.eqb_spec j b) as [<-|B1]; [intros _ H _; injection H as <-; discriminate|].
    destruct (Nat.eqb_spec i a) as [<-|A2], (Nat.eqb_spec i b) as [<-|B2]; intros V1 V2 D1 D2; auto.
    + injection V1 as <-. exfalso. apply B1. eapply (D j b); eauto.
    + injection V2 as <-. exfalso. apply A1. symmetry. eapply (D a j); eauto.
    + eapply (D a b); eauto.
  - intros b blk E. cbn [mem store] in E. destruct (K b blk E) as (k & s & V & Dk). rewrite VV in V. destruct (Nat.eq_dec k j) as [->|N2].
    + rewrite Vj in V. injection V as <-. exists i, r. rewrite VS. destruct (Nat.eqb_spec j i); [congruence|]. now rewrite Nat.eqb_refl.
    + exists k, s. rewrite VS. destruct (Nat.eqb_spec j k); [congruence|]. destruct (Nat.eqb_spec i k); [congruence|]. auto.
Qed.

Definition amount (o : op) : N := match o with Append _ sv => N.of_nat (length sv) | Put _ _ => 1 | Reserve _ n => n | _ => 0 end.
Lemma step_ok : forall w v T o v', Inv w v T -> supported o -> sstep v o = Some v' ->
  (exists w', step w o = Ok w' /\ Inv w' v' (T + amount o)) \/ (step w o = Contract /\ 2 ^ 63 <= 2 * (T + amount o)).
Proof.
  intros w v T o v' I S E. destruct o as [i|i sv|i c|i n|i|i j|i j|i j|i j|i]; cbn [sstep step amount supported] in *.
  - destruct (free v i) eqn:F; [|discriminate]. injection E as <-. destruct (raw_ok w v T i I F) as [-> V]. cbn [bind]. left. eexists. split; [reflexivity|].
    eapply Inv_store; eauto; try lia; [now apply free_lt|rewrite V; apply frame_refl|apply own_init].
  - unfold on in E. destruct (get v i) as [cs|] eqn:G; [|discriminate]. injection E as <-. destruct (obj_ok w v T i cs I G) as (s & -> & V & O). cbn [bind].
    destruct (append_ok (mem w) s cs T sv O S) as [(s' & h' & -> & O' & F)|[-> X]]; cbn [bind]; [left|right; auto].
    eexists. split; [reflexivity|]. eapply Inv_store; eauto; try lia; [eapply get_lt; eauto|rewrite V; exact F].
  - unfold on in E. destruct (get v i) as [cs|] eqn:G; [|discriminate]. injection E as <-. destruct (obj_ok w v T i cs I G) as (s & -> & V & O). cbn [bind].
    rewrite put_append. destruct (append_ok (mem w) s cs T [c] O) as [(s' & h' & -> & O' & F)|[-> X]]; cbn [bind]; [reflexivity|left|right; auto].
    eexists. split; [reflexivity|]. eapply Inv_store; eauto; try lia; [eapply get_lt; eauto|rewrite V; exact F].
  - unfold on in E. destruct (get v i) as [cs|] eqn:G; [|discriminate]. injection E as <-. destruct (obj_ok w v T i cs I G) as (s & -> & V & O). cbn [bind].
    destruct (reserve_ok (mem w) s cs T n O) as [(s' & h' & -> & O' & F & _)|[-> X]]; cbn [bind]; [left|right; auto].
    eexists. split; [reflexivity|]. eapply Inv_store; eauto; try lia; [eapply get_lt; eauto|rewrite V; exact F].
  - unfold on in E. destruct (get v i) as [cs|] eqn:G; [|discriminate]. injection E as <-. destruct (obj_ok w v T i cs I G) as (s & -> & V & O). cbn [bind].
    left. eexists. split; [reflexivity|]. eapply Inv_store; eauto; try lia; [eapply get_lt; eauto|rewrite V; apply frame_refl|].
    destruct O as (A & B & C & D & X & F). unfold own, clear. cbn [data curr cap length]. repeat split; auto; try lia. destruct (data s); auto. destruct F as (blk & F1 & F2 & F3). exists blk. auto.
  - destruct (free v i) eqn:F; [|discriminate]. destruct (get v j) as [cs|] eqn:G; [|discriminate]. cbn [option_map] in E. injection E as <-.
    destruct (raw_ok w v T i I F) as [-> V]. cbn [bind]. destruct (obj_ok w v T j cs I G) as (r & -> & Vj & O). cbn [bind].
    destruct (copy_ctor_ok (mem w) r cs T O) as (s' & h' & -> & O' & Fr). cbn [bind]. left. eexists. split; [reflexivity|].
    eapply Inv_store; eauto; try lia; [now apply free_lt|rewrite V; exact Fr|]. now rewrite N.add_0_r.
  - destruct (free v i) eqn:F; [|discriminate]. destruct (get v j) as [cs|] eqn:G; [|discriminate]. cbn [option_map] in E. injection E as <-.
    destruct (raw_ok w v T i I F) as [-> V]. cbn [bind]. destruct (obj_ok w v T j cs I G) as (r & -> & Vj & O). cbn [bind]. destruct (free_lt v i F) as [Li Gi].
    left. eexists. split; [reflexivity|]. rewrite N.add_0_r. apply Inv_move; auto; try (destruct w; exact I). intros ->. congruence.
  - destruct (get v j) as [ds|] eqn:Gj; [|discriminate]. unfold on in E. destruct (get v i) as [cs|] eqn:G; [|discriminate]. injection E as <-.
    destruct (obj_ok w v T i cs I G) as (s & -> & V & O). cbn [bind]. destruct (obj_ok w v T j ds I Gj) as (r & -> & Vj & Or). cbn [bind].
    destruct (Nat.eqb_spec i j) as [<-|N1].
    + left. exists w. split; auto. rewrite N.add_0_r. rewrite G in Gj. injection Gj as <-. replace (lset v i (Some cs)) with v; auto.
      apply nth_ext_err. intro k. rewrite lset_nth. destruct (Nat.eqb_spec i k) as [<-|]; auto. pose proof (get_lt _ _ _ G). destruct (Nat.ltb_spec i (length v)); [|lia].
      unfold get in G. destruct (nth_error v i); congruence.
    + destruct (copy_assign_ok (mem w) s r cs ds T O Or) as (s' & h' & -> & O' & Fr).
      { intros b D1 D2. apply N1. destruct I as (_ & _ & D & _). eapply D; eauto. }
      cbn [bind]. left. eexists. split; [reflexivity|]. eapply Inv_store; eauto; try lia; [eapply get_lt; eauto|rewrite V; exact Fr|]. now rewrite N.add_0_r.
  - destruct (get v j) as [ds|] eqn:Gj; [|discriminate]. destruct (Nat.eqb_spec i j); [contradiction|]. unfold on in E. destruct (get v i) as [cs|] eqn:G; [|discriminate]. injection E as <-.
    destruct (obj_ok w v T i cs I G) as (s & -> & V & O). cbn [bind]. destruct (obj_ok w v T j ds I Gj) as (r & -> & Vj & Or). cbn [bind].
    destruct (dealloc_ok (mem w) s cs T O) as (h' & -> & D1 & D2 & D3 & D4). cbn [bind]. left. eexists. split; [reflexivity|]. rewrite N.add_0_r.
    pose proof (get_lt _ _ _ G) as Li. assert (Lw : (i < length (vars w))%nat) by (destruct I as (Lw & _); lia).
    assert (I1 : Inv (store w i None h') (lset v i None) T).
    { eapply Inv_store; eauto; try lia; auto. rewrite V. cbn [dat]. split; [|split]; intros b H1 H2; auto; discriminate. }
    assert (Q : store (store w i (Some r) h') j (Some init) h' = store (store (store w i None h') i (Some r) h') j (Some init) h').
    { unfold store. cbn [vars]. now rewrite lset_lset. }
    rewrite Q. replace (lset v i (Some ds)) with (lset (lset v i None) i (Some ds)) by apply lset_lset.
    apply Inv_move; auto.
    + rewrite lset_length. lia.
    + rewrite var_store by auto. now rewrite Nat.eqb_refl.
    + rewrite get_lset by auto. now rewrite Nat.eqb_refl.
    + rewrite var_store by auto. destruct (Nat.eqb_spec i j); [contradiction|auto].
    + rewrite get_lset by auto. destruct (Nat.eqb_spec i j); [contradiction|auto].
  - destruct (get v i) as [cs|] eqn:G; [|discriminate]. cbn [option_map] in E. injection E as <-. destruct (obj_ok w v T i cs I G) as (s & -> & V & O). cbn [bind].
    destruct (dealloc_ok (mem w) s cs T O) as (h' & -> & D1 & D2 & D3 & D4). cbn [bind]. left. eexists. split; [reflexivity|].
    eapply Inv_store; eauto; try lia; [eapply get_lt; eauto|]. rewrite V. cbn [dat]. split; [|split]; intros b H1 H2; auto; discriminate.
Qed.
Fixpoint total (ops : list op) : N := match ops with [] => 0 | o :: ops => amount o + total ops end.
Lemma run_ok : forall ops w v T v', Inv w v T -> Forall supported ops -> srun v ops = Some v' ->
  (exists w', run w ops = Ok w' /\ Inv w' v' (T + total ops)) \/ (run w ops = Contract /\ 2 ^ 63 <= 2 * (T + total ops)).
Proof.
  induction ops as [|o ops IH]; intros w v T v' I F E; cbn [run srun total] in *.
  - injection E as <-. left. exists w. now rewrite N.add_0_r.
  - inversion F; subst. destruct (sstep v o) as [v1|] eqn:S; [|discriminate].
    destruct (step_ok w v T o v1 I H1 S) as [(w1 & -> & I1)|[-> X]]; cbn [bind]; [|right; split; auto; lia].
    rewrite N.add_assoc. eapply IH; eauto.
Qed.
Lemma Inv_start : forall n, Inv (start n) (repeat None n) 0.
Proof.
  intro n. assert (V : forall i, var (start n) i = None).
  { intro i. unfold var, start. cbn [vars]. destruct (nth_error (repeat None n) i) as [x|] eqn:Q; auto. apply nth_error_In, repeat_spec in Q. now subst. }
  split; [|split; [|split]].
  - unfold start. cbn [vars]. now rewrite !repeat_length.
  - intro i. rewrite V. unfold get. destruct (nth_error (repeat None n) i) as [x|] eqn:Q; auto. apply nth_error_In, repeat_spec in Q. now subst.
  - intros i j s r b H. rewrite V in H. discriminate.
  - intros b blk H. unfold start in H. cbn [mem] in H. unfold lookup in H. destruct b; discriminate.
Qed.
Lemma content_ok : forall w v T i cs, Inv w v T -> get v i = Some cs -> content w i = Ok cs.
Proof.
  intros w v T i cs I G. destruct (obj_ok w v T i cs I G) as (s & E & _ & O). unfold content. rewrite E. cbn [bind]. eapply to_string_ok; eauto.
Qed.
Lemma all_dead : forall w v T, Inv w v T -> (forall i, get v i = None) -> forall b, lookup (mem w) b = None.
Proof.
  intros w v T (_ & I & _ & K) H b. destruct (lookup (mem w) b) as [blk|] eqn:E; auto. destruct (K b blk E) as (i & s & V & _).
  specialize (I i). rewrite V, H in I. contradiction.
Qed.

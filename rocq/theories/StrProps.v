(* Property theorems C34, C35, C36, C75-C78: src/clean-core/string_view.hh *)
From Coq Require Import NArith ZArith List Bool Arith Lia Sorted.
From Verif Require Import Base StrModel StrSpec StrProofs.
Import ListNotations.
Open Scope nat_scope.

(* ---- C34: searching.  All reads of the model are checked, so an Ok outcome means nothing outside the block is read;
   the block may be larger than the view, but validity of the view bounds the positions read as well. ---- *)
Theorem C34_index_of : forall v s, valid v -> valid s ->
  if vempty s then index_of v s = Contract
  else exists r, index_of v s = Ok r /\
    match r with
    | Some k => occurs (contents s) (contents v) (N.to_nat k) /\ forall j, occurs (contents s) (contents v) j -> N.to_nat k <= j
    | None => forall j, ~ occurs (contents s) (contents v) j
    end.
Proof.
  intros v s V S. destruct (vempty s) eqn:E; [unfold index_of; rewrite E; auto|]. apply index_of_spec; auto.
  unfold vempty in E. apply N.eqb_neq in E. pose proof (contents_length _ S) as L. destruct (contents s); [cbn in L; lia|discriminate].
Qed.
Theorem C34_last_index_of : forall v s, valid v -> valid s ->
  if vempty s then last_index_of v s = Contract
  else exists r, last_index_of v s = Ok r /\
    match r with
    | Some k => occurs (contents s) (contents v) (N.to_nat k) /\ forall j, occurs (contents s) (contents v) j -> j <= N.to_nat k
    | None => forall j, ~ occurs (contents s) (contents v) j
    end.
Proof.
  intros v s V S. destruct (vempty s) eqn:E; [unfold last_index_of; rewrite E; auto|]. apply last_index_of_spec; auto.
  unfold vempty in E. apply N.eqb_neq in E. pose proof (contents_length _ S) as L. destruct (contents s); [cbn in L; lia|discriminate].
Qed.
(* all occurrences, overlapping ones included, in increasing order *)
Theorem C34_all_indices_of : forall v s, valid v -> valid s ->
  if vempty s then all_indices_of v s = Contract
  else exists r, all_indices_of v s = Ok r /\ StronglySorted N.lt r /\ forall j, In j r <-> occurs (contents s) (contents v) (N.to_nat j).
Proof.
  intros v s V S. destruct (vempty s) eqn:E; [unfold all_indices_of; rewrite E; auto|]. apply all_indices_spec; auto.
  unfold vempty in E. apply N.eqb_neq in E. pose proof (contents_length _ S) as L. destruct (contents s); [cbn in L; lia|discriminate].
Qed.
Example C34_ex : let v := of_list [1; 2; 1; 2; 1]%N in let s := of_list [1; 2; 1]%N in
  valid v /\ valid s /\ vempty s = false /\ index_of v s = Ok (Some 0%N) /\ last_index_of v s = Ok (Some 2%N) /\ all_indices_of v s = Ok [0; 2]%N.
Proof. cbn zeta. split; [apply valid_of_list; reflexivity|]. split; [apply valid_of_list; reflexivity|]. repeat split; vm_compute; reflexivity. Qed.

Theorem C34_index_of_char : forall v c, valid v -> exists r, index_of_char v c = Ok r /\
  match r with
  | Some k => exists a b, contents v = a ++ c :: b /\ N.to_nat k = length a /\ ~ In c a
  | None => ~ In c (contents v)
  end.
Proof.
  intros v c V. unfold index_of_char. destruct (find_char_spec (N.eqb c) (N.to_nat (vsize v)) 0 v (contents v)) as [r [R1 R2]];
    [apply at0; auto|rewrite contents_length; auto|]. exists r. split; auto.
  assert (NI : forall l, forallb (fun y => negb (c =? y)%N) l = true -> ~ In c l).
  { intros l F I. apply forallb_forall with (x := c) in F; auto. rewrite N.eqb_refl in F. discriminate. }
  destruct r as [k|]; auto. destruct R2 as [a [x [b [E [K [X F]]]]]]. apply N.eqb_eq in X. subst x. exists a, b. repeat split; auto. lia.
Qed.
Theorem C34_last_index_of_char : forall v c, valid v -> exists r, last_index_of_char v c = Ok r /\
  match r with
  | Some k => exists a b, contents v = a ++ c :: b /\ N.to_nat k = length a /\ ~ In c b
  | None => ~ In c (contents v)
  end.
Proof.
  intros v c V. unfold last_index_of_char. pose proof (contents_length _ V) as L.
  destruct (rfind_char_spec (N.eqb c) (N.to_nat (vsize v)) v V) as [r [R1 R2]]; [lia|]. exists r. split; auto.
  assert (NI : forall l, forallb (fun y => negb (c =? y)%N) l = true -> ~ In c l).
  { intros l F I. apply forallb_forall with (x := c) in F; auto. rewrite N.eqb_refl in F. discriminate. }
  rewrite firstn_all2 in R2 by lia.
  destruct r as [k|]; auto. destruct R2 as [a [x [b [E [K [X F]]]]]]. apply N.eqb_eq in X. subst x. exists a, b. repeat split; auto. lia.
Qed.
Theorem C34_contains_char : forall v c, valid v -> exists r, contains_char v c = Ok r /\ (r = true <-> In c (contents v)).
Proof.
  intros v c V. unfold contains_char. destruct (C34_index_of_char v c V) as [r [-> R]]. cbn. eexists. split; [reflexivity|]. destruct r.
  - split; auto. intros _. destruct R as [a [b [-> _]]]. apply in_or_app. right. left. auto.
  - split; [discriminate|tauto].
Qed.
Theorem C34_contains : forall v s, valid v -> valid s -> exists r, contains v s = Ok r /\ (r = true <-> exists k, occurs (contents s) (contents v) k).
Proof.
  intros v s V S. destruct (contains_by_spec N.eqb v s V S) as [r [R1 R2]]. exists r. split; auto. rewrite R2.
  split; intros [k K]; exists k; apply occurs_by_eq; auto.
Qed.
Lemma ci_eq_letter : forall a b, ci_eq a b = true <-> same_letter a b.
Proof.
  intros a b. unfold ci_eq. rewrite orb_true_iff, !N.eqb_eq. unfold to_lower, is_upper. split.
  - intros [->|E]; [constructor|].
    destruct (N.leb_spec 65 a), (N.leb_spec a 90), (N.leb_spec 65 b), (N.leb_spec b 90); cbn [andb] in E;
    try (replace a with b by lia; constructor);
    try (replace b with (a + 32)%N by lia; constructor; lia); try (replace a with (b + 32)%N by lia; constructor; lia).
  - intros [c|c H|c H]; auto; right; destruct (N.leb_spec (c + 32) 90), (N.leb_spec 65 (c + 32)), (N.leb_spec c 90), (N.leb_spec 65 c); cbn [andb]; lia.
Qed.
Theorem C34_contains_ignore_case : forall v s, valid v -> valid s -> exists r, contains_ignore_case v s = Ok r /\
  (r = true <-> exists a m b, contents v = a ++ m ++ b /\ Forall2 same_letter m (contents s)).
Proof.
  intros v s V S. destruct (contains_by_spec ci_eq v s V S) as [r [R1 R2]]. exists r. split; auto. rewrite R2.
  assert (F2 : forall m n, Forall2 (fun x y => ci_eq x y = true) m n <-> Forall2 same_letter m n).
  { split; (induction 1; constructor; auto); apply ci_eq_letter; auto. }
  split.
  - intros [k [a [m [b [E [L F]]]]]]. exists a, m, b. split; auto. apply F2; auto.
  - intros [a [m [b [E F]]]]. exists (length a), a, m, b. repeat split; auto. apply F2; auto.
Qed.
Theorem C34_starts_with : forall v s, valid v -> valid s -> exists r, starts_with v s = Ok r /\ (r = true <-> exists t, contents v = contents s ++ t).
Proof. apply starts_with_spec. Qed.
Theorem C34_ends_with : forall v s, valid v -> valid s -> exists r, ends_with v s = Ok r /\ (r = true <-> exists t, contents v = t ++ contents s).
Proof. apply ends_with_spec. Qed.
(* == decides equality of the contents, != its negation *)
Theorem C34_equality : forall a b, valid a -> valid b ->
  exists r, veq a b = Ok r /\ vne a b = Ok (negb r) /\ (r = true <-> contents a = contents b).
Proof. intros a b A B. destruct (veq_spec a b A B) as [r [R1 R2]]. exists r. unfold vne. rewrite R1. auto. Qed.
Theorem C34_split_once : forall v s, valid v -> valid s -> vempty s = false ->
  (exists a b, split_once v s = Ok (a, b) /\ contents v = contents a ++ contents s ++ contents b /\
     forall j, occurs (contents s) (contents v) j -> length (contents a) <= j)
  \/ (split_once v s = Contract /\ forall j, ~ occurs (contents s) (contents v) j).
Proof.
  intros v s V S NE. pose proof (C34_index_of v s V S) as H. rewrite NE in H. destruct H as [r [R1 R2]]. unfold split_once. rewrite R1. cbn [bind].
  pose proof (contents_length _ V) as LV. pose proof (contents_length _ S) as LS. pose proof (vsize_bound _ V) as BV. pose proof (vsize_bound _ S) as BS.
  destruct r as [k|]; [left|right; auto]. destruct R2 as [O1 O2]. pose proof (occurs_bound _ _ _ O1) as OB.
  pose proof (subview_spec v 0 k V ltac:(lia)) as Q. rewrite (proj2 (N.leb_le _ _)) in Q by lia. destruct Q as [a [-> [Va [_ Ca]]]]. cbn [bind].
  unfold subview_from. rewrite (proj2 (N.leb_le _ _)) by lia. cbn [contract bind]. rewrite wsub_ge by (change (2 ^ 64)%N with (2 * 2 ^ 63)%N; lia).
  destruct (sub_contents v (k + vsize s) (vsize v - (k + vsize s)) V) as [Vb Cb]; [lia|].
  eexists _, _. split; [reflexivity|]. rewrite Ca, Cb. cbn [skipn N.to_nat]. rewrite firstn_all2 with (n := N.to_nat (vsize v - (k + vsize s))) by (rewrite skipn_length; lia).
  destruct O1 as [x [y [E L]]]. split.
  - rewrite E at 1 2 3. rewrite <- L at 1. rewrite firstn_app, firstn_all, Nat.sub_diag. cbn [firstn]. rewrite app_nil_r.
    replace (N.to_nat (k + vsize s)) with (length (x ++ contents s)) by (rewrite app_length; lia). rewrite app_assoc at 2. rewrite skipn_app, skipn_all, Nat.sub_diag.
    reflexivity.
  - intros j J. rewrite firstn_length. specialize (O2 j J). lia.
Qed.
(* common_prefix_with returns the longest common prefix *)
Lemma common_loop_spec : forall n i a b la lb, at_ a i la -> at_ b i lb -> n = Nat.min (length la) (length lb) ->
  exists m, common_loop n i a b = Ok (i + N.of_nat m)%N /\ m <= n /\ firstn m la = firstn m lb /\
    (forall x y, nth_error la m = Some x -> nth_error lb m = Some y -> x <> y).
Proof.
  induction n; intros i a b la lb A B M; cbn [common_loop].
  - exists 0. split; [f_equal; lia|]. repeat split; auto. intros x y X Y. destruct la, lb; cbn in *; discriminate.
  - destruct la as [|x la]; [discriminate|]. destruct lb as [|y lb]; [discriminate|].
    rewrite (rd_at _ _ _ _ A), (rd_at _ _ _ _ B). cbn [bind]. destruct (N.eqb_spec x y) as [->|NE]; cbn [negb].
    + destruct (IHn (i + 1)%N a b la lb) as [m [M1 [M2 [M3 M4]]]]; try (eapply at_next; eauto); [cbn in M; lia|].
      exists (S m). rewrite M1. split; [f_equal; lia|]. split; [lia|]. split; [cbn; congruence|]. auto.
    + exists 0. split; [f_equal; lia|]. split; [lia|]. split; auto. cbn. intros. congruence.
Qed.
Theorem C34_common_prefix : forall a b, valid a -> valid b -> exists w s t, common_prefix_with a b = Ok w /\
  contents a = contents w ++ s /\ contents b = contents w ++ t /\ match s, t with x :: _, y :: _ => x <> y | _, _ => True end.
Proof.
  intros a b A B. pose proof (contents_length _ A) as LA. pose proof (contents_length _ B) as LB. unfold common_prefix_with.
  destruct (common_loop_spec (N.to_nat (N.min (vsize a) (vsize b))) 0 a b (contents a) (contents b)) as [m [M1 [M2 [M3 M4]]]];
    try apply at0; auto; [lia|]. rewrite M1. cbn [bind].
  destruct (sub_contents a 0 (N.of_nat m) A) as [W C]; [lia|]. rewrite !N.add_0_r in *. cbn [skipn N.to_nat] in C. rewrite Nat2N.id in C.
  eexists _, (skipn m (contents a)), (skipn m (contents b)). split; [reflexivity|]. rewrite N.add_0_l, C.
  split; [rewrite firstn_skipn; auto|]. split; [rewrite M3, firstn_skipn; auto|].
  pose proof (nth_error_skipn m (contents a) 0) as EA. pose proof (nth_error_skipn m (contents b) 0) as EB. rewrite Nat.add_0_r in EA, EB.
  destruct (skipn m (contents a)), (skipn m (contents b)); auto.
Qed.
Example C34_misc_ex : let v := of_list [72; 101; 108; 108; 111]%N in
  contains v (of_list [108; 108]%N) = Ok true /\ contains_ignore_case v (of_list [69; 76]%N) = Ok true /\ ends_with v (of_list [111]%N) = Ok true /\
  starts_with v (of_list [101]%N) = Ok false /\ last_index_of_char v 108 = Ok (Some 3%N).
Proof. repeat split; vm_compute; reflexivity. Qed.

(* ---- C35: splitting ---- *)
Theorem C35_keep : forall v sep, valid v -> contents v <> [] ->
  exists r, split (N.eqb sep) false v = Ok r /\ let ps := map contents r in
    length ps = S (count_occ N.eq_dec (contents v) sep) /\ Forall (fun q => ~ In sep q) ps /\ join sep ps = contents v.
Proof.
  intros v sep V NE. destruct (split_keep_spec (N.eqb sep) v V) as [r [R1 [R2 R3]]]. exists r. split; auto. cbn zeta. rewrite R3.
  destruct (contents v) as [|x l]; [contradiction|]. set (c := x :: l). split; [|split].
  - rewrite pieces_count. f_equal. clearbody c. clear. induction c as [|y c IH]; cbn; auto.
    destruct (N.eqb_spec sep y), (N.eq_dec y sep); cbn; congruence.
  - eapply Forall_impl; [|apply pieces_clean]. intros q Q I. cbn in Q. apply forallb_forall with (x := sep) in Q; auto. rewrite N.eqb_refl in Q. discriminate.
  - apply pieces_join.
Qed.
(* the same for an arbitrary separator predicate *)
Theorem C35_keep_pred : forall v p, valid v -> contents v <> [] ->
  exists r, split p false v = Ok r /\ let ps := map contents r in let seps := filter p (contents v) in
    length ps = S (length seps) /\ Forall (fun q => forallb (fun x => negb (p x)) q = true) ps /\ interleave ps seps = contents v.
Proof.
  intros v p V NE. destruct (split_keep_spec p v V) as [r [R1 [R2 R3]]]. exists r. split; auto. cbn zeta. rewrite R3.
  destruct (contents v) as [|x l] eqn:E; [contradiction|]. split; [apply pieces_count|]. split; [apply pieces_clean|apply pieces_interleave].
Qed.
(* skipping empty parts yields exactly the non-empty pieces in order (also for the empty string) *)
Theorem C35_skip : forall v p, valid v ->
  exists r k, split p true v = Ok r /\ split p false v = Ok k /\
    map contents r = filter (fun q => negb (length q =? 0)) (map contents k).
Proof.
  intros v p V. destruct (split_keep_spec p v V) as [k [K1 [K2 K3]]]. destruct (split_skip_spec p v V) as [r [R1 [R2 R3]]].
  exists r, k. split; auto. split; auto. rewrite R3, K3. unfold words.
  assert (E : forall ps, filter nonempty ps = filter (fun q : list N => negb (length q =? 0)) ps) by (apply filter_ext; intros []; auto).
  destruct (contents v); auto.
Qed.
Example C35_ex : let v := of_list [44; 97; 44; 44; 98]%N in
  contents v <> [] /\ exists r k, split (N.eqb 44) false v = Ok r /\ map contents r = [[]; [97]; []; [98]]%N /\ split (N.eqb 44) true v = Ok k /\ map contents k = [[97]; [98]]%N.
Proof.
  split; [vm_compute; discriminate|]. eexists _, _. split; [vm_compute; reflexivity|]. split; [vm_compute; reflexivity|].
  split; vm_compute; reflexivity.
Qed.

(* ---- C36: subview_clamped ---- *)
(* As stated it is false: offset + size wraps, the clamping is skipped and the result claims 2^64 - 1 characters. *)
Theorem C36_clamped_refuted : exists v o s, valid v /\ (o < 2 ^ 64)%N /\ (s < 2 ^ 64)%N /\ ~ valid (subview_clamped v o s) /\
  vsize (subview_clamped v o s) = (2 ^ 64 - 1)%N.
Proof.
  exists (of_list [1; 2; 3]%N), 1%N, (2 ^ 64 - 1)%N. split; [apply valid_of_list; reflexivity|]. split; [reflexivity|]. split; [reflexivity|].
  split; [|reflexivity]. intros [H _]. vm_compute in H. apply H. reflexivity.
Qed.
(* missing: the requests whose end wraps around *)
Theorem C36_clamped_partial : forall v o s, valid v -> (o + s < 2 ^ 64)%N ->
  contents (subview_clamped v o s) = firstn (N.to_nat s) (skipn (N.to_nat o) (contents v)) /\
  ((o <= vsize v)%N -> valid (subview_clamped v o s)) /\
  (vsize (subview_clamped v o s) <= vsize v)%N.
Proof.
  intros v o s V H. pose proof (contents_length _ V) as L. pose proof (vsize_bound _ V) as B. unfold subview_clamped. rewrite wadd_small by auto.
  destruct (N.ltb_spec (vsize v) o).
  - split; [|split; [lia|cbn [vsize]; lia]]. unfold contents at 1. cbn [vsize firstn N.to_nat]. rewrite skipn_all2 by lia. rewrite firstn_nil. auto.
  - rewrite wsub_ge by (change (2 ^ 64)%N with (2 * 2 ^ 63)%N; lia). destruct (N.ltb_spec (vsize v) (o + s)).
    + destruct (sub_contents v o (vsize v - o) V) as [W C]; [lia|]. rewrite C. split; [|split; [auto|cbn [vsize]; lia]].
      rewrite !firstn_all2; auto; rewrite skipn_length; lia.
    + destruct (sub_contents v o s V) as [W C]; [lia|]. rewrite C. split; auto. split; auto. cbn [vsize]. lia.
Qed.
Example C36_ex : let v := of_list [1; 2; 3]%N in contents (subview_clamped v 1 7) = [2; 3]%N /\ (1 + 7 < 2 ^ 64)%N.
Proof. split; reflexivity. Qed.

(* ---- C75: subview ---- *)
Theorem C75_subview_refuted : exists v o s w, valid v /\ (o < 2 ^ 64)%N /\ (s < 2 ^ 64)%N /\ ~ (o + s <= vsize v)%N /\ subview v o s = Ok w /\ ~ valid w.
Proof.
  exists (of_list [1; 2; 3]%N), 1%N, (2 ^ 64 - 1)%N. eexists. split; [apply valid_of_list; reflexivity|]. split; [reflexivity|]. split; [reflexivity|].
  split; [vm_compute; congruence|]. split; [vm_compute; reflexivity|]. intros [H _]. vm_compute in H. apply H. reflexivity.
Qed.
(* missing: the requests whose end wraps around *)
Theorem C75_subview_partial : forall v o s, valid v -> (o + s < 2 ^ 64)%N ->
  if (o + s <=? vsize v)%N
  then exists w, subview v o s = Ok w /\ valid w /\ contents w = firstn (N.to_nat s) (skipn (N.to_nat o) (contents v))
  else subview v o s = Contract.
Proof.
  intros v o s V H. unfold subview. rewrite wadd_small by auto. destruct (N.leb_spec (o + s) (vsize v)).
  - rewrite (proj2 (N.leb_le _ _)) by lia. cbn [contract bind]. destruct (sub_contents v o s V) as [W C]; [lia|]. eauto.
  - destruct (o <=? vsize v)%N; auto.
Qed.
Theorem C75_slices : forall v n, valid v ->
  (subview_from v n = remove_prefix v n) /\
  (if (n <=? vsize v)%N then exists w, remove_prefix v n = Ok w /\ valid w /\ contents w = skipn (N.to_nat n) (contents v) else remove_prefix v n = Contract) /\
  (if (n <=? vsize v)%N then exists w, remove_suffix v n = Ok w /\ valid w /\ contents w = firstn (N.to_nat (vsize v) - N.to_nat n) (contents v) else remove_suffix v n = Contract) /\
  (valid (first v n) /\ contents (first v n) = firstn (N.to_nat n) (contents v)) /\
  (valid (last v n) /\ contents (last v n) = skipn (N.to_nat (vsize v) - N.to_nat n) (contents v)).
Proof.
  intros v n V. pose proof (contents_length _ V) as L. pose proof (vsize_bound _ V) as B.
  assert (P : (2 ^ 64 = 2 * 2 ^ 63)%N) by reflexivity. split; [reflexivity|]. unfold remove_prefix, remove_suffix.
  destruct (N.leb_spec n (vsize v)) as [H|H]; cbn [contract bind].
  - rewrite wsub_ge by lia. destruct (sub_contents v n (vsize v - n) V) as [W C]; [lia|]. destruct (sub_contents v 0 (vsize v - n) V) as [W2 C2]; [lia|].
    rewrite N.add_0_r in *. split; [|split; [|split]].
    + eexists. split; [reflexivity|]. split; auto. rewrite C. apply firstn_all2. rewrite skipn_length. lia.
    + eexists. split; [reflexivity|]. split; auto. rewrite C2. cbn [skipn N.to_nat]. f_equal. lia.
    + unfold first. destruct (N.ltb_spec n (vsize v)).
      * destruct (sub_contents v 0 n V) as [W3 C3]; [lia|]. rewrite N.add_0_r in *. auto.
      * replace (mkView (mem v) (off v) (vsize v)) with v by (destruct v; auto). split; auto. rewrite firstn_all2; auto. lia.
    + unfold last. rewrite (proj2 (N.leb_le _ _)) by auto. replace (off v + vsize v - n)%N with (off v + (vsize v - n))%N by lia.
      destruct (sub_contents v (vsize v - n) n V) as [W3 C3]; [lia|]. split; auto. rewrite C3, firstn_all2 by (rewrite skipn_length; lia). f_equal. lia.
  - split; auto. split; auto. split.
    + unfold first. rewrite (proj2 (N.ltb_ge _ _)) by lia. replace (mkView (mem v) (off v) (vsize v)) with v by (destruct v; auto). split; auto. rewrite firstn_all2; auto. lia.
    + unfold last. rewrite (proj2 (N.leb_gt _ _)) by auto. split; auto. replace (N.to_nat (vsize v) - N.to_nat n) with 0 by lia. auto.
Qed.
Example C75_ex : exists w, subview (of_list [1; 2; 3; 4]%N) 1 2 = Ok w /\ contents w = [2; 3]%N /\ subview (of_list [1; 2; 3; 4]%N) 3 2 = Contract.
Proof. eexists. split; [vm_compute; reflexivity|]. split; vm_compute; reflexivity. Qed.

(* ---- C76: trimming ---- *)
Theorem C76_trim_start : forall p v, valid v -> exists w, trim_start p v = Ok w /\ valid w /\ trimmed_start p (contents v) (contents w).
Proof. intros p v V. destruct (trim_start_loop_spec p _ v V eq_refl) as [w [W1 [W2 [_ W3]]]]. exists w. auto. Qed.
Theorem C76_trim_end : forall p v, valid v -> exists w, trim_end p v = Ok w /\ valid w /\ trimmed_end p (contents v) (contents w).
Proof. intros p v V. destruct (trim_end_loop_spec p _ v V eq_refl) as [w [W1 [W2 [_ W3]]]]. exists w. auto. Qed.
Theorem C76_trim : forall p v, valid v -> exists w m, trim p v = Ok w /\ valid w /\ trimmed_start p (contents v) m /\ trimmed_end p m (contents w) /\
  (forall x t, contents w = x :: t -> p x = false).
Proof.
  intros p v V. unfold trim. destruct (C76_trim_start p v V) as [u [U1 [U2 U3]]]. destruct (C76_trim_end p u U2) as [w [W1 [W2 W3]]].
  rewrite U1. cbn [bind]. exists w, (contents u). split; auto. split; auto. split; auto. split; auto. intros x t E. destruct U3 as [d [_ [_ U]]]. destruct W3 as [d' [D' _]].
  rewrite E in D'. cbn in D'. eapply U. eauto.
Qed.
(* the specifications determine the result *)
Theorem C76_trim_unique : forall p l r1 r2, trimmed_start p l r1 -> trimmed_start p l r2 -> r1 = r2.
Proof.
  intros p l r1 r2 [d1 [E1 [F1 H1]]] [d2 [E2 [F2 H2]]]. subst l. revert d2 E2 F2 F1. induction d1 as [|x d1 IH]; intros [|y d2] E F2 F1; cbn in *; auto.
  - subst r1. apply andb_true_iff in F2. rewrite (H1 y _ eq_refl) in F2. destruct F2. discriminate.
  - subst r2. apply andb_true_iff in F1. rewrite (H2 x _ eq_refl) in F1. destruct F1. discriminate.
  - injection E as -> E. apply andb_true_iff in F1, F2. apply (IH d2); tauto.
Qed.
Example C76_ex : exists w, trim is_space (of_list [32; 97; 32; 98; 9; 10]%N) = Ok w /\ contents w = [97; 32; 98]%N.
Proof. eexists. split; vm_compute; reflexivity. Qed.

(* ---- C77: is_lexicographically_less_than ---- *)
Theorem C77_lex : forall a b, valid a -> valid b -> exists r, lex_less a b = Ok r /\
  (r = true <-> lex (fun x y => (schar x < schar y)%Z) (contents a) (contents b)).
Proof.
  intros a b A B. rewrite lex_less_spec by auto. eexists. split; [reflexivity|]. rewrite lexb_lex by (intro; apply Z.ltb_irrefl).
  unfold lex. split; (intros [[q [x [y [s [t [E1 [E2 L]]]]]]]|H]; [left; exists q, x, y, s, t; repeat split; auto; apply Z.ltb_lt; auto|right; auto]).
Qed.
(* a strict total order on contents (characters are bytes) *)
Lemma lexb_total : forall ltb, (forall x y, ltb x y = true -> ltb y x = false) -> (forall x y, (x < 256)%N -> (y < 256)%N -> x <> y -> ltb x y = true \/ ltb y x = true) ->
  forall a b, Forall (fun c => (c < 256)%N) a -> Forall (fun c => (c < 256)%N) b ->
  (lexb ltb a b = true -> lexb ltb b a = false) /\ (a <> b -> lexb ltb a b = true \/ lexb ltb b a = true).
Proof.
  intros ltb AS TO. induction a as [|x a IH]; intros [|y b] FA FB; cbn.
  - split; auto.
  - split; auto.
  - split; auto.
  - inversion FA; inversion FB; subst. destruct (IH b) as [I1 I2]; auto. rewrite (N.eqb_sym y x). destruct (N.eqb_spec x y); subst.
    + split; auto. intros NE. apply I2. congruence.
    + split; auto.
Qed.
Lemma lexb_trans : forall ltb, (forall x y z, ltb x y = true -> ltb y z = true -> ltb x z = true) -> (forall x, ltb x x = false) ->
  forall a b c, lexb ltb a b = true -> lexb ltb b c = true -> lexb ltb a c = true.
Proof.
  intros ltb TR IR. induction a as [|x a IH]; intros [|y b] [|z c] H1 H2; cbn in *; try discriminate; auto.
  destruct (N.eqb_spec x y) as [->|]; destruct (N.eqb_spec y z) as [->|]; try (destruct (N.eqb_spec x z)); try (destruct (N.eqb_spec y z)); subst; eauto; try congruence.
  exfalso. assert (ltb z z = true) by eauto. congruence.
Qed.
Theorem C77_strict_total_order : forall a b c, valid a -> valid b -> valid c ->
  Forall (fun x => (x < 256)%N) (contents a) -> Forall (fun x => (x < 256)%N) (contents b) ->
  lex_less a a = Ok false /\ (lex_less a b = Ok true -> lex_less b a = Ok false) /\
  (contents a <> contents b -> lex_less a b = Ok true \/ lex_less b a = Ok true) /\
  (lex_less a b = Ok true -> lex_less b c = Ok true -> lex_less a c = Ok true).
Proof.
  intros a b c A B C FA FB. rewrite !lex_less_spec by auto. set (ltb := fun x y => (schar x <? schar y)%Z).
  assert (IR : forall x, ltb x x = false) by (intro; apply Z.ltb_irrefl).
  assert (AS : forall x y, ltb x y = true -> ltb y x = false) by (unfold ltb; intros x y H; apply Z.ltb_lt in H; apply Z.ltb_ge; lia).
  assert (TR : forall x y z, ltb x y = true -> ltb y z = true -> ltb x z = true) by (unfold ltb; intros x y z H1 H2; apply Z.ltb_lt in H1, H2; apply Z.ltb_lt; lia).
  assert (TO : forall x y, (x < 256)%N -> (y < 256)%N -> x <> y -> ltb x y = true \/ ltb y x = true).
  { unfold ltb, schar. intros x y X Y NE. rewrite !Z.ltb_lt. destruct (N.ltb_spec x 128), (N.ltb_spec y 128); lia. }
  destruct (lexb_total ltb AS TO (contents a) (contents b) FA FB) as [T1 T2]. split.
  - f_equal. generalize (contents a). induction l; cbn; auto. rewrite N.eqb_refl. auto.
  - split; [intro H; injection H as H; f_equal; auto|]. split; [intro H; destruct (T2 H) as [->| ->]; auto|].
    intros H1 H2. injection H1 as H1. injection H2 as H2. f_equal. eapply lexb_trans; eauto.
Qed.
Example C77_ex : lex_less (of_list [97; 98]%N) (of_list [97; 99]%N) = Ok true /\ lex_less (of_list [195]%N) (of_list [97]%N) = Ok true.
Proof. split; vm_compute; reflexivity. Qed.

(* ---- C78: ascii_lexicographical_less ---- *)
(* false for strings with an embedded NUL: strncmp stops there and the strings are then compared by length only *)
Theorem C78_ascii_refuted : exists a b, valid a /\ valid b /\ Forall (fun c => (c < 128)%N) (contents a) /\ Forall (fun c => (c < 128)%N) (contents b) /\
  contents a <> contents b /\ ascii_less a b = Ok false /\ ascii_less b a = Ok false.
Proof.
  exists (of_list [97; 0; 98]%N), (of_list [97; 0; 99]%N). split; [apply valid_of_list; reflexivity|]. split; [apply valid_of_list; reflexivity|].
  split; [repeat constructor|]. split; [repeat constructor|]. split; [discriminate|]. split; vm_compute; reflexivity.
Qed.
(* missing: strings with embedded NUL characters.  On NUL-free strings it is the lexicographic order of the bytes as
   unsigned characters, and on NUL-free ASCII it agrees with is_lexicographically_less_than *)
Theorem C78_ascii_partial : forall a b, valid a -> valid b -> Forall (fun c => c <> 0%N) (contents a) -> Forall (fun c => c <> 0%N) (contents b) ->
  exists r, ascii_less a b = Ok r /\ (r = true <-> lex N.lt (contents a) (contents b)) /\
    (Forall (fun c => (c < 128)%N) (contents a) -> Forall (fun c => (c < 128)%N) (contents b) -> lex_less a b = Ok r).
Proof.
  intros a b A B FA FB. rewrite ascii_less_spec by auto. eexists. split; [reflexivity|]. split.
  - rewrite lexb_lex by (intro; apply N.ltb_irrefl).
    unfold lex. split; (intros [[q [x [y [s [t [E1 [E2 L]]]]]]]|H]; [left; exists q, x, y, s, t; repeat split; auto; apply N.ltb_lt; auto|right; auto]).
  - intros GA GB. rewrite lex_less_spec by auto. f_equal. revert GA GB. generalize (contents a) (contents b). clear.
    induction l as [|x l IH]; intros [|y m] FA FB; cbn; auto. inversion FA; inversion FB; subst. destruct (x =? y)%N; auto.
    unfold schar. rewrite (proj2 (N.ltb_lt x 128)), (proj2 (N.ltb_lt y 128)) by auto.
    destruct (Z.ltb_spec (Z.of_N x) (Z.of_N y)), (N.ltb_spec x y); auto; lia.
Qed.
Example C78_ex : ascii_less (of_list [97; 98]%N) (of_list [97; 99]%N) = Ok true.
Proof. vm_compute. reflexivity. Qed.


(* ---- C83: construction from a C string and element access ---- *)
Theorem C83_of_cstr : forall pre s post, ~ In 0%N s -> (N.of_nat (length (pre ++ s ++ 0%N :: post)) < 2 ^ 63)%N ->
  exists v, of_cstr (pre ++ s ++ 0%N :: post) (N.of_nat (length pre)) = Ok v /\ valid v /\ contents v = s /\ vsize v = N.of_nat (length s).
Proof.
  intros pre s post Z L. unfold of_cstr. set (m := pre ++ s ++ 0%N :: post) in *.
  assert (K : forall k fuel d, d + k = length s -> k < fuel -> scan_nul fuel m (N.of_nat (length pre)) (N.of_nat d) = Ok (N.of_nat (length s))).
  { induction k; intros fuel d E F; destruct fuel; try lia; cbn [scan_nul].
    - assert (A : aget m (N.to_nat (N.of_nat (length pre) + N.of_nat d)) = Ok 0%N).
      { apply aget_Ok. unfold m. rewrite nth_error_app2 by lia. rewrite nth_error_app2 by lia.
        replace (N.to_nat (N.of_nat (length pre) + N.of_nat d) - length pre - length s) with 0 by lia. reflexivity. }
      rewrite A. cbn [bind N.eqb]. f_equal. lia.
    - destruct (nth_error s d) as [c|] eqn:Ec; [|apply nth_error_None in Ec; lia].
      assert (A : aget m (N.to_nat (N.of_nat (length pre) + N.of_nat d)) = Ok c).
      { apply aget_Ok. unfold m. rewrite nth_error_app2 by lia. rewrite nth_error_app1 by lia.
        replace (N.to_nat (N.of_nat (length pre) + N.of_nat d) - length pre) with d by lia. exact Ec. }
      rewrite A. cbn [bind]. destruct (N.eqb_spec c 0) as [->|]; [elim Z; eapply nth_error_In; eauto|].
      replace (N.of_nat d + 1)%N with (N.of_nat (S d)) by lia. apply IHk; lia. }
  assert (Lm : length m = length pre + (length s + S (length post))) by (unfold m; rewrite !app_length; reflexivity).
  specialize (K (length s) (S (length m)) 0 eq_refl ltac:(lia)). cbn [N.of_nat] in K. rewrite K. cbn [bind].
  eexists. split; [reflexivity|]. unfold valid, contents. cbn [off vsize mem]. split; [split; [lia|exact L]|]. split; [|reflexivity].
  rewrite !Nat2N.id. unfold m. rewrite skipn_app, skipn_all, Nat.sub_diag. cbn [skipn app].
  rewrite firstn_app, firstn_all, Nat.sub_diag. cbn [firstn]. apply app_nil_r.
Qed.
Example C83_of_cstr_ex : exists v, of_cstr [120; 97; 98; 0; 99]%N 1 = Ok v /\ contents v = [97; 98]%N.
Proof. eexists. split; [vm_compute; reflexivity|]. vm_compute. reflexivity. Qed.

(* element access gives the elements of the shown characters, out of range is a contract violation *)
Theorem C83_access : forall v i, valid v ->
  vindex v i = match nth_error (contents v) (N.to_nat i) with Some c => Ok c | None => Contract end /\
  vfront v = match contents v with c :: _ => Ok c | [] => Contract end /\
  vback v = match rev (contents v) with c :: _ => Ok c | [] => Contract end /\
  vempty v = match contents v with [] => true | _ => false end.
Proof.
  intros v i [V _].
  assert (L : length (contents v) = N.to_nat (vsize v)) by (unfold contents; rewrite firstn_length, skipn_length; lia).
  assert (R : forall i, (i < vsize v)%N -> rd v i = match nth_error (contents v) (N.to_nat i) with Some c => Ok c | None => UB end).
  { intros k Hk. unfold rd, aget, contents. rewrite nth_error_firstn_lt by lia. rewrite nth_error_skipn.
    replace (N.to_nat (off v + k)) with (N.to_nat (off v) + N.to_nat k) by lia. reflexivity. }
  split; [|split; [|split]].
  - unfold vindex. destruct (N.ltb_spec i (vsize v)) as [H|H]; cbn [contract bind].
    + rewrite R by exact H. destruct (nth_error (contents v) (N.to_nat i)) eqn:E; [reflexivity|]. apply nth_error_None in E. lia.
    + destruct (nth_error (contents v) (N.to_nat i)) eqn:E; [|reflexivity].
      assert (N.to_nat i < length (contents v)) by (apply nth_error_Some; congruence). lia.
  - unfold vfront. destruct (N.ltb_spec 0 (vsize v)) as [H|H]; cbn [contract bind].
    + rewrite R by exact H. cbn [N.to_nat]. destruct (contents v); cbn in *; [lia|reflexivity].
    + destruct (contents v); cbn in *; [reflexivity|lia].
  - unfold vback. clear i. remember (contents v) as C eqn:E. clear E. revert L R. destruct C as [|c l _] using rev_ind; intros L R.
    + cbn in *. destruct (N.ltb_spec 0 (vsize v)); [lia|reflexivity].
    + rewrite rev_app_distr. cbn [rev app]. rewrite app_length in L. cbn in L.
      destruct (N.ltb_spec 0 (vsize v)); [|lia]. cbn [contract bind]. rewrite R by lia.
      replace (N.to_nat (vsize v - 1)) with (length l) by lia. rewrite nth_error_app2, Nat.sub_diag by lia. reflexivity.
  - unfold vempty. destruct (contents v); cbn in L; destruct (N.eqb_spec (vsize v) 0); auto; lia.
Qed.
Example C83_access_ex : valid (mkView [120; 97; 98; 0]%N 1 2) /\ vindex (mkView [120; 97; 98; 0]%N 1 2) 1 = Ok 98%N /\ vindex (mkView [120; 97; 98; 0]%N 1 2) 2 = Contract.
Proof. split; [split; vm_compute; [discriminate|reflexivity]|vm_compute; auto]. Qed.

Print Assumptions C34_index_of.
Print Assumptions C34_last_index_of.
Print Assumptions C34_all_indices_of.
Print Assumptions C34_index_of_char.
Print Assumptions C34_last_index_of_char.
Print Assumptions C34_contains_char.
Print Assumptions C34_contains.
Print Assumptions C34_contains_ignore_case.
Print Assumptions C34_starts_with.
Print Assumptions C34_ends_with.
Print Assumptions C34_equality.
Print Assumptions C34_split_once.
Print Assumptions C34_common_prefix.
Print Assumptions C35_keep.
Print Assumptions C35_keep_pred.
Print Assumptions C35_skip.
Print Assumptions C36_clamped_refuted.
Print Assumptions C36_clamped_partial.
Print Assumptions C75_subview_refuted.
Print Assumptions C75_subview_partial.
Print Assumptions C75_slices.
Print Assumptions C76_trim_start.
Print Assumptions C76_trim_end.
Print Assumptions C76_trim.
Print Assumptions C76_trim_unique.
Print Assumptions C77_lex.
Print Assumptions C77_strict_total_order.
Print Assumptions C78_ascii_refuted.
Print Assumptions C78_ascii_partial.
Print Assumptions C83_of_cstr.
Print Assumptions C83_access.

(* Proofs about atomic_pool_allocator. *)
From Coq Require Import NArith ZArith List Lia Bool Arith Permutation.
Import ListNotations.
From Verif Require Import Base BitsModel BitsSpec BitsProofs AllocModel AllocSpec AllocProofs PoolModel PoolSpec.
Open Scope N_scope.

Section P.
  Variables b len bk : N.
  Hypothesis S : sane b len bk.

  Let Hb : 0 < b := proj1 S.
  Let Hbl : b + len < 2 ^ 64 := proj1 (proj2 S).
  Let H8 : 8 <= bk := proj1 (proj2 (proj2 (proj2 S))).
  Let Hk : bk <= len := proj1 (proj2 (proj2 (proj2 (proj2 S)))).
  Let Hn : len / bk <= 2 ^ 32 := proj2 (proj2 (proj2 (proj2 (proj2 S)))).

  Definition cnt : nat := N.to_nat (len / bk).
  Definition node (i : nat) : N := b + N.of_nat i * bk.
  Definition nodes : list N := map node (seq 0 cnt).

  Lemma cnt_pos : (0 < cnt)%nat.
  Proof.
    unfold cnt. assert (0 < len / bk). { apply N.div_str_pos. lia. } lia.
  Qed.

  Lemma cnt_fit : N.of_nat cnt * bk <= len.
  Proof. unfold cnt. rewrite N2Nat.id. rewrite N.mul_comm. apply N.mul_div_le. lia. Qed.

  Lemma node_lt : forall i, (i < cnt)%nat -> b <= node i /\ node i + bk <= b + len.
  Proof.
    intros i Hi. pose proof cnt_fit as C. unfold node. split; [lia|].
    assert ((N.of_nat i + 1) * bk <= N.of_nat cnt * bk) by (apply N.mul_le_mono_r; lia). lia.
  Qed.

  Lemma node_apart : forall i j, (i < j)%nat -> node i + bk <= node j.
  Proof. intros i j H. unfold node. assert ((N.of_nat i + 1) * bk <= N.of_nat j * bk) by (apply N.mul_le_mono_r; lia). lia. Qed.

  Lemma in_nodes : forall p, In p nodes <-> is_block b len bk p.
  Proof.
    intro p. unfold nodes, is_block. rewrite in_map_iff. split.
    - intros (i & <- & Hi). apply in_seq in Hi. exists (N.of_nat i). unfold cnt in Hi. split; [lia|reflexivity].
    - intros (i & Hi & ->). exists (N.to_nat i). unfold node. rewrite N2Nat.id. split; [auto|]. apply in_seq. unfold cnt. lia.
  Qed.

  Lemma nodes_apart : forall p q, In p nodes -> In q nodes -> p <> q -> p + bk <= q \/ q + bk <= p.
  Proof.
    intros p q Hp Hq Hne. apply in_map_iff in Hp, Hq. destruct Hp as (i & <- & Hi), Hq as (j & <- & Hj).
    destruct (Nat.lt_trichotomy i j) as [H | [H | H]]; [|congruence|]; apply node_apart in H; auto.
  Qed.

  Lemma nodes_in : forall p, In p nodes -> b <= p /\ p + bk <= b + len.
  Proof. intros p H. apply in_map_iff in H. destruct H as (i & <- & Hi). apply in_seq in Hi. apply node_lt. lia. Qed.

  Lemma nodes_nodup : NoDup nodes.
  Proof.
    unfold nodes. apply FinFun.Injective_map_NoDup; [|apply seq_NoDup].
    intros i j E. destruct (Nat.lt_trichotomy i j) as [H | [H | H]]; auto; apply node_apart in H; lia.
  Qed.

  Lemma nodes_length : length nodes = cnt.
  Proof. unfold nodes. rewrite map_length, seq_length. auto. Qed.

  (* ---------- the free list in memory ---------- *)
  Fixpoint flist (m : bytes) (f : N) (l : list N) : Prop :=
    match l with
    | [] => f = 0
    | a :: t => f = a /\ flist m (load m a 8) t
    end.

  Lemma flist_frame : forall m m' l f, (forall a, In a l -> load m' a 8 = load m a 8) -> flist m f l -> flist m' f l.
  Proof.
    induction l as [|a t IH]; intros f H F; [exact F|]. destruct F as (-> & F). split; [auto|].
    rewrite H by (left; auto). apply IH; [|auto]. intros; apply H; right; auto.
  Qed.

  Definition fields (p : pool) : Prop := begin_ p = b /\ bytes_ p = len /\ blk p = bk.

  Definition linv (p : pool) (l rest : list N) : Prop :=
    fields p /\ flist (mem p) (first p) l /\ Permutation (l ++ rest) nodes.

  Lemma linv_in : forall p l rest x, linv p l rest -> In x (l ++ rest) -> In x nodes.
  Proof. intros p l rest x (_ & _ & P) H. eapply Permutation_in; eauto. Qed.

  Lemma linv_nodup : forall p l rest, linv p l rest -> NoDup (l ++ rest).
  Proof. intros p l rest (_ & _ & P). eapply Permutation_NoDup; [apply Permutation_sym; exact P|apply nodes_nodup]. Qed.

  Lemma inside_node : forall p a, fields p -> In a nodes -> inside p a = true.
  Proof.
    intros p a (B & L & K) H. apply nodes_in in H. unfold inside. rewrite B, L.
    destruct (N.leb_spec b a); [|lia]. destruct (N.leb_spec (a + 8) (b + len)); [reflexivity|lia].
  Qed.

  Lemma rd_node : forall p a, fields p -> In a nodes -> rd p a = Ok (load (mem p) a 8).
  Proof. intros. unfold rd. rewrite inside_node by auto. reflexivity. Qed.

  Lemma wr_node : forall p a v, fields p -> In a nodes ->
    wr p a v = Ok (mkp b len bk (first p) (store (mem p) a 8 v)).
  Proof. intros p a v F H. unfold wr. rewrite inside_node by auto. destruct F as (-> & -> & ->). reflexivity. Qed.

  Lemma store_same : forall m a v, In a nodes -> v < 2 ^ 64 -> load (store m a 8 v) a 8 = v.
  Proof.
    intros m a v H Hv. apply nodes_in in H. apply load_store; [lia|]. change (256 ^ N.of_nat 8) with (2 ^ 64). auto.
  Qed.

  Lemma store_diff : forall m a c v, In a nodes -> In c nodes -> a <> c -> load (store m a 8 v) c 8 = load m c 8.
  Proof.
    intros m a c v Ha Hc Hne. pose proof (nodes_apart _ _ Ha Hc Hne) as D. apply nodes_in in Ha, Hc.
    apply load_ext; [lia|]. intros x Hx. apply store_other; lia.
  Qed.

  Lemma upd_diff : forall m a c x v, In a nodes -> In c nodes -> a <> c -> a <= x < a + bk ->
    load (upd m x v) c 8 = load m c 8.
  Proof.
    intros m a c x v Ha Hc Hne Hx. pose proof (nodes_apart _ _ Ha Hc Hne) as D. apply nodes_in in Ha, Hc.
    apply load_ext; [lia|]. intros y Hy. unfold upd. destruct (N.eqb_spec y x); [lia|auto].
  Qed.

  (* ---------- initialize ---------- *)
  Lemma mul_small : forall i, (i <= cnt)%nat -> wmul 64 (N.of_nat i) bk = N.of_nat i * bk.
  Proof.
    intros i Hi. unfold wmul. apply wrap_small. pose proof cnt_fit.
    assert (N.of_nat i * bk <= N.of_nat cnt * bk) by (apply N.mul_le_mono_r; lia). lia.
  Qed.

  Lemma node_addr : forall i, (i < cnt)%nat -> wadd 64 b (wmul 64 (N.of_nat i) bk) = node i.
  Proof.
    intros i Hi. rewrite mul_small by lia. unfold wadd. pose proof (node_lt i Hi) as H. unfold node in *.
    apply wrap_small. lia.
  Qed.

  Lemma node_in : forall i, (i < cnt)%nat -> In (node i) nodes.
  Proof. intros. unfold nodes. apply in_map. apply in_seq. lia. Qed.

  Lemma node_inj : forall i j, node i = node j -> i = j.
  Proof. intros i j E. destruct (Nat.lt_trichotomy i j) as [H | [H | H]]; auto; apply node_apart in H; lia. Qed.

  Lemma last_index : wsub 64 (len / bk) 1 = N.of_nat (cnt - 1).
  Proof.
    pose proof cnt_pos as Cp. assert (Cn : len / bk = N.of_nat cnt) by (unfold cnt; rewrite N2Nat.id; auto).
    rewrite Cn, wsub_ge by lia. lia.
  Qed.

  Lemma link_loop_ok : forall k fuel p i, (cnt - 1 - i)%nat = k -> (i <= cnt - 1)%nat -> fields p ->
    (link_loop fuel p (len / bk) (N.of_nat i) = OutOfFuel /\ (fuel < k)%nat) \/
    exists p', link_loop fuel p (len / bk) (N.of_nat i) = Ok p' /\ fields p' /\
      (forall j, (j < i)%nat -> load (mem p') (node j) 8 = load (mem p) (node j) 8) /\
      (forall j, (i <= j)%nat -> (j < cnt - 1)%nat -> load (mem p') (node j) 8 = node (j + 1)).
  Proof.
    pose proof cnt_pos as Cp.
    assert (Cn : len / bk = N.of_nat cnt) by (unfold cnt; rewrite N2Nat.id; auto).
    pose proof last_index as C1.
    induction k; intros fuel p i Hki Hi F.
    - right. exists p. assert (i = (cnt - 1)%nat) by lia. subst i.
      split.
      + destruct fuel; cbn [link_loop]; rewrite C1, N.ltb_irrefl; reflexivity.
      + split; [auto|]. split; [auto|]. intros; lia.
    - assert (Hlt : (N.of_nat i <? N.of_nat (cnt - 1)) = true) by (apply N.ltb_lt; lia).
      destruct fuel; cbn [link_loop]; rewrite C1, Hlt; [left; split; [auto|lia]|].
      destruct F as (B & L & K). rewrite B, K. rewrite node_addr by lia.
      assert (E1 : wadd 32 (N.of_nat i) 1 = N.of_nat (i + 1)).
      { unfold wadd. rewrite wrap_small; [lia|]. lia. }
      rewrite E1. rewrite node_addr by lia.
      rewrite wr_node by (try apply node_in; try lia; repeat split; auto). cbn [bind].
      destruct (IHk fuel (mkp b len bk (first p) (store (mem p) (node i) 8 (node (i + 1)))) (i + 1)%nat) as [(E & Hf) | (p' & E & F' & L1 & L2)];
        [lia|lia|repeat split| |].
      + left. split; [exact E|lia].
      + right. exists p'. split; [exact E|]. split; [auto|]. cbn [mem] in *. split.
        * intros j Hj. rewrite L1 by lia. apply store_diff; try (apply node_in; lia).
          intro E'. apply node_inj in E'. lia.
        * intros j Hj1 Hj2. destruct (Nat.eq_dec j i) as [->|Hne]; [|apply L2; lia].
          rewrite L1 by lia. apply store_same; [apply node_in; lia|].
          pose proof (node_lt (i + 1) ltac:(lia)). lia.
  Qed.

  Lemma flist_nodes : forall m k i, (i + k = cnt)%nat ->
    (forall j, (i <= j)%nat -> (j < cnt - 1)%nat -> load m (node j) 8 = node (j + 1)) ->
    load m (node (cnt - 1)) 8 = 0 ->
    flist m (if (0 <? k)%nat then node i else 0) (map node (seq i k)).
  Proof.
    induction k; intros i E H H0; [reflexivity|].
    cbn [seq map flist Nat.ltb Nat.leb]. split; [reflexivity|].
    assert (En : load m (node i) 8 = if (0 <? k)%nat then node (1 + i) else 0).
    { destruct k; [cbn; replace i with (cnt - 1)%nat by lia; auto|].
      cbn [Nat.ltb Nat.leb]. rewrite H by lia. f_equal. lia. }
    rewrite En. change (1 + i)%nat with (Datatypes.S i) in *. apply IHk; [lia| |auto]. intros; apply H; lia.
  Qed.

  Lemma initialize_inv : forall fuel m p, initialize fuel b len bk m = Ok p -> linv p nodes [].
  Proof.
    intros fuel m p H. unfold initialize in H.
    destruct (N.leb_spec 8 bk); [|lia]. destruct (N.leb_spec bk len); [|lia]. cbn [contract bind] in H.
    pose proof cnt_pos as Cp.
    destruct (link_loop_ok _ fuel (mkp b len bk 0 m) 0%nat eq_refl ltac:(lia) ltac:(repeat split)) as [(E & Hf) | (p' & E & F & _ & L2)].
    - change (N.of_nat 0) with 0 in E. rewrite E in H. discriminate.
    - change (N.of_nat 0) with 0 in E. rewrite E in H. cbn [bind] in H.
      rewrite last_index, node_addr, wr_node in H by (try apply node_in; auto; lia). cbn [bind] in H.
      match type of H with Ok ?x = _ => assert (p = x) by congruence end. subst p.
      unfold linv, set_first. cbn [mem first begin_ bytes_ blk]. split; [repeat split|]. rewrite app_nil_r. split; [|auto].
      pose proof (flist_nodes (store (mem p') (node (cnt - 1)) 8 0) cnt 0%nat) as FL.
      destruct (Nat.ltb_spec 0 cnt); [|lia]. replace (node 0) with b in FL by (unfold node; cbn; lia). apply FL; [lia| |].
      + intros j _ Hj. rewrite store_diff; try (apply node_in; lia); [apply L2; lia|].
        intro E'. apply node_inj in E'. lia.
      + apply store_same; [apply node_in; lia|lia].
  Qed.

  Lemma initialize_ok : forall fuel m, (cnt <= fuel)%nat -> exists p, initialize fuel b len bk m = Ok p.
  Proof.
    intros fuel m Hf. unfold initialize. pose proof cnt_pos as Cp.
    destruct (N.leb_spec 8 bk); [|lia]. destruct (N.leb_spec bk len); [|lia]. cbn [contract bind].
    destruct (link_loop_ok _ fuel (mkp b len bk 0 m) 0%nat eq_refl ltac:(lia) ltac:(repeat split)) as [(E & Hf') | (p' & E & F & _ & L2)].
    - lia.
    - change (N.of_nat 0) with 0 in E. rewrite E. cbn [bind].
      rewrite last_index, node_addr, wr_node by (try apply node_in; auto; lia). cbn [bind]. eauto.
  Qed.
  (* ---------- moving blocks between the free list and the clients ---------- *)
  Lemma linv_perm : forall p l r r', linv p l r -> Permutation r r' -> linv p l r'.
  Proof.
    intros p l r r' (F & L & P) H. split; [auto|]. split; [auto|].
    rewrite <- P. apply Permutation_app_head. apply Permutation_sym; auto.
  Qed.

  Lemma linv_pop : forall p a t r, linv p (a :: t) r -> linv (set_first p (load (mem p) a 8)) t (a :: r).
  Proof.
    intros p a t r (F & (L1 & L2) & P). split; [exact F|]. split; [exact L2|].
    rewrite <- P. apply Permutation_sym. apply Permutation_middle.
  Qed.

  Lemma linv_push : forall p l q r, linv p l (q :: r) -> load (mem p) q 8 = first p -> linv (set_first p q) (q :: l) r.
  Proof.
    intros p l q r (F & L & P) H. split; [exact F|]. split.
    - split; [reflexivity|]. cbn [mem set_first]. rewrite H. exact L.
    - rewrite <- P. apply Permutation_middle.
  Qed.

  Lemma linv_not_in : forall p l r x, linv p l r -> In x r -> ~ In x l.
  Proof.
    intros p l r x I Hr Hl. apply linv_nodup in I. revert I Hl. clear - Hr.
    induction l as [|a t IH]; [intros _ []|]. intros N [E | Hl]; inversion N; subst; [|auto].
    apply H1. apply in_or_app. auto.
  Qed.

  Lemma linv_store : forall p l r q v, linv p l r -> In q r ->
    linv (mkp b len bk (first p) (store (mem p) q 8 v)) l r.
  Proof.
    intros p l r q v I Hq. pose proof I as (F & L & P). split; [repeat split|]. split; [|auto].
    cbn [mem first]. eapply flist_frame; [|exact L]. intros a Ha.
    assert (In a nodes) by (eapply linv_in; [exact I|apply in_or_app; auto]).
    assert (In q nodes) by (eapply linv_in; [exact I|apply in_or_app; auto]).
    apply store_diff; auto. intros ->. eapply linv_not_in; eauto.
  Qed.

  Lemma linv_write : forall p l r q x v, linv p l r -> In q r -> q <= x < q + bk ->
    linv (mkp (begin_ p) (bytes_ p) (blk p) (first p) (upd (mem p) x v)) l r.
  Proof.
    intros p l r q x v I Hq Hx. pose proof I as (F & L & P). split; [exact F|]. split; [|auto].
    cbn [mem first]. eapply flist_frame; [|exact L]. intros a Ha.
    assert (In a nodes) by (eapply linv_in; [exact I|apply in_or_app; auto]).
    assert (In q nodes) by (eapply linv_in; [exact I|apply in_or_app; auto]).
    apply (upd_diff (mem p) q a x v); auto. intros ->. eapply linv_not_in; eauto.
  Qed.

  Lemma first_lt : forall p l r, linv p l r -> first p < 2 ^ 64.
  Proof.
    intros p [|a t] r I; pose proof I as (_ & L & _); cbn in L; [rewrite L; lia|]. destruct L as (-> & _).
    assert (In a nodes) as H by (eapply linv_in; [exact I|left; auto]). apply nodes_in in H. lia.
  Qed.

  Lemma first_nz : forall p a t r, linv p (a :: t) r -> first p = a /\ a <> 0 /\ In a nodes.
  Proof.
    intros p a t r I. pose proof I as (_ & (L & _) & _).
    assert (In a nodes) as H by (eapply linv_in; [exact I|left; auto]). split; [auto|]. split; [|auto].
    apply nodes_in in H. lia.
  Qed.

  Lemma linv_count : forall p l r, linv p l r -> (length l + length r = cnt)%nat.
  Proof. intros p l r (_ & _ & P). apply Permutation_length in P. rewrite app_length, nodes_length in P. auto. Qed.

  (* ---------- one thread ---------- *)
  Lemma alloc_full : forall p own s al, linv p [] own -> Seq.alloc p s al = Contract.
  Proof. intros p own s al (_ & L & _). cbn in L. unfold Seq.alloc, is_full. rewrite L. reflexivity. Qed.

  Lemma alloc_exact : forall p a t own s al, linv p (a :: t) own ->
    Seq.alloc p s al = if s <=? bk then if is_aligned a al then Ok (set_first p (load (mem p) a 8), a) else Contract else Contract.
  Proof.
    intros p a t own s al I. destruct (first_nz _ _ _ _ I) as (E & Hz & Hn'). pose proof I as (F & _ & _).
    unfold Seq.alloc, is_full. rewrite E. destruct (N.eqb_spec a 0); [lia|]. cbn [negb contract bind].
    pose proof F as (_ & _ & K). rewrite K. destruct (s <=? bk); [|reflexivity]. cbn [contract bind].
    rewrite rd_node by auto. cbn [bind]. destruct (is_aligned a al); reflexivity.
  Qed.

  Lemma check_node : forall p q, fields p -> In q nodes -> check_ptr p q = Ok tt.
  Proof.
    intros p q (B & L & K) H. apply in_map_iff in H. destruct H as (i & <- & Hi). apply in_seq in Hi.
    pose proof (node_lt i ltac:(lia)). unfold check_ptr. rewrite B, L, K.
    destruct (N.leb_spec b (node i)); [|lia]. destruct (N.leb_spec (node i - b) len); [|lia]. cbn [andb contract bind].
    replace (node i - b) with (N.of_nat i * bk) by (unfold node; lia). rewrite N.mod_mul by lia. reflexivity.
  Qed.

  Lemma free_exact : forall p l q own, linv p l own -> In q own ->
    Seq.free p q = Ok (mkp b len bk q (store (mem p) q 8 (first p))).
  Proof.
    intros p l q own I H. assert (Hq : In q nodes) by (eapply linv_in; [exact I|apply in_or_app; auto]).
    pose proof I as (F & _ & _). unfold Seq.free. pose proof (nodes_in _ Hq).
    destruct (N.eqb_spec q 0); [lia|]. rewrite check_node by auto. cbn [bind]. rewrite wr_node by auto. reflexivity.
  Qed.

  Lemma hist_inv : forall p own, hist b len bk p own -> exists l, linv p l own.
  Proof.
    induction 1 as [fuel m p H | p own s a p' q H IH E | p o1 q o2 p' H IH E | p own p' H IH E | p own q x v H IH Hq Hx Hv].
    - exists nodes. eapply initialize_inv; eauto.
    - destruct IH as ([|c t] & I); [rewrite (alloc_full _ _ _ _ I) in E; discriminate|].
      rewrite (alloc_exact _ _ _ _ _ _ I) in E. destruct (s <=? bk); [|discriminate].
      destruct (is_aligned c a); [|discriminate].
      assert (q = c) by congruence. assert (p' = set_first p (load (mem p) c 8)) by congruence. subst.
      exists t. apply linv_pop. auto.
    - destruct IH as (l & I).
      assert (Hin : In q (o1 ++ q :: o2)) by (apply in_or_app; right; left; auto).
      rewrite (free_exact _ _ _ _ I Hin) in E.
      match type of E with Ok ?x = _ => assert (p' = x) by congruence end. subst p'. exists (q :: l).
      pose proof (first_lt _ _ _ I) as Hf.
      assert (Hn' : In q nodes) by (eapply linv_in; [exact I|apply in_or_app; auto]).
      apply (linv_push (mkp b len bk (first p) (store (mem p) q 8 (first p)))).
      + eapply linv_perm; [apply linv_store; eauto|]. apply Permutation_sym. apply Permutation_middle.
      + cbn [mem first]. apply store_same; auto.
    - unfold Seq.free in E. cbn in E. assert (p' = p) by congruence. subst. auto.
    - destruct IH as (l & I). exists l. eapply linv_write; eauto.
  Qed.

  (* ---------- many threads ---------- *)
  Definition fnode (c : Con.pc) : list N :=
    match c with Con.FLoad n | Con.FNext n _ | Con.FCas n _ => [n] | _ => [] end.

  Section C.
    Variables one roomy : bool.

    Definition pc_ok (m : bytes) (l : list N) (c : Con.pc) : Prop :=
      match c with
      | Con.Idle => True
      | Con.ALoad _ => one = true -> l <> []
      | Con.ANext _ a => (one = true -> In a l) /\ (roomy = true -> a <> 0) /\ (a = 0 \/ In a nodes)
      | Con.ACas _ a nx => In a nodes /\ (one = true -> In a l) /\ (In a l -> load m a 8 = nx)
      | Con.FLoad _ => True
      | Con.FNext _ e => e < 2 ^ 64
      | Con.FCas n e => load m n 8 = e
      end.

    Definition cinv (st : Con.state) (own : list N) : Prop :=
      exists l, linv (Con.sh st) l (own ++ flat_map fnode (Con.thr st)) /\
        Forall (pc_ok (mem (Con.sh st)) l) (Con.thr st) /\
        (one = true -> (count allocating (Con.thr st) <= 1)%nat) /\
        (one = false -> count allocating (Con.thr st) = 0%nat \/ count freeing (Con.thr st) = 0%nat) /\
        (roomy = true -> (count allocating (Con.thr st) <= length l)%nat).

    Lemma none_count : forall f l, none f l <-> count f l = 0%nat.
    Proof.
      intros f l. unfold none, count. induction l as [|c t IH]; cbn; [split; auto; constructor|].
      destruct (f c) eqn:E; cbn; split; intro H.
      - inversion H; congruence.
      - discriminate.
      - inversion H; subst. apply IH. auto.
      - constructor; [auto|]. apply IH. auto.
    Qed.

    Lemma count_mid : forall f t1 c t2, count f (t1 ++ c :: t2) = (count f t1 + (if f c then 1 else 0) + count f t2)%nat.
    Proof. intros. unfold count. rewrite filter_app, app_length. cbn. destruct (f c); cbn; lia. Qed.

    Lemma thr_split : forall (l : list Con.pc) k c, nth_error l k = Some c ->
      exists t1 t2, l = t1 ++ c :: t2 /\ forall c', lset l k c' = t1 ++ c' :: t2.
    Proof.
      induction l as [|h t IH]; intros [|k] c H; cbn in *; try discriminate.
      - injection H as ->. exists [], t. auto.
      - destruct (IH k c H) as (t1 & t2 & -> & H2). exists (h :: t1), t2. cbn. split; [auto|]. intros. rewrite H2. auto.
    Qed.

    Lemma flat_mid : forall t1 c t2, flat_map fnode (t1 ++ c :: t2) = flat_map fnode t1 ++ fnode c ++ flat_map fnode t2.
    Proof. intros. rewrite flat_map_app. cbn. auto. Qed.

    Lemma Forall_mid : forall (P : Con.pc -> Prop) t1 c t2, Forall P (t1 ++ c :: t2) <-> Forall P t1 /\ P c /\ Forall P t2.
    Proof. intros. rewrite Forall_app, Forall_cons_iff. tauto. Qed.

    Lemma fnode_in : forall t c n, In c t -> In n (fnode c) -> In n (flat_map fnode t).
    Proof. intros. apply in_flat_map. eauto. Qed.

    (* changing a block that is neither free nor watched by the calls in t *)
    Lemma pc_ok_frame : forall m m' l t, (forall a, In a l \/ In a (flat_map fnode t) -> load m' a 8 = load m a 8) ->
      Forall (pc_ok m l) t -> Forall (pc_ok m' l) t.
    Proof.
      intros m m' l t H F. rewrite Forall_forall in *. intros c Hc. specialize (F c Hc).
      destruct c; cbn [pc_ok] in *; auto.
      - destruct F as (F1 & F2 & F3). split; [auto|]. split; [auto|]. intro Hi. rewrite H by auto. auto.
      - rewrite H; [auto|]. right. eapply fnode_in; [exact Hc|]. cbn. auto.
    Qed.

    (* calls that are not allocating do not look at the free list *)
    Lemma pc_ok_other : forall m l l' t, count allocating t = 0%nat -> Forall (pc_ok m l) t -> Forall (pc_ok m l') t.
    Proof.
      intros m l l' t H F. apply none_count in H. unfold none in H. rewrite Forall_forall in *. intros c Hc.
      specialize (F c Hc). specialize (H c Hc). destruct c; cbn in *; auto; discriminate.
    Qed.
  
    Ltac mids := rewrite ?flat_mid, ?count_mid, ?Forall_mid in *; cbn [fnode allocating freeing app] in *.

    Lemma cinv_init : forall fuel m p, initialize fuel b len bk m = Ok p -> cinv (Con.mks p []) [].
    Proof.
      intros fuel m p H. exists nodes. cbn. split; [eapply initialize_inv; eauto|].
      split; [constructor|]. split; [lia|]. split; [auto|]. intros. apply Nat.le_0_l.
    Qed.

    Lemma cinv_step : forall st own k sp st' r, cinv st own -> Con.step st k sp = Ok (st', r) ->
      cinv st' (match r with Some q => q :: own | None => own end).
    Proof.
      intros [p thr] own k sp st' r (l & I & F & C1 & C2 & C3) H. cbn [Con.sh Con.thr] in *.
      unfold Con.step in H. cbn [Con.sh Con.thr] in H. unfold aget in H.
      destruct (nth_error thr k) as [c|] eqn:Hk'; [|discriminate]. cbn [bind] in H.
      destruct (thr_split _ _ _ Hk') as (t1 & t2 & -> & Hset).
      pose proof I as (Fi & Fl & Pe).
      destruct c as [|al|al a|al a nx|n|n e|n e]; [discriminate| | | | | |].
      - (* ALoad *)
        assert (r = None) by congruence. subst r.
        match type of H with Ok (?x, _) = _ => assert (st' = x) by congruence end. subst st'. clear H.
        exists l. cbn [Con.sh Con.thr]. rewrite ?Hset; mids. split; [auto|]. split; [|split; [auto|split; auto]].
        split; [tauto|]. split; [|tauto]. cbn [pc_ok]. destruct F as (_ & F & _). cbn [pc_ok] in F.
        destruct l as [|c t].
        + cbn in Fl. split; [intro X; exfalso; exact (F X eq_refl)|]. split; [|auto].
          intro X. specialize (C3 X). cbn in C3. lia.
        + destruct (first_nz _ _ _ _ I) as (E & Ez & En). rewrite E. split; [intros; left; auto|]. split; auto.
      - (* ANext *)
        apply Forall_mid in F. destruct F as (F1 & (Fa1 & Fa2 & Fa3) & F2).
        destruct Fa3 as [-> | Hn'].
        { unfold rd, inside in H. destruct Fi as (B & _). rewrite B in H. destruct (N.leb_spec b 0); [lia|]. discriminate. }
        rewrite rd_node in H by auto. cbn [bind] in H.
        assert (r = None) by congruence. subst r.
        match type of H with Ok (?x, _) = _ => assert (st' = x) by congruence end. subst st'. clear H.
        exists l. cbn [Con.sh Con.thr]. rewrite ?Hset; mids. split; [auto|]. split; [|split; [auto|split; auto]].
        split; [auto|]. split; [|auto]. cbn [pc_ok]. auto.
      - (* ACas *)
        apply Forall_mid in F. destruct F as (F1 & (Fa1 & Fa2 & Fa3) & F2).
        destruct (N.eqb_spec (first p) a) as [E|]; [destruct sp|]; cbn [andb negb] in H.
        2:{ destruct (is_aligned a al); [|discriminate]. cbn [contract bind] in H.
          assert (r = Some a) by congruence. subst r.
          match type of H with Ok (?x, _) = _ => assert (st' = x) by congruence end. subst st'. clear H.
          destruct l as [|c t]; [cbn in Fl; apply nodes_in in Fa1; lia|].
          destruct (first_nz _ _ _ _ I) as (E' & _ & _). assert (c = a) by congruence. clear E'. subst c.
          specialize (Fa3 ltac:(left; auto)).
          exists t. cbn [Con.sh Con.thr]. rewrite ?Hset; mids. split; [rewrite <- Fa3; apply linv_pop in I; exact I|].
          cbn [mem set_first]. split; [|split; [intro X; specialize (C1 X); lia|split; [intro X; specialize (C2 X); lia|]]].
          - destruct one eqn:Ho.
            + specialize (C1 eq_refl). split; [eapply pc_ok_other; [|exact F1]; lia|]. split; [exact Logic.I|].
              eapply pc_ok_other; [|exact F2]; lia.
            + assert (W : forall t', Forall (pc_ok (mem p) (a :: t)) t' -> Forall (pc_ok (mem p) t) t').
              { intros t' W. rewrite Forall_forall in *. intros c Hc. specialize (W c Hc).
                destruct c; cbn [pc_ok] in *; auto; try (intros; congruence).
                - destruct W as (W1 & W2 & W3). split; [intros; congruence|auto].
                - destruct W as (W1 & W2 & W3). split; [auto|]. split; [intros; congruence|].
                  intros; apply W3; right; auto. }
              split; [auto|]. split; [exact Logic.I|auto].
          - intro X. specialize (C3 X). cbn in C3. lia. }
        all: assert (r = None) by congruence; subst r;
          match type of H with Ok (?x, _) = _ => assert (st' = x) by congruence end; subst st'; clear H;
          exists l; cbn [Con.sh Con.thr]; rewrite ?Hset; mids; split; [auto|]; split; [|split; [auto|split; auto]];
          split; [auto|]; split; [|auto]; cbn [pc_ok]; intros X Y; specialize (Fa2 X); rewrite Y in Fa2; destruct Fa2.
      - (* FLoad *)
        assert (r = None) by congruence. subst r.
        match type of H with Ok (?x, _) = _ => assert (st' = x) by congruence end. subst st'. clear H.
        exists l. cbn [Con.sh Con.thr]. rewrite ?Hset; mids. split; [auto|]. split; [|split; [auto|split; auto]].
        split; [tauto|]. split; [|tauto]. cbn [pc_ok]. eapply first_lt; eauto.
      - (* FNext *)
        apply Forall_mid in F. destruct F as (F1 & Fe & F2). cbn [pc_ok] in Fe.
        rewrite flat_mid in I. cbn [fnode] in I.
        assert (Hr : In n (own ++ flat_map fnode t1 ++ [n] ++ flat_map fnode t2)).
        { apply in_or_app. right. apply in_or_app. right. left. auto. }
        assert (Hn' : In n nodes) by (eapply linv_in; [exact I|apply in_or_app; auto]).
        rewrite wr_node in H by auto. cbn [bind] in H.
        assert (r = None) by congruence. subst r.
        match type of H with Ok (?x, _) = _ => assert (st' = x) by congruence end. subst st'. clear H.
        exists l. cbn [Con.sh Con.thr]. rewrite ?Hset; mids. split; [apply linv_store; auto|].
        cbn [mem]. split; [|split; [auto|split; auto]].
        assert (D : forall a, In a l \/ In a (flat_map fnode t1) \/ In a (flat_map fnode t2) ->
                    load (store (mem p) n 8 e) a 8 = load (mem p) a 8).
        { intros a Ha.
          assert (In a nodes).
          { eapply linv_in; [exact I|]. rewrite !in_app_iff. cbn. tauto. }
          apply store_diff; auto. intros <-. pose proof (linv_nodup _ _ _ I) as ND.
          replace (l ++ own ++ flat_map fnode t1 ++ n :: flat_map fnode t2)
            with ((l ++ own ++ flat_map fnode t1) ++ n :: flat_map fnode t2) in ND by (rewrite <- !app_assoc; auto).
          apply NoDup_remove_2 in ND. apply ND. rewrite !in_app_iff. tauto. }
        split; [eapply pc_ok_frame; [|exact F1]; intros; apply D; tauto|].
        split; [cbn [pc_ok]; apply store_same; auto|].
        eapply pc_ok_frame; [|exact F2]; intros; apply D; tauto.
      - (* FCas *)
        apply Forall_mid in F. destruct F as (F1 & Fe & F2). cbn [pc_ok] in Fe.
        destruct (N.eqb_spec (first p) e) as [E|]; [destruct sp|]; cbn [andb negb] in H.
        2:{ assert (r = None) by congruence. subst r.
          match type of H with Ok (?x, _) = _ => assert (st' = x) by congruence end. subst st'. clear H.
          rewrite flat_mid in I. cbn [fnode] in I.
          assert (I' : linv p l (n :: own ++ flat_map fnode t1 ++ flat_map fnode t2)).
          { eapply linv_perm; [exact I|]. cbn [app]. rewrite !app_assoc. apply Permutation_sym. apply Permutation_middle. }
          exists (n :: l). cbn [Con.sh Con.thr]. rewrite ?Hset; mids. split; [apply linv_push; [exact I'|congruence]|].
          cbn [mem set_first]. split; [|split; [intro X; specialize (C1 X); lia|split; [intro X; specialize (C2 X); lia|]]].
          - destruct one eqn:Ho.
            + assert (W : forall t', Forall (pc_ok (mem p) l) t' -> Forall (pc_ok (mem p) (n :: l)) t').
              { intros t' W. rewrite Forall_forall in *. intros c Hc. specialize (W c Hc).
                destruct c; cbn [pc_ok] in *; auto; try (intros; congruence).
                - destruct W as (W1 & W2 & W3). split; [intros; right; auto|auto].
                - destruct W as (W1 & W2 & W3). split; [auto|]. split; [intros; right; auto|]. auto. }
              split; [auto|]. split; [exact Logic.I|auto].
            + specialize (C2 eq_refl). assert (count allocating t1 = 0 /\ count allocating t2 = 0)%nat as (Z1 & Z2) by lia.
              split; [eapply pc_ok_other; [|exact F1]; lia|]. split; [exact Logic.I|]. eapply pc_ok_other; [|exact F2]; lia.
          - intro X. specialize (C3 X). cbn [length]. lia. }
        all: assert (r = None) by congruence; subst r;
          match type of H with Ok (?x, _) = _ => assert (st' = x) by congruence end; subst st'; clear H;
          exists l; cbn [Con.sh Con.thr]; rewrite ?Hset; mids; split; [auto|]; split; [|split; [auto|split; auto]];
          split; [auto|]; split; [|auto]; exact Logic.I.
    Qed.

    Lemma exec_cinv : forall st own, exec b len bk one roomy st own -> cinv st own.
    Proof.
      induction 1 as [fuel m p H | st own s a st' H IH N R E | st o1 q o2 st' H IH N E | st own k sp st' H IH E
        | st own k sp st' q H IH E | st own q x v H IH Hq Hx Hv].
      - eapply cinv_init; eauto.
      - destruct IH as (l & I & F & C1 & C2 & C3). unfold Con.start_alloc in E.
        destruct (is_full (Con.sh st)) eqn:Full; [discriminate|]. cbn [negb contract bind] in E.
        destruct (s <=? blk (Con.sh st)); [|discriminate]. cbn [contract bind] in E.
        match type of E with Ok ?x = _ => assert (st' = x) by congruence end. subst st'. clear E.
        exists l. cbn [Con.sh Con.thr flat_map fnode app]. split; [auto|]. split; [constructor; [|auto]|].
        + cbn [pc_ok]. intros _ ->. destruct I as (_ & L & _). cbn in L. unfold is_full in Full. rewrite L in Full. discriminate.
        + unfold count in *. cbn [filter allocating freeing length]. apply none_count in N. unfold count in N.
          split; [destruct one; [|discriminate]; intros; rewrite N; auto|].
          split; [destruct one; [discriminate|]; auto|].
          intro X. specialize (R X). pose proof (linv_count _ _ _ I) as LC. rewrite app_length in LC.
          assert (FL : length (flat_map fnode (Con.thr st)) = length (filter freeing (Con.thr st))).
          { generalize (Con.thr st). clear. induction l as [|c t IH]; [auto|]. cbn. rewrite app_length, IH. destruct c; auto. }
          unfold cnt in LC. lia.
      - destruct IH as (l & I & F & C1 & C2 & C3). unfold Con.start_free in E.
        destruct (check_ptr (Con.sh st) q); cbn [bind] in E; try discriminate.
        match type of E with Ok ?x = _ => assert (st' = x) by congruence end. subst st'. clear E.
        exists l. cbn [Con.sh Con.thr flat_map fnode app]. split; [|split; [constructor; [exact Logic.I|auto]|]].
        + eapply linv_perm; [exact I|]. rewrite <- !app_assoc. apply Permutation_app_head. cbn. apply Permutation_middle.
        + unfold count in *. cbn [filter allocating freeing length]. split; [auto|]. split; [|auto].
          intro X. left. specialize (N X). apply none_count in N. auto.
      - exact (cinv_step _ _ _ _ _ _ IH E).
      - exact (cinv_step _ _ _ _ _ _ IH E).
      - destruct IH as (l & I & F & C1 & C2 & C3). exists l. cbn [Con.sh Con.thr mem].
        assert (Hr : In q (own ++ flat_map fnode (Con.thr st))) by (apply in_or_app; auto).
        split; [eapply linv_write; eauto|]. split; [|auto].
        eapply pc_ok_frame; [|exact F]. intros c Hc.
        assert (In c nodes) by (eapply linv_in; [exact I|]; rewrite !in_app_iff; tauto).
        assert (In q nodes) by (eapply linv_in; [exact I|apply in_or_app; auto]).
        apply (upd_diff _ q c x v); auto. intros <-.
        pose proof (linv_nodup _ _ _ I) as ND. destruct Hc as [Hc | Hc].
        + eapply linv_not_in; eauto.
        + apply in_split in Hq. destruct Hq as (o1 & o2 & ->).
          replace (l ++ (o1 ++ q :: o2) ++ flat_map fnode (Con.thr st))
            with ((l ++ o1) ++ q :: (o2 ++ flat_map fnode (Con.thr st))) in ND by (rewrite <- !app_assoc; auto).
          apply NoDup_remove_2 in ND. apply ND. rewrite !in_app_iff. tauto.
    Qed.
  End C.
End P.

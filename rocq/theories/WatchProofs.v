(* Proofs about filewatches. *)
From Coq Require Import Ascii Arith List Bool Lia Permutation.
From Verif Require Import Base OwnHeap WatchModel WatchSpec.
Import ListNotations.

Lemma put_lset : forall T (l : list T) i x, put l i x = lset l i x.
Proof. induction l; intros [|i] x; cbn; auto. f_equal. auto. Qed.
Lemma sget_nth : forall T (l : list (option T)) k x, sget l k = Some x -> nth_error l k = Some (Some x).
Proof. intros T l k x H. unfold sget in H. destruct (nth_error l k) as [[y|]|]; congruence. Qed.
Lemma teqb_spec : forall a b, teqb a b = true <-> a = b.
Proof. intros a b. unfold teqb. destruct (list_eq_dec ascii_dec a b); split; congruence. Qed.
Lemma teqb_refl : forall a, teqb a a = true.
Proof. intros. apply teqb_spec. reflexivity. Qed.

(* ---- paths ---- *)
Lemma pivot_ok : forall p d n, pivot p = (d, n) -> p = d ++ n /\ ~ In slash n /\ (d = [] \/ exists q, d = q ++ [slash]).
Proof.
  induction p as [|c p IH]; intros d n E; cbn in E.
  - injection E as <- <-. split; [reflexivity|]. split; [intros []|auto].
  - destruct (pivot p) as [d' n'] eqn:P. destruct (IH _ _ eq_refl) as (-> & N & [->|(q & ->)]).
    + destruct (Ascii.eqb_spec c slash) as [->|C]; injection E as <- <-.
      * split; [reflexivity|]. split; [exact N|]. right. exists []. reflexivity.
      * split; [reflexivity|]. split; [intros [X|X]; [congruence|contradiction]|auto].
    + destruct (q ++ [slash]) eqn:Q; [destruct q; discriminate|]. injection E as <- <-. rewrite <- Q. split; [reflexivity|]. split; [exact N|]. right. exists (c :: q). reflexivity.
Qed.
Lemma location_ok : forall p dir name, location p = (dir, name) -> denotes p dir name.
Proof.
  intros p dir name E. unfold location in E. destruct (pivot p) as [d n] eqn:P. destruct (pivot_ok _ _ _ P) as (Ep & N & C). exists d.
  destruct C as [->|(q & ->)].
  - injection E as <- <-. auto.
  - destruct (q ++ [slash]) eqn:Q; [destruct q; discriminate|]. rewrite <- Q in *. injection E as <- <-. split; [exact Ep|]. split; [exact N|]. right. eauto.
Qed.
Lemma location_plain : forall name, plain name = true -> snd (location name) = name.
Proof.
  intros name H. assert (~ In slash name) as N.
  { unfold plain in H. destruct name as [|c r]; [discriminate|]. intros I. rewrite forallb_forall in H. specialize (H _ I). discriminate. }
  unfold location. destruct (pivot name) as [d n] eqn:P. destruct (pivot_ok _ _ _ P) as (E & _ & [->|(q & ->)]).
  - cbn. auto.
  - exfalso. apply N. rewrite E. rewrite in_app_iff. left. rewrite in_app_iff. right. left. reflexivity.
Qed.

Section P.
  Context {D : Type} (deqb : D -> D -> bool) (resolve : text -> option D).

  Record entry := mke { epath : text; edir : D; ename : text; eflag : nat }.
  Definition entries (ms : list (monitor D)) : list entry :=
    flat_map (fun m => map (fun nf => mke (mpath m) (mdir m) (fst nf) (snd nf)) (files m)) ms.
  Definition owned (ws : list (option (option nat))) : list nat := flat_map (fun w => match w with Some (Some f) => [f] | _ => [] end) ws.
  Definition rel (es : list entry) (fl : list (option bool)) (w : option (option nat)) (c : option (option (file D))) : Prop :=
    match w, c with
    | None, None => True
    | Some None, Some None => True
    | Some (Some f), Some (Some x) => In (mke (fpath x) (fdir x) (fname x) f) es /\ nth_error fl f = Some (Some (changed x))
    | _, _ => False
    end.
  Definition inv (w : world D) (s : wstore D) : Prop :=
    let es := entries (monitors w) in
    length (watches w) = length s /\
    (forall k x c, nth_error (watches w) k = Some x -> nth_error s k = Some c -> rel es (flags w) x c) /\
    Permutation (owned (watches w)) (map eflag es) /\
    NoDup (map eflag es) /\
    NoDup (map (fun e => (epath e, ename e)) es) /\
    Forall (fun m => resolve (mpath m) = Some (mdir m)) (monitors w) /\
    Forall (fun m => files m <> []) (monitors w) /\
    (forall f b, nth_error (flags w) f = Some (Some b) -> In f (map eflag es)).

  (* ---- monitors ---- *)
  Lemma add_ok : forall ms dir name f, match add ms dir name f with
    | Some ms' => exists d, Permutation (entries ms') (mke dir d name f :: entries ms) /\
        (Forall (fun m => resolve (mpath m) = Some (mdir m)) ms -> Forall (fun m => resolve (mpath m) = Some (mdir m)) ms' /\ resolve dir = Some d)
    | None => True
    end.
  Proof.
    induction ms as [|m ms IH]; intros dir name f; cbn [add]; [exact Logic.I|].
    destruct (teqb dir (mpath m)) eqn:E.
    - apply teqb_spec in E. subst dir. exists (mdir m). split.
      + unfold entries. cbn [flat_map mpath mdir files]. rewrite map_app. cbn [map fst snd]. rewrite <- app_assoc. cbn [app]. symmetry. apply Permutation_middle.
      + intros F. inversion F; subst. split; [constructor; assumption|assumption].
    - specialize (IH dir name f). destruct (add ms dir name f) as [ms'|]; [|exact Logic.I]. destruct IH as (d & P & R). exists d. split.
      + unfold entries in *. cbn [flat_map]. rewrite P. symmetry. apply Permutation_middle.
      + intros F. inversion F; subst. destruct (R H2). split; [constructor; assumption|assumption].
  Qed.
  Lemma remove_file_ok : forall fs f, match remove_file fs f with
    | Some fs' => exists n, Permutation fs ((n, f) :: fs')
    | None => ~ In f (map snd fs)
    end.
  Proof.
    induction fs as [|[n g] fs IH]; intros f; cbn [remove_file]; [intros []|].
    destruct (Nat.eqb_spec g f) as [->|N]; [exists n; reflexivity|]. specialize (IH f). destruct (remove_file fs f) as [fs'|].
    - destruct IH as (n' & P). exists n'. rewrite P. apply perm_swap.
    - cbn [map snd]. intros [E|I]; [congruence|contradiction].
  Qed.
  Lemma flags_of : forall p d fs, map eflag (map (fun nf : text * nat => mke p d (fst nf) (snd nf)) fs) = map snd fs.
  Proof. intros p d fs. rewrite map_map. reflexivity. Qed.
  Lemma remove_ok : forall ms f, In f (map eflag (entries ms)) -> exists e, eflag e = f /\ Permutation (entries ms) (e :: entries (remove ms f)).
  Proof.
    induction ms as [|m ms IH]; intros f I; cbn [entries flat_map map In] in I; [destruct I|]. cbn [remove].
    pose proof (remove_file_ok (files m) f) as R. destruct (remove_file (files m) f) as [fs'|].
    - destruct R as (n & P). exists (mke (mpath m) (mdir m) n f). split; [reflexivity|].
      assert (Permutation (entries (m :: ms)) (mke (mpath m) (mdir m) n f :: map (fun nf => mke (mpath m) (mdir m) (fst nf) (snd nf)) fs' ++ entries ms)) as Q.
      { unfold entries at 1. cbn [flat_map]. rewrite P. reflexivity. }
      rewrite Q. destruct fs'; reflexivity.
    - rewrite map_app, flags_of in I. apply in_app_iff in I as [I|I]; [contradiction|]. destruct (IH f I) as (e & E & P). exists e. split; [exact E|].
      unfold entries in *. cbn [flat_map]. rewrite P. symmetry. apply Permutation_middle.
  Qed.
  Lemma remove_forall : forall ms f (Q : text -> D -> Prop), Forall (fun m => Q (mpath m) (mdir m)) ms -> Forall (fun m => Q (mpath m) (mdir m)) (remove ms f).
  Proof.
    induction ms as [|m ms IH]; intros f Q F; cbn [remove]; [exact F|]. inversion F; subst.
    destruct (remove_file (files m) f) as [[|x fs]|]; [assumption|constructor; assumption|constructor; auto].
  Qed.

  (* ---- events ---- *)
  Definition hit (d : D) (name : text) (e : entry) : bool := deqb (edir e) d && teqb name (ename e).
  Lemma mark_ok : forall p d fs name fl,
    NoDup (map fst fs) -> (forall n f, In (n, f) fs -> exists b, nth_error fl f = Some (Some b)) ->
    exists fl', mark fs name fl = Ok fl' /\
      (forall n f, In (n, f) fs -> NoDup (map snd fs) -> nth_error fl' f = if teqb name n then Some (Some true) else nth_error fl f) /\
      (forall f, ~ In f (map snd fs) -> nth_error fl' f = nth_error fl f) /\
      (p = p :> text) /\ (d = d :> D).
  Proof.
    intros p d. induction fs as [|[n f] fs IH]; intros name fl N A; cbn [mark].
    - exists fl. split; [reflexivity|]. split; [intros ? ? []|]. auto.
    - cbn [map fst] in N. inversion N as [|? ? N1 N2]; subst. destruct (teqb name n) eqn:E.
      + apply teqb_spec in E. subst n. destruct (A name f (or_introl eq_refl)) as (b & Eb). unfold set_flag. rewrite Eb.
        assert (f < length fl) as L by (apply nth_error_Some; congruence).
        eexists. split; [reflexivity|]. split; [|split; [|auto]].
        * intros n' f' I Nd. cbn [map snd] in Nd. inversion Nd as [|? ? M1 M2]; subst. destruct I as [I|I].
          -- injection I as <- <-. rewrite teqb_refl. rewrite lset_nth_eq by exact L. reflexivity.
          -- assert (teqb name n' = false) as ->.
             { destruct (teqb name n') eqn:T; [|reflexivity]. apply teqb_spec in T. subst n'. exfalso. apply N1. apply in_map_iff. exists (name, f'). auto. }
             rewrite lset_nth_neq; [reflexivity|]. intros ->. apply M1. apply in_map_iff. exists (n', f'). auto.
        * intros g G. cbn [map snd In] in G. rewrite lset_nth_neq; [reflexivity|]. intros ->. apply G. auto.
      + destruct (IH name fl N2 ltac:(intros n' f' I; apply (A n'); right; exact I)) as (fl' & E' & H1 & H2 & _). exists fl'. split; [exact E'|]. split; [|split; [|auto]].
        * intros n' f' I Nd. cbn [map snd] in Nd. inversion Nd as [|? ? M1 M2]; subst. destruct I as [I|I].
          -- injection I as <- <-. rewrite E. apply H2. exact M1.
          -- apply H1; assumption.
        * intros g G. cbn [map snd In] in G. apply H2. tauto.
  Qed.
  Lemma NoDup_app_inv : forall T (a b : list T), NoDup (a ++ b) -> NoDup a /\ NoDup b /\ (forall x, In x a -> ~ In x b).
  Proof.
    intros T. induction a as [|x a IH]; intros b N; cbn in N; [split; [constructor|split; [exact N|intros ? []]]|].
    inversion N as [|? ? N1 N2]; subst. destruct (IH b N2) as (A & B & C). rewrite in_app_iff in N1. split; [constructor; tauto|]. split; [exact B|].
    intros y [->|I]; [tauto|auto].
  Qed.
  Lemma notify_ok : forall ms d name fl, plain name = true ->
    NoDup (map eflag (entries ms)) -> NoDup (map (fun e => (epath e, ename e)) (entries ms)) ->
    (forall e, In e (entries ms) -> exists b, nth_error fl (eflag e) = Some (Some b)) ->
    exists fl', notify deqb ms d name fl = Ok fl' /\
      (forall e, In e (entries ms) -> nth_error fl' (eflag e) = if hit d name e then Some (Some true) else nth_error fl (eflag e)) /\
      (forall f, ~ In f (map eflag (entries ms)) -> nth_error fl' f = nth_error fl f).
  Proof.
    induction ms as [|m ms IH]; intros d name fl Pl N1 N2 A; cbn [notify].
    - exists fl. split; [reflexivity|]. split; [intros ? []|auto].
    - set (es := map (fun nf : text * nat => mke (mpath m) (mdir m) (fst nf) (snd nf)) (files m)).
      change (entries (m :: ms)) with (es ++ entries ms) in *. rewrite map_app in N1, N2.
      assert (map eflag es = map snd (files m)) as Ef by apply flags_of.
      destruct (NoDup_app_inv _ _ _ N1) as (Nf & N1' & Dj). destruct (NoDup_app_inv _ _ _ N2) as (Nn & N2' & _).
      assert (NoDup (map fst (files m))) as Nfst.
      { apply (NoDup_map_inv (pair (mpath m))). rewrite map_map. unfold es in Nn. rewrite map_map in Nn. exact Nn. }
      assert (exists fl1, (if deqb (mdir m) d then match name with [] => Ok fl | _ => mark (files m) (snd (location name)) fl end else Ok fl) = Ok fl1 /\
        (forall e, In e es -> nth_error fl1 (eflag e) = if hit d name e then Some (Some true) else nth_error fl (eflag e)) /\
        (forall f, ~ In f (map eflag es) -> nth_error fl1 f = nth_error fl f)) as (fl1 & E1 & H1 & H2).
      { unfold hit. destruct (deqb (mdir m) d) eqn:Ed.
        - rewrite (location_plain _ Pl). destruct name as [|c r] eqn:En; [discriminate|]. rewrite <- En in *.
          destruct (mark_ok (mpath m) (mdir m) (files m) name fl Nfst) as (fl' & E & M1 & M2 & _).
          { intros n f I. apply (A (mke (mpath m) (mdir m) n f)). apply in_app_iff. left. unfold es. apply in_map_iff. exists (n, f). auto. }
          exists fl'. split; [exact E|]. split.
          + intros e I. unfold es in I. apply in_map_iff in I as ([n f] & <- & I). cbn [eflag edir ename fst snd]. rewrite Ed. cbn [andb]. apply M1; [exact I|]. rewrite <- Ef. exact Nf.
          + intros f I. apply M2. rewrite <- Ef. exact I.
        - exists fl. split; [reflexivity|]. split; [|auto]. intros e I. unfold es in I. apply in_map_iff in I as ([n f] & <- & I). cbn [edir]. rewrite Ed. reflexivity. }
      rewrite E1. cbn [bind]. destruct (IH d name fl1 Pl N1' N2') as (fl2 & E2 & G1 & G2).
      { intros e I. rewrite H2; [apply A, in_app_iff; auto|]. intros X. apply (Dj _ X). apply in_map. exact I. }
      exists fl2. split; [exact E2|]. split.
      + intros e I. apply in_app_iff in I as [I|I].
        * rewrite G2; [apply H1; exact I|]. apply Dj. apply in_map. exact I.
        * rewrite (G1 e I). destruct (hit d name e); [reflexivity|]. apply H2. intros X. apply (Dj _ X). apply in_map. exact I.
      + intros f I. rewrite map_app, in_app_iff in I. rewrite G2 by tauto. apply H2. tauto.
  Qed.

  (* ---- watches ---- *)
  Definition own1 (w : option (option nat)) : list nat := match w with Some (Some f) => [f] | _ => [] end.
  Lemma owned_app : forall a b, owned (a ++ b) = owned a ++ owned b.
  Proof. intros. apply flat_map_app. Qed.
  Lemma owned_lset : forall ws k v v', nth_error ws k = Some v -> Permutation (own1 v ++ owned (lset ws k v')) (own1 v' ++ owned ws).
  Proof.
    induction ws as [|w ws IH]; intros [|k] v v' E; cbn in E; try discriminate.
    - injection E as ->. cbn [lset owned flat_map]. fold (own1 v) (own1 v'). rewrite !app_assoc. apply Permutation_app_tail. apply Permutation_app_comm.
    - specialize (IH k v v' E). cbn [lset owned flat_map] in *. fold (own1 w). unfold owned in IH.
      rewrite !app_assoc, (Permutation_app_comm (own1 v)), (Permutation_app_comm (own1 v')), <- !app_assoc. apply Permutation_app_head. exact IH.
  Qed.
  Lemma owned_in : forall ws f, In f (owned ws) <-> exists k, nth_error ws k = Some (Some (Some f)).
  Proof.
    intros ws f. unfold owned. rewrite in_flat_map. split.
    - intros (w & I & J). apply In_nth_error in I as (k & E). exists k. destruct w as [[g|]|]; cbn in J; try tauto. destruct J as [->|[]]. exact E.
    - intros (k & E). exists (Some (Some f)). split; [eapply nth_error_In; exact E|left; reflexivity].
  Qed.
  Lemma owned_inj : forall ws i j f, NoDup (owned ws) -> nth_error ws i = Some (Some (Some f)) -> nth_error ws j = Some (Some (Some f)) -> i = j.
  Proof.
    intros ws i j f N A B. destruct (Nat.eq_dec i j) as [|Ne]; [assumption|exfalso].
    pose proof (owned_lset ws i _ None A) as P. cbn [own1 app] in P. pose proof (Permutation_NoDup (Permutation_sym P) N) as N'. inversion N' as [|? ? X _]; subst.
    apply X. apply owned_in. exists j. rewrite lset_nth_neq by exact Ne. exact B.
  Qed.
  Lemma same_len : forall T U (l : list T) (l' : list U) k x, length l = length l' -> nth_error l k = Some x -> exists y, nth_error l' k = Some y.
  Proof. intros T U l l' k x L E. destruct (nth_error l' k) eqn:E'; [eauto|]. apply nth_error_None in E'. assert (k < length l) by (apply nth_error_Some; congruence). lia. Qed.
  Lemma in_unique : forall (es : list entry) a b, NoDup (map eflag es) -> In a es -> In b es -> eflag a = eflag b -> a = b.
  Proof.
    induction es as [|e es IH]; intros a b N A B E; [destruct A|]. cbn [map] in N. inversion N as [|? ? N1 N2]; subst.
    destruct A as [->|A], B as [->|B]; auto.
    - exfalso. apply N1. rewrite E. apply in_map. exact B.
    - exfalso. apply N1. rewrite <- E. apply in_map. exact A.
  Qed.
  Lemma owner : forall w s e, inv w s -> In e (entries (monitors w)) ->
    exists k x, nth_error (watches w) k = Some (Some (Some (eflag e))) /\ nth_error s k = Some (Some (Some x)) /\
      e = mke (fpath x) (fdir x) (fname x) (eflag e) /\ nth_error (flags w) (eflag e) = Some (Some (changed x)).
  Proof.
    intros w s e (L & R & P & N & _) I. assert (In (eflag e) (owned (watches w))) as O by (rewrite P; apply in_map; exact I).
    apply owned_in in O as (k & E). destruct (same_len _ _ _ s k _ L E) as (c & Ec). pose proof (R k _ _ E Ec) as Rk. destruct c as [[x|]|]; cbn in Rk; try contradiction.
    exists k, x. destruct Rk as (J & F). split; [exact E|]. split; [exact Ec|]. split; [|exact F]. apply (in_unique _ _ _ N I J). reflexivity.
  Qed.

  Lemma new_inv : forall w s, inv w s -> inv (mkw (monitors w) (flags w) (watches w ++ [Some None])) (s ++ [Some None]).
  Proof.
    intros w s (L & R & P & N). unfold inv. cbn [monitors flags watches]. split; [rewrite !app_length; cbn; lia|]. split.
    - intros k x c A B. apply nth_snoc in A. apply nth_snoc in B. destruct A as [A|[A ->]], B as [B|[B ->]].
      + exact (R k x c A B).
      + assert (k < length (watches w)) by (apply nth_error_Some; congruence). lia.
      + assert (k < length s) by (apply nth_error_Some; congruence). lia.
      + exact Logic.I.
    - split; [|exact N]. rewrite owned_app. cbn. rewrite app_nil_r. exact P.
  Qed.
  Lemma move_inv : forall w s k j y c, inv w s -> k <> j -> nth_error (watches w) k = Some (Some None) -> nth_error s k = Some (Some None) ->
    nth_error (watches w) j = Some (Some y) -> nth_error s j = Some (Some c) ->
    inv (mkw (monitors w) (flags w) (lset (lset (watches w) k (Some y)) j (Some None))) (lset (lset s k (Some c)) j (Some None)).
  Proof.
    intros w s k j y c (L & R & P & N) Ne Wk Sk Wj Sj. unfold inv. cbn [monitors flags watches]. split; [rewrite !lset_length; exact L|]. split.
    - intros i x z A B. apply lset_cases in A. apply lset_cases in B.
      destruct A as [(Ea & -> & _)|(Ni & A)], B as [(Eb & -> & _)|(Nj & B)]; try congruence; try exact Logic.I.
      apply lset_cases in A. apply lset_cases in B. destruct A as [(Ea & -> & _)|(Ni2 & A)], B as [(Eb & -> & _)|(Nj2 & B)]; try congruence.
      + exact (R j _ _ Wj Sj).
      + exact (R i _ _ A B).
    - split; [|exact N]. rewrite <- P. pose proof (owned_lset (watches w) k _ (Some y) Wk) as P1. cbn [own1 app] in P1.
      assert (nth_error (lset (watches w) k (Some y)) j = Some (Some y)) as Wj' by (rewrite lset_nth_neq by exact Ne; exact Wj).
      pose proof (owned_lset _ j _ (Some None) Wj') as P2. cbn [own1 app] in P2. rewrite P1 in P2.
      apply Permutation_app_inv_l in P2. exact P2.
  Qed.
  Definition blank (v : option (option nat)) (v' : option (option (file D))) : Prop := (v = None /\ v' = None) \/ (v = Some None /\ v' = Some None).
  Lemma release_inv : forall w s k x c, inv w s -> nth_error (watches w) k = Some (Some x) -> nth_error s k = Some (Some c) ->
    exists w', release w x = Ok w' /\ watches w' = watches w /\
      forall v v', blank v v' -> inv (mkw (monitors w') (flags w') (lset (watches w) k v)) (lset s k v').
  Proof.
    intros w s k x c Iv Wk Sk. pose proof Iv as (L & R & P & N & N2 & F1 & F2 & Al). pose proof (R k _ _ Wk Sk) as Rk. destruct x as [f|].
    - destruct c as [xf|]; [|destruct Rk]. destruct Rk as (I & E). cbn [release]. rewrite E. eexists. split; [reflexivity|]. split; [reflexivity|]. intros v v' B. unfold inv. cbn [monitors flags watches].
      assert (f < length (flags w)) as Lf by (apply nth_error_Some; congruence).
      assert (NoDup (owned (watches w))) as No by (eapply Permutation_NoDup; [symmetry; exact P|exact N]).
      assert (In f (map eflag (entries (monitors w)))) as If by (apply in_map_iff; eexists; split; [|exact I]; reflexivity).
      destruct (remove_ok (monitors w) f If) as (e & Ee & Pe).
      assert (NoDup (map eflag (e :: entries (remove (monitors w) f)))) as N' by (eapply Permutation_NoDup; [apply Permutation_map; exact Pe|exact N]).
      assert (NoDup (map (fun e => (epath e, ename e)) (e :: entries (remove (monitors w) f)))) as N2' by (eapply Permutation_NoDup; [apply Permutation_map; exact Pe|exact N2]).
      cbn [map] in N', N2'. inversion N' as [|? ? X1 X2]; subst. inversion N2' as [|? ? Y1 Y2]; subst.
      split; [rewrite !lset_length; exact L|]. split; [|split; [|split; [exact X2|split; [exact Y2|split; [apply (remove_forall _ _ (fun p d => resolve p = Some d)); exact F1|split]]]]].
      + intros i y z A C. apply lset_cases in A. apply lset_cases in C. destruct A as [(Ea & -> & _)|(Ni & A)], C as [(Eb & -> & _)|(Nj & C)]; try congruence.
        * destruct B as [(-> & ->)|(-> & ->)]; exact Logic.I.
        * pose proof (R i _ _ A C) as Ri. destruct y as [[g|]|], z as [[xg|]|]; cbn in Ri |- *; try contradiction; try exact Logic.I.
          destruct Ri as (J & G). assert (g <> eflag e) as Ng by (intros ->; apply Ni; symmetry; eapply owned_inj; eassumption || (symmetry; eapply owned_inj; eassumption)).
          split; [|rewrite lset_nth_neq by congruence; exact G]. rewrite Pe in J. destruct J as [J|J]; [exfalso; apply Ng; rewrite J; reflexivity|exact J].
      + pose proof (owned_lset _ k _ v Wk) as Q. assert (own1 v = []) as Ov by (destruct B as [(-> & _)|(-> & _)]; reflexivity). rewrite Ov in Q. cbn [own1 app] in Q.
        rewrite P, Pe in Q. cbn [map] in Q. apply Permutation_cons_inv in Q. exact Q.
      + clear - F2. induction (monitors w) as [|m ms IH]; cbn [remove]; [constructor|]. inversion F2; subst. destruct (remove_file (files m) (eflag e)) as [[|q fs]|]; [assumption|constructor; [cbn; discriminate|assumption]|constructor; auto].
      + intros g b G. apply lset_cases in G as [(-> & X & _)|(Ng & G)]; [discriminate|]. pose proof (Al g b G) as J. rewrite Pe in J. cbn [map] in J. destruct J as [J|J]; [congruence|exact J].
    - cbn [release]. eexists. split; [reflexivity|]. split; [reflexivity|]. intros v v' B. unfold inv. cbn [monitors flags watches]. split; [rewrite !lset_length; exact L|]. split.
      + intros i y z A C. apply lset_cases in A. apply lset_cases in C. destruct A as [(Ea & -> & _)|(Ni & A)], C as [(Eb & -> & _)|(Nj & C)]; try congruence.
        * destruct B as [(-> & ->)|(-> & ->)]; exact Logic.I.
        * exact (R i _ _ A C).
      + split; [|tauto]. pose proof (owned_lset _ k _ v Wk) as Q. assert (own1 v = []) as Ov by (destruct B as [(-> & _)|(-> & _)]; reflexivity). rewrite Ov in Q. cbn [own1 app] in Q. rewrite Q. exact P.
  Qed.
  Lemma create_inv : forall w s dir d name ms', inv w s ->
    Permutation (entries ms') (mke dir d name (length (flags w)) :: entries (monitors w)) ->
    Forall (fun m => resolve (mpath m) = Some (mdir m)) ms' -> Forall (fun m => files m <> []) ms' ->
    watched s (fun x => teqb dir (fpath x) && teqb name (fname x)) = false ->
    inv (mkw ms' (flags w ++ [Some false]) (watches w ++ [Some (Some (length (flags w)))])) (s ++ [Some (Some (mkfile dir d name false))]).
  Proof.
    intros w s dir d name ms' Iv Pe F1' F2' Wt. pose proof Iv as (L & R & P & N & N2 & F1 & F2 & Al). unfold inv. cbn [monitors flags watches].
    assert (~ In (length (flags w)) (map eflag (entries (monitors w)))) as Fr.
    { intros I. apply in_map_iff in I as (e & E & I). destruct (owner _ _ _ Iv I) as (k & x & _ & _ & _ & G). assert (eflag e < length (flags w)) by (apply nth_error_Some; congruence). lia. }
    split; [rewrite !app_length; cbn; lia|]. split; [|split; [|split; [|split; [|split; [exact F1'|split; [exact F2'|]]]]]].
    - intros k x c A B. apply nth_snoc in A. apply nth_snoc in B. destruct A as [A|[A ->]], B as [B|[B ->]].
      + pose proof (R k x c A B) as Rk. destruct x as [[f|]|], c as [[y|]|]; cbn in Rk |- *; try contradiction; try exact Logic.I. destruct Rk as (I & G). split; [rewrite Pe; right; exact I|].
        rewrite nth_error_app1 by (apply nth_error_Some; congruence). exact G.
      + assert (k < length (watches w)) by (apply nth_error_Some; congruence). lia.
      + assert (k < length s) by (apply nth_error_Some; congruence). lia.
      + cbn. split; [rewrite Pe; left; reflexivity|apply nth_app_new].
    - rewrite owned_app. cbn. rewrite Pe. cbn [map eflag]. rewrite <- P. symmetry. apply Permutation_cons_append.
    - eapply Permutation_NoDup; [symmetry; apply Permutation_map; exact Pe|]. cbn [map eflag]. constructor; assumption.
    - eapply Permutation_NoDup; [symmetry; apply Permutation_map; exact Pe|]. cbn [map epath ename]. constructor; [|assumption].
      intros I. apply in_map_iff in I as (e & E & I). injection E as E1 E2. destruct (owner _ _ _ Iv I) as (k & x & _ & Sk & Ee & _). rewrite Ee in E1, E2. cbn in E1, E2.
      assert (watched s (fun x => teqb dir (fpath x) && teqb name (fname x)) = true) as T; [|congruence].
      unfold watched. apply existsb_exists. exists (Some (Some x)). split; [eapply nth_error_In; exact Sk|]. rewrite E1, E2, !teqb_refl. reflexivity.
    - intros f b G. rewrite Pe. cbn [map eflag]. apply nth_snoc in G as [G|[G _]]; [right; exact (Al f b G)|left; auto].
  Qed.

  Lemma step_ok : forall w s o, inv w s ->
    match ideal deqb resolve s o with
    | None => True
    | Some None => step deqb resolve w o = Contract
    | Some (Some (s', r)) => exists w', step deqb resolve w o = Ok (w', r) /\ inv w' s'
    end.
  Proof.
    intros w s o Iv. pose proof Iv as (L & R & P & N & N2 & F1 & F2 & Al).
    assert (forall k c, sget s k = Some c -> exists x, nth_error (watches w) k = Some (Some x) /\ get w k = Ok x /\ nth_error s k = Some (Some c) /\ rel (entries (monitors w)) (flags w) (Some x) (Some c)) as G.
    { intros k c E. apply sget_nth in E. destruct (same_len _ _ s (watches w) k _ (eq_sym L) E) as (v & Ev). pose proof (R k _ _ Ev E) as Rk. destruct v as [x|]; [|destruct Rk]. exists x. unfold get. rewrite Ev. auto. }
    destruct o as [|path|j|k j|k|k|k|k|d name e]; cbn [ideal step].
    - eexists. split; [reflexivity|]. apply new_inv. exact Iv.
    - destruct (location path) as [dir name] eqn:El. pose proof (add_ok (monitors w) dir name (length (flags w))) as A.
      destruct (resolve dir) as [d|] eqn:Er.
      + destruct (watched s _) eqn:Wt; [exact Logic.I|]. destruct (add (monitors w) dir name (length (flags w))) as [ms'|] eqn:Ea.
        * destruct A as (d' & Pe & RR). destruct (RR F1) as (F1' & Ed). assert (d' = d) as -> by congruence. cbn [bind]. eexists. split; [reflexivity|]. apply create_inv; try assumption.
          clear - F2 Ea. revert ms' Ea. induction (monitors w) as [|m ms IH]; intros ms' Ea; cbn [add] in Ea; [discriminate|]. inversion F2; subst.
          destruct (teqb dir (mpath m)); [injection Ea as <-; constructor; [cbn; destruct (files m); discriminate|assumption]|].
          destruct (add ms dir name (length (flags w))) as [ms1|]; [|discriminate]. injection Ea as <-. constructor; auto.
        * cbn [bind]. eexists. split; [reflexivity|]. apply create_inv; try assumption.
          -- unfold entries. rewrite flat_map_app. cbn. symmetry. apply Permutation_cons_append.
          -- apply Forall_app. split; [assumption|]. constructor; [exact Er|constructor].
          -- apply Forall_app. split; [assumption|]. constructor; [cbn; discriminate|constructor].
      + destruct (add (monitors w) dir name (length (flags w))) as [ms'|]; [|reflexivity]. destruct A as (d' & _ & RR). destruct (RR F1) as (_ & X). congruence.
    - destruct (sget s j) as [c|] eqn:E; [|exact Logic.I]. destruct (G _ _ E) as (x & Wj & Gj & Sj & Rj). rewrite Gj. cbn [bind]. eexists. split; [reflexivity|].
      assert (j < length (watches w)) as Lj by (apply nth_error_Some; congruence).
      pose proof (move_inv _ _ (length (watches w)) j x c (new_inv _ _ Iv)) as M. cbn [monitors flags watches] in M.
      rewrite put_lset. rewrite lset_app_new, lset_app1 in M by lia. rewrite L, lset_app_new, lset_app1 in M by lia. rewrite <- L in M.
      apply M; [lia|apply nth_app_new|rewrite L; apply nth_app_new|rewrite nth_error_app1 by lia; exact Wj|rewrite nth_error_app1 by lia; exact Sj].
    - destruct (sget s k) as [c0|] eqn:Ek; [|exact Logic.I]. destruct (G _ _ Ek) as (x & Wk & Gk & Sk & Rk).
      destruct (sget s j) as [c|] eqn:E; [|exact Logic.I]. destruct (G _ _ E) as (y & Wj & Gj & Sj & Rj). rewrite Gk. cbn [bind].
      destruct (release_inv _ _ _ _ _ Iv Wk Sk) as (w' & E' & Ew & Iv'). rewrite E'. cbn [bind]. unfold get. rewrite Ew, Wj. cbn [bind]. eexists. split; [reflexivity|]. rewrite !put_lset.
      specialize (Iv' (Some None) (Some None) (or_intror (conj eq_refl eq_refl))). destruct (Nat.eq_dec k j) as [->|Ne].
      + rewrite !lset_twice. exact Iv'.
      + assert (k < length (watches w)) by (apply nth_error_Some; congruence).
        pose proof (move_inv _ _ k j y c Iv' Ne) as M. cbn [monitors flags watches] in M. rewrite !lset_twice in M.
        apply M; rewrite ?lset_nth_eq by lia; rewrite ?lset_nth_neq by exact Ne; auto.
    - destruct (sget s k) as [c|] eqn:E; [|exact Logic.I]. destruct (G _ _ E) as (x & Wk & Gk & Sk & Rk). rewrite Gk. cbn [bind].
      destruct (release_inv _ _ _ _ _ Iv Wk Sk) as (w' & E' & Ew & Iv'). rewrite E'. cbn [bind]. eexists. split; [reflexivity|]. rewrite put_lset, Ew. apply Iv'. left. auto.
    - destruct (sget s k) as [c|] eqn:E; [|exact Logic.I]. destruct (G _ _ E) as (x & Wk & Gk & Sk & Rk). rewrite Gk. cbn [bind]. exists w. split; [|exact Iv].
      destruct x, c; cbn in Rk; try contradiction; reflexivity.
    - destruct (sget s k) as [c|] eqn:E; [|exact Logic.I]. destruct (G _ _ E) as (x & Wk & Gk & Sk & Rk). rewrite Gk. cbn [bind]. exists w. split; [|exact Iv].
      destruct x, c; cbn in Rk; try contradiction; [|reflexivity]. destruct Rk as (_ & ->). reflexivity.
    - destruct (sget s k) as [c|] eqn:E; [|exact Logic.I]. destruct (G _ _ E) as (x & Wk & Gk & Sk & Rk). rewrite Gk. cbn [bind].
      destruct x as [f|], c as [xf|]; cbn in Rk; try contradiction; [|reflexivity]. destruct Rk as (I & Ef). unfold set_flag. rewrite Ef. cbn [bind]. eexists. split; [reflexivity|].
      assert (f < length (flags w)) as Lf by (apply nth_error_Some; congruence).
      assert (NoDup (owned (watches w))) as No by (eapply Permutation_NoDup; [symmetry; exact P|exact N]).
      rewrite put_lset. unfold inv. cbn [monitors flags watches]. split; [rewrite lset_length; exact L|]. split; [|split; [exact P|split; [exact N|split; [exact N2|split; [exact F1|split; [exact F2|]]]]]].
      + intros i y z A B. apply lset_cases in B as [(-> & -> & _)|(Ni & B)].
        * assert (y = Some (Some f)) as -> by congruence. cbn. split; [exact I|]. rewrite lset_nth_eq by exact Lf. reflexivity.
        * pose proof (R i _ _ A B) as Ri. destruct y as [[g|]|], z as [[xg|]|]; cbn in Ri |- *; try contradiction; try exact Logic.I. destruct Ri as (J & Gg). split; [exact J|].
          rewrite lset_nth_neq; [exact Gg|]. intros ->. apply Ni. first [exact (owned_inj _ _ _ _ No A Wk)|exact (owned_inj _ _ _ _ No Wk A)].
      + intros g b B. apply lset_cases in B as [(-> & _ & _)|(_ & B)]; [exact (Al _ _ Ef)|exact (Al g b B)].
    - destruct (plain name) eqn:Pl; cbn [negb orb]; [|exact Logic.I].
      assert (forall e, In e (entries (monitors w)) -> exists b, nth_error (flags w) (eflag e) = Some (Some b)) as Live by (intros e' I; destruct (owner _ _ _ Iv I) as (? & ? & _ & _ & _ & X); eauto).
      set (s' := map _ s).
      assert (forall fl', (forall e, In e (entries (monitors w)) -> nth_error fl' (eflag e) = if hit d name e then Some (Some true) else nth_error (flags w) (eflag e)) ->
        (forall f, ~ In f (map eflag (entries (monitors w))) -> nth_error fl' f = nth_error (flags w) f) -> inv (mkw (monitors w) fl' (watches w)) s') as Fin.
      { intros fl' H1 H2. unfold inv. cbn [monitors flags watches]. split; [unfold s'; rewrite map_length; exact L|]. split; [|split; [exact P|split; [exact N|split; [exact N2|split; [exact F1|split; [exact F2|]]]]]].
        - intros i y z A B. unfold s' in B. rewrite nth_error_map in B. destruct (nth_error s i) as [c|] eqn:Si; [|discriminate]. cbn in B. injection B as <-.
          pose proof (R i _ _ A Si) as Ri. destruct y as [[f|]|], c as [[x|]|]; cbn in Ri |- *; try contradiction; try exact Logic.I.
          destruct Ri as (J & Gg). pose proof (H1 _ J) as K. unfold hit in K. cbn [eflag edir ename] in K. fold (same_file deqb d name x) in K.
          destruct (same_file deqb d name x); cbn; (split; [exact J|]); [exact K|rewrite K; exact Gg].
        - intros f b B. destruct (in_dec Nat.eq_dec f (map eflag (entries (monitors w)))) as [I|I]; [exact I|]. rewrite H2 in B by exact I. exact (Al f b B). }
      destruct (notify_ok (monitors w) d name (flags w) Pl N N2 Live) as (fl' & E' & H1 & H2).
      destruct e; [rewrite E'; cbn [bind]; eexists; split; [reflexivity|]; apply Fin; assumption|rewrite E'; cbn [bind]; eexists; split; [reflexivity|]; apply Fin; assumption|].
      destruct (watched s (same_file deqb d name)) eqn:Wt; [exact Logic.I|]. exists w. split; [reflexivity|].
      assert (w = mkw (monitors w) (flags w) (watches w)) as Ew by (destruct w; reflexivity). rewrite Ew. apply Fin; [|auto].
      intros e I. destruct (hit d name e) eqn:Hh; [|reflexivity]. exfalso. destruct (owner _ _ _ Iv I) as (k & x & _ & Sk & Ee & _). rewrite Ee in Hh. unfold hit in Hh. cbn [edir ename] in Hh.
      assert (watched s (same_file deqb d name) = true) as T; [|congruence]. unfold watched. apply existsb_exists. exists (Some (Some x)). split; [eapply nth_error_In; exact Sk|exact Hh].
  Qed.
  Lemma run_ok : forall os w s, inv w s ->
    match irun deqb resolve s os with
    | None => True
    | Some None => run deqb resolve w os = Contract
    | Some (Some (s', rs)) => exists w', run deqb resolve w os = Ok (w', rs) /\ inv w' s'
    end.
  Proof.
    induction os as [|o os IH]; intros w s Iv; cbn [irun run]; [exists w; auto|].
    pose proof (step_ok w s o Iv) as S. destruct (ideal deqb resolve s o) as [[[s1 r]|]|]; [|rewrite S; reflexivity|exact Logic.I].
    destruct S as (w1 & E & Iv1). rewrite E. cbn [bind]. specialize (IH w1 s1 Iv1). destruct (irun deqb resolve s1 os) as [[[s2 rs]|]|]; [|rewrite IH; reflexivity|exact Logic.I].
    destruct IH as (w2 & E2 & Iv2). rewrite E2. cbn [bind]. eauto.
  Qed.
  Lemma inv_empty : inv (mkw [] [] []) [].
  Proof.
    unfold inv. cbn. split; [reflexivity|]. split; [intros [|k]; discriminate|]. split; [constructor|]. repeat (split; [constructor|]). intros [|f]; discriminate.
  Qed.
  (* without valid watches there are no monitors and no flags *)
  Lemma inv_none : forall w s, inv w s -> (forall k x, nth_error s k <> Some (Some (Some x))) -> monitors w = [] /\ Forall (fun f => f = None) (flags w).
  Proof.
    intros w s Iv Hn. pose proof Iv as (_ & _ & _ & _ & _ & _ & F2 & Al).
    assert (entries (monitors w) = []) as E.
    { destruct (entries (monitors w)) as [|e es] eqn:E; [reflexivity|]. destruct (owner w s e Iv) as (k & x & _ & Sk & _); [rewrite E; left; reflexivity|]. destruct (Hn _ _ Sk). }
    split.
    - destruct (monitors w) as [|m ms]; [reflexivity|]. inversion F2; subst. cbn in E. destruct (files m); [contradiction|discriminate].
    - apply Forall_forall. intros f I. apply In_nth_error in I as (k & Ek). destruct f as [b|]; [|reflexivity]. specialize (Al _ _ Ek). rewrite E in Al. destruct Al.
  Qed.
End P.

(* C142: filewatches with their threads: no data races, no lost changes, no endless waiting. *)
From Coq Require Import Arith List Bool Lia.
From Verif Require Import Base WatchThrModel WatchThrProofs.
Import ListNotations.

(* The thread of a monitor and the using thread never touch the list of files or a destroyed flag at the same time, and every step
   that is taken is defined, whatever the system does *)
Theorem C142_safe : forall cap n s, reach cap n s ->
  race s = false /\ forall a, step cap s a = None \/ exists s', step cap s a = Some (Ok s').
Proof.
  intros cap n s R. pose proof (reach_inv _ _ _ R) as I. split.
  - pose proof (i_lock s I) as L. pose proof (i_busy s I) as B. unfold race. destruct (tp s) as [| | |m es| |] eqn:T; try reflexivity.
    destruct (mp s) as [| | | | | | | | | | |f] eqn:M; try reflexivity; try (destruct (lk s) as [[]|]; cbn in L; destruct L; discriminate).
    destruct (first (files s) m) as [g|] eqn:F; [|reflexivity]. apply Nat.eqb_neq. intros ->. cbn in B. apply (proj1 B). apply in_map_iff. exists (m, f). split; [reflexivity|exact (first_In _ _ _ F)].
  - intros a. destruct (step cap s a) as [x|] eqn:E; [|left; reflexivity]. right. destruct (step_inv _ _ _ _ I E) as (s' & -> & _). exists s'. reflexivity.
Qed.

(* the thread is in the middle of its work when the first watch is made and removed; all of them leave nothing behind *)
Definition start : list act := [Main; Main; Main; Load 0].
Definition handled : list act := [Thr 0; Thr 0; Thr 0; Thr 0; Thr 0].
Definition leave : list act := [Main; Main; Main; Main].
Definition show (o : option (outcome st)) : option (list event * list (nat * nat) * list (option bool) * tpc * mpc * bool) :=
  match o with Some (Ok s) => Some (queue s, files s, flags s, tp s, mp s, gone s) | _ => None end.
Example C142_safe_ex :
  show (run 9 (init 7) (start ++ [Thr 0; Change 7; Thr 0; Thr 0])) = Some ([], [(7, 0)], [Some false], TInside 7 [], MIdle, false) /\
  show (run 9 (init 7) (start ++ [Thr 0; Change 7; Thr 0; Thr 0; Create 8; Main])) = None /\
  show (run 9 (init 7) (start ++ [Thr 0; Change 7; Thr 0; Thr 0; Create 8; Thr 0; Thr 0; Main; Main; Change 8; Main; Destroy 0])) =
    Some ([Named 8], [(7, 0); (8, 1)], [Some true; Some false], THandle [], MRemove 0, false) /\
  show (run 9 (init 7) (start ++ [Destroy 0] ++ leave ++ [Main; Main; Thr 0; Main; Main])) = Some ([Ignored], [], [None], TDone, MIdle, true) /\
  race (mks [] true [(7, 0)] [Some false] [7] None true (TInside 7 []) (MErase 0) false (fun _ => 0) (fun _ => 0) (fun _ => true) false false false) = true.
Proof. repeat split; vm_compute; reflexivity. Qed.

(* who waits for the lock gets it after at most two steps of the other thread, which itself does not have to wait *)
Theorem C142_lock : forall cap n s, reach cap n s ->
  (forall m f, mp s = MAdd m f \/ mp s = MRemove f ->
     step cap s Main <> None \/
     forall k k', (exists s', run cap s [Thr k] = Some (Ok s') /\ step cap s' Main <> None) \/
                  (exists s', run cap s [Thr k; Thr k'] = Some (Ok s') /\ step cap s' Main <> None)) /\
  (forall m es k, tp s = THandle (Named m :: es) ->
     step cap s (Thr k) <> None \/
     (exists s', run cap s [Main] = Some (Ok s') /\ step cap s' (Thr k) <> None) \/
     (exists s', run cap s [Main; Main] = Some (Ok s') /\ step cap s' (Thr k) <> None)).
Proof.
  intros cap n s R. pose proof (reach_inv _ _ _ R) as I. pose proof (i_lock s I) as L. split.
  - intros m f M.
    assert (forall s, lk s = None -> mp s = MAdd m f \/ mp s = MRemove f -> step cap s Main <> None) as Free.
    { clear. intros s K M. cbn [step]. unfold main. destruct M as [-> | ->]; rewrite K; [|destruct (has (files s) f)]; discriminate. }
    destruct (lk s) as [[]|] eqn:K; [|right|left; exact (Free s K M)].
    { destruct M as [M|M]; rewrite M in L; cbn in L; destruct L; discriminate. }
    intros k k'. destruct (tp s) as [| | |x es|es|] eqn:T; cbn in L; try (destruct L; discriminate).
    + right. assert (exists fl, mark s x = Ok fl) as [fl E].
      { unfold mark. destruct (first (files s) x) as [g|] eqn:F; [|eauto]. rewrite (proj1 (i_files s I _ _ (first_In _ _ _ F))). eauto. }
      eexists. cbn [run step]. unfold thr at 1. rewrite T, E. cbn [bind run step thr tp set_flags set_thr]. split; [reflexivity|]. apply Free; [reflexivity|]. cbn [mp set_flags set_thr]. exact M.
    + left. eexists. cbn [run step]. unfold thr at 1. rewrite T. cbn [run]. split; [reflexivity|]. apply Free; [reflexivity|]. cbn [mp set_flags set_thr]. exact M.
  - intros m es k T.
    destruct (lk s) as [[]|] eqn:K; [right| |left; cbn; unfold thr; rewrite T, K; discriminate]; rewrite T in L; cbn in L; [|destruct L; discriminate].
    destruct (mp s) as [|x f|x f| |f|f|f|f|f|f|f|f] eqn:M; cbn in L; try (destruct L; discriminate).
    + right. eexists. cbn. unfold main at 1. rewrite M. cbn. split; [reflexivity|]. unfold thr. cbn. rewrite T. discriminate.
    + left. eexists. cbn. unfold main at 1. rewrite M. cbn. split; [reflexivity|]. unfold thr. cbn. rewrite T. discriminate.
    + right. eexists. cbn. unfold main at 1. rewrite M. cbn. split; [reflexivity|]. unfold thr. cbn. rewrite T. discriminate.
    + left. eexists. cbn. unfold main at 1. rewrite M. cbn. split; [reflexivity|]. unfold thr. cbn. rewrite T. discriminate.
Qed.
Example C142_lock_ex :
  show (run 9 (init 7) [Thr 0; Change 7; Thr 0; Thr 0; Main]) = None /\
  show (run 9 (init 7) [Thr 0; Change 7; Thr 0; Thr 0; Thr 0; Thr 0; Main]) = Some ([], [], [Some false], THandle [], MPush 7 0, false) /\
  show (run 9 (init 7) [Thr 0; Change 7; Thr 0; Main; Thr 0]) = None /\
  show (run 9 (init 7) [Thr 0; Change 7; Thr 0; Main; Main; Main; Thr 0]) = Some ([], [(7, 0)], [Some false], TInside 7 [], MIdle, false).
Proof. repeat split; vm_compute; reflexivity. Qed.

(* ---- the end of monitors ---- *)
Lemma gone_step : forall cap s a s', invB s -> gone s = true -> step cap s a = Some (Ok s') -> gone s' = true.
Proof.
  intros cap s a s' I G S. destruct a as [m|g|g|g| |k|m|]; cbn [step] in S.
  - rewrite G, andb_false_r in S. discriminate.
  - destruct (idle s && live (flags s) g); [|discriminate]. injection S as <-. exact G.
  - destruct (idle s && live (flags s) g); [|discriminate]. injection S as <-. exact G.
  - destruct (idle s && live (flags s) g); [|discriminate]. injection S as <-. exact G.
  - unfold main in S. destruct (b_gone _ I G) as (_ & _ & E & _). destruct (mp s); try discriminate. injection S as <-. exact G.
  - destruct (thr_work _ _ _ S) as (_ & _ & -> & _). exact G.
  - injection S as <-. cbn. destruct (wd s); exact G.
  - injection S as <-. destruct (wd s); exact G.
Qed.
Definition threads (l : list act) : nat := length (filter (fun a => match a with Thr _ => true | _ => false end) l).
(* If the directory was not deleted then the destructor of the monitor returns: in every execution the thread never has to wait
   and makes a bounded number of steps until it is over. Missing: deleted directories, refuted below. *)
Theorem C142_join_partial : forall cap n s f, reach cap n s -> mp s = MJoin f -> deleted s = false ->
  forall l s', run cap s l = Some (Ok s') -> mp s' = MJoin f ->
    threads l <= 6 * length (queue s) + 3 * length (hand (tp s)) + 3 /\
    ((exists s'', step cap s' Main = Some (Ok s'') /\ gone s'' = true) \/ (forall k, exists s'', step cap s' (Thr k) = Some (Ok s''))).
Proof.
  intros cap n s f R M D l s' Rn M'.
  assert (work s <= 6 * length (queue s) + 3 * length (hand (tp s)) + 3) as W.
  { unfold work. destruct (tp s) as [| |es|x es|es|]; cbn [phase hand length]; lia. }
  assert (forall l s, invB s -> mp s = MJoin f -> deleted s = false -> run cap s l = Some (Ok s') ->
    threads l + work s' <= work s /\ invB s' /\ deleted s' = false) as G.
  { clear -M'. induction l as [|a l IH]; intros s I M D Rn; cbn [run] in Rn.
    - injection Rn as <-. cbn. auto.
    - destruct (step cap s a) as [[s1| | |]|] eqn:S; try discriminate. pose proof (step_B _ _ _ _ I S) as I1.
      destruct a as [m|g|g|g| |k|m|]; cbn [step] in S; unfold idle in S; rewrite ?M in S; try discriminate.
      + unfold main in S. rewrite M in S. destruct (tp s) eqn:T; try discriminate. injection S as <-.
        assert (forall l s, gone s = true -> mp s <> MJoin f -> invB s -> run cap s l = Some (Ok s') -> False) as Over.
        { clear -M'. induction l as [|a l IH]; intros s G N I Rn; cbn [run] in Rn; [congruence|].
          destruct (step cap s a) as [[s1| | |]|] eqn:S; try discriminate. pose proof (step_B _ _ _ _ I S) as I1. pose proof (gone_step _ _ _ _ I G S) as G1.
          refine (IH s1 G1 _ I1 Rn). destruct (b_gone _ I1 G1) as (_ & _ & E & _). intros X. rewrite X in E. discriminate. }
        exfalso. refine (Over l _ _ _ I1 Rn); [reflexivity|discriminate].
      + destruct (thr_work _ _ _ S) as (W & A & _ & B). rewrite M in A. rewrite D in B. destruct (IH s1 I1 A B Rn) as (X & Y). split; [|exact Y]. unfold threads in *. cbn [filter length]. lia.
      + pose proof (b_off _ I) as Off. rewrite M in Off. specialize (Off eq_refl). cbn in S. rewrite Off in S. injection S as <-. exact (IH _ I1 eq_refl D Rn).
      + pose proof (b_off _ I) as Off. rewrite M in Off. specialize (Off eq_refl). rewrite Off in S. injection S as <-. exact (IH _ I1 M D Rn). }
  destruct (G l s (reach_B _ _ _ R) M D Rn) as (X & I & D'). split; [lia|].
  pose proof (b_inv _ I) as I'. pose proof (i_lock _ I') as L. rewrite M' in L. unfold step, main, thr. rewrite M'.
  destruct (tp s') as [| |es|x es|es|] eqn:T; [right|right|right|right|right|left].
  - intros k. eauto.
  - intros k. pose proof (b_read _ I D') as Q. rewrite M', T in Q. specialize (Q eq_refl eq_refl). destruct (queue s'); [contradiction|]. eauto.
  - intros k. destruct es as [|[m| |] es]; eauto. destruct (lk s') as [[]|]; cbn in L; try (destruct L; discriminate). eauto.
  - intros k. unfold mark. destruct (first (files s') x) as [g|] eqn:F; [|cbn; eauto]. rewrite (proj1 (i_files _ I' _ _ (first_In _ _ _ F))). cbn. eauto.
  - intros k. eauto.
  - eexists. split; reflexivity.
Qed.
Example C142_join_ex :
  show (run 9 (init 7) (start ++ [Thr 0; Destroy 0] ++ leave ++ [Main; Main])) = Some ([Ignored], [], [Some false], TRead, MJoin 0, false) /\
  show (run 9 (init 7) (start ++ [Thr 0; Destroy 0] ++ leave ++ [Main; Main; Thr 0; Thr 0; Thr 0; Thr 0])) = Some ([], [], [Some false], TDone, MJoin 0, false).
Proof. split; vm_compute; reflexivity. Qed.

(* After the watched directory was deleted, destroying the last of its watches never returns: the thread has handled the last
   event of the system and reads again, inotify_rm_watch fails, and nobody can wake the thread any more *)
Theorem C142_join_refuted : forall cap n, exists s f, reach cap n s /\ mp s = MJoin f /\
  forall l s', run cap s l = Some (Ok s') -> mp s' = MJoin f /\ forall k, step cap s' Main = None /\ step cap s' (Thr k) = None.
Proof.
  intros cap n.
  assert (exists s, run cap (init n) (start ++ [Thr 0; Delete; Thr 0; Thr 0; Thr 0; Thr 0; Destroy 0] ++ leave ++ [Main; Main]) = Some (Ok s) /\
    mp s = MJoin 0 /\ tp s = TRead /\ queue s = [] /\ wd s = false) as (s & Rn & M & T & Q & W).
  { destruct cap as [|c]; eexists; (split; [vm_compute; reflexivity|repeat split]). }
  exists s, 0. split; [eexists; exact Rn|]. split; [exact M|]. clear Rn. intros l. revert s M T Q W.
  induction l as [|a l IH]; intros s M T Q W s' Rn; cbn [run] in Rn.
  - injection Rn as <-. split; [exact M|]. intros k. unfold step, main, thr. rewrite M, T, Q. split; reflexivity.
  - destruct (step cap s a) as [[s1| | |]|] eqn:S; try discriminate.
    destruct a as [m|g|g|g| |k|m|]; cbn [step] in S; unfold idle in S; rewrite ?M in S; try discriminate.
    + unfold main in S. rewrite M, T in S. discriminate.
    + unfold thr in S. rewrite T, Q in S. discriminate.
    + cbn in S. rewrite W in S. injection S as <-. refine (IH _ _ _ _ _ s' Rn); assumption || reflexivity.
    + rewrite W in S. injection S as <-. exact (IH _ M T Q W s' Rn).
Qed.

(* ---- changes ---- *)
(* A watch whose user clears it before loading the file is up to date whenever it reports no change and the thread has nothing left
   to handle. Missing: files watched twice (C120), changes that did not fit into the queue or happened after the directory was
   deleted, and users that load before they clear, as documented; all refuted. *)
Theorem C142_up_to_date_partial : forall cap n s f, reach cap n s -> twice s = false -> lost s = false ->
  mp s = MIdle -> live (flags s) f = true -> must s f = false -> has_changed s f = false ->
  queue s = [] -> hand (tp s) = [] -> seen s f = ver s (name s f).
Proof.
  intros cap n s f R Tw Lo M Lv Mu Hc Q Hd. pose proof (reach_C _ _ _ R) as C. pose proof (c_inv _ C) as I.
  destruct (i_all _ I f Lv) as [J|J]; [|rewrite M in J; discriminate]. apply in_map_iff in J. destruct J as ([m g] & E & J). cbn in E. subst g.
  destruct (c_ok _ C Tw Lo m f J) as [A|[A|[A|A]]].
  - unfold name. rewrite (proj2 (i_files _ I _ _ J)). exact A.
  - congruence.
  - unfold has_changed in Hc. rewrite A in Hc. discriminate.
  - rewrite Q, Hd in A. destruct A.
Qed.
(* between operations of the user the thread handles every event in a bounded number of steps without waiting *)
Theorem C142_handled : forall cap n s, reach cap n s -> mp s = MIdle -> gone s = false ->
  forall ks s', run cap s (map Thr ks) = Some (Ok s') ->
    length ks <= 6 * length (queue s) + 3 * length (hand (tp s)) + 3 /\
    ((forall k, exists s'', step cap s' (Thr k) = Some (Ok s'')) \/ (queue s' = [] /\ tp s' = TRead)).
Proof.
  intros cap n s R M G ks s' Rn.
  assert (work s <= 6 * length (queue s) + 3 * length (hand (tp s)) + 3) as W.
  { unfold work. destruct (tp s) as [| |es|x es|es|]; cbn [phase hand length]; lia. }
  assert (length ks + work s' <= work s /\ invB s' /\ mp s' = MIdle /\ gone s' = false) as (X & I & M' & G').
  { pose proof (reach_B _ _ _ R) as I. clear R W. revert s M G I Rn. induction ks as [|k ks IH]; intros s M G I Rn; cbn [map run] in Rn.
    - injection Rn as <-. cbn. auto.
    - destruct (step cap s (Thr k)) as [[s1| | |]|] eqn:S; try discriminate. pose proof (step_B _ _ _ _ I S) as I1. cbn in S. destruct (thr_work _ _ _ S) as (W & A & B & _).
      destruct (IH s1) as (X & Y); [congruence|congruence|exact I1|exact Rn|]. split; [cbn [length]; lia|exact Y]. }
  split; [lia|]. pose proof (b_inv _ I) as I'. pose proof (i_lock _ I') as L. rewrite M' in L. unfold step, thr.
  destruct (tp s') as [| |es|x es|es|] eqn:T.
  - left. intros k. eauto.
  - destruct (queue s') as [|e q]; [right; auto|left; eauto].
  - left. intros k. destruct es as [|[m| |] es]; eauto. destruct (lk s') as [[]|]; cbn in L; try (destruct L; discriminate). eauto.
  - left. intros k. unfold mark. destruct (first (files s') x) as [g|] eqn:F; [|cbn; eauto]. rewrite (proj1 (i_files _ I' _ _ (first_In _ _ _ F))). cbn. eauto.
  - left. intros k. eauto.
  - pose proof (b_done _ I T) as Dn. pose proof (b_alive _ I) as Al. rewrite G', M' in Al. cbn in Al. congruence.
Qed.
Definition told (o : option (outcome st)) (f : nat) : option (bool * nat * nat * bool * list event * tpc) :=
  match o with Some (Ok s) => Some (has_changed s f, seen s f, ver s (name s f), must s f, queue s, tp s) | _ => None end.
Example C142_up_to_date_ex :
  told (run 9 (init 7) (start ++ [Thr 0; Change 7] ++ handled ++ [Change 7] ++ [Clear 0; Load 0] ++ [Thr 0])) 0 = Some (false, 2, 2, false, [Named 7], TRead) /\
  told (run 9 (init 7) (start ++ [Thr 0; Change 7] ++ handled ++ [Clear 0; Change 7; Change 8; Load 0; Change 7; Thr 0; Thr 1; Thr 0; Thr 0])) 0
    = Some (true, 2, 3, false, [Named 7], TLeave [Named 8]) /\
  told (run 9 (init 7) (start ++ [Thr 0; Change 7] ++ handled ++ [Thr 0; Clear 0; Load 0])) 0 = Some (false, 1, 1, false, [], TRead).
Proof. repeat split; vm_compute; reflexivity. Qed.

(* only files that changed are reported *)
Theorem C142_sound : forall cap n s f, reach cap n s -> has_changed s f = true -> 0 < ver s (name s f).
Proof.
  intros cap n s f R H. apply (d_flags _ (reach_D _ _ _ R)). unfold has_changed in H. destruct (nth_error (flags s) f) as [[[]|]|]; try discriminate. reflexivity.
Qed.
(* the thread waits for events, the user runs no operation *)
Definition rest (n : nat) (b : bool) v e m : st := mks [] true [(n, 0)] [Some b] [n] None true TRead MIdle false v e m false false false.
Lemma rest_change : forall c n b v e m,
  run (S c) (rest n b v e m) ([Change n] ++ handled ++ [Thr 0]) = Some (Ok (rest n true (upd v n (S (v n))) e m)).
Proof. intros c n b v e m. unfold handled. lazy -[Nat.eqb upd]. rewrite Nat.eqb_refl. lazy -[Nat.eqb upd]. reflexivity. Qed.
Lemma run_app : forall cap l l' s, run cap s (l ++ l') = match run cap s l with Some (Ok s') => run cap s' l' | x => x end.
Proof. intros cap. induction l as [|a l IH]; intros l' s; [reflexivity|]. cbn [app run]. destruct (step cap s a) as [[s1| | |]|]; try reflexivity. apply IH. Qed.

(* The documented use of filewatches (reload, then set_unchanged) loses changes: the file changes after it was loaded and before
   the watch is cleared, and nothing ever tells the user, although nothing was lost on the way *)
Theorem C142_documented_refuted : forall cap n, 0 < cap -> exists s1 s,
  run cap (init n) (start ++ [Thr 0; Change n] ++ handled ++ [Thr 0]) = Some (Ok s1) /\ has_changed s1 0 = true /\
  run cap s1 ([Load 0; Change n] ++ handled ++ [Thr 0; Clear 0]) = Some (Ok s) /\
  has_changed s 0 = false /\ seen s 0 < ver s n /\ twice s = false /\ lost s = false /\ deleted s = false /\
  forall k, step cap s Main = None /\ step cap s (Thr k) = None.
Proof.
  intros [|c] n Hc; [lia|]. clear Hc.
  pose (e := upd (fun _ : nat => 0) 0 0). pose (m := upd (fun _ : nat => true) 0 false). pose (v := upd (fun _ : nat => 0) n 1). pose (e1 := upd e 0 (v n)).
  exists (rest n true v e m), (rest n false (upd v n (S (v n))) e1 (upd (upd m 0 false) 0 true)). split; [|split; [|split; [|split]]].
  - change (start ++ [Thr 0; Change n] ++ handled ++ [Thr 0]) with ((start ++ [Thr 0]) ++ ([Change n] ++ handled ++ [Thr 0])). rewrite run_app.
    replace (run (S c) (init n) (start ++ [Thr 0])) with (Some (Ok (rest n false (fun _ => 0) e m))) by reflexivity. apply rest_change.
  - reflexivity.
  - change ([Load 0; Change n] ++ handled ++ [Thr 0; Clear 0]) with ([Load 0] ++ ([Change n] ++ handled ++ [Thr 0]) ++ [Clear 0]). rewrite run_app.
    replace (run (S c) (rest n true v e m) [Load 0]) with (Some (Ok (rest n true v e1 (upd m 0 false)))) by reflexivity. rewrite (run_app _ ([Change n] ++ handled ++ [Thr 0])), rest_change. reflexivity.
  - reflexivity.
  - split; [|repeat split]. unfold rest, e1, v. cbn [seen ver]. unfold upd. rewrite !Nat.eqb_refl. lia.
Qed.

(* A full queue of the system loses changes: as many files as fit change, then the watched file changes; when the thread has
   handled everything the watch reports nothing *)
Definition bq (n : nat) (q : list event) v (t : tpc) (l : bool) e m : st := mks q true [(n, 0)] [Some false] [n] None true t MIdle false v e m l false false.
Lemma newest_last : forall q x e, newest (q ++ [x]) e = same x e.
Proof. intros q x e. unfold newest. rewrite rev_app_distr. reflexivity. Qed.
Lemma bq_fill : forall cap n e m len a q v, (forall x, newest q (Named x) = true -> x < a) -> length q + len <= cap -> n < a ->
  exists v', run cap (bq n q v TRead false e m) (map Change (seq a len)) = Some (Ok (bq n (q ++ map Named (seq a len)) v' TRead false e m)) /\ v' n = v n.
Proof.
  intros cap n e m. induction len as [|len IH]; intros a q v Hq Hl Ha; cbn [seq map run].
  - exists v. rewrite app_nil_r. split; reflexivity.
  - assert (newest q (Named a) = false) as N by (destruct (newest q (Named a)) eqn:N; [specialize (Hq _ N); lia|reflexivity]).
    assert (length q <? cap = true) as Lt by (apply Nat.ltb_lt; lia).
    cbn [step bq queue wd]. unfold push, room. rewrite N, Lt. cbn [orb negb].
    destruct (IH (S a) (q ++ [Named a]) (upd v a (S (v a)))) as (v' & E & V).
    + intros x. rewrite newest_last. cbn. intros X. apply Nat.eqb_eq in X. lia.
    + rewrite app_length. cbn. lia.
    + lia.
    + exists v'. rewrite <- app_assoc in E. split; [exact E|]. rewrite V. unfold upd. destruct (Nat.eqb_spec n a); [lia|reflexivity].
Qed.
Lemma bq_one : forall cap n e m v x r, x <> n ->
  run cap (bq n [] v (THandle (Named x :: r)) true e m) [Thr 0; Thr 0; Thr 0] = Some (Ok (bq n [] v (THandle r) true e m)).
Proof. intros cap n e m v x r N. apply Nat.eqb_neq in N. lazy -[Nat.eqb]. rewrite N. reflexivity. Qed.
Lemma bq_handle : forall cap n e m v ms, ~ In n ms ->
  run cap (bq n [] v (THandle (map Named ms ++ [Overflow])) true e m) (repeat (Thr 0) (3 * length ms + 3)) = Some (Ok (bq n [] v TRead true e m)).
Proof.
  intros cap n e m v. induction ms as [|x ms IH]; intros N; [reflexivity|]. replace (3 * length (x :: ms) + 3) with (S (S (S (3 * length ms + 3)))) by (cbn [length]; lia).
  cbn [map app]. change (repeat (Thr 0) (S (S (S ?k)))) with ([Thr 0; Thr 0; Thr 0] ++ repeat (Thr 0) k). rewrite run_app, bq_one.
  - apply IH. intros J. apply N. right. exact J.
  - intros ->. apply N. left. reflexivity.
Qed.
Theorem C142_overflow_refuted : forall cap n, exists s,
  run cap (init n) (start ++ [Thr 0] ++ map Change (seq (S n) cap) ++ [Change n; Thr cap] ++ repeat (Thr 0) (3 * cap + 3)) = Some (Ok s) /\
  has_changed s 0 = false /\ must s 0 = false /\ seen s 0 < ver s n /\ twice s = false /\ deleted s = false /\
  forall k, step cap s Main = None /\ step cap s (Thr k) = None.
Proof.
  intros cap n. pose (e := upd (fun _ : nat => 0) 0 0). pose (m := upd (fun _ : nat => true) 0 false).
  destruct (bq_fill cap n e m cap (S n) [] (fun _ => 0)) as (v & E & V); [discriminate|cbn; lia|lia|]. cbn [app] in E.
  exists (bq n [] (upd v n (S (v n))) TRead true e m). split; [|].
  - change (start ++ [Thr 0] ++ ?r) with ((start ++ [Thr 0]) ++ r). rewrite run_app.
    replace (run cap (init n) (start ++ [Thr 0])) with (Some (Ok (bq n [] (fun _ => 0) TRead false e m))) by reflexivity.
    rewrite run_app, E. cbn [app run step bq queue wd].
    assert (newest (map Named (seq (S n) cap)) (Named n) = false) as N.
    { destruct (newest (map Named (seq (S n) cap)) (Named n)) eqn:X; [|reflexivity]. apply newest_In, in_map_iff in X. destruct X as (x & X & Y). injection X as ->. apply in_seq in Y. lia. }
    assert (length (map Named (seq (S n) cap)) = cap) as Ln by (rewrite map_length, seq_length; reflexivity).
    assert (existsb (same Overflow) (map Named (seq (S n) cap)) = false) as Ov.
    { destruct (existsb (same Overflow) (map Named (seq (S n) cap))) eqn:X; [|reflexivity]. apply existsb_exists in X. destruct X as (x & X & Y). apply in_map_iff in X. destruct X as (y & <- & _). discriminate. }
    unfold push, room. rewrite N, Ln, Nat.ltb_irrefl, Ov. cbn [orb negb set_sys files flags names lk alive tp mp gone ver seen must lost twice deleted thr queue].
    pose proof (bq_handle cap n e m (upd v n (S (v n))) (seq (S n) cap)) as Hd. rewrite seq_length in Hd.
    assert (~ In n (seq (S n) cap)) as Ni by (rewrite in_seq; lia). specialize (Hd Ni).
    destruct (map Named (seq (S n) cap) ++ [Overflow]) as [|x q] eqn:Q; [destruct (map Named (seq (S n) cap)); discriminate|].
    assert (length q = cap) as Lq.
    { pose proof (f_equal (@length event) Q) as X. rewrite app_length, Ln in X. cbn in X. lia. }
    refine (eq_trans _ Hd). change (run cap (bq n (x :: q) (upd v n (S (v n))) TRead true e m) (Thr cap :: repeat (Thr 0) (3 * cap + 3)) =
      run cap (bq n [] (upd v n (S (v n))) (THandle (x :: q)) true e m) (repeat (Thr 0) (3 * cap + 3))).
    generalize (repeat (Thr 0) (3 * cap + 3)). intros l. clear -Lq. cbn [run step]. unfold thr. cbn [tp queue bq]. rewrite firstn_all2, skipn_all2 by lia. reflexivity.
  - split; [reflexivity|]. split; [reflexivity|]. split; [|repeat split]. cbn [seen ver bq]. unfold e, upd. rewrite !Nat.eqb_refl. lia.
Qed.

Lemma early_run : forall c n k v e m, n <> k ->
  run (S c) (bq n [Named k] v TRead false e m) ([Create k; Main; Main; Main; Load 1] ++ handled) =
  Some (Ok (mks [] true [(n, 0); (k, 1)] [Some false; Some true] [n; k] None true TCheck MIdle false v
                (upd (upd e 1 0) 1 (v k)) (upd (upd m 1 true) 1 false) false false false)).
Proof.
  intros c n k v e m Nk. assert ((k =? n) = false) as N by (apply Nat.eqb_neq; congruence). unfold handled. lazy -[Nat.eqb upd]. rewrite N, Nat.eqb_refl. reflexivity.
Qed.
(* a watch can report a change that was made before the watch: the thread has not handled it yet when the file is added *)
Theorem C142_early_refuted : forall cap n k, 0 < cap -> n <> k -> exists s s',
  run cap (init n) (start ++ [Thr 0; Change k]) = Some (Ok s) /\
  run cap s ([Create k; Main; Main; Main; Load 1] ++ handled) = Some (Ok s') /\ ver s' k = ver s k /\ has_changed s' 1 = true /\ seen s' 1 = ver s' k.
Proof.
  intros [|c] n k Hc Nk; [lia|]. pose (e := upd (fun _ : nat => 0) 0 0). pose (m := upd (fun _ : nat => true) 0 false). pose (v := upd (fun _ : nat => 0) k 1).
  pose proof (early_run c n k v e m Nk) as E.
  eexists. eexists. split; [|split; [exact E|]].
  - change (start ++ [Thr 0; Change k]) with ((start ++ [Thr 0]) ++ [Change k]). rewrite run_app.
    replace (run (S c) (init n) (start ++ [Thr 0])) with (Some (Ok (bq n [] (fun _ => 0) TRead false e m))) by reflexivity. reflexivity.
  - cbn [ver bq]. split; [reflexivity|]. split; [reflexivity|]. cbn [seen]. unfold upd. reflexivity.
Qed.

Print Assumptions C142_safe.
Print Assumptions C142_lock.
Print Assumptions C142_join_partial.
Print Assumptions C142_join_refuted.
Print Assumptions C142_up_to_date_partial.
Print Assumptions C142_handled.
Print Assumptions C142_sound.
Print Assumptions C142_documented_refuted.
Print Assumptions C142_overflow_refuted.
Print Assumptions C142_early_refuted.

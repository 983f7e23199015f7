(* C134: appending is cheap on average, because capacities at least double. *)
From Coq Require Import NArith List Lia Bool Arith.
From Verif Require Import Base GrowSpec GrowProofs.
From Verif Require Import AllocProps.
From Verif Require VecModel VecProofs SStrModel SboModel SboSpec SboProofs SetModel MapModel.
From Verif Require GrowVecProofs GrowStreamProofs GrowSboProofs GrowSetProofs GrowMapProofs.
Import ListNotations.
Open Scope N_scope.

(* ---- vector ---- *)
Definition vuse {A} (v : VecModel.vec A) : N * N := (VecModel.size v, VecModel.cap v).

(* the vector never holds, and is never asked for, more than m elements: it moves at most 2 m and reallocates at most
   log2 (4 m) times, however many operations there are *)
Theorem C134_vector : forall A (ops : list (VecModel.op A)) t m, m < 2 ^ 62 ->
  trace VecModel.step VecModel.init ops = Ok t ->
  Forall (fun o => vasks o <= m /\ vno_wrap o) ops -> Forall (fun v => VecModel.size v <= m) t ->
  moved (map vuse t) <= 2 * m /\ (grown (map vuse t) = 0 \/ 2 ^ grown (map vuse t) <= 4 * m).
Proof.
  intros A ops t m Hm H G P.
  destruct (amortized VecModel.step vuse (GrowVecProofs.ok m) (fun v => VecModel.size v <= m)
    (fun o : VecModel.op A => vasks o <= m /\ vno_wrap o) 1) with (os := ops) (s := @VecModel.init A) (t := t) (d := @VecModel.init A)
    as [[I1 I2] [M [_ W]]]; auto.
  - intros s [S C]. cbn [vuse fst snd]. lia.
  - intros s o s' r I Q E B. apply (GrowVecProofs.step_cap m Hm s o s' r); auto.
  - split; cbn; lia.
  - cbn [vuse fst snd] in *. split; [lia|]. destruct W; auto. right. lia.
Qed.

(* n push_backs succeed and move at most 2 n elements *)
Theorem C134_push_back : forall A (xs : list A), N.of_nat (length xs) < 2 ^ 48 ->
  exists t, trace VecModel.step VecModel.init (map (@VecModel.PushBack A) xs) = Ok t /\ length t = S (length xs) /\
    VecModel.size (last t VecModel.init) = N.of_nat (length xs) /\ moved (map vuse t) <= 2 * N.of_nat (length xs).
Proof.
  intros A xs HL.
  assert (R : forall xs (v : VecModel.vec A) l m, VecProofs.rep v l -> N.of_nat (length l + length xs) <= m -> m < 2 ^ 48 ->
    exists t, trace VecModel.step v (map (@VecModel.PushBack A) xs) = Ok t /\ length t = S (length xs) /\
      VecModel.size (last t VecModel.init) = N.of_nat (length l + length xs) /\ Forall (fun v => VecModel.size v <= m) t).
  { clear. induction xs as [|x xs IH]; intros v l m R B C; cbn [map trace length] in *.
    - exists [v]. repeat split; auto; cbn [last].
      + rewrite (VecProofs.r_size _ _ R). f_equal. lia.
      + constructor; auto. rewrite (VecProofs.r_size _ _ R). lia.
    - destruct (VecProofs.emplace_back_spec v l (VecModel.Val x) x R ltac:(lia) eq_refl) as [v' [E R']].
      cbn [VecModel.step]. unfold VecModel.ru. rewrite E. cbn [bind].
      destruct (IH v' (l ++ [x]) m R' ltac:(rewrite app_length; cbn [length]; lia) C) as [t [T [L [Z F]]]]. rewrite T. cbn [bind].
      exists (v :: t). split; auto. split; [cbn [length]; lia|]. split.
      + destruct t as [|w t]; [discriminate|]. change (last (v :: w :: t) VecModel.init) with (last (w :: t) VecModel.init). rewrite Z, app_length. cbn [length]. f_equal. lia.
      + constructor; auto. rewrite (VecProofs.r_size _ _ R). lia. }
  destruct (R xs VecModel.init [] (N.of_nat (length xs)) VecProofs.rep_init ltac:(cbn [length]; lia) HL) as [t [T [L [Z F]]]].
  exists t. split; auto. split; auto. split; auto.
  apply (C134_vector A _ t (N.of_nat (length xs)) ltac:(assert (2 ^ 48 * 16384 = 2 ^ 62) by reflexivity; lia) T); auto.
  apply Forall_map. apply Forall_forall. intros x _. cbn. split; [lia|exact Logic.I].
Qed.

(* ---- string_stream ---- *)
Definition suse (x : SStrModel.stream * SStrModel.heap) : N * N := (SStrModel.size (fst x), SStrModel.cap (fst x)).
(* at most m characters, reserve never asked for more than r additional ones *)
Theorem C134_stream : forall ops h t m r, m + r < 2 ^ 62 ->
  trace sstep (SStrModel.init, h) ops = Ok t ->
  Forall (room_most r) ops -> Forall (fun x => SStrModel.size (fst x) <= m) t ->
  moved (map suse t) <= 2 * (m + r) /\ (grown (map suse t) = 0 \/ 2 ^ grown (map suse t) <= 4 * (m + r)).
Proof.
  intros ops h t m r Hm H G P.
  destruct (amortized sstep suse (fun x => GrowStreamProofs.ok m r x /\ SStrModel.size (fst x) <= m)
    (fun x => SStrModel.size (fst x) <= m) (room_most r) 1) with (os := ops) (s := (SStrModel.init, h)) (t := t) (d := (SStrModel.init, h))
    as [[[I1 I2] _] [M [_ W]]]; auto.
  - intros s [[S C] _]. cbn [suse fst snd]. lia.
  - intros s o s' u I Q E B. apply (GrowStreamProofs.sstep_cap m r Hm s o s' u); auto.
  - split; [split|]; cbn; lia.
  - cbn [suse fst snd] in *. split; [lia|]. destruct W; auto. right. lia.
Qed.

(* ---- sbo_string ---- *)
Definition buse (sc : N) (s : SboModel.sbo) : N * N := (SboModel.ssz s, GrowSboProofs.cap_of sc s).
(* push_back, +=, insert, replace and pop_back: at most 2 m characters are moved *)
Theorem C134_string_partial : forall sc ops t m, 7 <= sc < 2 ^ 60 -> m < 2 ^ 62 ->
  trace (SboModel.step sc) (SboModel.sinit sc) ops = Ok t ->
  Forall appends ops -> Forall (fun s => SboModel.ssz s <= m) t ->
  moved (map (buse sc) t) <= 2 * m /\ (grown (map (buse sc) t) = 0 \/ 2 ^ grown (map (buse sc) t) * sc <= 2 * m).
Proof.
  intros sc ops t m Hsc Hm H G P.
  destruct (amortized (SboModel.step sc) (buse sc) (GrowSboProofs.ok sc m) (fun s => SboModel.ssz s <= m)
    appends 1) with (os := ops) (s := SboModel.sinit sc) (t := t) (d := SboModel.sinit sc)
    as [[I0 [I1 [I2 I3]]] [M [W _]]]; auto.
  - intros s [S [C [D F]]]. cbn [buse fst snd]. lia.
  - intros s o s' u I Q E B. apply (GrowSboProofs.step_cap sc m Hsc Hm s o s' u); auto.
  - apply GrowSboProofs.ok_init; auto.
  - cbn [buse fst snd] in *. change (GrowSboProofs.cap_of sc (SboModel.sinit sc)) with sc in *. split; [lia|].
    destruct (N.eq_dec (grown (map (buse sc) t)) 0) as [Z|Z]; auto. right.
    assert (2 ^ 1 <= 2 ^ grown (map (buse sc) t)) by (apply N.pow_le_mono_r; lia). change (2 ^ 1) with 2 in *.
    assert (2 * sc <= 2 ^ grown (map (buse sc) t) * sc) by (apply N.mul_le_mono_r; auto). lia.
Qed.

(* resize (through reserve) takes exactly the size asked for: growing a string by one character at a time moves all of them
   every time *)
Lemma resize_exact : forall sc s n c d s', SboModel.capacity sc s = Ok d -> d < n -> n < 2 ^ 64 ->
  SboModel.resize sc s n c = Ok s' -> SboModel.capacity sc s' = Ok n /\ SboModel.ssz s' = n.
Proof.
  intros sc s n c d s' C L B H. unfold SboModel.resize, SboModel.reserve in H. rewrite C in H. cbn [bind] in H.
  destruct (N.leb_spec n d); [lia|]. apply bind_Ok in H. destruct H as [s1 [G H]]. apply bind_Ok in H. destruct H as [b [Hb H]].
  assert (C1 : SboModel.capacity sc s1 = Ok n).
  { unfold SboModel.reserve_force in G. inv G. injection G as <-. apply GrowSboProofs.set_heap_cap; auto. }
  inv H. assert (E1 : s' = SboModel.put s1 a0 n) by congruence. rewrite E1. destruct (GrowSboProofs.put_cap sc s1 b a0 n Hb) as [E2 E3]. rewrite E2, E3. auto.
Qed.
Fixpoint resizes (n : N) (k : nat) : list SboModel.op :=
  match k with O => [] | S k => SboModel.Resize (n + 1) 65 :: resizes (n + 1) k end.
Lemma resizes_cost : forall sc, 7 <= sc < 2 ^ 60 -> forall k s l, SboProofs.rep sc s l true -> SboModel.capacity sc s = Ok (SboSpec.len l) ->
  SboSpec.len l + N.of_nat k < 2 ^ 60 ->
  exists t, trace (SboModel.step sc) s (resizes (SboSpec.len l) k) = Ok t /\
    2 * moved (map (buse sc) t) + N.of_nat k = N.of_nat k * (2 * SboSpec.len l + N.of_nat k) /\
    grown (map (buse sc) t) = N.of_nat k /\ SboModel.ssz (last t s) = SboSpec.len l + N.of_nat k.
Proof.
  intros sc Hsc. induction k as [|k IH]; intros s l R C B.
  - exists [s]. cbn [resizes trace map moved grown last]. destruct (buse sc s). split; auto. split; [reflexivity|]. split; auto.
    destruct R as [_ [Z _]]. rewrite Z. lia.
  - set (n := SboSpec.len l) in *. assert (N60 : 2 ^ 60 * 16 = 2 ^ 64) by reflexivity.
    destruct (SboProofs.resize_rep sc Hsc s l true (n + 1) 65 R ltac:(lia)) as [s' [E R']].
    destruct (resize_exact sc s (n + 1) 65 n s' C ltac:(lia) ltac:(lia) E) as [C' Z'].
    set (l' := firstn (N.to_nat (n + 1)) l ++ repeat 65 (N.to_nat (n + 1) - length l)) in *.
    assert (LL : SboSpec.len l' = n + 1). { destruct R' as [_ [Z2 _]]. congruence. }
    destruct (IH s' l' R' ltac:(rewrite LL; auto) ltac:(lia)) as [t [T [M [G L]]]].
    cbn [resizes trace SboModel.step]. unfold SboModel.ru. rewrite E. cbn [bind]. rewrite LL in *. rewrite T. cbn [bind].
    exists (s :: t). split; auto. destruct (trace_hd _ _ _ _ T) as [t' ->]. cbn [map] in *.
    assert (U : buse sc s = (n, n)). { unfold buse, GrowSboProofs.cap_of. rewrite C. destruct R as [_ [Z2 _]]. rewrite Z2. auto. }
    assert (U' : buse sc s' = (n + 1, n + 1)). { unfold buse, GrowSboProofs.cap_of. rewrite C', Z'. auto. }
    rewrite U, U' in *.
    change (moved ((n, n) :: (n + 1, n + 1) :: map (buse sc) t')) with ((if n =? n + 1 then 0 else n) + moved ((n + 1, n + 1) :: map (buse sc) t')).
    change (grown ((n, n) :: (n + 1, n + 1) :: map (buse sc) t')) with ((if n =? n + 1 then 0 else 1) + grown ((n + 1, n + 1) :: map (buse sc) t')).
    destruct (N.eqb_spec n (n + 1)); [lia|].
    replace (N.of_nat (S k)) with (N.of_nat k + 1) by lia. split; [|split].
    + set (mv := moved _) in *. clearbody mv. set (q := N.of_nat k) in *. clearbody q. clearbody n. clear - M. lia.
    + lia.
    + change (last (s :: s' :: t') s) with (last (s' :: t') s). assert (LE : forall (x : list SboModel.sbo) a d1 d2, last (a :: x) d1 = last (a :: x) d2).
      { clear. induction x as [|y x IH]; intros; auto. change (last (a :: y :: x) d1) with (last (y :: x) d1). change (last (a :: y :: x) d2) with (last (y :: x) d2). auto. }
      rewrite (LE t' s' s s'). lia.
Qed.
(* so no bound linear in the number of characters holds for resize *)
Theorem C134_string_resize_refuted : forall sc c, 7 <= sc < 2 ^ 58 -> c < 2 ^ 56 -> exists k t,
  trace (SboModel.step sc) (SboModel.sinit sc) (SboModel.Resize sc 65 :: resizes sc k) = Ok t /\
  moved (map (buse sc) t) > c * SboModel.ssz (last t (SboModel.sinit sc)) /\ grown (map (buse sc) t) = N.of_nat k.
Proof.
  intros sc c Hsc Hc. set (k := N.to_nat (2 * c + 2)). exists k.
  assert (P : 2 ^ 58 * 4 = 2 ^ 60) by reflexivity. assert (P' : 2 ^ 56 * 4 = 2 ^ 58) by reflexivity.
  assert (H60 : 7 <= sc < 2 ^ 60) by lia.
  destruct (SboProofs.resize_rep sc H60 (SboModel.sinit sc) [] true sc 65 (SboProofs.rep_init sc H60) ltac:(lia)) as [s [E R]].
  assert (C : SboModel.capacity sc s = Ok sc).
  { unfold SboModel.resize, SboModel.reserve in E. cbn [SboModel.capacity SboModel.is_short SboModel.sinit SboModel.loc bind] in E.
    rewrite N.leb_refl in E. cbn [bind] in E. apply bind_Ok in E. destruct E as [b [Hb E]]. inv E. assert (E2 : s = SboModel.put (SboModel.sinit sc) a0 sc) by (symmetry; congruence).
    rewrite E2. reflexivity. }
  set (l := firstn _ _ ++ _) in R. assert (LL : SboSpec.len l = sc). { unfold l. rewrite firstn_nil. cbn [app]. unfold SboSpec.len. rewrite repeat_length. cbn [length]. lia. }
  destruct (resizes_cost sc H60 k s l R ltac:(rewrite LL; auto) ltac:(rewrite LL; unfold k; lia)) as [t [T [M [G L]]]]. rewrite LL in *.
  exists (SboModel.sinit sc :: t). cbn [trace SboModel.step]. unfold SboModel.ru. rewrite E. cbn [bind]. rewrite T. cbn [bind]. split; auto.
  destruct (trace_hd _ _ _ _ T) as [t' ->]. cbn [map] in *.
  assert (U : buse sc (SboModel.sinit sc) = (0, sc)) by reflexivity.
  assert (U' : snd (buse sc s) = sc). { unfold buse, GrowSboProofs.cap_of. rewrite C. auto. }
  rewrite U. destruct (buse sc s) as [a b] eqn:UE. cbn [snd] in U'. subst b.
  change (moved ((0, sc) :: (a, sc) :: map (buse sc) t')) with ((if sc =? sc then 0 else 0) + moved ((a, sc) :: map (buse sc) t')).
  change (grown ((0, sc) :: (a, sc) :: map (buse sc) t')) with ((if sc =? sc then 0 else 1) + grown ((a, sc) :: map (buse sc) t')).
  rewrite N.eqb_refl. split; [|lia].
  change (last (SboModel.sinit sc :: s :: t') (SboModel.sinit sc)) with (last (s :: t') (SboModel.sinit sc)).
  assert (LE : forall (x : list SboModel.sbo) a d1 d2, last (a :: x) d1 = last (a :: x) d2).
  { clear. induction x as [|y x IH]; intros; auto. change (last (a :: y :: x) d1) with (last (y :: x) d1). change (last (a :: y :: x) d2) with (last (y :: x) d2). auto. }
  rewrite (LE t' s _ s), L. replace (N.of_nat k) with (2 * c + 2) in * by (unfold k; lia).
  set (mv := moved _) in *. clearbody mv. clear - M Hsc.
  assert (2 * mv = (2 * c + 2) * (2 * sc + (2 * c + 2)) - (2 * c + 2)) by lia.
  assert (0 <= c * sc) by lia. assert (0 <= c * c) by lia. lia.
Qed.

(* ---- set and map: elements that are rehashed ---- *)
Definition tuse {T} (s : SetModel.set T) : N * N := (SetModel.ssize s, SetModel.nbuckets s).
Theorem C134_set : forall T (hash : T -> N) eqb (ops : list (SetModel.op T)) t m, m < 2 ^ 62 ->
  trace (SetModel.step hash eqb) SetModel.init ops = Ok t ->
  Forall set_op ops -> Forall (fun s => SetModel.ssize s <= m) t ->
  moved (map tuse t) <= N.max 4 (2 * m) /\ SetModel.ssize (last t SetModel.init) <= SetModel.nbuckets (last t SetModel.init).
Proof.
  intros T hash eqb ops t m Hm H G P.
  destruct (amortized (SetModel.step hash eqb) tuse (GrowSetProofs.ok m) (fun s => SetModel.ssize s <= m)
    set_op 1) with (os := ops) (s := @SetModel.init T) (t := t) (d := @SetModel.init T)
    as [[I0 [I1 I2]] [M [W _]]]; auto.
  - intros s [S [C D]]. cbn [tuse fst snd]. lia.
  - intros s o s' u I Q E B. apply (GrowSetProofs.step_cap hash eqb m Hm s o s' u); auto.
  - apply GrowSetProofs.ok_init; auto.
  - cbn [tuse fst snd] in *. split; [lia|auto].
Qed.

Definition muse {K V} (x : MapModel.map K V) : N * N := (MapModel.msize x, MapModel.nbuckets x).
Theorem C134_map : forall K V (hash : K -> N) eqb (dflt : V) (ops : list (MapModel.op K V)) t m, m < 2 ^ 61 ->
  trace (MapModel.step hash eqb dflt) MapModel.init ops = Ok t ->
  Forall (fun o => masks o <= m + 1) ops -> Forall (fun x => MapModel.msize x <= m) t ->
  moved (map muse t) <= N.max 8 (4 * (m + 1)).
Proof.
  intros K V hash eqb dflt ops t m Hm H G P.
  destruct (amortized (MapModel.step hash eqb dflt) muse (GrowMapProofs.ok m) (fun s => MapModel.msize s <= m)
    (fun o => masks o <= m + 1) 2) with (os := ops) (s := @MapModel.init K V) (t := t) (d := @MapModel.init K V)
    as [[I0 [I1 [I2 [I3 I4]]]] [M [W _]]]; auto.
  - intros s [S [C [D _]]]. cbn [muse fst snd]. lia.
  - intros s o s' u I Q E B. apply (GrowMapProofs.step_cap hash eqb dflt m Hm s o s' u); auto.
  - apply GrowMapProofs.ok_init; auto.
  - cbn [muse fst snd] in *. lia.
Qed.

(* ---- examples ---- *)
(* nine push_backs: capacities 1 2 4 8 16, 0 + 1 + 2 + 4 + 8 elements moved *)
Example C134_vector_example :
  get [] (let! t := trace VecModel.step VecModel.init (repeat (VecModel.PushBack 7) 9) in Ok (map vuse t)) =
    [(0, 0); (1, 1); (2, 2); (3, 4); (4, 4); (5, 8); (6, 8); (7, 8); (8, 8); (9, 16)] /\
  get 0 (let! t := trace VecModel.step VecModel.init (repeat (VecModel.PushBack 7) 9) in Ok (moved (map vuse t))) = 15 /\
  get 0 (let! t := trace VecModel.step VecModel.init (repeat (VecModel.PushBack 7) 9) in Ok (grown (map vuse t))) = 5.
Proof. repeat split; vm_compute; reflexivity. Qed.
Example C134_stream_example :
  get [] (let! t := trace sstep (SStrModel.init, []) [Write [1; 2; 3]; WriteChar 4; WriteChar 5; Restart; Room 7; Write [1; 2]] in Ok (map suse t)) =
    [(0, 0); (3, 3); (4, 6); (5, 6); (0, 6); (0, 12); (2, 12)].
Proof. vm_compute; reflexivity. Qed.
Example C134_string_example :
  get [] (let! t := trace (SboModel.step 15) (SboModel.sinit 15) [SboModel.Append (repeat 65 15); SboModel.PushBack 66; SboModel.Append (repeat 67 20);
     SboModel.Insert 1 [68]; SboModel.PopBack] in Ok (map (buse 15) t)) = [(0, 15); (15, 15); (16, 30); (36, 60); (37, 60); (36, 60)] /\
  get [] (let! t := trace (SboModel.step 15) (SboModel.sinit 15) (SboModel.Resize 15 65 :: resizes 15 3) in Ok (map (buse 15) t)) =
    [(0, 15); (15, 15); (16, 16); (17, 17); (18, 18)].
Proof. split; vm_compute; reflexivity. Qed.
Example C134_set_example :
  get [] (let! t := trace (SetModel.step (fun x => x) N.eqb) SetModel.init (map SetModel.Add [1; 2; 3; 4; 5; 5; 6]) in Ok (map tuse t)) =
    [(0, 0); (1, 4); (2, 4); (3, 4); (4, 4); (5, 8); (5, 8); (6, 8)].
Proof. vm_compute; reflexivity. Qed.
Example C134_map_example :
  get [] (let! t := trace (MapModel.step (fun x => x) N.eqb 0) MapModel.init (map (fun k => MapModel.Assign k 0) [1; 2; 3; 4; 5; 5; 6]) in Ok (map muse t)) =
    [(0, 0); (1, 4); (2, 4); (3, 4); (4, 4); (5, 4); (5, 8); (6, 8)].
Proof. vm_compute; reflexivity. Qed.

Print Assumptions C134_vector.
Print Assumptions C134_push_back.
Print Assumptions C134_stream.
Print Assumptions C134_string_partial.
Print Assumptions C134_string_resize_refuted.
Print Assumptions C134_set.
Print Assumptions C134_map.

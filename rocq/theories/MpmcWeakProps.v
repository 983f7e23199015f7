(* C135: mpmc_queue under the release/acquire memory model of C++ (MpmcWeakModel.v), for every capacity 2^k, every number of
   threads and every choice of the values that loads may return. *)
From Coq Require Import NArith Arith List Bool Lia Permutation.
From Verif Require Import Base MpmcModel MpmcSpec RingProofs MpmcProofs MpmcProps MpmcWeakModel MpmcWeakProofs.
Import ListNotations.
Open Scope N_scope.

Section C135.
  Context {T : Type} (k : N) (K1 : 1 <= k) (K2 : k <= 62).

  (* no data race and no lost store in any execution, and every execution is explained by atomic operations on a bounded FIFO *)
  Theorem C135_linearizable : forall (d0 : N -> T) l, N.of_nat (length l) < 2 ^ 62 ->
    exists w0, winit (2 ^ k) d0 = Ok w0 /\ exists w es a, wrun code w0 l = Ok (w, es) /\ aruns (2 ^ k) ainit es a.
  Proof.
    intros d0 l B. unfold winit. rewrite (init_Ok k K1 K2). cbn [bind]. eexists. split; [reflexivity|].
    match goal with |- exists w es a, wrun _ ?W _ = _ /\ _ => destruct (w_init k K1 K2 (2 ^ k) d0 W eq_refl) as [W0 R0] end.
    { unfold winit. rewrite (init_Ok k K1 K2). reflexivity. }
    destruct (wrun_spec k K1 K2 l 0 _ _ W0 ltac:(lia) R0) as (w & es & a & E & _ & A & _). eauto.
  Qed.

  Theorem C135_conservation : forall (d0 : N -> T) l w0 w es, N.of_nat (length l) < 2 ^ 62 -> winit (2 ^ k) d0 = Ok w0 -> wrun code w0 l = Ok (w, es) ->
    exists rest, Permutation (calls es) (rest ++ rets es).
  Proof.
    intros d0 l w0 w es B E W. destruct (C135_linearizable d0 l B) as (w1 & E1 & w2 & es2 & a & W2 & H). rewrite E in E1. injection E1 as <-.
    rewrite W in W2. injection W2 as <- <-. destruct (cons_runs _ _ _ _ H [] cons_init) as [pe [pd [fl [_ [_ P]]]]]. cbn [app] in P.
    exists (fl ++ map snd pe ++ fifo a ++ map snd pd). rewrite P, <- !app_assoc. auto.
  Qed.

  (* the sequentially consistent executions of MpmcModel.v are among them *)
  Theorem C135_includes_sc : forall (d0 : N -> T) l s0 w0, N.of_nat (length l) < 2 ^ 62 -> init (2 ^ k) d0 = Ok s0 -> winit (2 ^ k) d0 = Ok w0 ->
    exists l' w, length l' = length l /\ wrun code w0 l' = Ok (w, snd (run s0 l)) /\ base w = fst (run s0 l).
  Proof.
    intros d0 l s0 w0 B E0 E1. destruct (w_init k K1 K2 _ _ _ eq_refl E1) as [W0 R0].
    destruct (sc_run k K1 K2 l 0 _ _ W0 ltac:(lia) R0) as (l' & w & es & L & E & A). exists l', w.
    unfold winit in E1. rewrite E0 in E1. injection E1 as <-. cbn [base] in A. rewrite A. auto.
  Qed.

  (* if every call so far has returned and happens before the next call of t, then that call behaves as if it ran alone,
     whatever its loads return and however often its compare-exchanges fail *)
  Theorem C135_synchronized : forall (d0 : N -> T) l w0 w es us t c picks,
    N.of_nat (length l) + N.of_nat (length us) + N.of_nat (length picks) + 6 < 2 ^ 62 ->
    winit (2 ^ k) d0 = Ok w0 -> wrun code w0 l = Ok (w, es) -> (forall u, thr (base w) u = Idle) -> (forall x, In x l -> In (actor x) us) ->
    exists a w1 w2 es2, aruns (2 ^ k) ainit es a /\ wrun code w (map (fun u => WSync u t) us) = Ok (w1, []) /\
      wrun code w1 (WCall t c :: map (WGo t) picks) = Ok (w2, es2) /\
      (es2 = [ECall t c] \/ es2 = [ECall t c; ERet t (snd (seq_step (2 ^ k) (fifo a) c))]) /\
      (picks = repeat None 5 -> es2 = [ECall t c; ERet t (snd (seq_step (2 ^ k) (fifo a) c))]).
  Proof.
    intros d0 l w0 w es us t c picks B E0 E Q U. destruct (w_init k K1 K2 _ _ _ eq_refl E0) as [W0 R0].
    destruct (wrun_spec k K1 K2 l 0 _ _ W0 ltac:(lia) R0) as (w' & es' & a & E' & W & A & RR). rewrite E in E'. injection E' as <- <-.
    assert (CV : covered w us).
    { apply (covered_run k K1 K2 l 0 w0 ainit us w es); auto; [lia|rewrite Forall_forall; exact U|].
      unfold winit in E0. apply bind_Ok in E0. destruct E0 as (s & _ & E0). injection E0 as <-. repeat split; cbn; auto. }
    destruct (sync_run k K1 K2 us w t Q) as (w1 & E1 & B1 & H1 & H2 & H3 & _ & _).
    assert (LM : length (map (fun u => @WSync T u t) us) = length us) by apply map_length.
    destruct (wrun_spec k K1 K2 (map (fun u => WSync u t) us) _ _ _ W ltac:(rewrite LM; lia) RR) as (w1' & e1 & a1 & E1' & W1 & A1 & RR1).
    rewrite E1 in E1'. injection E1' as <- <-. rewrite LM in W1. set (n1 := 0 + N.of_nat (length l) + N.of_nat (length us)) in *.
    assert (B1' : n1 + N.of_nat (length picks) + 6 < 2 ^ 62) by (unfold n1; lia). clearbody n1.
    assert (CO : complete w1 t).
    { apply (sync_complete k K1 K2 n1 w us t w1 []); auto. constructor; try apply W; try (rewrite <- ?B1; apply W1); auto. }
    assert (Q1 : forall u, thr (base w1) u = Idle) by (rewrite B1; exact Q).
    set (s1 := set_thr (base w1) t (match c with Enq v => ELoad v | Deq => DLoad end)).
    assert (AC : act (base w1) (Call t c) = (s1, [ECall t c])) by (cbn; rewrite Q1; reflexivity).
    destruct (wact_spec k K1 K2 n1 w1 a (WCall t c) W1 ltac:(lia) ltac:(rewrite B1; exact RR)) as (w2 & e2 & E2 & W2 & a2 & A2 & RR2).
    pose proof (complete_step k K1 K2 n1 w1 (WCall t c) w2 e2 W1 W2 E2 CO) as CO2. cbn [actor] in CO2.
    assert (BW : base w2 = s1 /\ e2 = [ECall t c]). { cbn [wact] in E2. rewrite AC in E2. injection E2 as <- <-. split; reflexivity. }
    destruct BW as [BW ->].
    assert (LP : length (map (@WGo T t) picks) = length picks) by apply map_length.
    destruct (alone_run k K1 K2 (map (WGo t) picks) (n1 + 1) w2 a2 t W2 ltac:(rewrite LP; lia) RR2 CO2) as (l' & w3 & e3 & LL & FF & NC & E3 & G3 & _).
    { rewrite Forall_forall. intros x X. apply in_map_iff in X. destruct X as (p & <- & _). reflexivity. }
    assert (NC' : forall u c, ~ In (Call u c) l'). { apply NC. intros u c' X. apply in_map_iff in X. destruct X as (p & X & _). discriminate. }
    exists a, w1, w3, ([ECall t c] ++ e3). split; [exact A|]. split; [exact E1|].
    assert (E4 : wrun code w1 (WCall t c :: map (WGo t) picks) = Ok (w3, [ECall t c] ++ e3)).
    { cbn [wrun]. rewrite E2. cbn [bind]. rewrite E3. reflexivity. }
    assert (AQ : fifo a = absq s1) by (destruct RR as [RR _]; rewrite RR, <- B1; reflexivity).
    split; [exact E4|]. split.
    - assert (X : snd (run (base w2) l') = [] \/ snd (run (base w2) l') = [ERet t (snd (seq_step (2 ^ k) (fifo a) c))]).
      { apply (solo_run k K1 K2 l' (n1 + 1) (base w2) t c (fifo a)); auto.
        - apply W2.
        - rewrite LP in LL. lia.
        - intros u NE. rewrite BW. unfold s1. cbn. rewrite upd_neq; auto.
        - rewrite BW, AQ. unfold solo_at, s1. cbn. rewrite upd_eq. destruct c; auto. }
      rewrite G3 in X. cbn in X. destruct X as [-> | ->]; auto.
    - intros ->. destruct (solo5 k K1 K2 n1 (base w1) t c (b_inv _ _ _ W1) ltac:(lia) Q1) as (s' & S5 & _).
      assert (AQ1 : fifo a = absq (base w1)) by (destruct RR as [RR _]; rewrite RR, <- B1; reflexivity). rewrite AQ1.
      cbn [run] in S5. rewrite AC in S5. destruct (none_gos k K1 K2 5 (n1 + 1) w2 a2 t W2 ltac:(lia) RR2) as (w4 & e4 & E5 & G5).
      rewrite BW in G5. rewrite G5 in S5. cbn [map repeat] in E3. cbn [repeat] in E5. rewrite E3 in E5. injection E5 as <- <-. injection S5 as _ S5. cbn [app]. f_equal. exact S5.
  Qed.
End C135.

(* message passing: values name a thread u and a number m of actions that u did outside of the queue.  If whoever enqueues
   (u, m) comes after the first m of them, then so does whoever dequeues it, once dequeue has returned. *)
Theorem C135_message_passing : forall k d0 l w0 w es, 1 <= k -> k <= 62 -> N.of_nat (length l) < 2 ^ 62 ->
  winit (2 ^ k) d0 = Ok w0 -> wrun code w0 l = Ok (w, es) ->
  (forall l1 t u m l2 w1 es1, l = l1 ++ WCall t (Enq (u, m)) :: l2 -> wrun code w0 l1 = Ok (w1, es1) -> (m <= vx (vw w1 t) u)%nat) ->
  forall t u m, In (ERet t (RDeq (Some (u, m)))) es -> (m <= vx (vw w t) u)%nat.
Proof.
  intros k d0 l w0 w es K1 K2 B E0 E H t u m. destruct (w_init k K1 K2 _ _ _ eq_refl E0) as [W0 R0].
  apply (mp_run k l 0 w0 ainit K1 K2 W0 ltac:(lia) R0); auto.
  unfold winit in E0. apply bind_Ok in E0. destruct E0 as (s & E0 & E1). injection E1 as <-. unfold init in E0. apply bind_Ok in E0. destruct E0 as (? & _ & E0). injection E0 as <-.
  split; cbn; [discriminate|]. intros [|q] v m' G; discriminate.
Qed.

(* the runs of the examples: thread 0 enqueues 10 and 11, thread 1 dequeues, thread 0 enqueues 12 *)
Definition calling {T} (t : nat) (c : call T) : list (waction T) := WCall t c :: repeat (WGo t None) 5.
Definition history : list (waction nat) := calling 0 (Enq 10%nat) ++ calling 0 (Enq 11%nat) ++ calling 1 Deq.
Definition start : wstate nat := match winit 2 (fun _ => 0%nat) with Ok w => w | _ => mkW (mkS 0 (fun _ => 0) (fun _ => 0%nat) 0 0 (fun _ => Idle) []) [] [] (fun _ => []) (fun _ => 0%nat) (fun _ => zero) [] end.

Definition after {T} (w : wstate T) (l : list (waction T)) : wstate T := match wrun code w l with Ok (w, _) => w | _ => w end.
Definition events {T} (w : wstate T) (l : list (waction T)) : option (list (event T)) := match wrun code w l with Ok (_, es) => Some es | _ => None end.
Lemma ran : forall T (w : wstate T) l es, events w l = Some es -> wrun code w l = Ok (after w l, es).
Proof. intros T w l es. unfold events, after. destruct (wrun code w l) as [[w' e]| | |]; congruence. Qed.

(* all four annotations are needed: relaxing any of them allows a data race *)
Theorem C135_orders_needed : forall o, o <> code -> winit 2 (fun _ => 0%nat) = Ok start /\ wrun o start (history ++ calling 0 (Enq 12%nat)) = UB.
Proof.
  intros [[] [] [] []] H; try (exfalso; apply H; reflexivity); split; vm_compute; reflexivity.
Qed.
Example C135_orders_suffice : exists w, wrun code start (history ++ calling 0 (Enq 12%nat)) =
  Ok (w, [ECall 0 (Enq 10%nat); ERet 0 (REnq true); ECall 0 (Enq 11%nat); ERet 0 (REnq true); ECall 1 Deq; ERet 1 (RDeq (Some 10%nat)); ECall 0 (Enq 12%nat); ERet 0 (REnq true)]).
Proof. eexists. apply ran. vm_compute. reflexivity. Qed.

(* without synchronization between the callers enqueue may report a full queue although a returned dequeue has made room, and
   dequeue an empty one although an enqueue has returned: the loads may return old values *)
Theorem C135_stale_refuted :
  (exists w es a w' , wrun code start history = Ok (w, es) /\ (forall t, thr (base w) t = Idle) /\ aruns 2 ainit es a /\ fifo a = [11%nat] /\
     wrun code w [WCall 0 (Enq 12%nat); WGo 0 None; WGo 0 (Some 1%nat)] = Ok (w', [ECall 0 (Enq 12%nat); ERet 0 (REnq false)])) /\
  (exists w es a w' , wrun code start (calling 0 (Enq 10%nat)) = Ok (w, es) /\ (forall t, thr (base w) t = Idle) /\ aruns 2 ainit es a /\ fifo a = [10%nat] /\
     wrun code w [WCall 1 Deq; WGo 1 None; WGo 1 (Some 0%nat)] = Ok (w', [ECall 1 Deq; ERet 1 (RDeq None)])).
Proof.
  assert (I : winit (2 ^ 1) (fun _ => 0%nat) = Ok start) by (vm_compute; reflexivity).
  assert (X : forall l w es, wrun code start l = Ok (w, es) -> N.of_nat (length l) < 2 ^ 62 -> exists a, aruns 2 ainit es a /\ fifo a = absq (base w)).
  { intros l w es E B. destruct (w_init 1 ltac:(lia) ltac:(lia) _ _ _ eq_refl I) as [W0 R0].
    destruct (wrun_spec 1 ltac:(lia) ltac:(lia) l 0 _ _ W0 B R0) as (w' & es' & a & E' & _ & A & [RR _]). rewrite E in E'. injection E' as <- <-. exists a. auto. }
  clear I. split.
  - assert (E := ran _ start history [ECall 0 (Enq 10%nat); ERet 0 (REnq true); ECall 0 (Enq 11%nat); ERet 0 (REnq true); ECall 1 Deq; ERet 1 (RDeq (Some 10%nat))] ltac:(vm_compute; reflexivity)).
    destruct (X _ _ _ E ltac:(vm_compute; reflexivity)) as (a & A & F). eexists _, _, a, _. split; [exact E|]. split; [intros [|[|t]]; vm_compute; reflexivity|].
    split; [exact A|]. split; [rewrite F; vm_compute; reflexivity|apply ran; vm_compute; reflexivity].
  - assert (E := ran _ start (calling 0 (Enq 10%nat)) [ECall 0 (Enq 10%nat); ERet 0 (REnq true)] ltac:(vm_compute; reflexivity)).
    destruct (X _ _ _ E ltac:(vm_compute; reflexivity)) as (a & A & F). eexists _, _, a, _. split; [exact E|]. split; [intros [|[|t]]; vm_compute; reflexivity|].
    split; [exact A|]. split; [rewrite F; vm_compute; reflexivity|apply ran; vm_compute; reflexivity].
Qed.
(* the same call after synchronizing, with the same attempt to read the old value, which is no longer possible *)
Example C135_synchronized_example : exists w w', wrun code start (history ++ [WSync 1 0]) = Ok (w, [ECall 0 (Enq 10%nat); ERet 0 (REnq true); ECall 0 (Enq 11%nat); ERet 0 (REnq true); ECall 1 Deq; ERet 1 (RDeq (Some 10%nat))]) /\
  wrun code w (WCall 0 (Enq 12%nat) :: map (WGo 0) [None; Some 1%nat; None; Some 0%nat; Some 2%nat; None; None; None; None]) = Ok (w', [ECall 0 (Enq 12%nat); ERet 0 (REnq true)]).
Proof. eexists _, _. split; apply ran; vm_compute; reflexivity. Qed.
(* thread 0 acts twice outside of the queue and enqueues (0, 2); thread 1, which knew nothing, knows of both after dequeueing *)
Example C135_message_passing_example : exists w0 w1 w2 es1 es2, winit 2 (fun _ => (0, 0)%nat) = Ok w0 /\
  wrun code w0 ([WOther 0; WOther 0] ++ calling 0 (Enq (0, 2)%nat)) = Ok (w1, es1) /\ vx (vw w1 1%nat) 0%nat = 0%nat /\
  wrun code w1 (calling 1 Deq) = Ok (w2, es2) /\ In (ERet 1 (RDeq (Some (0, 2)%nat))) es2 /\ vx (vw w2 1%nat) 0%nat = 2%nat.
Proof.
  eexists _, _, _, _, _. split; [reflexivity|]. split; [apply ran; vm_compute; reflexivity|]. split; [vm_compute; reflexivity|].
  split; [apply ran; vm_compute; reflexivity|]. split; [right; left; reflexivity|vm_compute; reflexivity].
Qed.

Print Assumptions C135_linearizable.
Print Assumptions C135_synchronized.
Print Assumptions C135_message_passing.
Print Assumptions C135_stale_refuted.

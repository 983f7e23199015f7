(* Property theorems C25 and C26: src/clean-core/experimental/mpmc_queue.hh. *)
From Coq Require Import NArith ZArith Arith List Bool Lia Permutation.
From Verif Require Import Base MpmcModel MpmcSpec MpmcProofs.
Import ListNotations.
Open Scope N_scope.

Section P.
  Context {T : Type} (k : N) (K1 : 1 <= k) (K2 : k <= 62).
  Implicit Types l : list (action T).

  (* Every schedule of any number of threads, including spurious failures of the compare exchanges: the calls and returns
     are those of a bounded FIFO on which each successful operation acts atomically between its call and its return.
     The bound on the schedule length keeps the 64-bit positions from wrapping. *)
  Theorem C25_linearizable : forall d0 l, N.of_nat (length l) < 2 ^ 62 ->
    exists s0, init (2 ^ k) d0 = Ok s0 /\ exists a, aruns (2 ^ k) ainit (snd (run s0 l)) a.
  Proof.
    intros d0 l B. exists (init_state k d0). split; [apply init_Ok; auto|].
    pose proof (run_spec k K1 K2 l 0 _ _ (init_inv k K1 K2 d0) ltac:(lia) (init_R k d0)) as H. destruct (run _ l) as [s es].
    destruct H as [_ [a [H _]]]. exists a. auto.
  Qed.

  (* each value handed to enqueue is returned by at most one dequeue, and nothing else is returned *)
  Theorem C25_conservation : forall d0 l s0, N.of_nat (length l) < 2 ^ 62 -> init (2 ^ k) d0 = Ok s0 ->
    exists rest, Permutation (calls (snd (run s0 l))) (rest ++ rets (snd (run s0 l))).
  Proof.
    intros d0 l s0 B E. destruct (C25_linearizable d0 l B) as [s1 [E1 [a H]]]. rewrite E1 in E. injection E as ->.
    destruct (cons_runs _ _ _ _ H [] cons_init) as [pe [pd [fl [_ [_ P]]]]]. cbn [app] in P.
    exists (fl ++ map snd pe ++ fifo a ++ map snd pd). rewrite P, <- !app_assoc. auto.
  Qed.

  (* no two threads touch the payload of the same cell at the same time, and no thread leaves the buffer *)
  Theorem C25_exclusive_payload : forall d0 l s0, N.of_nat (length l) < 2 ^ 62 -> init (2 ^ k) d0 = Ok s0 ->
    let s := fst (run s0 l) in
    (forall t t' c, accessing s t = Some c -> accessing s t' = Some c -> t = t') /\
    (forall t c, accessing s t = Some c -> c < 2 ^ k).
  Proof.
    intros d0 l s0 B E. rewrite (init_Ok k K1 K2) in E. injection E as <-.
    pose proof (run_spec k K1 K2 l 0 _ _ (init_inv k K1 K2 d0) ltac:(lia) (init_R k d0)) as H. destruct (run _ l) as [s es]. cbn [fst].
    destruct H as [I _].
    assert (A : forall t c, accessing s t = Some c -> exists q, own (thr s t) = Some q /\ c = q mod 2 ^ k).
    { intros t c H. unfold accessing in H. destruct (thr s t) eqn:Q; try discriminate; injection H as <-; exists pos; split; auto; eapply cell_mod; eauto. }
    split.
    - intros t t' c H1 H2. destruct (A _ _ H1) as [q [O1 C1]]. destruct (A _ _ H2) as [q' [O2 C2]].
      destruct (Nat.eq_dec t t'); auto. exfalso. apply (other_cell k K1 K2 _ s t t' q q' I O1 O2 n). congruence.
    - intros t c H. destruct (A _ _ H) as [q [_ ->]]. apply N.mod_lt. apply N.pow_nonzero. discriminate.
  Qed.

  (* When a call returns false after any schedule, the FIFO of the linearization is full (empty), or another operation
     has already taken effect there but has not returned yet. *)
  Theorem C26_false_justified : forall d0 l s0, N.of_nat (length l) < 2 ^ 62 -> init (2 ^ k) d0 = Ok s0 ->
    let (s, es) := run s0 l in
    exists a, aruns (2 ^ k) ainit es a /\
      (forall t w, snd (act s (Go t w)) = [ERet t (REnq false)] ->
         N.of_nat (length (fifo a)) = 2 ^ k \/ exists t' v, athr a t' = ADeqDone v) /\
      (forall t w, snd (act s (Go t w)) = [ERet t (RDeq None)] -> fifo a = [] \/ exists t', athr a t' = AEnqDone).
  Proof.
    intros d0 l s0 B E. rewrite (init_Ok k K1 K2) in E. injection E as <-.
    pose proof (run_spec k K1 K2 l 0 _ _ (init_inv k K1 K2 d0) ltac:(lia) (init_R k d0)) as H. destruct (run _ l) as [s es].
    destruct H as [I [a [H [R1 R2]]]]. exists a. split; auto. rewrite N.add_0_l in I. rewrite R1.
    pose proof (v_n _ _ _ I). pose proof (v_de _ _ _ I).
    split; intros t w G; cbn [act] in G; unfold go in G; destruct (thr s t) eqn:Q; cbn [snd] in G; try discriminate;
      repeat match type of G with context [if ?b then _ else _] => destruct b eqn:? end; cbn [snd] in G; try discriminate;
      pose proof (v_pc _ _ _ I t) as P; rewrite Q in P; cbn in P; rewrite (cell_mod k _ _ pos I) in *; fold (sq k s pos) in *;
      pose proof (sq_small k K1 K2 _ s pos I B) as S; change (2 ^ 63) with (2 * 2 ^ 62) in S.
    - destruct (z_cmp k K1 K2 (sq k s pos) pos ltac:(auto) ltac:(change (2 ^ 63) with (2 * 2 ^ 62); lia)) as [Z1 Z2].
      rewrite Z2 in *. destruct (enq_fail_why k K1 K2 _ s t v pos I Q) as [F|[t' [x F]]]; auto.
      + apply N.ltb_lt. auto.
      + right. exists t', x. rewrite R2. auto.
    - rewrite wadd_small in * by (change (2 ^ 64) with (4 * 2 ^ 62); lia).
      destruct (z_cmp k K1 K2 (sq k s pos) (pos + 1) ltac:(auto) ltac:(change (2 ^ 63) with (2 * 2 ^ 62); lia)) as [Z1 Z2].
      rewrite Z2 in *. destruct (deq_fail_why k K1 K2 _ s t pos I Q) as [F|[t' F]]; auto.
      + apply N.ltb_lt. auto.
      + right. exists t'. rewrite R2. auto.
  Qed.

  (* calls that run one after the other (each one given the five accesses it needs at most) answer like a bounded FIFO *)
  Theorem C26_sequential : forall d0 (cs : list (nat * call T)) s0, 6 * N.of_nat (length cs) < 2 ^ 62 -> init (2 ^ k) d0 = Ok s0 ->
    snd (run s0 (flat_map (fun tc => Call (fst tc) (snd tc) :: repeat (Go (fst tc) false) 5) cs)) = snd (seq_run (2 ^ k) [] cs).
  Proof.
    intros d0 cs s0 B E. rewrite (init_Ok k K1 K2) in E. injection E as <-.
    destruct (seq_spec k K1 K2 cs 0 _ (init_inv k K1 K2 d0) ltac:(lia) ltac:(intro; reflexivity)) as [s' [E _]]. rewrite E. auto.
  Qed.

  (* and likewise after any concurrent history that has come to rest: one call alone succeeds exactly when the FIFO of the
     linearization has room (has an element) *)
  Theorem C26_solo : forall d0 l s0, N.of_nat (length l) + 6 < 2 ^ 62 -> init (2 ^ k) d0 = Ok s0 ->
    let (s, es) := run s0 l in (forall t, thr s t = Idle) ->
    exists a, aruns (2 ^ k) ainit es a /\ forall t c,
      snd (run s (Call t c :: repeat (Go t false) 5)) = [ECall t c; ERet t (snd (seq_step (2 ^ k) (fifo a) c))].
  Proof.
    intros d0 l s0 B E. rewrite (init_Ok k K1 K2) in E. injection E as <-.
    pose proof (run_spec k K1 K2 l 0 _ _ (init_inv k K1 K2 d0) ltac:(lia) (init_R k d0)) as H. destruct (run _ l) as [s es].
    intro Q. destruct H as [I [a [H [R1 R2]]]]. exists a. split; auto. intros t c. rewrite R1.
    destruct (solo5 k K1 K2 _ s t c I ltac:(lia) Q) as [s' [E _]]. rewrite E. auto.
  Qed.
End P.

(* capacities that are not powers of two, 0 and 1 are rejected *)
Example C25_bad_capacity : forall d0 : N -> nat, init 0 d0 = Contract /\ init 1 d0 = Contract /\ init 3 d0 = Contract /\ init 6 d0 = Contract.
Proof. intros. repeat split; vm_compute; auto. Qed.

(* capacity 2: thread 0 enqueues 10 and 11, thread 1 takes 10 but is delayed before releasing the cell; thread 0 finds the
   queue "full" although it holds one element *)
Definition demo : list (action nat) :=
  [Call 0 (Enq 10%nat)] ++ repeat (Go 0 false) 5 ++ [Call 0 (Enq 11%nat)] ++ repeat (Go 0 false) 5 ++
  [Call 1 Deq] ++ repeat (Go 1 false) 3 ++ [Call 0 (Enq 12%nat)] ++ repeat (Go 0 false) 2 ++ repeat (Go 1 false) 2 ++
  [Call 0 (Enq 13%nat); Call 1 Deq; Go 0 false; Go 1 false; Go 0 false; Go 1 false; Go 0 true; Go 1 true] ++
  repeat (Go 0 false) 4 ++ repeat (Go 1 false) 4.
Example C26_delayed_dequeuer : exists s0, init 2 (fun _ => 0%nat) = Ok s0 /\
  snd (run s0 demo) =
    [ECall 0 (Enq 10%nat); ERet 0 (REnq true); ECall 0 (Enq 11%nat); ERet 0 (REnq true); ECall 1 Deq;
     ECall 0 (Enq 12%nat); ERet 0 (REnq false); ERet 1 (RDeq (Some 10%nat));
     ECall 0 (Enq 13%nat); ECall 1 Deq; ERet 0 (REnq true); ERet 1 (RDeq (Some 11%nat))].
Proof. eexists. split; [reflexivity|]. vm_compute. reflexivity. Qed.
Example C25_two_writers : exists s0, init 4 (fun _ => 0%nat) = Ok s0 /\
  let s := fst (run s0 [Call 0 (Enq 1%nat); Call 1 (Enq 2%nat); Go 0 false; Go 1 false; Go 0 false; Go 1 false; Go 0 false; Go 1 false; Go 1 false; Go 1 false]) in
  accessing s 0 = Some 0 /\ accessing s 1 = Some 1.
Proof. eexists. split; [reflexivity|]. vm_compute. auto. Qed.

Print Assumptions C25_linearizable.
Print Assumptions C25_conservation.
Print Assumptions C25_exclusive_payload.
Print Assumptions C26_false_justified.
Print Assumptions C26_sequential.
Print Assumptions C26_solo.

(* Property C143: the life of atomic_linked_pool and its nodes in one thread. *)
From Coq Require Import NArith List Bool Arith Lia.
From Verif Require Import Base LPoolModel RadixModel LNodesModel LNodesSpec LNodesProofs.
Import ListNotations.
Open Scope nat_scope.

(* Partial: assumes that the element behind the free list may be accessed (C52). *)
Theorem C143_history_partial : forall k extra s p o, 1 <= extra -> exec k extra s p -> allowed p o ->
  (refused k p o /\ step k extra s o = Contract) \/
  (~ refused k p o /\ exists s' r, step k extra s o = Ok (s', r) /\ expected p o r).
Proof.
  intros k extra s p o Ex X Al. destruct (step_ok k extra s p o Ex (exec_rep k extra s p Ex X) Al) as [A B].
  assert (refused k p o \/ ~ refused k p o) as [J|J].
  - destruct o, p as [[m own]|]; cbn [refused]; try tauto; lia.
  - left. auto.
  - right. split; [exact J|]. destruct (B J) as (s' & r & E & W & _). eauto.
Qed.
Print Assumptions C143_history_partial.

(* memory, and the objects of types that are neither trivially constructible nor destructible *)
Theorem C143_balance_partial : forall k extra s p, 1 <= extra -> exec k extra s p ->
  blocks s = match p with None => 0 | Some _ => if chk k then 3 else 2 end /\
  (tc k = false -> td k = false -> forall i,
     count_occ Nat.eq_dec (ctors s) i = count_occ Nat.eq_dec (dtors s) i + match p with Some (_, own) => count_occ Nat.eq_dec own i | None => 0 end).
Proof.
  intros k extra s p Ex X. pose proof (exec_rep k extra s p Ex X) as R. destruct p as [[n own]|].
  - destruct R as (c & a & L & G). split; [exact (g_blocks _ _ _ _ _ _ _ G)|]. intros T D i. rewrite (g_bal _ _ _ _ _ _ _ G T D i). rewrite (count_one own); [reflexivity|]. exact (proj1 (good_own _ _ _ _ _ _ _ G)).
  - destruct R as (_ & _ & B & D). split; [exact B|]. intros T U i. rewrite (D T U i). lia.
Qed.
Print Assumptions C143_balance_partial.

(* nodes that are owned are inside of the pool, and there is one owner *)
Theorem C143_owned_partial : forall k extra s n own, 1 <= extra -> exec k extra s (Some (n, own)) -> NoDup own /\ (forall i, In i own -> i < n) /\ length own <= n.
Proof.
  intros k extra s n own Ex X. destruct (exec_rep k extra s _ Ex X) as (c & a & L & G). pose proof (good_len _ _ _ _ _ _ _ G). destruct (good_own _ _ _ _ _ _ _ G). repeat split; try assumption. lia.
Qed.

(* A pool without nodes says that it is not full, but acquire follows its null (or freed) free list: after construction,
   initialize(0) and destroy. *)
Theorem C143_empty_refuted : forall k extra,
  exec k extra none None /\ is_full none = false /\ max_size none = 0 /\ acquire k none = UB /\
  step k extra none (Init 0) = Ok (none, RUnit) /\
  (1 <= extra -> exists s1 s2, step k extra none (Init 2) = Ok (s1, RUnit) /\ step k extra s1 Destroy = Ok (s2, RUnit) /\
     exec k extra s2 None /\ is_full s2 = false /\ max_size s2 = 0 /\ acquire k s2 = UB).
Proof.
  intros k extra. split; [constructor|]. split; [reflexivity|]. split; [reflexivity|]. split; [reflexivity|]. split; [reflexivity|]. intros Ex.
  destruct extra as [|e]; [lia|].
  assert (step k (S e) none (Init 2) = Ok (mks (Some [false; false]) (Some (Some 1 :: None :: repeat None e)) 2 (Some 0) [] [] (nblocks k), RUnit)) as E1 by (destruct k as [[] ? ?]; reflexivity).
  assert (step k (S e) (mks (Some [false; false]) (Some (Some 1 :: None :: repeat None e)) 2 (Some 0) [] [] (nblocks k)) Destroy = Ok (mks None None 0 (Some 0) [] [] 0, RUnit)) as E2 by (destruct k as [[] ? []]; reflexivity).
  do 2 eexists. split; [exact E1|]. split; [exact E2|]. split; [|repeat split].
  pose proof (x_step k (S e) _ _ (Init 2) _ _ (x_start k (S e)) I E1) as X1. exact (x_step k (S e) _ _ Destroy _ _ X1 I E2).
Qed.
(* A pool destroyed while all its nodes are owned still says that it is full. *)
Theorem C143_full_refuted : exists s, exec (mkk true false false) 1 s None /\ is_full s = true /\ max_size s = 0.
Proof.
  set (k := mkk true false false).
  eexists. split; [|split].
  - change (@None (nat * list nat)) with (after (Some (2, [1; 0])) Destroy RUnit).
    eapply x_step; [|exact I|].
    + change (Some (2, [1; 0])) with (after (Some (2, [0])) Acquire (RNode 1)). eapply x_step; [|exact I|].
      * change (Some (2, [0])) with (after (Some (2, [])) Acquire (RNode 0)). eapply x_step; [|exact I|].
        -- change (Some (2, @nil nat)) with (after None (Init 2) RUnit). eapply x_step; [apply x_start|exact I|]. vm_compute. reflexivity.
        -- vm_compute. reflexivity.
      * vm_compute. reflexivity.
    + vm_compute. reflexivity.
  - reflexivity.
  - reflexivity.
Qed.

(* Examples: a pool of four nodes; the visitor releases what it sees first, acquires, and stops at its second node *)
Definition run1 (k : kind) (extra : nat) := fold_left (fun (acc : outcome (st * list res)) o => let! x := acc in let! y := step k extra (fst x) o in Ok (fst y, snd x ++ [snd y])).
Definition vis1 : visitor := fun tr => match tr with [Visit 0] => ([VRelease 0; VAcquire], true) | _ => ([], false) end.
Example C143_run :
  run1 (mkk true false false) 1 [Init 4; Acquire; Acquire; Acquire; Release 1; Iterate vis1; IsFull; MaxSize; ReleaseAll; Acquire; Destroy] (Ok (none, [])) =
  Ok (mks None None 0 (Some 0) [2; 0; 2; 1; 0] [2; 2; 0; 0; 1] 0,
      [RUnit; RNode 0; RNode 1; RNode 2; RUnit; RTrace [Visit 0; Released 0; Acquired 0; Visit 2] 2; RBool false; RNum 4; RNum 2; RNode 2; RUnit]).
Proof. vm_compute. reflexivity. Qed.
Example C143_obeys : obeys 4 [2; 0] vis1.
Proof.
  intros tr i. destruct tr as [|e tr].
  - destruct i; cbn; [|exact I]. repeat split; auto; try lia.
  - destruct tr; cbn; destruct e as [[|?]|?|?]; exact I.
Qed.
Example C143_refused : step (mkk true true true) 1 none (Init 1) = Contract /\ step (mkk true true true) 1 none (Init 65536) = Contract /\
  bind (run1 (mkk false true true) 1 [Init 2; Acquire; Acquire] (Ok (none, []))) (fun x => step (mkk false true true) 1 (fst x) Acquire) = Contract.
Proof. split; [|split]; vm_compute; reflexivity. Qed.

(* What users of a pool know about its nodes. *)
From Coq Require Import NArith List Bool Arith.
From Verif Require Import Base LNodesModel.
Import ListNotations.
Open Scope nat_scope.

(* the size of the pool and the nodes that were acquired and not released *)
Definition sp := option (nat * list nat).
Definition mem (i : nat) (l : list nat) : bool := existsb (Nat.eqb i) l.
Fixpoint drop (i : nat) (l : list nat) : list nat := match l with [] => [] | j :: l => if Nat.eqb i j then l else j :: drop i l end.
Fixpoint owned (own : list nat) (tr : list tev) : list nat :=
  match tr with
  | [] => own
  | Visit _ :: tr => owned own tr
  | Acquired i :: tr => owned (i :: own) tr
  | Released i :: tr => owned (drop i own) tr
  end.
Fixpoint visits (tr : list tev) : list nat := match tr with [] => [] | Visit i :: tr => i :: visits tr | _ :: tr => visits tr end.
Fixpoint fresh (tr : list tev) : list nat := match tr with [] => [] | Acquired i :: tr => i :: fresh tr | _ :: tr => fresh tr end.

(* "acquire CAN be called from within the lambda, release CAN be called from within the lambda ONLY for nodes already iterated
   (including the current one)" (187-190), or acquired by the lambda *)
Fixpoint permitted (size : nat) (own : list nat) (tr : list tev) (l : list vact) : Prop :=
  match l with
  | [] => True
  | VAcquire :: l => length (owned own tr) < size /\ forall i, permitted size own (tr ++ [Acquired i]) l
  | VRelease i :: l => In i (owned own tr) /\ (In i (visits tr) \/ In i (fresh tr)) /\ permitted size own (tr ++ [Released i]) l
  end.
Definition obeys (size : nat) (own : list nat) (vis : visitor) : Prop :=
  forall tr i, permitted size own (tr ++ [Visit i]) (fst (vis (tr ++ [Visit i]))).

Definition allowed (s : sp) (o : op) : Prop :=
  match o, s with
  | Acquire, None => False
  | Release i, Some (_, own) => In i own
  | Release _, None => False
  | Iterate vis, Some (n, own) => obeys n own vis
  | IsFull, None => False
  | _, _ => True
  end.
(* indices of 16 bits with generation checks, of 29 bits without; the last one is not used *)
Definition largest (k : kind) : N := if chk k then 65535 else 536870911.
Definition refused (k : kind) (s : sp) (o : op) : Prop :=
  match o, s with
  | Init n, None => n = 1 \/ (largest k < N.of_nat n)%N
  | Init n, Some _ => n <> 0
  | Acquire, Some (n, own) => length own = n
  | _, _ => False
  end.
Definition ascending (n : nat) (own : list nat) : list nat := filter (fun i => mem i own) (seq 0 n).
Definition expected (s : sp) (o : op) (r : res) : Prop :=
  match o, s with
  | Acquire, Some (n, own) => exists i, r = RNode i /\ i < n /\ ~ In i own
  | Iterate vis, Some (n, own) => exists tr m, r = RTrace tr m /\
      (* the nodes owned before, once each, in order; until the visitor says no *)
      visits tr = firstn m (ascending n own) /\ m = length (visits tr) /\
      (forall p i q, tr = p ++ Visit i :: q -> snd (vis (p ++ [Visit i])) = false -> visits q = []) /\
      (m < length (ascending n own) -> exists p i q, tr = p ++ Visit i :: q /\ snd (vis (p ++ [Visit i])) = false) /\
      (* what it did *)
      (forall p i q, tr = p ++ Acquired i :: q -> i < n /\ ~ In i (owned own p))
  | Iterate _, None => r = RTrace [] 0
  | ReleaseAll, Some (n, own) => r = RNum (length own)
  | ReleaseAll, None => r = RNum 0
  | IsFull, Some (n, own) => r = RBool (length own =? n)
  | MaxSize, Some (n, _) => r = RNum n
  | MaxSize, None => r = RNum 0
  | _, _ => r = RUnit
  end.
Definition after (s : sp) (o : op) (r : res) : sp :=
  match o, s, r with
  | Init n, None, _ => if n =? 0 then None else Some (n, [])
  | Destroy, _, _ => None
  | Acquire, Some (n, own), RNode i => Some (n, i :: own)
  | Release i, Some (n, own), _ => Some (n, drop i own)
  | Iterate _, Some (n, own), RTrace tr _ => Some (n, owned own tr)
  | ReleaseAll, Some (n, _), _ => Some (n, [])
  | _, _, _ => s
  end.
Inductive exec (k : kind) (extra : nat) : st -> sp -> Prop :=
| x_start : exec k extra none None
| x_step s p o s' r : exec k extra s p -> allowed p o -> step k extra s o = Ok (s', r) -> exec k extra s' (after p o r).

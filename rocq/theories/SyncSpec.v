(* What callers of a synchronized object rely on: the calls of all threads took effect one after the other, each between its start
   and its end. *)
From Coq Require Import NArith Arith List Bool.
From Verif Require Import Base SyncModel.
Import ListNotations.

Section S.
  Context {S C R : Type} (body : C -> S -> outcome (S * R)).
  (* a call with its number and result *)
  Record entry := mke { eid : nat; ecall : C; eres : R }.
  (* the calls one after the other, with these results *)
  Fixpoint sequential (s : S) (l : list entry) (s' : S) : Prop :=
    match l with
    | [] => s = s'
    | e :: l => exists s1, body (ecall e) s = Ok (s1, eres e) /\ sequential s1 l s'
    end.
  (* a precedes b, or b did not take effect *)
  Definition precedes (l : list entry) (a b : nat) : Prop :=
    exists l0 l1, l = l0 ++ l1 /\ In a (map eid l0) /\ ~ In b (map eid l0).
  Record explains (l : list entry) (h : list (event C R)) : Prop := mkx {
    x_once : NoDup (map eid l);
    x_calls : forall id k c k' c', In (Inv id k c) h -> In (Inv id k' c') h -> k = k' /\ c = c';
    x_called : forall e, In e l -> exists k, In (Inv (eid e) k (ecall e)) h;
    x_returned : forall id r, In (Ret id r) h -> exists c, In (mke id c r) l;
    x_order : forall h1 id k c h2 a r, h = h1 ++ Inv id k c :: h2 -> In (Ret a r) h1 -> precedes l a id }.
  (* some call fails in the same way when it is made after a sequence of calls by one thread; all calls are among P *)
  Definition fails_alone (P : C -> Prop) (s0 : S) (o : outcome (sys S C R)) : Prop :=
    exists l s c, sequential s0 l s /\ (forall e, In e l -> P (ecall e)) /\ P c /\
      match o with Ok _ => False | Contract => body c s = Contract | UB => body c s = UB | OutOfFuel => body c s = OutOfFuel end.
  Definition locked (e : ev C) : Prop := match e with EBare _ _ => False | _ => True end.
  Definition calls (P : C -> Prop) (e : ev C) : Prop := match e with ECall _ c | EBare _ c => P c | _ => True end.
  Definition by_thread (k : nat) (e : ev C) : Prop :=
    match e with ECall j _ | ETick j _ | EBegin j | EFinish j | EReturn j | EBare j _ => j = k end.
End S.
Arguments entry : clear implicits. Arguments mke {C R}. Arguments eid {C R}. Arguments ecall {C R}. Arguments eres {C R}.

(* the calls that ask for a block, with requests of a sane size *)
From Verif Require Import VAllocSpec.
Definition sane_alloc (c : vcall) : Prop := match c with VAlloc n a => sane_request n a | _ => False end.

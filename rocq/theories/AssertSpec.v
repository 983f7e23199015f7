(* What checks promise, in terms of evaluating the arguments the user wrote. *)
From Coq Require Import String ZArith Arith List Bool.
From Verif Require Import AssertModel.
Import ListNotations.
Open Scope string_scope.

(* the checks a user can write *)
Inductive check :=
| KAssert (a : arg) | KMsg (a : arg) (m : expr) | KFmt (a : arg) (x : nat)
| KRuntime (a : arg) | KRuntimeMsg (a : arg) (m : expr)
| KBounds (v lb ub : arg) | KNull (q : arg) | KNotNull (q : arg) | KContract (a : arg).

Definition expand (c : cfg) (k : check) (p : place) : expr :=
  match k with
  | KAssert a => CC_ASSERT c a p | KMsg a m => CC_ASSERT_MSG c a m p | KFmt a x => CC_ASSERTF c a x p
  | KRuntime a => CC_RUNTIME_ASSERT a p | KRuntimeMsg a m => CC_RUNTIME_ASSERT_MSG a m p
  | KBounds v lb ub => CC_ASSERT_IN_BOUNDS c v lb ub p | KNull q => CC_ASSERT_IS_NULL c q p | KNotNull q => CC_ASSERT_NOT_NULL c q p
  | KContract a => CC_CONTRACT c a p
  end.

(* which checks are switched on *)
Definition active (c : cfg) (k : check) : bool :=
  match k with
  | KRuntime _ | KRuntimeMsg _ _ => true
  | KAssert _ | KMsg _ _ | KFmt _ _ => c_assert c
  | KBounds _ _ _ => c_assert c && c_bound c
  | KNull _ | KNotNull _ => c_assert c && c_null c
  | KContract _ => c_assert c && c_contract c
  end.

(* the expression has this integer value and no effect *)
Definition steady (c : cfg) (t n : nat) (e : expr) (s : state) (x : Z) : Prop := eval c t n e s = Val (VInt x) s.

(* evaluating what is checked, once, gives verdict b and state s' *)
Definition judge (c : cfg) (t n : nat) (k : check) (s : state) (b : bool) (s' : state) : Prop :=
  match k with
  | KAssert a | KMsg a _ | KFmt a _ | KRuntime a | KRuntimeMsg a _ | KContract a => exists v, eval c t n (ex a) s = Val v s' /\ truthy v = b
  | KNull q => exists v, eval c t n (ex q) s = Val v s' /\ b = (as_int v =? 0)%Z
  | KNotNull q => exists v, eval c t n (ex q) s = Val v s' /\ b = negb (as_int v =? 0)%Z
  | KBounds v lb ub => s' = s /\ exists x l u, steady c t n (ex v) s x /\ steady c t n (ex lb) s l /\ steady c t n (ex ub) s u /\ (b = true <-> (l <= x < u)%Z)
  end.

(* what is reported *)
Definition message (k : check) : option expr :=
  match k with KMsg _ m | KRuntimeMsg _ m => Some m | KFmt _ x => Some (Format x) | _ => None end.
Definition text (k : check) : string :=
  match k with
  | KAssert a | KMsg a _ | KFmt a _ | KRuntime a | KRuntimeMsg a _ => tx a
  | KBounds v lb ub => "(" ++ tx lb ++ ") <= (" ++ tx v ++ ") && (" ++ tx v ++ ") < (" ++ tx ub ++ ") && ""bound check"""
  | KNull q => "(" ++ tx q ++ ") == nullptr && ""must be null"""
  | KNotNull q => "(" ++ tx q ++ ") != nullptr && ""must not be null"""
  | KContract a => "(" ++ tx a ++ ") && ""contract violation"""
  end.
(* evaluating the message, if there is one *)
Definition tells (c : cfg) (t n : nat) (k : check) (s : state) (m : val) (s' : state) : Prop :=
  match message k with None => m = VNull /\ s' = s | Some e => eval c t n e s = Val m s' end.

(* events come in order *)
Definition then_noted (s : state) (e : event) : state := mkSt (vars s) (hand s) (log s ++ [e]).
(* how a process dies of a failed check *)
Definition how (c : cfg) : death := if c_debugger c && c_trap_kills c then SigTrap else SigAbrt.

(* nothing in the expression sets a handler *)
Fixpoint quiet (e : expr) : bool :=
  match e with
  | SetHandler _ => false
  | Paren e | Not e => quiet e
  | And a b | Or a b | Le a b | Lt a b | Eq a b | Ne a b | Comma a b => quiet a && quiet b
  | Cond a b d => quiet a && quiet b && quiet d
  | AssertionFailed _ _ _ m _ => quiet m
  | _ => true
  end.
(* what threads do: set their handler, or anything quiet *)
Inductive act := Set_ (h : option nat) | Do (e : expr).
Definition act_expr (a : act) : expr := match a with Set_ h => SetHandler h | Do e => e end.
Definition act_ok (a : act) : bool := match a with Set_ _ => true | Do e => quiet e end.
Fixpoint last_set (t : nat) (os : list (nat * act)) (h : option nat) : option nat :=
  match os with
  | [] => h
  | (u, Set_ h') :: os => last_set t os (if Nat.eqb u t then h' else h)
  | (_, Do _) :: os => last_set t os h
  end.

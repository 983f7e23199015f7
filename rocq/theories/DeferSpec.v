(* What deferring means: CC_DEFER { d } is "everything behind it in the scope, finally d".  ideal a s k: run a and then the rest
   of the scope, k.  An answer has a third component, which carries what CC_RETURN_DEFER captures. *)
From Coq Require Import ZArith List Bool Arith.
From Verif Require Import DeferModel.
Import ListNotations.

Definition capture := option (nat -> Z).
Definition answer := (flow * state * capture)%type.
Definition fine (s : state) : answer := (Normal, s, None).
(* r, then d however r was left; d must not throw *)
Definition finally (r : answer) (d : state -> answer) : answer :=
  match r with
  | (Terminated, s, c) => (Terminated, s, c)
  | (f, s, c) => match d s with (Normal, s, _) | (Returned, s, _) => (f, s, c) | (_, s, _) => (Terminated, s, c) end
  end.
(* go on with k if nothing happened *)
Definition andthen (r : answer) (k : state -> answer) : answer := match r with (Normal, s, _) => k s | (f, s, _) => (f, s, None) end.
Definition noted (s : state) (e : event) : state := mkS (loc s) (glob s) (trace s ++ [e]).
(* s, with everything but the locals from s' *)
Definition back (s s' : state) : state := mkS (loc s) (glob s') (trace s').
Definition frame (s : state) (arg : expr) : state := mkS (fun x => if x =? 0 then value arg s else 0%Z) (glob s) (trace s).
(* d with the locals l *)
Definition with_locals (l : nat -> Z) (d : state -> answer) (s : state) : answer :=
  let '(f, s', c) := d (mkS l (glob s) (trace s)) in (f, back s s', c).

Fixpoint ideal (a : stmt) (s : state) (k : state -> answer) : answer :=
  match a with
  | Skip => k s
  | Seq a b => ideal a s (fun s => ideal b s k)
  | Emit e => k (noted s (Out (value e s)))
  | SetL x e => k (mkS (fun y => if y =? x then value e s else loc s y) (glob s) (trace s))
  | SetG x e => k (mkS (loc s) (fun y => if y =? x then value e s else glob s y) (trace s))
  | If e a b => andthen (if (value e s =? 0)%Z then ideal b s fine else ideal a s fine) k
  | Block a => andthen (ideal a s fine) k
  | Try a b => match ideal a s fine with (Thrown, s, _) => andthen (ideal b s fine) k | r => andthen r k end
  | Return_ => (Returned, s, None)
  | Throw_ => (Thrown, s, None)
  | Defer i d => finally (k (noted s (Def i))) (fun s => ideal d (noted s (Run i)) fine)
  | Scoped i arg pre d =>
      match ideal pre (frame s arg) (fun s => (Normal, s, Some (loc s))) with
      | (Normal, s', Some l) => finally (k (noted (back s s') (Def i))) (fun s => with_locals l (fun s => ideal d s fine) (noted s (Run i)))
      | (Returned, s', _) => k (back s s')
      | (f, s', _) => (f, back s s', None)
      end
  | Discard i arg pre d =>
      match ideal pre (frame s arg) (fun s => (Normal, s, Some (loc s))) with
      | (Normal, s', Some l) => andthen (finally (fine (noted (back s s') (Def i))) (fun s => with_locals l (fun s => ideal d s fine) (noted s (Run i)))) k
      | (Returned, s', _) => k (back s s')
      | (f, s', _) => (f, back s s', None)
      end
  | Copy _ => k s
  end.
(* programs that do not copy objects *)
Fixpoint no_copy (a : stmt) : bool :=
  match a with
  | Seq a b | Try a b | If _ a b | Scoped _ _ a b | Discard _ _ a b => no_copy a && no_copy b
  | Block a | Defer _ a => no_copy a
  | Copy _ => false
  | _ => true
  end.

(* every deferral is run exactly once, the last one first, and nothing is run that was not deferred *)
Inductive balanced : list event -> Prop :=
| b_nil : balanced []
| b_out z : balanced [Out z]
| b_app t u : balanced t -> balanced u -> balanced (t ++ u)
| b_pair i t u : balanced t -> balanced u -> balanced (Def i :: t ++ Run i :: u). (* u: what the deferred code does *)
(* how often *)
Definition is_def (i : nat) (e : event) : bool := match e with Def j => i =? j | _ => false end.
Definition is_run (i : nat) (e : event) : bool := match e with Run j => i =? j | _ => false end.
Definition count (p : event -> bool) (t : list event) : nat := length (filter p t).

(* Model of src/clean-core/defer.hh.  A small language of statements with scopes, CC_DEFER and CC_RETURN_DEFER: a scope keeps the
   list of its automatic objects, which are destroyed in reverse order when control leaves it; the only objects with an effect
   are the deferred<F> (lines 34-50), whose destructor calls f (line 39).
   Variables are local (captured by [&] or [=]) or not (globals, members reached through this).
   Simplifications: integers only; exceptions have no value; whether the stack is unwound for an exception that nobody catches is
   up to the implementation: here it is. *)
From Coq Require Import ZArith List Bool Arith.
Import ListNotations.

Inductive expr := Num (z : Z) | Loc (x : nat) | Glob (x : nat) | Plus (a b : expr).
Inductive event := Out (z : Z) | Def (i : nat) | Run (i : nat).
Record state := mkS { loc : nat -> Z; glob : nat -> Z; trace : list event }.
Inductive flow := Normal | Returned | Thrown | Terminated.

Inductive stmt :=
| Skip | Seq (a b : stmt)
| Emit (e : expr)                       (* something observable *)
| SetL (x : nat) (e : expr) | SetG (x : nat) (e : expr)
| If (e : expr) (a b : stmt)            (* both branches are blocks *)
| Block (a : stmt)                      (* { a } *)
| Try (a b : stmt)                      (* try { a } catch (...) { b } *)
| Return_ | Throw_
| Defer (i : nat) (d : stmt)            (* CC_DEFER { d }; the number i is only for the trace *)
| Scoped (i : nat) (arg : expr) (pre d : stmt)   (* auto y = f(arg);  where  auto f(int x0) { pre; CC_RETURN_DEFER { d }; } *)
| Discard (i : nat) (arg : expr) (pre d : stmt)  (* f(arg); *)
| Copy (k : nat).                       (* auto z = y;  with y the k-th object of the scope *)

Fixpoint value (e : expr) (s : state) : Z :=
  match e with Num z => z | Loc x => loc s x | Glob x => glob s x | Plus a b => value a s + value b s end.
Definition upd (f : nat -> Z) (k : nat) (z : Z) : nat -> Z := fun j => if j =? k then z else f j.
Definition say (s : state) (e : event) : state := mkS (loc s) (glob s) (trace s ++ [e]).

(* a deferred object: what its destructor does *)
Definition obj := state -> flow * state.

(* the destructors of a scope, last object first; an exception that leaves a destructor terminates the program *)
Fixpoint destroy (os : list obj) (s : state) : bool * state :=
  match os with
  | [] => (true, s)
  | o :: os =>
      match o s with
      | (Normal, s) | (Returned, s) => destroy os s
      | (Thrown, s) | (Terminated, s) => (false, s)
      end
  end.
Definition leave (r : flow * state * list obj) : flow * state :=
  match r with
  | (Terminated, s, _) => (Terminated, s)
  | (f, s, os) => match destroy (rev os) s with (true, s) => (f, s) | (false, s) => (Terminated, s) end
  end.

(* CC_DEFER: [&] *)
Definition by_reference (i : nat) (body : state -> flow * state) : obj := fun s => body (say s (Run i)).
(* CC_RETURN_DEFER: [=], the locals are those of the moment of the capture *)
Definition by_value (i : nat) (frame : nat -> Z) (body : state -> flow * state) : obj := fun s =>
  let '(f, s') := body (mkS frame (glob s) (trace s ++ [Run i])) in (f, mkS (loc s) (glob s') (trace s')).

Fixpoint exec (a : stmt) (s : state) (os : list obj) : flow * state * list obj :=
  match a with
  | Skip => (Normal, s, os)
  | Seq a b => match exec a s os with (Normal, s, os) => exec b s os | r => r end
  | Emit e => (Normal, say s (Out (value e s)), os)
  | SetL x e => (Normal, mkS (upd (loc s) x (value e s)) (glob s) (trace s), os)
  | SetG x e => (Normal, mkS (loc s) (upd (glob s) x (value e s)) (trace s), os)
  | If e a b => (leave (exec (if (value e s =? 0)%Z then b else a) s []), os)
  | Block a => (leave (exec a s []), os)
  | Try a b => match leave (exec a s []) with (Thrown, s) => (leave (exec b s []), os) | r => (r, os) end
  | Return_ => (Returned, s, os)
  | Throw_ => (Thrown, s, os)
  | Defer i d => (Normal, say s (Def i), os ++ [by_reference i (fun s => leave (exec d s []))])
  | Scoped i arg pre d =>
      (* a new frame, whose objects are destroyed after the result has been made (in place: no copy) *)
      let s1 := mkS (upd (fun _ => 0%Z) 0 (value arg s)) (glob s) (trace s) in
      match exec pre s1 [] with
      | (Normal, s2, l) =>
          let o := by_value i (loc s2) (fun s => leave (exec d s [])) in
          match leave (Normal, s2, l) with
          | (Normal, s3) => (Normal, mkS (loc s) (glob s3) (trace s3 ++ [Def i]), os ++ [o])
          | (f, s3) => (f, mkS (loc s) (glob s3) (trace s3), os)
          end
      | r => match leave r with (f, s3) => (match f with Returned => Normal | f => f end, mkS (loc s) (glob s3) (trace s3), os) end
      end
  | Discard i arg pre d =>
      let s1 := mkS (upd (fun _ => 0%Z) 0 (value arg s)) (glob s) (trace s) in
      match exec pre s1 [] with
      | (Normal, s2, l) =>
          let o := by_value i (loc s2) (fun s => leave (exec d s [])) in
          match leave (Normal, s2, l) with
          | (Normal, s3) => (leave (Normal, mkS (loc s) (glob s3) (trace s3 ++ [Def i]), [o]), os)
          | (f, s3) => (f, mkS (loc s) (glob s3) (trace s3), os)
          end
      | r => match leave r with (f, s3) => (match f with Returned => Normal | f => f end, mkS (loc s) (glob s3) (trace s3), os) end
      end
  | Copy k => (Normal, s, match nth_error os k with Some o => os ++ [o] | None => os end)
  end.
Definition exec_block (a : stmt) (s : state) : flow * state := leave (exec a s []).

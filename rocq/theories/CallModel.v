(* Helpers that pass arguments on: forward.hh, functors.hh, get.hh, apply.hh, invoke.hh, overloaded.hh, and get of tuple.hh.
   An argument is an expression: the object it names, its value category and whether it is const. Types matter only as far as they
   can be copied and moved; what does not compile is None. *)
From Coq Require Import List Bool Arith.
Import ListNotations.

Inductive category := Lv | Rv.
Record expr := mkx { obj : nat; cat : category; is_const : bool }.

(* parameters of a callable: T, T&, T const&, T&&, auto&& *)
Inductive param := ByVal | LRef | CRef | RRef | Fwd.
Record traits := mkt { copyable : bool; movable : bool }.
Inductive passed := Bound (e : expr) | Copied (o : nat) | Moved (o : nat).
(* initialization of a parameter *)
Definition pass (ty : nat -> traits) (p : param) (e : expr) : option passed :=
  match p, cat e, is_const e with
  | ByVal, Rv, false => if movable (ty (obj e)) then Some (Moved (obj e)) else if copyable (ty (obj e)) then Some (Copied (obj e)) else None
  | ByVal, _, _ => if copyable (ty (obj e)) then Some (Copied (obj e)) else None
  | LRef, Lv, false => Some (Bound e)
  | LRef, _, _ => None
  | CRef, _, _ => Some (Bound (mkx (obj e) Lv true))
  | RRef, Rv, false => Some (Bound e)
  | RRef, _, _ => None
  | Fwd, _, _ => Some (Bound e)
  end.
Fixpoint call (ty : nat -> traits) (ps : list param) (es : list expr) : option (list passed) :=
  match ps, es with
  | [], [] => Some []
  | p :: ps, e :: es =>
      match pass ty p e, call ty ps es with Some x, Some xs => Some (x :: xs) | _, _ => None end
  | _, _ => None
  end.

(* forward.hh: a parameter T&& v used as cc::forward<T>(v) *)
Definition forward (e : expr) : expr := e.
(* a named parameter or member is an lvalue, whatever its type *)
Definition named (e : expr) : expr := mkx (obj e) Lv (is_const e).

(* functors.hh:28-36, 38-58 *)
Definition identity_function (e : expr) : expr := forward e.
Fixpoint projection_function (i : nat) (args : list expr) : option expr :=
  match i, args with
  | _, [] => None
  | O, v :: _ => Some (forward v)
  | S i, _ :: rest => projection_function i (map forward rest)
  end.
(* functors.hh:8-25 *)
Definition void_function (args : list expr) : unit := tt.
Definition constant_function {C} (c : C) (args : list expr) : C := c.

(* a tuple with members T, T&, T&& *)
Inductive kind := KVal | KLRef | KRRef.
Record member := mkm { kd : kind; mobj : nat; mconst : bool }.
Record tuple := mktup { members : list member; tcat : category; tconst : bool }.
(* tuple.hh:36-47, 58-73: both overloads return an lvalue; const reaches members that are not references *)
Fixpoint tuple_get (ms : list member) (c : bool) (i : nat) : option expr :=
  match ms, i with
  | [], _ => None
  | m :: _, O => Some (mkx (mobj m) Lv (mconst m || (match kd m with KVal => c | _ => false end)))
  | _ :: ms, S i => tuple_get ms c i
  end.
(* get.hh:11-15, 24-28: v is a parameter and is passed on by its name *)
Definition cc_get (i : nat) (t : tuple) : option expr :=
  let v := mktup (members t) Lv (tconst t) in
  tuple_get (members v) (tconst v) i.
(* apply.hh:13-24 *)
Fixpoint get_all (n i : nat) (t : tuple) : option (list expr) :=
  match n with
  | O => Some []
  | S n => match cc_get i t, get_all n (S i) t with Some e, Some es => Some (e :: es) | _, _ => None end
  end.
Definition apply (ty : nat -> traits) (ps : list param) (t : tuple) : option (list passed) :=
  match get_all (length (members t)) 0 t with Some es => call ty ps (map forward es) | None => None end.

(* invoke.hh:14-36 perform_invoke of a pointer to member: the first argument is an object of the class or a derived one, a
   reference_wrapper, or something to dereference; target is what a wrapper or pointer refers to, and whether it is const *)
Inductive receiver := IsObject | IsWrapper (target : nat) (c : bool) | IsPointer (target : nat) (c : bool).
(* the expression in front of .*f *)
Definition invoke_target (r : receiver) (t1 : expr) : expr :=
  match r with
  | IsObject => forward t1
  | IsWrapper o c => mkx o Lv c
  | IsPointer o c => mkx o Lv c
  end.
(* a member object is as const and as much an rvalue as the object it is taken from; field gives the object of the member *)
Definition invoke_object (field : nat -> nat) (r : receiver) (t1 : expr) : expr :=
  let t := invoke_target r t1 in mkx (field (obj t)) (cat t) (is_const t).
(* a member function is called on it with the remaining arguments; this_p is the qualification of the function *)
Definition invoke_function (ty : nat -> traits) (this_p : param) (ps : list param) (r : receiver) (t1 : expr) (args : list expr) : option (list passed) :=
  call ty (this_p :: ps) (invoke_target r t1 :: map forward args).
(* invoke.hh:38-42: any other callable *)
Definition invoke_callable (ty : nat -> traits) (ps : list param) (args : list expr) : option (list passed) := call ty ps (map forward args).

(* overloaded.hh:16: overloaded(Fs... fs) : Fs(fs)...; the parameters are passed by value and the bases are copied from their names.
   Result: how each functor came into its parameter and then into its base. *)
Fixpoint overloaded (ty : nat -> traits) (fs : list expr) : option (list (passed * passed)) :=
  match fs with
  | [] => Some []
  | f :: fs =>
      match pass ty ByVal f, pass ty ByVal (named (mkx (obj f) Rv false)), overloaded ty fs with
      | Some a, Some b, Some r => Some ((a, b) :: r)
      | _, _, _ => None
      end
  end.

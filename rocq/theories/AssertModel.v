(* Model of src/clean-core/assert.hh, assert.cc (branches without Windows), assertf.hh and of CC_UNUSED and CC_ASSUME of
   macros.hh: the macros are functions from argument expressions to the expression they expand to, which is then evaluated.
   Expressions have side effects (x++), can throw, exit and set handlers.  State: variables, the assertion handler of each
   thread (thread_local), what was printed to stderr and which handlers were called.
   Simplifications: #condition is the text of the argument (arguments that are macros themselves are not expanded); text goes to stderr in one piece per assertion
   (fflush is not modelled); comparisons are those of integers. *)
From Coq Require Import String Ascii ZArith Arith List Bool Decimal DecimalString.
Import ListNotations.
Open Scope string_scope.

Inductive val := VInt (z : Z) | VStr (s : string) | VNull.
Definition truthy (v : val) : bool := match v with VInt z => negb (z =? 0)%Z | VStr _ => true | VNull => false end.
Definition as_int (v : val) : Z := match v with VInt z => z | VStr _ => 1 | VNull => 0 end.
Definition of_bool (b : bool) : val := VInt (if b then 1 else 0).

(* assert.hh:100-107 *)
Record info := mkI { i_expr : string; i_func : string; i_file : string; i_msg : val; i_line : nat }.

Inductive expr :=
| Const (z : Z) | Lit (s : string) | Nullptr | Var (x : nat) | PostInc (x : nat) | Format (x : nat) (* cc::format("{}", x).c_str() *)
| Paren (e : expr) | Not (e : expr) | And (a b : expr) | Or (a b : expr) | Le (a b : expr) | Lt (a b : expr) | Eq (a b : expr) | Ne (a b : expr)
| Sizeof (e : expr) | Comma (a b : expr) | Cond (c a b : expr) | Void
| AssertionFailed (text func file : string) (msg : expr) (line : nat) | IsDebuggerConnected | Raise | PerformAbort | Unreachable
| SetHandler (h : option nat) | Throw | Exit.

Inductive event := Printed (s : string) | Called (thread handler : nat) (i : info).
Record state := mkSt { vars : nat -> Z; hand : nat -> option nat; log : list event }.
Inductive death := SigTrap | SigAbrt | Exited.
Inductive result := Val (v : val) (s : state) | Died (d : death) (s : state) | Thrown (s : state) | Undefined | NoFuel.

(* which switches were set, whether a debugger is there (on unix the answer is always yes, assert.cc:115-123), whether SIGTRAP
   ends the process, what the handlers do *)
Record cfg := mkC { c_assert : bool; c_bound : bool; c_null : bool; c_contract : bool; c_debugger : bool; c_trap_kills : bool; c_body : nat -> expr }.

Definition nl : string := String (ascii_of_nat 10) EmptyString.
Definition dec (n : nat) : string := NilEmpty.string_of_uint (Nat.to_uint n).
Definition zdec (z : Z) : string := NilEmpty.string_of_int (Z.to_int z).
(* assert.cc:72-88 *)
Definition default_text (i : info) : string :=
  (nl ++ "assertion `" ++ i_expr i ++ "' failed." ++ nl ++
   (match i_msg i with VStr m => "  ---" ++ nl ++ m ++ nl ++ "  ---" ++ nl | _ => "" end) ++
   "  in " ++ i_func i ++ nl ++ "  file " ++ i_file i ++ ":" ++ dec (i_line i) ++ nl).

Definition upd {A} (f : nat -> A) (k : nat) (x : A) : nat -> A := fun j => if Nat.eqb j k then x else f j.
Definition note (s : state) (e : event) : state := mkSt (vars s) (hand s) (log s ++ [e]).

Section Eval.
  Variable c : cfg.
  Variable t : nat. (* the thread *)
  Definition then_ (r : result) (k : val -> state -> result) : result := match r with Val v s => k v s | r => r end.
  Fixpoint eval (fuel : nat) : expr -> state -> result :=
    fix ev (e : expr) (s : state) : result :=
      let bin a b (f : Z -> Z -> bool) := then_ (ev a s) (fun x s => then_ (ev b s) (fun y s => Val (of_bool (f (as_int x) (as_int y))) s)) in
      match e with
      | Const z => Val (VInt z) s
      | Lit x => Val (VStr x) s
      | Nullptr => Val VNull s
      | Var x => Val (VInt (vars s x)) s
      | PostInc x => Val (VInt (vars s x)) (mkSt (upd (vars s) x (vars s x + 1)%Z) (hand s) (log s))
      | Format x => Val (VStr (zdec (vars s x))) s
      | Paren e => ev e s
      | Not e => then_ (ev e s) (fun v s => Val (of_bool (negb (truthy v))) s)
      | And a b => then_ (ev a s) (fun v s => if truthy v then then_ (ev b s) (fun v s => Val (of_bool (truthy v)) s) else Val (of_bool false) s)
      | Or a b => then_ (ev a s) (fun v s => if truthy v then Val (of_bool true) s else then_ (ev b s) (fun v s => Val (of_bool (truthy v)) s))
      | Le a b => bin a b Z.leb
      | Lt a b => bin a b Z.ltb
      | Eq a b => bin a b Z.eqb
      | Ne a b => bin a b (fun x y => negb (Z.eqb x y))
      | Sizeof _ => Val (VInt 1) s
      | Comma a b => then_ (ev a s) (fun _ s => ev b s)
      | Cond a b d => then_ (ev a s) (fun v s => if truthy v then ev b s else ev d s)
      | Void => Val (VInt 0) s
      | AssertionFailed ex fn fi m ln => (* assert.cc:103-113 *)
          then_ (ev m s) (fun m s =>
            let i := mkI ex fn fi m ln in
            match hand s t with
            | None => Val (VInt 0) (note s (Printed (default_text i)))
            | Some h =>
                match fuel with
                | O => NoFuel
                | S fuel => then_ (eval fuel (c_body c h) (note s (Called t h i))) (fun _ s => Val (VInt 0) s)
                end
            end)
      | IsDebuggerConnected => Val (of_bool (c_debugger c)) s
      | Raise => if c_trap_kills c then Died SigTrap s else Val (VInt 0) s
      | PerformAbort => Died SigAbrt s (* assert.cc:125-139 *)
      | Unreachable => Undefined
      | SetHandler h => Val (VInt 0) (mkSt (vars s) (upd (hand s) t h) (log s)) (* assert.cc:141 *)
      | Throw => Thrown s
      | Exit => Died Exited s
      end.
End Eval.

(* ---- the macros ---- *)
Record place := mkP { p_func : string; p_file : string; p_line : nat }. (* CC_PRETTY_FUNC, __FILE__, __LINE__ *)
Record arg := mkA { tx : string; ex : expr }.                           (* a macro argument: its text, its meaning *)

(* macros.hh:198; assert.hh:32 *)
Definition CC_UNUSED (e : expr) : expr := Sizeof (Paren e).
Definition CC_DEBUG_BREAK : expr := Cond IsDebuggerConnected Raise Void.
(* assert.hh:43-46 *)
Definition execute_assert (a : arg) (msg : expr) (p : place) : expr :=
  Cond (Not (Paren (ex a)))
    (Comma (Comma (AssertionFailed (tx a) (p_func p) (p_file p) msg (p_line p)) CC_DEBUG_BREAK) PerformAbort) Void.
(* assert.hh:48-49, assertf.hh:10 *)
Definition CC_RUNTIME_ASSERT (a : arg) (p : place) : expr := execute_assert a Nullptr p.
Definition CC_RUNTIME_ASSERT_MSG (a : arg) (m : expr) (p : place) : expr := execute_assert a m p.
Section Macros.
  Variable c : cfg.
  (* assert.hh:51-57 *)
  Definition CC_ASSERT (a : arg) (p : place) : expr := if c_assert c then execute_assert a Nullptr p else CC_UNUSED (ex a).
  Definition CC_ASSERT_MSG (a : arg) (m : expr) (p : place) : expr := if c_assert c then execute_assert a m p else CC_UNUSED (ex a).
  (* assertf.hh:8 *)
  Definition CC_ASSERTF (a : arg) (x : nat) (p : place) : expr := CC_ASSERT_MSG a (Format x) p.
  (* a && "text" *)
  Definition tagged (a : arg) (s : string) : arg := mkA (tx a ++ " && """ ++ s ++ """") (And (ex a) (Lit s)).
  Definition in_parens (a : arg) : arg := mkA ("(" ++ tx a ++ ")") (Paren (ex a)).
  Definition bounds (v lb ub : arg) : arg :=
    let v := in_parens v in let lb := in_parens lb in let ub := in_parens ub in
    mkA (tx lb ++ " <= " ++ tx v ++ " && " ++ tx v ++ " < " ++ tx ub) (And (Le (ex lb) (ex v)) (Lt (ex v) (ex ub))).
  (* assert.hh:59-63 *)
  Definition CC_ASSERT_IN_BOUNDS (v lb ub : arg) (p : place) : expr :=
    if c_bound c then CC_ASSERT (tagged (bounds v lb ub) "bound check") p else CC_UNUSED (ex (bounds v lb ub)).
  (* assert.hh:65-71 *)
  Definition is_null (q : arg) : arg := mkA (tx (in_parens q) ++ " == nullptr") (Eq (ex (in_parens q)) Nullptr).
  Definition not_null (q : arg) : arg := mkA (tx (in_parens q) ++ " != nullptr") (Ne (ex (in_parens q)) Nullptr).
  Definition CC_ASSERT_IS_NULL (q : arg) (p : place) : expr :=
    if c_null c then CC_ASSERT (tagged (is_null q) "must be null") p else CC_UNUSED (ex (tagged (is_null q) "")).
  Definition CC_ASSERT_NOT_NULL (q : arg) (p : place) : expr :=
    if c_null c then CC_ASSERT (tagged (not_null q) "must not be null") p else CC_UNUSED (ex (tagged (not_null q) "")).
  (* assert.hh:73-77 *)
  Definition CC_CONTRACT (a : arg) (p : place) : expr :=
    if c_contract c then CC_ASSERT (tagged (in_parens a) "contract violation") p else CC_UNUSED (ex (tagged (in_parens a) "")).
  (* assert.hh:79-85 *)
  Definition CC_UNREACHABLE (msg : string) (p : place) : expr :=
    if c_assert c
    then Comma (Comma (Comma (AssertionFailed ("unreachable code reached: " ++ msg) (p_func p) (p_file p) Nullptr (p_line p)) CC_DEBUG_BREAK) PerformAbort) Unreachable
    else Unreachable.
End Macros.
(* macros.hh:162, gcc: (!x) with x as it is written; ! binds tighter than every operator inside x *)
Fixpoint put_not (e : expr) : expr :=
  match e with
  | And a b => And (put_not a) b | Or a b => Or (put_not a) b
  | Le a b => Le (put_not a) b | Lt a b => Lt (put_not a) b | Eq a b => Eq (put_not a) b | Ne a b => Ne (put_not a) b
  | Comma a b => Comma (put_not a) b | Cond a b d => Cond (put_not a) b d
  | e => Not e
  end.
Definition CC_ASSUME (x : expr) : expr := Cond (Paren (put_not x)) Unreachable Void.

(* threads run expressions one after the other; a throw ends the expression only *)
Fixpoint run (c : cfg) (fuel : nat) (os : list (nat * expr)) (s : state) : result :=
  match os with
  | [] => Val (VInt 0) s
  | (t, e) :: os => match eval c t fuel e s with Val _ s => run c fuel os s | Thrown s => run c fuel os s | r => r end
  end.

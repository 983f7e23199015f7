(* C127: checks. *)
From Coq Require Import String Ascii ZArith Arith List Bool Lia.
From Verif Require Import AssertModel AssertSpec AssertProofs.
Import ListNotations.
Open Scope string_scope.

(* A check that is on and whose condition is true evaluates the condition once and has no other effect; the message is not
   evaluated. *)
Theorem C127_passes : forall c t n k p s s',
  active c k = true -> judge c t n k s true s' -> eval c t n (expand c k p) s = Val (VInt 0) s'.
Proof. exact passes. Qed.

(* A check that is on continues only if its condition was true (bounds: see C127_passes, C127_fails). *)
Theorem C127_sound : forall c t n k p s v s',
  active c k = true -> (forall x lb ub, k <> KBounds x lb ub) -> eval c t n (expand c k p) s = Val v s' -> judge c t n k s true s'.
Proof. exact sound. Qed.

(* If the condition is false, the message is evaluated and: without a handler the report goes to stderr and the process dies;
   with a handler the handler is called once, and then either it throws or ends the process itself or the process dies. *)
Theorem C127_fails : forall c t n k p s s' m s'',
  active c k = true -> judge c t (S n) k s false s' -> tells c t (S n) k s' m s'' ->
  let i := mkI (text k) (p_func p) (p_file p) m (p_line p) in
  eval c t (S n) (expand c k p) s
  = match hand s'' t with
    | None => Died (how c) (then_noted s'' (Printed (default_text i)))
    | Some h => match eval c t n (c_body c h) (then_noted s'' (Called t h i)) with Val _ s3 => Died (how c) s3 | r => r end
    end.
Proof.
  intros c t n k p s s' m s'' A J M i. destruct (hand s'' t) as [h|] eqn:H.
  - exact (fails_handler c t n k p s s' m s'' h A J M H).
  - exact (fails_default c t (S n) k p s s' m s'' A J M H).
Qed.

(* A check that is off evaluates nothing. *)
Theorem C127_silent : forall c t n k p s, active c k = false -> exists v, eval c t n (expand c k p) s = Val v s.
Proof. intros. eexists. apply silent. assumption. Qed.

(* The handler of a thread is the one it set last, whatever other threads set; nullptr is the default handler. *)
Theorem C127_handlers : forall c n, (forall h, quiet (c_body c h) = true) ->
  forall (os : list (nat * act)) s v s', forallb (fun o => act_ok (snd o)) os = true ->
  run c n (map (fun o => (fst o, act_expr (snd o))) os) s = Val v s' ->
  forall t, hand s' t = last_set t os (hand s t).
Proof. exact handlers. Qed.

(* Code behind CC_UNREACHABLE is never reached; with assertions on and the default handler, it reports and the process dies. *)
Theorem C127_unreachable : forall c t n msg p s,
  (forall v s', eval c t n (CC_UNREACHABLE c msg p) s <> Val v s')
  /\ (c_assert c = true -> hand s t = None ->
      eval c t n (CC_UNREACHABLE c msg p) s
      = Died (how c) (then_noted s (Printed (default_text (mkI ("unreachable code reached: " ++ msg) (p_func p) (p_file p) VNull (p_line p)))))).
Proof. intros. split; [intros; apply unreachable_never|intros; apply unreachable_dies; assumption]. Qed.

(* An assumption in parentheses is undefined behavior exactly if it does not hold. *)
Theorem C127_assume_paren : forall c t n e s v s', eval c t n e s = Val v s' ->
  eval c t n (CC_ASSUME (Paren e)) s = if truthy v then Val (VInt 0) s' else Undefined.
Proof. exact assume_paren. Qed.

(* ---- refutations ---- *)

(* gcc: the assumption i < n, written without parentheses, becomes (!i) < n: it is undefined behavior for every n > 1, also
   where it holds, and says nothing for n <= 0, also where it does not hold. *)
Theorem C127_assume_refuted : forall c t n s,
  (1 < vars s 1 -> eval c t n (CC_ASSUME (Lt (Var 0) (Var 1))) s = Undefined)%Z
  /\ (vars s 1 <= 0 -> eval c t n (CC_ASSUME (Lt (Var 0) (Var 1))) s = Val (VInt 0) s)%Z
  /\ (forall a b va s', eval c t n (Paren a) s = Val va s' -> truthy va = true -> (exists vb, eval c t n b s' = Val vb s' /\ truthy vb = true) ->
        eval c t n (CC_ASSUME (Or (Paren a) b)) s = Undefined).
Proof.
  intros c t n s. split; [|split].
  - intros H. assert (1 <? vars s 1 = true)%Z as E by (apply Z.ltb_lt; lia). assert (0 <? vars s 1 = true)%Z as E2 by (apply Z.ltb_lt; lia).
    destruct n; cbn; destruct (vars s 0 =? 0)%Z; cbn; rewrite ?E, ?E2; reflexivity.
  - intros H. assert (1 <? vars s 1 = false)%Z as E by (apply Z.ltb_ge; lia). assert (0 <? vars s 1 = false)%Z as E2 by (apply Z.ltb_ge; lia).
    destruct n; cbn; destruct (vars s 0 =? 0)%Z; cbn; rewrite ?E, ?E2; reflexivity.
  - intros a b va s' Ha Ta (vb & Hb & Tb). unfold CC_ASSUME. cbn [put_not]. rewrite ev_cond, ev_paren.
    assert (eval c t n (Or (Not (Paren a)) b) s = then_ (eval c t n (Not (Paren a)) s) (fun v s => if truthy v then Val (of_bool true) s else then_ (eval c t n b s) (fun v s => Val (of_bool (truthy v)) s))) as -> by (destruct n; reflexivity).
    rewrite ev_not, Ha. cbn [then_]. rewrite Ta. cbn. rewrite Hb. cbn. rewrite Tb. destruct n; reflexivity.
Qed.

(* CC_ASSERT_IN_BOUNDS evaluates its first argument twice: the value u - 1 of i++ is in bounds and fails the check. *)
Theorem C127_bounds_twice_refuted : forall c t n p s l u tl tu ti,
  c_assert c = true -> c_bound c = true -> hand s t = None -> (l <= vars s 0)%Z -> (u = vars s 0 + 1)%Z ->
  let k := KBounds (mkA ti (PostInc 0)) (mkA tl (Const l)) (mkA tu (Const u)) in
  exists s', eval c t n (expand c k p) s = Died (how c) s' /\ vars s' 0 = (vars s 0 + 2)%Z.
Proof.
  intros c t n p s l u tl tu ti A B H L U k.
  assert (active c k = true) as Ak by (cbn; rewrite A, B; reflexivity).
  rewrite (expand_on c k p Ak), ev_execute.
  set (s2 := mkSt (upd (upd (vars s) 0 (vars s 0 + 1)%Z) 0 (vars s 0 + 2)%Z) (hand s) (log s)).
  assert (eval c t n (ex (core k)) s = Val (VInt 0) s2) as ->.
  { assert (l <=? vars s 0 = true)%Z as E by (apply Z.leb_le; lia).
    assert (vars s 0 + 1 <? u = false)%Z as E2 by (apply Z.ltb_ge; lia).
    subst s2. replace (vars s 0 + 2)%Z with (vars s 0 + 1 + 1)%Z by lia.
    destruct n; cbn; rewrite E; cbn; rewrite E2; reflexivity. }
  cbn [then_ truthy]. cbn [Z.eqb negb]. rewrite ev_assertion_failed.
  assert (eval c t n (msg_expr k) s2 = Val VNull s2) as -> by apply ev_nullptr.
  cbn [then_]. cbv zeta. assert (hand s2 t = None) as -> by exact H. eexists. split; [reflexivity|]. reflexivity.
Qed.

(* A handler that makes a failing check itself is called again and again: no number of nested calls is enough. *)
Theorem C127_handler_asserts_refuted : forall c t h p n s,
  c_assert c = true -> hand s t = Some h -> c_body c h = CC_ASSERT c (mkA "false" (Const 0)) p ->
  eval c t n (CC_ASSERT c (mkA "false" (Const 0)) p) s = NoFuel.
Proof.
  intros c t h p n s A H B. revert s H. induction n as [|n IH]; intros s H; unfold CC_ASSERT; rewrite A, ev_execute.
  - cbn. rewrite H. reflexivity.
  - assert (eval c t (S n) (ex (mkA "false" (Const 0))) s = Val (VInt 0) s) as -> by reflexivity.
    cbn [then_ truthy]. cbn [Z.eqb negb]. rewrite ev_assertion_failed, ev_nullptr. cbn [then_]. cbv zeta. rewrite H, B.
    rewrite IH by exact H. reflexivity.
Qed.

(* "followed by an abort anyways" (assert.hh:28): with the default action of SIGTRAP a failed check never reaches std::abort, as
   is_debugger_connected says yes on unix. *)
Theorem C127_abort_refuted : forall c t n a p s s',
  c_debugger c = true -> c_trap_kills c = true -> (forall h, c_body c h = Void) -> 
  (exists v, eval c t n (ex a) s = Val v s') -> forall s'', eval c t n (CC_RUNTIME_ASSERT a p) s <> Died SigAbrt s''.
Proof.
  intros c t n a p s s' D T B (v & E) s''. unfold CC_RUNTIME_ASSERT. rewrite ev_execute, E. cbn [then_]. destruct (truthy v); [discriminate|].
  rewrite ev_assertion_failed, ev_nullptr. cbn [then_]. cbv zeta. unfold how. rewrite D, T. cbn [andb].
  destruct (hand s' t) as [h|]; [|discriminate]. destruct n as [|n]; [discriminate|]. rewrite B, ev_void. discriminate.
Qed.

(* ---- examples ---- *)
Definition here : place := mkP "int main()" "main.cc" 7.
Definition bodies (h : nat) : expr := match h with 0 => Void | 1 => Throw | 2 => Exit | _ => PostInc 9 end.
Definition all_on : cfg := mkC true true true true true true bodies.
Definition st0 : state := mkSt (fun x => if Nat.eqb x 1 then 5 else 0)%Z (fun t => match t with 1 => Some 1 | 2 => Some 3 | _ => None end) [].
Definition ipp_is (z : Z) : arg := mkA "i++ == z" (Eq (PostInc 0) (Const z)).

Example C127_passes_example :
  active all_on (KMsg (ipp_is 0) (PostInc 1)) = true
  /\ judge all_on 0 3 (KMsg (ipp_is 0) (PostInc 1)) st0 true (mkSt (upd (vars st0) 0 1%Z) (hand st0) [])
  /\ judge all_on 0 3 (KBounds (mkA "i" (Var 0)) (mkA "0" (Const 0)) (mkA "n" (Var 1))) st0 true st0
  /\ judge all_on 0 3 (KNull (mkA "p" Nullptr)) st0 true st0 /\ judge all_on 0 3 (KNotNull (mkA "p" (Lit "x"))) st0 true st0
  /\ judge all_on 0 3 (KContract (mkA "n" (Var 1))) st0 true st0.
Proof.
  split; [reflexivity|]. split; [exists (VInt 1); split; reflexivity|].
  split; [split; [reflexivity|]; exists 0%Z, 0%Z, 5%Z; repeat (split; [reflexivity|]); split; [lia|reflexivity]|].
  split; [exists VNull; split; reflexivity|]. split; [exists (VStr "x"); split; reflexivity|]. exists (VInt 5); split; reflexivity.
Qed.
Definition i0 : nat := 0.
Definition i9 : nat := 9.
Definition show (r : result) : option (Z * Z * list event) * Z :=
  (match r with Val _ s => (Some (vars s i0, vars s i9, log s), 0) | Died SigTrap s => (Some (vars s i0, vars s i9, log s), 1)
  | Died SigAbrt s => (Some (vars s i0, vars s i9, log s), 2) | Died Exited s => (Some (vars s i0, vars s i9, log s), 3)
  | Thrown s => (Some (vars s i0, vars s i9, log s), 4) | Undefined => (None, 5) | NoFuel => (None, 6) end)%Z.
(* a failing formatted check without handler; with handlers that throw and that return; bounds; contract; after nullptr *)
Example C127_fails_example :
  show (eval all_on 0 3 (expand all_on (KFmt (ipp_is 4) 1) here) st0)
  = (Some (1, 0, [Printed (nl ++ "assertion `i++ == z' failed." ++ nl ++ "  ---" ++ nl ++ "5" ++ nl ++ "  ---" ++ nl ++ "  in int main()" ++ nl ++ "  file main.cc:7" ++ nl)]), 1)%Z
  /\ show (eval all_on 1 3 (expand all_on (KAssert (ipp_is 4)) here) st0) = (Some (1, 0, [Called 1 1 (mkI "i++ == z" "int main()" "main.cc" VNull 7)]), 4)%Z
  /\ show (eval all_on 2 3 (expand all_on (KContract (ipp_is 4)) here) st0)
     = (Some (1, 1, [Called 2 3 (mkI "(i++ == z) && ""contract violation""" "int main()" "main.cc" VNull 7)]), 1)%Z
  /\ show (eval (mkC true true true true true false bodies) 0 3 (expand all_on (KBounds (mkA "n" (Var 1)) (mkA "0" (Const 0)) (mkA "5" (Const 5))) here) st0)
     = (Some (0, 0, [Printed (nl ++ "assertion `(0) <= (n) && (n) < (5) && ""bound check""' failed." ++ nl ++ "  in int main()" ++ nl ++ "  file main.cc:7" ++ nl)]), 2)%Z.
Proof. vm_compute. repeat split. Qed.
Example C127_silent_example :
  let off := mkC true false false false true true bodies in
  active off (KContract (ipp_is 4)) = false /\ active off (KAssert (ipp_is 4)) = true
  /\ active (mkC false true true true true true bodies) (KBounds (ipp_is 0) (ipp_is 0) (ipp_is 0)) = false
  /\ show (eval off 0 3 (expand off (KContract (ipp_is 4)) here) st0) = (Some (0, 0, []), 0)%Z.
Proof. vm_compute. repeat split. Qed.
Example C127_handlers_example :
  let os := [(0, Set_ (Some 2)); (5, Set_ (Some 1)); (5, Do (expand all_on (KAssert (ipp_is 4)) here)); (0, Set_ None); (5, Set_ (Some 3)); (5, Set_ (Some 0))] in
  (forall h, quiet (c_body all_on h) = true) /\ forallb (fun o => act_ok (snd o)) os = true
  /\ (match run all_on 3 (map (fun o => (fst o, act_expr (snd o))) os) st0 with Val _ s => Some (hand s 0, hand s 1, hand s 5, length (log s)) | _ => None end)
     = Some (None, Some 1, Some 0, 1)
  /\ last_set 5 os None = Some 0 /\ last_set 0 os None = None /\ last_set 1 os (Some 1) = Some 1.
Proof. split; [intros [|[|[|]]]; reflexivity|]. vm_compute. repeat split. Qed.
Example C127_refuted_example :
  let s := mkSt (fun x => if Nat.eqb x 1 then 5 else 0)%Z (fun _ => Some 0) [] in
  show (eval all_on 0 3 (CC_ASSUME (Lt (Var 0) (Var 1))) s) = (None, 5%Z)
  /\ show (eval (mkC true true true true true true (fun _ => CC_ASSERT all_on (mkA "false" (Const 0)) here)) 0 50 (CC_ASSERT all_on (mkA "false" (Const 0)) here) s) = (None, 6%Z)
  /\ show (eval all_on 0 3 (CC_ASSUME (Paren (Lt (Var 0) (Var 1)))) s) = (Some (0, 0, []), 0)%Z.
Proof. vm_compute. repeat split. Qed.

Print Assumptions C127_passes.
Print Assumptions C127_sound.
Print Assumptions C127_fails.
Print Assumptions C127_silent.
Print Assumptions C127_handlers.
Print Assumptions C127_unreachable.
Print Assumptions C127_assume_paren.
Print Assumptions C127_assume_refuted.
Print Assumptions C127_bounds_twice_refuted.
Print Assumptions C127_handler_asserts_refuted.
Print Assumptions C127_abort_refuted.

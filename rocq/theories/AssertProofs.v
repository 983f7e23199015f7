From Coq Require Import String ZArith Arith List Bool Lia.
From Verif Require Import AssertModel AssertSpec.
Import ListNotations.

Lemma then_val r k v s' : then_ r k = Val v s' -> exists w s, r = Val w s /\ k w s = Val v s'.
Proof. destruct r; cbn; intros H; try discriminate; eauto. Qed.

Section P.
  Variables (c : cfg) (t n : nat).
  Notation ev := (eval c t n).

  (* evaluation, one constructor at a time *)
  Lemma ev_paren e s : ev (Paren e) s = ev e s.
  Proof. destruct n; reflexivity. Qed.
  Lemma ev_not e s : ev (Not e) s = then_ (ev e s) (fun v s => Val (of_bool (negb (truthy v))) s).
  Proof. destruct n; reflexivity. Qed.
  Lemma ev_and a b s : ev (And a b) s = then_ (ev a s) (fun v s => if truthy v then then_ (ev b s) (fun v s => Val (of_bool (truthy v)) s) else Val (of_bool false) s).
  Proof. destruct n; reflexivity. Qed.
  Lemma ev_bin a b s :
    (ev (Le a b) s = then_ (ev a s) (fun x s => then_ (ev b s) (fun y s => Val (of_bool (as_int x <=? as_int y)%Z) s)))
    /\ (ev (Lt a b) s = then_ (ev a s) (fun x s => then_ (ev b s) (fun y s => Val (of_bool (as_int x <? as_int y)%Z) s)))
    /\ (ev (Eq a b) s = then_ (ev a s) (fun x s => then_ (ev b s) (fun y s => Val (of_bool (as_int x =? as_int y)%Z) s)))
    /\ (ev (Ne a b) s = then_ (ev a s) (fun x s => then_ (ev b s) (fun y s => Val (of_bool (negb (as_int x =? as_int y)%Z)) s))).
  Proof. destruct n; repeat split; reflexivity. Qed.
  Lemma ev_comma a b s : ev (Comma a b) s = then_ (ev a s) (fun _ s => ev b s).
  Proof. destruct n; reflexivity. Qed.
  Lemma ev_cond a b d s : ev (Cond a b d) s = then_ (ev a s) (fun v s => if truthy v then ev b s else ev d s).
  Proof. destruct n; reflexivity. Qed.
  Lemma ev_lit x s : ev (Lit x) s = Val (VStr x) s.
  Proof. destruct n; reflexivity. Qed.
  Lemma ev_nullptr s : ev Nullptr s = Val VNull s.
  Proof. destruct n; reflexivity. Qed.
  Lemma ev_void s : ev Void s = Val (VInt 0) s.
  Proof. destruct n; reflexivity. Qed.
  Lemma ev_unused e s : ev (CC_UNUSED e) s = Val (VInt 1) s.
  Proof. destruct n; reflexivity. Qed.

  Lemma truthy_of_bool b : truthy (of_bool b) = b.
  Proof. destruct b; reflexivity. Qed.

  (* after the handler returned *)
  Lemma ev_fail x s :
    ev (Comma (Comma x CC_DEBUG_BREAK) PerformAbort) s = then_ (ev x s) (fun _ s => Died (how c) s).
  Proof.
    rewrite !ev_comma. destruct (ev x s) as [v s'| | | |]; cbn [then_]; try reflexivity.
    unfold CC_DEBUG_BREAK, how. destruct n; cbn; destruct (c_debugger c), (c_trap_kills c); reflexivity.
  Qed.

  Lemma ev_execute a m p s :
    ev (execute_assert a m p) s
    = then_ (ev (ex a) s) (fun v s => if truthy v then Val (VInt 0) s
        else then_ (ev (AssertionFailed (tx a) (p_func p) (p_file p) m (p_line p)) s) (fun _ s => Died (how c) s)).
  Proof.
    unfold execute_assert. rewrite ev_cond, ev_not, ev_paren.
    destruct (ev (ex a) s) as [v s'| | | |]; cbn [then_]; try reflexivity.
    rewrite truthy_of_bool. destruct (truthy v); cbn [negb]; [apply ev_void|apply ev_fail].
  Qed.

  (* the check as one assertion *)
  Definition core (k : check) : arg :=
    match k with
    | KAssert a | KMsg a _ | KFmt a _ | KRuntime a | KRuntimeMsg a _ => a
    | KBounds v lb ub => tagged (bounds v lb ub) "bound check"
    | KNull q => tagged (is_null q) "must be null" | KNotNull q => tagged (not_null q) "must not be null"
    | KContract a => tagged (in_parens a) "contract violation"
    end.
  Definition msg_expr (k : check) : expr := match message k with Some e => e | None => Nullptr end.

  Lemma expand_on k p : active c k = true -> expand c k p = execute_assert (core k) (msg_expr k) p.
  Proof.
    destruct k; cbn; unfold CC_ASSERT, CC_ASSERT_MSG, CC_ASSERTF, CC_ASSERT_IN_BOUNDS, CC_ASSERT_IS_NULL, CC_ASSERT_NOT_NULL, CC_CONTRACT, CC_ASSERT_MSG, CC_ASSERT;
      intros H; try (apply andb_prop in H; destruct H as [H1 H2]); rewrite ?H, ?H1, ?H2; reflexivity.
  Qed.
  Lemma expand_off k p : active c k = false -> exists e, expand c k p = CC_UNUSED e.
  Proof.
    destruct k; cbn; unfold CC_ASSERT, CC_ASSERT_MSG, CC_ASSERTF, CC_ASSERT_IN_BOUNDS, CC_ASSERT_IS_NULL, CC_ASSERT_NOT_NULL, CC_CONTRACT, CC_ASSERT_MSG, CC_ASSERT;
      intros H; try discriminate; rewrite ?H; eauto; destruct (c_assert c); cbn in H; rewrite ?H; eauto;
      [destruct (c_bound c)|destruct (c_null c)|destruct (c_null c)|destruct (c_contract c)]; eauto.
  Qed.

  Lemma sapp_assoc (a b d : string) : ((a ++ b) ++ d)%string = (a ++ (b ++ d))%string.
  Proof. induction a; cbn; congruence. Qed.
  Lemma core_text k : tx (core k) = text k.
  Proof. destruct k; cbn; repeat (rewrite ?sapp_assoc; cbn); reflexivity. Qed.

  Lemma core_judge k s b s' : judge c t n k s b s' -> exists v, ev (ex (core k)) s = Val v s' /\ truthy v = b.
  Proof.
    destruct k; cbn [judge core]; try (intros H; exact H).
    - intros (-> & x & l & u & Hx & Hl & Hu & Hb). unfold steady in *.
      exists (of_bool b). split; [|apply truthy_of_bool]. cbn [tagged ex bounds in_parens].
      destruct (ev_bin (Paren (ex lb)) (Paren (ex v)) s) as (L & _).
      destruct (ev_bin (Paren (ex v)) (Paren (ex ub)) s) as (_ & L2 & _).
      rewrite !ev_and, L, !ev_paren, Hl. cbn [then_]. rewrite ev_paren, Hx. cbn [then_ as_int]. rewrite truthy_of_bool.
      destruct (l <=? x)%Z eqn:E1.
      + rewrite L2, ev_paren, Hx. cbn [then_]. rewrite ev_paren, Hu. cbn [then_ as_int]. rewrite !truthy_of_bool.
        destruct (x <? u)%Z eqn:E2; rewrite ?ev_lit; cbn; f_equal; f_equal; destruct b; try reflexivity; exfalso;
          (apply Z.leb_le in E1; first [apply Z.ltb_lt in E2 | apply Z.ltb_ge in E2]);
          first [assert (true = true) as T by reflexivity; apply Hb in T; lia | assert (false = true) as T by (apply Hb; lia); discriminate T].
      + cbn. f_equal. f_equal. destruct b; [|reflexivity]. apply Z.leb_gt in E1. assert (true = true) as T by reflexivity. apply Hb in T. lia.
    - intros (v & Hv & ->). exists (of_bool (as_int v =? 0)%Z). split; [|apply truthy_of_bool]. cbn [tagged ex is_null in_parens].
      destruct (ev_bin (Paren (ex q)) Nullptr s) as (_ & _ & L & _).
      rewrite ev_and, L, ev_paren, Hv. cbn [then_]. rewrite ev_nullptr. cbn [then_ as_int]. rewrite truthy_of_bool, ev_lit. destruct (as_int v =? 0)%Z; reflexivity.
    - intros (v & Hv & ->). exists (of_bool (negb (as_int v =? 0)%Z)). split; [|apply truthy_of_bool]. cbn [tagged ex not_null in_parens].
      destruct (ev_bin (Paren (ex q)) Nullptr s) as (_ & _ & _ & L).
      rewrite ev_and, L, ev_paren, Hv. cbn [then_]. rewrite ev_nullptr. cbn [then_ as_int]. rewrite truthy_of_bool, ev_lit. destruct (as_int v =? 0)%Z; reflexivity.
    - intros (v & Hv & Hb). exists (of_bool b). split; [|apply truthy_of_bool]. cbn [tagged ex in_parens].
      rewrite ev_and, ev_paren, Hv. cbn [then_]. rewrite Hb, ev_lit. destruct b; reflexivity.
  Qed.

  Theorem passes k p s s' : active c k = true -> judge c t n k s true s' -> ev (expand c k p) s = Val (VInt 0) s'.
  Proof.
    intros A J. rewrite (expand_on k p A), ev_execute. destruct (core_judge _ _ _ _ J) as (v & -> & T). cbn [then_]. rewrite T. reflexivity.
  Qed.

  Theorem silent k p s : active c k = false -> ev (expand c k p) s = Val (VInt 1) s.
  Proof. intros A. destruct (expand_off k p A) as (e & ->). apply ev_unused. Qed.

  (* continuing behind an active check means that the condition was true *)
  Theorem sound_core k p s v s' :
    active c k = true -> ev (expand c k p) s = Val v s' -> exists w, ev (ex (core k)) s = Val w s' /\ truthy w = true.
  Proof.
    intros A. rewrite (expand_on k p A), ev_execute. intros H. apply then_val in H. destruct H as (w & s1 & H1 & H2).
    destruct (truthy w) eqn:T; [injection H2 as _ <-; eauto|].
    apply then_val in H2. destruct H2 as (? & ? & _ & H2). discriminate.
  Qed.
  Theorem sound k p s v s' :
    active c k = true -> (forall x lb ub, k <> KBounds x lb ub) -> ev (expand c k p) s = Val v s' -> judge c t n k s true s'.
  Proof.
    intros A NB H. destruct (sound_core _ _ _ _ _ A H) as (w & E & T). destruct k; cbn [judge core] in *; eauto.
    - exfalso. exact (NB _ _ _ eq_refl).
    - cbn [tagged ex is_null in_parens] in E. destruct (ev_bin (Paren (ex q)) Nullptr s) as (_ & _ & L & _).
      rewrite ev_and, L, ev_paren in E. destruct (ev (ex q) s) as [x s1| | | |]; cbn [then_] in E; try discriminate.
      rewrite ev_nullptr in E. cbn [then_ as_int] in E. rewrite truthy_of_bool in E.
      destruct (as_int x =? 0)%Z eqn:Z0; [rewrite ev_lit in E; cbn in E; injection E as _ <-; exists x; rewrite Z0; auto|injection E as <- _; discriminate T].
    - cbn [tagged ex not_null in_parens] in E. destruct (ev_bin (Paren (ex q)) Nullptr s) as (_ & _ & _ & L).
      rewrite ev_and, L, ev_paren in E. destruct (ev (ex q) s) as [x s1| | | |]; cbn [then_] in E; try discriminate.
      rewrite ev_nullptr in E. cbn [then_ as_int] in E. rewrite truthy_of_bool in E.
      destruct (as_int x =? 0)%Z eqn:Z0; cbn [negb] in E; [injection E as <- _; discriminate T|rewrite ev_lit in E; cbn in E; injection E as _ <-; exists x; rewrite Z0; auto].
    - cbn [tagged ex in_parens] in E. rewrite ev_and, ev_paren in E. destruct (ev (ex a) s) as [x s1| | | |]; cbn [then_] in E; try discriminate.
      destruct (truthy x) eqn:X; [rewrite ev_lit in E; cbn in E; injection E as _ <-; eauto|injection E as <- _; discriminate T].
  Qed.
End P.

Lemma ev_assertion_failed c t n x f fi m ln s :
  eval c t n (AssertionFailed x f fi m ln) s
  = then_ (eval c t n m s) (fun m s =>
      let i := mkI x f fi m ln in
      match hand s t with
      | None => Val (VInt 0) (note s (Printed (default_text i)))
      | Some h => match n with O => NoFuel | S n => then_ (eval c t n (c_body c h) (note s (Called t h i))) (fun _ s => Val (VInt 0) s) end
      end).
Proof. destruct n; reflexivity. Qed.

Lemma msg_tells c t n k s m s' : tells c t n k s m s' -> eval c t n (msg_expr k) s = Val m s'.
Proof. unfold tells, msg_expr. destruct (message k); [auto|]. intros (-> & ->). apply ev_nullptr. Qed.

Theorem fails_default c t n k p s s' m s'' :
  active c k = true -> judge c t n k s false s' -> tells c t n k s' m s'' -> hand s'' t = None ->
  eval c t n (expand c k p) s = Died (how c) (note s'' (Printed (default_text (mkI (text k) (p_func p) (p_file p) m (p_line p))))).
Proof.
  intros A J M H. rewrite (expand_on c k p A), ev_execute. destruct (core_judge _ _ _ _ _ _ _ J) as (v & -> & T). cbn [then_]. rewrite T.
  rewrite ev_assertion_failed, (msg_tells _ _ _ _ _ _ _ M), core_text. cbn [then_]. cbv zeta. rewrite H. reflexivity.
Qed.
Theorem fails_handler c t n k p s s' m s'' h :
  active c k = true -> judge c t (S n) k s false s' -> tells c t (S n) k s' m s'' -> hand s'' t = Some h ->
  eval c t (S n) (expand c k p) s
  = match eval c t n (c_body c h) (note s'' (Called t h (mkI (text k) (p_func p) (p_file p) m (p_line p)))) with
    | Val _ s3 => Died (how c) s3
    | r => r
    end.
Proof.
  intros A J M H. rewrite (expand_on c k p A), ev_execute. destruct (core_judge _ _ _ _ _ _ _ J) as (v & -> & T). cbn [then_]. rewrite T.
  rewrite ev_assertion_failed, (msg_tells _ _ _ _ _ _ _ M), core_text. cbn [then_]. cbv zeta. rewrite H.
  destruct (eval c t n (c_body c h) _); reflexivity.
Qed.

(* ---- handlers ---- *)
Definition keeps (s : state) (r : result) : Prop := match r with Val _ s' | Thrown s' | Died _ s' => hand s' = hand s | _ => True end.
Lemma keeps_then s r k : keeps s r -> (forall v s1, r = Val v s1 -> hand s1 = hand s -> keeps s (k v s1)) -> keeps s (then_ r k).
Proof. destruct r; cbn; auto. Qed.
Lemma keeps_trans s s1 r : hand s1 = hand s -> keeps s1 r -> keeps s r.
Proof. destruct r; cbn; congruence. Qed.

Lemma eval_keeps c t : (forall h, quiet (c_body c h) = true) -> forall n e s, quiet e = true -> keeps s (eval c t n e s).
Proof.
  intros Q n. induction n as [n IHn] using lt_wf_ind. intros e. induction e; intros s' He; cbn in He;
    repeat match goal with H : _ && _ = true |- _ => apply andb_prop in H; destruct H end; try discriminate He.
  all: try (destruct n; reflexivity).
  all: try (rewrite ev_paren; auto; fail).
  all: try (rewrite ev_not; apply keeps_then; [auto|cbn; auto]; fail).
  all: try (rewrite ev_comma; apply keeps_then; [auto|intros; eapply keeps_trans; [eassumption|auto]]; fail).
  - rewrite ev_and. apply keeps_then; [auto|]. intros v s1 _ Hs1. destruct (truthy v); [|cbn; exact Hs1].
    apply (keeps_trans _ s1 _ Hs1). apply keeps_then; [auto|cbn; auto].
  - assert (eval c t n (Or e1 e2) s' = then_ (eval c t n e1 s') (fun v s => if truthy v then Val (of_bool true) s else then_ (eval c t n e2 s) (fun v s => Val (of_bool (truthy v)) s))) as -> by (destruct n; reflexivity).
    apply keeps_then; [auto|]. intros v s1 _ Hs1. destruct (truthy v); [cbn; exact Hs1|].
    apply (keeps_trans _ s1 _ Hs1). apply keeps_then; [auto|cbn; auto].
  - destruct (ev_bin c t n e1 e2 s') as (-> & _). apply keeps_then; [auto|]. intros v s1 _ Hs1. apply (keeps_trans _ s1 _ Hs1). apply keeps_then; [auto|cbn; auto].
  - destruct (ev_bin c t n e1 e2 s') as (_ & -> & _). apply keeps_then; [auto|]. intros v s1 _ Hs1. apply (keeps_trans _ s1 _ Hs1). apply keeps_then; [auto|cbn; auto].
  - destruct (ev_bin c t n e1 e2 s') as (_ & _ & -> & _). apply keeps_then; [auto|]. intros v s1 _ Hs1. apply (keeps_trans _ s1 _ Hs1). apply keeps_then; [auto|cbn; auto].
  - destruct (ev_bin c t n e1 e2 s') as (_ & _ & _ & ->). apply keeps_then; [auto|]. intros v s1 _ Hs1. apply (keeps_trans _ s1 _ Hs1). apply keeps_then; [auto|cbn; auto].
  - rewrite ev_cond. apply keeps_then; [auto|]. intros v s1 _ Hs1. apply (keeps_trans _ s1 _ Hs1). destruct (truthy v); auto.
  - rewrite ev_assertion_failed. apply keeps_then; [auto|]. intros m s1 _ Hs1. cbv zeta. destruct (hand s1 t) as [h|]; [|cbn; exact Hs1].
    destruct n as [|n]; [exact Logic.I|]. apply (keeps_trans _ s1 _ Hs1).
    apply keeps_then; [|cbn; auto]. apply (IHn n (Nat.lt_succ_diag_r n) (c_body c h) (note s1 _) (Q h)).
  - destruct n; cbn; destruct (c_trap_kills c); reflexivity.
Qed.

Theorem handlers c n : (forall h, quiet (c_body c h) = true) ->
  forall (os : list (nat * act)) s v s', forallb (fun o => act_ok (snd o)) os = true ->
  run c n (map (fun o => (fst o, act_expr (snd o))) os) s = Val v s' ->
  forall t, hand s' t = last_set t os (hand s t).
Proof.
  intros Q os. induction os as [|[u a] os IH]; intros s v s' OK H t; cbn in OK.
  - cbn in H. injection H as _ <-. reflexivity.
  - apply andb_prop in OK. destruct OK as [Oa Oos]. cbn [map run fst snd] in H. destruct a as [h|e]; cbn [act_expr last_set act_ok] in *.
    + assert (eval c u n (SetHandler h) s = Val (VInt 0) (mkSt (vars s) (upd (hand s) u h) (log s))) as E by (destruct n; reflexivity).
      rewrite E in H. rewrite (IH _ _ _ Oos H t). cbn [hand]. unfold upd. rewrite Nat.eqb_sym. reflexivity.
    + pose proof (eval_keeps c u Q n e s Oa) as K. destruct (eval c u n e s) as [w s1|?|s1| |]; try discriminate; cbn in K; rewrite (IH _ _ _ Oos H t), K; reflexivity.
Qed.

(* ---- CC_UNREACHABLE, CC_ASSUME ---- *)
Theorem unreachable_dies c t n msg p s : c_assert c = true -> hand s t = None ->
  eval c t n (CC_UNREACHABLE c msg p) s = Died (how c) (note s (Printed (default_text (mkI ("unreachable code reached: " ++ msg) (p_func p) (p_file p) VNull (p_line p))))).
Proof.
  intros A H. unfold CC_UNREACHABLE. rewrite A, ev_comma, ev_fail, ev_assertion_failed, ev_nullptr. cbn [then_]. cbv zeta. rewrite H. reflexivity.
Qed.
Theorem unreachable_never c t n msg p s v s' : eval c t n (CC_UNREACHABLE c msg p) s <> Val v s'.
Proof.
  unfold CC_UNREACHABLE. destruct (c_assert c); [rewrite ev_comma, ev_fail|destruct n; discriminate].
  destruct (eval c t n (AssertionFailed _ _ _ _ _) s); discriminate.
Qed.
Theorem assume_paren c t n e s v s' : eval c t n e s = Val v s' ->
  eval c t n (CC_ASSUME (Paren e)) s = if truthy v then Val (VInt 0) s' else Undefined.
Proof.
  intros H. unfold CC_ASSUME. cbn [put_not]. rewrite ev_cond, ev_paren, ev_not, ev_paren, H. cbn [then_]. rewrite truthy_of_bool.
  destruct (truthy v); cbn [negb]; [apply ev_void|destruct n; reflexivity].
Qed.

(* C131: helpers that pass arguments on. *)
From Coq Require Import List Bool Arith Lia.
From Verif Require Import CallModel.
Import ListNotations.

(* What a member of a tuple is when the tuple is used up: rvalue tuples give away the members they own (std::get, [tuple.elem]). *)
Definition given (t : tuple) (m : member) : expr :=
  match kd m, tcat t with
  | KVal, c => mkx (mobj m) c (mconst m || tconst t)
  | KLRef, _ => mkx (mobj m) Lv (mconst m)
  | KRRef, c => mkx (mobj m) c (mconst m)
  end.

(* ---- functors ---- *)
Theorem C131_identity : forall e, identity_function e = e.
Proof. reflexivity. Qed.
(* the i-th argument as it was passed; too few arguments do not compile *)
Theorem C131_projection : forall i args, projection_function i args = nth_error args i.
Proof.
  induction i as [|i IH]; intros [|a args]; cbn; try reflexivity. rewrite IH. unfold forward. rewrite map_id. reflexivity.
Qed.

(* ---- callables ---- *)
Theorem C131_callable : forall ty ps args, invoke_callable ty ps args = call ty ps args.
Proof. intros. unfold invoke_callable, forward. rewrite map_id. reflexivity. Qed.
(* pointers to members act on the object that was designated: passed itself, in a wrapper or by a pointer; only an object that was
   passed itself keeps its value category *)
Definition designates (r : receiver) (t1 x : expr) : Prop :=
  match r with
  | IsObject => x = t1
  | IsWrapper o c | IsPointer o c => x = mkx o Lv c
  end.
Theorem C131_member_object : forall field r t1 x, designates r t1 x ->
  invoke_object field r t1 = mkx (field (obj x)) (cat x) (is_const x).
Proof. intros field [|o c|o c] t1 x H; cbn in H; subst x; reflexivity. Qed.
Theorem C131_member_function : forall ty q ps r t1 args x, designates r t1 x -> invoke_function ty q ps r t1 args = call ty (q :: ps) (x :: args).
Proof. intros ty q ps [|o c|o c] t1 args x H; cbn in H; subst x; unfold invoke_function, forward; rewrite map_id; reflexivity. Qed.

(* ---- tuples ---- *)
Lemma get_nth : forall ms c i, tuple_get ms c i =
  match nth_error ms i with Some m => Some (mkx (mobj m) Lv (mconst m || match kd m with KVal => c | _ => false end)) | None => None end.
Proof. induction ms as [|m ms IH]; intros c [|i]; cbn; auto. Qed.
(* get names the i-th member; it is always an lvalue *)
Theorem C131_get : forall i t, match cc_get i t, nth_error (members t) i with
  | Some e, Some m => obj e = mobj m /\ cat e = Lv /\ is_const e = is_const (given t m)
  | None, None => True
  | _, _ => False end.
Proof.
  intros i t. unfold cc_get. cbn [members tconst]. rewrite get_nth. destruct (nth_error (members t) i) as [m|]; [|exact I].
  cbn. split; [reflexivity|]. split; [reflexivity|]. unfold given. destruct (kd m), (tcat t); cbn; rewrite ?orb_false_r; reflexivity.
Qed.
Lemma get_all_eq : forall n i t, (i + n <= length (members t))%nat ->
  get_all n i t = Some (map (fun m => named (given t m)) (firstn n (skipn i (members t)))).
Proof.
  induction n as [|n IH]; intros i t L; [reflexivity|]. cbn [get_all]. pose proof (C131_get i t) as G.
  destruct (nth_error (members t) i) as [m|] eqn:E; [|apply nth_error_None in E; lia]. destruct (cc_get i t) as [[o c k]|] eqn:Eg; [|destruct G].
  cbn in G. destruct G as (-> & -> & ->). rewrite IH by lia.
  assert (skipn i (members t) = m :: skipn (S i) (members t)) as ->.
  { clear -E. revert i E. induction (members t) as [|x l IH]; intros [|i] E; cbn in *; try discriminate; [injection E as ->; reflexivity|]. rewrite (IH i E). destruct l; reflexivity. }
  cbn [firstn map]. f_equal. f_equal. unfold named, given. destruct (kd m); reflexivity.
Qed.
(* apply calls with all members in order, by their names *)
Theorem C131_apply : forall ty ps t, apply ty ps t = call ty ps (map (fun m => named (given t m)) (members t)).
Proof.
  intros ty ps t. unfold apply. rewrite (get_all_eq (length (members t)) 0 t) by lia. cbn [skipn]. rewrite firstn_all. unfold forward. rewrite map_id. reflexivity.
Qed.
(* so it does what the members of the tuple ask for if the tuple is an lvalue or holds lvalue references only *)
Theorem C131_apply_partial : forall ty ps t, tcat t = Lv \/ Forall (fun m => kd m = KLRef) (members t) -> apply ty ps t = call ty ps (map (given t) (members t)).
Proof.
  intros ty ps t H. rewrite C131_apply. f_equal. apply map_ext_in. intros m Hm. unfold named, given. destruct H as [->|H].
  - destruct (kd m); reflexivity.
  - rewrite Forall_forall in H. rewrite (H m Hm). reflexivity.
Qed.

(* ---- refutations ---- *)
(* get of an rvalue tuple does not give the member away *)
Theorem C131_get_refuted : forall i t m, tcat t = Rv -> kd m <> KLRef -> nth_error (members t) i = Some m -> exists e, cc_get i t = Some e /\ e <> given t m.
Proof.
  intros i t m R K E. pose proof (C131_get i t) as G. rewrite E in G. destruct (cc_get i t) as [e|]; [|destruct G]. exists e. split; [reflexivity|].
  intros ->. destruct G as (_ & C & _). unfold given in C. destruct (kd m); [|contradiction|]; cbn in C; congruence.
Qed.
(* apply on an rvalue tuple, a callable whose i-th parameter is T&&, or a T that can only be moved, does not compile at all *)
Lemma call_none : forall ty ps es i p e, nth_error ps i = Some p -> nth_error es i = Some e -> pass ty p e = None -> call ty ps es = None.
Proof.
  intros ty. induction ps as [|q ps IH]; intros [|x es] [|i] p e Hp He E; cbn in *; try discriminate; try reflexivity.
  - injection Hp as ->. injection He as ->. rewrite E. reflexivity.
  - rewrite (IH es i p e Hp He E). destruct (pass ty q x); reflexivity.
Qed.
Theorem C131_apply_refuted : forall ty ps t i m, nth_error (members t) i = Some m ->
  (nth_error ps i = Some RRef \/ nth_error ps i = Some ByVal /\ copyable (ty (mobj m)) = false) -> apply ty ps t = None.
Proof.
  intros ty ps t i m E H. rewrite C131_apply.
  assert (nth_error (map (fun m => named (given t m)) (members t)) i = Some (named (given t m))) as E' by (apply (map_nth_error (fun m => named (given t m))); exact E).
  destruct H as [H|(H & C)]; eapply (call_none ty ps _ i _ _ H E').
  - unfold pass, named. cbn. reflexivity.
  - unfold pass, named. cbn. assert (obj (given t m) = mobj m) as -> by (unfold given; destruct (kd m); reflexivity). rewrite C. reflexivity.
Qed.
(* and what could be moved is copied *)
Theorem C131_apply_copies_refuted : forall ty ps t i m xs, nth_error (members t) i = Some m -> nth_error ps i = Some ByVal -> apply ty ps t = Some xs ->
  nth_error xs i = Some (Copied (mobj m)).
Proof.
  intros ty ps t i m xs E H A. rewrite C131_apply in A. revert ps i xs E H A. generalize (members t) as ms.
  induction ms as [|x ms IH]; intros [|p ps] [|i] xs E H A; cbn in *; try discriminate.
  - injection E as ->. injection H as ->. cbn in A. assert (obj (given t m) = mobj m) as Eo by (unfold given; destruct (kd m); reflexivity). rewrite Eo in A.
    destruct (copyable (ty (mobj m))); [|discriminate]. destruct (call ty ps _); [|discriminate]. injection A as <-. reflexivity.
  - destruct (pass ty p _); [|discriminate]. destruct (call ty ps _) as [ys|] eqn:C; [|discriminate]. injection A as <-. cbn. eapply IH; eauto.
Qed.

(* ---- overloaded ---- *)
(* every functor is copied into its base, also when a temporary was passed *)
Theorem C131_overloaded : forall ty fs r, overloaded ty fs = Some r -> map snd r = map (fun f => Copied (obj f)) fs.
Proof.
  intros ty. induction fs as [|f fs IH]; intros r H; cbn [overloaded] in H; [injection H as <-; reflexivity|].
  destruct (pass ty ByVal f); [|discriminate]. cbn [pass named cat is_const obj] in H. destruct (copyable (ty (obj f))); [|discriminate]. destruct (overloaded ty fs) as [r'|]; [|discriminate].
  injection H as <-. cbn. rewrite (IH r' eq_refl). reflexivity.
Qed.
Theorem C131_overloaded_partial : forall ty fs, (forall f, In f fs -> copyable (ty (obj f)) = true) -> exists r, overloaded ty fs = Some r.
Proof.
  intros ty. induction fs as [|f fs IH]; intros H; [eexists; reflexivity|]. cbn. pose proof (H f (or_introl eq_refl)) as Hf. rewrite Hf.
  destruct IH as (r & ->); [intros g Hg; apply H; right; exact Hg|]. destruct (cat f), (is_const f), (movable (ty (obj f))); eexists; reflexivity.
Qed.
(* a lambda that captured something that can only be moved cannot be overloaded, though it could be moved *)
Theorem C131_overloaded_refuted : forall ty fs f, In f fs -> copyable (ty (obj f)) = false -> overloaded ty fs = None.
Proof.
  intros ty. induction fs as [|g fs IH]; intros f I C; [destruct I|]. cbn. destruct I as [->|I].
  - rewrite C. destruct (cat f), (is_const f), (movable (ty (obj f))); reflexivity.
  - rewrite (IH f I C). destruct (cat g), (is_const g), (movable (ty (obj g))), (copyable (ty (obj g))); reflexivity.
Qed.

(* a call compiles only with one argument for each parameter, and initializes each of them *)
Theorem C131_arity : forall ty ps t xs, apply ty ps t = Some xs -> length ps = length (members t) /\ length xs = length ps.
Proof.
  intros ty ps t xs. rewrite C131_apply. generalize (members t). intro ms. revert ps xs.
  induction ms as [|m ms IH]; intros [|p ps] xs; cbn [call map]; intro H; try discriminate.
  - injection H as <-. split; reflexivity.
  - destruct (pass ty p _); [|discriminate]. destruct (call ty ps _) as [ys|] eqn:E; [|discriminate].
    injection H as <-. destruct (IH _ _ E). cbn. auto.
Qed.

(* ---- examples: object 0 an int, 1 a unique_ptr, 2 a string ---- *)
Definition ty0 (o : nat) : traits := if o =? 1 then mkt false true else mkt true true.
Definition t3 (c : category) : tuple := mktup [mkm KVal 0 false; mkm KLRef 1 false; mkm KVal 2 true] c false.
Example C131_example :
  projection_function 1 [mkx 0 Lv false; mkx 1 Rv false; mkx 2 Lv true] = Some (mkx 1 Rv false)
  /\ projection_function 3 [mkx 0 Lv false] = None
  /\ apply ty0 [ByVal; LRef; CRef] (t3 Lv) = Some [Copied 0; Bound (mkx 1 Lv false); Bound (mkx 2 Lv true)]
  /\ apply ty0 [ByVal; LRef; Fwd] (t3 Rv) = Some [Copied 0; Bound (mkx 1 Lv false); Bound (mkx 2 Lv true)]
  /\ call ty0 [ByVal; LRef; Fwd] (map (given (t3 Rv)) (members (t3 Rv))) = Some [Moved 0; Bound (mkx 1 Lv false); Bound (mkx 2 Rv true)]
  /\ apply ty0 [ByVal] (mktup [mkm KVal 1 false] Rv false) = None
  /\ call ty0 [ByVal] [given (mktup [mkm KVal 1 false] Rv false) (mkm KVal 1 false)] = Some [Moved 1]
  /\ apply ty0 [LRef] (mktup [mkm KVal 0 false] Lv true) = None
  /\ apply ty0 [LRef] (mktup [mkm KLRef 0 false] Lv true) = Some [Bound (mkx 0 Lv false)]
  /\ apply ty0 [ByVal; ByVal] (t3 Lv) = None
  /\ apply ty0 [ByVal; LRef] (t3 Lv) = None
  /\ apply ty0 [ByVal; LRef; CRef; ByVal] (t3 Lv) = None
  /\ invoke_object (fun o => o + 10) IsObject (mkx 2 Rv false) = mkx 12 Rv false
  /\ invoke_object (fun o => o + 10) (IsPointer 2 true) (mkx 5 Rv false) = mkx 12 Lv true
  /\ invoke_function ty0 RRef [ByVal] IsObject (mkx 2 Rv false) [mkx 1 Rv false] = Some [Bound (mkx 2 Rv false); Moved 1]
  /\ invoke_function ty0 RRef [] (IsWrapper 2 false) (mkx 5 Rv false) [] = None
  /\ invoke_callable ty0 [ByVal; RRef] [mkx 1 Rv false; mkx 2 Rv false] = Some [Moved 1; Bound (mkx 2 Rv false)]
  /\ overloaded ty0 [mkx 0 Rv false; mkx 2 Lv false] = Some [(Moved 0, Copied 0); (Copied 2, Copied 2)]
  /\ overloaded ty0 [mkx 1 Rv false] = None
  /\ pass ty0 ByVal (mkx 1 Rv true) = None /\ pass ty0 ByVal (mkx 0 Rv true) = Some (Copied 0)
  /\ pass (fun _ => mkt true false) ByVal (mkx 0 Rv false) = Some (Copied 0).
Proof. vm_compute. repeat split. Qed.

Print Assumptions C131_identity.
Print Assumptions C131_projection.
Print Assumptions C131_callable.
Print Assumptions C131_member_object.
Print Assumptions C131_member_function.
Print Assumptions C131_get.
Print Assumptions C131_apply.
Print Assumptions C131_arity.
Print Assumptions C131_apply_partial.
Print Assumptions C131_get_refuted.
Print Assumptions C131_apply_refuted.
Print Assumptions C131_apply_copies_refuted.
Print Assumptions C131_overloaded.
Print Assumptions C131_overloaded_partial.
Print Assumptions C131_overloaded_refuted.

(* Property C119. *)
From Coq Require Import Ascii String ZArith Arith List Bool Lia.
From Verif Require Import Base ErrMsgModel ErrMsgSpec ErrMsgProofs.
Import ListNotations.

(* The message repeats every line of the string, and shows below it every error that begins in it, with marked target and
   complete text, nothing covered, if every target lies in one line.
   Missing for the full claim: targets of several lines (C119_multiline_refuted). *)
Theorem C119_message_partial : forall str errors message, str <> [] -> Forall (in_str str) errors ->
  exists ls out, lines_of str ls /\ shown 0 ls errors out /\
    make_message str (map to_err errors) message = Ok (with_message (join out) message).
Proof.
  intros str errors message N F. destruct (split_lines str) as (L1 & L2 & L3).
  destruct (lines_loop_ok str errors F (split str) [] true [] L1 (eq_sym L2) (or_introl eq_refl)) as (out & Sh & E).
  exists (split str), out. split; [split; [exact L1|]; split; assumption|]. split; [exact Sh|].
  unfold make_message. assert (forallb (fun e => ((0 <=? ebegin e) && (eend e <=? Z.of_nat (length str)))%Z) (map to_err errors) = true) as ->.
  { apply forallb_forall. intros e I. apply in_map_iff in I as ([[b e'] m] & <- & I). rewrite Forall_forall in F. specialize (F _ I). destruct F as ((A & B) & _).
    cbn [to_err ebegin eend]. apply andb_true_iff. lia. }
  cbn [contract bind]. destruct str as [|c str]; [contradiction|]. cbn [length Z.of_nat app] in E. rewrite E. cbn [bind].
  unfold with_message. destruct message; reflexivity.
Qed.
(* every position of the string belongs to exactly one line, so every error is shown once *)
Theorem C119_once : forall str ls b, lines_of str ls -> b <= length str ->
  exists i, (exists p l, nth_error (starts 0 ls) i = Some (p, l) /\ p <= b <= p + length l) /\
    forall j p l, nth_error (starts 0 ls) j = Some (p, l) -> p <= b <= p + length l -> j = i.
Proof.
  intros str ls b (N & J & _) B. enough (forall q, q <= b <= q + length (join ls) -> exists i,
    (exists p l, nth_error (starts q ls) i = Some (p, l) /\ p <= b <= p + length l) /\
    forall j p l, nth_error (starts q ls) j = Some (p, l) -> p <= b <= p + length l -> j = i) as X by (apply (X 0); rewrite J; lia).
  clear J B. induction ls as [|l ls IH]; intros q R; [contradiction|]. cbn [starts].
  assert (forall ls q j p l, nth_error (starts q ls) j = Some (p, l) -> q <= p) as Ge.
  { clear. induction ls as [|x ls IH]; intros q [|j] p l E; cbn in E; try discriminate; [injection E as <- _; lia|]. apply IH in E. lia. }
  destruct (Nat.le_gt_cases b (q + length l)) as [L|L].
  - exists 0. split; [exists q, l; split; [reflexivity|lia]|]. intros [|j] p m E Hp; [reflexivity|]. cbn in E. apply Ge in E. lia.
  - destruct ls as [|l2 ls]; [cbn in R; lia|]. rewrite join_cons in R by discriminate. rewrite app_length in R. cbn [length] in R.
    destruct (IH ltac:(discriminate) (q + length l + 1)) as (i & (p & m & E & Hp) & U); [lia|].
    exists (S i). split; [exists p, m; split; [exact E|exact Hp]|]. intros [|j] p' m' E' Hp'; [cbn in E'; injection E' as <- <-; lia|].
    f_equal. apply (U j p' m'); assumption.
Qed.
(* the empty string: all messages, one per line *)
Theorem C119_empty : forall errors message, Forall (in_str []) errors ->
  make_message [] (map to_err errors) message =
    Ok (with_message (join (list_ascii_of_string "<empty string>" :: map (fun '(_, _, m) => list_ascii_of_string "* " ++ m) errors)) message).
Proof.
  intros errors message F. unfold make_message. assert (forallb (fun e => ((0 <=? ebegin e) && (eend e <=? Z.of_nat (length (@nil ascii))))%Z) (map to_err errors) = true) as ->.
  { apply forallb_forall. intros e I. apply in_map_iff in I as ([[b e'] m] & <- & I). rewrite Forall_forall in F. specialize (F _ I). destruct F as ((A & B) & _).
    cbn [to_err ebegin eend]. apply andb_true_iff. lia. }
  cbn [contract bind]. set (f := fun '(_, _, m) => list_ascii_of_string "* " ++ m).
  assert (join (list_ascii_of_string "<empty string>" :: map f errors) = list_ascii_of_string "<empty string>" ++ flat_map (fun r => nl :: f r) errors) as ->.
  { generalize (list_ascii_of_string "<empty string>"). clear. induction errors as [|e errors IH]; intros x; cbn [map flat_map]; [cbn; rewrite app_nil_r; reflexivity|].
    rewrite join_cons by discriminate. rewrite IH. reflexivity. }
  assert (flat_map (fun e : err => [nl] ++ lit "* " ++ emsg e) (map to_err errors) = flat_map (fun r => nl :: f r) errors) as ->.
  { clear. induction errors as [|[[b e] m] errors IH]; cbn; [reflexivity|]. rewrite <- IH. reflexivity. }
  unfold with_message. destruct message; reflexivity.
Qed.
(* targets outside of the string are refused *)
Theorem C119_outside : forall str errors message e, In e errors -> (ebegin e < 0 \/ Z.of_nat (length str) < eend e)%Z ->
  make_message str errors message = Contract.
Proof.
  intros str errors message e I H. unfold make_message.
  destruct (forallb _ errors) eqn:F; [|reflexivity]. rewrite forallb_forall in F. specialize (F _ I). apply andb_true_iff in F. lia.
Qed.
(* a target of two lines: the marker of the second line begins in a negative column, where operator[] fails *)
Theorem C119_multiline_refuted :
  make_message (lit "a" ++ nl :: lit "b") [mkerr 0 3 (lit "both")] [] = Contract /\
  make_message (lit "ab" ++ nl :: lit "cd") [mkerr 1 4 (lit "two")] [] = Contract /\
  (exists out, make_message (lit "ab" ++ nl :: lit "cd") [mkerr 1 3 (lit "two")] [] = Ok out).
Proof. split; [vm_compute; reflexivity|]. split; [vm_compute; reflexivity|]. eexists. vm_compute. reflexivity. Qed.
Definition shown_as (s : string) : text := map (fun c => if Ascii.eqb c "/"%char then nl else c) (list_ascii_of_string s).
(* the example of the header, and overlapping errors *)
Example C119_ex :
  make_message (lit "{2} - 0} = {1}") [mkerr 7 7 (lit "expected '}' (or missing earlier '{')")] [] =
    Ok (shown_as "> {2} - 0} = {1}/         ^                                      /         * expected '}' (or missing earlier '{')") /\
  make_message (shown_as "abc/def") [mkerr 0 2 (lit "x"); mkerr 1 3 (lit "yy"); mkerr 4 7 (lit "z")] (lit "end") =
    Ok (shown_as "> abc/  ^^   /  |^^  /  * x  /   * yy/> def/  ^^^ /   * z/end") /\
  Forall (in_str (shown_as "abc/def")) [(0, 2, lit "x"); (1, 3, lit "yy"); (4, 7, lit "z")].
Proof.
  split; [vm_compute; reflexivity|]. split; [vm_compute; reflexivity|].
  repeat constructor; cbn; try lia; intros i L1 L2; do 7 (destruct i as [|i]; [try lia; cbn; discriminate|]); lia.
Qed.

Print Assumptions C119_message_partial.
Print Assumptions C119_once.
Print Assumptions C119_empty.
Print Assumptions C119_outside.
Print Assumptions C119_multiline_refuted.

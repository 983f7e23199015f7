(* Theorems about format (C62, C63, C91). *)
From Coq Require Import NArith List Bool Arith Lia.
From Verif Require Import Base FmtModel FmtSpec FmtProofs.
Import ListNotations.
Open Scope N_scope.

(* literal texts, braces and percent signs doubled, with {} between them *)
Theorem C62_substitution : forall args l ls ts, N.of_nat (length args) <= SIZE_MAX -> length ls = length args -> length ts = length args ->
  (forall i a, nth_error args i = Some a -> do_format a [] = Ok (nth i ts [])) ->
  format Default (with_braces l ls) args = Ok (interleave l ls ts).
Proof. intros args l ls ts LA L T H. exact (format_braces args l ls ts LA L H T). Qed.
(* every format string of the language means what its pieces mean, in the right order; an argument that does not exist or
   is left over is reported.  Full statement: without numbers_fit; refuted below. *)
Theorem C91_meaning_partial : forall f args ps, N.of_nat (length args) <= SIZE_MAX -> Forall (piece_ok (has_pf f) (has_py f)) ps -> numbers_fit ps ->
  format_to f (text ps) args = formatted decimal args ps /\ format f (text ps) args = formatted decimal args ps.
Proof. exact format_to_meaning. Qed.
(* and every other string is refused *)
Theorem C91_only_language : forall f args fmt o, N.of_nat (length args) <= SIZE_MAX -> format_to f fmt args = Ok o \/ format f fmt args = Ok o ->
  exists ps, Forall (piece_ok (has_pf f) (has_py f)) ps /\ fmt = text ps /\ (numbers_fit ps -> formatted decimal args ps = Ok o).
Proof.
  intros f args fmt o LA H. destruct (format_only f args fmt o LA H) as (ps & F & E & M). exists ps. split; auto. split; auto.
  intro NF. now rewrite <- formatted_fit.
Qed.
(* argument numbers wrap: {18446744073709551616} is {0} *)
Theorem C91_index_refuted : exists args ps o, Forall (piece_ok true true) ps /\ formatted decimal args ps = Contract /\ format Default (text ps) args = Ok o.
Proof.
  exists [mkArg [] (fun _ => Ok [65])], [Brace (Index [49; 56; 52; 52; 54; 55; 52; 52; 48; 55; 51; 55; 48; 57; 53; 53; 49; 54; 49; 54]) None], [65].
  split; [|split; [|vm_compute; reflexivity]].
  - constructor; [|constructor]. cbn. split; auto. split; auto. split; [discriminate|]. repeat constructor; discriminate.
  - unfold formatted, meaning, piece_meaning, designated, substitute. rewrite (proj2 (nth_error_None _ _)); [reflexivity|].
    set (d := decimal _). assert (1 <= d) by (vm_compute; discriminate). cbn [length]. lia.
Qed.
(* appending to a string: as above with the default formatter; the formatter that is asked for is ignored *)
Theorem C91_append_partial : forall s fmt args o, format_to Default fmt args = Ok o -> format_to_string Default s fmt args = Ok (s ++ o).
Proof. intros s fmt args o H. unfold format_to_string. now rewrite H. Qed.
Theorem C91_append_refuted : exists fmt args o, format_to Printf fmt args = Ok o /\ forall s, format_to_string Printf s fmt args <> Ok (s ++ o).
Proof.
  exists [123; 125], [], [123; 125]. split; [reflexivity|]. intros s H. discriminate.
Qed.
(* the example in the documentation, "{.2f} %6d", is refused for all arguments *)
Theorem C91_documented_example_refuted : forall args, format Default [123; 46; 50; 102; 125; 32; 37; 54; 100] args = Contract.
Proof. intro args. reflexivity. Qed.

(* C63.  format, formatf and formatp read at most the terminator behind the format string, for all strings *)
Theorem C63_c_string : forall f args fmt, N.of_nat (length args) <= SIZE_MAX -> safe_args args -> safe (format f fmt args).
Proof. exact format_safe. Qed.
(* format_to: reads outside of the view only if the view ends in an unfinished % specification, never for the pythonic one.
   Full statement: never; refuted below. *)
Theorem C63_view_partial : forall f args fmt, N.of_nat (length args) <= SIZE_MAX -> safe_args args ->
  safe (format_to f fmt args) \/ (f <> Pythonic /\ exists ps sp, fmt = text ps ++ 37 :: sp /\ unfinished_spec sp).
Proof. exact format_to_ub. Qed.
(* the characters behind the view are irrelevant for all strings of the language *)
Theorem C63_behind : forall f args ps extra, N.of_nat (length args) <= SIZE_MAX -> Forall (piece_ok (has_pf f) (has_py f)) ps ->
  vformat (has_pf f) (has_py f) args (text ps ++ extra) (length (text ps)) = format_to f (text ps) args.
Proof.
  intros f args ps extra LA F. unfold format_to. rewrite vformat_pieces by auto. rewrite <- (app_nil_r (text ps)) at 1. now rewrite vformat_pieces.
Qed.
(* a view that ends in an unfinished % specification is read beyond its end, whatever precedes *)
Theorem C63_unfinished_refuted : forall f args ps sp us t, N.of_nat (length args) <= SIZE_MAX -> f <> Pythonic -> Forall (piece_ok (has_pf f) (has_py f)) ps ->
  numbers_fit ps -> unfinished_spec sp -> sp <> [] -> meaning decimal args (Some 0%nat) ps = Ok (us, t) -> format_to f (text ps ++ 37 :: sp) args = UB.
Proof.
  intros f args ps sp us t LA NP F NF U NE M. eapply unfinished_ub; eauto.
  enough (E : meaning wrapped args (Some 0%nat) ps = meaning decimal args (Some 0%nat) ps) by (rewrite E; eauto). now apply meaning_fit.
Qed.

Example C62_ex :
  let args := [mkArg [120] (fun _ => Ok [49]); mkArg [] (fun sp => Ok (sp ++ [50]))] in
  (* "a{{}{:4}%%" *)
  format Default [97; 123; 123; 123; 125; 123; 58; 52; 125; 37; 37] args = Ok [97; 123; 49; 52; 50; 37] /\
  (* "{1:>}{x}" *)
  format Default [123; 49; 58; 62; 125; 123; 120; 125] args = Ok [62; 50; 49] /\
  (* "{0}{}" *)
  format Default [123; 48; 125; 123; 125] args = Contract /\
  (* "%s %-5.*lld" *)
  format Printf [37; 115; 32; 37; 45; 53; 46; 42; 108; 108; 100] args = Ok [49; 32; 45; 53; 46; 42; 108; 108; 100; 50] /\
  with_braces [97; 123] [[]; [98]] = [97; 123; 123; 123; 125; 123; 125; 98] /\
  interleave [97; 123] [[]; [98]] [[49]; [50]] = [97; 123; 49; 50; 98].
Proof. repeat split; reflexivity. Qed.
Example C91_ex : Forall (piece_ok true true) [Lit 97; EscOpen; Brace (Named [120]) (Some [52]); Percent [48; 53; 46; 50; 102]].
Proof.
  constructor; [cbn; split; [discriminate|split; discriminate]|]. constructor; [reflexivity|]. constructor.
  - cbn. split; auto. split; [|intuition discriminate]. exists 120, []. unfold letter. split; auto. split; [lia|auto].
  - constructor; [|auto]. split; auto. exists [48], [53], [46; 50], [], 102. split; auto. split; [constructor; [cbn; auto 20|constructor]|].
    split; [right; repeat constructor; unfold digit; lia|]. split; [right; right; exists 50, []; unfold digit; split; auto; split; [lia|auto]|]. split; cbn; auto 20.
Qed.
Example C63_ex : unfinished_spec [53] /\ format_to Default [97; 37; 53] [] = UB /\ format Default [97; 37; 53] [] = Contract /\ format_to Pythonic [97; 37; 53] [] = Ok [97; 37; 53].
Proof.
  split; [|repeat split; reflexivity]. exists [], [53], [], []. split; auto. split; auto. split; [right; repeat constructor; unfold digit; lia|]. split; [left; auto|cbn; auto].
Qed.

Print Assumptions C62_substitution.
Print Assumptions C91_meaning_partial.
Print Assumptions C91_only_language.
Print Assumptions C91_index_refuted.
Print Assumptions C91_append_partial.
Print Assumptions C91_append_refuted.
Print Assumptions C91_documented_example_refuted.
Print Assumptions C63_c_string.
Print Assumptions C63_view_partial.
Print Assumptions C63_behind.
Print Assumptions C63_unfinished_refuted.

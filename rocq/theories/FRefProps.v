(* C123: references to callables, streams and ranges. *)
From Coq Require Import NArith Arith List Bool Lia.
From Verif Require Import Base FRefModel FRefSpec FRefProofs.
Import ListNotations.

(* All histories of sinks, lambdas, references made from them, copies, writes and visits agree with routes: what is written arrives
   at the destination of the reference, in order; lambdas are called by reference, once per write or once per element; null
   function pointers and calls of references that were never assigned are refused. gs: contents of the static sequences. *)
Theorem C123_history_partial : forall A (gs : list (list A)) os,
  match irun (mks [] [] [] gs) os with
  | Some (Some (_, rs)) => exists w, run (mkw [] [] [] gs) os = Ok (w, rs)
  | Some None => run (mkw [] [] [] gs) os = Contract
  | None => True
  end.
Proof.
  intros A gs os. assert (H : R (mkw [] [] [] gs) (mks [] [] [] gs)) by (repeat split; constructor).
  pose proof (run_ok os _ _ H) as HR. destruct (irun (mks [] [] [] gs) os) as [[[s rs]|]|]; auto.
  destruct HR as (w & E & _). eauto.
Qed.

(* The ways to get a stream into sink 0. *)
Inductive way := Span | Element | SpanLambda | ElementLambda.
Definition setup {A} (h : way) : list (op A) :=
  match h with
  | Span => [NewSink true; Make 0]
  | Element => [NewSink false; Make 0]
  | SpanLambda => [NewSink true; NewFn true 0; Make 1]
  | ElementLambda => [NewSink true; NewFn false 0; Make 1]
  end.
(* Every kind of stream receives all elements of all writes in order. *)
Theorem C123_order : forall A h (ws : list (list A)), exists w rs,
  run (mkw [] [] [] []) (setup h ++ map (PutAll 0) ws ++ [Contents 0]) = Ok (w, rs ++ [RL (concat ws)]).
Proof.
  intros A h ws. pose proof (C123_history_partial A [] (setup h ++ map (PutAll 0) ws ++ [Contents 0])) as H.
  assert (APP : forall a (s s1 : ist A) r1 b s2 r2, irun s a = Some (Some (s1, r1)) -> irun s1 b = Some (Some (s2, r2)) ->
    irun s (a ++ b) = Some (Some (s2, r1 ++ r2))).
  { induction a as [|o a IH]; intros s s1 r1 b s2 r2 H1 H2; cbn [irun app] in *.
    - injection H1 as <- <-. exact H2.
    - destruct (ideal s o) as [[[s' r]|]|]; try discriminate. destruct (irun s' a) as [[[s'' rs]|]|] eqn:E; try discriminate.
      injection H1 as <- <-. rewrite (IH _ _ _ _ _ _ E H2). reflexivity. }
  assert (MID : exists s1 r1, irun (mks [] [] [] []) (setup h) = Some (Some (s1, r1)) /\ exists s2,
    irun s1 (map (PutAll 0) ws ++ [Contents 0]) = Some (Some (s2, map (fun _ => RUnit) ws ++ [RL (concat ws)]))).
  { assert (G : forall ws (l : list A) c,
      let st := match h with
                | Span | Element => mks [Some (TSink l); Some TAdapter] [Some (mkr [1; 0] None (To 0))] [] []
                | SpanLambda => mks [Some (TSink l); Some (TFn true 0 c)] [Some (mkr [1; 0] (Some (1, false)) (To 0))] [] []
                | ElementLambda => mks [Some (TSink l); Some (TFn false 0 c); Some TAdapter] [Some (mkr [2; 1; 0] (Some (1, true)) (To 0))] [] []
                end in
      exists s2, irun st (map (PutAll 0) ws ++ [Contents 0]) = Some (Some (s2, map (fun _ => RUnit) ws ++ [RL (l ++ concat ws)]))).
    { clear ws H. induction ws as [|x ws IH]; intros l c.
      - cbn [map app concat]. rewrite app_nil_r. destruct h; eexists; reflexivity.
      - specialize (IH (l ++ x)). cbn [concat map]. rewrite app_assoc. destruct h.
        + destruct (IH c) as (s2 & E). exists s2. cbn [app irun ideal nth_error routes deliver needs forallb alive look things andb
            counter goal count arrive put views globals] in *. rewrite E. reflexivity.
        + destruct (IH c) as (s2 & E). exists s2. cbn [app irun ideal nth_error routes deliver needs forallb alive look things andb
            counter goal count arrive put views globals] in *. rewrite E. reflexivity.
        + destruct (IH (c + 1)%N) as (s2 & E). exists s2. cbn [app irun ideal nth_error routes deliver needs forallb alive look things andb
            counter goal count arrive put views globals] in *. rewrite E. reflexivity.
        + destruct (IH (c + N.of_nat (length x))%N) as (s2 & E). exists s2. cbn [app irun ideal nth_error routes deliver needs forallb alive look things andb
            counter goal count arrive put views globals] in *. rewrite E. reflexivity. }
    specialize (G ws [] 0%N). cbv zeta in G. destruct h; eexists; eexists; (split; [vm_compute; reflexivity|exact G]). }
  destruct MID as (s1 & r1 & E1 & s2 & E2). rewrite (APP _ _ _ _ _ _ _ E1 E2) in H. destruct H as (w & H).
  exists w, (r1 ++ map (fun _ => RUnit) ws). rewrite <- app_assoc. exact H.
Qed.

(* "empty stream behaves like /dev/null": the first use calls a lambda that died in the constructor; the empty range is fine *)
Theorem C123_default_refuted : forall A (x : A),
  run (mkw [] [] [] []) [DefStream; Put 0 x] = UB /\
  exists w, run (mkw [] [] [] []) [RangeEmpty; NewSink (A := A) true; NewFn false 0; Visit 0 1; Contents 0; Calls 1] =
    Ok (w, [RUnit; RUnit; RUnit; RUnit; RL []; RN 0]).
Proof. intros A x. split; [reflexivity|]. eexists. reflexivity. Qed.
(* a stream_ref initialized with make_stream_ref of a container or of a lambda for elements keeps the address of a dead closure;
   for a lambda for spans the same code works *)
Theorem C123_temporary : forall A (x : A),
  (forall sp, run (mkw [] [] [] []) [NewSink sp; MakeTemp 0; Put 0 x] = UB) /\
  run (mkw [] [] [] []) [NewSink true; NewFn false 0; MakeTemp 1; Put 0 x] = UB /\
  exists w, run (mkw [] [] [] []) [NewSink true; NewFn true 0; MakeTemp 1; Put 0 x; Contents 0] = Ok (w, [RUnit; RUnit; RUnit; RUnit; RL [x]]).
Proof. intros A x. split; [intros []; reflexivity|]. split; [reflexivity|]. eexists. reflexivity. Qed.

(* Non-vacuity: counted calls, copies, assignments, function pointers, ranges. *)
Definition history : list (op N) :=
  [NewSink false; NewSink true; NewFn false 0; NewFn true 1;    (* 0 1 2 3 *)
   Make 2;                                                      (* closure 4, reference 0 *)
   RefTo 3; RefFun (Some 0); Copy 1;                            (* references 1 2 3 *)
   PutAll 0 [5; 6; 7]%N; Put 1 8%N; PutAll 3 [9; 10]%N; PutAll 2 [11; 12]%N;
   Calls 2; Calls 3; Contents 0; Contents 1; Static 0;
   Die 2; Assign 0 3; PutAll 0 []; Put 0 13%N; Calls 3;         (* the lambda behind reference 0 is gone; reassigned *)
   RangeOf 1; NewFn false 0; Visit 0 5; Calls 5; Contents 0; VisitFun 0 (Some 0); Static 0].
Example C123_history_ex : irun (mks [] [] [] [[1%N]]) history =
  match run (mkw [] [] [] [[1%N]]) history with
  | Ok (w, rs) => match irun (mks [] [] [] [[1%N]]) history with Some (Some (s, _)) => Some (Some (s, rs)) | x => x end
  | _ => None
  end /\
  match run (mkw [] [] [] [[1%N]]) history with Ok (_, rs) => skipn 12 rs | _ => [] end =
  [RN 3; RN 2; RL [5; 6; 7]; RL [8; 9; 10]; RL [1; 11; 12]; RUnit; RUnit; RUnit; RUnit; RN 4; RUnit; RUnit; RUnit; RN 4;
   RL [5; 6; 7; 8; 9; 10; 13]; RUnit; RL [1; 11; 12; 8; 9; 10; 13]]%N.
Proof. split; vm_compute; reflexivity. Qed.
Example C123_refused_ex : run (mkw [] [] [] []) [RefFun (A := N) None] = Contract /\ run (mkw [] [] [] []) [DefRef; Put 0 1%N] = Contract /\
  run (mkw [] [] [] []) [NewSink true; NewFn true 0; RefTo 1; Die 1; Put 0 1%N] = UB.
Proof. repeat split. Qed.

Print Assumptions C123_history_partial.
Print Assumptions C123_order.
Print Assumptions C123_default_refuted.
Print Assumptions C123_temporary.

(* Doubling pays: if the capacity at least doubles whenever it changes, the elements moved are bounded by the last capacity. *)
From Coq Require Import NArith List Lia Bool.
From Verif Require Import Base GrowSpec.
Import ListNotations.
Open Scope N_scope.

Ltac inv H := repeat (let a := fresh "a" in let E := fresh "E" in apply bind_Ok in H; destruct H as [a [E H]]; cbv beta in H; try match type of a with prod _ _ => destruct a as [?a1 ?a2] end).
Lemma shl1 : forall c, c < 2 ^ 63 -> wrap 64 (N.shiftl c 1) = 2 * c.
Proof. intros c H. rewrite N.shiftl_mul_pow2. change (2 ^ 1) with 2. rewrite wrap_small; [lia|]. change (2 ^ 64) with (2 ^ 63 * 2). lia. Qed.
(* the relation between the capacities before and after *)
Definition doubles (c c' : N) : Prop := c' = c \/ (c < c' /\ 2 * c <= c').

Section G.
  Context {S O R : Type} (step : S -> O -> outcome (S * R)) (use : S -> N * N).
  Variables (Inv P : S -> Prop) (good : O -> Prop) (k : N).
  (* a good operation that leads to a state with P keeps the invariant and at least doubles the capacity if it changes it *)
  Hypothesis Hsize : forall s, Inv s -> fst (use s) <= k * snd (use s).
  Hypothesis Hstep : forall s o s' r, Inv s -> good o -> step s o = Ok (s', r) -> P s' -> Inv s' /\
    (snd (use s') = snd (use s) \/ (snd (use s) < snd (use s') /\ 2 * snd (use s) <= snd (use s'))).

  Lemma trace_hd : forall os s t, trace step s os = Ok t -> exists t', t = s :: t'.
  Proof.
    intros [|o os] s t H; cbn [trace] in H; [injection H as <-; eauto|].
    apply bind_Ok in H. destruct H as [[s' r] [_ H]]. apply bind_Ok in H. destruct H as [t' [_ H]]. injection H as <-. eauto.
  Qed.

  Lemma amortized : forall os s t d, Inv s -> Forall good os -> trace step s os = Ok t -> Forall P t ->
    Inv (last t d) /\ moved (map use t) + k * snd (use s) <= k * snd (use (last t d)) /\
    2 ^ grown (map use t) * snd (use s) <= snd (use (last t d)) /\
    (grown (map use t) = 0 \/ 2 ^ grown (map use t) <= 2 * snd (use (last t d))).
  Proof.
    induction os as [|o os IH]; intros s t d I G H FP; cbn [trace] in H.
    - injection H as <-. cbn [map last moved grown]. destruct (use s) as [n c]. cbn [moved grown]. split; auto. split; [lia|]. split; [change (2 ^ 0) with 1; cbn [snd]; lia|auto].
    - apply bind_Ok in H. destruct H as [[s' r] [E H]]. apply bind_Ok in H. destruct H as [t' [T H]]. injection H as <-.
      inversion G as [|? ? G1 G2]; subst. inversion FP as [|? ? P0 FP']; subst. destruct (trace_hd _ _ _ T) as [t2 ->].
      destruct (Hstep _ _ _ _ I G1 E) as [I' C]; [inversion FP'; auto|].
      destruct (IH s' _ d I' G2 T FP') as [IL [M [W W2]]].
      change (last (s :: s' :: t2) d) with (last (s' :: t2) d). cbn [map]. pose proof (Hsize s I) as HS.
      destruct (use s) as [n c] eqn:U. set (L := snd (use (last (s' :: t2) d))) in *. cbn [map] in M, W, W2.
      destruct (use s') as [n' c'] eqn:U'. cbn [fst snd] in *.
      change (moved ((n, c) :: (n', c') :: map use t2)) with ((if c =? c' then 0 else n) + moved ((n', c') :: map use t2)).
      change (grown ((n, c) :: (n', c') :: map use t2)) with ((if c =? c' then 0 else 1) + grown ((n', c') :: map use t2)).
      set (g := grown ((n', c') :: map use t2)) in *. set (mv := moved ((n', c') :: map use t2)) in *.
      destruct (N.eqb_spec c c') as [<-|NE].
      + rewrite !N.add_0_l. auto.
      + destruct C as [C|[C1 C2]]; [lia|]. split; auto. pose proof (N.pow_nonzero 2 g ltac:(lia)).
        rewrite N.pow_add_r, N.pow_1_r.
        assert (K : k * (2 * c) <= k * c') by (apply N.mul_le_mono_l; auto).
        assert (Q : 2 ^ g * (2 * c) <= 2 ^ g * c') by (apply N.mul_le_mono_l; auto).
        assert (Q1 : 2 ^ g * 1 <= 2 ^ g * c') by (apply N.mul_le_mono_l; lia).
        repeat split; [lia| lia |right]. lia.
  Qed.
End G.

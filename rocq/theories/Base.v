(* Common vocabulary of the model: outcomes of a C++ call, machine words, checked arrays. *)
From Coq Require Import NArith ZArith List Lia Bool Arith.
Import ListNotations.

(* Outcome of executing C++ code.
   Ok a       : normal completion with result a
   Contract   : a CC_CONTRACT / CC_ASSERT check fired (the program aborts)
   UB         : undefined behaviour (out-of-bounds access, use of dead object, ...)
   OutOfFuel  : artefact of the model's loop fuel; theorems exclude it *)
Inductive outcome (A : Type) : Type :=
| Ok (a : A)
| Contract
| UB
| OutOfFuel.
Arguments Ok {A} a.
Arguments Contract {A}.
Arguments UB {A}.
Arguments OutOfFuel {A}.

Definition bind {A B} (x : outcome A) (f : A -> outcome B) : outcome B :=
  match x with
  | Ok a => f a
  | Contract => Contract
  | UB => UB
  | OutOfFuel => OutOfFuel
  end.

Declare Scope outcome_scope.
Delimit Scope outcome_scope with outcome.
Notation "'let!' x ':=' e 'in' k" := (bind e (fun x => k))
  (at level 200, x pattern, e at level 100, k at level 200, right associativity) : outcome_scope.
Open Scope outcome_scope.

(* CC_CONTRACT(b) / CC_ASSERT(b): macros in src/clean-core/assert.hh; contracts enabled. *)
Definition contract (b : bool) : outcome unit := if b then Ok tt else Contract.

(* guard against undefined behaviour: the C++ standard requires b *)
Definition defined (b : bool) : outcome unit := if b then Ok tt else UB.

Lemma bind_Ok : forall A B (x : outcome A) (f : A -> outcome B) b,
  bind x f = Ok b -> exists a, x = Ok a /\ f a = Ok b.
Proof. intros A B [] f b H; try discriminate; eauto. Qed.

Lemma contract_Ok : forall b u, contract b = Ok u -> b = true.
Proof. intros [] u H; [reflexivity|discriminate]. Qed.

(* ---- unsigned machine words of w bits ---- *)
Definition wmod (w : N) : N := (2 ^ w)%N.
Definition wrap (w x : N) : N := (x mod 2 ^ w)%N.
Definition wadd (w a b : N) : N := wrap w (a + b).
(* unsigned subtraction modulo 2^w, for a, b < 2^w *)
Definition wsub (w a b : N) : N := wrap w (a + (2 ^ w - b)).
Definition wmul (w a b : N) : N := wrap w (a * b).
(* bitwise complement in w bits *)
Definition wnot (w a : N) : N := N.lxor a (N.ones w).

Definition SIZE_MAX : N := (2 ^ 64 - 1)%N.

(* ---- arrays with checked accesses ---- *)
Section Arr.
  Context {A : Type}.

  (* read a[i]; out of bounds is UB *)
  Definition aget (a : list A) (i : nat) : outcome A :=
    match nth_error a i with Some x => Ok x | None => UB end.

  Fixpoint lset (a : list A) (i : nat) (x : A) : list A :=
    match a, i with
    | [], _ => []
    | _ :: t, O => x :: t
    | h :: t, S j => h :: lset t j x
    end.

  (* write a[i] = x; out of bounds is UB *)
  Definition aset (a : list A) (i : nat) (x : A) : outcome (list A) :=
    if (i <? length a)%nat then Ok (lset a i x) else UB.

  Lemma lset_length : forall a i x, length (lset a i x) = length a.
  Proof. induction a; intros [|i] x; cbn; auto. Qed.

  Lemma lset_nth_eq : forall a i x, (i < length a)%nat -> nth_error (lset a i x) i = Some x.
  Proof. induction a; intros [|i] x H; cbn in *; try lia; auto. apply IHa. lia. Qed.

  Lemma lset_nth_neq : forall a i j x, i <> j -> nth_error (lset a i x) j = nth_error a j.
  Proof. induction a; intros [|i] [|j] x H; cbn; auto; try congruence. Qed.

  Lemma lset_nth : forall a i j x,
    nth_error (lset a i x) j
    = if (i =? j)%nat then (if (i <? length a)%nat then Some x else None) else nth_error a j.
  Proof.
    intros a i j x. destruct (Nat.eqb_spec i j).
    - subst. destruct (Nat.ltb_spec j (length a)).
      + apply lset_nth_eq; auto.
      + apply nth_error_None. rewrite lset_length. lia.
    - apply lset_nth_neq; auto.
  Qed.

  Lemma lset_app1 : forall a b i x, (i < length a)%nat -> lset (a ++ b) i x = lset a i x ++ b.
  Proof. induction a; intros b [|i] x H; cbn in *; try lia; auto. f_equal. apply IHa. lia. Qed.

  Lemma lset_split : forall a i x, (i < length a)%nat ->
    lset a i x = firstn i a ++ x :: skipn (S i) a.
  Proof. induction a; intros [|i] x H; cbn in *; try lia; auto. f_equal. apply IHa. lia. Qed.

  Lemma aget_Ok : forall a i x, aget a i = Ok x <-> nth_error a i = Some x.
  Proof. intros. unfold aget. destruct (nth_error a i); split; intro H; inversion H; auto. Qed.

  Lemma aget_lt : forall a i, (i < length a)%nat -> exists x, aget a i = Ok x.
  Proof.
    intros a i H. unfold aget. destruct (nth_error a i) eqn:E; eauto.
    apply nth_error_None in E. lia.
  Qed.

  Lemma aset_Ok : forall a i x, (i < length a)%nat -> aset a i x = Ok (lset a i x).
  Proof. intros. unfold aset. destruct (Nat.ltb_spec i (length a)); auto; lia. Qed.
End Arr.

(* ---- word lemmas ---- *)
Lemma wrap_small : forall w x, (x < 2 ^ w)%N -> wrap w x = x.
Proof. intros. unfold wrap. apply N.mod_small; auto. Qed.

Lemma wrap_lt : forall w x, (wrap w x < 2 ^ w)%N.
Proof. intros. unfold wrap. apply N.mod_lt. apply N.pow_nonzero. discriminate. Qed.

Lemma pow2_pos : forall w, (0 < 2 ^ w)%N.
Proof. intros. apply N.neq_0_lt_0. apply N.pow_nonzero. discriminate. Qed.

Lemma wsub_ge : forall w a b, (a < 2 ^ w)%N -> (b <= a)%N -> wsub w a b = (a - b)%N.
Proof.
  intros w a b Ha Hb. unfold wsub, wrap.
  replace (a + (2 ^ w - b))%N with ((a - b) + 1 * 2 ^ w)%N by lia.
  rewrite N.mod_add by (apply N.pow_nonzero; discriminate).
  apply N.mod_small. lia.
Qed.

Lemma wsub_lt : forall w a b, (a < b)%N -> (b <= 2 ^ w)%N -> wsub w a b = (2 ^ w + a - b)%N.
Proof.
  intros w a b Ha Hb. unfold wsub, wrap.
  rewrite N.mod_small by lia. lia.
Qed.

Lemma wadd_small : forall w a b, (a + b < 2 ^ w)%N -> wadd w a b = (a + b)%N.
Proof. intros. apply wrap_small; auto. Qed.

Lemma wnot_spec : forall w a i, N.testbit (wnot w a) i = xorb (N.testbit a i) (i <? w)%N.
Proof.
  intros. unfold wnot. rewrite N.lxor_spec. f_equal.
  destruct (N.ltb_spec i w).
  - apply N.ones_spec_low; auto.
  - apply N.ones_spec_high; auto.
Qed.

(* Euclidean division with the quotient and remainder turned into variables (keeps lia happy) *)
Ltac ndm v a :=
  let q := fresh "q" in let r := fresh "r" in
  let E := fresh "E" in let L := fresh "L" in
  assert (E := N.div_mod v a); assert (L := N.mod_lt v a);
  match type of E with (?P -> _) => let H := fresh in assert (H : P) by lia;
    specialize (E H); specialize (L H); clear H end;
  set (q := (v / a)%N) in *; set (r := (v mod a)%N) in *; clearbody q r.

Lemma skipn_skipn : forall {A} n m (l : list A), skipn n (skipn m l) = skipn (m + n) l.
Proof. induction m; intros [|x l]; cbn; auto. destruct n; reflexivity. Qed.

Lemma nth_ext_err : forall {A} (l m : list A), (forall n, nth_error l n = nth_error m n) -> l = m.
Proof.
  induction l as [|x l IH]; intros [|y m] H; auto.
  - specialize (H O). discriminate.
  - specialize (H O). discriminate.
  - pose proof (H O) as H0. cbn in H0. inversion H0; subst. f_equal. apply IH. intro n. apply (H (S n)).
Qed.

Lemma nth_error_firstn_lt : forall {A} (l : list A) n k, k < n -> nth_error (firstn n l) k = nth_error l k.
Proof.
  induction l; intros [|n] [|k] H; cbn; auto; try lia. apply IHl. lia.
Qed.

Lemma nth_error_skipn : forall {A} n (l : list A) k, nth_error (skipn n l) k = nth_error l (n + k).
Proof. induction n; intros [|x l] k; cbn; auto. destruct k; reflexivity. Qed.

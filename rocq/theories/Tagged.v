(* One piece of raw storage in which objects of several types can be constructed and destroyed.  A type is a
   number, the values of all types are elements of A.
   Undefined behaviour: constructing over an existing object (its destructor would never run), using or
   destroying an object that is not there or has another type, releasing storage with an object in it. *)
From Coq Require Import Arith List Bool Lia.
From Verif Require Import Base.
Import ListNotations.

Inductive tcell (A : Type) : Type := TRaw | TObj (t : nat) (v : A) | THusk (t : nat).
Arguments TRaw {A}. Arguments TObj {A} t v. Arguments THusk {A} t.

Section T.
  Context {A : Type}.
  (* new (placement_new, &data) T(v) *)
  Definition tplace (c : tcell A) (t : nat) (v : A) : outcome (tcell A) :=
    match c with TRaw => Ok (TObj t v) | _ => UB end.
  (* data.~T() *)
  Definition tkill (c : tcell A) (t : nat) : outcome (tcell A) :=
    match c with TObj u _ | THusk u => if u =? t then Ok TRaw else UB | TRaw => UB end.
  (* the value of the T in data *)
  Definition tread (c : tcell A) (t : nat) : outcome A :=
    match c with TObj u v => if u =? t then Ok v else UB | _ => UB end.
  (* cc::move of the T in data: a moved-from object remains *)
  Definition ttake (c : tcell A) (t : nat) : outcome (A * tcell A) :=
    match c with TObj u v => if u =? t then Ok (v, THusk t) else UB | _ => UB end.
  (* the storage goes away *)
  Definition tfree (c : tcell A) : outcome unit := match c with TRaw => Ok tt | _ => UB end.
End T.

(* variables: None is a variable whose lifetime has ended *)
Section W.
  Context {X : Type}.
  Definition var (w : list (option X)) (k : nat) : outcome X :=
    match nth_error w k with Some (Some x) => Ok x | _ => UB end.
  Definition upd (w : list (option X)) (k : nat) (x : X) : list (option X) := lset w k (Some x).
  Definition add (w : list (option X)) (x : X) : list (option X) := w ++ [Some x].
  Definition del (w : list (option X)) (k : nat) : list (option X) := lset w k None.

  Lemma var_Ok : forall w k x, nth_error w k = Some (Some x) -> var w k = Ok x.
  Proof. intros w k x H. unfold var. rewrite H. auto. Qed.
  Lemma upd_upd : forall w k x y, upd (upd w k x) k y = upd w k y.
  Proof. unfold upd. induction w; intros [|k] x y; cbn; auto. f_equal. auto. Qed.
  Lemma del_upd : forall w k x, del (upd w k x) k = del w k.
  Proof. unfold del, upd. induction w; intros [|k] x; cbn; auto. f_equal. auto. Qed.
  Lemma nth_upd_eq : forall w k x y, nth_error w k = Some y -> nth_error (upd w k x) k = Some (Some x).
  Proof. intros w k x y H. apply lset_nth_eq. apply nth_error_Some. congruence. Qed.
  Lemma nth_upd_neq : forall w k j x, j <> k -> nth_error (upd w k x) j = nth_error w j.
  Proof. intros. apply lset_nth_neq. auto. Qed.
  Lemma nth_add : forall w x j y, nth_error w j = Some y -> nth_error (add w x) j = Some y.
  Proof. intros w x j y H. unfold add. rewrite nth_error_app1; auto. apply nth_error_Some. congruence. Qed.
  Lemma nth_add_new : forall w x, nth_error (add w x) (length w) = Some (Some x).
  Proof. intros w x. unfold add. rewrite nth_error_app2 by auto. rewrite Nat.sub_diag. auto. Qed.
  Lemma upd_same : forall w k x, nth_error w k = Some (Some x) -> upd w k x = w.
  Proof. unfold upd. induction w; intros [|k] x H; cbn in *; try discriminate; [congruence|]. f_equal. auto. Qed.
End W.

(* worlds of one type represent worlds of another *)
Section R.
  Context {X Y : Type}.
  Variable f : Y -> X.
  Definition rep (w : list (option Y)) : list (option X) := map (option_map f) w.
  Lemma rep_nth : forall w k y, nth_error w k = Some (Some y) -> nth_error (rep w) k = Some (Some (f y)).
  Proof. intros w k y H. unfold rep. rewrite nth_error_map, H. auto. Qed.
  Lemma rep_upd : forall w k y, rep (upd w k y) = upd (rep w) k (f y).
  Proof. unfold rep, upd. induction w; intros [|k] y; cbn; auto. f_equal. auto. Qed.
  Lemma rep_del : forall w k, rep (del w k) = del (rep w) k.
  Proof. unfold rep, del. induction w; intros [|k]; cbn; auto. f_equal. auto. Qed.
  Lemma rep_add : forall w y, rep (add w y) = add (rep w) (f y).
  Proof. intros w y. unfold rep, add. rewrite map_app. auto. Qed.
  Lemma rep_length : forall w, length (rep w) = length w.
  Proof. intro w. apply map_length. Qed.
End R.

Section U.
  Context {X : Type}.
  Lemma upd_swap : forall (w : list (option X)) k j x y, k <> j -> upd (upd w k x) j y = upd (upd w j y) k x.
  Proof. unfold upd. induction w; intros [|k] [|j] x y H; cbn; auto; [congruence|]. f_equal. auto. Qed.
  Lemma upd_add_new : forall (w : list (option X)) x y, upd (add w x) (length w) y = add w y.
  Proof. unfold upd, add. induction w; intros; cbn; auto. f_equal. auto. Qed.
  Lemma upd_add : forall (w : list (option X)) k x y, k < length w -> upd (add w x) k y = add (upd w k y) x.
  Proof. unfold upd, add. induction w; intros [|k] x y H; cbn in *; try lia; auto. f_equal. apply IHw. lia. Qed.
  Lemma nth_lt : forall (w : list (option X)) k x, nth_error w k = Some x -> k < length w.
  Proof. intros. apply nth_error_Some. congruence. Qed.
  Lemma nth_del_eq : forall (w : list (option X)) k x, nth_error w k = Some x -> nth_error (del w k) k = Some None.
  Proof. intros w k x H. apply lset_nth_eq. eapply nth_lt; eauto. Qed.
  Lemma upd_length : forall (w : list (option X)) k x, length (upd w k x) = length w.
  Proof. intros. apply lset_length. Qed.
  Lemma del_add_new : forall (w : list (option X)) x, firstn (length w) (del (add w x) (length w)) = w.
  Proof. unfold del, add. induction w; intro x; cbn; auto. f_equal. auto. Qed.
End U.

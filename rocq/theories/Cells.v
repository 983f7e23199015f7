(* Storage cells with object lifetimes, used for containers that manage raw storage with placement new
   and explicit destructor calls.  A cell is raw, holds a constructed object with a value, or holds a
   constructed object that has been moved from (it must still be destroyed).
   Violations are reported as UB: constructing over an existing object, reading or moving from a cell
   that holds no value, destroying raw storage, and releasing storage in which constructed objects
   remain (their destructor never runs).  This is the strictest reading: element types with a
   non-trivial destructor. *)
From Coq Require Import NArith Arith List Bool Lia.
From Verif Require Import Base.
Import ListNotations.

Inductive cell (A : Type) : Type := Raw | Obj (v : A) | Husk.
Arguments Raw {A}. Arguments Obj {A} v. Arguments Husk {A}.

Definition is_raw {A} (c : cell A) : bool := match c with Raw => true | _ => false end.

Section C.
  Context {A : Type}.
  Definition cells := list (cell A).

  (* new (placement_new, &data[i]) T(v) *)
  Definition construct (d : cells) (i : nat) (v : A) : outcome cells :=
    match nth_error d i with
    | Some Raw => Ok (lset d i (Obj v))
    | _ => UB
    end.
  (* read access to data[i] *)
  Definition cread (d : cells) (i : nat) : outcome A :=
    match nth_error d i with Some (Obj v) => Ok v | _ => UB end.
  (* T(cc::move(data[i])) : the source keeps a moved-from object *)
  Definition move_out (d : cells) (i : nat) : outcome (A * cells) :=
    match nth_error d i with Some (Obj v) => Ok (v, lset d i Husk) | _ => UB end.
  (* data[i].~T() *)
  Definition destroy (d : cells) (i : nat) : outcome cells :=
    match nth_error d i with
    | Some (Obj _) | Some Husk => Ok (lset d i Raw)
    | _ => UB
    end.
  (* data[i] = v: assignment to an existing (possibly moved-from) object *)
  Definition assign (d : cells) (i : nat) (v : A) : outcome cells :=
    match nth_error d i with
    | Some (Obj _) | Some Husk => Ok (lset d i (Obj v))
    | _ => UB
    end.
  (* fresh uninitialised storage for n elements *)
  Definition raw_storage (n : nat) : cells := repeat Raw n.
  (* release storage (nullptr allowed by the callers) *)
  Definition release (d : cells) : outcome unit := defined (forallb is_raw d).

  Lemma construct_Ok : forall d i v, nth_error d i = Some Raw -> construct d i v = Ok (lset d i (Obj v)).
  Proof. intros d i v H. unfold construct. rewrite H. reflexivity. Qed.
  Lemma cread_Ok : forall d i v, nth_error d i = Some (Obj v) -> cread d i = Ok v.
  Proof. intros d i v H. unfold cread. rewrite H. reflexivity. Qed.
  Lemma move_out_Ok : forall d i v, nth_error d i = Some (Obj v) -> move_out d i = Ok (v, lset d i Husk).
  Proof. intros d i v H. unfold move_out. rewrite H. reflexivity. Qed.
  Lemma destroy_Obj : forall d i v, nth_error d i = Some (Obj v) -> destroy d i = Ok (lset d i Raw).
  Proof. intros d i v H. unfold destroy. rewrite H. reflexivity. Qed.
  Lemma destroy_Husk : forall d i, nth_error d i = Some Husk -> destroy d i = Ok (lset d i Raw).
  Proof. intros d i H. unfold destroy. rewrite H. reflexivity. Qed.
  Lemma assign_Obj : forall d i w v, nth_error d i = Some (Obj w) -> assign d i v = Ok (lset d i (Obj v)).
  Proof. intros d i w v H. unfold assign. rewrite H. reflexivity. Qed.
  Lemma assign_Husk : forall d i v, nth_error d i = Some Husk -> assign d i v = Ok (lset d i (Obj v)).
  Proof. intros d i v H. unfold assign. rewrite H. reflexivity. Qed.
  Lemma raw_storage_nth : forall n i, (i < n)%nat -> nth_error (raw_storage n) i = Some Raw.
  Proof. unfold raw_storage. induction n; intros [|i] H; cbn; auto; try lia. apply IHn. lia. Qed.
  Lemma raw_storage_length : forall n, length (raw_storage n) = n.
  Proof. intro. apply repeat_length. Qed.
  Lemma release_Ok : forall d, (forall i, (i < length d)%nat -> nth_error d i = Some Raw) -> release d = Ok tt.
  Proof.
    intros d H. unfold release. replace (forallb is_raw d) with true; auto. symmetry.
    apply forallb_forall. intros x Hx. apply In_nth_error in Hx. destruct Hx as [n Hn].
    rewrite H in Hn by (apply nth_error_Some; congruence). inversion Hn. reflexivity.
  Qed.
  Lemma lset_lset : forall (d : list (cell A)) i x y, lset (lset d i x) i y = lset d i y.
  Proof. induction d; intros [|i] x y; cbn; auto. f_equal. auto. Qed.
End C.

(* What a disjoint set forest must answer: everything is about the equivalence closure of the merged pairs. *)
From Coq Require Import NArith List.
From Verif Require Import DSetModel.
Import ListNotations.

Inductive conn (ms : list (nat * nat)) : nat -> nat -> Prop :=
| conn_merged : forall a b, In (a, b) ms -> conn ms a b
| conn_refl : forall a, conn ms a a
| conn_sym : forall a b, conn ms a b -> conn ms b a
| conn_trans : forall a b c, conn ms a b -> conn ms b c -> conn ms a c.

(* the class of e among 0..n-1 has s elements *)
Definition class_size (n : nat) (ms : list (nat * nat)) (e s : nat) : Prop :=
  exists cls, NoDup cls /\ length cls = s /\ forall x, In x cls <-> (x < n /\ conn ms e x).
(* there are c classes: a list of c elements, one from each class *)
Definition class_count (n : nat) (ms : list (nat * nat)) (c : N) : Prop :=
  exists reps, NoDup reps /\ N.of_nat (length reps) = c /\ (forall r, In r reps -> r < n) /\
    forall a, a < n -> exists r, In r reps /\ conn ms a r /\ forall r', In r' reps -> conn ms a r' -> r' = r.

Definition in_range (n : nat) (o : op) : Prop :=
  match o with
  | Rep e | IsRep e | SizeByElement e | SizeByRep e => e < n
  | Same a b | MergeByElement a b | MergeByRep a b => a < n /\ b < n
  | Partitions | Elements => True
  end.
(* operations whose contract does not ask for a representative *)
Definition by_element (o : op) : Prop := match o with SizeByRep _ | MergeByRep _ _ => False | _ => True end.
Definition merged (ms : list (nat * nat)) (o : op) : list (nat * nat) :=
  match o with MergeByElement a b | MergeByRep a b => (a, b) :: ms | _ => ms end.
Definition answer (n : nat) (ms : list (nat * nat)) (o : op) (r : res) : Prop :=
  match o, r with
  | Rep e, RElem r => r < n /\ conn ms e r
  | IsRep e, RBool b => True (* see C24_representatives *)
  | SizeByElement e, RElem s | SizeByRep e, RElem s => class_size n ms e s
  | Same a b, RBool t => t = true <-> conn ms a b
  | MergeByElement a b, RBool t | MergeByRep a b, RBool t => t = true <-> ~ conn ms a b
  | Partitions, RNum c => class_count n ms c
  | Elements, RNum m => m = N.of_nat n
  | _, _ => False
  end.
Fixpoint answers (n : nat) (ms : list (nat * nat)) (os : list op) (rs : list res) : Prop :=
  match os, rs with
  | [], [] => True
  | o :: os, r :: rs => answer n ms o r /\ answers n (merged ms o) os rs
  | _, _ => False
  end.
Definition merges (os : list op) : list (nat * nat) := fold_left merged os [].

(* Ideal shared ownership, without reference counts: pointers are held by variables and by members of live
   objects; after every operation the objects without owners are destroyed, one after the other, until every
   object left has an owner. *)
From Coq Require Import ZArith Arith List Bool.
From Verif Require Import Base SPtrModel.
Import ListNotations.

Record graph := mkg { gvars : list (option (option nat)); gheap : list (option (list (option nat))) }.
Definition holds (o : nat) (p : option nat) : nat := match p with Some c => if c =? o then 1 else 0 | None => 0 end.
Definition held (o : nat) (fs : list (option nat)) : nat := list_sum (map (holds o) fs).
(* the number of pointers to object o *)
Definition owners (g : graph) (o : nat) : nat :=
  list_sum (map (fun v => match v with Some p => holds o p | None => 0 end) (gvars g)) +
  list_sum (map (fun x => match x with Some fs => held o fs | None => 0 end) (gheap g)).
Definition alive (g : graph) (o : nat) : Prop := exists fs, nth_error (gheap g) o = Some (Some fs).

Inductive collect1 (g : graph) : graph -> Prop :=
| collect1_intro : forall o, alive g o -> owners g o = 0 -> collect1 g (mkg (gvars g) (lset (gheap g) o None)).
Inductive collects : graph -> graph -> Prop :=
| collects_done : forall g, (forall o, alive g o -> owners g o <> 0) -> collects g g
| collects_step : forall g g1 g2, collect1 g g1 -> collects g1 g2 -> collects g g2.

(* reading and writing pointers *)
Definition gread (g : graph) (l : loc) : option (option nat) :=
  match l with
  | LVar v => match nth_error (gvars g) v with Some (Some p) => Some p | _ => None end
  | LFld o i => match nth_error (gheap g) o with Some (Some fs) => nth_error fs i | _ => None end
  end.
Definition gwrite (g : graph) (l : loc) (p : option nat) : graph :=
  match l with
  | LVar v => mkg (lset (gvars g) v (Some p)) (gheap g)
  | LFld o i => match nth_error (gheap g) o with
                | Some (Some fs) => mkg (gvars g) (lset (gheap g) o (Some (lset fs i p))) | _ => g end
  end.
Fixpoint gfollow (g : graph) (l : loc) (is : list nat) : option loc :=
  match is with
  | [] => Some l
  | i :: is => match gread g l with Some (Some c) => gfollow g (LFld c i) is | _ => None end
  end.
(* the shared_ptr a path denotes, and the pointer in it *)
Definition denotes (g : graph) (e : path) (l : loc) (p : option nat) : Prop :=
  gfollow g (LVar (fst e)) (snd e) = Some l /\ gread g l = Some p.

(* reference counts are ints *)
Definition sharable (g : graph) (p : option nat) : Prop :=
  match p with Some c => (Z.of_nat (owners g c) + 1 < 2 ^ 31)%Z | None => True end.
(* the shared_ptr r is still there after l has been reset *)
Definition survives (g : graph) (l r : loc) : Prop :=
  exists g1, collects (gwrite g l None) g1 /\ gread g1 r <> None.

Definition count (g : graph) (p : option nat) : Z := match p with Some c => Z.of_nat (owners g c) | None => 0%Z end.
(* safe: the restriction under which the code is correct (see the refutation for what happens otherwise) *)
Inductive ideal (safe : graph -> loc -> loc -> Prop) (g : graph) : op -> graph -> res -> Prop :=
| i_new : ideal safe g New (mkg (gvars g ++ [Some None]) (gheap g)) RUnit
| i_make : forall n, ideal safe g (Make n) (mkg (gvars g ++ [Some (Some (length (gheap g)))]) (gheap g ++ [Some (repeat None n)])) RUnit
| i_new_move : forall e l p g1, denotes g e l p -> g1 = gwrite g l None ->
    ideal safe g (NewMove e) (mkg (gvars g1 ++ [Some p]) (gheap g1)) RUnit
| i_new_copy : forall e l p, denotes g e l p -> sharable g p -> ideal safe g (NewCopy e) (mkg (gvars g ++ [Some p]) (gheap g)) RUnit
| i_move_assign : forall e f l r p q g', denotes g e l p -> denotes g f r q -> l <> r -> safe g l r ->
    collects (gwrite (gwrite g r None) l q) g' -> ideal safe g (MoveAssign e f) g' RUnit
| i_self_move : forall e f l p g', denotes g e l p -> denotes g f l p ->
    collects (gwrite g l None) g' -> ideal safe g (MoveAssign e f) g' RUnit
| i_copy_assign : forall e f l r p q g', denotes g e l p -> denotes g f r q -> l <> r -> safe g l r -> sharable g q ->
    collects (gwrite g l q) g' -> ideal safe g (CopyAssign e f) g' RUnit
| i_self_copy : forall e f l p, denotes g e l p -> denotes g f l p -> ideal safe g (CopyAssign e f) g RUnit
| i_reset : forall e l p g', denotes g e l p -> collects (gwrite g l None) g' -> ideal safe g (Reset e) g' RUnit
| i_set_null : forall e l p g', denotes g e l p -> collects (gwrite g l None) g' -> ideal safe g (SetNull e) g' RUnit
| i_destroy : forall v p g', gread g (LVar v) = Some p -> collects (mkg (lset (gvars g) v None) (gheap g)) g' ->
    ideal safe g (Destroy v) g' RUnit
| i_refcount : forall e l p, denotes g e l p -> ideal safe g (Refcount e) g (RN (count g p))
| i_is_unique : forall e l p, denotes g e l p -> ideal safe g (IsUnique e) g (RB (count g p =? 1)%Z)
| i_is_valid : forall e l p, denotes g e l p -> ideal safe g (IsValid e) g (RB (match p with Some _ => true | None => false end))
| i_equal : forall e f l r p q, denotes g e l p -> denotes g f r q ->
    ideal safe g (Equal e f) g (RB (if ptr_eqb p q then true else false)).
Inductive ideal_run (safe : graph -> loc -> loc -> Prop) : graph -> list op -> graph -> list res -> Prop :=
| ir_nil : forall g, ideal_run safe g [] g []
| ir_cons : forall g o g1 r os g2 rs, ideal safe g o g1 r -> ideal_run safe g1 os g2 rs -> ideal_run safe g (o :: os) g2 (r :: rs).
Definition no_graph : graph := mkg [] [].

(* a state of the code that represents a graph: live objects have the right members and reference counts, all
   others have been destroyed and their memory released *)
Definition cell_of (g : graph) (o : nat) (x : option (list (option nat))) : cell :=
  match x with Some fs => Live (Z.of_nat (owners g o)) fs | None => Freed end.
Definition represents (st : state) (g : graph) : Prop :=
  vars st = gvars g /\ length (heap st) = length (gheap g) /\
  forall o x, nth_error (gheap g) o = Some x -> nth_error (heap st) o = Some (cell_of g o x).

(* Theorems about collection_traits (C139). *)
From Coq Require Import NArith ZArith List Lia Bool Arith.
Import ListNotations.
From Verif Require Import Base RangeModel CollModel.
Open Scope N_scope.

(* a range-based for loop compiles *)
Definition iterable (k : kind) (c : bool) : Prop :=
  match k with NoCollection => False | Custom f => m_range (f c) = true | _ => True end.
(* the elements that such a loop visits are const *)
Definition visits_const (k : kind) (c : bool) : bool :=
  match k with View e | Strided e => e | Set_ => true | Custom f => m_const (f c) | _ => c end.
(* an object of that type *)
Definition object (k : kind) (s : contents) : Prop :=
  match k, s with
  | Map_, Pairs l => NoDup (map fst l)
  | Map_, Elements _ => False
  | (FixedArray n | CArray n), Elements l => length l = n
  | Set_, Elements l => NoDup l
  | _, Elements _ => True
  | _, Pairs _ => False
  end.
(* the one combination whose specialization is wrong *)
Definition const_fixed (k : kind) (c : bool) : Prop := c = true /\ exists n, k = FixedArray n.

(* ================= C139 ================= *)
Theorem C139_is_range : forall k c, is_range (collection_traits k c) = true <-> iterable k c.
Proof.
  intros k c. destruct k; cbn; try (split; auto; fail); try (split; [discriminate|tauto]).
  destruct (m_range (f c)) eqn:E; cbn; [rewrite E; tauto|split; congruence].
Qed.
(* collection_begin compiles for every range, except for const arrays of fixed size *)
Theorem C139_begin : forall k c,
  (collection_begin k c = NoMatch <-> ~ iterable k c) /\
  (collection_begin k c = Runs tt <-> iterable k c /\ ~ const_fixed k c).
Proof.
  intros k c. pose proof (C139_is_range k c) as R. unfold collection_begin.
  assert (F : const_fixed k c <-> match k with FixedArray _ => c = true | _ => False end).
  { unfold const_fixed. destruct k; (split; [intros (? & n0 & E); try discriminate; auto|intro E; try tauto; eauto]). }
  rewrite F. destruct (is_range (collection_traits k c)) eqn:E.
  - assert (I : iterable k c) by (apply R; auto). split; [split; [destruct k, c; discriminate|tauto]|].
    destruct k, c; split; try tauto; intro H; try discriminate; split; auto; congruence.
  - assert (I : ~ iterable k c) by (intro H; apply R in H; congruence). split; [tauto|]. split; [discriminate|tauto].
Qed.
Theorem C139_const_array_refuted : forall n,
  iterable (FixedArray n) true /\ is_range (collection_traits (FixedArray n) true) = true /\
  collection_begin (FixedArray n) true = HardError /\
  visits_const (FixedArray n) true = true /\ element_const (collection_traits (FixedArray n) true) = false /\
  collection_begin (CArray n) true = Runs tt /\ collection_begin DynArray true = Runs tt.
Proof. repeat split. Qed.
(* element_t is const exactly if the visited elements are *)
Theorem C139_element : forall k c, iterable k c -> ~ const_fixed k c -> element_const (collection_traits k c) = visits_const k c.
Proof.
  intros k c I F. unfold collection_traits. destruct k; cbn in *; try reflexivity; try tauto.
  - destruct c; [|reflexivity]. exfalso. apply F. split; [reflexivity|]. eexists. reflexivity.
  - rewrite I. reflexivity.
Qed.

(* collection_size is the number of elements *)
Theorem C139_size : forall k c s, object k s ->
  match k with Custom f => m_range (f c) = true /\ m_size (f c) = true | NoCollection => False | _ => True end ->
  collection_size k c s = Runs (count s).
Proof.
  intros k c s O M. destruct k; cbn in *; try reflexivity; try contradiction.
  - destruct s; [|contradiction]. cbn. congruence.
  - destruct s; [|contradiction]. cbn. congruence.
  - destruct M as (M1 & M2). unfold collection_size, collection_traits. cbn. rewrite M1. cbn. rewrite M2. reflexivity.
Qed.
Theorem C139_fixed_size : forall k c n, fixed_size (collection_traits k c) = Some n <-> k = FixedArray n \/ k = CArray n.
Proof.
  intros k c n. split.
  - destruct k; cbn; intro H; try discriminate; try (injection H as ->; auto). destruct (m_range (f c)); discriminate.
  - intros [-> | ->]; reflexivity.
Qed.

(* get of an indexed range reads the element without changing the collection; maps are the exception *)
Theorem C139_get : forall k c s i x, object k s -> is_indexed_range (collection_traits k c) = true -> k <> Map_ -> ~ const_fixed k c ->
  (match s with Elements l => nth_error l i = Some x | Pairs _ => False end) -> get k c s i = Runs (Ok (x, s)).
Proof.
  intros k c s i x O R M F X. destruct s as [l|]; [|contradiction]. unfold get. unfold at_index, subscript. rewrite X.
  destruct k; cbn in *; try reflexivity; try discriminate; try congruence.
  - destruct c; [|reflexivity]. exfalso. apply F. split; [reflexivity|]. eexists. reflexivity.
  - destruct (m_range (f c)); cbn in *; [|discriminate]. destruct (m_data (f c)); [reflexivity|]. destruct (m_index (f c)); [reflexivity|].
    rewrite andb_false_r in R. discriminate.
Qed.
(* every map counts as an indexed range; reading by index is a lookup of the key, which adds it *)
Theorem C139_map_indexed_refuted : is_indexed_range (collection_traits Map_ false) = true /\
  (forall l i, (forall p, In p l -> fst p <> N.of_nat i) -> exists l', get Map_ false (Pairs l) i = Runs (Ok (0, Pairs l')) /\ count (Pairs l') = S (count (Pairs l))) /\
  is_indexed_range (collection_traits Map_ true) = false.
Proof.
  split; [reflexivity|]. split; [|reflexivity]. intros l i H. exists ((N.of_nat i, 0) :: l). split; [|reflexivity]. cbn. unfold map_index.
  destruct (find (fun p => fst p =? N.of_nat i) l) as [p|] eqn:E; [|reflexivity]. apply find_some in E. destruct E as (E1 & E2).
  apply N.eqb_eq in E2. exfalso. exact (H p E1 E2).
Qed.
(* contiguous ranges are indexed by address: their index is not checked *)
Theorem C139_get_unchecked : forall k c l i, is_contiguous (collection_traits k c) = true -> ~ const_fixed k c -> (length l <= i)%nat ->
  get k c (Elements l) i = Runs UB.
Proof.
  intros k c l i R F H. assert (X : nth_error l i = None) by (apply nth_error_None; auto). unfold get, at_index. rewrite X.
  destruct k; cbn in *; try reflexivity; try discriminate.
  - destruct c; [|reflexivity]. exfalso. apply F. split; [reflexivity|]. eexists. reflexivity.
  - destruct (m_range (f c)); cbn in *; [|discriminate]. destruct (m_data (f c)); [reflexivity|discriminate].
Qed.

(* ---------- adding ---------- *)
Definition rank (a : adder) : nat := match a with PushBack => 6 | Add => 5 | Insert => 4 | Push => 3 | ShiftLeft => 2 | PlusAssign => 1 end.
(* collection_add is available exactly if there is some way to add, and uses the best one *)
Theorem C139_add_chosen : forall f c user l v,
  m_range (f c) = true ->
  (collection_add user (Custom f) c (Elements l) v = NoMatch <-> forall a, m_add (f c) a = false) /\
  (forall r, collection_add user (Custom f) c (Elements l) v = Runs r ->
     exists a, m_add (f c) a = true /\ (forall b, m_add (f c) b = true -> (rank b <= rank a)%nat) /\ r = Elements (user a v l)) /\
  collection_add user (Custom f) c (Elements l) v <> HardError.
Proof.
  intros f c user l v R. unfold collection_add, collection_traits. cbn [members_of]. rewrite R. cbn [can_add inferred].
  assert (C : match chosen (m_add (f c)) with
              | Some a => m_add (f c) a = true /\ forall b, m_add (f c) b = true -> (rank b <= rank a)%nat
              | None => forall a, m_add (f c) a = false end).
  { unfold chosen. repeat match goal with |- context [if ?x then _ else _] => destruct x eqn:? end;
      try (intros []; auto; fail); (split; [auto|]); intros [] Hb; cbn; try lia; congruence. }
  destruct (chosen (m_add (f c))) as [a|] eqn:E.
  - destruct C as (C1 & C2). split; [split; [discriminate|intro H; rewrite H in C1; discriminate]|]. split; [|discriminate].
    intros r H. injection H as <-. exists a. auto.
  - split; [tauto|]. split; [intros r H; discriminate|discriminate].
Qed.
(* the library's collections: those that grow get the value at the end, sets get it once, nothing else accepts it *)
Theorem C139_add : forall user k c s v, object k s -> (forall f, k <> Custom f) ->
  match k, c, s with
  | (Vector | Text), false, Elements l => collection_add user k c s v = Runs (Elements (l ++ [v]))
  | Set_, false, Elements l => exists l', collection_add user k c s v = Runs (Elements l') /\ object k (Elements l') /\ forall x, In x l' <-> x = v \/ In x l
  | _, _, _ => collection_add user k c s v = NoMatch
  end.
Proof.
  intros user k c s v O N. destruct k, c, s as [l|l]; try contradiction; try reflexivity; try (exfalso; eapply N; reflexivity).
  exists (if existsb (N.eqb v) l then l else v :: l). split; [reflexivity|]. cbn in O. destruct (existsb (N.eqb v) l) eqn:E.
  - apply existsb_exists in E. destruct E as (y & Hy & E). apply N.eqb_eq in E. subst y. split; [exact O|]. intro x. split; [auto|]. intros [->|]; auto.
  - assert (Nv : ~ In v l).
    { intro H. assert (existsb (N.eqb v) l = true); [|congruence]. apply existsb_exists. exists v. split; [auto|]. apply N.eqb_refl. }
    split; [constructor; auto|]. intro x. cbn. split; intros [H|H]; auto.
Qed.

(* which way is used for the library's collections, and for one that has a single way *)
Theorem C139_ways :
  chosen (m_add (members_of Vector false)) = Some PushBack /\ chosen (m_add (members_of Text false)) = Some PushBack /\
  chosen (m_add (members_of Set_ false)) = Some Add /\
  forall a, chosen (only a) = Some a.
Proof. repeat split. intros []; reflexivity. Qed.

(* non-vacuity *)
Example C139_ex :
  collection_add (fun _ v l => l) Vector false (Elements [1; 2]) 3 = Runs (Elements [1; 2; 3]) /\
  collection_add (fun _ v l => l) Set_ false (Elements [1; 2]) 2 = Runs (Elements [1; 2]) /\
  collection_add (fun _ v l => l) (FixedArray 2) false (Elements [1; 2]) 2 = NoMatch /\
  get (Strided true) true (Elements [1; 2]) 1 = Runs (Ok (2, Elements [1; 2])) /\
  get (Strided true) true (Elements [1; 2]) 2 = Runs Contract /\
  get Map_ false (Pairs [(1, 5)]) 1 = Runs (Ok (5, Pairs [(1, 5)])) /\
  get Map_ false (Pairs [(1, 5)]) 0 = Runs (Ok (0, Pairs [(0, 0); (1, 5)])) /\
  get List_ false (Elements [1]) 0 = HardError /\
  collection_begin NoCollection false = NoMatch /\ collection_begin (FixedArray 3) false = Runs tt.
Proof. repeat split. Qed.
Definition both : bool -> members :=
  fun c => mkm true true false false (fun a => negb c && match a with Insert | PlusAssign => true | _ => false end) c.
Example C139_priority : collection_add (fun a v l => match a with Insert => v :: l | _ => l ++ [v] end) (Custom both) false (Elements [1]) 2 = Runs (Elements [2; 1]) /\
  collection_add (fun _ v l => l) (Custom both) true (Elements [1]) 2 = NoMatch.
Proof. split; reflexivity. Qed.
(* the flags that tests/collection_traits.cc asserts *)
Example C139_flags :
  map (fun k => let t := collection_traits k false in
         (is_range t, is_contiguous t, fixed_size t, can_add t, element_const t))
      [Vector; View false; Strided false; DynArray; FixedArray 10; CArray 10; Set_; Map_; List_; Text; View true] =
  [(true, true, None, true, false); (true, true, None, false, false); (true, false, None, false, false); (true, true, None, false, false);
   (true, true, Some 10%nat, false, false); (true, true, Some 10%nat, false, false); (true, false, None, true, true);
   (true, false, None, false, false); (true, false, None, false, false); (true, true, None, true, false); (true, true, None, false, true)].
Proof. reflexivity. Qed.

Print Assumptions C139_begin.
Print Assumptions C139_get.
Print Assumptions C139_add.
Print Assumptions C139_add_chosen.

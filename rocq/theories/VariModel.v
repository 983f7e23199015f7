(* cc::variant<Types...> (src/clean-core/variant.hh): a world of variant variables with aliasing, for an
   arbitrary list of alternatives.  Types are numbers, values of all types elements of A; in storage the tag
   of an object is the position of its alternative in the recursive union.
   Programs that do not compile (static_assert) have the outcome Contract.
   Simplified: alternatives are unqualified object types; comparison operators and transform (which does not
   compile, the index is missing in line 234) left out.  variant(variant&) and operator=(variant&) select the
   templates of lines 139 and 176 and do not compile, so copies are from const variants. *)
From Coq Require Import NArith ZArith Arith List Bool.
From Verif Require Import Base Tagged.
Import ListNotations.
Open Scope Z_scope.

(* what T is deduced as for a forwarding reference T&&: T for rvalues, T const for const rvalues, T& and
   T const& for lvalues *)
Inductive cat := RV | CRV | LV | CLV.
Definition ty := (nat * cat)%type.
(* std::is_same_v<T, U> with an alternative U *)
Definition same (T : ty) (U : nat) : bool := match snd T with RV => (fst T =? U)%nat | _ => false end.
Definition decay (T : ty) : nat := fst T.

Section Var.
  Context {A : Type}.
  Variable ts : list nat.   (* Types... *)

  (* variant.hh 30-36; the fold over || stops at the first match *)
  Fixpoint iot_loop (T : ty) (us : list nat) (i : Z) : Z :=
    match us with
    | [] => i
    | U :: us => let i := i + 1 in if same T U then i else iot_loop T us i
    end.
  Definition index_of_type (T : ty) : Z :=
    let i := iot_loop T ts (-1) in
    if i =? Z.of_nat (length ts) then -1 else i.

  (* 44-122 variant_impl: positions in the recursive union *)
  (* 60-94 emplace and get: the first alternative of type U *)
  Fixpoint pos_of (us : list nat) (U : nat) : option nat :=
    match us with
    | [] => None
    | T :: us => if (T =? U)%nat then Some O else match pos_of us U with Some p => Some (S p) | None => None end
    end.
  (* 96-102 destroy: the alternative destroyed *)
  Fixpoint destroy_pos (us : list nat) (idx : N) : option nat :=
    match us with
    | [] => None
    | _ :: us => if N.eqb idx 0 then Some O
                 else match us with [] => None | _ => match destroy_pos us (idx - 1) with Some p => Some (S p) | None => None end end
    end.
  (* 104-121 visit: the alternative visited *)
  Fixpoint visit_pos (us : list nat) (idx : N) : nat :=
    match us with
    | [] => O
    | _ :: us => match us with [] => O | _ => if N.ltb 0 idx then S (visit_pos us (idx - 1)) else O end
    end.

  (* 265-266 *)
  Record variant := mkv { idx : N; dat : tcell A }.
  Definition world := list (option variant).

  (* _idx = uint8_t(i) *)
  Definition set_idx (w : world) (k : nat) (i : Z) : outcome world :=
    let! o := var w k in Ok (upd w k (mkv (Z.to_N (i mod 256)) (dat o))).
  Definition place (w : world) (k : nat) (U : nat) (v : A) : outcome world :=
    match pos_of ts U with
    | None => Contract        (* 67: could not find type in variant *)
    | Some p => let! o := var w k in let! c := tplace (dat o) p v in Ok (upd w k (mkv (idx o) c))
    end.
  Definition kill (w : world) (k : nat) : outcome world :=
    let! o := var w k in
    match destroy_pos ts (idx o) with
    | None => Ok w
    | Some p => let! c := tkill (dat o) p in Ok (upd w k (mkv (idx o) c))
    end.

  (* an argument: a value from elsewhere, or a reference to the object at position p of variable j; `mv` if
     it is an rvalue that is moved from *)
  Inductive src := Ext (v : A) | Own (j p : nat) (mv : bool).
  Definition fetch (w : world) (s : src) : outcome (A * world) :=
    match s with
    | Ext v => Ok (v, w)
    | Own j p mv => let! o := var w j in
                    if mv then let! r := ttake (dat o) p in Ok (fst r, upd w j (mkv (idx o) (snd r)))
                    else let! v := tread (dat o) p in Ok (v, w)
    end.

  (* 207-215 emplace<U>(arg) *)
  Definition emplace (w : world) (k : nat) (U : nat) (s : src) : outcome world :=
    let! w := kill w k in
    let i := index_of_type (U, RV) in
    let! _ := contract (0 <=? i) in
    let! w := set_idx w k i in
    match pos_of ts U with
    | None => Contract
    | Some _ => let! m := fetch w s in place (snd m) k U (fst m)
    end.
  (* 132-137 *)
  Definition new_default (w : world) (v : A) : outcome world :=
    match ts with [] => Contract | T :: _ => place (add w (mkv 0 TRaw)) (length w) T v end.
  (* 139-146, T deduced from the argument *)
  Definition new_from (w : world) (T : ty) (s : src) : outcome world :=
    let k := length w in
    let i := index_of_type T in
    let! _ := contract (0 <=? i) in
    let! w := set_idx (add w (mkv 0 TRaw)) k i in
    match pos_of ts (decay T) with
    | None => Contract
    | Some _ => let! m := fetch w s in place (snd m) k (decay T) (fst m)
    end.
  (* 147-174: the lambda gets the object at the visited position, T is its type *)
  Definition new_variant (w : world) (j : nat) (mv : bool) : outcome world :=
    let k := length w in
    let w := add w (mkv 0 TRaw) in
    let! r := var w j in
    let p := visit_pos ts (idx r) in
    match nth_error ts p with
    | None => UB
    | Some T => let i := index_of_type (T, RV) in
                let! _ := contract (0 <=? i) in
                let! w := set_idx w k i in
                let! m := fetch w (Own j p mv) in place (snd m) k T (fst m)
    end.
  (* 176-183 *)
  Definition assign_from (w : world) (k : nat) (T : ty) (s : src) : outcome world :=
    let! _ := contract (0 <=? index_of_type T) in emplace w k (decay T) s.
  (* 184-203 *)
  Definition assign_variant (w : world) (k j : nat) (mv : bool) : outcome world :=
    let! r := var w j in
    let p := visit_pos ts (idx r) in
    match nth_error ts p with None => UB | Some T => emplace w k T (Own j p mv) end.
  (* 205 *)
  Definition destroy (w : world) (k : nat) : outcome world :=
    let! w := kill w k in
    let! o := var w k in let! _ := tfree (dat o) in Ok (del w k).
  (* 237-241 is<T>, T unqualified *)
  Definition is (w : world) (k : nat) (T : nat) : outcome bool :=
    let! o := var w k in Ok (Z.of_N (idx o) =? index_of_type (T, RV)).
  (* 243-256 get<T> *)
  Definition get (w : world) (k : nat) (T : nat) : outcome A :=
    let! b := is w k T in
    let! _ := contract b in
    match pos_of ts T with
    | None => Contract
    | Some p => let! o := var w k in tread (dat o) p
    end.
  (* 258-262 get_or *)
  Definition get_or (w : world) (k : nat) (T : nat) (d : A) : outcome A :=
    match pos_of ts T with
    | None => Contract          (* the static_assert of get<T> *)
    | Some _ => let! b := is w k T in if b then get w k T else Ok d
    end.
  (* 217-226 visit: which alternative the visitor is called with, and the value *)
  Definition visit (w : world) (k : nat) : outcome (nat * A) :=
    let! o := var w k in
    let p := visit_pos ts (idx o) in
    match nth_error ts p with None => UB | Some T => let! v := tread (dat o) p in Ok (T, v) end.

  (* operations; a value argument that is a reference to the alternative X held by variable j is obtained
     with get<X>() *)
  Inductive arg := AVal (v : A) | AGet (j : nat) (mv : bool).
  Definition arg_src (w : world) (T : ty) (a : arg) : outcome src :=
    match a with
    | AVal v => Ok (Ext v)
    | AGet j mv => let! b := is w j (decay T) in
                   let! _ := contract b in
                   match pos_of ts (decay T) with None => Contract | Some p => Ok (Own j p mv) end
    end.
  Inductive op :=
  | New (v : A) | NewFrom (T : ty) (a : arg) | NewVariant (j : nat) (mv : bool)
  | Emplace (k : nat) (T : nat) (a : arg) | AssignFrom (k : nat) (T : ty) (a : arg) | AssignVariant (k j : nat) (mv : bool)
  | Destroy (k : nat) | Is (k : nat) (T : nat) | Get (k : nat) (T : nat) | GetOr (k : nat) (T : nat) (d : A) | Visit (k : nat).
  Inductive res := RUnit | RB (b : bool) | RVal (v : A) | RVisit (T : nat) (v : A).
  Definition unit_ (o : outcome world) : outcome (world * res) := let! w := o in Ok (w, RUnit).
  Definition step (w : world) (o : op) : outcome (world * res) :=
    match o with
    | New v => unit_ (new_default w v)
    | NewFrom T a => unit_ (let! s := arg_src w T a in new_from w T s)
    | NewVariant j mv => unit_ (new_variant w j mv)
    | Emplace k T a => unit_ (let! s := arg_src w (T, RV) a in emplace w k T s)
    | AssignFrom k T a => unit_ (let! s := arg_src w T a in assign_from w k T s)
    | AssignVariant k j mv => unit_ (assign_variant w k j mv)
    | Destroy k => unit_ (destroy w k)
    | Is k T => let! b := is w k T in Ok (w, RB b)
    | Get k T => let! v := get w k T in Ok (w, RVal v)
    | GetOr k T d => let! v := get_or w k T d in Ok (w, RVal v)
    | Visit k => let! r := visit w k in Ok (w, RVisit (fst r) (snd r))
    end.
  Fixpoint run (w : world) (os : list op) : outcome (world * list res) :=
    match os with
    | [] => Ok (w, [])
    | o :: os => let! x := step w o in let! y := run (fst x) os in Ok (fst y, snd x :: snd y)
    end.
End Var.
Arguments variant : clear implicits. Arguments world : clear implicits. Arguments op : clear implicits.
Arguments res : clear implicits. Arguments arg : clear implicits. Arguments src : clear implicits.

(* What slicing, indexing and copying mean, on plain lists. *)
From Coq Require Import NArith ZArith List.
Import ListNotations.
From Verif Require Import SpanModel.
Open Scope N_scope.

Section S.
  Context {A : Type}.

  (* the selected elements, or None when the request does not fit the sequence *)
  Definition select (l : list A) (o : slice) : option (list A) :=
    let n := N.of_nat (length l) in
    match o with
    | SFirst k => if k <=? n then Some (firstn (N.to_nat k) l) else None
    | SLast k => if k <=? n then Some (skipn (N.to_nat (n - k)) l) else None
    | SSub b k => if b + k <=? n then Some (firstn (N.to_nat k) (skipn (N.to_nat b) l)) else None
    | SFrom b => if b <=? n then Some (skipn (N.to_nat b) l) else None
    | SRev => Some (rev l)
    end.
  Fixpoint selects (l : list A) (os : list slice) : option (list A) :=
    match os with
    | [] => Some l
    | o :: os => match select l o with Some l => selects l os | None => None end
    end.

  (* a span over allocation m selects the elements l *)
  Definition views (m : list A) (s : span) (l : list A) : Prop :=
    off s + size s <= N.of_nat (length m) /\
    l = firstn (N.to_nat (size s)) (skipn (N.to_nat (off s)) m).

  (* element number j of a strided range lies at this address (machine address space of 2^64) *)
  Definition place (base : N) (st : Z) (j : nat) : N :=
    Z.to_N ((Z.of_N base + st * Z.of_nat j) mod 2 ^ 64).
  (* the strided span s covers exactly the elements l: l lies in memory, evenly spaced *)
  Definition covers (mem : N -> option A) (s : sspan) (l : list A) : Prop :=
    ssize s = N.of_nat (length l) /\
    forall j x, nth_error l j = Some x -> mem (place (sdata s) (stride s) j) = Some x.
End S.

(* the arguments of a two-argument subspan do not overflow size_t *)
Definition no_wrap (o : slice) : Prop := match o with SSub b k => b + k < 2 ^ 64 | _ => True end.

(* What numerals, number texts and padded fields are, on plain lists of characters. *)
From Coq Require Import NArith ZArith List Bool Arith.
From Verif Require Import NumModel.
Import ListNotations.
Open Scope N_scope.

(* 0123456789abcdef and 0123456789ABCDEF *)
Definition lower : list N := [48; 49; 50; 51; 52; 53; 54; 55; 56; 57; 97; 98; 99; 100; 101; 102].
Definition upper : list N := [48; 49; 50; 51; 52; 53; 54; 55; 56; 57; 65; 66; 67; 68; 69; 70].

(* l reads as v in base b with digits from the table *)
Inductive reads (tab : list N) (b : N) : list N -> N -> Prop :=
| reads_nil : reads tab b [] 0
| reads_snoc l v c d : reads tab b l v -> d < b -> nth_error tab (N.to_nat d) = Some c -> reads tab b (l ++ [c]) (v * b + d).

(* the numeral of v: at least one digit, no leading zero *)
Definition canonical (tab : list N) (b : N) (l : list N) (v : N) : Prop :=
  l <> [] /\ reads tab b l v /\ (hd_error l = Some 48 -> l = [48]).

(* the usual decimal text of an integer *)
Definition decimal (l : list N) (z : Z) : Prop :=
  if (z <? 0)%Z then exists ds, l = 45 :: ds /\ canonical lower 10 ds (Z.abs_N z)
  else canonical lower 10 l (Z.abs_N z).

Definition in_range (t : ity) (z : Z) : Prop := (imin t <= z <= imax t)%Z.

(* an integer literal with an optional sign, leading zeros allowed *)
Definition number_text (l : list N) (z : Z) : Prop :=
  exists ds m, ds <> [] /\ reads lower 10 ds m /\
    ((l = ds /\ z = Z.of_N m) \/ (l = 43 :: ds /\ z = Z.of_N m) \/ (l = 45 :: ds /\ z = (- Z.of_N m)%Z)).
Definition blank (l : list N) : Prop := Forall (fun c => c = 32 \/ 9 <= c <= 13) l.

(* ---- integer fields ---- *)
(* base, digit table and alternative-form prefix of a type letter *)
Definition base_of (t : N) : option (N * list N * list N) :=
  if (t =? 0) || (t =? 100) || (t =? 117) then Some (10, lower, [])
  else if t =? 98 then Some (2, lower, [48; 98])
  else if t =? 66 then Some (2, lower, [48; 66])
  else if t =? 111 then Some (8, lower, [48])
  else if t =? 120 then Some (16, lower, [48; 120])
  else if t =? 88 then Some (16, upper, [48; 88])
  else None.
Definition sign_text (s : N) (z : Z) : list N :=
  if (z <? 0)%Z then [45] else if s =? 43 then [43] else if s =? 32 then [32] else [].
(* l is body in a field of width w *)
Definition padded (al fl : N) (w : Z) (body l : list N) : Prop :=
  exists i j, l = repeat fl i ++ body ++ repeat fl j /\
    Z.of_nat (length l) = Z.max w (Z.of_nat (length body)) /\
    (al = 60 -> i = O) /\ (al = 62 -> j = O) /\ (al = 94 -> (i = j \/ i = S j \/ j = S i)%nat).
(* the text an integer should have under format arguments *)
Definition int_field (z : Z) (a : fmt) (l : list N) : Prop :=
  exists b tab p ds, base_of (typ a) = Some (b, tab, p) /\ canonical tab b ds (Z.abs_N z) /\
    let pre := sign_text (sign a) z ++ (if alt a then p else []) in
    if zero a
    then exists k, l = pre ++ repeat 48 k ++ ds /\ Z.of_nat (length l) = Z.max (width a) (Z.of_nat (length (pre ++ ds)))
    else padded (align a) (fill a) (width a) (pre ++ ds) l.

(* the text a string should have under format arguments: cut to the precision, then padded *)
Definition text_field (value : list N) (a : fmt) (l : list N) : Prop :=
  let body := if (prec a <? 0)%Z then value else firstn (Z.to_nat (prec a)) value in
  padded (align a) (fill a) (width a) body l.

(* ---- format specifications: [[fill]align][sign]["#"]["0"][width]["." precision][type] (to_string.cc 323) ---- *)
Record spec := Spec {
  s_align : option (option N * N); s_sign : option N; s_alt : bool; s_width : option (bool * N);
  s_prec : option N; s_type : option N }.
(* the numeral of v as text; any function with this property will do *)
Definition render (num : N -> list N) (s : spec) : list N :=
  match s_align s with Some (Some f, c) => [f; c] | Some (None, c) => [c] | None => [] end ++
  match s_sign s with Some c => [c] | None => [] end ++
  (if s_alt s then [35] else []) ++
  match s_width s with Some (z, w) => (if z then [48] else []) ++ num w | None => [] end ++
  match s_prec s with Some p => 46 :: num p | None => [] end ++
  match s_type s with Some c => [c] | None => [] end.
Definition letter (c : N) : Prop := 65 <= c <= 90 \/ 97 <= c <= 122.
Definition spec_ok (s : spec) : Prop :=
  match s_align s with
  | Some (f, c) => (c = 60 \/ c = 62 \/ c = 94) /\ match f with Some f => f <> 60 /\ f <> 62 /\ f <> 94 | None => True end
  | None => True
  end /\
  match s_sign s with Some c => c = 43 \/ c = 45 \/ c = 32 | None => True end /\
  match s_width s with Some (_, w) => 0 < w < 2 ^ 31 | None => True end /\
  match s_prec s with Some p => p < 2 ^ 31 | None => True end /\
  match s_type s with Some c => letter c | None => True end.
(* what the parts of the specification mean *)
Definition meaning (s : spec) : fmt :=
  {| width := match s_width s with Some (_, w) => Z.of_N w | None => -1 end;
     prec := match s_prec s with Some p => Z.of_N p | None => -1 end;
     fill := match s_align s with Some (Some f, _) => f | _ => 32 end;
     align := match s_align s with Some (_, c) => c | None => 62 end;
     sign := match s_sign s with Some c => c | None => 45 end;
     typ := match s_type s with Some c => c | None => 0 end;
     alt := s_alt s;
     zero := match s_width s with Some (z, _) => z | None => false end |}.

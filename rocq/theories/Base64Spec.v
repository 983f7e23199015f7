(* RFC 4648 section 4 as a specification on bit strings; shares nothing with the model. *)
From Coq Require Import NArith Arith List Bool.
Import ListNotations.
Open Scope N_scope.

Definition byte (b : N) : Prop := b < 256.

(* most significant bit first *)
Definition bits_of (w : nat) (v : N) : list bool :=
  map (fun i => N.testbit v (N.of_nat i)) (rev (seq 0 w)).
Definition value_of (bits : list bool) : N :=
  fold_left (fun acc b => 2 * acc + (if b : bool then 1 else 0)) bits 0.

(* the standard alphabet *)
Definition alphabet (v : N) : N :=
  if v <? 26 then v + 65                (* A-Z *)
  else if v <? 52 then v - 26 + 97      (* a-z *)
  else if v <? 62 then v - 52 + 48      (* 0-9 *)
  else if v =? 62 then 43               (* + *)
  else 47.                              (* / *)

Definition alphabet_value (c : N) : option N :=
  if (65 <=? c) && (c <=? 90) then Some (c - 65)
  else if (97 <=? c) && (c <=? 122) then Some (c - 97 + 26)
  else if (48 <=? c) && (c <=? 57) then Some (c - 48 + 52)
  else if c =? 43 then Some 62
  else if c =? 47 then Some 63
  else None.

(* 6-bit groups, the last one filled up with zero bits on the right; n bounds the group count *)
Fixpoint groups6 (n : nat) (bits : list bool) : list N :=
  match n with
  | O => []
  | S n =>
      match bits with
      | [] => []
      | _ => value_of (firstn 6 (bits ++ repeat false 5)) :: groups6 n (skipn 6 bits)
      end
  end.

(* complete octets only *)
Fixpoint octets (n : nat) (bits : list bool) : list N :=
  match n with
  | O => []
  | S n => if (length bits <? 8)%nat then []
           else value_of (firstn 8 bits) :: octets n (skipn 8 bits)
  end.

Definition padding (n : nat) : nat := match (n mod 3)%nat with 0%nat => 0 | 1%nat => 2 | _ => 1 end.

Definition rfc4648_encode (bs : list N) : list N :=
  let bits := flat_map (bits_of 8) bs in
  map alphabet (groups6 (length bits) bits) ++ repeat 61 (padding (length bs)).

(* the values of the longest prefix of alphabet characters *)
Fixpoint prefix_values (s : list N) : list N :=
  match s with
  | [] => []
  | c :: t => match alphabet_value c with Some v => v :: prefix_values t | None => [] end
  end.

Definition rfc4648_decode (s : list N) : list N :=
  let bits := flat_map (bits_of 6) (prefix_values s) in octets (length bits) bits.

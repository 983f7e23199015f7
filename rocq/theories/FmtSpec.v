(* The format language: a format string is a sequence of pieces, and its meaning is the concatenation of theirs. *)
From Coq Require Import NArith List Bool.
From Verif Require Import Base FmtModel.
Import ListNotations.
Open Scope N_scope.

Definition digit (c : N) : Prop := 48 <= c <= 57.
Definition letter (c : N) : Prop := c = 95 \/ 97 <= c <= 122 \/ 65 <= c <= 90.
(* value of a decimal number *)
Fixpoint number (acc : N) (ds : list N) : N := match ds with [] => acc | d :: ds => number (acc * 10 + (d - 48)) ds end.

(* which argument a placeholder names *)
Inductive which := Next | Index (ds : list N) | Named (nm : list N).
Inductive piece :=
| Lit (c : N)                                 (* a character *)
| EscPercent | EscOpen | EscClose             (* %%, {{ and }} *)
| Brace (w : which) (spec : option (list N))  (* {}, {0}, {name}, {:spec}, {0:spec}, {name:spec} *)
| Percent (spec : list N).                    (* %spec *)

Definition which_text (w : which) : list N := match w with Next => [] | Index l | Named l => l end.
Definition piece_text (p : piece) : list N :=
  match p with
  | Lit c => [c]
  | EscPercent => [37; 37] | EscOpen => [123; 123] | EscClose => [125; 125]
  | Brace w None => [123] ++ which_text w ++ [125]
  | Brace w (Some s) => [123] ++ which_text w ++ [58] ++ s ++ [125]
  | Percent s => [37] ++ s
  end.
Definition text (ps : list piece) : list N := concat (map piece_text ps).

(* printf specifications: flags, width, precision, length modifier, conversion *)
Definition flag_chars := [45; 43; 32; 35; 94; 60; 62; 48].  (* - + space # ^ < > 0 *)
Definition conv_chars := [99; 115; 100; 105; 111; 120; 88; 117; 102; 70; 101; 69; 97; 65; 103; 71; 112].
Definition width_ok (w : list N) : Prop := w = [42] \/ Forall digit w.
Definition prec_ok (p : list N) : Prop := p = [] \/ p = [46; 42] \/ exists d ds, p = 46 :: d :: ds /\ digit d /\ Forall digit ds.
Definition len_ok (l : list N) : Prop := In l [[]; [122]; [116]; [106]; [76]; [104]; [104; 104]; [108]; [108; 108]].
Definition printf_spec (s : list N) : Prop :=
  exists f w p l c, s = f ++ w ++ p ++ l ++ [c] /\
    Forall (fun x => In x flag_chars) f /\ width_ok w /\ prec_ok p /\ len_ok l /\ In c conv_chars.

(* well-formed pieces of the language with printf (pf) and pythonic (py) placeholders *)
Definition which_ok (w : which) : Prop :=
  match w with
  | Next => True
  | Index ds => ds <> [] /\ Forall digit ds
  | Named nm => exists c cs, nm = c :: cs /\ letter c /\ Forall (fun x => letter x \/ digit x) cs
  end.
Definition piece_ok (pf py : bool) (p : piece) : Prop :=
  match p with
  | Lit c => (pf = true -> c <> 37) /\ (py = true -> c <> 123 /\ c <> 125)
  | EscPercent => pf = true
  | EscOpen | EscClose => py = true
  | Brace w s => py = true /\ which_ok w /\ match s with None => True | Some s => ~ In 125 s end
  | Percent s => pf = true /\ printf_spec s
  end.

(* the argument designated by a placeholder; next: number of the next argument, None after a named or numbered one *)
Fixpoint first_named (args : list arg) (i : nat) (nm : list N) : option nat :=
  match args with
  | [] => None
  | a :: args => if list_eq_dec N.eq_dec (name a) nm then Some i else first_named args (S i) nm
  end.
(* val: the number that digits stand for *)
Definition decimal (ds : list N) : N := number 0 ds.
Definition designated (val : list N -> N) (args : list arg) (next : option nat) (w : which) : option nat :=
  match w with
  | Next => next
  | Index ds => Some (N.to_nat (val ds))
  | Named nm => first_named args 0 nm
  end.
Definition next_after (next : option nat) (w : which) : option nat :=
  match w with Next => option_map S next | _ => None end.

(* meaning: the text and the set of arguments used, or Contract if an argument does not exist (or its conversion fails) *)
Definition substitute (args : list arg) (i : option nat) (spec : list N) : outcome (nat * list N) :=
  match i with
  | Some i => match nth_error args i with
              | Some a => let! t := do_format a spec in Ok (i, t)
              | None => Contract
              end
  | None => Contract
  end.
Definition opt_spec (s : option (list N)) : list N := match s with Some s => s | None => [] end.
(* %s is the same as {} *)
Definition percent_spec (s : list N) : list N := if list_eq_dec N.eq_dec s [115] then [] else s.
(* of one piece: arguments used, text, next argument *)
Definition piece_meaning (val : list N -> N) (args : list arg) (next : option nat) (p : piece) : outcome (list nat * list N * option nat) :=
  match p with
  | Lit c => Ok ([], [c], next)
  | EscPercent => Ok ([], [37], next)
  | EscOpen => Ok ([], [123], next)
  | EscClose => Ok ([], [125], next)
  | Brace w s => let! (i, t) := substitute args (designated val args next w) (opt_spec s) in Ok ([i], t, next_after next w)
  | Percent s => let! (i, t) := substitute args next (percent_spec s) in Ok ([i], t, option_map S next)
  end.
Fixpoint meaning (val : list N -> N) (args : list arg) (next : option nat) (ps : list piece) : outcome (list nat * list N) :=
  match ps with
  | [] => Ok ([], [])
  | p :: ps => let! (us, t, next) := piece_meaning val args next p in
               let! (vs, r) := meaning val args next ps in Ok (us ++ vs, t ++ r)
  end.
(* all arguments have to be used *)
Definition all_used (args : list arg) (us : list nat) : bool :=
  forallb (fun i => existsb (Nat.eqb i) us) (seq 0 (length args)).
Definition formatted (val : list N -> N) (args : list arg) (ps : list piece) : outcome (list N) :=
  let! (us, t) := meaning val args (Some 0%nat) ps in if all_used args us then Ok t else Contract.

(* argument numbers that fit in size_t *)
Definition numbers_fit (ps : list piece) : Prop :=
  Forall (fun p => match p with Brace (Index ds) _ => decimal ds < 2 ^ 64 | _ => True end) ps.

(* the beginning of a printf specification up to, but without, its conversion letter *)
Definition unfinished_spec (s : list N) : Prop :=
  exists f w p l, s = f ++ w ++ p ++ l /\ Forall (fun x => In x flag_chars) f /\ width_ok w /\ prec_ok p /\ len_ok l.

(* the special case of literal texts with {} between them *)
Definition escape (l : list N) : list N :=
  concat (map (fun c => if (c =? 123) || (c =? 125) || (c =? 37) then [c; c] else [c]) l).
(* l0 {} l1 {} l2 ... *)
Fixpoint with_braces (l : list N) (ls : list (list N)) : list N :=
  match ls with [] => escape l | l' :: ls => escape l ++ [123; 125] ++ with_braces l' ls end.
Fixpoint interleave (l : list N) (ls ts : list (list N)) : list N :=
  match ls, ts with l' :: ls, t :: ts => l ++ t ++ interleave l' ls ts | _, _ => l end.

(* arguments whose conversion is never undefined *)
Definition safe_args (args : list arg) : Prop := forall a spec, In a args -> do_format a spec <> UB /\ do_format a spec <> OutOfFuel.
Definition safe {A} (r : outcome A) : Prop := r <> UB /\ r <> OutOfFuel.

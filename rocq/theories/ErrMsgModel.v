(* Model of cc::make_error_message_for_substrings (src/clean-core/error_messages.cc). Targets are pairs of offsets into the
   string; numbers do not overflow (all sizes are below 2^30); str.split gives the lines (string_view, StrModel.v). *)
From Coq Require Import Ascii String ZArith List Bool.
From Verif Require Import Base.
Import ListNotations.
Local Open Scope Z_scope.

Definition text := list ascii.
Definition nl : ascii := "010"%char.
Definition lit (s : string) : text := list_ascii_of_string s.
Record err := mkerr { ebegin : Z; eend : Z; emsg : text }.
(* 17-45 *)
Record info := mkinfo { imsg : text; mstart : Z; mend : Z; moff : nat; tstart : Z; tend : Z; toff : nat }.
(* e.overlaps_marker(r), e.overlaps_text(r) *)
Definition overlaps (start end_ : info -> Z) (e r : info) : bool :=
  if end_ r <? start e - 1 then false else if start r >? end_ e then false else true.
Definition overlaps_marker := overlaps mstart mend.
Definition overlaps_text := overlaps tstart tend.
Definition set_moff (i : info) (n : nat) := mkinfo (imsg i) (mstart i) (mend i) n (tstart i) (tend i) (toff i).
Definition set_toff (i : info) (n : nat) := mkinfo (imsg i) (mstart i) (mend i) (moff i) (tstart i) (tend i) n.

(* 100-115 *)
Fixpoint alloc_marker (fuel : nat) (errs : list info) (e : info) : outcome info :=
  match fuel with
  | O => OutOfFuel
  | S fuel =>
      if existsb (fun ee => Nat.eqb (moff ee) (moff e) && overlaps_marker ee e) errs
      then alloc_marker fuel errs (set_moff e (S (moff e))) else Ok e
  end.
(* 117-132 *)
Fixpoint alloc_text (fuel : nat) (errs : list info) (e : info) : outcome info :=
  match fuel with
  | O => OutOfFuel
  | S fuel =>
      if existsb (fun ee => Nat.eqb (toff ee) (toff e) && overlaps_text ee e) errs
      then alloc_text fuel errs (set_toff e (S (toff e))) else Ok e
  end.
Record layout := mkl { infos : list info; nmark : nat; ntext : nat; width : Z }.
(* 79-141, for a line of the given size that begins at offset p *)
Fixpoint prepare (p size : Z) (errors : list err) (l : layout) : outcome layout :=
  match errors with
  | [] => Ok l
  | e :: errors =>
      let ms := ebegin e - p in
      let me := eend e - p in
      let me := if ms =? me then me + 1 else me in
      if me <=? 0 then prepare p size errors l
      else if ms >? size then prepare p size errors l
      else
        let ts := Z.quot (ms + me - 1) 2 in
        let i := mkinfo (emsg e) ms me 0 ts (ts + Z.of_nat (length (emsg e)) + 2) 0 in
        let! i := alloc_marker (S (length (infos l))) (infos l) i in
        let! i := alloc_text (S (length (infos l))) (infos l) i in
        prepare p size errors
          (mkl (infos l ++ [i]) (Nat.max (nmark l) (S (moff i))) (Nat.max (ntext l) (S (toff i))) (Z.max (Z.max (width l) (mend i)) (tend i)))
  end.

(* err_lines[y][x] = c *)
Definition grid := list text.
Definition plot (g : grid) (y x : Z) (c : ascii) : outcome grid :=
  let! _ := contract ((0 <=? y) && (y <? Z.of_nat (length g))) in
  let! row := aget g (Z.to_nat y) in
  let! _ := contract ((0 <=? x) && (x <? Z.of_nat (length row))) in
  let! row := aset row (Z.to_nat x) c in
  aset g (Z.to_nat y) row.
(* a sequence of such assignments *)
Fixpoint plots (g : grid) (ws : list (Z * Z * ascii)) : outcome grid :=
  match ws with [] => Ok g | (y, x, c) :: ws => let! g := plot g y x c in plots g ws end.
(* a, a+1, ..., b-1 *)
Definition upto (a b : Z) : list Z := map (fun i => a + Z.of_nat i) (seq 0 (Z.to_nat (b - a))).
(* 153-161 *)
Definition connectors (n : nat) (is : list info) : list (Z * Z * ascii) :=
  flat_map (fun e => map (fun y => (y, tstart e, "|"%char)) (upto (Z.of_nat (moff e) + 1) (Z.of_nat n + Z.of_nat (toff e)))) is.
(* 163-171 *)
Definition markers (is : list info) : list (Z * Z * ascii) :=
  flat_map (fun e => map (fun x => (Z.of_nat (moff e), x, "^"%char)) (upto (mstart e) (mend e))) is.
(* 173-182 *)
Definition texts (n : nat) (is : list info) : list (Z * Z * ascii) :=
  flat_map (fun e => map (fun ic => (Z.of_nat n + Z.of_nat (toff e), tstart e + Z.of_nat (fst ic), snd ic))
                         (combine (seq 0 (length (lit "* " ++ imsg e))) (lit "* " ++ imsg e))) is.
(* 143-182 *)
Definition draw (l : layout) : outcome grid :=
  match infos l with
  | [] => Ok []
  | is =>
      let g := repeat (repeat " "%char (Z.to_nat (width l))) (nmark l + ntext l) in
      let! g := plots g (connectors (nmark l) is) in
      let! g := plots g (markers is) in
      plots g (texts (nmark l) is)
  end.
(* 62-192: the lines of str, the first begins at offset p *)
Fixpoint lines_loop (p : Z) (first : bool) (ls : list text) (errors : list err) (res : text) : outcome text :=
  match ls with
  | [] => Ok res
  | l :: ls =>
      let res := res ++ (if first then [] else [nl]) ++ lit "> " ++ l in
      let! lay := prepare p (Z.of_nat (length l)) errors (mkl [] 0 0 0) in
      let! rows := draw lay in
      let res := res ++ flat_map (fun r => [nl] ++ lit "  " ++ r) rows in
      lines_loop (p + Z.of_nat (length l) + 1) false ls errors res
  end.
Fixpoint split (s : text) : list text :=
  match s with
  | [] => [[]]
  | c :: s =>
      match split s with
      | l :: ls => if Ascii.eqb c nl then [] :: l :: ls else (c :: l) :: ls
      | [] => []
      end
  end.
(* 5-203 *)
Definition make_message (str : text) (errors : list err) (message : text) : outcome text :=
  let n := Z.of_nat (length str) in
  let! _ := contract (forallb (fun e => (0 <=? ebegin e) && (eend e <=? n)) errors) in
  let! res :=
    match str with
    | [] => Ok (lit "<empty string>" ++ flat_map (fun e => [nl] ++ lit "* " ++ emsg e) errors)
    | _ => lines_loop 0 true (split str) errors []
    end in
  Ok (match message with [] => res | _ => res ++ [nl] ++ message end).

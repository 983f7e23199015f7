(* Model of cc::filewatch on unix (src/clean-core/experimental/filewatch.cc). One thread uses filewatches; the system tells
   monitors about changes at any point between its operations, and their threads handle these events at once (under the lock
   of the monitor). Directories stay where they are. *)
From Coq Require Import Ascii Arith List Bool.
From Verif Require Import Base.
Import ListNotations.

Definition text := list ascii.
Definition slash : ascii := "/"%char.
Definition teqb (a b : text) : bool := if list_eq_dec ascii_dec a b then true else false.
(* 91-113: everything up to the last slash, and the rest *)
Fixpoint pivot (p : text) : text * text :=
  match p with
  | [] => ([], [])
  | c :: p =>
      let (d, n) := pivot p in
      match d with [] => if Ascii.eqb c slash then ([c], n) else ([], c :: n) | _ => (c :: d, n) end
  end.
Definition location (p : text) : text * text := let (d, n) := pivot p in (match d with [] => ["."%char; slash] | _ => d end, n).

Section Watch.
  (* directories; the directory a path denotes *)
  Context {D : Type} (deqb : D -> D -> bool) (resolve : text -> option D).
  (* 115-140: files with their flags *)
  Record monitor := mkm { mpath : text; mdir : D; files : list (text * nat) }.
  (* flags on the heap; filewatches: destroyed, without state, or with a flag *)
  Record world := mkw { monitors : list monitor; flags : list (option bool); watches : list (option (option nat)) }.

  (* 296-309, 382-391: the first monitor of the directory takes the file *)
  Fixpoint add (ms : list monitor) (dir name : text) (f : nat) : option (list monitor) :=
    match ms with
    | [] => None
    | m :: ms =>
        if teqb dir (mpath m) then Some (mkm (mpath m) (mdir m) (files m ++ [(name, f)]) :: ms)
        else match add ms dir name f with Some ms => Some (m :: ms) | None => None end
    end.
  (* 312-323 *)
  Fixpoint remove_file (fs : list (text * nat)) (f : nat) : option (list (text * nat)) :=
    match fs with
    | [] => None
    | (n, g) :: fs => if Nat.eqb g f then Some fs else match remove_file fs f with Some fs => Some ((n, g) :: fs) | None => None end
    end.
  (* 344-361 *)
  Fixpoint remove (ms : list monitor) (f : nat) : list monitor :=
    match ms with
    | [] => []
    | m :: ms =>
        match remove_file (files m) f with
        | Some [] => ms
        | Some fs => mkm (mpath m) (mdir m) fs :: ms
        | None => m :: remove ms f
        end
    end.
  Definition set_flag (fl : list (option bool)) (f : nat) (b : bool) : outcome (list (option bool)) :=
    match nth_error fl f with Some (Some _) => Ok (lset fl f (Some b)) | _ => UB end.
  (* 178-186: the first file of this name *)
  Fixpoint mark (fs : list (text * nat)) (name : text) (fl : list (option bool)) : outcome (list (option bool)) :=
    match fs with
    | [] => Ok fl
    | (n, f) :: fs => if teqb name n then set_flag fl f true else mark fs name fl
    end.
  (* 165-189, for every monitor of the directory *)
  Fixpoint notify (ms : list monitor) (d : D) (name : text) (fl : list (option bool)) : outcome (list (option bool)) :=
    match ms with
    | [] => Ok fl
    | m :: ms =>
        let! fl := if deqb (mdir m) d then match name with [] => Ok fl | _ => mark (files m) (snd (location name)) fl end else Ok fl in
        notify ms d name fl
    end.
  Definition get (w : world) (k : nat) : outcome (option nat) := match nth_error (watches w) k with Some (Some x) => Ok x | _ => UB end.
  (* destruction of the state: the flag leaves its monitor, which is destroyed with its last file *)
  Definition release (w : world) (x : option nat) : outcome world :=
    match x with
    | None => Ok w
    | Some f => match nth_error (flags w) f with
                | Some (Some _) => Ok (mkw (remove (monitors w) f) (lset (flags w) f None) (watches w))
                | _ => UB
                end
    end.

  (* events of the system: a file was written or created, or another file was renamed to this name *)
  Inductive event := Written | Created | Renamed.
  Inductive op :=
  | New | Create (path : text) | MoveNew (j : nat) | MoveAssign (k j : nat) | Destroy (k : nat)
  | IsValid (k : nat) | HasChanged (k : nat) | SetUnchanged (k : nat)
  | Event (d : D) (name : text) (e : event).
  Inductive res := RUnit | RB (b : bool).
  Definition step (w : world) (o : op) : outcome (world * res) :=
    match o with
    | New => Ok (mkw (monitors w) (flags w) (watches w ++ [Some None]), RUnit)
    (* 363-418, 434-440; always forceUnique; inotify_add_watch fails for paths that are not directories (261-269) *)
    | Create path =>
        let (dir, name) := location path in
        let f := length (flags w) in
        let! ms := match add (monitors w) dir name f with
                   | Some ms => Ok ms
                   | None => match resolve dir with None => Contract | Some d => Ok (monitors w ++ [mkm dir d [(name, f)]]) end
                   end in
        Ok (mkw ms (flags w ++ [Some false]) (watches w ++ [Some (Some f)]), RUnit)
    (* 442-445, unique_ptr.hh 37-51 *)
    | MoveNew j => let! x := get w j in Ok (mkw (monitors w) (flags w) (lset (watches w) j (Some None) ++ [Some x]), RUnit)
    | MoveAssign k j =>
        let! x := get w k in
        let! w := release w x in
        let! y := get w j in
        Ok (mkw (monitors w) (flags w) (lset (lset (watches w) k (Some y)) j (Some None)), RUnit)
    | Destroy k => let! x := get w k in let! w := release w x in Ok (mkw (monitors w) (flags w) (lset (watches w) k None), RUnit)
    | IsValid k => let! x := get w k in Ok (w, RB (match x with Some _ => true | None => false end))
    (* 426 *)
    | HasChanged k =>
        let! x := get w k in
        match x with
        | None => Ok (w, RB false)
        | Some f => match nth_error (flags w) f with Some (Some b) => Ok (w, RB b) | _ => UB end
        end
    (* 428-432 *)
    | SetUnchanged k =>
        let! x := get w k in
        match x with
        | None => Contract
        | Some f => let! fl := set_flag (flags w) f false in Ok (mkw (monitors w) fl (watches w), RUnit)
        end
    (* monitors ask for IN_MODIFY and IN_CREATE only (266) *)
    | Event d name e =>
        match e with
        | Renamed => Ok (w, RUnit)
        | _ => let! fl := notify (monitors w) d name (flags w) in Ok (mkw (monitors w) fl (watches w), RUnit)
        end
    end.
  Fixpoint run (w : world) (os : list op) : outcome (world * list res) :=
    match os with
    | [] => Ok (w, [])
    | o :: os => let! (w, r) := step w o in let! (w, rs) := run w os in Ok (w, r :: rs)
    end.
End Watch.
Arguments op D : clear implicits.
Arguments monitor D : clear implicits.
Arguments world D : clear implicits.

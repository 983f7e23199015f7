(* What users of filewatches see: watches of files, each with its own record of changes. *)
From Coq Require Import Ascii Arith List Bool.
From Verif Require Import Base WatchModel.
Import ListNotations.

Fixpoint put {T} (l : list T) (i : nat) (x : T) : list T :=
  match l, i with [], _ => [] | _ :: l, O => x :: l | y :: l, S i => y :: put l i x end.
Definition sget {T} (l : list (option T)) (k : nat) : option T := match nth_error l k with Some (Some x) => Some x | _ => None end.
(* a path is the name of a directory, empty or with a slash at its end, and a name without slash *)
Definition denotes (path dir name : text) : Prop :=
  exists d, path = d ++ name /\ ~ In slash name /\
    ((d = [] /\ dir = ["."%char; slash]) \/ (exists q, d = q ++ [slash] /\ dir = d)).

Section Spec.
  Context {D : Type} (deqb : D -> D -> bool) (resolve : text -> option D).
  (* directory as named in the path, the directory, the name, and whether the file has changed *)
  Record file := mkfile { fpath : text; fdir : D; fname : text; changed : bool }.
  Definition wstore := list (option (option file)).
  Definition same_file (d : D) (name : text) (x : file) : bool := deqb (fdir x) d && teqb name (fname x).
  Definition watched (s : wstore) (p : file -> bool) : bool := existsb (fun x => match x with Some (Some f) => p f | _ => false end) s.
  Definition plain (name : text) : bool := match name with [] => false | _ => forallb (fun c => negb (Ascii.eqb c slash)) name end.
  (* outer None: outside of the specification; inner None: refused *)
  Definition ideal (s : wstore) (o : op D) : option (option (wstore * res)) :=
    let ret s := Some (Some (s, RUnit)) in
    let on k (f : option file -> option (option (wstore * res))) := match sget s k with Some c => f c | None => None end in
    match o with
    | New => ret (s ++ [Some None])
    | Create path =>
        let (dir, name) := location path in
        match resolve dir with
        | None => Some None
        (* a second watch of the same file: see C120_twice_refuted *)
        | Some d => if watched s (fun x => teqb dir (fpath x) && teqb name (fname x)) then None
                    else ret (s ++ [Some (Some (mkfile dir d name false))])
        end
    | MoveNew j => on j (fun c => ret (put s j (Some None) ++ [Some c]))
    | MoveAssign k j => on k (fun _ => on j (fun c => ret (put (put s k (Some c)) j (Some None))))
    | Destroy k => on k (fun _ => ret (put s k None))
    | IsValid k => on k (fun c => Some (Some (s, RB (match c with Some _ => true | None => false end))))
    | HasChanged k => on k (fun c => Some (Some (s, RB (match c with Some x => changed x | None => false end))))
    | SetUnchanged k =>
        on k (fun c => match c with
                       | Some x => ret (put s k (Some (Some (mkfile (fpath x) (fdir x) (fname x) false))))
                       | None => Some None
                       end)
    | Event d name e =>
        (* files replaced by renaming: see C120_rename_refuted *)
        if negb (plain name) || (match e with Renamed => watched s (same_file d name) | _ => false end) then None
        else ret (map (fun c => match c with
                                | Some (Some x) => if same_file d name x then Some (Some (mkfile (fpath x) (fdir x) (fname x) true)) else c
                                | _ => c
                                end) s)
    end.
  Fixpoint irun (s : wstore) (os : list (op D)) : option (option (wstore * list res)) :=
    match os with
    | [] => Some (Some (s, []))
    | o :: os =>
        match ideal s o with
        | None => None
        | Some None => Some None
        | Some (Some (s, r)) => match irun s os with Some (Some (s, rs)) => Some (Some (s, r :: rs)) | x => x end
        end
    end.
End Spec.
Arguments file D : clear implicits.
Arguments wstore D : clear implicits.

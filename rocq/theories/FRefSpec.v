(* What users of references to streams and ranges see: each reference has a destination and a list of objects that must be alive
   when it is used; what is written arrives at the destination in order, whichever kind of stream the reference was made from. *)
From Coq Require Import NArith Arith List Bool.
From Verif Require Import FRefModel.
Import ListNotations.

Inductive dest := Global (g : nat) | To (t : nat) | Nowhere.
(* counter: the lambda on the way, and whether it is called for each element *)
Record route := mkr { needs : list nat; counter : option (nat * bool); goal : dest }.
Inductive thing A := TSink (l : list A) | TFn (sp : bool) (t : nat) (c : N) | TAdapter.
Arguments TSink {A}. Arguments TFn {A}. Arguments TAdapter {A}.
Record ist A := mks { things : list (option (thing A)); routes : list (option route); views : list (option nat); globals : list (list A) }.
Arguments mks {A}. Arguments things {A}. Arguments routes {A}. Arguments views {A}. Arguments globals {A}.
Fixpoint put {T} (l : list T) (i : nat) (x : T) : list T :=
  match l, i with [], _ => [] | _ :: l, O => x :: l | y :: l, S i => y :: put l i x end.

Section S.
  Context {A : Type}.
  Definition look (ts : list (option (thing A))) (k : nat) : option (thing A) :=
    match nth_error ts k with Some x => x | None => None end.
  Definition count (ts : list (option (thing A))) (c : option (nat * bool)) (n : nat) : list (option (thing A)) :=
    match c with
    | None => ts
    | Some (k, per) => match look ts k with
                       | Some (TFn sp t c) => put ts k (Some (TFn sp t (c + (if per then N.of_nat n else 1))))
                       | _ => ts
                       end
    end.
  Definition arrive (s : ist A) (d : dest) (xs : list A) : option (ist A) :=
    match d with
    | Nowhere => Some s
    | To t => match look (things s) t with
              | Some (TSink l) => Some (mks (put (things s) t (Some (TSink (l ++ xs)))) (routes s) (views s) (globals s))
              | _ => None
              end
    | Global g => match nth_error (globals s) g with
                  | Some l => Some (mks (things s) (routes s) (views s) (put (globals s) g (l ++ xs)))
                  | None => None
                  end
    end.
  Definition alive (s : ist A) (k : nat) : bool := match look (things s) k with Some _ => true | None => false end.
  Definition deliver (s : ist A) (r : route) (xs : list A) : option (ist A) :=
    if forallb (alive s) (needs r)
    then arrive (mks (count (things s) (counter r) (length xs)) (routes s) (views s) (globals s)) (goal r) xs
    else None.

  (* outer None: a dead object is used, or the operation does not compile; inner None: the operation is refused *)
  Definition ideal (s : ist A) (o : op A) : option (option (ist A * res A)) :=
    let ret s := Some (Some (s, RUnit)) in
    let refuse := Some None in
    let thing k f := match look (things s) k with Some x => f x | None => None end in
    let add x := mks (things s ++ [x]) (routes s) (views s) (globals s) in
    let route_ s r := ret (mks (things s) (routes s ++ [r]) (views s) (globals s)) in
    let new := length (things s) in
    let make k keep := thing k (fun x =>
      let fresh := add (if keep : bool then Some TAdapter else None) in
      match x with
      | TFn true t _ => route_ s (Some (mkr [k; t] (Some (k, false)) (To t)))
      | TFn false t _ => route_ fresh (Some (mkr [new; k; t] (Some (k, true)) (To t)))
      | TSink _ => route_ fresh (Some (mkr [new; k] None (To k)))
      | TAdapter => None
      end) in
    let write r xs := match nth_error (routes s) r with
                      | Some (Some r) => match deliver s r xs with Some s => ret s | None => None end
                      | Some None => refuse
                      | None => None
                      end in
    (* the elements of a range at the time of the call *)
    let range q f := match nth_error (views s) q with
                     | Some (Some v) => thing v (fun x => match x with TSink l => f (Some v) l | _ => None end)
                     | Some None => f None []
                     | None => None
                     end in
    match o with
    | NewSink sp => ret (add (Some (TSink [])))
    | NewFn sp t => thing t (fun x => match x with TSink _ => ret (add (Some (TFn sp t 0))) | _ => None end)
    | Die k => thing k (fun _ => ret (mks (put (things s) k None) (routes s) (views s) (globals s)))
    | RefTo k => thing k (fun x => match x with
                                   | TFn true t _ => route_ s (Some (mkr [k; t] (Some (k, false)) (To t)))
                                   | _ => None
                                   end)
    | RefFun None => refuse
    | RefFun (Some g) => route_ s (Some (mkr [] None (Global g)))
    | DefRef => route_ s None
    | DefStream => route_ (add None) (Some (mkr [new] None Nowhere))
    | Make k => make k true
    | MakeTemp k => make k false
    | Copy r => match nth_error (routes s) r with Some r => route_ s r | None => None end
    | Assign r r' => match nth_error (routes s) r, nth_error (routes s) r' with
                     | Some _, Some x => ret (mks (things s) (put (routes s) r x) (views s) (globals s))
                     | _, _ => None
                     end
    | Put r x => write r [x]
    | PutAll r xs => write r xs
    | RangeOf k => thing k (fun x => match x with
                                     | TSink _ => ret (mks (things s) (routes s) (views s ++ [Some k]) (globals s))
                                     | _ => None
                                     end)
    | RangeEmpty => ret (mks (things s) (routes s) (views s ++ [None]) (globals s))
    | Visit q k => thing k (fun x => match x with
        | TFn false t _ => range q (fun v l =>
            (* the container that is visited must not grow *)
            if match v with Some v => (v =? t)%nat | None => false end then None
            else match deliver s (mkr [k; t] (Some (k, true)) (To t)) l with Some s => ret s | None => None end)
        | _ => None
        end)
    | VisitFun q None => match nth_error (views s) q with Some _ => refuse | None => None end
    | VisitFun q (Some g) => range q (fun _ l => match arrive s (Global g) l with Some s => ret s | None => None end)
    | Contents k => thing k (fun x => match x with TSink l => Some (Some (s, RL l)) | _ => None end)
    | Calls k => thing k (fun x => match x with TFn _ _ c => Some (Some (s, RN c)) | _ => None end)
    | Static g => match nth_error (globals s) g with Some l => Some (Some (s, RL l)) | None => None end
    end.
  Fixpoint irun (s : ist A) (os : list (op A)) : option (option (ist A * list (res A))) :=
    match os with
    | [] => Some (Some (s, []))
    | o :: os => match ideal s o with
                 | Some (Some (s, r)) => match irun s os with
                                         | Some (Some (s, rs)) => Some (Some (s, r :: rs))
                                         | x => x
                                         end
                 | Some None => Some None
                 | None => None
                 end
    end.
End S.

(* What users of cc::unique_function see: variables that own at most one callable. *)
From Coq Require Import NArith Arith List Bool.
From Verif Require Import Base UFunModel.
Import ListNotations.

(* a callable, a unique_function in a unique_function, an empty unique_function in a unique_function *)
Inductive fn (C : Type) := Plain (c : C) | Wrapped (f : fn C) | Hollow.
Arguments Plain {C} c.
Arguments Wrapped {C} f.
Arguments Hollow {C}.
Record store (C : Type) := mks { funs : list (option (option (fn C))); callables : list (option C) }.
Arguments mks {C}.
Arguments funs {C}.
Arguments callables {C}.
Fixpoint put {T} (l : list T) (i : nat) (x : T) : list T :=
  match l, i with [], _ => [] | _ :: l, O => x :: l | y :: l, S i => y :: put l i x end.
Definition sget {T} (l : list (option T)) (k : nat) : option T := match nth_error l k with Some (Some x) => Some x | _ => None end.

Section Spec.
  Context {C X Y : Type} (call : C -> X -> outcome (C * Y)).
  (* calling a function calls its callable once; None: the callable misbehaves; inner None: refused *)
  Fixpoint apply (f : fn C) (x : X) : option (option (fn C * Y)) :=
    match f with
    | Plain c => match call c x with Ok (c, y) => Some (Some (Plain c, y)) | _ => None end
    | Wrapped f => match apply f x with Some (Some (f, y)) => Some (Some (Wrapped f, y)) | r => r end
    | Hollow => Some None
    end.
  Definition ideal (s : store C) (o : op C X) : option (option (store C * res Y)) :=
    let ret fs cs := Some (Some (mks fs cs, RUnit)) in
    let on {T} (x : option T) (f : T -> option (option (store C * res Y))) := match x with Some x => f x | None => None end in
    let fs := funs s in let cs := callables s in
    match o with
    | NewVar c => ret fs (cs ++ [Some c])
    | CallVar v x => on (sget cs v) (fun c => match call c x with Ok (c, y) => Some (Some (mks fs (put cs v (Some c)), RY y)) | _ => None end)
    | New => ret (fs ++ [Some None]) cs
    | FromTemp c m => on m (fun _ => ret (fs ++ [Some (Some (Plain c))]) cs)
    (* the variable is moved from, also if it is only named: see C112_lvalue_refuted *)
    | FromMove v m | FromVar v m => on m (fun _ => on (sget cs v) (fun c => ret (fs ++ [Some (Some (Plain c))]) (put cs v None)))
    | FromFun k m => on m (fun _ => on (sget fs k) (fun f =>
        ret (put fs k (Some None) ++ [Some (Some (match f with Some f => Wrapped f | None => Hollow end))]) cs))
    | MoveNew j => on (sget fs j) (fun f => ret (put fs j (Some None) ++ [Some f]) cs)
    | MoveAssign k j => on (sget fs k) (fun _ => on (sget fs j) (fun f => ret (put (put fs k (Some f)) j (Some None)) cs))
    | Destroy k => on (sget fs k) (fun _ => ret (put fs k None) cs)
    | Call k x => on (sget fs k) (fun f =>
        match f with
        | None => Some None
        | Some f => match apply f x with
                    | Some (Some (f, y)) => Some (Some (mks (put fs k (Some (Some f))) cs, RY y))
                    | Some None => Some None
                    | None => None
                    end
        end)
    | IsValid k => on (sget fs k) (fun f => Some (Some (s, RB (match f with Some _ => true | None => false end))))
    end.
  Fixpoint irun (s : store C) (os : list (op C X)) : option (option (store C * list (res Y))) :=
    match os with
    | [] => Some (Some (s, []))
    | o :: os =>
        match ideal s o with
        | None => None
        | Some None => Some None
        | Some (Some (s, r)) => match irun s os with Some (Some (s, rs)) => Some (Some (s, r :: rs)) | x => x end
        end
    end.
End Spec.

(* What users of boxes see: variables that hold a value, or nothing after they were moved from. *)
From Coq Require Import Arith List Bool.
From Verif Require Import Base BoxModel.
Import ListNotations.

(* None: destroyed; Some None: moved from; otherwise dynamic type and value *)
Definition bstore (A : Type) := list (option (option (nat * A))).
Fixpoint put {T} (l : list T) (i : nat) (x : T) : list T :=
  match l, i with [], _ => [] | _ :: l, O => x :: l | y :: l, S i => y :: put l i x end.
Definition sget {T} (l : list (option T)) (k : nat) : option T := match nth_error l k with Some (Some x) => Some x | _ => None end.

Section Spec.
  Context {A : Type} (kd : kind) (eqb ltb : A -> A -> bool).
  (* whether a value of dynamic type d may be destroyed through T *)
  Definition deletable (c : option (nat * A)) : bool :=
    match kd, c with KPoly false, Some (d, _) => Nat.eqb d 0 | _, _ => true end.
  Definition allowed (d : nat) : bool := match kd with KPoly _ => true | _ => Nat.eqb d 0 end.
  (* outer None: outside of the specification; inner None: refused *)
  Definition ideal (s : bstore A) (o : op A) : option (option (bstore A * res A)) :=
    let ret s := Some (Some (s, RUnit)) in
    let on k (f : option (nat * A) -> option (option (bstore A * res A))) := match sget s k with Some c => f c | None => None end in
    let val k (f : nat -> A -> option (option (bstore A * res A))) :=
      on k (fun c => match c with Some (d, x) => f d x | None => Some None end) in
    match o with
    | Make d x => if allowed d then ret (s ++ [Some (Some (d, x))]) else None
    | Assign k d (Val x) =>
        match kd with
        | KFwd => None
        | _ => on k (fun c => if allowed d && deletable c then ret (put s k (Some (Some (d, x)))) else None)
        end
    (* the box keeps its value; for poly_box see C118_own_refuted *)
    | Assign k d Own => match kd with KBox => if allowed d then val k (fun _ _ => ret s) else None | _ => None end
    | MoveNew j => on j (fun c => ret (put s j (Some None) ++ [Some c]))
    | MoveAssign k j => on k (fun old => on j (fun c => if deletable old then ret (put (put s k (Some c)) j (Some None)) else None))
    | Destroy k => on k (fun c => if deletable c then ret (put s k None) else None)
    | Read k => val k (fun _ x => Some (Some (s, RA x)))
    | Write k x => val k (fun d _ => ret (put s k (Some (Some (d, x)))))
    | TypeOf k => val k (fun d _ => Some (Some (s, RN d)))
    (* conversions of moved-from boxes: see C118_convert_refuted *)
    | Convert k => on k (fun c => match c with Some (_, x) => Some (Some (s, RA x)) | None => None end)
    | IsNull k => on k (fun c => Some (Some (s, RB (match c with Some _ => false | None => true end))))
    | Equal k j => on k (fun a => on j (fun b => match a, b with Some (_, x), Some (_, y) => Some (Some (s, RB (eqb x y))) | _, _ => Some None end))
    | Less k j => on k (fun a => on j (fun b => match a, b with Some (_, x), Some (_, y) => Some (Some (s, RB (ltb x y))) | _, _ => Some None end))
    end.
  Fixpoint irun (s : bstore A) (os : list (op A)) : option (option (bstore A * list (res A))) :=
    match os with
    | [] => Some (Some (s, []))
    | o :: os =>
        match ideal s o with
        | None => None
        | Some None => Some None
        | Some (Some (s, r)) => match irun s os with Some (Some (s, rs)) => Some (Some (s, r :: rs)) | x => x end
        end
    end.
End Spec.

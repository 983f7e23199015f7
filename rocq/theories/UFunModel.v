(* Model of cc::unique_function<R(X)> (src/clean-core/unique_function.hh). A callable is a value with a call function that
   may change it; the program has variables with callables of its own. The type-erased context points to a block
   that holds a callable, or another unique_function: the constructor template accepts every callable type, so it is
   also chosen for unique_functions that are not const (overload resolution prefers it to the deleted copy
   constructor). _func and _deleter are represented by the type they cast the context to. Allocation succeeds.
   Callables that call or destroy the unique_function they live in are left out. *)
From Coq Require Import NArith Arith List Bool.
From Verif Require Import Base.
Import ListNotations.

Section UFun.
  Context {C X Y : Type}.
  (* calling a callable: its new state and the result; UB for example for null function pointers *)
  Variable call : C -> X -> outcome (C * Y).

  (* unique_function.hh 73-76: _context, the type behind _func and _deleter (false: a callable, true: a unique_function),
     _alloc *)
  Record ufun := mku { uctx : option nat; unested : bool; ualloc : nat }.
  Inductive content := Fun (c : C) | Nested (u : ufun).
  (* a block and the allocator it came from *)
  Definition heap := list (option (nat * content)).
  Record world := mkw { hp : heap; objs : list (option ufun); vars : list (option C) }.
  Definition null : ufun := mku None false 0.
  Definition block (h : heap) (b : nat) : outcome (nat * content) := match nth_error h b with Some (Some x) => Ok x | _ => UB end.

  (* unique_function.hh 78-84, 41: alloc->delete_t<CallableT>(ctx): the destructor, then the storage goes back to its allocator *)
  Fixpoint destroy (fuel : nat) (h : heap) (u : ufun) : outcome heap :=
    match fuel with
    | O => OutOfFuel
    | S fuel =>
        match uctx u with
        | None => Ok h
        | Some b =>
            let! (m, x) := block h b in
            let! _ := defined (Nat.eqb m (ualloc u)) in
            let! h := match x, unested u with
                      | Fun _, false => Ok h
                      | Nested v, true => destroy fuel h v
                      | _, _ => UB
                      end in
            Ok (lset h b None)
        end
    end.
  (* unique_function.hh 46-50, 40 *)
  Fixpoint invoke (fuel : nat) (h : heap) (u : ufun) (x : X) : outcome (heap * Y) :=
    match fuel with
    | O => OutOfFuel
    | S fuel =>
        match uctx u with
        | None => Contract
        | Some b =>
            let! (m, c) := block h b in
            match c, unested u with
            | Fun c, false => let! (c, y) := call c x in Ok (lset h b (Some (m, Fun c)), y)
            | Nested v, true => invoke fuel h v x
            | _, _ => UB
            end
        end
    end.
  Definition fuel_of (h : heap) : nat := S (S (length h)).

  Inductive op :=
  (* a variable of the program with a callable; calling it; its destruction is not observable *)
  | NewVar (c : C) | CallVar (v : nat) (x : X)
  (* unique_function() and unique_function(nullptr) *)
  | New
  (* from a temporary, from std::move(variable), from the name of a variable; with the allocator *)
  | FromTemp (c : C) (m : option nat) | FromMove (v : nat) (m : option nat) | FromVar (v : nat) (m : option nat)
  (* unique_function g(f) for a unique_function f that is not const *)
  | FromFun (k : nat) (m : option nat)
  | MoveNew (j : nat) | MoveAssign (k j : nat) | Destroy (k : nat)
  | Call (k : nat) (x : X) | IsValid (k : nat).
  Inductive res := RUnit | RY (y : Y) | RB (b : bool).

  Definition get (w : world) (k : nat) : outcome ufun := match nth_error (objs w) k with Some (Some u) => Ok u | _ => UB end.
  Definition var (w : world) (v : nat) : outcome C := match nth_error (vars w) v with Some (Some c) => Ok c | _ => UB end.
  (* unique_function.hh 33-44: cc::forward<CallableT>(callable) with the decayed type is an rvalue for every argument, so
     new_t moves it into the block; a null allocator is dereferenced *)
  Definition construct (w : world) (x : content) (m : option nat) : outcome world :=
    match m with
    | None => UB
    | Some m =>
        Ok (mkw (hp w ++ [Some (m, x)])
                (objs w ++ [Some (mku (Some (length (hp w))) (match x with Fun _ => false | Nested _ => true end) m)]) (vars w))
    end.
  (* unique_function.hh 57-60: only the context of the source is cleared *)
  Definition cleared (u : ufun) : ufun := mku None (unested u) (ualloc u).

  Definition step (w : world) (o : op) : outcome (world * res) :=
    match o with
    | NewVar c => Ok (mkw (hp w) (objs w) (vars w ++ [Some c]), RUnit)
    | CallVar v x => let! c := var w v in let! (c, y) := call c x in Ok (mkw (hp w) (objs w) (lset (vars w) v (Some c)), RY y)
    | New => Ok (mkw (hp w) (objs w ++ [Some null]) (vars w), RUnit)
    | FromTemp c m => let! w := construct w (Fun c) m in Ok (w, RUnit)
    | FromMove v m | FromVar v m =>
        let! c := var w v in
        let! w := construct w (Fun c) m in
        Ok (mkw (hp w) (objs w) (lset (vars w) v None), RUnit)
    | FromFun k m =>
        let! u := get w k in
        let! w := construct w (Nested u) m in
        Ok (mkw (hp w) (lset (objs w) k (Some (cleared u))) (vars w), RUnit)
    (* unique_function.hh 57-60 *)
    | MoveNew j => let! u := get w j in Ok (mkw (hp w) (lset (objs w) j (Some (cleared u)) ++ [Some u]) (vars w), RUnit)
    (* unique_function.hh 62-71 *)
    | MoveAssign k j =>
        let! u := get w k in
        let! h := destroy (fuel_of (hp w)) (hp w) u in
        let! r := get w j in
        Ok (mkw h (lset (lset (objs w) k (Some r)) j (Some (cleared r))) (vars w), RUnit)
    (* unique_function.hh 55 *)
    | Destroy k => let! u := get w k in let! h := destroy (fuel_of (hp w)) (hp w) u in Ok (mkw h (lset (objs w) k None) (vars w), RUnit)
    | Call k x => let! u := get w k in let! (h, y) := invoke (fuel_of (hp w)) (hp w) u x in Ok (mkw h (objs w) (vars w), RY y)
    (* unique_function.hh 52-53 *)
    | IsValid k => let! u := get w k in Ok (w, RB (match uctx u with Some _ => true | None => false end))
    end.
  Fixpoint run (w : world) (os : list op) : outcome (world * list res) :=
    match os with
    | [] => Ok (w, [])
    | o :: os => let! (w, r) := step w o in let! (w, rs) := run w os in Ok (w, r :: rs)
    end.
End UFun.
Arguments op C X : clear implicits.
Arguments world C : clear implicits.
Arguments heap C : clear implicits.
Arguments content C : clear implicits.
Arguments res Y : clear implicits.

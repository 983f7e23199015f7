(* Model of cc::poly_unique_ptr with class hierarchies and raw pointers (src/clean-core/poly_unique_ptr.hh): conversions between
   poly_unique_ptr<U> and poly_unique_ptr<T>, release, get and reset with an argument, which UPtrModel.v leaves out.
   Classes are numbers; virt T tells whether the destructor of T is virtual; which conversions compile is in PolySpec.v. Objects are
   numbered in the order of their creation and own no other objects. *)
From Coq Require Import Arith List Bool.
From Verif Require Import Base.
Import ListNotations.

(* a poly_unique_ptr<sty> with _ptr *)
Record var := mkvar { sty : nat; ptr : option nat }.
(* vars: None when the lifetime has ended; heap: the class of the object, None when deleted; raws: the values of raw pointers
   U* that the program holds, with U; dtors: the destructors that have run, of which object and of which class *)
Record state := mk { vars : list (option var); heap : list (option nat); raws : list (nat * option nat); dtors : list (nat * nat) }.
Definition empty_state : state := mk [] [] [] [].

Section Poly.
  Variable (virt : nat -> bool).
  Definition getv (st : state) (v : nat) : outcome var := match nth_error (vars st) v with Some (Some x) => Ok x | _ => UB end.
  Definition setv (st : state) (v : nat) (x : option var) : state := mk (lset (vars st) v x) (heap st) (raws st) (dtors st).
  Definition addv (st : state) (T : nat) : state := mk (vars st ++ [Some (mkvar T None)]) (heap st) (raws st) (dtors st). (* 31-32, 116 *)
  Definition addo (st : state) (D : nat) : state := mk (vars st) (heap st ++ [Some D]) (raws st) (dtors st). (* new D *)
  Definition addr (st : state) (r : nat * option nat) : state := mk (vars st) (heap st) (raws st ++ [r]) (dtors st).
  (* delete p with a p of type T*: only of null or of objects alive, of the class T or with a virtual destructor in T *)
  Definition delete (st : state) (T : nat) (p : option nat) : outcome state :=
    match p with
    | None => Ok st
    | Some o =>
        match nth_error (heap st) o with
        | Some (Some D) => if (D =? T) || virt T then Ok (mk (vars st) (lset (heap st) o None) (raws st) (dtors st ++ [(o, D)])) else UB
        | _ => UB
        end
    end.
  (* 37-41, 52-57: the new pointer is null before its body runs *)
  Definition convert (st : state) (T v : nat) : outcome state :=
    let n := length (vars st) in
    let st := addv st T in
    let! x := getv st v in
    let st := setv st n (Some (mkvar T (ptr x))) in
    Ok (setv st v (Some (mkvar (sty x) None))).
  (* 42-50, 58-66 *)
  Definition assign (st : state) (v u : nat) : outcome state :=
    let! x := getv st v in
    let! st := delete st (sty x) (ptr x) in
    let! y := getv st u in
    let st := setv st v (Some (mkvar (sty x) (ptr y))) in
    Ok (setv st u (Some (mkvar (sty y) None))).
  (* 74-80 *)
  Definition reset (st : state) (v : nat) (p : option nat) : outcome state :=
    let! x := getv st v in
    let! _ := contract (match p, ptr x with Some a, Some b => negb (a =? b) | _, _ => true end) in
    let! st := delete st (sty x) (ptr x) in
    Ok (setv st v (Some (mkvar (sty x) p))).
  (* 68-72 *)
  Definition destroy (st : state) (v : nat) : outcome state :=
    let! x := getv st v in
    let! st := delete st (sty x) (ptr x) in
    Ok (setv st v None).
  (* 84-89 *)
  Definition release (st : state) (v : nat) : outcome state :=
    let! x := getv st v in Ok (addr (setv st v (Some (mkvar (sty x) None))) (sty x, ptr x)).
  (* 125-131 *)
  Definition make (st : state) (T : nat) : outcome state :=
    reset (addo (addv st T) T) (length (vars st)) (Some (length (heap st))).

  Inductive op :=
  | New (T : nat) | Make (T : nat) | Convert (T v : nat) | Assign (v u : nat) | Reset (v : nat) | ResetTo (v k : nat)
  | Release (v : nat) | Get (v : nat) | NewRaw (D : nat) | Destroy (v : nat) | NotNull (v : nat).
  Definition unit_ (o : outcome state) : outcome (state * bool) := let! st := o in Ok (st, true).
  Definition step (st : state) (o : op) : outcome (state * bool) :=
    match o with
    | New T => Ok (addv st T, true)
    | Make T => unit_ (make st T)
    | Convert T v => unit_ (convert st T v)
    | Assign v u => unit_ (assign st v u)
    | Reset v => unit_ (reset st v None)
    | ResetTo v k => unit_ (let! r := aget (raws st) k in reset st v (snd r))
    | Release v => unit_ (release st v)
    | Get v => unit_ (let! x := getv st v in Ok (addr st (sty x, ptr x)))                          (* 82 *)
    | NewRaw D => Ok (addr (addo st D) (D, Some (length (heap st))), true)
    | Destroy v => unit_ (destroy st v)
    | NotNull v => let! x := getv st v in Ok (st, match ptr x with Some _ => true | None => false end) (* 109-110 *)
    end.
  Fixpoint run (st : state) (os : list op) : outcome (state * list bool) :=
    match os with
    | [] => Ok (st, [])
    | o :: os => let! (st, r) := step st o in let! (st, rs) := run st os in Ok (st, r :: rs)
    end.
End Poly.

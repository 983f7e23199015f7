(* References to callables, streams and ranges.
   function_ref.hh:24-28 (operator()), 30-58 (constructor), 97-100 (default, copies); stream_ref.hh:29-66 (stream_ref), 81-96
   (string_stream_ref: the same operations and a copy of the reference), 110-141 (make_stream_ref); range_ref.hh:55-150.
   Simplifications: T is copied without effects; sinks append what they are given; callables are lambdas that count their calls and
   append to a sink they capture by reference, plain functions that append to a static sequence, and the closures of
   make_stream_ref; a range is the contents of a sink (iteration with dereferencing is not modelled); a container that grows while
   it is iterated over is undefined behaviour; objects are named by the order of their creation and die once. *)
From Coq Require Import NArith Arith List Bool.
From Verif Require Import Base.
Import ListNotations.

Section M.
  Context {A : Type}.

  Inductive ent :=
  | Sink (sp : bool) (l : list A)           (* sp: operator<< takes a span, otherwise an element *)
  | Fn (sp : bool) (t : nat) (c : N)        (* [&t, c](span or element) mutable { ++c; append to t } *)
  | Each (t : nat)                          (* stream_ref.hh:120-123 *)
  | ShiftAll (t : nat)                      (* stream_ref.hh:126 *)
  | ShiftEach (t : nat)                     (* stream_ref.hh:129-132 *)
  | Nop.                                    (* stream_ref.hh:35 *)
  (* storage of function_ref: function_ref.hh:103-112 *)
  Inductive target := TObj (k : nat) | TFun (g : nat).
  Definition fref := option target.
  Record world := mkw { ents : list (option ent); refs : list fref; ranges : list (option nat); statics : list (list A) }.
  Definition set_ents (w : world) es := mkw es (refs w) (ranges w) (statics w).

  Definition ent_at (w : world) (k : nat) : outcome ent :=
    match nth_error (ents w) k with Some (Some e) => Ok e | _ => UB end.
  Definition set_ent (w : world) (k : nat) (e : ent) : world := set_ents w (lset (ents w) k (Some e)).
  Definition append (w : world) (t : nat) (xs : list A) : outcome world :=
    let! e := ent_at w t in
    match e with Sink sp l => Ok (set_ent w t (Sink sp (l ++ xs))) | _ => UB end.
  Fixpoint each (f : world -> A -> outcome world) (w : world) (xs : list A) : outcome world :=
    match xs with [] => Ok w | x :: xs => let! w := f w x in each f w xs end.
  (* the lambda of an element *)
  Definition call_elem (k : nat) (w : world) (x : A) : outcome world :=
    let! e := ent_at w k in
    match e with Fn false t c => append (set_ent w k (Fn false t (c + 1))) t [x] | _ => UB end.
  Definition call_span (k : nat) (w : world) (xs : list A) : outcome world :=
    let! e := ent_at w k in
    match e with
    | Fn true t c => append (set_ent w k (Fn true t (c + 1))) t xs
    | Each t => each (call_elem t) w xs
    | ShiftAll t => append w t xs
    | ShiftEach t => each (fun w x => append w t [x]) w xs
    | Nop => Ok w
    | _ => UB
    end.
  Definition call_static (g : nat) (w : world) (xs : list A) : outcome world :=
    let! l := aget (statics w) g in
    Ok (mkw (ents w) (refs w) (ranges w) (lset (statics w) g (l ++ xs))).
  (* function_ref.hh:24-28 *)
  Definition invoke (f : fref) (w : world) (xs : list A) : outcome world :=
    match f with
    | None => Contract
    | Some (TFun g) => call_static g w xs
    | Some (TObj k) => call_span k w xs
    end.
  (* range_ref.hh:127: for (auto&& v : range) f(v) *)
  Fixpoint visit (f : world -> A -> outcome world) (k : nat) (n : nat) (i : nat) (todo : nat) (w : world) : outcome world :=
    match todo with
    | O => Ok w
    | S todo =>
        let! e := ent_at w k in
        match e with
        | Sink _ l => let! _ := defined (length l =? n)%nat in
                      let! x := aget l i in
                      let! w := f w x in
                      visit f k n (S i) todo w
        | _ => UB
        end
    end.
  Definition for_each (f : world -> A -> outcome world) (q : option nat) (w : world) : outcome world :=
    match q with
    | None => Ok w                                                 (* range_ref.hh:61 *)
    | Some k => let! e := ent_at w k in
                match e with Sink _ l => visit f k (length l) 0 (length l) w | _ => UB end
    end.

  Inductive op :=
  | NewSink (sp : bool) | NewFn (sp : bool) (t : nat) | Die (k : nat)
  | RefTo (k : nat)                   (* stream_ref<T>(lambda): stream_ref.hh:39-43 *)
  | RefFun (g : option nat)           (* stream_ref<T>(function pointer) *)
  | DefRef                            (* function_ref(): function_ref.hh:97 *)
  | DefStream                         (* stream_ref(): stream_ref.hh:33-36 *)
  | Make (k : nat)                    (* auto a = make_stream_ref<T>(k); stream_ref<T> s = a *)
  | MakeTemp (k : nat)                (* stream_ref<T> s = make_stream_ref<T>(k) *)
  | Copy (r : nat) | Assign (r r' : nat)
  | Put (r : nat) (x : A) | PutAll (r : nat) (xs : list A)
  | RangeOf (k : nat) | RangeEmpty
  | Visit (q k : nat) | VisitFun (q : nat) (g : option nat)
  | Contents (k : nat) | Calls (k : nat) | Static (g : nat).
  Inductive res := RUnit | RL (l : list A) | RN (n : N).

  Definition add_ent (w : world) (e : option ent) : world := set_ents w (ents w ++ [e]).
  Definition add_ref (w : world) (f : fref) : world := mkw (ents w) (refs w ++ [f]) (ranges w) (statics w).
  (* function_ref.hh:33-38 *)
  Definition fun_ref (g : option nat) : outcome nat := match g with Some g => Ok g | None => Contract end.
  (* stream_ref.hh:110-141; temp: the closure dies at the end of the full expression *)
  Definition make (w : world) (k : nat) (temp : bool) : outcome world :=
    let! e := ent_at w k in
    let closure c := Ok (add_ref (add_ent w (if temp then None else Some c)) (Some (TObj (length (ents w))))) in
    match e with
    | Fn true _ _ | Each _ | ShiftAll _ | ShiftEach _ | Nop => Ok (add_ref w (Some (TObj k)))
    | Fn false _ _ => closure (Each k)
    | Sink true _ => closure (ShiftAll k)
    | Sink false _ => closure (ShiftEach k)
    end.

  Definition step (w : world) (o : op) : outcome (world * res) :=
    let ret (m : outcome world) := let! w := m in Ok (w, RUnit) in
    match o with
    | NewSink sp => ret (Ok (add_ent w (Some (Sink sp []))))
    | NewFn sp t => ret (let! e := ent_at w t in
                         match e with Sink _ _ => Ok (add_ent w (Some (Fn sp t 0))) | _ => UB end)
    | Die k => ret (let! _ := ent_at w k in Ok (set_ents w (lset (ents w) k None)))
    | RefTo k => ret (let! e := ent_at w k in
                      match e with Sink _ _ | Fn false _ _ => UB | _ => Ok (add_ref w (Some (TObj k))) end)
    | RefFun g => ret (let! g := fun_ref g in Ok (add_ref w (Some (TFun g))))
    | DefRef => ret (Ok (add_ref w None))
    (* the lambda is a temporary of the assignment; only its address is kept *)
    | DefStream => ret (Ok (add_ref (add_ent w None) (Some (TObj (length (ents w))))))
    | Make k => ret (make w k false)
    | MakeTemp k => ret (make w k true)
    | Copy r => ret (let! f := aget (refs w) r in Ok (add_ref w f))
    | Assign r r' => ret (let! _ := aget (refs w) r in
                          let! f := aget (refs w) r' in
                          Ok (mkw (ents w) (lset (refs w) r f) (ranges w) (statics w)))
    | Put r x => ret (let! f := aget (refs w) r in invoke f w [x])
    | PutAll r xs => ret (let! f := aget (refs w) r in invoke f w xs)
    | RangeOf k => ret (let! e := ent_at w k in
                        match e with
                        | Sink _ _ => Ok (mkw (ents w) (refs w) (ranges w ++ [Some k]) (statics w))
                        | _ => UB
                        end)
    | RangeEmpty => ret (Ok (mkw (ents w) (refs w) (ranges w ++ [None]) (statics w)))
    | Visit q k => ret (let! _ := ent_at w k in
                        let! v := aget (ranges w) q in
                        for_each (call_elem k) v w)
    | VisitFun q g => ret (let! v := aget (ranges w) q in
                           let! g := fun_ref g in
                           for_each (fun w x => call_static g w [x]) v w)
    | Contents k => let! e := ent_at w k in match e with Sink _ l => Ok (w, RL l) | _ => UB end
    | Calls k => let! e := ent_at w k in match e with Fn _ _ c => Ok (w, RN c) | _ => UB end
    | Static g => let! l := aget (statics w) g in Ok (w, RL l)
    end.
  Fixpoint run (w : world) (os : list op) : outcome (world * list res) :=
    match os with
    | [] => Ok (w, [])
    | o :: os => let! (w, r) := step w o in let! (w, rs) := run w os in Ok (w, r :: rs)
    end.
End M.
Arguments ent : clear implicits. Arguments world : clear implicits. Arguments op : clear implicits. Arguments res : clear implicits.

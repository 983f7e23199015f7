(* Model of cc::filewatch on unix with its threads (src/clean-core/experimental/filewatch.cc): one monitor, its thread, the one
   thread that uses the filewatches of the monitor, and the system, which changes files and may delete the directory at any
   point. Every access to shared state is a step of its own, in any order; accesses are sequentially consistent. Names are
   numbers (paths: WatchModel.v); monitors share nothing but the list of monitors, which only the using thread touches. *)
From Coq Require Import Arith List Bool.
From Verif Require Import Base.
Import ListNotations.

(* events of inotify: only the first kind has a name *)
Inductive event := Named (n : nat) | Ignored | Overflow.
Definition same (a b : event) : bool :=
  match a, b with Named n, Named m => Nat.eqb n m | Ignored, Ignored | Overflow, Overflow => true | _, _ => false end.
Definition newest (q : list event) (e : event) : bool := match rev q with x :: _ => same x e | [] => false end.
(* the queue of the system: an event like the newest one is dropped; a full queue (max_queued_events) drops events and tells so *)
Definition room (cap : nat) (q : list event) (e : event) : bool := newest q e || (length q <? cap).
Definition push (cap : nat) (q : list event) (e : event) : list event :=
  if newest q e then q
  else if length q <? cap then q ++ [e]
  else if existsb (same Overflow) q then q else q ++ [Overflow].

(* the thread of the monitor (144-242) *)
Inductive tpc :=
| TCheck                                   (* 161 *)
| TRead                                    (* 165: read blocks while there are no events *)
| THandle (es : list event)                (* 170-190: the rest of the buffer; takes the lock (179) *)
| TInside (n : nat) (es : list event)      (* 180-185: goes over the files *)
| TLeave (es : list event)                 (* 186: gives the lock back *)
| TDone.                                   (* 241 *)
(* the thread that uses filewatches *)
Inductive mpc :=
| MIdle
| MAdd (n f : nat) | MPush (n f : nat) | MPushed                          (* 296-304 *)
| MRemove (f : nat) | MErase (f : nat) | MErased (f : nat)                (* 312-323 *)
| MEmpty (f : nat)                                                        (* 354-355 *)
| MStop (f : nat) | MUnwatch (f : nat) | MJoin (f : nat)                  (* 283-293 *)
| MFree (f : nat).                                                        (* the flag is gone: 69, std::shared_ptr *)
Inductive who := Using | Watching.

(* ver: how often files changed; seen: the version of its file a watch was last used to load; must: the watch was made or
   cleared since; lost, twice, deleted: a change was not queued, a name was watched twice, the directory was deleted *)
Record st := mks {
  queue : list event; wd : bool; files : list (nat * nat); flags : list (option bool); names : list nat;
  lk : option who; alive : bool; tp : tpc; mp : mpc; gone : bool;
  ver : nat -> nat; seen : nat -> nat; must : nat -> bool; lost : bool; twice : bool; deleted : bool }.

Definition upd {A} (g : nat -> A) (x : nat) (a : A) : nat -> A := fun y => if Nat.eqb y x then a else g y.
Definition set_sys s q w l d := mks q w (files s) (flags s) (names s) (lk s) (alive s) (tp s) (mp s) (gone s) (ver s) (seen s) (must s) l (twice s) d.
Definition set_thr s q l t := mks q (wd s) (files s) (flags s) (names s) l (alive s) t (mp s) (gone s) (ver s) (seen s) (must s) (lost s) (twice s) (deleted s).
Definition set_flags s fl := mks (queue s) (wd s) (files s) fl (names s) (lk s) (alive s) (tp s) (mp s) (gone s) (ver s) (seen s) (must s) (lost s) (twice s) (deleted s).
Definition set_main s fs l m := mks (queue s) (wd s) fs (flags s) (names s) l (alive s) (tp s) m (gone s) (ver s) (seen s) (must s) (lost s) (twice s) (deleted s).

(* 180-185: the first file of this name; its flag must exist *)
Fixpoint first (fs : list (nat * nat)) (n : nat) : option nat :=
  match fs with [] => None | (m, f) :: fs => if Nat.eqb n m then Some f else first fs n end.
Definition live (fl : list (option bool)) (f : nat) : bool := match nth_error fl f with Some (Some _) => true | _ => false end.
Definition mark (s : st) (n : nat) : outcome (list (option bool)) :=
  match first (files s) n with
  | None => Ok (flags s)
  | Some f => if live (flags s) f then Ok (lset (flags s) f (Some true)) else UB
  end.
(* 314-319: the entry of the flag *)
Fixpoint erase (fs : list (nat * nat)) (f : nat) : list (nat * nat) :=
  match fs with [] => [] | (m, g) :: fs => if Nat.eqb g f then fs else (m, g) :: erase fs f end.
Definition has (fs : list (nat * nat)) (f : nat) : bool := existsb (fun e => Nat.eqb (snd e) f) fs.

(* one step of the thread; reads return any number of events, at least one. None: it waits, or is over *)
Definition thr (s : st) (k : nat) : option (outcome st) :=
  match tp s with
  | TCheck => Some (Ok (set_thr s (queue s) (lk s) (if alive s then TRead else TDone)))
  | TRead =>
      match queue s with
      | [] => None
      | e :: q => Some (Ok (set_thr s (skipn k q) (lk s) (THandle (e :: firstn k q))))
      end
  | THandle [] => Some (Ok (set_thr s (queue s) (lk s) TCheck))
  | THandle (Named n :: es) => match lk s with Some _ => None | None => Some (Ok (set_thr s (queue s) (Some Watching) (TInside n es))) end
  | THandle (_ :: es) => Some (Ok (set_thr s (queue s) (lk s) (THandle es)))
  | TInside n es => Some (let! fl := mark s n in Ok (set_flags (set_thr s (queue s) (lk s) (TLeave es)) fl))
  | TLeave es => Some (Ok (set_thr s (queue s) None (THandle es)))
  | TDone => None
  end.

(* one step of the using thread. None: it waits, or runs no operation of the monitor *)
Definition main (cap : nat) (s : st) : option (outcome st) :=
  match mp s with
  | MIdle => None
  | MAdd n f => match lk s with Some _ => None | None => Some (Ok (set_main s (files s) (Some Using) (MPush n f))) end
  | MPush n f => Some (Ok (set_main s (files s ++ [(n, f)]) (lk s) MPushed))
  | MPushed => Some (Ok (set_main s (files s) None MIdle))
  | MRemove f =>
      if has (files s) f then match lk s with Some _ => None | None => Some (Ok (set_main s (files s) (Some Using) (MErase f))) end
      else Some (Ok (set_main s (files s) (lk s) (MFree f)))
  | MErase f => Some (Ok (set_main s (erase (files s) f) (lk s) (MErased f)))
  | MErased f => Some (Ok (set_main s (files s) None (MEmpty f)))
  | MEmpty f => Some (Ok (set_main s (files s) (lk s) (match files s with [] => MStop f | _ => MFree f end)))
  | MStop f => Some (Ok (mks (queue s) (wd s) (files s) (flags s) (names s) (lk s) false (tp s) (MUnwatch f) (gone s) (ver s) (seen s) (must s) (lost s) (twice s) (deleted s)))
  (* inotify_rm_watch: the system queues a last event if the watch exists; otherwise it fails, which is printed *)
  | MUnwatch f =>
      let s := set_main s (files s) (lk s) (MJoin f) in
      Some (Ok (if wd s then set_sys s (push cap (queue s) Ignored) false (lost s) (deleted s) else s))
  | MJoin f =>
      match tp s with
      | TDone => Some (Ok (mks (queue s) (wd s) (files s) (flags s) (names s) (lk s) (alive s) (tp s) (MFree f) true (ver s) (seen s) (must s) (lost s) (twice s) (deleted s)))
      | _ => None
      end
  | MFree f => Some (Ok (set_flags (set_main s (files s) (lk s) MIdle) (lset (flags s) f None)))
  end.

Inductive act :=
| Create (n : nat) | Destroy (f : nat) | Clear (f : nat) | Load (f : nat)   (* what the using thread does next *)
| Main | Thr (k : nat)
| Change (n : nat) | Delete.
Definition idle (s : st) : bool := match mp s with MIdle => true | _ => false end.
Definition name (s : st) (f : nat) : nat := nth f (names s) 0.
Definition step (cap : nat) (s : st) (a : act) : option (outcome st) :=
  match a with
  (* 363-418: the flag is made, then added to the monitor *)
  | Create n =>
      if idle s && negb (gone s) then
        let f := length (flags s) in
        Some (Ok (mks (queue s) (wd s) (files s) (flags s ++ [Some false]) (names s ++ [n]) (lk s) (alive s) (tp s) (MAdd n f) (gone s)
                      (ver s) (upd (seen s) f 0) (upd (must s) f true) (lost s) (match first (files s) n with Some _ => true | None => twice s end) (deleted s)))
      else None
  | Destroy f => if idle s && live (flags s) f then Some (Ok (set_main s (files s) (lk s) (MRemove f))) else None
  (* 428-432 *)
  | Clear f =>
      if idle s && live (flags s) f then
        Some (Ok (mks (queue s) (wd s) (files s) (lset (flags s) f (Some false)) (names s) (lk s) (alive s) (tp s) (mp s) (gone s)
                      (ver s) (seen s) (upd (must s) f true) (lost s) (twice s) (deleted s)))
      else None
  (* the user reads the file *)
  | Load f =>
      if idle s && live (flags s) f then
        Some (Ok (mks (queue s) (wd s) (files s) (flags s) (names s) (lk s) (alive s) (tp s) (mp s) (gone s)
                      (ver s) (upd (seen s) f (ver s (name s f))) (upd (must s) f false) (lost s) (twice s) (deleted s)))
      else None
  | Main => main cap s
  | Thr k => thr s k
  | Change n =>
      let s := mks (queue s) (wd s) (files s) (flags s) (names s) (lk s) (alive s) (tp s) (mp s) (gone s)
                   (upd (ver s) n (S (ver s n))) (seen s) (must s) (lost s) (twice s) (deleted s) in
      Some (Ok (if wd s then set_sys s (push cap (queue s) (Named n)) true (lost s || negb (room cap (queue s) (Named n))) (deleted s)
                else set_sys s (queue s) false true (deleted s)))
  (* the system drops the watch of a deleted directory with a last event *)
  | Delete => Some (Ok (if wd s then set_sys s (push cap (queue s) Ignored) false (lost s) true else s))
  end.
Fixpoint run (cap : nat) (s : st) (l : list act) : option (outcome st) :=
  match l with
  | [] => Some (Ok s)
  | a :: l => match step cap s a with Some (Ok s) => run cap s l | x => x end
  end.
(* 363-418 for a directory without monitor: the thread runs, the first file is added next *)
Definition init (n : nat) : st :=
  mks [] true [] [Some false] [n] None true TCheck (MAdd n 0) false (fun _ => 0) (fun _ => 0) (fun _ => true) false false false.

(* has_changed (426) *)
Definition has_changed (s : st) (f : nat) : bool := match nth_error (flags s) f with Some (Some b) => b | _ => false end.
(* two threads are about to touch the same memory, one of them to write it, and not both atomically: the vector of files and
   the memory of a flag *)
Definition race (s : st) : bool :=
  match tp s with
  | TInside n _ =>
      match mp s with
      | MPush _ _ | MErase _ => true
      | MFree f => match first (files s) n with Some g => Nat.eqb g f | None => false end
      | _ => false
      end
  | _ => false
  end.

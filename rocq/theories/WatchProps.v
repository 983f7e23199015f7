(* C120: filewatches report the changes of their files. *)
From Coq Require Import String Ascii.
From Coq Require Import Arith List Bool.
From Verif Require Import Base WatchModel WatchSpec WatchProofs.
Import ListNotations.
Local Notation "'t' s" := (list_ascii_of_string s) (at level 0, s at level 0).

(* Every history of filewatches: watches are made, moved and destroyed, and files change in between. Missing: a second watch of
   a file by the same path, and files replaced by renaming (both refuted below), changes while operations run, and the
   replacement of directories. Without valid watches nothing is left behind. *)
Theorem C120_history_partial : forall D deqb (resolve : text -> option D) os,
  match irun deqb resolve [] os with
  | None => True
  | Some None => run deqb resolve (mkw [] [] []) os = Contract
  | Some (Some (s, rs)) =>
      exists w, run deqb resolve (mkw [] [] []) os = Ok (w, rs) /\
        ((forall k x, nth_error s k <> Some (Some (Some x))) -> monitors w = [] /\ Forall (fun f => f = None) (flags w))
  end.
Proof.
  intros D deqb resolve os. pose proof (run_ok deqb resolve os _ _ (inv_empty resolve)) as R. destruct (irun deqb resolve [] os) as [[[s rs]|]|]; [|exact R|exact Logic.I].
  destruct R as (w & E & Iv). exists w. split; [exact E|]. exact (inv_none resolve w s Iv).
Qed.
(* directory 1 has two paths, directory 2 has one *)
Definition dirs (p : text) : option nat :=
  if teqb p (t "a/") then Some 1 else if teqb p (t "./a/") then Some 1 else if teqb p (t "./") then Some 2 else None.
Definition story : list (op nat) :=
  [Create (t "a/x"); Create (t "./a/x"); Create (t "x"); Create (t "a/y"); Event 1 (t "x") Written;
   HasChanged 0; HasChanged 1; HasChanged 2; HasChanged 3; SetUnchanged 0; HasChanged 0; HasChanged 1;
   MoveNew 1; HasChanged 1; HasChanged 4; IsValid 1; MoveAssign 2 4; HasChanged 2; Destroy 0; Event 1 (t "y") Created; HasChanged 3;
   MoveAssign 3 3; IsValid 3; HasChanged 3; Destroy 2; Event 1 (t "x") Written].
Example C120_history_ex :
  (exists s, irun Nat.eqb dirs [] story =
    Some (Some (s, [RUnit; RUnit; RUnit; RUnit; RUnit; RB true; RB true; RB false; RB false; RUnit; RB false; RB true;
                    RUnit; RB false; RB true; RB false; RUnit; RB true; RUnit; RUnit; RB true; RUnit; RB false; RB false; RUnit; RUnit]))) /\
  run Nat.eqb dirs (mkw [] [] []) [Create (t "a/x"); Create (t "b/x")] = Contract /\
  run Nat.eqb dirs (mkw [] [] []) [New; SetUnchanged 0] = Contract.
Proof. split; [eexists; vm_compute; reflexivity|]. split; vm_compute; reflexivity. Qed.

(* paths are split at their last slash *)
Theorem C120_location : forall p dir name, location p = (dir, name) -> denotes p dir name.
Proof. exact location_ok. Qed.
Example C120_location_ex :
  location (t "a/b/c.txt") = (t "a/b/", t "c.txt") /\ location (t "c.txt") = (t "./", t "c.txt") /\ location (t "a/b/") = (t "a/b/", []) /\
  denotes (t "/x") (t "/") (t "x").
Proof. repeat (split; [vm_compute; reflexivity|]). apply location_ok. vm_compute. reflexivity. Qed.

Lemma pivot_slash : forall d name, ~ In slash name -> pivot (d ++ slash :: name) = (d ++ [slash], name).
Proof.
  intros d name N. assert (pivot name = ([], name)) as P.
  { clear d. induction name as [|c r IH]; [reflexivity|]. cbn. rewrite IH by (intros I; apply N; right; exact I). destruct (Ascii.eqb_spec c slash) as [->|]; [|reflexivity]. destruct N. left. reflexivity. }
  induction d as [|c d IH]; cbn [app pivot]; [rewrite P, Ascii.eqb_refl; reflexivity|]. rewrite IH. destruct d; reflexivity.
Qed.
Lemma location_slash : forall d name, ~ In slash name -> location (d ++ slash :: name) = (d ++ [slash], name).
Proof. intros d name N. unfold location. rewrite pivot_slash by exact N. destruct d; reflexivity. Qed.
Lemma plain_noslash : forall name, plain name = true -> ~ In slash name.
Proof. intros name H I. unfold plain in H. destruct name; [destruct I|]. rewrite forallb_forall in H. specialize (H _ I). discriminate. Qed.

(* of two watches made with the same path only the first one sees changes, until it is destroyed *)
Theorem C120_twice_refuted : forall D deqb (resolve : text -> option D) d x name,
  (forall a, deqb a a = true) -> plain name = true -> resolve (d ++ [slash]) = Some x ->
  let p := d ++ slash :: name in
  exists w, run deqb resolve (mkw [] [] [])
      [Create p; Create p; Event x name Written; HasChanged 0; HasChanged 1; Destroy 0; Event x name Written; HasChanged 1]
    = Ok (w, [RUnit; RUnit; RUnit; RB true; RB false; RUnit; RUnit; RB true]).
Proof.
  intros D deqb resolve d x name Dr Pl Rs p. subst p. pose proof (plain_noslash _ Pl) as N.
  pose proof (location_plain _ Pl) as Ls. destruct (location name) as [q n] eqn:Ln. cbn in Ls. subst n.
  destruct name as [|c r] eqn:En; [discriminate|]. rewrite <- En in *. clear En.
  eexists. cbn [run step]. rewrite location_slash by exact N. cbn [add monitors flags watches length app bind]. rewrite Rs. cbn [bind monitors flags watches length app].
  cbn [add mpath mdir files app]. rewrite teqb_refl. cbn [bind monitors flags watches length app].
  cbn [notify mdir]. rewrite Dr, Ln. destruct name as [|c' r']; [discriminate|]. cbn [snd mark files]. rewrite teqb_refl. cbn. rewrite Dr. rewrite Ln. cbn. rewrite teqb_refl. cbn. reflexivity.
Qed.
Example C120_twice_ex : dirs (t "a" ++ [slash]) = Some 1 /\ plain (t "x") = true.
Proof. split; vm_compute; reflexivity. Qed.

(* the usual way of replacing files, renaming a new file to the name of the old one, is never seen *)
Theorem C120_rename_refuted : forall D deqb (resolve : text -> option D) d x name,
  plain name = true -> resolve (d ++ [slash]) = Some x ->
  exists w, run deqb resolve (mkw [] [] []) [Create (d ++ slash :: name); Event x name Renamed; HasChanged 0] = Ok (w, [RUnit; RUnit; RB false]).
Proof.
  intros D deqb resolve d x name Pl Rs. pose proof (plain_noslash _ Pl) as N. eexists. cbn [run step]. rewrite location_slash by exact N. cbn [add monitors flags watches length app bind].
  rewrite Rs. cbn. reflexivity.
Qed.
Example C120_rename_ex : exists w, run Nat.eqb dirs (mkw [] [] []) [Create (t "a/x"); Event 1 (t "x") Renamed; HasChanged 0; Event 1 (t "x") Written; HasChanged 0]
  = Ok (w, [RUnit; RUnit; RB false; RUnit; RB true]).
Proof. eexists. vm_compute. reflexivity. Qed.

Print Assumptions C120_history_partial.
Print Assumptions C120_location.
Print Assumptions C120_twice_refuted.
Print Assumptions C120_rename_refuted.

(* C31 - C33, C79, C80: sbo_string *)
From Coq Require Import NArith List Bool Arith Lia.
From Verif Require Import Base SboModel SboSpec SboProofs.
Import ListNotations.
Open Scope nat_scope.

Definition abc : list N := [97; 98; 99]%N.
Definition long : list N := map N.of_nat (seq 65 20).

(* ---- C31 ---- *)
(* For every small capacity and every history over any number of strings (constructors, copies, moves, assignments, all
   modifying operations): whenever the ideal characters allow the history, it runs without error, gives the ideal results,
   and every surviving string shows its ideal characters, has room for them, and where a terminator is promised it is there.
   Partial: the terminator is not promised after remove_prefix / remove_suffix (refuted below), a moved-from string is only
   cleared, assigned or destroyed, self-move is excluded, sizes stay below 2^60. *)
Theorem C31_history_partial : forall sc os i rs, (7 <= sc < 2 ^ 60)%N -> iwrun [] os = Some (i, rs) ->
  exists w, wrun sc [] os = Ok (w, rs) /\ Forall2 (agrees sc) w i.
Proof.
  intros sc os i rs Hsc E. destruct (wrun_rep sc Hsc os [] [] i rs ltac:(constructor) E) as (w & W & R). exists w. split; auto.
  apply wrep_agrees; auto.
Qed.
Definition sdemo : list wop :=
  [NewFrom abc; On 0 (Append (abc ++ abc ++ abc)); CopyNew 0; On 0 (PushBack 33); On 0 (PushBack 34); On 0 (PushBack 35);
   On 0 (PushBack 36); On 0 (AppendOwn 2 3); MoveNew 0; On 0 Clear; On 0 (PadStart 20 32); On 1 (ReplaceAll [98; 99] [120; 121; 122]);
   On 0 (SetAt 3 97); On 0 (Trim (fun c => (c =? 32)%N)); On 2 (Replace 1 17 [48]); On 2 ShrinkToFit; CopyAssign 1 2; On 1 Capitalize;
   NewReplacedAll 2 [97] []; On 1 Size; On 1 Back; NewFrom (abc ++ long); On 4 (RemovePrefix 2); Destroy 0]%N.
Example C31_history_ex : exists i rs, iwrun [] sdemo = Some (i, rs) /\
  firstn 4 i = [Dead; Val [65; 48; 98]%N true; Val [97; 48; 98]%N true; Val [48; 98]%N true] /\ In (RC 98) rs /\
  exists w, wrun 15 [] sdemo = Ok (w, rs).
Proof.
  eexists _, _. split; [vm_compute; reflexivity|]. split; [reflexivity|]. split; [cbn; auto 30|]. eexists. vm_compute. reflexivity.
Qed.

Lemma chars_inv : forall f l, chars f = Ok l -> f = map Some l.
Proof.
  induction f as [|[c|] f IH]; intros l C; cbn in C; try discriminate; [now injection C as <-|].
  destruct (chars f) eqn:E; cbn in C; try discriminate. injection C as <-. cbn. f_equal. auto.
Qed.
(* what the terminator is for: strlen(c_str()) is the size, if there is no zero inside *)
Theorem C31_c_str_partial : forall sc s l, shows sc s l true -> ~ In 0%N l -> c_strlen s = Ok (len l).
Proof.
  intros sc s l (C & S & _ & T) Z. destruct (T eq_refl) as (b & Hb & N0). unfold c_strlen. rewrite Hb. cbn [bind].
  unfold contents in C. rewrite Hb in C. cbn [bind] in C. rewrite S in C. unfold bread in C.
  destruct (0 + len l <=? N.of_nat (length b))%N eqn:G; [|discriminate]. cbn [bind skipn N.to_nat] in C.
  replace (N.to_nat (len l)) with (length l) in C by (unfold len; lia).
  assert (E : firstn (length l) b = map Some l).
  { now apply chars_inv. }
  assert (E2 : exists q, b = map Some l ++ Some 0%N :: q).
  { apply nth_error_split in N0. destruct N0 as (p & q & Eb & Lp). exists q. rewrite Eb. f_equal.
    rewrite Eb in E. rewrite <- E. rewrite firstn_at; auto. }
  destruct E2 as (q & ->). clear - Z.
  assert (K : forall l p fuel, ~ In 0%N l -> length l < fuel -> strlen_from fuel (p ++ map Some l ++ Some 0%N :: q) (N.of_nat (length p)) = Ok (N.of_nat (length p) + len l)%N).
  { clear. induction l as [|c l IH]; intros p fuel Z F; destruct fuel; try lia; cbn [strlen_from map app].
    - rewrite bget_mid by auto. cbn. f_equal. lia.
    - rewrite bget_mid by auto. cbn [bind]. destruct (N.eqb_spec c 0) as [->|]; [destruct Z; now left|].
      replace (p ++ Some c :: map Some l ++ Some 0%N :: q) with ((p ++ [Some c]) ++ map Some l ++ Some 0%N :: q) by (rewrite <- app_assoc; reflexivity).
      replace (N.of_nat (length p) + 1)%N with (N.of_nat (length (p ++ [Some c]))) by (rewrite app_length; cbn; lia).
      rewrite IH. { rewrite app_length. unfold len. cbn [length]. f_equal. lia. } { intros I. apply Z. now right. } { cbn in F. lia. } }
  specialize (K l [] (S (length (map Some l ++ Some 0%N :: q))) Z). cbn [app length N.of_nat] in K. rewrite K; [f_equal; lia|].
  rewrite app_length, map_length. lia.
Qed.
Example C31_c_str_ex : exists w s, wrun 15 [] [NewFrom abc; On 0 (Append long)] = Ok (w, [RUnit; RUnit]) /\ nth_error w 0 = Some (Some s) /\
  c_strlen s = Ok 23%N.
Proof. do 2 eexists. split; [vm_compute; reflexivity|]. split; [reflexivity|]. vm_compute. reflexivity. Qed.

(* remove_suffix and remove_prefix leave the byte behind the string as it was: c_str() does not end at size() *)
Theorem C31_nul_refuted : forall o, In o [RemoveSuffix 1; RemovePrefix 1; RemoveSuffixStr [99]; RemovePrefixStr [97]]%N ->
  exists w rs s, wrun 15 [] [NewFrom abc; On 0 o] = Ok (w, rs) /\ nth_error w 0 = Some (Some s) /\
    ssz s = 2%N /\ c_strlen s = Ok 3%N.
Proof.
  cbn [In]. intros o [<-|[<-|[<-|[<-|[]]]]]; do 3 eexists; (split; [vm_compute; reflexivity|]); (split; [reflexivity|]); split; vm_compute; reflexivity.
Qed.

(* ---- C32 ---- *)
Lemma iwrun_app : forall a b i, iwrun i (a ++ b) = match iwrun i a with Some (i', rs) => match iwrun i' b with Some (i'', rs') => Some (i'', rs ++ rs') | None => None end | None => None end.
Proof.
  induction a as [|o a IH]; intros b i; cbn [app iwrun].
  - destruct (iwrun i b) as [[]|]; reflexivity.
  - destruct (iwstep i o) as [[i1 r]|]; auto. rewrite IH. destruct (iwrun i1 a) as [[i2 rs]|]; auto. destruct (iwrun i2 b) as [[]|]; auto.
Qed.
Lemma iset_nth : forall i k x, k < length i -> nth_error (iset i k x) k = Some x.
Proof. induction i; intros [|k] x H; cbn in *; try lia; auto. apply IHi. lia. Qed.
(* For every reachable string and every view of n of its characters from o on, s += view appends the old characters. *)
Theorem C32_append_own : forall sc os i rs k l t o n, (7 <= sc < 2 ^ 60)%N -> iwrun [] os = Some (i, rs) -> nth_error i k = Some (Val l t) ->
  (o + n <= len l)%N -> (len l + n < 2 ^ 60)%N ->
  exists w s, wrun sc [] (os ++ [On k (AppendOwn o n)]) = Ok (w, rs ++ [RUnit]) /\ nth_error w k = Some (Some s) /\
    shows sc s (l ++ firstn (N.to_nat n) (skipn (N.to_nat o) l)) true.
Proof.
  intros sc os i rs k l t o n Hsc E Nk L B. set (l' := l ++ firstn (N.to_nat n) (skipn (N.to_nat o) l)).
  assert (E2 : iwrun [] (os ++ [On k (AppendOwn o n)]) = Some (iset i k (Val l' true), rs ++ [RUnit])).
  { rewrite iwrun_app, E. cbn [iwrun iwstep ideal]. rewrite Nk. rewrite (proj2 (N.leb_le _ _) L). fold l'. unfold fits, ok_size.
    replace (len l' <? 2 ^ 60)%N with true; [reflexivity|]. symmetry. apply N.ltb_lt. subst l'. unfold len in *.
    rewrite app_length, firstn_length, skipn_length. lia. }
  destruct (wrun_rep sc Hsc _ [] [] _ _ ltac:(constructor) E2) as (w & W & R).
  destruct (wrep_nth sc _ _ k (Val l' true) R) as ([s|] & Ns & Rs). { apply iset_nth. apply nth_error_Some. congruence. } 2: easy.
  exists w, s. split; auto. split; auto. apply rep_shows; auto. apply Rs.
Qed.
Example C32_append_own_ex : forall k, In k [3; 6; 12]%N -> exists w rs s, wrun 15 [] [NewFrom (firstn 12 long); On 0 (AppendOwn (12 - k) k)] = Ok (w, rs) /\ nth_error w 0 = Some (Some s) /\
  contents s = Ok (firstn 12 long ++ skipn (N.to_nat (12 - k)) (firstn 12 long)).
Proof. cbn [In]. intros k [<-|[<-|[<-|[]]]]; do 3 eexists; (split; [vm_compute; reflexivity|]); (split; [reflexivity|]); vm_compute; reflexivity. Qed.

(* ---- C33 ---- *)
(* moving from a long string leaves a string of the old size without characters: reading its first character is UB *)
Theorem C33_moved_from_refuted : exists w rs s, wrun 15 [] [NewFrom long; MoveNew 0] = Ok (w, rs) /\ nth_error w 0 = Some (Some s) /\
  ssz s = 20%N /\ loc s = LNull /\ get s 0 = UB /\ contents s = UB.
Proof. do 3 eexists. split; [vm_compute; reflexivity|]. split; [reflexivity|]. repeat (split; [vm_compute; reflexivity|]). vm_compute. reflexivity. Qed.
(* s = move(s) with a long string: the characters are lost and the size exceeds the buffer *)
Theorem C33_self_move_refuted : exists w rs s, wrun 15 [] [NewFrom long; MoveAssign 0 0] = Ok (w, rs) /\ nth_error w 0 = Some (Some s) /\
  ssz s = 20%N /\ capacity 15 s = Ok 15%N /\ contents s = UB.
Proof. do 3 eexists. split; [vm_compute; reflexivity|]. split; [reflexivity|]. repeat (split; [vm_compute; reflexivity|]). vm_compute. reflexivity. Qed.
(* What holds: a moved-from string can be cleared, assigned and destroyed (C31_history_partial contains these), and for a
   string in the inline buffer moving is copying and self-move does nothing. *)
Theorem C33_short_partial : forall sc s s0, loc s = LSbo ->
  move_ctor sc s = Ok (s, s) /\ move_assign s0 s = Ok (s, s) /\ self_move_assign s = s.
Proof. intros sc [p n u] s0 E. cbn in E. subst. repeat split. Qed.
Example C33_short_ex : exists s, of_chars 15 abc = Ok s /\ loc s = LSbo.
Proof. eexists. split; [vm_compute; reflexivity|]. reflexivity. Qed.
Theorem C33_reuse_partial : forall sc os i rs k, (7 <= sc < 2 ^ 60)%N -> iwrun [] os = Some (i, rs) -> nth_error i k = Some Moved ->
  (exists w s, wrun sc [] (os ++ [On k Clear]) = Ok (w, rs ++ [RUnit]) /\ nth_error w k = Some (Some s) /\ shows sc s [] true) /\
  (forall j l t, nth_error i j = Some (Val l t) -> exists w s, wrun sc [] (os ++ [CopyAssign k j]) = Ok (w, rs ++ [RUnit]) /\ nth_error w k = Some (Some s) /\ shows sc s l t) /\
  (forall j l t, nth_error i j = Some (Val l t) -> exists w s, wrun sc [] (os ++ [MoveAssign k j]) = Ok (w, rs ++ [RUnit]) /\ nth_error w k = Some (Some s) /\ shows sc s l t) /\
  (exists w, wrun sc [] (os ++ [Destroy k]) = Ok (w, rs ++ [RUnit])).
Proof.
  intros sc os i rs k Hsc E Nk. assert (Lk : k < length i) by (apply nth_error_Some; congruence).
  assert (G : forall o i' x, iwstep i o = Some (i', RUnit) -> nth_error i' k = Some x -> exists w y, wrun sc [] (os ++ [o]) = Ok (w, rs ++ [RUnit]) /\ nth_error w k = Some y /\ wrep1 sc y x).
  { intros o i' x S N. assert (E2 : iwrun [] (os ++ [o]) = Some (i', rs ++ [RUnit])) by (rewrite iwrun_app, E; cbn [iwrun]; now rewrite S).
    destruct (wrun_rep sc Hsc _ [] [] _ _ ltac:(constructor) E2) as (w & W & R). destruct (wrep_nth sc _ _ k x R N) as (y & Ny & Ry). eauto. }
  assert (V : forall o i' l t, iwstep i o = Some (i', RUnit) -> nth_error i' k = Some (Val l t) ->
    exists w s, wrun sc [] (os ++ [o]) = Ok (w, rs ++ [RUnit]) /\ nth_error w k = Some (Some s) /\ shows sc s l t).
  { intros o i' l t S N. destruct (G o i' _ S N) as (w & [s|] & W & Ns & R); [|easy]. exists w, s. split; auto. split; auto. apply rep_shows; auto. apply R. }
  assert (Lv : ilive i k = true) by (unfold ilive; now rewrite Nk).
  split; [|split; [|split]].
  - eapply V. { cbn [iwstep]. rewrite Nk. reflexivity. } now apply iset_nth.
  - intros j l t Nj. eapply V. { cbn [iwstep]. rewrite Lv. unfold from, iget. rewrite Nj. reflexivity. } now apply iset_nth.
  - intros j l t Nj. assert (k <> j) by congruence. eapply V.
    { cbn [iwstep]. rewrite Lv. destruct (Nat.eqb_spec k j); [easy|]. cbn [negb andb]. unfold from, iget. rewrite Nj. reflexivity. }
    rewrite <- (iset_nth i k (Val l t) Lk). generalize (iset i k (Val l t)). clear - H. intros w. revert k j H. induction w; intros [|k] [|j] H; cbn; auto; try easy.
  - destruct (G (Destroy k) (iset i k Dead) Dead) as (w & y & W & _). { cbn [iwstep]. now rewrite Lv. } { now apply iset_nth. } eauto.
Qed.
Example C33_reuse_ex : exists i rs, iwrun [] [NewFrom long; MoveNew 0] = Some (i, rs) /\ nth_error i 0 = Some Moved /\ nth_error i 1 = Some (Val long true).
Proof. do 2 eexists. split; [vm_compute; reflexivity|]. split; reflexivity. Qed.

(* ---- C79 ---- *)
(* insert of a view into the string itself, in place: "abcd".insert(0, "cd" of it) gives "ababcd" *)
Theorem C79_self_insert_refuted : exists s s', of_chars 15 [97; 98; 99; 100]%N = Ok s /\ insert 15 s 0 (SOwn 2 2) = Ok s' /\
  contents s' = Ok [97; 98; 97; 98; 99; 100]%N /\
  (exists s'', insert 15 s 0 (SVal [99; 100]%N) = Ok s'' /\ contents s'' = Ok [99; 100; 97; 98; 99; 100]%N) /\
  insert 15 s 0 (SOwn 1 2) = UB.
Proof.
  do 2 eexists. split; [vm_compute; reflexivity|]. split; [vm_compute; reflexivity|]. split; [vm_compute; reflexivity|].
  split; [|vm_compute; reflexivity]. eexists. split; vm_compute; reflexivity.
Qed.
(* What holds: replacing by a view of the own characters works if the view ends before the replaced part, or if the
   string has to grow beyond its capacity. *)
Theorem C79_replace_own_partial : forall sc os i rs w k s l t pos cnt o n, (7 <= sc < 2 ^ 60)%N -> iwrun [] os = Some (i, rs) -> wrun sc [] os = Ok (w, rs) ->
  nth_error i k = Some (Val l t) -> nth_error w k = Some (Some s) -> (pos + cnt <= len l)%N -> (o + n <= len l)%N -> (len l - cnt + n < 2 ^ 60)%N ->
  (o + n <= pos)%N \/ (exists c, capacity sc s = Ok c /\ c < len l - cnt + n)%N ->
  exists s', replace sc s pos cnt (SOwn o n) = Ok s' /\ shows sc s' (splice pos cnt l (firstn (N.to_nat n) (skipn (N.to_nat o) l))) t.
Proof.
  intros sc os i rs w k s l t pos cnt o n Hsc E W Nk Ns L1 L2 B C.
  destruct (wrun_rep sc Hsc _ [] [] _ _ ltac:(constructor) E) as (w' & W' & R). rewrite W in W'. injection W' as <-.
  destruct (wrep_nth sc _ _ k _ R Nk) as (y & Ny & Ry). rewrite Ns in Ny. injection Ny as <-. destruct Ry as [Ry Bl].
  set (r := firstn (N.to_nat n) (skipn (N.to_nat o) l)). assert (Lr : len r = n) by (subst r; unfold len in *; rewrite firstn_length, skipn_length; lia).
  destruct (splice_split sc Hsc l pos cnt r L1) as (a & m & z & El & <- & <- & Es). rewrite Es.
  assert (Ll : len l = (len a + (len m + len z))%N) by (rewrite El, !(len_app sc Hsc); lia).
  destruct (replace_app sc Hsc s a m z t (SOwn o n) r) as (s' & E' & R'); try (rewrite <- El; auto).
  - rewrite !(len_app sc Hsc). lia.
  - split; auto.
  - intros c Hc. destruct C as [C|(c' & C1 & C2)]; [left; exact C|right]. rewrite Hc in C1. injection C1 as <-. rewrite !(len_app sc Hsc).
    destruct (rep_shows sc Hsc _ _ _ Ry) as (_ & _ & (c' & Q1 & Q2) & _). rewrite Hc in Q1. injection Q1 as <-. lia.
  - exists s'. split; auto. apply rep_shows; auto.
Qed.
Example C79_replace_own_ex : exists w rs s s', wrun 15 [] [NewFrom long] = Ok (w, rs) /\ nth_error w 0 = Some (Some s) /\ capacity 15 s = Ok 20%N /\
  replace 15 s 1 2 (SOwn 0 20) = Ok s' /\ contents s' = Ok (splice 1 2 long long).
Proof. do 4 eexists. split; [vm_compute; reflexivity|]. split; [reflexivity|]. split; [vm_compute; reflexivity|]. split; [vm_compute; reflexivity|]. vm_compute. reflexivity. Qed.

(* ---- C80 ---- *)
(* pos + count wraps: "abc".replace(1, 2^64 - 1, "") is accepted and makes it "aaaa" *)
Theorem C80_replace_refuted : exists s s', of_chars 15 abc = Ok s /\ replace 15 s 1 (2 ^ 64 - 1) (SVal []) = Ok s' /\ contents s' = Ok [97; 97; 97; 97]%N.
Proof. do 2 eexists. split; [vm_compute; reflexivity|]. split; [vm_compute; reflexivity|]. vm_compute. reflexivity. Qed.
(* What holds: requests outside of the string whose bounds do not wrap are rejected by a contract, whatever the state. *)
Theorem C80_rejects_partial : forall sc s,
  (forall i, ssz s <= i -> get s i = Contract)%N /\
  (forall i c, ssz s <= i -> set_at s i c = Contract)%N /\
  (ssz s = 0 -> front s = Contract /\ back s = Contract /\ pop_back s = Contract)%N /\
  (forall n, ssz s < n -> remove_prefix s n = Contract /\ remove_suffix s n = Contract)%N /\
  (forall pos cnt r, ssz s < pos + cnt -> pos + cnt < 2 ^ 64 -> replace sc s pos cnt r = Contract /\ replaced sc s pos cnt r = Contract)%N /\
  (forall pos r, ssz s < pos -> insert sc s pos r = Contract)%N /\
  (forall new, replace_all sc s [] new = Contract).
Proof.
  intros sc s. split; [|split; [|split; [|split; [|split; [|split]]]]].
  - intros i H. unfold get. now rewrite (proj2 (N.ltb_ge _ _) H).
  - intros i c H. unfold set_at. now rewrite (proj2 (N.ltb_ge _ _) H).
  - intros H. unfold front, back, pop_back. rewrite H. auto.
  - intros n H. unfold remove_prefix, remove_suffix. rewrite (proj2 (N.leb_gt _ _) H). auto.
  - intros pos cnt r H B. unfold replace, replaced. rewrite (wadd_small 64 pos cnt) by auto. rewrite (proj2 (N.leb_gt (pos + cnt) _) H).
    destruct (pos <=? ssz s)%N; auto.
  - intros pos r H. unfold insert, replace. now rewrite (proj2 (N.leb_gt _ _) H).
  - reflexivity.
Qed.
Example C80_rejects_ex : exists s, of_chars 15 abc = Ok s /\ replace 15 s 2 2 (SVal abc) = Contract /\ insert 15 s 4 (SVal abc) = Contract.
Proof. eexists. split; [vm_compute; reflexivity|]. split; vm_compute; reflexivity. Qed.

Print Assumptions C31_history_partial.
Print Assumptions C31_c_str_partial.
Print Assumptions C31_nul_refuted.
Print Assumptions C32_append_own.
Print Assumptions C33_moved_from_refuted.
Print Assumptions C33_self_move_refuted.
Print Assumptions C33_short_partial.
Print Assumptions C33_reuse_partial.
Print Assumptions C79_self_insert_refuted.
Print Assumptions C79_replace_own_partial.
Print Assumptions C80_replace_refuted.
Print Assumptions C80_rejects_partial.

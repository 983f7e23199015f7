(* Lemmas about format. *)
From Coq Require Import NArith List Bool Arith Lia.
From Verif Require Import Base FmtModel FmtSpec.
From Verif Require NumModel StrModel.
Import ListNotations.
Open Scope N_scope.

(* ---- positions ---- *)
(* l is what lies between position c and the end of the view *)
Definition At (m : list N) (n c : nat) (l : list N) : Prop :=
  exists a e, m = a ++ l ++ e /\ c = length a /\ n = (length a + length l)%nat.

Lemma at_nil : forall m n c, At m n c [] -> c = n.
Proof. intros m n c (a & e & -> & -> & ->). cbn. lia. Qed.
Lemma at_cons : forall m n c x l, At m n c (x :: l) -> (c =? n)%nat = false /\ aget m c = Ok x /\ At m n (S c) l.
Proof.
  intros m n c x l (a & e & -> & -> & ->). split; [apply Nat.eqb_neq; cbn; lia|]. split.
  - apply aget_Ok. rewrite nth_error_app2 by lia. rewrite Nat.sub_diag. reflexivity.
  - exists (a ++ [x]), e. rewrite <- app_assoc. rewrite app_length. cbn. repeat split; lia.
Qed.
Lemma at_app : forall m n c s l, At m n c (s ++ l) -> At m n (c + length s) l.
Proof.
  intros m n c s l (a & e & -> & -> & ->). exists (a ++ s), e. rewrite <- !app_assoc, !app_length. repeat split; lia.
Qed.
Lemma at_slice : forall m n c s l, At m n c (s ++ l) -> slice m c (c + length s) = Ok s.
Proof.
  intros m n c s l (a & e & -> & -> & ->). unfold slice. rewrite !app_length.
  destruct (Nat.leb_spec (length a) (length a + length s)); [|lia].
  destruct (Nat.leb_spec (length a + length s) (length a + (length s + length l + length e))); [|lia]. cbn [andb].
  rewrite skipn_app, Nat.sub_diag, skipn_all, <- app_assoc. cbn [skipn app].
  replace (length a + length s - length a)%nat with (length s) by lia. rewrite firstn_app, Nat.sub_diag, firstn_all. cbn. now rewrite app_nil_r.
Qed.
Lemma at_len : forall m n c l, At m n c l -> (c + length l = n /\ n <= length m)%nat.
Proof. intros m n c l (a & e & -> & -> & ->). rewrite !app_length. lia. Qed.
Lemma at_eqb : forall m n c l, At m n c l -> (c =? n)%nat = match l with [] => true | _ => false end.
Proof. intros m n c [|x l] H; [apply at_nil in H; subst; apply Nat.eqb_refl|apply (at_cons _ _ _ _ _ H)]. Qed.

(* ---- scanning ---- *)
Fixpoint span (p : N -> bool) (l : list N) : list N * list N :=
  match l with
  | [] => ([], [])
  | x :: r => if p x then let (a, b) := span p r in (x :: a, b) else ([], l)
  end.
Lemma span_app : forall p l, l = fst (span p l) ++ snd (span p l).
Proof. induction l as [|x l IH]; cbn; auto. destruct (p x); [|auto]. destruct (span p l). cbn in *. now f_equal. Qed.
Lemma span_all : forall p l, Forall (fun x => p x = true) (fst (span p l)).
Proof. induction l as [|x l IH]; cbn; auto. destruct (p x) eqn:E; [|cbn; auto]. destruct (span p l). cbn in *. auto. Qed.
Lemma span_hd : forall p l x r, snd (span p l) = x :: r -> p x = false.
Proof.
  induction l as [|y l IH]; cbn; intros x r H; [discriminate|]. destruct (p y) eqn:E.
  - destruct (span p l). cbn in *. eauto.
  - cbn in H. inversion H; subst; auto.
Qed.
Definition stops (p : N -> bool) (l : list N) : Prop := match l with [] => True | x :: _ => p x = false end.
Lemma span_eq : forall p a b, Forall (fun x => p x = true) a -> stops p b -> span p (a ++ b) = (a, b).
Proof.
  induction a as [|x a IH]; intros b F S; cbn.
  - destruct b as [|y b]; auto. cbn in *. now rewrite S.
  - inversion F; subst. rewrite H1, IH; auto.
Qed.
Lemma span_len : forall p l, (length (fst (span p l)) + length (snd (span p l)) = length l)%nat.
Proof. intros. rewrite (span_app p l) at 3. now rewrite app_length. Qed.

Lemma skip_while_at : forall p m n l fuel c, At m n c l -> (length l < fuel)%nat ->
  skip_while fuel m n p c = Ok (c + length (fst (span p l)))%nat /\ At m n (c + length (fst (span p l))) (snd (span p l)).
Proof.
  intros p m n. induction l as [|x l IH]; intros [|fuel] c H L; cbn in L; try lia; cbn [skip_while].
  - rewrite (at_eqb _ _ _ _ H). cbn. rewrite Nat.add_0_r. auto.
  - destruct (at_cons _ _ _ _ _ H) as (A & B & C). rewrite A, B. cbn [bind span]. destruct (p x) eqn:E.
    + destruct (IH fuel (S c) C ltac:(lia)) as (D & F). destruct (span p l) as [a b]. cbn [fst snd length] in *.
      rewrite Nat.add_succ_r. auto.
    + cbn. rewrite Nat.add_0_r. auto.
Qed.
Lemma scan_loop_at : forall p m n l fuel c, At m n c l -> l <> [] -> (length l < fuel)%nat ->
  scan_loop fuel m n p c = match snd (span p l) with [] => Contract | _ => Ok (c + length (fst (span p l)))%nat end.
Proof.
  intros p m n. induction l as [|x l IH]; intros [|fuel] c H NE L; cbn in L; try lia; [congruence|]. cbn [scan_loop].
  destruct (at_cons _ _ _ _ _ H) as (A & B & C). rewrite B. cbn [bind span]. destruct (p x) eqn:E.
  - rewrite (at_eqb _ _ _ _ C). destruct l as [|y l]; [reflexivity|]. cbn [negb contract bind].
    rewrite (IH fuel (S c) C) by (try congruence; lia). destruct (span p (y :: l)) as [a b]. cbn [fst snd length].
    now rewrite Nat.add_succ_r.
  - cbn. now rewrite Nat.add_0_r.
Qed.
Lemma index_step : forall i x, wadd 64 (wmul 64 (wrap 64 i) 10) x = wrap 64 (i * 10 + x).
Proof.
  intros. unfold wadd, wmul, wrap. rewrite N.add_mod_idemp_l by discriminate. rewrite <- (N.add_mod_idemp_l (i * 10)) by discriminate.
  rewrite <- (N.mul_mod_idemp_l i) by discriminate. now rewrite N.add_mod_idemp_l by discriminate.
Qed.
Lemma index_loop_at : forall m n l fuel c i, At m n c l -> l <> [] -> (length l < fuel)%nat ->
  index_loop fuel m n c (wrap 64 i) = match snd (span NumModel.is_digit l) with
    [] => Contract | _ => Ok ((c + length (fst (span NumModel.is_digit l)))%nat, wrap 64 (number i (fst (span NumModel.is_digit l)))) end.
Proof.
  intros m n. induction l as [|x l IH]; intros [|fuel] c i H NE L; cbn in L; try lia; [congruence|]. cbn [index_loop].
  destruct (at_cons _ _ _ _ _ H) as (A & B & C). rewrite B. cbn [bind span]. destruct (NumModel.is_digit x) eqn:E.
  - rewrite (at_eqb _ _ _ _ C). destruct l as [|y l]; [reflexivity|]. cbn [negb contract bind]. rewrite index_step.
    rewrite (IH fuel (S c) _ C) by (try congruence; lia). destruct (span NumModel.is_digit (y :: l)) as [a b]. cbn [fst snd length number].
    now rewrite Nat.add_succ_r.
  - cbn. now rewrite Nat.add_0_r.
Qed.

(* ---- printf specifications on lists ---- *)
Definition l_width (l : list N) : list N := match l with x :: r => if x =? 42 then r else snd (span NumModel.is_digit l) | [] => [] end.
Definition l_prec (l : list N) : outcome (list N) :=
  match l with
  | x :: r => if x =? 46 then match r with
                              | [] => Contract
                              | y :: r' => if y =? 42 then Ok r' else if NumModel.is_digit y then Ok (snd (span NumModel.is_digit r)) else Contract
                              end
              else Ok l
  | [] => Ok []
  end.
Definition l_len (l : list N) : list N :=
  match l with
  | x :: r => if (x =? 122) || (x =? 116) || (x =? 106) || (x =? 76) then r
              else if (x =? 104) || (x =? 108) then match r with y :: r' => if y =? x then r' else r | [] => [] end
              else l
  | [] => []
  end.
(* what is left after the specification; None if the view ends in it *)
Definition l_adv (l : list N) : outcome (option (list N)) :=
  let! l := l_prec (l_width (snd (span is_flag l))) in
  match l_len l with
  | [] => Ok None
  | x :: r => if is_conv x then Ok (Some r) else Contract
  end.

Ltac at_step H := let A := fresh "A" in let B := fresh "B" in let C := fresh "C" in destruct (at_cons _ _ _ _ _ H) as (A & B & C).
Lemma at_pos : forall m n c l, At m n c l -> c = (n - length l)%nat.
Proof. intros m n c l H. apply at_len in H. lia. Qed.
Lemma adv_width_at : forall m n c l, At m n c l -> exists d, adv_width m n c = Ok d /\ At m n d (l_width l).
Proof.
  intros m n c l H. unfold adv_width, l_width. rewrite (at_eqb _ _ _ _ H). destruct l as [|x l]; [eauto|]. at_step H. rewrite B. cbn [bind].
  destruct (x =? 42); [eauto|]. pose proof (at_len _ _ _ _ H). destruct (skip_while_at NumModel.is_digit m n (x :: l) (S (length m)) c H) as (D & E); [lia|]. eauto.
Qed.
Lemma adv_prec_at : forall m n c l, At m n c l -> match l_prec l with
  | Ok r => exists d, adv_prec m n c = Ok d /\ At m n d r | Contract => adv_prec m n c = Contract | _ => False end.
Proof.
  intros m n c l H. unfold adv_prec, l_prec. rewrite (at_eqb _ _ _ _ H). destruct l as [|x l]; [eauto|]. at_step H. rewrite B. cbn [bind].
  destruct (x =? 46); [|eauto]. rewrite (at_eqb _ _ _ _ C). destruct l as [|y l]; [reflexivity|]. cbn [negb contract bind]. at_step C. rewrite B0. cbn [bind].
  destruct (y =? 42); [eauto|]. destruct (NumModel.is_digit y) eqn:E; [|reflexivity]. cbn [contract bind].
  pose proof (at_len _ _ _ _ C). destruct (skip_while_at NumModel.is_digit m n (y :: l) (S (length m)) (S c) C) as (D & F); [lia|]. eauto.
Qed.
Lemma adv_len_at : forall m n c l, At m n c l -> exists d, adv_len m n c = Ok d /\ At m n d (l_len l).
Proof.
  intros m n c l H. unfold adv_len, l_len. rewrite (at_eqb _ _ _ _ H). destruct l as [|x l]; [eauto|]. at_step H. rewrite B. cbn [bind].
  destruct ((x =? 122) || (x =? 116) || (x =? 106) || (x =? 76)); [eauto|]. destruct ((x =? 104) || (x =? 108)); [|eauto].
  rewrite (at_eqb _ _ _ _ C). destruct l as [|y l]; [eauto|]. at_step C. rewrite B0. cbn [bind]. destruct (y =? x); eauto.
Qed.
Lemma advance_at : forall m n c l, At m n c l -> match l_adv l with
  | Ok (Some r) => exists d, advance_printf_chars m n c = Ok d /\ At m n d r
  | Ok None => advance_printf_chars m n c = adv_conv m n
  | Contract => advance_printf_chars m n c = Contract | _ => False end.
Proof.
  intros m n c l H. unfold l_adv, advance_printf_chars. pose proof (at_len _ _ _ _ H).
  destruct (skip_while_at is_flag m n l (S (length m)) c H) as (D & E); [lia|]. unfold adv_flags. rewrite D. cbn [bind].
  destruct (adv_width_at _ _ _ _ E) as (d & F & G). rewrite F. cbn [bind].
  pose proof (adv_prec_at _ _ _ _ G) as P. destruct (l_prec (l_width (snd (span is_flag l)))) as [r| | |]; try contradiction; cbn [bind]; [|now rewrite P].
  destruct P as (d2 & P & Q). rewrite P. cbn [bind]. destruct (adv_len_at _ _ _ _ Q) as (d3 & R & S). rewrite R. cbn [bind].
  destruct (l_len r) as [|x r'].
  - apply at_nil in S. now subst.
  - at_step S. unfold adv_conv. rewrite B. cbn [bind]. destruct (is_conv x); [eauto|auto].
Qed.

(* the grammar *)
Lemma digit_iff : forall c, NumModel.is_digit c = true <-> digit c.
Proof. intros. unfold NumModel.is_digit, digit. rewrite andb_true_iff, !N.leb_le. tauto. Qed.
Lemma flag_iff : forall c, is_flag c = true <-> In c flag_chars.
Proof. intros. unfold is_flag, flag_chars. rewrite !orb_true_iff, !N.eqb_eq. cbn. intuition auto. Qed.
Lemma conv_iff : forall c, is_conv c = true <-> In c conv_chars.
Proof. intros. unfold is_conv, conv_chars. rewrite !orb_true_iff, !N.eqb_eq. cbn. intuition auto. Qed.
Lemma forall_iff : forall (p : N -> bool) (q : N -> Prop) l, (forall x, p x = true <-> q x) -> (Forall (fun x => p x = true) l <-> Forall q l).
Proof. intros p q l H. split; apply Forall_impl; intros a; apply H. Qed.

Lemma width_sound : forall l, exists w, width_ok w /\ l = w ++ l_width l.
Proof.
  intros [|x l]; cbn; [exists []; split; [right; auto|auto]|]. destruct (N.eqb_spec x 42).
  - subst. exists [42]. split; [left; auto|auto].
  - exists (fst (span NumModel.is_digit (x :: l))). split; [right; apply (forall_iff _ _ _ digit_iff), span_all|apply (span_app NumModel.is_digit (x :: l))].
Qed.
Lemma prec_sound : forall l r, l_prec l = Ok r -> exists p, prec_ok p /\ l = p ++ r.
Proof.
  intros [|x l] r H; cbn in H; [inversion H; subst; exists []; split; [left; auto|auto]|]. destruct (N.eqb_spec x 46); [subst|inversion H; subst; exists []; split; [left; auto|auto]].
  destruct l as [|y l]; [discriminate|]. destruct (N.eqb_spec y 42).
  - inversion H; subst. exists [46; 42]. split; [right; left; auto|auto].
  - destruct (NumModel.is_digit y) eqn:E; [|discriminate]. exists (46 :: fst (span NumModel.is_digit (y :: l))). split.
    + right; right. cbn [span]. rewrite E. destruct (span NumModel.is_digit l) as [a b] eqn:S. exists y, a. cbn. split; auto. split; [now apply digit_iff|].
      apply (forall_iff _ _ _ digit_iff). pose proof (span_all NumModel.is_digit l) as A. now rewrite S in A.
    + cbn [span] in H. cbn [app]. f_equal. rewrite E in H.
      rewrite (span_app NumModel.is_digit (y :: l)) at 1. f_equal. cbn [span]. rewrite E. destruct (span NumModel.is_digit l). cbn in *. now inversion H.
Qed.
Lemma len_sound : forall l, exists k, len_ok k /\ l = k ++ l_len l.
Proof.
  intros [|x l]; cbn -[len_ok]; [exists []; split; [cbn; auto|auto]|].
  destruct (N.eqb_spec x 122); [subst; exists [122]; split; [cbn; tauto|auto]|].
  destruct (N.eqb_spec x 116); [subst; exists [116]; split; [cbn; tauto|auto]|].
  destruct (N.eqb_spec x 106); [subst; exists [106]; split; [cbn; tauto|auto]|].
  destruct (N.eqb_spec x 76); [subst; exists [76]; split; [cbn; tauto|auto]|]. cbn [orb].
  destruct (N.eqb_spec x 104); [subst|destruct (N.eqb_spec x 108); [subst|]]; cbn [orb].
  - destruct l as [|y l]; [exists [104]; split; [cbn; tauto|auto]|]. destruct (N.eqb_spec y 104); [subst; exists [104; 104]|exists [104]]; (split; [cbn; tauto|auto]).
  - destruct l as [|y l]; [exists [108]; split; [cbn; tauto|auto]|]. destruct (N.eqb_spec y 108); [subst; exists [108; 108]|exists [108]]; (split; [cbn; tauto|auto]).
  - exists []. split; [cbn; tauto|auto].
Qed.
Lemma l_adv_sound : forall l r, l_adv l = Ok (Some r) -> exists s, printf_spec s /\ l = s ++ r.
Proof.
  intros l r H. unfold l_adv in H. apply bind_Ok in H. destruct H as (l2 & P & H). destruct (l_len l2) as [|x r'] eqn:L; [discriminate|].
  destruct (is_conv x) eqn:C; [|discriminate]. inversion H; subst r'. clear H.
  destruct (width_sound (snd (span is_flag l))) as (w & W & EW). destruct (prec_sound _ _ P) as (p & Pp & EP). destruct (len_sound l2) as (k & K & EK).
  exists (fst (span is_flag l) ++ w ++ p ++ k ++ [x]). split.
  - exists (fst (span is_flag l)), w, p, k, x. split; auto. split; [apply (forall_iff _ _ _ flag_iff), span_all|]. repeat split; auto. now apply conv_iff.
  - rewrite <- !app_assoc. rewrite (span_app is_flag l) at 1. f_equal. rewrite EW. f_equal. rewrite EP. f_equal. rewrite EK. f_equal. rewrite L. auto.
Qed.
Lemma l_adv_none : forall l, l_adv l = Ok None -> unfinished_spec l.
Proof.
  intros l H. unfold l_adv in H. apply bind_Ok in H. destruct H as (l2 & P & H). destruct (l_len l2) as [|x r'] eqn:L; [|destruct (is_conv x); discriminate].
  destruct (width_sound (snd (span is_flag l))) as (w & W & EW). destruct (prec_sound _ _ P) as (p & Pp & EP). destruct (len_sound l2) as (k & K & EK).
  exists (fst (span is_flag l)), w, p, k. split; [|split; [apply (forall_iff _ _ _ flag_iff), span_all|auto]].
  rewrite (span_app is_flag l) at 1. f_equal. rewrite EW. f_equal. rewrite EP. f_equal. rewrite EK at 1. rewrite L. apply app_nil_r.
Qed.
(* completeness: what follows the parts *)
Definition tail_ok (t : list N) : Prop := t = [] \/ exists c r, t = c :: r /\ In c conv_chars.
Ltac conv_cases H := cbn in H; repeat (destruct H as [H|H]; [subst; try reflexivity|]); try contradiction.
Lemma len_complete : forall k t, len_ok k -> tail_ok t -> l_len (k ++ t) = t.
Proof.
  intros k t K T. unfold len_ok in K. destruct T as [->|(c & r & -> & T)].
  - cbn in K. intuition (subst; reflexivity).
  - cbn in K. destruct K as [<-|[<-|[<-|[<-|[<-|[<-|[<-|[<-|[<-|[]]]]]]]]]]; conv_cases T.
Qed.
Definition lhead (l : list N) : Prop := match l with [] => True | c :: _ => c <> 42 /\ c <> 46 /\ ~ digit c /\ ~ In c flag_chars end.
Lemma len_head : forall k t, len_ok k -> tail_ok t -> lhead (k ++ t).
Proof.
  intros k t K T.
  assert (X : forall c, In c (conv_chars ++ [122; 116; 106; 76; 104; 108]) -> c <> 42 /\ c <> 46 /\ ~ digit c /\ ~ In c flag_chars).
  { intros c H. cbn in H. unfold digit, flag_chars. cbn [In]. repeat (destruct H as [H|H]; [subst; repeat split; [discriminate|discriminate|lia|intuition discriminate]|]). contradiction. }
  unfold len_ok in K. cbn in K.
  destruct K as [<-|[<-|[<-|[<-|[<-|[<-|[<-|[<-|[<-|[]]]]]]]]]]; cbn [app];
  [destruct T as [->|(c & r & -> & T)]; [exact I|cbn [lhead]; apply X, in_or_app; auto]|..]; cbn [lhead]; apply X, in_or_app; right; cbn; auto 20.
Qed.
Lemma prec_complete : forall p t, prec_ok p -> lhead t -> l_prec (p ++ t) = Ok t.
Proof.
  intros p t [->|[->|(d & ds & -> & D & F)]] T.
  - destruct t as [|x t]; [reflexivity|]. cbn. destruct T as (_ & T & _). destruct (N.eqb_spec x 46); congruence.
  - reflexivity.
  - cbn [app l_prec]. change (46 =? 46) with true. cbn iota. destruct (N.eqb_spec d 42); [subst; unfold digit in D; lia|].
    rewrite (proj2 (digit_iff d) D). change (d :: ds ++ t) with ((d :: ds) ++ t). rewrite span_eq; [reflexivity| |].
    + constructor; [now apply digit_iff|]. now apply (forall_iff _ _ _ digit_iff).
    + destruct t as [|x t]; [exact I|]. cbn in *. destruct T as (_ & _ & T & _). destruct (NumModel.is_digit x) eqn:E; auto. apply digit_iff in E. tauto.
Qed.
(* prec part or later: no star, digit or flag *)
Definition phead (l : list N) : Prop := match l with [] => True | c :: _ => c <> 42 /\ ~ digit c /\ ~ In c flag_chars end.
Lemma prec_head : forall p t, prec_ok p -> lhead t -> phead (p ++ t).
Proof.
  intros p t [->|[->|(d & ds & -> & D & F)]] T; cbn [app].
  - destruct t; [exact I|]. cbn in *. tauto.
  - cbn. unfold digit. split; [discriminate|]. split; [lia|intuition discriminate].
  - cbn. unfold digit. split; [discriminate|]. split; [lia|intuition discriminate].
Qed.
Lemma width_complete : forall f w t, Forall (fun x => In x flag_chars) f -> width_ok w -> phead t -> l_width (snd (span is_flag (f ++ w ++ t))) = t.
Proof.
  intros f w t F W T.
  assert (NF : forall c, ~ In c flag_chars -> is_flag c = false) by (intros c H; destruct (is_flag c) eqn:E; auto; apply flag_iff in E; contradiction).
  assert (ND : forall c, ~ digit c -> NumModel.is_digit c = false) by (intros c H; destruct (NumModel.is_digit c) eqn:E; auto; apply digit_iff in E; contradiction).
  destruct W as [->|W].
  - rewrite span_eq; [reflexivity|now apply (forall_iff _ _ _ flag_iff)|]. cbn. reflexivity.
  - (* the leading zeros of the width are taken as flags *)
    assert (X : exists z w', w = z ++ w' /\ Forall (fun x => is_flag x = true) z /\ stops is_flag (w' ++ t) /\ Forall digit w').
    { clear F f. induction W as [|d w D W IH].
      - exists [], []. repeat split; auto. destruct t as [|x t]; [exact I|]. cbn in *. apply NF. tauto.
      - destruct (N.eqb_spec d 48).
        + subst. destruct IH as (z & w' & -> & A & B & C). exists (48 :: z), w'. repeat split; auto.
        + exists [], (d :: w). repeat split; auto. cbn. unfold is_flag. unfold digit in D.
          repeat match goal with |- context [d =? ?k] => destruct (N.eqb_spec d k); [lia|] end. reflexivity. }
    destruct X as (z & w' & -> & A & B & C). rewrite <- app_assoc, app_assoc. rewrite span_eq; auto.
    2:{ apply Forall_app. split; [now apply (forall_iff _ _ _ flag_iff)|auto]. }
    cbn [snd]. destruct w' as [|d w'].
    + cbn [app]. destruct t as [|x t]; [reflexivity|]. cbn. cbn in T. destruct (N.eqb_spec x 42); [tauto|]. rewrite ND by tauto. reflexivity.
    + cbn [app l_width]. inversion C; subst. destruct (N.eqb_spec d 42); [subst; unfold digit in *; lia|].
      change (d :: w' ++ t) with ((d :: w') ++ t). rewrite span_eq; [reflexivity|now apply (forall_iff _ _ _ digit_iff)|].
      destruct t as [|x t]; [exact I|]. cbn in *. apply ND. tauto.
Qed.
Lemma l_adv_complete : forall s r, printf_spec s -> l_adv (s ++ r) = Ok (Some r).
Proof.
  intros s r (f & w & p & l & c & -> & F & W & P & L & C). unfold l_adv.
  assert (T : tail_ok (c :: r)) by (right; eauto).
  rewrite <- !app_assoc. cbn [app]. rewrite width_complete by (auto; apply prec_head; auto; apply len_head; auto).
  rewrite prec_complete by (auto; apply len_head; auto). cbn [bind]. rewrite len_complete by auto. now rewrite (proj2 (conv_iff c) C).
Qed.
Lemma l_adv_unfinished : forall s, unfinished_spec s -> l_adv s = Ok None.
Proof.
  intros s (f & w & p & l & -> & F & W & P & L). unfold l_adv. assert (T : tail_ok []) by (left; auto).
  rewrite <- (app_nil_r l). rewrite width_complete by (auto; apply prec_head; auto; apply len_head; auto).
  rewrite prec_complete by (auto; apply len_head; auto). cbn [bind]. now rewrite len_complete.
Qed.

(* ---- arguments ---- *)
Definition wrapped (ds : list N) : N := decimal ds mod 2 ^ 64.
Lemma emit_arg_eq : forall args us o i spec,
  emit_arg args us o i spec = let! (j, t) := substitute args (Some (N.to_nat i)) spec in Ok (lset us j true, o ++ t).
Proof.
  intros. unfold emit_arg, substitute, aget. destruct (N.ltb_spec i (N.of_nat (length args))) as [L|L]; cbn [contract bind].
  - destruct (nth_error args (N.to_nat i)) as [a|] eqn:E; [|apply nth_error_None in E; lia]. cbn [bind]. destruct (do_format a spec); reflexivity.
  - rewrite (proj2 (nth_error_None args (N.to_nat i))) by lia. reflexivity.
Qed.
Lemma list_eqb_iff : forall a b, list_eqb a b = true <-> a = b.
Proof.
  induction a as [|x a IH]; intros [|y b]; cbn; split; intro H; try discriminate; auto.
  - apply andb_true_iff in H. destruct H as (A & B). apply N.eqb_eq in A. apply IH in B. congruence.
  - inversion H; subst. rewrite N.eqb_refl. cbn. now apply IH.
Qed.
Lemma find_name_eq : forall nm, nm <> [] -> forall args k,
  find_name args (N.of_nat k) nm = match first_named args k nm with Some j => N.of_nat j | None => SIZE_MAX end.
Proof.
  intros nm NE. induction args as [|a args IH]; intro k; cbn [find_name first_named]; auto.
  replace (N.of_nat k + 1) with (N.of_nat (S k)) by lia. rewrite IH. destruct (list_eq_dec N.eq_dec (name a) nm) as [E|E].
  - destruct (name a) eqn:A; [congruence|]. rewrite <- A in *. rewrite (proj2 (list_eqb_iff _ _) E). auto.
  - destruct (name a) eqn:A; [reflexivity|]. rewrite <- A in *. destruct (list_eqb (name a) nm) eqn:B; auto. apply list_eqb_iff in B. congruence.
Qed.
Lemma first_named_lt : forall nm args k j, first_named args k nm = Some j -> (j < k + length args)%nat.
Proof.
  intros nm. induction args as [|a args IH]; intros k j H; cbn in H; [discriminate|]. destruct (list_eq_dec N.eq_dec (name a) nm); [inversion H; subst; cbn; lia|].
  apply IH in H. cbn. lia.
Qed.
Definition nexts (o : option nat) : option N := option_map N.of_nat o.
Lemma next_arg_eq : forall args next spec (f : nat * list N -> outcome st),
  (let! i := next_arg args (nexts next) in let! p := substitute args (Some (N.to_nat i)) spec in f p)
  = (let! p := substitute args next spec in f p).
Proof.
  intros args [i|] spec f; [|reflexivity]. cbn [nexts option_map next_arg]. destruct (N.ltb_spec (N.of_nat i) (N.of_nat (length args))); cbn [contract bind].
  - now rewrite Nat2N.id.
  - unfold substitute. now rewrite (proj2 (nth_error_None args i)) by lia.
Qed.
Definition mark (us : list nat) (u : list bool) : list bool := fold_left (fun u i => lset u i true) us u.
Lemma mark_nth : forall us u j, (forall i, In i us -> (i < length u)%nat) ->
  nth_error (mark us u) j = if existsb (Nat.eqb j) us then Some true else nth_error u j.
Proof.
  induction us as [|i us IH]; intros u j H; cbn; auto. rewrite IH by (intros k K; rewrite lset_length; apply H; cbn; auto). rewrite lset_nth.
  assert (L : (i < length u)%nat) by (apply H; cbn; auto). apply Nat.ltb_lt in L. rewrite L, (Nat.eqb_sym j i).
  destruct (existsb (Nat.eqb j) us); [rewrite orb_true_r; auto|]. rewrite orb_false_r. destruct (Nat.eqb_spec i j); auto.
Qed.
Lemma mark_length : forall us u, length (mark us u) = length u.
Proof. induction us; intro u; cbn; auto. rewrite IHus. apply lset_length. Qed.
Lemma mark_app : forall a b u, mark (a ++ b) u = mark b (mark a u).
Proof. intros. unfold mark. apply fold_left_app. Qed.
Lemma all_used_eq : forall args us, (forall i, In i us -> (i < length args)%nat) ->
  forallb (fun u => u) (mark us (repeat false (length args))) = all_used args us.
Proof.
  intros args us H. unfold all_used.
  assert (E : mark us (repeat false (length args)) = map (fun i => existsb (Nat.eqb i) us) (seq 0 (length args))).
  { apply nth_ext_err. intro j. rewrite mark_nth by (rewrite repeat_length; auto).
    destruct (Nat.lt_ge_cases j (length args)) as [L|L].
    - rewrite (nth_error_map _ j (seq 0 (length args))).
      assert (S : nth_error (seq 0 (length args)) j = Some j).
      { rewrite (nth_error_nth' _ 0%nat) by (rewrite seq_length; auto). now rewrite seq_nth. }
      rewrite S. cbn. destruct (existsb (Nat.eqb j) us); auto. rewrite (nth_error_nth' _ false) by (rewrite repeat_length; auto). now rewrite nth_repeat.
    - rewrite (proj2 (nth_error_None (map _ _) j)) by (rewrite map_length, seq_length; auto).
      rewrite (proj2 (nth_error_None (repeat _ _) j)) by (rewrite repeat_length; auto).
      destruct (existsb (Nat.eqb j) us) eqn:X; auto. apply existsb_exists in X. destruct X as (i & I & X). apply Nat.eqb_eq in X. subst. apply H in I. lia. }
  rewrite E. clear. induction (seq 0 (length args)); cbn; auto. now rewrite IHl.
Qed.

(* ---- one iteration ---- *)
Definition pending (m : list N) (s : st) : list N := firstn (cur s - seg s) (skipn (seg s) m).
Definition vout (m : list N) (s : st) : list N := out s ++ pending m s.
Definition good (m : list N) (s : st) : Prop := (seg s <= cur s <= length m)%nat.

Lemma flush : forall m s, good m s ->
  (if (seg s =? cur s)%nat then Ok (out s) else let! t := slice m (seg s) (cur s) in Ok (out s ++ t)) = Ok (vout m s).
Proof.
  intros m s (A & B). unfold vout, pending. destruct (Nat.eqb_spec (seg s) (cur s)) as [E|E].
  - rewrite E, Nat.sub_diag. cbn. now rewrite app_nil_r.
  - unfold slice. rewrite (proj2 (Nat.leb_le _ _) A), (proj2 (Nat.leb_le _ _) B). reflexivity.
Qed.
Lemma pending_snoc : forall m s x, good m s -> aget m (cur s) = Ok x ->
  firstn (S (cur s) - seg s) (skipn (seg s) m) = pending m s ++ [x].
Proof.
  intros m s x (A & B) G. apply aget_Ok in G. unfold pending. replace (S (cur s) - seg s)%nat with (S (cur s - seg s)) by lia.
  assert (E : nth_error (skipn (seg s) m) (cur s - seg s) = Some x) by (rewrite nth_error_skipn; now replace (seg s + (cur s - seg s))%nat with (cur s) by lia).
  revert E. generalize (skipn (seg s) m) (cur s - seg s)%nat. clear. intros l k. revert l.
  induction k as [|k IH]; intros [|y l] E; try discriminate.
  - cbn in *. now inversion E.
  - cbn [nth_error] in E. cbn [firstn app]. f_equal. apply (IH l E).
Qed.
Lemma slice_snoc : forall m s x, good m s -> aget m (cur s) = Ok x -> slice m (seg s) (S (cur s)) = Ok (pending m s ++ [x]).
Proof.
  intros m s x G E. rewrite <- (pending_snoc _ _ _ G E). unfold slice. destruct G as (A & B).
  assert (S (cur s) <= length m)%nat by (apply aget_Ok in E; apply nth_error_Some; congruence).
  rewrite (proj2 (Nat.leb_le _ _)) by lia. rewrite (proj2 (Nat.leb_le (S _) _)) by lia. reflexivity.
Qed.
Lemma slice_one : forall (m : list N) c x, aget m c = Ok x -> firstn 1 (skipn c m) = [x].
Proof. intros m c x E. apply aget_Ok in E. rewrite <- (Nat.add_0_r c), <- nth_error_skipn in E. destruct (skipn c m); cbn in *; congruence. Qed.

(* what an iteration has to do for a piece *)
Definition does (m : list N) (s : st) (len : nat) (mean : outcome (list nat * list N * option nat)) (r : outcome st) : Prop :=
  match mean with
  | Ok (us, t, next) => exists s', r = Ok s' /\ cur s' = (cur s + len)%nat /\ vout m s' = vout m s ++ t /\ aid s' = nexts next /\
                                   used s' = mark us (used s) /\ good m s'
  | Contract => r = Contract
  | UB => r = UB
  | OutOfFuel => r = OutOfFuel
  end.

Lemma letter_iff : forall c, is_name_start c = true <-> letter c.
Proof.
  intros. unfold is_name_start, letter, StrModel.is_lower, StrModel.is_upper. rewrite !orb_true_iff, !andb_true_iff, !N.leb_le, N.eqb_eq. tauto.
Qed.
Lemma name_char_iff : forall c, is_name_char c = true <-> (letter c \/ digit c).
Proof. intros. unfold is_name_char. rewrite orb_true_iff, letter_iff, digit_iff. tauto. Qed.
Lemma neqb : forall x y : N, x <> y -> (x =? y) = false.
Proof. intros. now apply N.eqb_neq. Qed.
Lemma subst_cases : forall args i spec (f : nat * list N -> outcome st) (g : nat * list N -> outcome (list nat * list N * option nat)) m s len,
  (forall j t, substitute args i spec = Ok (j, t) -> does m s len (g (j, t)) (f (j, t))) ->
  does m s len (let! p := substitute args i spec in g p) (let! p := substitute args i spec in f p).
Proof. intros args i spec f g m s len H. destruct (substitute args i spec) as [[j t]| | |]; cbn [bind]; try reflexivity. now apply H. Qed.

Lemma vout_fresh : forall m c a us o, vout m (mkSt c c a us o) = o.
Proof. intros. unfold vout, pending. cbn. rewrite Nat.sub_diag. apply app_nil_r. Qed.

Lemma iter_next : forall args m s next spec d len, (cur s + len = d)%nat -> (d <= length m)%nat -> good m s -> aid s = nexts next ->
  forall k : N -> outcome st, (forall i, k i = let! p := substitute args (Some (N.to_nat i)) spec in
     let (j, t) := p in Ok (mkSt d d (Some (i + 1)) (lset (used s) j true) (vout m s ++ t))) ->
  does m s len (let! (i, t) := substitute args next spec in Ok ([i], t, option_map S next)) (let! i := next_arg args (aid s) in k i).
Proof.
  intros args m s next spec d len D L G HN k K. rewrite HN. destruct next as [i|]; [|reflexivity]. cbn [nexts option_map next_arg].
  destruct (N.ltb_spec (N.of_nat i) (N.of_nat (length args))) as [L1|L1]; cbn [contract bind].
  - rewrite K, Nat2N.id. apply subst_cases. intros j t Q. eexists. split; [reflexivity|]. cbn [cur aid used nexts option_map]. rewrite vout_fresh.
    split; [lia|]. split; [auto|]. split; [f_equal; lia|]. split; [reflexivity|]. unfold good. cbn. lia.
  - unfold substitute. rewrite (proj2 (nth_error_None args i)) by lia. reflexivity.
Qed.

Lemma iter_percent : forall py args m n s spec rest next, At m n (cur s) (37 :: spec ++ rest) -> good m s -> aid s = nexts next -> printf_spec spec ->
  does m s (S (length spec)) (piece_meaning wrapped args next (Percent spec)) (iteration true py args m n s).
Proof.
  intros py args m n s spec rest next H G HN P. unfold iteration. at_step H. rewrite B. cbn [bind andb]. change (37 =? 37) with true. cbn iota.
  rewrite (flush _ _ G). cbn [bind]. rewrite (at_eqb _ _ _ _ C).
  pose proof (l_adv_complete spec rest P) as L. pose proof (advance_at _ _ _ _ C) as V. rewrite L in V. destruct V as (d & V & W).
  assert (NE : exists x sp, spec = x :: sp /\ x <> 37).
  { destruct P as (f & w & p & l & c & -> & F & Wd & P' & Ln & Cv).
    assert (X : forall x, In x flag_chars \/ x = 42 \/ digit x \/ x = 46 \/ In x [122; 116; 106; 76; 104; 108] \/ In x conv_chars -> x <> 37).
    { unfold flag_chars, conv_chars, digit. intros x X E. subst. cbn in X. intuition (try lia; try discriminate). }
    destruct f as [|x f]; [|exists x; eexists; split; [reflexivity|apply X; inversion F; auto]]. cbn [app].
    destruct w as [|x w]; [|exists x; eexists; split; [reflexivity|apply X; destruct Wd as [Wd|Wd]; inversion Wd; auto]]. cbn [app].
    destruct p as [|x p]; [|exists x; eexists; split; [reflexivity|apply X; destruct P' as [P'|[P'|(d1 & ds & P' & _)]]; inversion P'; auto 10]]. cbn [app].
    destruct l as [|x l]; [exists c; eexists; split; [reflexivity|apply X; auto 10]|exists x; eexists; split; [reflexivity|apply X]].
    cbn in Ln. do 4 right. left. cbn. intuition (try discriminate; match goal with H : _ :: _ = _ :: _ |- _ => inversion H end; auto 10). }
  destruct NE as (x & sp & E & NX). rewrite E. cbn [app negb contract bind]. rewrite E in C. cbn [app] in C. at_step C. rewrite B0. cbn [bind].
  rewrite (neqb _ _ NX). rewrite V. cbn [bind].
  assert (D : d = (S (cur s) + length spec)%nat).
  { apply at_len in W. apply at_len in C. cbn [length] in C. rewrite app_length in C. rewrite E. cbn [length]. lia. }
  assert (NZ : (d =? S (cur s))%nat = false) by (apply Nat.eqb_neq; rewrite D, E; cbn; lia). rewrite NZ. cbn [negb contract bind].
  assert (SL : slice m (S (cur s)) d = Ok spec).
  { rewrite D. apply (at_slice m n _ spec rest). rewrite E. auto. }
  rewrite SL. cbn [bind].
  assert (PS : (if list_eqb spec [115] then [] else spec) = percent_spec spec).
  { unfold percent_spec. destruct (list_eq_dec N.eq_dec spec [115]) as [Q|Q]; destruct (list_eqb spec [115]) eqn:Q'; auto.
    - apply list_eqb_iff in Q. congruence.
    - apply list_eqb_iff in Q'. congruence. }
  rewrite PS. cbn [piece_meaning]. rewrite <- E. apply (iter_next args m s next (percent_spec spec) d); auto; [lia|pose proof (at_len _ _ _ _ W); lia|].
  intro i. rewrite emit_arg_eq. destruct (substitute args (Some (N.to_nat i)) (percent_spec spec)) as [[j t]| | |]; reflexivity.
Qed.
Definition tail_text (spec : option (list N)) : list N := match spec with None => [125] | Some s => 58 :: s ++ [125] end.
(* 264-283: from the character behind the argument name or number on *)
Definition finish (args : list arg) (m : list N) (n c : nat) (i : N) (a : option N) (us : list bool) (o : list N) : outcome (nat * option N * list bool * list N) :=
  let! _ := contract (negb (c =? n)%nat) in
  let! y := aget m c in
  if y =? 125 then let! (us, o) := emit_arg args us o i [] in Ok (c, a, us, o)
  else let! _ := contract (y =? 58) in
    let c := S c in
    let! _ := contract (negb (c =? n)%nat) in
    let start := c in
    let! c := scan_loop (S (length m)) m n (fun z => negb (z =? 125)) c in
    let! spec := slice m start c in
    let! (us, o) := emit_arg args us o i spec in Ok (c, a, us, o).
Lemma finish_ok : forall args m n c i a us o spec rest, At m n c (tail_text spec ++ rest) -> match spec with None => True | Some s => ~ In 125 s end ->
  finish args m n c i a us o = let! (us, o) := emit_arg args us o i (opt_spec spec) in Ok ((c + length (tail_text spec) - 1)%nat, a, us, o).
Proof.
  intros args m n c i a us o [s|] rest H NI; cbn [tail_text app] in H; unfold finish; rewrite (at_eqb _ _ _ _ H); cbn [negb contract bind].
  - at_step H. rewrite B. cbn [bind]. change (58 =? 125) with false. change (58 =? 58) with true. cbn iota. cbn [contract bind].
    rewrite (at_eqb _ _ _ _ C). rewrite <- app_assoc in *. cbn [app] in *.
    assert (NE : s ++ 125 :: rest <> []) by (destruct s; discriminate).
    assert (SP : span (fun z => negb (z =? 125)) (s ++ 125 :: rest) = (s, 125 :: rest)).
    { apply span_eq; [|reflexivity]. apply Forall_forall. intros z Z. destruct (N.eqb_spec z 125); [subst; contradiction|reflexivity]. }
    assert (SC := scan_loop_at (fun z => negb (z =? 125)) m n _ (S (length m)) _ C NE).
    rewrite SP in SC. cbn [fst snd] in SC. pose proof (at_len _ _ _ _ C).
    destruct (s ++ 125 :: rest) eqn:Q; [congruence|]. rewrite <- Q in *. cbn [negb contract bind]. rewrite SC by lia. cbn [bind].
    rewrite (at_slice _ _ _ _ _ C). cbn [bind opt_spec tail_text length]. rewrite app_length. cbn [length].
    replace (c + S (length s + 1) - 1)%nat with (S (c + length s)) by lia. reflexivity.
  - at_step H. rewrite B. cbn [bind]. change (125 =? 125) with true. cbn iota. cbn [opt_spec tail_text length]. replace (c + 1 - 1)%nat with c by lia. reflexivity.
Qed.
Lemma complex_eq : forall args m n c x a us o, complex_arg args m n c x a us o =
  let! (c, i, a) :=
    (if NumModel.is_digit x then
       let! _ := contract (negb (S c =? n)%nat) in
       let! (c, index) := index_loop (S (length m)) m n (S c) (x - 48) in
       let! _ := contract (index <? N.of_nat (length args)) in
       Ok (c, index, None)
     else if is_name_start x then
       let! _ := contract (negb (S c =? n)%nat) in
       let! e := scan_loop (S (length m)) m n is_name_char (S c) in
       let! nm := slice m c e in
       let! _ := contract (find_name args 0 nm <? N.of_nat (length args)) in
       Ok (e, find_name args 0 nm, None)
     else let (i, a) := auto_index a in Ok (c, i, a)) in
  finish args m n c i a us o.
Proof. reflexivity. Qed.
Lemma tail_head : forall spec rest, exists y t, tail_text spec ++ rest = y :: t /\ (y = 125 \/ y = 58).
Proof. intros [s|] rest; cbn; eauto. Qed.

(* the three ways to designate an argument *)
Lemma complex_ok : forall args m n c w spec rest next us o x t, N.of_nat (length args) <= SIZE_MAX ->
  At m n c (which_text w ++ tail_text spec ++ rest) -> which_ok w -> match spec with None => True | Some s => ~ In 125 s end ->
  which_text w ++ tail_text spec ++ rest = x :: t -> ~ (w = Next /\ spec = None) ->
  complex_arg args m n c x (nexts next) us o =
  let! (j, t) := substitute args (designated wrapped args next w) (opt_spec spec) in
  Ok ((c + length (which_text w) + length (tail_text spec) - 1)%nat, nexts (next_after next w), lset us j true, o ++ t).
Proof.
  intros args m n c w spec rest next us o x t LA H W NI X NN. rewrite complex_eq.
  destruct (tail_head spec rest) as (y & tl & T & Y).
  assert (YD : NumModel.is_digit y = false) by (destruct Y; subst; reflexivity).
  assert (YN : is_name_char y = false) by (destruct Y; subst; reflexivity).
  pose proof (at_len _ _ _ _ H) as LEN.
  destruct w as [|ds|nm]; cbn [which_text app] in *.
  - rewrite T in X. inversion X; subst x t. rewrite YD. destruct (is_name_start y) eqn:Q; [unfold is_name_char in YN; rewrite Q in YN; discriminate|].
    assert (S58 : exists s, spec = Some s) by (destruct spec; [eauto|exfalso; auto]). destruct S58 as (s & ->).
    destruct next as [i|]; cbn [nexts option_map auto_index bind].
    + rewrite (finish_ok _ _ _ _ _ _ _ _ (Some s) rest H NI), emit_arg_eq, Nat2N.id. cbn [designated next_after option_map nexts length].
      rewrite Nat.add_0_r. replace (N.of_nat i + 1) with (N.of_nat (S i)) by lia. destruct (substitute args (Some i) (opt_spec (Some s))) as [[j u]| | |]; reflexivity.
    + rewrite (finish_ok _ _ _ _ _ _ _ _ (Some s) rest H NI). unfold emit_arg. destruct (N.ltb_spec SIZE_MAX (N.of_nat (length args))); [lia|]. reflexivity.
  - destruct W as (NE & D). destruct ds as [|d ds]; [congruence|]. cbn [app] in X. inversion X; subst x t. clear X. inversion D; subst.
    rewrite (proj2 (digit_iff d)) by auto. cbn [app] in H. at_step H. rewrite (at_eqb _ _ _ _ C).
    assert (SP : span NumModel.is_digit (ds ++ tail_text spec ++ rest) = (ds, tail_text spec ++ rest)).
    { apply span_eq; [now apply (forall_iff _ _ _ digit_iff)|]. rewrite T. exact YD. }
    assert (NE' : ds ++ tail_text spec ++ rest <> []) by (rewrite T; destruct ds; discriminate).
    destruct (ds ++ tail_text spec ++ rest) eqn:Q; [congruence|]. rewrite <- Q in *. cbn [negb contract bind].
    assert (WR : d - 48 = wrap 64 (d - 48)) by (symmetry; apply wrap_small; unfold digit in *; apply (N.lt_trans _ 10); [lia|reflexivity]).
    rewrite WR. rewrite (index_loop_at m n _ _ (S c) (d - 48) C NE') by (pose proof (at_len _ _ _ _ C); lia). rewrite SP. cbn [fst snd]. rewrite T. cbn [bind].
    assert (V : wrap 64 (number (d - 48) ds) = wrapped (d :: ds)) by reflexivity. rewrite V.
    destruct (N.ltb_spec (wrapped (d :: ds)) (N.of_nat (length args))) as [L|L]; cbn [contract bind].
    + assert (AT : At m n (S c + length ds) (tail_text spec ++ rest)) by (apply (at_app m n (S c) ds); exact C).
      rewrite (finish_ok _ _ _ _ _ _ _ _ spec rest AT NI), emit_arg_eq. cbn [designated next_after nexts option_map length].
      replace (c + S (length ds))%nat with (S c + length ds)%nat by lia. destruct (substitute args _ _) as [[j u]| | |]; reflexivity.
    + cbn [designated]. unfold substitute. rewrite (proj2 (nth_error_None args _)) by lia. reflexivity.
  - destruct W as (l & cs & -> & L & F). cbn [app] in X. inversion X; subst x t. clear X.
    assert (ND : NumModel.is_digit l = false).
    { destruct (NumModel.is_digit l) eqn:Q; auto. apply digit_iff in Q. unfold digit, letter in *. lia. }
    rewrite ND, (proj2 (letter_iff l) L). cbn [app] in H. at_step H. rewrite (at_eqb _ _ _ _ C).
    assert (SP : span is_name_char (cs ++ tail_text spec ++ rest) = (cs, tail_text spec ++ rest)).
    { apply span_eq; [now apply (forall_iff _ _ _ name_char_iff)|]. rewrite T. exact YN. }
    assert (NE' : cs ++ tail_text spec ++ rest <> []) by (rewrite T; destruct cs; discriminate).
    destruct (cs ++ tail_text spec ++ rest) eqn:Q; [congruence|]. rewrite <- Q in *. cbn [negb contract bind].
    rewrite (scan_loop_at is_name_char m n _ _ (S c) C NE') by (pose proof (at_len _ _ _ _ C); lia). rewrite SP. cbn [fst snd]. rewrite T. cbn [bind].
    assert (SL : slice m c (S c + length cs) = Ok (l :: cs)).
    { replace (S c + length cs)%nat with (c + length (l :: cs))%nat by (cbn; lia). eapply at_slice. cbn [app]. exact H. }
    rewrite SL. cbn [bind].
    assert (FN : find_name args 0 (l :: cs) = match first_named args 0 (l :: cs) with Some j => N.of_nat j | None => SIZE_MAX end)
      by (apply (find_name_eq (l :: cs) ltac:(discriminate) args 0)). rewrite FN. cbn [designated].
    destruct (first_named args 0 (l :: cs)) as [j|] eqn:FJ.
    + apply first_named_lt in FJ. destruct (N.ltb_spec (N.of_nat j) (N.of_nat (length args))) as [L1|L1]; [|lia]. cbn [contract bind].
      assert (AT : At m n (S c + length cs) (tail_text spec ++ rest)) by (apply (at_app m n (S c) cs); exact C).
      rewrite (finish_ok _ _ _ _ _ _ _ _ spec rest AT NI), emit_arg_eq, Nat2N.id. cbn [next_after nexts option_map length].
      replace (c + S (length cs))%nat with (S c + length cs)%nat by lia. destruct (substitute args _ _) as [[k u]| | |]; reflexivity.
    + destruct (N.ltb_spec SIZE_MAX (N.of_nat (length args))); [lia|]. reflexivity.
Qed.

Lemma iter_brace : forall pf args m n s w spec rest next, N.of_nat (length args) <= SIZE_MAX -> At m n (cur s) (piece_text (Brace w spec) ++ rest) -> good m s -> aid s = nexts next ->
  which_ok w -> match spec with None => True | Some s => ~ In 125 s end ->
  does m s (length (piece_text (Brace w spec))) (piece_meaning wrapped args next (Brace w spec)) (iteration pf true args m n s).
Proof.
  intros pf args m n s w spec rest next LA H G HN W NI.
  assert (PT : piece_text (Brace w spec) = 123 :: which_text w ++ tail_text spec) by (destruct spec; reflexivity).
  rewrite PT in *. cbn [app] in H. rewrite <- app_assoc in H. unfold iteration. at_step H. rewrite B. cbn [bind].
  replace (pf && (123 =? 37)) with false by (now rewrite andb_false_r). cbn [andb].
  change (123 =? 125) with false. change (123 =? 123) with true. cbn iota. rewrite (flush _ _ G). cbn [bind]. rewrite (at_eqb _ _ _ _ C).
  destruct (which_text w ++ tail_text spec ++ rest) as [|x t] eqn:X.
  { destruct (tail_head spec rest) as (y & tl & T & _). rewrite T in X. destruct (which_text w); discriminate. }
  cbn [negb contract bind]. at_step C. rewrite B0. cbn [bind].
  assert (NX : x <> 123).
  { destruct w as [|ds|nm]; cbn in X, W.
    - destruct (tail_head spec rest) as (y & tl & T & Y). rewrite T in X. inversion X; subst. destruct Y; subst; discriminate.
    - destruct W as (NE & D). destruct ds; [congruence|]. inversion D; subst. inversion X; subst. unfold digit in *. lia.
    - destruct W as (l & cs & -> & L & F). inversion X; subst. unfold letter in *. lia. }
  rewrite (neqb _ _ NX). cbn [length]. rewrite app_length.
  assert (LEN := at_len _ _ _ _ H). cbn [length] in LEN. assert (LX : length (x :: t) = (length (which_text w) + length (tail_text spec) + length rest)%nat) by (rewrite <- X, !app_length; lia). cbn [length] in LX.
  destruct (N.eqb_spec x 125) as [E|E].
  - (* plain {} *)
    assert (w = Next /\ spec = None) as (-> & ->).
    { destruct w as [|ds|nm]; cbn in X, W.
      - split; auto. destruct spec as [sp|]; auto. cbn in X. inversion X; subst. discriminate.
      - destruct W as (NE & D). destruct ds; [congruence|]. inversion D; subst. inversion X; subst. unfold digit in *. lia.
      - destruct W as (l & cs & -> & L & F). inversion X; subst. unfold letter in *. lia. }
    cbn [piece_meaning designated next_after opt_spec which_text tail_text length Nat.add] in *.
    apply (iter_next args m s next [] (S (S (cur s)))); auto; [lia|lia|]. intro i. rewrite emit_arg_eq. destruct (substitute args (Some (N.to_nat i)) []) as [[j u]| | |]; reflexivity.
  - rewrite HN. rewrite (complex_ok args m n (S (cur s)) w spec rest next (used s) (vout m s) x t); auto; [|rewrite X; exact C|].
    2:{ intros (-> & ->). cbn in X. inversion X. congruence. }
    cbn [piece_meaning]. destruct (substitute args (designated wrapped args next w) (opt_spec spec)) as [[j u]| | |]; cbn [bind]; try reflexivity.
    cbn [does]. eexists. split; [reflexivity|]. cbn [cur aid used]. rewrite vout_fresh.
    assert (1 <= length (tail_text spec))%nat by (destruct spec; cbn; lia).
    split; [lia|]. split; [auto|]. split; [auto|]. split; [reflexivity|]. unfold good. cbn [seg cur]. lia.
Qed.

Lemma iter_lit : forall pf py args m n s c rest next, At m n (cur s) (c :: rest) -> good m s -> aid s = nexts next -> piece_ok pf py (Lit c) ->
  does m s 1 (Ok ([], [c], next)) (iteration pf py args m n s).
Proof.
  intros pf py args m n s c rest next H G HN (P & Q). unfold iteration. at_step H. rewrite B. cbn [bind].
  assert (E1 : pf && (c =? 37) = false) by (destruct pf; auto; apply neqb; auto).
  assert (E2 : py && (c =? 125) = false) by (destruct py; auto; apply neqb; apply Q; auto).
  assert (E3 : py && (c =? 123) = false) by (destruct py; auto; apply neqb; apply Q; auto).
  rewrite E1, E2, E3. eexists. split; [reflexivity|]. cbn [cur aid used]. split; [lia|]. split; [|split; [auto|split; [reflexivity|]]].
  - unfold vout at 1. unfold pending. cbn [cur seg out]. rewrite (pending_snoc _ _ _ G B). unfold vout. now rewrite app_assoc.
  - unfold good in *. cbn [seg cur]. pose proof (at_len _ _ _ _ C). lia.
Qed.
Lemma iter_escape : forall pf py args m n s p c rest next, (p = EscPercent /\ c = 37) \/ (p = EscOpen /\ c = 123) \/ (p = EscClose /\ c = 125) ->
  At m n (cur s) (c :: c :: rest) -> good m s -> aid s = nexts next -> piece_ok pf py p -> does m s 2 (Ok ([], [c], next)) (iteration pf py args m n s).
Proof.
  intros pf py args m n s p c rest next K H G HN P. unfold iteration. at_step H. rewrite B. cbn [bind]. pose proof (at_len _ _ _ _ C) as LEN. cbn [length] in LEN.
  destruct K as [(-> & ->)|[(-> & ->)|(-> & ->)]]; cbn in P; subst.
  - cbn [andb]. change (37 =? 37) with true. cbn iota. rewrite (flush _ _ G). cbn [bind]. rewrite (at_eqb _ _ _ _ C). cbn [negb contract bind]. at_step C. rewrite B0. cbn [bind].
    change (37 =? 37) with true. cbn iota. eexists. split; [reflexivity|]. cbn [cur aid used]. split; [lia|]. split; [|split; [auto|split; [reflexivity|unfold good; cbn; lia]]].
    unfold vout at 1, pending. cbn [cur seg out]. replace (S (S (cur s)) - S (cur s))%nat with 1%nat by lia. now rewrite (slice_one _ _ _ B0).
  - replace (pf && (123 =? 37)) with false by (now rewrite andb_false_r). cbn [andb].
    change (123 =? 125) with false. change (123 =? 123) with true. cbn iota. rewrite (flush _ _ G). cbn [bind]. rewrite (at_eqb _ _ _ _ C). cbn [negb contract bind]. at_step C. rewrite B0. cbn [bind].
    change (123 =? 123) with true. cbn iota. eexists. split; [reflexivity|]. cbn [cur aid used]. split; [lia|]. split; [|split; [auto|split; [reflexivity|unfold good; cbn; lia]]].
    unfold vout at 1, pending. cbn [cur seg out]. replace (S (S (cur s)) - S (cur s))%nat with 1%nat by lia. now rewrite (slice_one _ _ _ B0).
  - replace (pf && (125 =? 37)) with false by (now rewrite andb_false_r). cbn [andb].
    change (125 =? 125) with true. cbn iota. rewrite (at_eqb _ _ _ _ C). cbn [negb contract bind]. at_step C. rewrite B0. cbn [bind].
    change (125 =? 125) with true. cbn [contract bind]. rewrite (slice_snoc _ _ _ G B). cbn [bind].
    eexists. split; [reflexivity|]. cbn [cur aid used]. split; [lia|]. split; [|split; [auto|split; [reflexivity|unfold good; cbn; lia]]].
    rewrite vout_fresh. unfold vout. now rewrite app_assoc.
Qed.
Lemma iter_piece : forall pf py args m n s p rest next, N.of_nat (length args) <= SIZE_MAX -> piece_ok pf py p ->
  At m n (cur s) (piece_text p ++ rest) -> good m s -> aid s = nexts next ->
  does m s (length (piece_text p)) (piece_meaning wrapped args next p) (iteration pf py args m n s).
Proof.
  intros pf py args m n s p rest next LA P H G HN. destruct p as [c| | | |w spec|spec].
  - exact (iter_lit pf py args m n s c rest next H G HN P).
  - apply (iter_escape pf py args m n s EscPercent 37 rest next); auto.
  - apply (iter_escape pf py args m n s EscOpen 123 rest next); auto.
  - apply (iter_escape pf py args m n s EscClose 125 rest next); auto.
  - destruct P as (-> & W & NI). exact (iter_brace pf args m n s w spec rest next LA H G HN W NI).
  - destruct P as (-> & P). exact (iter_percent py args m n s spec rest next H G HN P).
Qed.

(* ---- whole format strings ---- *)
Lemma piece_len : forall p, (1 <= length (piece_text p))%nat.
Proof. intros [c| | | |w [s|]|s]; cbn; rewrite ?app_length; cbn; lia. Qed.
Lemma subst_lt : forall args i spec j t, substitute args i spec = Ok (j, t) -> (j < length args)%nat.
Proof.
  intros args [i|] spec j t H; [|discriminate]. cbn in H. destruct (nth_error args i) as [a|] eqn:E; [|discriminate].
  apply bind_Ok in H. destruct H as (u & _ & H). inversion H; subst. apply nth_error_Some. congruence.
Qed.
Lemma pm_lt : forall val args next p us t next' j, piece_meaning val args next p = Ok (us, t, next') -> In j us -> (j < length args)%nat.
Proof.
  intros val args next p us t next' j H I. destruct p as [c| | | |w s|s]; cbn in H; try (inversion H; subst; contradiction).
  - apply bind_Ok in H. destruct H as ([i u] & A & H). inversion H; subst. destruct I as [<-|[]]. eapply subst_lt; eauto.
  - apply bind_Ok in H. destruct H as ([i u] & A & H). inversion H; subst. destruct I as [<-|[]]. eapply subst_lt; eauto.
Qed.
Lemma meaning_lt : forall val args ps next us t j, meaning val args next ps = Ok (us, t) -> In j us -> (j < length args)%nat.
Proof.
  intros val args. induction ps as [|p ps IH]; intros next us t j H I; cbn in H; [inversion H; subst; contradiction|].
  apply bind_Ok in H. destruct H as ([[u1 t1] n1] & A & H). apply bind_Ok in H. destruct H as ([u2 t2] & B & H). inversion H; subst.
  apply in_app_or in I. destruct I as [I|I]; [eapply pm_lt; eauto|eapply IH; eauto].
Qed.

(* running over the text of some pieces *)
Lemma run_pieces : forall pf py args m n rest, N.of_nat (length args) <= SIZE_MAX -> forall ps s next fuel, Forall (piece_ok pf py) ps ->
  At m n (cur s) (text ps ++ rest) -> good m s -> aid s = nexts next -> (length (text ps ++ rest) < fuel)%nat ->
  match meaning wrapped args next ps with
  | Ok (us, t) => exists s' fuel' next', run fuel pf py args m n s = run fuel' pf py args m n s' /\ At m n (cur s') rest /\ good m s' /\
        aid s' = nexts next' /\ vout m s' = vout m s ++ t /\ used s' = mark us (used s) /\ (length rest < fuel')%nat
  | Contract => run fuel pf py args m n s = Contract
  | UB => run fuel pf py args m n s = UB
  | OutOfFuel => run fuel pf py args m n s = OutOfFuel
  end.
Proof.
  intros pf py args m n rest LA. induction ps as [|p ps IH]; intros s next fuel F H G HN L.
  - cbn [meaning]. exists s, fuel, next. split; [auto|]. split; [exact H|]. split; [auto|]. split; [auto|]. split; [now rewrite app_nil_r|]. split; [auto|exact L].
  - inversion F as [|? ? P F']; subst. cbn [text map concat] in H, L. fold (text ps) in H, L. rewrite <- app_assoc in H, L. rewrite app_length in L.
    pose proof (piece_len p) as PL. destruct fuel as [|fuel]; [lia|]. cbn [run].
    assert (NE : (cur s =? n)%nat = false) by (rewrite (at_eqb _ _ _ _ H); destruct (piece_text p); [cbn in PL; lia|auto]). rewrite NE.
    pose proof (iter_piece pf py args m n s p _ next LA P H G HN) as D. unfold does in D. cbn [meaning].
    destruct (piece_meaning wrapped args next p) as [[[us t] next']| | |]; cbn [bind]; try (now rewrite D).
    destruct D as (s' & D & E1 & E2 & E3 & E4 & G'). rewrite D. cbn [bind].
    assert (H' : At m n (cur s') (text ps ++ rest)) by (rewrite E1; apply at_app; exact H).
    specialize (IH s' next' fuel F' H' G' E3 ltac:(lia)). destruct (meaning wrapped args next' ps) as [[vs r]| | |]; cbn [bind]; auto.
    destruct IH as (s2 & f2 & n2 & R & A2 & G2 & N2 & V2 & U2 & L2). exists s2, f2, n2.
    split; [auto|]. split; [auto|]. split; [auto|]. split; [auto|]. split; [|split; [|auto]].
    + now rewrite V2, E2, app_assoc.
    + now rewrite U2, E4, mark_app.
Qed.
Definition start (args : list arg) : st := mkSt 0 0 (Some 0) (repeat false (length args)) [].
Lemma start_at : forall fmt extra, At (fmt ++ extra) (length fmt) 0 fmt.
Proof. intros. exists [], extra. cbn. auto. Qed.
Lemma start_good : forall args m, good m (start args).
Proof. intros. unfold good. cbn. lia. Qed.
Lemma final_flush : forall m n s, At m n (cur s) [] -> good m s ->
  (if (seg s =? n)%nat then Ok (out s) else let! t := slice m (seg s) n in Ok (out s ++ t)) = Ok (vout m s).
Proof. intros m n s H G. apply at_nil in H. rewrite <- H. now apply flush. Qed.

Lemma vformat_pieces : forall pf py args ps extra, N.of_nat (length args) <= SIZE_MAX -> Forall (piece_ok pf py) ps ->
  vformat pf py args (text ps ++ extra) (length (text ps)) = formatted wrapped args ps.
Proof.
  intros pf py args ps extra LA F. unfold vformat, formatted. fold (start args).
  pose proof (run_pieces pf py args (text ps ++ extra) (length (text ps)) [] LA ps (start args) (Some 0%nat) (S (length (text ps ++ extra))) F) as R.
  rewrite app_nil_r in R. specialize (R (start_at _ _) (start_good _ _) eq_refl ltac:(rewrite app_length; lia)).
  destruct (meaning wrapped args (Some 0%nat) ps) as [[us t]| | |] eqn:M; cbn [bind]; try (now rewrite R).
  destruct R as (s' & f' & n' & R & A & G & _ & V & U & L). rewrite R. destruct f' as [|f']; [lia|]. cbn [run].
  rewrite (at_eqb _ _ _ _ A). cbn [bind]. rewrite (final_flush _ _ _ A G). cbn [bind]. rewrite U, V. cbn [start used].
  rewrite all_used_eq by (intros i I; eapply meaning_lt; eauto). destruct (all_used args us); reflexivity.
Qed.

(* ---- arbitrary format strings ---- *)
Lemma which_next : forall args m n c x a us o, NumModel.is_digit x = false -> is_name_start x = false ->
  complex_arg args m n c x a us o = let (i, a) := auto_index a in finish args m n c i a us o.
Proof. intros. rewrite complex_eq, H, H0. destruct (auto_index a). reflexivity. Qed.
(* the part behind the argument name *)
Lemma finish_cases : forall args m n c i a us o l, At m n c l ->
  (exists spec rest, l = tail_text spec ++ rest /\ match spec with None => True | Some s => ~ In 125 s end) \/ finish args m n c i a us o = Contract.
Proof.
  intros args m n c i a us o l H. unfold finish. rewrite (at_eqb _ _ _ _ H). destruct l as [|y l]; [right; reflexivity|]. cbn [negb contract bind]. at_step H. rewrite B. cbn [bind].
  destruct (N.eqb_spec y 125); [subst; left; exists None, l; auto|]. destruct (N.eqb_spec y 58); [subst|right; reflexivity]. cbn [contract bind].
  rewrite (at_eqb _ _ _ _ C). destruct l as [|z l]; [right; reflexivity|]. cbn [negb contract bind].
  pose proof (at_len _ _ _ _ C). rewrite (scan_loop_at _ m n _ (S (length m)) _ C) by (try discriminate; lia).
  set (p := fun z => negb (z =? 125)). pose proof (span_app p (z :: l)) as E. pose proof (span_all p (z :: l)) as F. pose proof (span_hd p (z :: l)) as S.
  destruct (span p (z :: l)) as [u v]. cbn [fst snd] in *. destruct v as [|w v]; [right; reflexivity|]. left. exists (Some u), v. cbn [tail_text app]. split.
  - rewrite E. rewrite <- app_assoc. specialize (S w v eq_refl). unfold p in S. apply negb_false_iff, N.eqb_eq in S. subst. reflexivity.
  - intro I. rewrite Forall_forall in F. apply F in I. discriminate.
Qed.
Lemma complex_cases : forall args m n c x t a us o, At m n c (x :: t) -> x <> 123 -> x <> 125 ->
  (exists w spec rest, x :: t = which_text w ++ tail_text spec ++ rest /\ which_ok w /\ match spec with None => True | Some s => ~ In 125 s end) \/
  complex_arg args m n c x a us o = Contract.
Proof.
  intros args m n c x t a us o H N1 N2. rewrite complex_eq. pose proof (at_len _ _ _ _ H) as LEN. cbn [length] in LEN.
  destruct (NumModel.is_digit x) eqn:D; [|destruct (is_name_start x) eqn:NS].
  - at_step H. rewrite (at_eqb _ _ _ _ C). destruct t as [|y t]; [right; reflexivity|]. cbn [negb contract bind].
    assert (WR : x - 48 = wrap 64 (x - 48)) by (symmetry; apply digit_iff in D; apply wrap_small; unfold digit in *; apply (N.lt_trans _ 10); [lia|reflexivity]).
    rewrite WR. rewrite (index_loop_at m n _ _ (S c) (x - 48) C) by (try discriminate; lia).
    pose proof (span_app NumModel.is_digit (y :: t)) as E. pose proof (span_all NumModel.is_digit (y :: t)) as F.
    destruct (span NumModel.is_digit (y :: t)) as [u v]. cbn [fst snd] in *. destruct v as [|w v]; [right; reflexivity|]. cbn [bind].
    destruct (wrap 64 (number (x - 48) u) <? N.of_nat (length args)); [|right; reflexivity]. cbn [contract bind].
    rewrite E in C. destruct (finish_cases args m n (S c + length u) (wrap 64 (number (x - 48) u)) None us o (w :: v)) as [(spec & rest & E2 & NI)|Fi]; [now apply at_app| |right; exact Fi].
    left. exists (Index (x :: u)), spec, rest. cbn [which_text app]. split; [now rewrite E, E2|]. split; [|auto]. split; [discriminate|].
    constructor; [now apply digit_iff|now apply (forall_iff _ _ _ digit_iff)].
  - at_step H. rewrite (at_eqb _ _ _ _ C). destruct t as [|y t]; [right; reflexivity|]. cbn [negb contract bind].
    rewrite (scan_loop_at is_name_char m n _ _ (S c) C) by (try discriminate; lia).
    pose proof (span_app is_name_char (y :: t)) as E. pose proof (span_all is_name_char (y :: t)) as F.
    destruct (span is_name_char (y :: t)) as [u v]. cbn [fst snd] in *. destruct v as [|w v]; [right; reflexivity|]. cbn [bind].
    destruct (slice m c (S c + length u)) eqn:SL.
    2-4: exfalso; replace (S c + length u)%nat with (c + length (x :: u))%nat in SL by (cbn; lia);
         rewrite (at_slice m n c (x :: u) (w :: v)) in SL by (cbn [app]; rewrite <- E; exact H); discriminate.
    cbn [bind]. destruct (find_name args 0 a0 <? N.of_nat (length args)); [|right; reflexivity]. cbn [contract bind].
    rewrite E in C. destruct (finish_cases args m n (S c + length u) (find_name args 0 a0) None us o (w :: v)) as [(spec & rest & E2 & NI)|Fi]; [now apply at_app| |right; exact Fi].
    left. exists (Named (x :: u)), spec, rest. cbn [which_text app]. split; [now rewrite E, E2|]. split; [|auto]. exists x, u.
    split; auto. split; [now apply letter_iff|now apply (forall_iff _ _ _ name_char_iff)].
  - cbn [bind]. destruct (auto_index a) as [i a']. cbn [bind].
    destruct (finish_cases args m n c i a' us o (x :: t) H) as [(spec & rest & E2 & NI)|Fi]; [|right; exact Fi].
    left. exists Next, spec, rest. cbn. auto.
Qed.

(* every iteration handles a piece, or stops: at an error, or at a specification that the view cuts off *)
Lemma iter_cases : forall pf py args m n s l, At m n (cur s) l -> l <> [] -> good m s ->
  (exists p rest, piece_ok pf py p /\ l = piece_text p ++ rest) \/
  iteration pf py args m n s = Contract \/
  (pf = true /\ exists t, l = 37 :: t /\ unfinished_spec t /\
     match aget m n with Ok x => is_conv x = false -> iteration pf py args m n s = Contract | _ => iteration pf py args m n s = UB end).
Proof.
  intros pf py args m n s l H NE G. destruct l as [|x l]; [congruence|]. unfold iteration. at_step H. rewrite B. cbn [bind].
  destruct (pf && (x =? 37)) eqn:E1; [|destruct (py && (x =? 125)) eqn:E2; [|destruct (py && (x =? 123)) eqn:E3]].
  - apply andb_true_iff in E1. destruct E1 as (-> & E1). apply N.eqb_eq in E1. subst x. rewrite (flush _ _ G). cbn [bind].
    rewrite (at_eqb _ _ _ _ C). destruct l as [|y l]; [right; left; reflexivity|]. cbn [negb contract bind]. at_step C. rewrite B0. cbn [bind].
    destruct (N.eqb_spec y 37); [left; subst; exists EscPercent, l; cbn; auto|].
    pose proof (advance_at _ _ _ _ C) as V. destruct (l_adv (y :: l)) as [[r|]| | |] eqn:LA; try contradiction.
    + left. apply l_adv_sound in LA. destruct LA as (sp & P & E). exists (Percent sp), r. cbn. rewrite E. auto.
    + right; right. split; auto. exists (y :: l). split; auto. split; [now apply l_adv_none|]. rewrite V. unfold adv_conv.
      destruct (aget m n) as [z| | |] eqn:Z; try reflexivity; try (unfold aget in Z; destruct (nth_error m n); discriminate).
      intro CV. cbn [bind]. now rewrite CV.
    + right; left. now rewrite V.
  - apply andb_true_iff in E2. destruct E2 as (-> & E2). apply N.eqb_eq in E2. subst x.
    rewrite (at_eqb _ _ _ _ C). destruct l as [|y l]; [right; left; reflexivity|]. cbn [negb contract bind]. at_step C. rewrite B0. cbn [bind].
    destruct (N.eqb_spec y 125); [left; subst; exists EscClose, l; cbn; auto|right; left; reflexivity].
  - apply andb_true_iff in E3. destruct E3 as (-> & E3). apply N.eqb_eq in E3. subst x. rewrite (flush _ _ G). cbn [bind].
    rewrite (at_eqb _ _ _ _ C). destruct l as [|y l]; [right; left; reflexivity|]. cbn [negb contract bind]. at_step C. rewrite B0. cbn [bind].
    destruct (N.eqb_spec y 123); [left; subst; exists EscOpen, l; cbn; auto|].
    destruct (N.eqb_spec y 125); [left; subst; exists (Brace Next None), l; cbn; auto|].
    destruct (complex_cases args m n (S (cur s)) y l (aid s) (used s) (vout m s) C n0 n1) as [(w & spec & rest & E & W & NI)|F].
    + left. exists (Brace w spec), rest. split; [cbn; auto|].
      assert (PT : piece_text (Brace w spec) = 123 :: which_text w ++ tail_text spec) by (destruct spec; reflexivity). rewrite PT. cbn [app]. now rewrite <- app_assoc, E.
    + right; left. now rewrite F.
  - left. exists (Lit x), l. split; [|auto]. cbn. split; intro; subst; cbn in *; [now apply N.eqb_neq|split; now apply N.eqb_neq].
Qed.

Lemma run_cases : forall pf py args m n, N.of_nat (length args) <= SIZE_MAX -> forall k l s next fuel, (length l <= k)%nat -> At m n (cur s) l -> good m s -> aid s = nexts next -> (length l < fuel)%nat ->
  (exists ps, Forall (piece_ok pf py) ps /\ l = text ps) \/
  (exists ps r, Forall (piece_ok pf py) ps /\ l = text ps ++ r /\ (forall us t, meaning wrapped args next ps = Ok (us, t) ->
     run fuel pf py args m n s = Contract \/
     (pf = true /\ exists sp, r = 37 :: sp /\ unfinished_spec sp /\ match aget m n with Ok x => is_conv x = false -> run fuel pf py args m n s = Contract | _ => run fuel pf py args m n s = UB end))).
Proof.
  intros pf py args m n LA. induction k as [|k IH]; intros l s next fuel K H G HN L.
  - left. exists []. destruct l; [auto|cbn in K; lia].
  - destruct (list_eq_dec N.eq_dec l []) as [->|NE]; [left; exists []; auto|].
    destruct fuel as [|fuel]; [lia|].
    assert (E0 : (cur s =? n)%nat = false) by (rewrite (at_eqb _ _ _ _ H); destruct l; congruence).
    destruct (iter_cases pf py args m n s l H NE G) as [(p & rest & P & ->)|Q].
    + pose proof (iter_piece pf py args m n s p rest next LA P H G HN) as D. pose proof (piece_len p) as PL. rewrite app_length in K, L.
      destruct (piece_meaning wrapped args next p) as [[[us t] next']| | |] eqn:PM.
      2-4: right; exists [p], rest; split; [auto|]; split; [unfold text; cbn; now rewrite app_nil_r|]; intros us t M; cbn [meaning] in M; rewrite PM in M; discriminate.
      destruct D as (s' & D & E1 & E2 & E3 & E4 & G').
      destruct (IH rest s' next' fuel ltac:(lia)) as [(ps & F & ->)|(ps & r & F & -> & R)]; auto; [rewrite E1; now apply at_app|lia|left; exists (p :: ps); auto|].
      right. exists (p :: ps), r. split; [auto|]. split; [unfold text; cbn; now rewrite <- app_assoc|]. intros us' t' M. cbn [meaning] in M. rewrite PM in M. cbn [bind] in M.
      apply bind_Ok in M. destruct M as ([vs q] & M & _). cbn [run]. rewrite E0, D. cbn [bind]. eapply R; eauto.
    + right. exists [], l. split; auto. split; auto. intros us t M. cbn [run]. rewrite E0. destruct Q as [Q|(-> & sp & -> & U & Q)].
      * left. now rewrite Q.
      * right. split; auto. exists sp. split; auto. split; auto. destruct (aget m n); [intro CV; now rewrite (Q CV)|now rewrite Q..].
Qed.
Lemma meaning_fit : forall args ps next, numbers_fit ps -> meaning wrapped args next ps = meaning decimal args next ps.
Proof.
  intros args ps next F. revert next. induction F as [|p ps P F IH]; intro next; cbn [meaning]; auto.
  assert (E : piece_meaning wrapped args next p = piece_meaning decimal args next p).
  { destruct p as [c| | | |[|ds|nm] sp|sp]; cbn [piece_meaning]; auto. cbn [designated]. unfold wrapped. now rewrite N.mod_small. }
  rewrite E. destruct (piece_meaning decimal args next p) as [[[us t] n']| | |]; cbn [bind]; auto. now rewrite IH.
Qed.
Lemma formatted_fit : forall args ps, numbers_fit ps -> formatted wrapped args ps = formatted decimal args ps.
Proof. intros args ps F. unfold formatted. now rewrite meaning_fit. Qed.
Lemma safe_subst : forall args i spec, safe_args args -> safe (substitute args i spec).
Proof.
  intros args [i|] spec S; [|split; discriminate]. cbn. destruct (nth_error args i) as [a|] eqn:E; [|split; discriminate].
  apply nth_error_In in E. destruct (S a spec E). destruct (do_format a spec); cbn; split; congruence.
Qed.
Lemma safe_meaning : forall val args ps next, safe_args args -> safe (meaning val args next ps).
Proof.
  intros val args ps. induction ps as [|p ps IH]; intros next S; [split; discriminate|]. cbn [meaning].
  assert (P : safe (piece_meaning val args next p)).
  { destruct p as [c| | | |w sp|sp]; cbn [piece_meaning]; try (split; discriminate).
    - destruct (safe_subst args (designated val args next w) (opt_spec sp) S). destruct (substitute args (designated val args next w) (opt_spec sp)) as [[? ?]| | |]; cbn; split; congruence.
    - destruct (safe_subst args next (percent_spec sp) S). destruct (substitute args next (percent_spec sp)) as [[? ?]| | |]; cbn; split; congruence. }
  destruct P. destruct (piece_meaning val args next p) as [[[us t] n']| | |]; cbn [bind]; try (split; congruence).
  destruct (IH n' S). destruct (meaning val args n' ps) as [[? ?]| | |]; cbn [bind]; split; congruence.
Qed.
Lemma vformat_cases : forall pf py args fmt extra, N.of_nat (length args) <= SIZE_MAX ->
  (exists ps, Forall (piece_ok pf py) ps /\ fmt = text ps /\ vformat pf py args (fmt ++ extra) (length fmt) = formatted wrapped args ps) \/
  (exists ps r, Forall (piece_ok pf py) ps /\ fmt = text ps ++ r /\
     match meaning wrapped args (Some 0%nat) ps with
     | Ok _ => vformat pf py args (fmt ++ extra) (length fmt) = Contract \/
       (pf = true /\ exists sp, r = 37 :: sp /\ unfinished_spec sp /\
          match extra with x :: _ => is_conv x = false -> vformat pf py args (fmt ++ extra) (length fmt) = Contract | [] => vformat pf py args (fmt ++ extra) (length fmt) = UB end)
     | Contract => vformat pf py args (fmt ++ extra) (length fmt) = Contract
     | UB => vformat pf py args (fmt ++ extra) (length fmt) = UB
     | OutOfFuel => vformat pf py args (fmt ++ extra) (length fmt) = OutOfFuel
     end).
Proof.
  intros pf py args fmt extra LA.
  destruct (run_cases pf py args (fmt ++ extra) (length fmt) LA (length fmt) fmt (start args) (Some 0%nat) (S (length (fmt ++ extra)))) as [(ps & F & E)|(ps & r & F & E & R)];
    [lia|apply start_at|apply start_good|reflexivity|rewrite app_length; lia| |].
  - left. exists ps. split; auto. split; auto. rewrite E. apply vformat_pieces; auto.
  - right. exists ps, r. split; auto. split; auto.
    pose proof (run_pieces pf py args (fmt ++ extra) (length fmt) r LA ps (start args) (Some 0%nat) (S (length (fmt ++ extra))) F) as R2.
    rewrite <- E in R2. specialize (R2 (start_at _ _) (start_good _ _) eq_refl ltac:(rewrite app_length; lia)).
    unfold vformat. fold (start args). destruct (meaning wrapped args (Some 0%nat) ps) as [[us t]| | |]; try (now rewrite R2).
    destruct (R us t eq_refl) as [Q|(-> & sp & -> & U & Q)]; [left; now rewrite Q|]. right. split; auto. exists sp. split; auto. split; auto.
    destruct extra as [|x ex].
    + assert (G : aget (fmt ++ []) (length fmt) = UB). { unfold aget. rewrite app_nil_r. now rewrite (proj2 (nth_error_None fmt (length fmt)) (le_n _)). }
      rewrite G in Q. now rewrite Q.
    + assert (G : aget (fmt ++ x :: ex) (length fmt) = Ok x). { apply aget_Ok. rewrite nth_error_app2 by lia. now rewrite Nat.sub_diag. }
      rewrite G in Q. intro CV. now rewrite (Q CV).
Qed.
Lemma format_to_meaning : forall f args ps, N.of_nat (length args) <= SIZE_MAX -> Forall (piece_ok (has_pf f) (has_py f)) ps -> numbers_fit ps ->
  format_to f (text ps) args = formatted decimal args ps /\ format f (text ps) args = formatted decimal args ps.
Proof.
  intros f args ps LA F NF. unfold format_to, format. rewrite <- formatted_fit by auto. split; [|now apply vformat_pieces].
  rewrite <- (app_nil_r (text ps)) at 1. now apply vformat_pieces.
Qed.
Lemma formatted_safe : forall val args ps, safe_args args -> safe (formatted val args ps).
Proof.
  intros val args ps S. unfold formatted. destruct (safe_meaning val args ps (Some 0%nat) S).
  destruct (meaning val args (Some 0%nat) ps) as [[us t]| | |]; cbn [bind]; try (split; congruence). destruct (all_used args us); split; discriminate.
Qed.
Lemma format_only : forall f args fmt o, N.of_nat (length args) <= SIZE_MAX -> format_to f fmt args = Ok o \/ format f fmt args = Ok o ->
  exists ps, Forall (piece_ok (has_pf f) (has_py f)) ps /\ fmt = text ps /\ formatted wrapped args ps = Ok o.
Proof.
  intros f args fmt o LA [H|H].
  - unfold format_to in H. rewrite <- (app_nil_r fmt) in H at 1. destruct (vformat_cases (has_pf f) (has_py f) args fmt [] LA) as [(ps & F & E & V)|(ps & r & F & E & V)].
    + exists ps. repeat split; auto. now rewrite <- V.
    + exfalso. destruct (meaning wrapped args (Some 0%nat) ps); try congruence. destruct V as [V|(_ & sp & _ & _ & V)]; congruence.
  - unfold format in H. destruct (vformat_cases (has_pf f) (has_py f) args fmt [0] LA) as [(ps & F & E & V)|(ps & r & F & E & V)].
    + exists ps. repeat split; auto. now rewrite <- V.
    + exfalso. destruct (meaning wrapped args (Some 0%nat) ps); try congruence. destruct V as [V|(_ & sp & _ & _ & V)]; try congruence. rewrite (V eq_refl) in H. discriminate.
Qed.
Lemma format_safe : forall f args fmt, N.of_nat (length args) <= SIZE_MAX -> safe_args args -> safe (format f fmt args).
Proof.
  intros f args fmt LA S. unfold format. destruct (vformat_cases (has_pf f) (has_py f) args fmt [0] LA) as [(ps & F & E & V)|(ps & r & F & E & V)].
  - rewrite V. now apply formatted_safe.
  - destruct (safe_meaning wrapped args ps (Some 0%nat) S). destruct (meaning wrapped args (Some 0%nat) ps); try congruence.
    + destruct V as [V|(_ & sp & _ & _ & V)]; [|rewrite (V eq_refl)]; try rewrite V; split; discriminate.
    + rewrite V. split; discriminate.
Qed.
Lemma format_to_ub : forall f args fmt, N.of_nat (length args) <= SIZE_MAX -> safe_args args ->
  safe (format_to f fmt args) \/ (f <> Pythonic /\ exists ps sp, fmt = text ps ++ 37 :: sp /\ unfinished_spec sp).
Proof.
  intros f args fmt LA S. unfold format_to. rewrite <- (app_nil_r fmt) at 1. destruct (vformat_cases (has_pf f) (has_py f) args fmt [] LA) as [(ps & F & E & V)|(ps & r & F & E & V)].
  - left. rewrite V. now apply formatted_safe.
  - destruct (safe_meaning wrapped args ps (Some 0%nat) S). destruct (meaning wrapped args (Some 0%nat) ps); try congruence.
    + destruct V as [V|(P & sp & -> & U & V)]; [left; rewrite V; split; discriminate|]. right. split; [destruct f; discriminate|]. eauto.
    + left. rewrite V. split; discriminate.
Qed.
Lemma unfinished_ub : forall f args ps sp us t, N.of_nat (length args) <= SIZE_MAX -> f <> Pythonic -> Forall (piece_ok (has_pf f) (has_py f)) ps -> unfinished_spec sp -> sp <> [] ->
  meaning wrapped args (Some 0%nat) ps = Ok (us, t) -> format_to f (text ps ++ 37 :: sp) args = UB.
Proof.
  intros f args ps sp us t LA NP F U NE M. unfold format_to, vformat. fold (start args). set (fmt := text ps ++ 37 :: sp).
  pose proof (run_pieces (has_pf f) (has_py f) args (fmt ++ []) (length fmt) (37 :: sp) LA ps (start args) (Some 0%nat) (S (length fmt)) F) as R.
  fold fmt in R. specialize (R (start_at _ _) (start_good _ _) eq_refl ltac:(lia)). rewrite M in R.
  destruct R as (s' & f' & n' & R & A & G & _ & _ & _ & L). rewrite app_nil_r in *. rewrite R. destruct f' as [|f']; [lia|]. cbn [run].
  rewrite (at_eqb _ _ _ _ A). pose proof (l_adv_unfinished sp U) as LU. destruct sp as [|y sp]; [congruence|].
  assert (NY : y <> 37) by (intros ->; discriminate LU).
  unfold iteration. at_step A. rewrite B. cbn [bind]. replace (has_pf f) with true by (destruct f; [reflexivity|reflexivity|contradiction]). cbn [andb]. change (37 =? 37) with true. cbn iota.
  rewrite (flush _ _ G). cbn [bind]. rewrite (at_eqb _ _ _ _ C). cbn [negb contract bind]. at_step C. rewrite B0. cbn [bind]. rewrite (neqb _ _ NY).
  pose proof (advance_at _ _ _ _ C) as V. rewrite LU in V. rewrite V. unfold adv_conv, aget. now rewrite (proj2 (nth_error_None fmt (length fmt)) (le_n _)).
Qed.

(* ---- literal texts and {} ---- *)
Definition lit_piece (c : N) : piece := if c =? 123 then EscOpen else if c =? 125 then EscClose else if c =? 37 then EscPercent else Lit c.
Fixpoint brace_pieces (l : list N) (ls : list (list N)) : list piece :=
  match ls with [] => map lit_piece l | l' :: ls => map lit_piece l ++ Brace Next None :: brace_pieces l' ls end.
Lemma text_app : forall a b, text (a ++ b) = text a ++ text b.
Proof. intros. unfold text. now rewrite map_app, concat_app. Qed.
Lemma lit_text : forall l, text (map lit_piece l) = escape l.
Proof.
  induction l as [|c l IH]; [reflexivity|]. unfold text, escape in *. cbn [map concat]. rewrite IH. f_equal. unfold lit_piece.
  destruct (N.eqb_spec c 123); [subst; reflexivity|]. destruct (N.eqb_spec c 125); [subst; reflexivity|]. destruct (N.eqb_spec c 37); [subst; reflexivity|reflexivity].
Qed.
Lemma brace_text : forall ls l, text (brace_pieces l ls) = with_braces l ls.
Proof.
  induction ls as [|l' ls IH]; intro l; cbn [brace_pieces with_braces]; [apply lit_text|]. rewrite text_app, lit_text. f_equal.
  unfold text in *. cbn [map concat piece_text which_text app]. rewrite IH. reflexivity.
Qed.
Lemma lit_ok : forall l, Forall (piece_ok true true) (map lit_piece l).
Proof.
  induction l as [|c l IH]; constructor; auto. unfold lit_piece. destruct (N.eqb_spec c 123); [reflexivity|]. destruct (N.eqb_spec c 125); [reflexivity|].
  destruct (N.eqb_spec c 37); [reflexivity|]. cbn. auto.
Qed.
Lemma brace_ok : forall ls l, Forall (piece_ok true true) (brace_pieces l ls).
Proof. induction ls as [|l' ls IH]; intro l; cbn [brace_pieces]; [apply lit_ok|]. apply Forall_app. split; [apply lit_ok|]. constructor; auto. cbn. auto. Qed.
Lemma lit_fit : forall l, numbers_fit (map lit_piece l).
Proof.
  intros l. apply Forall_forall. intros p I. apply in_map_iff in I. destruct I as (c & <- & _). unfold lit_piece.
  destruct (c =? 123); auto. destruct (c =? 125); auto. destruct (c =? 37); auto.
Qed.
Lemma brace_fit : forall ls l, numbers_fit (brace_pieces l ls).
Proof. induction ls as [|l' ls IH]; intro l; cbn [brace_pieces]; [apply lit_fit|]. apply Forall_app. split; [apply lit_fit|]. constructor; [exact I|apply IH]. Qed.
Lemma meaning_app : forall val args a b next, meaning val args next (map lit_piece a ++ b) = let! (us, t) := meaning val args next b in Ok (us, a ++ t).
Proof.
  intros val args a b. induction a as [|c a IH]; intro next; [cbn [map app]; destruct (meaning val args next b) as [[? ?]| | |]; reflexivity|].
  cbn [map app meaning]. assert (E : piece_meaning val args next (lit_piece c) = Ok ([], [c], next)).
  { unfold lit_piece. destruct (N.eqb_spec c 123); [subst; reflexivity|]. destruct (N.eqb_spec c 125); [subst; reflexivity|]. destruct (N.eqb_spec c 37); [subst; reflexivity|reflexivity]. }
  rewrite E. cbn [bind]. rewrite IH. destruct (meaning val args next b) as [[? ?]| | |]; reflexivity.
Qed.
Lemma meaning_braces : forall val args ls l ts k, length ls = length ts -> (forall i, (i < length ts)%nat -> exists a, nth_error args (k + i) = Some a /\ do_format a [] = Ok (nth i ts [])) ->
  meaning val args (Some k) (brace_pieces l ls) = Ok (seq k (length ts), interleave l ls ts).
Proof.
  intros val args. induction ls as [|l' ls IH]; intros l [|t ts] k L H; try discriminate.
  - cbn [brace_pieces]. rewrite <- (app_nil_r (map lit_piece l)), meaning_app. cbn. now rewrite app_nil_r.
  - cbn [brace_pieces]. rewrite meaning_app. cbn [meaning piece_meaning designated next_after opt_spec option_map substitute].
    destruct (H 0%nat ltac:(cbn; lia)) as (a & A & D). rewrite Nat.add_0_r in A. rewrite A, D. cbn [bind nth].
    rewrite (IH l' ts (S k)); [reflexivity|cbn in L; lia|]. intros i I. destruct (H (S i) ltac:(cbn; lia)) as (b & B & E). exists b. rewrite Nat.add_succ_r in B. auto.
Qed.
Lemma all_used_seq : forall args, all_used args (seq 0 (length args)) = true.
Proof.
  intros. unfold all_used. apply forallb_forall. intros i I. apply existsb_exists. exists i. split; auto. apply Nat.eqb_refl.
Qed.
Lemma format_braces : forall args l ls ts, N.of_nat (length args) <= SIZE_MAX -> length ls = length args ->
  (forall i a, nth_error args i = Some a -> do_format a [] = Ok (nth i ts [])) -> length ts = length args ->
  format Default (with_braces l ls) args = Ok (interleave l ls ts).
Proof.
  intros args l ls ts LA L H T. rewrite <- brace_text. destruct (format_to_meaning Default args (brace_pieces l ls) LA (brace_ok ls l) (brace_fit ls l)) as (_ & E).
  rewrite E. unfold formatted. rewrite (meaning_braces decimal args ls l ts 0).
  - cbn [bind]. rewrite T, all_used_seq. reflexivity.
  - lia.
  - intros i I. destruct (nth_error args i) as [a|] eqn:A; [|apply nth_error_None in A; lia]. exists a. split; [exact A|auto].
Qed.

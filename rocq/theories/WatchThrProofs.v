From Coq Require Import Arith List Bool Lia.
From Verif Require Import Base WatchThrModel.
Import ListNotations.

Lemma first_In : forall fs n f, first fs n = Some f -> In (n, f) fs.
Proof.
  induction fs as [|[m g] fs IH]; cbn; intros n f H; [discriminate|]. destruct (Nat.eqb_spec n m) as [->|]; [injection H as ->; left; reflexivity|right; apply IH; exact H].
Qed.
Lemma first_None : forall fs n f, first fs n = None -> ~ In (n, f) fs.
Proof.
  induction fs as [|[m g] fs IH]; cbn; intros n f H; [tauto|]. destruct (Nat.eqb_spec n m) as [->|N]; [discriminate|]. intros [E|I]; [injection E as -> ->; congruence|exact (IH _ _ H I)].
Qed.
Lemma first_only : forall fs n f, NoDup (map fst fs) -> In (n, f) fs -> first fs n = Some f.
Proof.
  induction fs as [|[m g] fs IH]; cbn; intros n f D H; [destruct H|]. destruct H as [E|I].
  - injection E as -> ->. rewrite Nat.eqb_refl. reflexivity.
  - inversion D as [|? ? N D']; subst. destruct (Nat.eqb_spec n m) as [->|]; [|exact (IH _ _ D' I)]. destruct N. apply in_map_iff. exists (m, f). split; [reflexivity|exact I].
Qed.
Lemma has_In : forall fs f, has fs f = true <-> In f (map snd fs).
Proof.
  intros fs f. unfold has. rewrite existsb_exists, in_map_iff. split; intros (e & A & B).
  - exists e. apply Nat.eqb_eq in B. split; assumption.
  - exists e. split; [assumption|apply Nat.eqb_eq; assumption].
Qed.
Lemma erase_In : forall fs f e, In e (erase fs f) -> In e fs.
Proof. induction fs as [|[m g] fs IH]; cbn; intros f e H; [exact H|]. destruct (g =? f); [right; exact H|]. destruct H as [H|H]; [left; exact H|right; exact (IH _ _ H)]. Qed.
Lemma erase_map : forall {B} (p : nat * nat -> B) fs f b, In b (map p (erase fs f)) -> In b (map p fs).
Proof. intros B p fs f b H. apply in_map_iff in H. destruct H as (e & <- & I). apply in_map. exact (erase_In _ _ _ I). Qed.
Lemma erase_NoDup : forall {B} (p : nat * nat -> B) fs f, NoDup (map p fs) -> NoDup (map p (erase fs f)).
Proof.
  intros B p. induction fs as [|[m g] fs IH]; cbn; intros f D; [constructor|]. inversion D as [|? ? N D']; subst. destruct (g =? f); [exact D'|].
  cbn. constructor; [intros I; apply N; exact (erase_map _ _ _ _ I)|exact (IH _ D')].
Qed.
Lemma erase_gone : forall fs f, NoDup (map snd fs) -> ~ In f (map snd (erase fs f)).
Proof.
  induction fs as [|[m g] fs IH]; cbn; intros f D; [tauto|]. inversion D as [|? ? N D']; subst. destruct (Nat.eqb_spec g f) as [<-|E]; [exact N|].
  cbn. intros [<-|I]; [congruence|exact (IH _ D' I)].
Qed.
Lemma erase_keep : forall fs f g, g <> f -> In g (map snd fs) -> In g (map snd (erase fs f)).
Proof.
  induction fs as [|[m h] fs IH]; cbn; intros f g N J; [exact J|]. destruct (Nat.eqb_spec h f) as [->|]; [destruct J; [congruence|assumption]|].
  cbn. destruct J as [J|J]; [left; exact J|right; exact (IH _ _ N J)].
Qed.
Lemma live_lt : forall fl f, live fl f = true -> f < length fl.
Proof. intros fl f H. unfold live in H. apply nth_error_Some. destruct (nth_error fl f); congruence. Qed.
Lemma nth_lset : forall {A} (l : list A) i j a, i < length l -> nth_error (lset l i a) j = if j =? i then Some a else nth_error l j.
Proof.
  induction l as [|x l IH]; intros i j a H; [cbn in H; lia|]. destruct i, j; cbn; try reflexivity. cbn in H. rewrite IH by lia. reflexivity.
Qed.
Lemma live_mark : forall fl f g b, live fl f = true -> live (lset fl f (Some b)) g = live fl g.
Proof. intros fl f g b H. unfold live at 1. rewrite nth_lset by exact (live_lt _ _ H). destruct (Nat.eqb_spec g f) as [->|]; [symmetry; exact H|reflexivity]. Qed.
Lemma live_free : forall fl f g, g <> f -> live fl f = true -> live (lset fl f None) g = live fl g.
Proof. intros fl f g N H. unfold live at 1. rewrite nth_lset by exact (live_lt _ _ H). destruct (Nat.eqb_spec g f) as [->|]; [congruence|reflexivity]. Qed.
Lemma live_app : forall fl g b, live fl g = true -> live (fl ++ [Some b]) g = true.
Proof. intros fl g b H. unfold live in *. rewrite nth_error_app1; [exact H|]. apply nth_error_Some. destruct (nth_error fl g); congruence. Qed.
Lemma live_new : forall fl b, live (fl ++ [Some b]) (length fl) = true.
Proof. intros fl b. unfold live. rewrite nth_error_app2, Nat.sub_diag by lia. reflexivity. Qed.
Lemma lset_len : forall {A} (l : list A) i a, length (lset l i a) = length l.
Proof. induction l as [|x l IH]; intros [|i] a; cbn; try reflexivity. rewrite IH. reflexivity. Qed.

(* who holds the lock *)
Definition t_in (t : tpc) : bool := match t with TInside _ _ | TLeave _ => true | _ => false end.
Definition m_in (m : mpc) : bool := match m with MPush _ _ | MPushed | MErase _ | MErased _ => true | _ => false end.
Definition locked (l : option who) (t : tpc) (m : mpc) : Prop :=
  match l with
  | None => t_in t = false /\ m_in m = false
  | Some Watching => t_in t = true /\ m_in m = false
  | Some Using => t_in t = false /\ m_in m = true
  end.
(* the flag of the running operation *)
Definition busy (m : mpc) (fs : list (nat * nat)) (fl : list (option bool)) (ns : list nat) : Prop :=
  match m with
  | MIdle | MPushed => True
  | MAdd n f | MPush n f => ~ In f (map snd fs) /\ live fl f = true /\ nth f ns 0 = n
  | MRemove f | MErase f => In f (map snd fs) /\ live fl f = true
  | MErased f | MEmpty f | MFree f => ~ In f (map snd fs) /\ live fl f = true
  | MStop f | MUnwatch f | MJoin f => fs = [] /\ live fl f = true
  end.
Definition flag_of (m : mpc) : option nat :=
  match m with
  | MAdd _ f | MPush _ f | MErased f | MEmpty f | MStop f | MUnwatch f | MJoin f | MFree f => Some f
  | _ => None
  end.
Record inv (s : st) : Prop := {
  i_files : forall n f, In (n, f) (files s) -> live (flags s) f = true /\ nth f (names s) 0 = n;
  i_nodup : NoDup (map snd (files s));
  i_lock : locked (lk s) (tp s) (mp s);
  i_busy : busy (mp s) (files s) (flags s) (names s);
  i_names : length (names s) = length (flags s);
  i_all : forall f, live (flags s) f = true -> In f (map snd (files s)) \/ flag_of (mp s) = Some f }.

Lemma inv_init : forall n, inv (init n).
Proof.
  intros n. constructor; cbn [init files flags names lk tp mp map].
  - intros m f [].
  - constructor.
  - split; reflexivity.
  - repeat split. intros [].
  - reflexivity.
  - intros [|[|f]] H; cbn in H; try discriminate. right. reflexivity.
Qed.
Lemma inv_files_busy : forall s, inv s -> forall g, In g (map snd (files s)) -> live (flags s) g = true.
Proof. intros s I g H. apply in_map_iff in H. destruct H as ([n f] & <- & H). exact (proj1 (i_files s I _ _ H)). Qed.

Lemma thr_inv : forall s k x, inv s -> thr s k = Some x -> exists s', x = Ok s' /\ inv s'.
Proof.
  intros s k x I H. pose proof (i_lock s I) as L. unfold thr in H. destruct (tp s) as [| |es|n es|es|] eqn:T; try discriminate.
  - injection H as <-. eexists. split; [reflexivity|]. destruct I. constructor; cbn; auto; destruct (alive s), (lk s) as [[]|]; cbn in *; tauto.
  - destruct (queue s); [discriminate|]. injection H as <-. eexists. split; [reflexivity|]. destruct I. constructor; cbn; auto; destruct (lk s) as [[]|]; cbn in *; tauto.
  - assert (forall t q, t_in t = false -> inv (set_thr s q (lk s) t)) as G.
    { intros t q E. destruct I. constructor; cbn; auto; destruct (lk s) as [[]|]; cbn in *; try tauto; rewrite E; tauto. }
    destruct es as [|[n| |] es]; try (injection H as <-; eexists; split; [reflexivity|apply G; reflexivity]).
    destruct (lk s) eqn:K; [discriminate|]. injection H as <-. eexists. split; [reflexivity|]. cbn in L. destruct I. constructor; cbn; tauto.
  - injection H as <-. unfold mark. destruct (first (files s) n) as [f|] eqn:F.
    + destruct (i_files s I _ _ (first_In _ _ _ F)) as [Lv _]. rewrite Lv. cbn. eexists. split; [reflexivity|].
      destruct I as [If Ind Il Ib Ins Ia]. constructor; cbn; auto.
      * intros m g J. rewrite live_mark by exact Lv. exact (If _ _ J).
      * destruct (mp s); cbn [busy] in *; rewrite ?live_mark by exact Lv; exact Ib.
      * rewrite lset_len. exact Ins.
      * intros g. rewrite live_mark by exact Lv. apply Ia.
    + cbn. eexists. split; [reflexivity|]. destruct I. constructor; cbn; auto; destruct (lk s) as [[]|]; cbn in *; tauto.
  - injection H as <-. eexists. split; [reflexivity|]. destruct I. constructor; cbn; auto; destruct (lk s) as [[]|]; cbn in *; intuition congruence.
Qed.
Lemma main_inv : forall cap s x, inv s -> main cap s = Some x -> exists s', x = Ok s' /\ inv s'.
Proof.
  intros cap s x I H. pose proof (i_lock s I) as L. pose proof (i_busy s I) as B. pose proof I as I0. destruct I as [If Ind Il Ib Ins Ia].
  unfold main in H. destruct (mp s) as [|n f|n f| |f|f|f|f|f|f|f|f] eqn:M; try discriminate.
  - destruct (lk s) eqn:K; [discriminate|]. injection H as <-. eexists. split; [reflexivity|]. constructor; cbn in *; tauto.
  - injection H as <-. eexists. split; [reflexivity|]. cbn in B. destruct B as (B1 & B2 & B3). constructor; cbn; auto.
    + intros m g J. apply in_app_or in J. destruct J as [J|[J|[]]]; [exact (If _ _ J)|injection J as <- <-; split; assumption].
    + rewrite map_app. cbn.
      clear -Ind B1. induction (map snd (files s)) as [|a l IH]; cbn; [constructor; [tauto|constructor]|]. inversion Ind; subst. constructor.
      * intros J. apply in_app_or in J. destruct J as [J|[J|[]]]; [tauto|subst; apply B1; left; reflexivity].
      * apply IH; [assumption|]. intros J. apply B1. right. exact J.
    + intros g Lv. left. rewrite map_app. cbn. apply in_or_app. cbn. destruct (Ia g Lv) as [J|J]; [left; exact J|right; left; cbn in J; congruence].
  - injection H as <-. eexists. split; [reflexivity|]. constructor; cbn; auto; destruct (lk s) as [[]|]; cbn in *; intuition congruence.
  - cbn in B. destruct (has (files s) f) eqn:Hf.
    + destruct (lk s) eqn:K; [discriminate|]. injection H as <-. eexists. split; [reflexivity|]. constructor; cbn in *; tauto.
    + destruct B as [B _]. apply has_In in B. congruence.
  - injection H as <-. eexists. split; [reflexivity|]. cbn in B. destruct B as [B1 B2]. constructor; cbn; auto.
    + intros m g J. exact (If _ _ (erase_In _ _ _ J)).
    + apply erase_NoDup. exact Ind.
    + split; [apply erase_gone; exact Ind|exact B2].
    + intros g Lv. destruct (Ia g Lv) as [J|J]; [|discriminate]. destruct (Nat.eq_dec g f) as [->|N]; [right; reflexivity|left; apply erase_keep; assumption].
  - injection H as <-. eexists. split; [reflexivity|]. constructor; cbn; auto; destruct (lk s) as [[]|]; cbn in *; intuition congruence.
  - injection H as <-. eexists. split; [reflexivity|]. cbn in B. destruct B as [B1 B2]. constructor; cbn; auto.
    + destruct (lk s) as [[]|], (files s); cbn in *; tauto.
    + destruct (files s) eqn:F; cbn; [split; [reflexivity|exact B2]|]. split; [exact B1|exact B2].
    + intros g Lv. destruct (Ia g Lv) as [J|J]; [left; exact J|right]. destruct (files s); exact J.
  - injection H as <-. eexists. split; [reflexivity|]. constructor; cbn; auto.
  - injection H as <-. eexists. split; [reflexivity|]. cbn. destruct (wd s); constructor; cbn; auto.
  - destruct (tp s) eqn:T; try discriminate. injection H as <-. eexists. split; [reflexivity|]. cbn in B. destruct B as [B1 B2]. constructor; cbn; rewrite ?T; auto.
    rewrite B1. cbn. tauto.
  - injection H as <-. eexists. split; [reflexivity|]. cbn in B. destruct B as [B1 B2]. constructor; cbn; auto.
    + intros m g J. rewrite live_free; [exact (If _ _ J)| |exact B2]. intros ->. apply B1. apply in_map_iff. exists (m, f). split; [reflexivity|exact J].
    + rewrite lset_len. exact Ins.
    + intros g Lv. destruct (Nat.eq_dec g f) as [->|N].
      * unfold live in Lv. rewrite nth_lset, Nat.eqb_refl in Lv by exact (live_lt _ _ B2). discriminate.
      * rewrite live_free in Lv by assumption. destruct (Ia g Lv) as [J|J]; [left; exact J|]. cbn in J. congruence.
Qed.
Lemma idle_eq : forall s, idle s = true -> mp s = MIdle.
Proof. intros s H. unfold idle in H. destruct (mp s); congruence. Qed.
Lemma step_inv : forall cap s a x, inv s -> step cap s a = Some x -> exists s', x = Ok s' /\ inv s'.
Proof.
  intros cap s a x I H. destruct a as [n|f|f|f| |k|n|]; cbn [step] in H; [| | | |exact (main_inv _ _ _ I H)|exact (thr_inv _ _ _ I H)| |].
  - destruct (idle s) eqn:Id; [|discriminate]. destruct (gone s); [discriminate|]. cbn in H. injection H as <-. eexists. split; [reflexivity|]. apply idle_eq in Id.
    pose proof I as I0. destruct I as [If Ind Il Ib Ins Ia]. rewrite Id in *. constructor; cbn; auto.
    + intros m g J. destruct (If _ _ J) as [A B]. split; [apply live_app; exact A|]. rewrite app_nth1; [exact B|]. rewrite Ins. exact (live_lt _ _ A).
    + repeat split.
      * intros J. pose proof (live_lt _ _ (inv_files_busy s I0 _ J)). lia.
      * apply live_new.
      * rewrite <- Ins, app_nth2, Nat.sub_diag by lia. reflexivity.
    + rewrite !app_length, Ins. reflexivity.
    + intros g Lv. unfold live in Lv. destruct (Nat.lt_ge_cases g (length (flags s))) as [G|G].
      * rewrite nth_error_app1 in Lv by exact G. destruct (Ia g Lv) as [J|J]; [left; exact J|discriminate].
      * rewrite nth_error_app2 in Lv by exact G. destruct (g - length (flags s)) as [|[|d]] eqn:E; cbn in Lv; try discriminate. right. f_equal. lia.
  - destruct (idle s) eqn:Id; [|discriminate]. destruct (live (flags s) f) eqn:Lv; [|discriminate]. cbn in H. injection H as <-. eexists. split; [reflexivity|]. apply idle_eq in Id.
    destruct I as [If Ind Il Ib Ins Ia]. rewrite Id in *. assert (forall g, live (flags s) g = true -> In g (map snd (files s))) as Ia'.
    { intros g G. destruct (Ia g G); [assumption|discriminate]. }
    constructor; cbn; auto.
  - destruct (idle s) eqn:Id; [|discriminate]. destruct (live (flags s) f) eqn:Lv; [|discriminate]. cbn in H. injection H as <-. eexists. split; [reflexivity|]. apply idle_eq in Id.
    destruct I as [If Ind Il Ib Ins Ia]. rewrite Id in *. constructor; cbn; rewrite ?Id; auto.
    + intros m g J. rewrite live_mark by exact Lv. exact (If _ _ J).
    + rewrite lset_len. exact Ins.
    + intros g. rewrite live_mark by exact Lv. apply Ia.
  - destruct (idle s) eqn:Id; [|discriminate]. destruct (live (flags s) f) eqn:Lv; [|discriminate]. cbn in H. injection H as <-. eexists. split; [reflexivity|].
    destruct I as [If Ind Il Ib Ins Ia]. constructor; cbn; auto.
  - injection H as <-. eexists. split; [reflexivity|]. destruct I as [If Ind Il Ib Ins Ia]. cbn. destruct (wd s); constructor; cbn; auto.
  - injection H as <-. eexists. split; [reflexivity|]. pose proof I as I0. destruct I as [If Ind Il Ib Ins Ia]. destruct (wd s); [constructor; cbn; auto|exact I0].
Qed.

Definition reach (cap n : nat) (s : st) : Prop := exists l, run cap (init n) l = Some (Ok s).
Lemma run_pres : forall (P : st -> Prop) cap, (forall s a s', P s -> step cap s a = Some (Ok s') -> P s') ->
  forall l s s', P s -> run cap s l = Some (Ok s') -> P s'.
Proof.
  intros P cap K. induction l as [|a l IH]; cbn; intros s s' H E; [injection E as <-; exact H|].
  destruct (step cap s a) as [[s1| | |]|] eqn:S; try discriminate. exact (IH _ _ (K _ _ _ H S) E).
Qed.
Lemma reach_inv : forall cap n s, reach cap n s -> inv s.
Proof.
  intros cap n s [l H]. refine (run_pres inv cap _ l _ _ (inv_init n) H). intros s1 a s2 I E. destruct (step_inv _ _ _ _ I E) as (s3 & X & J). injection X as ->. exact J.
Qed.

Lemma push_In : forall cap q e x, In x q -> In x (push cap q e).
Proof. intros cap q e x H. unfold push. destruct (newest q e); [exact H|]. destruct (length q <? cap); [apply in_or_app; auto|]. destruct (existsb (same Overflow) q); [exact H|apply in_or_app; auto]. Qed.
Lemma push_some : forall cap q e, push cap q e <> [].
Proof.
  intros cap q e H. unfold push in H. destruct q as [|x q].
  - unfold newest in H. cbn [rev length app existsb] in H. destruct (0 <? cap); discriminate H.
  - destruct (newest (x :: q) e); [discriminate H|]. destruct (length (x :: q) <? cap); [discriminate H|]. destruct (existsb (same Overflow) (x :: q)); discriminate H.
Qed.
Lemma newest_In : forall q n, newest q (Named n) = true -> In (Named n) q.
Proof.
  intros q n H. unfold newest in H. apply in_rev. destruct (rev q) as [|[m| |] r]; cbn in H; try discriminate. apply Nat.eqb_eq in H. subst m. left. reflexivity.
Qed.
Lemma push_room : forall cap q n, room cap q (Named n) = true -> In (Named n) (push cap q (Named n)).
Proof.
  intros cap q n H. unfold room in H. unfold push. destruct (newest q (Named n)) eqn:E; [exact (newest_In _ _ E)|]. cbn [orb] in H. rewrite H. apply in_or_app. right. left. reflexivity.
Qed.

(* stopping the thread *)
Definition stopping (m : mpc) : bool := match m with MUnwatch _ | MJoin _ => true | _ => false end.
Definition joining (m : mpc) : bool := match m with MJoin _ => true | _ => false end.
Definition ending (m : mpc) : bool := match m with MIdle | MFree _ => true | _ => false end.
Record invB (s : st) : Prop := {
  b_inv : inv s;
  b_gone : gone s = true -> tp s = TDone /\ files s = [] /\ ending (mp s) = true /\ lk s = None;
  b_alive : alive s = negb (gone s || stopping (mp s));
  b_done : tp s = TDone -> alive s = false;
  b_wd : deleted s = false -> joining (mp s) = false -> gone s = false -> wd s = true;
  b_off : joining (mp s) = true -> wd s = false;
  b_read : deleted s = false -> joining (mp s) = true -> tp s = TRead -> queue s <> [] }.
Lemma invB_init : forall n, invB (init n).
Proof. intros n. constructor; cbn; try discriminate; try reflexivity. apply inv_init. Qed.
Lemma thr_B : forall s k s', invB s -> thr s k = Some (Ok s') -> invB s'.
Proof.
  intros s k s' I H. destruct (thr_inv _ _ _ (b_inv _ I) H) as (s1 & X & J). injection X as <-. destruct I as [I Bg Ba Bd Bw Bo Br].
  assert (tp s <> TDone) as ND by (intros E; unfold thr in H; rewrite E in H; discriminate).
  assert (gone s = false) as G by (destruct (gone s); [destruct (Bg eq_refl); contradiction|reflexivity]).
  unfold thr in H. destruct (tp s) as [| |es|n es|es|] eqn:T; try discriminate; [| |destruct es as [|[n| |] es]| |].
  - injection H as <-. constructor; cbn; rewrite ?G in *; try discriminate; try assumption.
    + destruct (alive s); [discriminate|reflexivity].
    + intros D Jn. destruct (mp s); cbn in Jn; try discriminate. cbn in Ba. rewrite Ba. discriminate.
  - destruct (queue s) eqn:Q; [discriminate|]. injection H as <-. constructor; cbn; rewrite ?G in *; try discriminate; assumption.
  - injection H as <-. constructor; cbn; rewrite ?G in *; try discriminate; assumption.
  - destruct (lk s); [discriminate|]. injection H as <-. constructor; cbn; rewrite ?G in *; try discriminate; assumption.
  - injection H as <-. constructor; cbn; rewrite ?G in *; try discriminate; assumption.
  - injection H as <-. constructor; cbn; rewrite ?G in *; try discriminate; assumption.
  - injection H as H. destruct (mark s n) as [fl| | |]; cbn in H; try discriminate. injection H as <-. constructor; cbn; rewrite ?G in *; try discriminate; assumption.
  - injection H as <-. constructor; cbn; rewrite ?G in *; try discriminate; assumption.
Qed.
Lemma main_B : forall cap s s', invB s -> main cap s = Some (Ok s') -> invB s'.
Proof.
  intros cap s s' I H. destruct (main_inv _ _ _ (b_inv _ I) H) as (s1 & X & J). injection X as <-. destruct I as [I Bg Ba Bd Bw Bo Br].
  pose proof (i_lock s I) as L. pose proof (i_busy s I) as Bu.
  unfold main in H. destruct (mp s) as [|n f|n f| |f|f|f|f|f|f|f|f] eqn:M; try discriminate.
  all: try (assert (gone s = false) as G by (destruct (gone s); [destruct (Bg eq_refl) as (_ & _ & Y & _); discriminate|reflexivity])).
  - destruct (lk s); [discriminate|]. injection H as <-. constructor; cbn in *; rewrite ?G in *; try discriminate; auto.
  - injection H as <-. constructor; cbn in *; rewrite ?G in *; try discriminate; auto.
  - injection H as <-. constructor; cbn in *; rewrite ?G in *; try discriminate; auto.
  - destruct (has (files s) f); [destruct (lk s); [discriminate|]|]; injection H as <-; constructor; cbn in *; rewrite ?G in *; try discriminate; auto.
  - injection H as <-. constructor; cbn in *; rewrite ?G in *; try discriminate; auto.
  - injection H as <-. constructor; cbn in *; rewrite ?G in *; try discriminate; auto.
  - injection H as <-. destruct (files s) eqn:F; constructor; cbn in *; rewrite ?G in *; try discriminate; auto.
  - injection H as <-. constructor; cbn in *; rewrite ?G in *; try discriminate; auto.
  - injection H as <-. cbn in *. rewrite ?G in *. destruct (wd s) eqn:W.
    + constructor; cbn in *; rewrite ?G in *; try discriminate; auto. intros _ _ _. apply push_some.
    + constructor; cbn in *; rewrite ?G in *; try discriminate; auto.
  - destruct (tp s) eqn:T; try discriminate. injection H as <-. constructor; cbn in *; rewrite ?T, ?G in *; try discriminate; auto.
    intros _. repeat split; [exact (proj1 Bu)|]. destruct (lk s) as [[]|]; cbn in L; try reflexivity; destruct L; discriminate.
  - injection H as <-. constructor; cbn in *; try discriminate; auto.
Qed.
Lemma step_B : forall cap s a s', invB s -> step cap s a = Some (Ok s') -> invB s'.
Proof.
  intros cap s a s' I H. destruct (step_inv _ _ _ _ (b_inv _ I) H) as (s1 & X & J). injection X as <-.
  destruct a as [n|f|f|f| |k|n|]; cbn [step] in H; [| | | |exact (main_B _ _ _ I H)|exact (thr_B _ _ _ I H)| |].
  - destruct (idle s) eqn:Id; [|discriminate]. destruct (gone s) eqn:G; [discriminate|]. cbn in H. injection H as <-. apply idle_eq in Id. destruct I as [I Bg Ba Bd Bw Bo Br].
    rewrite Id, ?G in *. constructor; cbn in *; rewrite ?G; try discriminate; auto.
  - destruct (idle s) eqn:Id; [|discriminate]. destruct (live (flags s) f) eqn:Lv; [|discriminate]. cbn in H. injection H as <-. apply idle_eq in Id. destruct I as [I Bg Ba Bd Bw Bo Br].
    assert (gone s = false) as G.
    { destruct (gone s); [|reflexivity]. destruct (Bg eq_refl) as (_ & F & _). destruct (i_all s I f Lv) as [Y|Y]; [rewrite F in Y; destruct Y|rewrite Id in Y; discriminate]. }
    rewrite Id, ?G in *. constructor; cbn in *; rewrite ?G; try discriminate; auto.
  - destruct (idle s) eqn:Id; [|discriminate]. destruct (live (flags s) f) eqn:Lv; [|discriminate]. cbn in H. injection H as <-. destruct I as [I Bg Ba Bd Bw Bo Br]. constructor; cbn in *; auto.
  - destruct (idle s) eqn:Id; [|discriminate]. destruct (live (flags s) f) eqn:Lv; [|discriminate]. cbn in H. injection H as <-. destruct I as [I Bg Ba Bd Bw Bo Br]. constructor; cbn in *; auto.
  - injection H as <-. cbn in *. destruct I as [I Bg Ba Bd Bw Bo Br]. destruct (wd s) eqn:W; constructor; cbn in *; auto.
    intros _ _ _. apply push_some.
  - injection H as <-. pose proof I as I0. destruct I as [I Bg Ba Bd Bw Bo Br]. destruct (wd s) eqn:W; [|exact I0]. constructor; cbn in *; try discriminate; auto.
Qed.
Lemma reach_B : forall cap n s, reach cap n s -> invB s.
Proof. intros cap n s [l H]. exact (run_pres invB cap (fun s a s' => step_B cap s a s') l _ _ (invB_init n) H). Qed.

(* how many steps the thread still makes, unless the system adds events *)
Definition phase (t : tpc) : nat :=
  match t with TCheck => 1 | TRead => 0 | THandle es => 3 * length es + 2 | TInside _ es => 3 * length es + 4 | TLeave es => 3 * length es + 3 | TDone => 0 end.
Definition work (s : st) : nat := 6 * length (queue s) + phase (tp s).
Lemma thr_work : forall s k s', thr s k = Some (Ok s') -> work s' < work s /\ mp s' = mp s /\ gone s' = gone s /\ deleted s' = deleted s.
Proof.
  intros s k s' H. unfold thr, work in *. destruct (tp s) as [| |es|n es|es|] eqn:T; try discriminate; [| |destruct es as [|[n| |] es]| |].
  - injection H as <-. cbn. destruct (alive s); cbn; repeat split; lia.
  - destruct (queue s) as [|e q]; [discriminate|]. injection H as <-. pose proof (f_equal (@length event) (firstn_skipn k q)) as E. rewrite app_length in E. cbn [queue tp set_thr phase length mp gone deleted]. repeat split; lia.
  - injection H as <-. cbn. repeat split; lia.
  - destruct (lk s); [discriminate|]. injection H as <-. cbn. repeat split; lia.
  - injection H as <-. cbn. repeat split; lia.
  - injection H as <-. cbn. repeat split; lia.
  - injection H as H. destruct (mark s n) as [fl| | |]; cbn in H; try discriminate. injection H as <-. cbn. repeat split; lia.
  - injection H as <-. cbn. repeat split; lia.
Qed.

(* the watches whose users load after clearing *)
Definition hand (t : tpc) : list event := match t with THandle es | TLeave es => es | TInside n es => Named n :: es | _ => [] end.
Record invC (s : st) : Prop := {
  c_inv : inv s;
  c_names : twice s = false -> NoDup (map fst (files s)) /\ match mp s with MAdd n _ | MPush n _ => first (files s) n = None | _ => True end;
  c_must : match mp s with MAdd _ f | MPush _ f => must s f = true | _ => True end;
  c_ok : twice s = false -> lost s = false -> forall n f, In (n, f) (files s) ->
    seen s f = ver s n \/ must s f = true \/ nth_error (flags s) f = Some (Some true) \/ In (Named n) (hand (tp s) ++ queue s) }.
Lemma invC_init : forall n, invC (init n).
Proof. intros n. constructor; cbn; auto; [apply inv_init|]. intros _. split; [constructor|reflexivity]. Qed.
Lemma thr_C : forall s k s', invC s -> thr s k = Some (Ok s') -> invC s'.
Proof.
  intros s k s' I H. destruct (thr_inv _ _ _ (c_inv _ I) H) as (s1 & X & J). injection X as <-. destruct I as [I Cn Cm Ck].
  unfold thr in H. destruct (tp s) as [| |es|n es|es|] eqn:T; try discriminate; [| |destruct es as [|[n| |] es]| |].
  - injection H as <-. constructor; cbn in *; auto. destruct (alive s); exact Ck.
  - destruct (queue s) as [|e q] eqn:Q; [discriminate|]. injection H as <-. constructor; cbn in *; auto. rewrite firstn_skipn. exact Ck.
  - injection H as <-. constructor; cbn in *; auto.
  - destruct (lk s); [discriminate|]. injection H as <-. constructor; cbn in *; auto.
  - injection H as <-. constructor; cbn in *; auto. intros A B m f F. destruct (Ck A B m f F) as [|[|[|[Y|]]]]; auto; discriminate.
  - injection H as <-. constructor; cbn in *; auto. intros A B m f F. destruct (Ck A B m f F) as [|[|[|[Y|]]]]; auto; discriminate.
  - injection H as H. unfold mark in H. destruct (first (files s) n) as [g|] eqn:F.
    + destruct (i_files s I _ _ (first_In _ _ _ F)) as [Lv _]. rewrite Lv in H. cbn in H. injection H as <-. constructor; cbn in *; auto.
      intros A B m f Fm. rewrite nth_lset by exact (live_lt _ _ Lv). destruct (Nat.eqb_spec f g) as [->|N]; [auto|].
      destruct (Ck A B m f Fm) as [|[|[|[Y|]]]]; auto. injection Y as <-. rewrite (first_only _ _ _ (proj1 (Cn A)) Fm) in F. congruence.
    + cbn in H. injection H as <-. constructor; cbn in *; auto. intros A B m f Fm. destruct (Ck A B m f Fm) as [|[|[|[Y|]]]]; auto.
      injection Y as <-. destruct (first_None _ _ f F). exact Fm.
  - injection H as <-. constructor; cbn in *; auto.
Qed.
Lemma NoDup_snoc : forall (l : list nat) a, NoDup l -> ~ In a l -> NoDup (l ++ [a]).
Proof.
  induction l as [|x l IH]; cbn; intros a D N; [constructor; [tauto|constructor]|]. inversion D; subst. constructor.
  - intros J. apply in_app_or in J. destruct J as [J|[J|[]]]; [tauto|subst; tauto].
  - apply IH; tauto.
Qed.
Lemma main_C : forall cap s s', invC s -> main cap s = Some (Ok s') -> invC s'.
Proof.
  intros cap s s' I H. destruct (main_inv _ _ _ (c_inv _ I) H) as (s1 & X & J). injection X as <-. destruct I as [I Cn Cm Ck].
  pose proof (i_busy s I) as Bu.
  unfold main in H. destruct (mp s) as [|n f|n f| |f|f|f|f|f|f|f|f] eqn:M; try discriminate.
  - destruct (lk s); [discriminate|]. injection H as <-. constructor; cbn in *; auto.
  - injection H as <-. constructor; cbn in *; auto.
    + intros A. destruct (Cn A) as [C1 C2]. split; [|exact Logic.I]. rewrite map_app. apply NoDup_snoc; [exact C1|]. intros Y. apply in_map_iff in Y. destruct Y as ([m g] & E & Y). cbn in E. subst m.
      exact (first_None _ _ _ C2 Y).
    + intros A B m g F. apply in_app_or in F. destruct F as [F|[F|[]]]; [exact (Ck A B m g F)|]. injection F as <- <-. auto.
  - injection H as <-. constructor; cbn in *; auto.
  - destruct (has (files s) f); [destruct (lk s); [discriminate|]|]; injection H as <-; constructor; cbn in *; auto.
  - injection H as <-. constructor; cbn in *; auto.
    + intros A. split; [apply erase_NoDup; exact (proj1 (Cn A))|exact Logic.I].
    + intros A B m g F. exact (Ck A B m g (erase_In _ _ _ F)).
  - injection H as <-. constructor; cbn in *; auto.
  - injection H as <-. destruct (files s) eqn:F; constructor; cbn in *; rewrite ?F; auto.
  - injection H as <-. constructor; cbn in *; auto.
  - injection H as <-. cbn in *. destruct Bu as [Bu _]. destruct (wd s); constructor; cbn in *; auto. rewrite Bu. intros A B m g [].
  - destruct (tp s) eqn:T; try discriminate. injection H as <-. constructor; cbn in *; rewrite ?T; auto.
  - injection H as <-. cbn in Bu. destruct Bu as [B1 B2]. constructor; cbn in *; auto. intros A B m g F. rewrite nth_lset by exact (live_lt _ _ B2).
    destruct (Nat.eqb_spec g f) as [->|N]; [|exact (Ck A B m g F)]. destruct B1. apply in_map_iff. exists (m, f). split; [reflexivity|exact F].
Qed.
Lemma step_C : forall cap s a s', invC s -> step cap s a = Some (Ok s') -> invC s'.
Proof.
  intros cap s a s' I H. destruct (step_inv _ _ _ _ (c_inv _ I) H) as (s1 & X & J). injection X as <-.
  destruct a as [n|f|f|f| |k|n|]; cbn [step] in H; [| | | |exact (main_C _ _ _ I H)|exact (thr_C _ _ _ I H)| |].
  - destruct (idle s) eqn:Id; [|discriminate]. destruct (gone s) eqn:G; [discriminate|]. cbn in H. injection H as <-. apply idle_eq in Id. destruct I as [I Cn Cm Ck]. constructor; cbn in *; auto.
    + destruct (first (files s) n) eqn:F; [discriminate|]. intros A. split; [exact (proj1 (Cn A))|reflexivity].
    + unfold upd. rewrite Nat.eqb_refl. reflexivity.
    + intros A B m g Fm. assert (twice s = false) as A' by (destruct (first (files s) n); [discriminate|exact A]). pose proof (live_lt _ _ (proj1 (i_files s I _ _ Fm))) as Lt.
      unfold upd. destruct (Nat.eqb_spec g (length (flags s))) as [E|_]; [lia|]. rewrite nth_error_app1 by exact Lt. exact (Ck A' B m g Fm).
  - destruct (idle s) eqn:Id; [|discriminate]. destruct (live (flags s) f) eqn:Lv; [|discriminate]. cbn in H. injection H as <-. apply idle_eq in Id. destruct I as [I Cn Cm Ck].
    rewrite Id in *. constructor; cbn in *; auto.
  - destruct (idle s) eqn:Id; [|discriminate]. destruct (live (flags s) f) eqn:Lv; [|discriminate]. cbn in H. injection H as <-. apply idle_eq in Id. destruct I as [I Cn Cm Ck].
    rewrite Id in *. constructor; cbn in *; rewrite ?Id; auto. intros A B m g F. rewrite nth_lset by exact (live_lt _ _ Lv). unfold upd. destruct (Nat.eqb_spec g f); [auto|]. exact (Ck A B m g F).
  - destruct (idle s) eqn:Id; [|discriminate]. destruct (live (flags s) f) eqn:Lv; [|discriminate]. cbn in H. injection H as <-. apply idle_eq in Id. destruct I as [I Cn Cm Ck].
    rewrite Id in *. constructor; cbn in *; rewrite ?Id; auto. intros A B m g F. unfold upd. destruct (Nat.eqb_spec g f) as [->|]; [|exact (Ck A B m g F)].
    left. unfold name. rewrite (proj2 (i_files s I _ _ F)). reflexivity.
  - injection H as <-. cbn in *. destruct I as [I Cn Cm Ck]. destruct (wd s) eqn:W; constructor; cbn in *; auto; [|discriminate].
    intros A B m g F. apply orb_false_elim in B. destruct B as [B R]. apply negb_false_iff in R. unfold upd. destruct (Nat.eqb_spec m n) as [->|N].
    + right. right. right. apply in_or_app. right. exact (push_room _ _ _ R).
    + destruct (Ck A B m g F) as [|[|[|Y]]]; auto. right. right. right. apply in_app_or in Y. apply in_or_app. destruct Y; [auto|right; apply push_In; assumption].
  - injection H as <-. pose proof I as I0. destruct I as [I Cn Cm Ck]. destruct (wd s) eqn:W; [|exact I0]. constructor; cbn in *; auto.
    intros A B m g F. destruct (Ck A B m g F) as [|[|[|Y]]]; auto. right. right. right. apply in_app_or in Y. apply in_or_app. destruct Y; [auto|right; apply push_In; assumption].
Qed.
Lemma reach_C : forall cap n s, reach cap n s -> invC s.
Proof. intros cap n s [l H]. exact (run_pres invC cap (fun s a s' => step_C cap s a s') l _ _ (invC_init n) H). Qed.

(* reports are changes *)
Record invD (s : st) : Prop := {
  d_inv : inv s;
  d_events : forall n, In (Named n) (hand (tp s) ++ queue s) -> 0 < ver s n;
  d_flags : forall f, nth_error (flags s) f = Some (Some true) -> 0 < ver s (name s f) }.
Lemma invD_init : forall n, invD (init n).
Proof. intros n. constructor; [apply inv_init|intros m []|]. intros [|[|f]] H; discriminate. Qed.
Lemma push_new : forall cap q e n, In (Named n) (push cap q e) -> In (Named n) q \/ e = Named n.
Proof.
  intros cap q e n H. unfold push in H. destruct (newest q e); [auto|]. destruct (length q <? cap); [apply in_app_or in H; destruct H as [H|[H|[]]]; auto|].
  destruct (existsb (same Overflow) q); [auto|]. apply in_app_or in H. destruct H as [H|[H|[]]]; [auto|discriminate].
Qed.
Lemma step_D : forall cap s a s', invD s -> step cap s a = Some (Ok s') -> invD s'.
Proof.
  intros cap s a s' I H. destruct (step_inv _ _ _ _ (d_inv _ I) H) as (s1 & X & J). injection X as <-. destruct I as [I De Df].
  destruct a as [n|f|f|f| |k|n|]; cbn [step] in H.
  - destruct (idle s && negb (gone s)); [|discriminate]. injection H as <-. constructor; cbn in *; auto. intros f Hf.
    destruct (Nat.lt_ge_cases f (length (flags s))) as [L|L].
    + rewrite nth_error_app1 in Hf by exact L. unfold name. cbn. rewrite app_nth1 by (rewrite (i_names _ I); exact L). exact (Df f Hf).
    + rewrite nth_error_app2 in Hf by exact L. destruct (f - length (flags s)) as [|[|d]]; discriminate.
  - destruct (idle s && live (flags s) f); [|discriminate]. injection H as <-. constructor; cbn in *; auto.
  - destruct (idle s); [|discriminate]. destruct (live (flags s) f) eqn:Lv; [|discriminate]. injection H as <-. constructor; cbn in *; auto.
    intros g. rewrite nth_lset by exact (live_lt _ _ Lv). destruct (g =? f); [discriminate|exact (Df g)].
  - destruct (idle s && live (flags s) f); [|discriminate]. injection H as <-. constructor; cbn in *; auto.
  - pose proof (i_busy s I) as Bu. unfold main in H. destruct (mp s) as [|n f|n f| |f|f|f|f|f|f|f|f] eqn:M; try discriminate.
    + destruct (lk s); [discriminate|]. injection H as <-. constructor; cbn in *; auto.
    + injection H as <-. constructor; cbn in *; auto.
    + injection H as <-. constructor; cbn in *; auto.
    + destruct (has (files s) f); [destruct (lk s); [discriminate|]|]; injection H as <-; constructor; cbn in *; auto.
    + injection H as <-. constructor; cbn in *; auto.
    + injection H as <-. constructor; cbn in *; auto.
    + injection H as <-. constructor; cbn in *; auto.
    + injection H as <-. constructor; cbn in *; auto.
    + injection H as <-. cbn in *. destruct (wd s); constructor; cbn in *; auto.
      intros n Y. apply in_app_or in Y. apply De, in_or_app. destruct Y as [Y|Y]; [auto|]. apply push_new in Y. destruct Y as [Y|Y]; [auto|discriminate].
    + destruct (tp s) eqn:T; try discriminate. injection H as <-. constructor; cbn in *; rewrite ?T; auto.
    + injection H as <-. constructor; cbn in *; auto. intros g. destruct Bu as [_ Bu]. rewrite nth_lset by exact (live_lt _ _ Bu). destruct (g =? f); [discriminate|exact (Df g)].
  - unfold thr in H. destruct (tp s) as [| |es|n es|es|] eqn:T; try discriminate; [| |destruct es as [|[n| |] es]| |].
    + injection H as <-. constructor; cbn in *; auto. destruct (alive s); exact De.
    + destruct (queue s) as [|e q] eqn:Q; [discriminate|]. injection H as <-. constructor; cbn in *; auto. rewrite firstn_skipn. exact De.
    + injection H as <-. constructor; cbn in *; auto.
    + destruct (lk s); [discriminate|]. injection H as <-. constructor; cbn in *; auto.
    + injection H as <-. constructor; cbn in *; auto.
    + injection H as <-. constructor; cbn in *; auto.
    + injection H as H. unfold mark in H. destruct (first (files s) n) as [g|] eqn:F.
      * destruct (i_files s I _ _ (first_In _ _ _ F)) as [Lv Nm]. rewrite Lv in H. cbn in H. injection H as <-. constructor; cbn in *; auto.
        intros f. rewrite nth_lset by exact (live_lt _ _ Lv). destruct (Nat.eqb_spec f g) as [->|_]; [|exact (Df f)]. intros _. unfold name. cbn. rewrite Nm. auto.
      * cbn in H. injection H as <-. constructor; cbn in *; auto.
    + injection H as <-. constructor; cbn in *; auto.
  - injection H as <-. cbn in *.
    assert (forall m, 0 < ver s m -> 0 < upd (ver s) n (S (ver s n)) m) as Up by (intros m Hm; unfold upd; destruct (m =? n); lia).
    destruct (wd s); constructor; cbn in *; auto; try (intros f Hf; exact (Up _ (Df f Hf))).
    intros m Y. apply in_app_or in Y. destruct Y as [Y|Y]; [apply Up, De, in_or_app; auto|]. apply push_new in Y. destruct Y as [Y|Y]; [apply Up, De, in_or_app; auto|].
    injection Y as ->. unfold upd. rewrite Nat.eqb_refl. lia.
  - injection H as <-. destruct (wd s); [|constructor; assumption]. constructor; cbn in *; auto.
    intros n Y. apply in_app_or in Y. apply De, in_or_app. destruct Y as [Y|Y]; [auto|]. apply push_new in Y. destruct Y as [Y|Y]; [auto|discriminate].
Qed.
Lemma reach_D : forall cap n s, reach cap n s -> invD s.
Proof. intros cap n s [l H]. exact (run_pres invD cap (fun s a s' => step_D cap s a s') l _ _ (invD_init n) H). Qed.

(* C130: touching, committing and decommitting pages. *)
From Coq Require Import NArith List Bool Arith Lia.
From Verif Require Import Base BitsModel BitsSpec BitsProofs AllocModel VAllocModel VAllocProofs PageModel.
Import ListNotations.
Open Scope N_scope.

(* addresses of a range of bytes *)
Definition within (a size x : N) : Prop := a <= x < a + size.
Definition accessible (v : vm) (x : N) : Prop := acc v (page x) = true.
Definition xor_all (bs : list N) : N := fold_right N.lxor 0 bs.

Lemma page_eq x p : 4096 * p <= x < 4096 * (p + 1) -> page x = p.
Proof. intros H. unfold page. symmetry. apply (N.div_unique x 4096 p (x - 4096 * p)); lia. Qed.
Lemma page_bounds x : 4096 * page x <= x < 4096 * (page x + 1).
Proof. unfold page. pose proof (N.div_mod x 4096 ltac:(discriminate)) as D. pose proof (N.mod_lt x 4096 ltac:(discriminate)) as M. revert D M. generalize (x / 4096) (x mod 4096). intros q r D M. lia. Qed.

Lemma loop_ok v e : e + 8192 < 2 ^ 64 -> forall fuel p s, (forall x, 4096 * p <= x < e -> accessible v x) -> e / 4096 + 1 - p < N.of_nat fuel ->
  exists rs, prefault_loop fuel v (4096 * p) e s = Ok (rs, N.lxor s (xor_all (map (byt v) rs)))
    /\ Forall (fun a => 4096 * p <= a < e) rs /\ (forall x, 4096 * p <= x < e -> exists a, In a rs /\ page a = page x) /\ NoDup (map page rs).
Proof.
  intros E. induction fuel as [|fuel IH]; intros p s A F; [lia|]. cbn [prefault_loop]. destruct (4096 * p <? e) eqn:L.
  - apply N.ltb_lt in L. unfold read. assert (page (4096 * p) = p) as P by (apply page_eq; lia).
    assert (acc v (page (4096 * p)) = true) as Ap by (apply A; lia). rewrite Ap. cbn [defined bind].
    assert (wadd 64 (4096 * p) 4096 = 4096 * (p + 1)) as -> by (unfold wadd, wrap; rewrite N.mod_small; lia).
    assert (p <= e / 4096) as PE by (apply N.div_le_lower_bound; lia).
    destruct (IH (p + 1) (N.lxor s (byt v (4096 * p)))) as (rs & Hrs & Rin & Rcov & Rnd).
    { intros x Hx. apply A. lia. }
    { lia. }
    rewrite Hrs. cbn [bind]. exists (4096 * p :: rs). cbn [map xor_all fold_right]. fold (xor_all (map (byt v) rs)).
    rewrite N.lxor_assoc. split; [reflexivity|]. split; [constructor; [lia|]; eapply Forall_impl; [|exact Rin]; cbn; intros; lia|]. split.
    + intros x Hx. destruct (N.lt_ge_cases x (4096 * (p + 1))) as [C|C].
      * exists (4096 * p). split; [left; reflexivity|]. rewrite P. symmetry. apply page_eq. lia.
      * destruct (Rcov x ltac:(lia)) as (a & Ia & Pa). exists a. split; [right; exact Ia|exact Pa].
    + constructor; [|exact Rnd]. rewrite P. intros I. apply in_map_iff in I. destruct I as (a & Pa & Ia).
      rewrite Forall_forall in Rin. pose proof (Rin a Ia). pose proof (page_bounds a). rewrite Pa in *. lia.
  - apply N.ltb_ge in L. exists []. cbn. rewrite N.lxor_0_r. split; [reflexivity|]. split; [constructor|]. split; [intros x Hx; lia|constructor].
Qed.
Lemma loop_ub v e : e + 8192 < 2 ^ 64 -> forall fuel p s, (exists x, 4096 * p <= x < e /\ ~ accessible v x) -> e / 4096 + 1 - p < N.of_nat fuel ->
  prefault_loop fuel v (4096 * p) e s = UB.
Proof.
  intros E. induction fuel as [|fuel IH]; intros p s (x & Hx & NA) F; [lia|]. cbn [prefault_loop].
  assert (4096 * p <? e = true) as -> by (apply N.ltb_lt; lia). unfold read, accessible in *.
  assert (page (4096 * p) = p) as P by (apply page_eq; lia). destruct (acc v (page (4096 * p))) eqn:Ap; [|reflexivity]. cbn [defined bind].
  assert (wadd 64 (4096 * p) 4096 = 4096 * (p + 1)) as -> by (unfold wadd, wrap; rewrite N.mod_small; lia).
  assert (p <= e / 4096) as PE by (apply N.div_le_lower_bound; lia).
  rewrite IH; [reflexivity| |lia]. exists x. split; [|exact NA].
  destruct (N.lt_ge_cases x (4096 * (p + 1))) as [C|C]; [|lia]. exfalso. apply NA. rewrite (page_eq x p) by lia. rewrite <- P. exact Ap.
Qed.
Lemma up_page ptr : ptr + 8192 < 2 ^ 64 -> exists p, align_up 64 ptr 4096 = 4096 * p /\ ptr <= 4096 * p < ptr + 4096.
Proof.
  intros H. change 4096 with (2 ^ 12). rewrite align_up_eq; [|reflexivity|change (2 ^ 12) with 4096; lia]. change (2 ^ 12) with 4096.
  replace (ptr + 4096 - 1) with (ptr + 4095) by lia. rewrite (N.mod_eq (ptr + 4095) 4096) by discriminate.
  fold (page (ptr + 4095)). pose proof (page_bounds (ptr + 4095)) as P.
  exists (page (ptr + 4095)). revert P. generalize (page (ptr + 4095)). intros q P. lia.
Qed.

(* prefault_memory reads at least one byte of every page of the range, nothing outside of the range, no page more than twice and
   only the first one more than once; the sink holds the exclusive or of what was read. *)
Theorem C130_prefault : forall v ptr size fuel, ptr + size + 8192 < 2 ^ 64 -> size <> 0 -> (ptr + size) / 4096 + 1 < N.of_nat fuel ->
  (forall x, within ptr size x -> accessible v x) ->
  exists a rs, prefault fuel v ptr size = Ok (a :: rs, Some (xor_all (map (byt v) (a :: rs))))
    /\ Forall (within ptr size) (a :: rs) /\ (forall x, within ptr size x -> exists r, In r (a :: rs) /\ page r = page x) /\ NoDup (map page rs).
Proof.
  intros v ptr size fuel B S F A. unfold prefault. apply N.eqb_neq in S. rewrite S. apply N.eqb_neq in S. unfold read.
  assert (acc v (page ptr) = true) as Ap by (apply A; unfold within; lia). rewrite Ap. cbn [defined bind].
  assert (wadd 64 ptr size = ptr + size) as -> by (unfold wadd, wrap; rewrite N.mod_small; lia).
  destruct (up_page ptr ltac:(lia)) as (p & -> & Hp).
  destruct (loop_ok v (ptr + size) ltac:(lia) fuel p (byt v ptr)) as (rs & -> & Rin & Rcov & Rnd).
  { intros x Hx. apply A. unfold within. lia. }
  { eapply N.le_lt_trans; [apply N.le_sub_l|exact F]. }
  cbn [bind]. exists ptr, rs. split; [reflexivity|]. split.
  { constructor; [unfold within; lia|]. eapply Forall_impl; [|exact Rin]. unfold within. cbn. intros; lia. }
  split; [|exact Rnd]. intros x Hx. unfold within in Hx. destruct (N.lt_ge_cases x (4096 * p)) as [C|C].
  - exists ptr. split; [left; reflexivity|]. pose proof (page_bounds ptr). pose proof (page_bounds x).
    assert (page ptr <= page x) by (unfold page; apply N.div_le_mono; [discriminate|lia]).
    assert (page x < p) by lia. assert (p <= page ptr + 1) by lia. lia.
  - destruct (Rcov x ltac:(lia)) as (r & Ir & Pr). exists r. split; [right; exact Ir|exact Pr].
Qed.
(* It faults exactly if some byte of the range is not accessible; an empty range is never touched. *)
Theorem C130_prefault_faults : forall v ptr size fuel, ptr + size + 8192 < 2 ^ 64 -> (ptr + size) / 4096 + 1 < N.of_nat fuel ->
  (exists x, within ptr size x /\ ~ accessible v x) -> prefault fuel v ptr size = UB.
Proof.
  intros v ptr size fuel B F (x & Hx & NA). unfold within in Hx. unfold prefault. assert (size =? 0 = false) as -> by (apply N.eqb_neq; lia).
  unfold read. destruct (acc v (page ptr)) eqn:Ap; [|reflexivity]. cbn [defined bind].
  assert (wadd 64 ptr size = ptr + size) as -> by (unfold wadd, wrap; rewrite N.mod_small; lia).
  destruct (up_page ptr ltac:(lia)) as (p & -> & Hp).
  rewrite (loop_ub v (ptr + size) ltac:(lia) fuel p (byt v ptr)); [reflexivity| |eapply N.le_lt_trans; [apply N.le_sub_l|exact F]].
  exists x. split; [|exact NA]. destruct (N.lt_ge_cases x (4096 * p)) as [C|C]; [|lia]. exfalso. apply NA. unfold accessible.
  pose proof (page_bounds ptr). pose proof (page_bounds x). assert (page ptr <= page x) by (unfold page; apply N.div_le_mono; [discriminate|lia]).
  replace (page x) with (page ptr) by lia. exact Ap.
Qed.
Theorem C130_prefault_empty : forall v ptr fuel, prefault fuel v ptr 0 = Ok ([], None).
Proof. reflexivity. Qed.

(* commit_physical_memory: exactly the pages with a byte of the range become accessible; contents and other pages stay. *)
Theorem C130_commit : forall v ptr size v', ptr + size + 8192 < 2 ^ 64 -> size <> 0 -> commit v ptr size = Ok v' ->
  (forall x, accessible v' x <-> accessible v x \/ exists y, within ptr size y /\ page y = page x) /\ (forall x, byt v' x = byt v x).
Proof.
  intros v ptr size v' B S E. rewrite commit_exact in E by lia. destruct (_ && _); [|discriminate]. injection E as <-. split; [|reflexivity].
  intros x. unfold accessible. cbn [acc]. destruct ((page ptr <=? page x) && (page x <? page (ptr + size + 4095))) eqn:C.
  - split; [|reflexivity]. intros _. right. apply andb_prop in C. destruct C as [C1 C2]. apply N.leb_le in C1. apply N.ltb_lt in C2.
    pose proof (page_bounds ptr). pose proof (page_bounds x). pose proof (page_bounds (ptr + size + 4095)). unfold within.
    destruct (N.eq_dec (page x) (page ptr)) as [Q|Q]; [exists ptr; split; [lia|congruence]|].
    exists (4096 * page x). split; [lia|]. apply page_eq. lia.
  - split; [auto|]. intros [H|(y & Hy & Py)]; [exact H|]. exfalso. unfold within in Hy. rewrite <- Py in C.
    assert (page ptr <= page y) as C1 by (unfold page; apply N.div_le_mono; [discriminate|lia]).
    assert (page y < page (ptr + size + 4095)) as C2 by (pose proof (page_bounds y); pose proof (page_bounds (ptr + size + 4095)); lia).
    apply N.leb_le in C1. apply N.ltb_lt in C2. rewrite C1, C2 in C. discriminate.
Qed.
(* decommit_physical_memory: exactly the pages with a byte of the range become inaccessible. *)
Theorem C130_decommit : forall v ptr size v', ptr + size + 8192 < 2 ^ 64 -> size <> 0 -> decommit v ptr size = Ok v' ->
  (forall x, accessible v' x <-> accessible v x /\ ~ exists y, within ptr size y /\ page y = page x) /\ (forall x, byt v' x = byt v x).
Proof.
  intros v ptr size v' B S E. rewrite decommit_exact in E by lia. destruct (_ && _); [|discriminate]. injection E as <-. split; [|reflexivity].
  intros x. unfold accessible. cbn [acc]. destruct ((page ptr <=? page x) && (page x <? page (ptr + size + 4095))) eqn:C.
  - split; [discriminate|]. intros (_ & N). exfalso. apply N. apply andb_prop in C. destruct C as [C1 C2]. apply N.leb_le in C1. apply N.ltb_lt in C2.
    pose proof (page_bounds ptr). pose proof (page_bounds x). pose proof (page_bounds (ptr + size + 4095)). unfold within.
    destruct (N.eq_dec (page x) (page ptr)) as [Q|Q]; [exists ptr; split; [lia|congruence]|].
    exists (4096 * page x). split; [lia|]. apply page_eq. lia.
  - split; [|tauto]. intros H. split; [exact H|]. intros (y & Hy & Py). unfold within in Hy. rewrite <- Py in C.
    assert (page ptr <= page y) as C1 by (unfold page; apply N.div_le_mono; [discriminate|lia]).
    assert (page y < page (ptr + size + 4095)) as C2 by (pose proof (page_bounds y); pose proof (page_bounds (ptr + size + 4095)); lia).
    apply N.leb_le in C1. apply N.ltb_lt in C2. rewrite C1, C2 in C. discriminate.
Qed.
(* Committing what was decommitted brings the contents back. *)
Theorem C130_recommit : forall v ptr size v1 v2, ptr + size + 8192 < 2 ^ 64 -> size <> 0 ->
  decommit v ptr size = Ok v1 -> commit v1 ptr size = Ok v2 -> (forall x, within ptr size x -> accessible v2 x) /\ (forall x, byt v2 x = byt v x).
Proof.
  intros v ptr size v1 v2 B S D C. destruct (C130_decommit _ _ _ _ B S D) as (_ & Bd). destruct (C130_commit _ _ _ _ B S C) as (Ac & Bc).
  split; [|intros x; rewrite Bc; apply Bd]. intros x Hx. apply Ac. right. exists x. split; [exact Hx|reflexivity].
Qed.

(* ---- refutations ---- *)
(* Decommitting a range that does not begin (or end) at a page boundary takes away bytes outside of it. *)
Theorem C130_neighbour_refuted : forall v ptr size v', ptr + size + 8192 < 2 ^ 64 -> size <> 0 -> decommit v ptr size = Ok v' ->
  (ptr mod 4096 <> 0 -> accessible v (ptr - 1) -> exists x, ~ within ptr size x /\ accessible v x /\ ~ accessible v' x)
  /\ ((ptr + size) mod 4096 <> 0 -> accessible v (ptr + size) -> exists x, ~ within ptr size x /\ accessible v x /\ ~ accessible v' x).
Proof.
  intros v ptr size v' B S D. destruct (C130_decommit _ _ _ _ B S D) as (H & _).
  assert (forall z, z mod 4096 <> 0 -> page (z - 1) = page z) as X.
  { intros z NZ. pose proof (page_bounds z) as Bz. apply page_eq. pose proof (N.div_mod z 4096 ltac:(discriminate)) as Dz. fold (page z) in Dz.
    revert NZ Bz Dz. generalize (z mod 4096) (page z). intros r q NZ Bz Dz. lia. }
  split; intros M A.
  - exists (ptr - 1). split; [unfold within; intros C; assert (ptr <> 0) by (intros ->; apply M; reflexivity); lia|]. split; [exact A|].
    intros C. apply H in C. apply (proj2 C). exists ptr. split; [unfold within; lia|]. rewrite X by exact M. reflexivity.
  - exists (ptr + size). split; [unfold within; lia|]. split; [exact A|].
    intros C. apply H in C. apply (proj2 C). exists (ptr + size - 1). split; [unfold within; lia|]. apply X. exact M.
Qed.
(* An empty range takes away the page it points into, unless it points to its beginning. *)
Theorem C130_empty_refuted : forall v ptr v', ptr + 8192 < 2 ^ 64 -> ptr mod 4096 <> 0 -> decommit v ptr 0 = Ok v' -> ~ accessible v' ptr.
Proof.
  intros v ptr v' B M D. rewrite decommit_exact in D by lia. destruct (_ && _); [|discriminate]. injection D as <-. unfold accessible. cbn [acc].
  assert (page ptr < page (ptr + 0 + 4095)) as L.
  { rewrite N.add_0_r. pose proof (page_bounds (ptr + 4095)) as B1. pose proof (N.div_mod ptr 4096 ltac:(discriminate)) as Dp. fold (page ptr) in Dp.
    revert M Dp B1. generalize (ptr mod 4096) (page ptr) (page (ptr + 4095)). intros r q t M Dp B1. lia. }
  apply N.ltb_lt in L. rewrite N.leb_refl, L. discriminate.
Qed.
(* At the top of the address space the pointer wraps around and the loop goes on at address 0. *)
Theorem C130_top_refuted : forall v fuel, (forall x, page x = page (2 ^ 64 - 4096) -> acc v (page x) = true) -> acc v 0 = false ->
  prefault (S (S fuel)) v (2 ^ 64 - 4096) 4095 = UB.
Proof.
  intros v fuel A N0. pose proof (A (2 ^ 64 - 4096) eq_refl) as A1. change (2 ^ 64 - 4096) with 18446744073709547520 in *.
  unfold prefault, read. change (4095 =? 0) with false. cbn [bind]. rewrite A1. cbn [defined bind].
  change (align_up 64 18446744073709547520 4096) with 18446744073709547520. change (wadd 64 18446744073709547520 4095) with 18446744073709551615.
  cbn [prefault_loop]. change (18446744073709547520 <? 18446744073709551615) with true. cbv iota. unfold read. rewrite A1. cbn [defined bind].
  change (wadd 64 18446744073709547520 4096) with 0. change (0 <? 18446744073709551615) with true. cbv iota. change (page 0) with 0. rewrite N0. reflexivity.
Qed.

(* ---- examples ---- *)
Definition vm0 : vm := mkvm 0 10 (fun p => (2 <=? p) && (p <? 6)) (fun x => x mod 251).
Example C130_example :
  prefault 10 vm0 8200 9000 = Ok ([8200; 12288; 16384], Some (N.lxor (8200 mod 251) (N.lxor (12288 mod 251) (16384 mod 251))))
  /\ prefault 10 vm0 8192 8192 = Ok ([8192; 8192; 12288], Some (12288 mod 251))
  /\ prefault 10 vm0 20000 8192 = UB
  /\ (match decommit vm0 12290 100 with Ok v => map (acc v) [1; 2; 3; 4] | _ => [] end) = [false; true; false; true]
  /\ (match decommit vm0 12290 0 with Ok v => map (acc v) [1; 2; 3; 4] | _ => [] end) = [false; true; false; true]
  /\ (match commit vm0 4095 2 with Ok v => map (acc v) [0; 1; 2; 7] | _ => [] end) = [true; true; true; false]
  /\ commit vm0 40000 4096 = Contract.
Proof. vm_compute. repeat split. Qed.

Print Assumptions C130_prefault.
Print Assumptions C130_prefault_faults.
Print Assumptions C130_prefault_empty.
Print Assumptions C130_commit.
Print Assumptions C130_decommit.
Print Assumptions C130_recommit.
Print Assumptions C130_neighbour_refuted.
Print Assumptions C130_empty_refuted.
Print Assumptions C130_top_refuted.

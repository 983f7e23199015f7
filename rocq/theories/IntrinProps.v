(* C129: atomic operations, processor features, Newton steps. *)
From Coq Require Import NArith QArith Qabs Qfield Lqa List Bool Arith Lia Permutation.
From Verif Require Import Base IntrinModel IntrinSpec.
Import ListNotations.
Open Scope N_scope.

Lemma wadd_mod w a b : wadd w (a mod 2 ^ w) b = (a + b) mod 2 ^ w.
Proof. unfold wadd, wrap. rewrite N.add_mod_idemp_l; [reflexivity|]. apply N.pow_nonzero. discriminate. Qed.

(* Nothing that is added to a counter is lost, and every addition returns the sum of what happened before it. *)
Theorem C129_counter : forall w vs c, c < 2 ^ w ->
  let (rs, final) := run w (adds vs) c in
  final = (c + sum vs) mod 2 ^ w /\ length rs = length vs
  /\ forall k, (k < length vs)%nat -> nth k rs 0 = (c + sum (firstn k vs)) mod 2 ^ w.
Proof.
  intros w vs. induction vs as [|v vs IH]; intros c C; cbn [adds map run step].
  - cbn. rewrite N.add_0_r, N.mod_small by exact C. split; [reflexivity|]. split; [reflexivity|]. intros k K; inversion K.
  - assert (wadd w c v < 2 ^ w) as C' by (unfold wadd, wrap; apply N.mod_lt; apply N.pow_nonzero; discriminate).
    specialize (IH (wadd w c v) C'). fold (adds vs). destruct (run w (adds vs) (wadd w c v)) as [rs final]. destruct IH as (IF & IL & IK).
    assert (forall x, (wadd w c v + x) mod 2 ^ w = (c + (v + x)) mod 2 ^ w) as A.
    { intros x. unfold wadd, wrap. rewrite N.add_mod_idemp_l by (apply N.pow_nonzero; discriminate). f_equal. lia. }
    split; [rewrite IF, A; reflexivity|]. split; [cbn; lia|]. intros [|k] K.
    + cbn. rewrite N.add_0_r, N.mod_small by exact C. reflexivity.
    + cbn [nth firstn]. rewrite IK by (cbn in K; lia). rewrite A. reflexivity.
Qed.
(* Tickets: up to 2^w increments return different values. *)
Theorem C129_tickets : forall w n c, c < 2 ^ w -> N.of_nat n <= 2 ^ w -> NoDup (fst (run w (adds (repeat 1 n)) c)).
Proof.
  intros w n c C Hn. pose proof (C129_counter w (repeat 1 n) c C) as H. destruct (run w (adds (repeat 1 n)) c) as [rs final].
  destruct H as (_ & L & K). rewrite repeat_length in L, K. cbn [fst].
  assert (forall k, (k <= n)%nat -> sum (firstn k (repeat 1 n)) = N.of_nat k) as S.
  { clear. intros k. revert n. induction k as [|k IH]; intros n H; [reflexivity|]. destruct n as [|n]; [lia|]. cbn [repeat firstn]. unfold sum in *. cbn [fold_right]. rewrite IH by lia. lia. }
  apply (NoDup_nth rs 0). intros i j Hi Hj E. rewrite L in Hi, Hj. rewrite !K, !S in E by lia.
  assert (2 ^ w <> 0) as P by (apply N.pow_nonzero; discriminate).
  assert (forall i j, (i < j < n)%nat -> (c + N.of_nat i) mod 2 ^ w = (c + N.of_nat j) mod 2 ^ w -> False) as X.
  { clear - Hn P. intros i j H E. pose proof (N.div_mod (c + N.of_nat i) (2 ^ w) P) as D1. pose proof (N.div_mod (c + N.of_nat j) (2 ^ w) P) as D2.
    rewrite E in D1. set (q1 := (c + N.of_nat i) / 2 ^ w) in *. set (q2 := (c + N.of_nat j) / 2 ^ w) in *.
    assert (2 ^ w * q2 = 2 ^ w * q1 + (N.of_nat j - N.of_nat i)) as D by lia.
    assert (q1 < q2) by (apply (N.mul_lt_mono_pos_l (2 ^ w)); lia).
    assert (2 ^ w * (q1 + 1) <= 2 ^ w * q2) by (apply N.mul_le_mono_l; lia). lia. }
  destruct (Nat.lt_trichotomy i j) as [H|[H|H]]; [exfalso; apply (X i j); [lia|exact E]|exact H|exfalso; apply (X j i); [lia|symmetry; exact E]].
Qed.

(* Swapping: every value that was put in is handed to exactly one later swap, or is the final one. *)
Theorem C129_swap : forall w vs c, let (rs, final) := run w (swaps vs) c in Permutation (c :: vs) (rs ++ [final]) /\ rs ++ [final] = c :: vs.
Proof.
  intros w vs c. assert (let (rs, final) := run w (swaps vs) c in rs ++ [final] = c :: vs) as H.
  { revert c. induction vs as [|v vs IH]; intros c; cbn; [reflexivity|]. specialize (IH v). fold (swaps vs). destruct (run w (swaps vs) v) as [rs final]. cbn. rewrite IH. reflexivity. }
  destruct (run w (swaps vs) c) as [rs final]. rewrite H. split; [apply Permutation_refl|reflexivity].
Qed.

(* Compare and swap: of all attempts to replace c by something else, exactly the first succeeds. *)
Theorem C129_cas : forall w c x xs, x <> c -> Forall (fun y => y <> c) xs ->
  run w (map (Cas c) (x :: xs)) c = (c :: repeat x (length xs), x).
Proof.
  intros w c x xs X _. cbn [map run step]. rewrite N.eqb_refl.
  assert (run w (map (Cas c) xs) x = (repeat x (length xs), x)) as ->.
  { induction xs as [|y xs IH]; [reflexivity|]. cbn [map run step]. apply N.eqb_neq in X. rewrite X, IH. reflexivity. }
  reflexivity.
Qed.
(* A compare and swap that returns its comparand has stored; any other changes nothing. *)
Theorem C129_cas_result : forall w c x cell, let (r, cell') := step w (Cas c x) cell in r = cell /\ (r = c -> cell' = x) /\ (r <> c -> cell' = cell).
Proof. intros w c x cell. cbn. destruct (cell =? c) eqn:E; [apply N.eqb_eq in E|apply N.eqb_neq in E]; repeat split; intros; congruence. Qed.

(* Flags: the final value has exactly the bits that were there or were set, and for each bit that was clear and that somebody
   sets there is exactly one operation that is told that it was clear. *)
Theorem C129_flags : forall w vs c b,
  let (rs, final) := run w (ors vs) c in
  N.testbit final b = (N.testbit c b || existsb (has_bit b) vs)
  /\ length (filter (first_setter b) (combine vs rs)) = (if negb (N.testbit c b) && existsb (has_bit b) vs then 1 else 0)%nat.
Proof.
  intros w vs c b. revert c. induction vs as [|v vs IH]; intros c; cbn [ors map run step].
  - cbn. rewrite orb_false_r, andb_false_r. split; reflexivity.
  - specialize (IH (N.lor c v)). fold (ors vs). destruct (run w (ors vs) (N.lor c v)) as [rs final]. destruct IH as (IF & IC).
    rewrite N.lor_spec in IF, IC. cbn [existsb combine filter]. change (has_bit b v) with (N.testbit v b). unfold first_setter at 1. cbn [fst snd].
    split; [rewrite IF, orb_assoc; reflexivity|].
    destruct (N.testbit v b), (N.testbit c b); cbn in *; rewrite ?IC; reflexivity.
Qed.
(* Contents stay in the width of the cell. *)
Theorem C129_width : forall w os c, c < 2 ^ w -> Forall (fun o => match o with Cas _ x | Swap x | Add x | Or x => x < 2 ^ w end) os ->
  let (rs, final) := run w os c in final < 2 ^ w /\ Forall (fun r => r < 2 ^ w) rs.
Proof.
  intros w os. induction os as [|o os IH]; intros c C F; cbn [run]; [split; [exact C|constructor]|].
  inversion F as [|? ? Fo Fos]; subst. destruct (step w o c) as [r c'] eqn:E.
  assert (r = c /\ c' < 2 ^ w) as (-> & C').
  { destruct o; cbn in E; injection E as <- <-; (split; [reflexivity|]).
    - destruct (c =? comparand); assumption.
    - exact Fo.
    - unfold wadd, wrap. apply N.mod_lt, N.pow_nonzero. discriminate.
    - destruct (N.eq_dec (N.lor c value) 0) as [->|NZ]; [lia|]. apply N.log2_lt_pow2; [lia|]. rewrite N.log2_lor.
      assert (forall x, x < 2 ^ w -> x <> 0 -> N.log2 x < w) as L by (intros x Hx Hx0; apply N.log2_lt_pow2; lia).
      destruct (N.eq_dec c 0) as [->|Hc]; destruct (N.eq_dec value 0) as [->|Hv].
      + cbn in NZ. congruence.
      + change (N.log2 0) with 0. rewrite N.max_0_l. apply L; assumption.
      + change (N.log2 0) with 0. rewrite N.max_0_r. apply L; assumption.
      + apply N.max_lub_lt; apply L; assumption. }
  specialize (IH c' C' Fos). destruct (run w os c') as [rs final]. destruct IH as (A & B). split; [exact A|constructor; assumption].
Qed.

(* The time stamp is the number with the two halves. *)
Theorem C129_rdtsc : forall hi lo, hi < 2 ^ 32 -> lo < 2 ^ 32 -> rdtsc hi lo = hi * 2 ^ 32 + lo.
Proof.
  intros hi lo H L. unfold rdtsc, wrap. rewrite N.shiftl_mul_pow2, N.mod_small.
  - rewrite N.add_nocarry_lxor, N.lxor_lor; try reflexivity.
    all: apply N.bits_inj; intros i; rewrite N.land_spec, N.bits_0; destruct (N.lt_ge_cases i 32) as [I|I];
      [rewrite N.mul_pow2_bits_low by exact I; reflexivity
      |destruct (N.eq_dec lo 0) as [->|NZ]; [rewrite N.bits_0; apply andb_false_r|];
       rewrite (N.bits_above_log2 lo); [apply andb_false_r|];
       apply N.lt_le_trans with 32; [apply N.log2_lt_pow2; lia|exact I]].
  - apply N.lt_le_trans with (2 ^ 32 * 2 ^ 32); [apply N.mul_lt_mono_pos_r; [reflexivity|exact H]|]. rewrite <- N.pow_add_r. apply N.le_refl.
Qed.

(* A feature test is true exactly if the bit or any higher bit is set. *)
Theorem C129_cpuid : forall cpu level a b c d k bit, cpu level = Some [a; b; c; d] -> (k < 4)%nat -> bit < 32 ->
  exists t, test_cpuid_register cpu level k bit = Ok t /\ (t = true <-> exists j, bit <= j /\ N.testbit (nth k [a; b; c; d] 0) j = true).
Proof.
  intros cpu level a b c d k bit E K B. unfold test_cpuid_register. rewrite E.
  assert (aget [a; b; c; d] k = Ok (nth k [a; b; c; d] 0)) as ->.
  { destruct k as [|[|[|[|k]]]]; try reflexivity. exfalso. lia. }
  cbn [bind]. apply N.ltb_lt in B. rewrite B. cbn [defined bind]. eexists. split; [reflexivity|]. set (r := nth k _ 0). clearbody r.
  rewrite negb_true_iff, N.eqb_neq. split.
  - intros NZ. exists (bit + N.log2 (N.shiftr r bit)). split; [lia|]. rewrite N.add_comm, <- N.shiftr_spec' . apply N.bit_log2. exact NZ.
  - intros (j & Hj & T) Z. assert (N.testbit (N.shiftr r bit) (j - bit) = true) as X by (rewrite N.shiftr_spec'; replace (j - bit + bit) with j by lia; exact T).
    rewrite Z, N.bits_0 in X. discriminate.
Qed.
(* So every processor with a higher bit set in the register is reported to support POPCNT, although the bit is clear: such as a
   virtual machine (bit 31 tells that there is a hypervisor); the same for LZCNT. *)
Theorem C129_cpuid_refuted : forall cpu a b c d,
  (cpu 1 = Some [a; b; c; d] -> N.testbit c 31 = true -> test_cpu_support_popcount cpu = Ok true)
  /\ (forall j, cpu 0x80000001 = Some [a; b; c; d] -> 5 <= j -> N.testbit c j = true -> test_cpu_support_lzcnt cpu = Ok true).
Proof.
  intros cpu a b c d. split.
  - intros E T. destruct (C129_cpuid cpu 1 a b c d 2 23 E ltac:(lia) ltac:(lia)) as (t & Ht & X). unfold test_cpu_support_popcount. rewrite Ht. f_equal. apply X. exists 31. split; [lia|exact T].
  - intros j E J T. destruct (C129_cpuid cpu 0x80000001 a b c d 2 5 E ltac:(lia) ltac:(lia)) as (t & Ht & X). unfold test_cpu_support_lzcnt. rewrite Ht. f_equal. apply X. exists j. split; [lia|exact T].
Qed.
(* A processor that does not know the leaf: the registers are read without having been written. *)
Theorem C129_unknown_leaf_refuted : forall cpu level k bit, cpu level = None -> test_cpuid_register cpu level k bit = UB.
Proof. intros cpu level k bit E. unfold test_cpuid_register. rewrite E. reflexivity. Qed.

(* One Newton step squares the residual: r becomes (3 r^2 + r^3) / 4; so 0.0008 becomes at most 0.0000005, and two steps 2e-13
   (without rounding). *)
Theorem C129_newton : forall x y, (residual x (rsqrt_nr1 x y) == (3 * residual x y ^ 2 + residual x y ^ 3) / 4)%Q.
Proof. intros x y. unfold residual, rsqrt_nr1, newton. field. Qed.
Theorem C129_newton2 : forall x y, (rsqrt_nr2 x y == rsqrt_nr1 x (rsqrt_nr1 x y))%Q.
Proof. intros x y. unfold rsqrt_nr2, rsqrt_nr1, newton. field. Qed.
Theorem C129_newton_bound : forall x y e, (Qabs (residual x y) <= e -> e <= 1 -> Qabs (residual x (rsqrt_nr1 x y)) <= e * e)%Q.
Proof.
  intros x y e H E. rewrite C129_newton. set (r := residual x y) in *. clearbody r. apply Qabs_Qle_condition in H. destruct H as [H1 H2].
  assert (0 <= e)%Q as E0 by lra.
  assert (0 <= (e - r) * (e + r))%Q as S by (apply Qmult_le_0_compat; lra).
  assert (r * r <= e * e)%Q as RR by lra.
  assert (0 <= r * r)%Q as R0 by (destruct (Qlt_le_dec r 0); [assert (0 <= (-r) * (-r))%Q by (apply Qmult_le_0_compat; lra); lra|apply Qmult_le_0_compat; lra]).
  assert (0 <= (3 + r) * (r * r))%Q as P by (apply Qmult_le_0_compat; lra).
  assert (0 <= (1 - r) * (r * r))%Q as P2 by (apply Qmult_le_0_compat; lra).
  assert ((3 * r ^ 2 + r ^ 3) / 4 == (3 + r) * (r * r) / 4)%Q as -> by field.
  apply Qabs_Qle_condition. split.
  - assert (0 <= (3 + r) * (r * r) / 4)%Q by (apply Qle_shift_div_l; lra). lra.
  - apply Qle_shift_div_r; [lra|]. lra.
Qed.

(* ---- examples ---- *)
Example C129_run_example :
  run 8 [Add 250; Cas 9 1; Or 6; Swap 77; Cas 77 5; Add 255] 3 = ([3; 253; 253; 255; 77; 5], 4)
  /\ fst (run 8 (adds (repeat 1 5)) 254) = [254; 255; 0; 1; 2]
  /\ run 8 (map (Cas 0) [4; 5; 6]) 0 = ([0; 4; 4], 4) /\ run 8 (ors [1; 3; 6]) 0 = ([0; 1; 3], 7).
Proof. vm_compute. repeat split. Qed.
Example C129_cpuid_example :
  let ivy := fun l => if l =? 1 then Some [0; 0; 0x80000000; 0] else if l =? 0x80000001 then Some [0; 0; 1; 0] else None in
  test_cpu_support_popcount ivy = Ok true /\ N.testbit 0x80000000 23 = false /\ test_cpu_support_lzcnt ivy = Ok false
  /\ test_cpu_support_lzcnt (fun l => if l =? 0x80000001 then Some [0; 0; 0x20; 0] else None) = Ok true
  /\ test_cpuid_register ivy 1 4 0 = UB /\ test_cpuid_register ivy 7 0 0 = UB /\ rdtsc 3 5 = 12884901893.
Proof. vm_compute. repeat split. Qed.
Example C129_newton_example : (rsqrt_nr1 4 (1 # 2) == 1 # 2)%Q /\ (rsqrt_nr1 4 (2 # 5) == 59 # 125)%Q /\ (Qabs (residual 4 (2 # 5)) <= 9 # 25)%Q.
Proof. repeat split; vm_compute; try reflexivity. discriminate. Qed.

Print Assumptions C129_counter.
Print Assumptions C129_tickets.
Print Assumptions C129_swap.
Print Assumptions C129_cas.
Print Assumptions C129_cas_result.
Print Assumptions C129_flags.
Print Assumptions C129_width.
Print Assumptions C129_rdtsc.
Print Assumptions C129_cpuid.
Print Assumptions C129_cpuid_refuted.
Print Assumptions C129_unknown_leaf_refuted.
Print Assumptions C129_newton.
Print Assumptions C129_newton2.
Print Assumptions C129_newton_bound.

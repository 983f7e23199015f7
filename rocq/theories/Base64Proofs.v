From Coq Require Import NArith ZArith Arith List Bool Lia.
From Verif Require Import Base Base64Model Base64Spec.
Import ListNotations.
Open Scope N_scope.

(* ---- finite domains by computation ---- *)
Definition upto (n : N) : list N := map N.of_nat (seq 0 (N.to_nat n)).

Lemma in_upto : forall n v, v < n -> In v (upto n).
Proof.
  intros n v H. unfold upto. apply in_map_iff. exists (N.to_nat v). split; [apply N2Nat.id|].
  apply in_seq. lia.
Qed.

Lemma check1 : forall n (f : N -> bool), forallb f (upto n) = true -> forall v, v < n -> f v = true.
Proof. intros n f H v Hv. rewrite forallb_forall in H. apply H. apply in_upto; auto. Qed.

Lemma check2 : forall n m (f : N -> N -> bool),
  forallb (fun a => forallb (f a) (upto m)) (upto n) = true ->
  forall a b, a < n -> b < m -> f a b = true.
Proof.
  intros n m f H a b Ha Hb.
  pose proof (check1 _ _ H a Ha) as H1. cbv beta in H1.
  exact (check1 _ _ H1 b Hb).
Qed.

Lemma table_ok : forall k, k < 64 -> table_at k = Ok (alphabet k).
Proof.
  intros k Hk.
  assert (H : (match nth_error base64_chars (N.to_nat k) with Some c => c =? alphabet k | None => false end) = true).
  { revert k Hk. apply check1. vm_compute. reflexivity. }
  unfold table_at. destruct (nth_error base64_chars (N.to_nat k)); [|discriminate].
  apply N.eqb_eq in H. subst. reflexivity.
Qed.

Lemma value_bound : forall l, value_of l < 2 ^ N.of_nat (length l).
Proof.
  assert (G : forall l acc,
    fold_left (fun acc b => 2 * acc + (if b : bool then 1 else 0)) l acc < (acc + 1) * 2 ^ N.of_nat (length l)).
  { induction l; intro acc; cbn [fold_left length].
    - change (N.of_nat 0) with 0. lia.
    - eapply N.lt_le_trans; [apply IHl|]. rewrite Nat2N.inj_succ, N.pow_succ_r'.
      rewrite N.mul_assoc. apply N.mul_le_mono_r. destruct a; lia. }
  intro l. specialize (G l 0). rewrite N.mul_1_l in G. exact G.
Qed.

(* code expressions against bit groups *)
Definition bitsL (v : N) (l : list N) : list bool := map (N.testbit v) l.

Lemma g0_ok : forall a, a < 256 ->
  wrap 8 (N.shiftr (N.land a 0xfc) 2) = value_of (bitsL a [7;6;5;4;3;2]).
Proof. intros. apply N.eqb_eq. revert a H. apply check1. vm_compute. reflexivity. Qed.

Lemma g1_ok : forall a b, a < 256 -> b < 256 ->
  wrap 8 (N.shiftl (N.land a 0x03) 4 + N.shiftr (N.land b 0xf0) 4)
  = value_of (bitsL a [1;0] ++ bitsL b [7;6;5;4]).
Proof. intros a b Ha Hb. apply N.eqb_eq. revert a b Ha Hb. apply check2. vm_compute. reflexivity. Qed.

Lemma g2_ok : forall b c, b < 256 -> c < 256 ->
  wrap 8 (N.shiftl (N.land b 0x0f) 2 + N.shiftr (N.land c 0xc0) 6)
  = value_of (bitsL b [3;2;1;0] ++ bitsL c [7;6]).
Proof. intros a b Ha Hb. apply N.eqb_eq. revert a b Ha Hb. apply check2. vm_compute. reflexivity. Qed.

Lemma g3_ok : forall c, c < 256 ->
  wrap 8 (N.land c 0x3f) = value_of (bitsL c [5;4;3;2;1;0]).
Proof. intros. apply N.eqb_eq. revert c H. apply check1. vm_compute. reflexivity. Qed.

Lemma value6_lt : forall l, length l = 6%nat -> value_of l < 64.
Proof. intros l H. pose proof (value_bound l). rewrite H in H0. exact H0. Qed.

Section S.
Variable ind : outcome N.

Lemma rd3 : forall x y z,
  split3 ind [Some x; Some y; Some z] =
  Ok [ wrap 8 (N.shiftr (N.land x 0xfc) 2);
       wrap 8 (N.shiftl (N.land x 0x03) 4 + N.shiftr (N.land y 0xf0) 4);
       wrap 8 (N.shiftl (N.land y 0x0f) 2 + N.shiftr (N.land z 0xc0) 6);
       wrap 8 (N.land z 0x3f) ].
Proof. reflexivity. Qed.

Lemma emit_ok : forall vs ret, Forall (fun v => v < 64) vs -> emit vs ret = Ok (ret ++ map alphabet vs).
Proof.
  induction vs; intros ret H; cbn [emit map].
  - rewrite app_nil_r. reflexivity.
  - inversion H; subst. rewrite table_ok by auto. cbn [bind].
    rewrite IHvs by auto. rewrite <- app_assoc. reflexivity.
Qed.

Definition quad (a b c : N) : list N :=
  [ value_of (bitsL a [7;6;5;4;3;2]); value_of (bitsL a [1;0] ++ bitsL b [7;6;5;4]);
    value_of (bitsL b [3;2;1;0] ++ bitsL c [7;6]); value_of (bitsL c [5;4;3;2;1;0]) ].

Lemma quad_lt : forall a b c, Forall (fun v => v < 64) (quad a b c).
Proof. intros. unfold quad. repeat constructor; apply value6_lt; reflexivity. Qed.

Lemma split3_quad : forall a b c, a < 256 -> b < 256 -> c < 256 ->
  split3 ind [Some a; Some b; Some c] = Ok (quad a b c).
Proof. intros. rewrite rd3, g0_ok, g1_ok, g2_ok, g3_ok by auto. reflexivity. Qed.

Lemma enc_loop_block : forall a b c rest x y z ret, a < 256 -> b < 256 -> c < 256 ->
  enc_loop ind (a :: b :: c :: rest) 0 [x; y; z] ret
  = enc_loop ind rest 0 [Some a; Some b; Some c] (ret ++ map alphabet (quad a b c)).
Proof.
  intros. cbn [enc_loop]. unfold wr, aset. cbn [length Nat.ltb Nat.leb lset bind Nat.eqb].
  rewrite split3_quad by auto. cbn [bind]. rewrite emit_ok by apply quad_lt. reflexivity.
Qed.

Lemma groups6_block : forall a b c rest n,
  groups6 (4 + n) (bits_of 8 a ++ bits_of 8 b ++ bits_of 8 c ++ rest) = quad a b c ++ groups6 n rest.
Proof. intros. reflexivity. Qed.

Lemma groups6_fuel : forall n m bits, (length bits <= n)%nat -> (length bits <= m)%nat ->
  groups6 n bits = groups6 m bits.
Proof.
  induction n; intros m bits Hn Hm.
  - destruct bits; [destruct m; reflexivity|cbn in Hn; lia].
  - destruct m; [destruct bits; [reflexivity|cbn in Hm; lia]|].
    cbn [groups6]. destruct bits as [|b0 bits]; [reflexivity|].
    f_equal. apply IHn; rewrite skipn_length; cbn [length] in *; lia.
Qed.

Lemma list3_ind : forall (P : list N -> Prop),
  P [] -> (forall a, P [a]) -> (forall a b, P [a; b]) ->
  (forall a b c l, P l -> P (a :: b :: c :: l)) -> forall l, P l.
Proof.
  intros P H0 H1 H2 H3. fix IH 1. intros [|a [|b [|c l]]]; [exact H0|apply H1|apply H2|apply H3; apply IH].
Qed.

Definition enc_groups (bs : list N) : list N :=
  let bits := flat_map (bits_of 8) bs in groups6 (length bits) bits.

Lemma enc_groups_cons : forall a b c l, enc_groups (a :: b :: c :: l) = quad a b c ++ enc_groups l.
Proof.
  intros. unfold enc_groups. cbn [flat_map].
  assert (E : length (bits_of 8 a ++ bits_of 8 b ++ bits_of 8 c ++ flat_map (bits_of 8) l)
              = (4 + (20 + length (flat_map (bits_of 8) l)))%nat) by reflexivity.
  rewrite E, groups6_block. f_equal. apply groups6_fuel; lia.
Qed.

Lemma padding_cons : forall n, padding (S (S (S n))) = padding n.
Proof.
  intro n. unfold padding. replace (S (S (S n))) with (n + 1 * 3)%nat by lia.
  rewrite Nat.mod_add by lia. reflexivity.
Qed.

Lemma encode_gen : forall bs x y z ret, Forall (fun b => b < 256) bs ->
  (let! (i, a3, ret) := enc_loop ind bs 0 [x; y; z] ret in
   if Nat.eqb i 0 then Ok ret
   else
     let! a3 := zero_fill (3 - i) i a3 in
     let! a4 := split3 ind a3 in
     let! ret := emit (firstn (i + 1) a4) ret in
     Ok (ret ++ repeat 61 (3 - i)))
  = Ok (ret ++ map alphabet (enc_groups bs) ++ repeat 61 (padding (length bs))).
Proof.
  intro bs. induction bs using list3_ind; intros x y z ret HF.
  - cbn. rewrite app_nil_r. reflexivity.
  - inversion HF; subst. cbn [enc_loop]. unfold wr, aset. cbn [length Nat.ltb Nat.leb lset bind Nat.eqb].
    cbn [Nat.sub zero_fill]. unfold wr, aset. cbn [length Nat.ltb Nat.leb lset bind].
    rewrite split3_quad by (auto; reflexivity). cbn [bind].
    rewrite emit_ok.
    2:{ pose proof (quad_lt a 0 0) as Q. unfold quad in *. cbn [firstn Nat.add].
        inversion Q; subst. inversion H4; subst. repeat constructor; auto. }
    cbn [bind]. rewrite <- app_assoc. reflexivity.
  - inversion HF; subst. inversion H2; subst. cbn [enc_loop]. unfold wr, aset.
    cbn [length Nat.ltb Nat.leb lset bind Nat.eqb].
    cbn [Nat.sub zero_fill]. unfold wr, aset. cbn [length Nat.ltb Nat.leb lset bind].
    rewrite split3_quad by (auto; reflexivity). cbn [bind].
    rewrite emit_ok.
    2:{ pose proof (quad_lt a b 0) as Q. unfold quad in *. cbn [firstn Nat.add].
        inversion Q as [|? ? Q1 Q']; subst. inversion Q' as [|? ? Q2 Q'']; subst.
        inversion Q'' as [|? ? Q3 Q''']; subst. repeat constructor; auto. }
    cbn [bind]. rewrite <- app_assoc. reflexivity.
  - inversion HF as [|? ? F1 F']; subst. inversion F' as [|? ? F2 F'']; subst.
    inversion F'' as [|? ? F3 F''']; subst.
    rewrite enc_loop_block by auto. rewrite IHbs by auto.
    rewrite enc_groups_cons, map_app. cbn [length]. rewrite padding_cons.
    rewrite <- !app_assoc. reflexivity.
Qed.

Lemma encode_spec : forall bs, Forall (fun b => b < 256) bs ->
  base64_encode ind bs = Ok (rfc4648_encode bs).
Proof. intros bs H. unfold base64_encode. rewrite encode_gen by auto. reflexivity. Qed.
End S.

(* ---- decoding ---- *)
Lemma is_base64_spec : forall c, c < 256 ->
  is_base64 c = match alphabet_value c with Some _ => true | None => false end.
Proof. intros. apply eqb_prop. revert c H. apply check1. vm_compute. reflexivity. Qed.

Lemma cond_spec : forall c, c < 256 ->
  (negb (c =? 61) && is_base64 c)%bool = match alphabet_value c with Some _ => true | None => false end.
Proof. intros. apply eqb_prop. revert c H. apply check1. vm_compute. reflexivity. Qed.

Lemma find_spec : forall c v, c < 256 -> alphabet_value c = Some v ->
  find_base64_char c = Ok v /\ v < 64 /\ wrap 8 (N.land v 0xff) = v.
Proof.
  intros c v Hc.
  assert (H : (match alphabet_value c with
               | Some v => (match find_base64_char c with Ok u => u =? v | _ => false end)
                           && (v <? 64) && (wrap 8 (N.land v 0xff) =? v)
               | None => true end)%bool = true).
  { revert c Hc. apply check1. vm_compute. reflexivity. }
  intro E. rewrite E in H. rewrite !andb_true_iff in H. destruct H as [[H1 H2] H3].
  destruct (find_base64_char c); try discriminate.
  apply N.eqb_eq in H1. apply N.ltb_lt in H2. apply N.eqb_eq in H3. subst. auto.
Qed.

Lemma b0_ok : forall a b, a < 64 -> b < 64 -> byte0 a b = value_of (bitsL a [5;4;3;2;1;0] ++ bitsL b [5;4]).
Proof. intros a b Ha Hb. apply N.eqb_eq. revert a b Ha Hb. apply check2. vm_compute. reflexivity. Qed.
Lemma b1_ok : forall a b, a < 64 -> b < 64 -> byte1 a b = value_of (bitsL a [3;2;1;0] ++ bitsL b [5;4;3;2]).
Proof. intros a b Ha Hb. apply N.eqb_eq. revert a b Ha Hb. apply check2. vm_compute. reflexivity. Qed.
Lemma b2_ok : forall a b, a < 64 -> b < 64 -> byte2 a b = value_of (bitsL a [1;0] ++ bitsL b [5;4;3;2;1;0]).
Proof. intros a b Ha Hb. apply N.eqb_eq. revert a b Ha Hb. apply check2. vm_compute. reflexivity. Qed.

Definition trip (a b c d : N) : list N :=
  [ value_of (bitsL a [5;4;3;2;1;0] ++ bitsL b [5;4]);
    value_of (bitsL b [3;2;1;0] ++ bitsL c [5;4;3;2]);
    value_of (bitsL c [1;0] ++ bitsL d [5;4;3;2;1;0]) ].

Lemma octets_block : forall a b c d rest n,
  octets (3 + n) (bits_of 6 a ++ bits_of 6 b ++ bits_of 6 c ++ bits_of 6 d ++ rest)
  = trip a b c d ++ octets n rest.
Proof. intros. reflexivity. Qed.

Lemma octets_fuel : forall n m bits, (length bits <= n)%nat -> (length bits <= m)%nat ->
  octets n bits = octets m bits.
Proof.
  induction n; intros m bits Hn Hm.
  - destruct bits; [destruct m; reflexivity|cbn in Hn; lia].
  - destruct m; [destruct bits; [reflexivity|cbn in Hm; lia]|].
    cbn [octets]. destruct (Nat.ltb_spec (length bits) 8); [reflexivity|].
    f_equal. apply IHn; rewrite skipn_length; lia.
Qed.

Definition dec_octets (vs : list N) : list N :=
  let bits := flat_map (bits_of 6) vs in octets (length bits) bits.

Lemma dec_octets_cons : forall a b c d l, dec_octets (a :: b :: c :: d :: l) = trip a b c d ++ dec_octets l.
Proof.
  intros. unfold dec_octets. cbn [flat_map].
  assert (E : length (bits_of 6 a ++ bits_of 6 b ++ bits_of 6 c ++ bits_of 6 d ++ flat_map (bits_of 6) l)
              = (3 + (21 + length (flat_map (bits_of 6) l)))%nat) by reflexivity.
  rewrite E, octets_block. f_equal. apply octets_fuel; lia.
Qed.

(* what follows the loop, base64.cc:95-107 *)
Definition dec_tail (ind : outcome N) (r : outcome (nat * list (option N) * list N)) : outcome (list N) :=
  let! (i, a4, ret) := r in
  if Nat.eqb i 0 then Ok ret
  else
    let! a4 := find_all ind i 0 a4 in
    let! v0 := rd ind a4 0 in
    let! v1 := rd ind a4 1 in
    let! v2 := rd ind a4 2 in
    Ok (ret ++ firstn (i - 1) [byte0 v0 v1; byte1 v1 v2]).

Lemma decode_tail_eq : forall ind s,
  base64_decode ind s
  = dec_tail ind (dec_loop ind s (to_int32 (Z.of_nat (length s))) 0 [None; None; None; None] []).
Proof. reflexivity. Qed.

Lemma find_all_1 : forall ind c0 x1 x2 x3 v0, c0 < 256 -> alphabet_value c0 = Some v0 ->
  find_all ind 1 0 [Some c0; x1; x2; x3] = Ok [Some v0; x1; x2; x3].
Proof.
  intros. cbn [find_all]. unfold rd, wr, aset, aget. cbn [nth_error bind].
  destruct (find_spec c0 v0) as [E [L W]]; auto. rewrite E. cbn [bind]. rewrite W. reflexivity.
Qed.
Lemma find_all_2 : forall ind c0 c1 x2 x3 v0 v1, c0 < 256 -> c1 < 256 ->
  alphabet_value c0 = Some v0 -> alphabet_value c1 = Some v1 ->
  find_all ind 2 0 [Some c0; Some c1; x2; x3] = Ok [Some v0; Some v1; x2; x3].
Proof.
  intros. cbn [find_all]. unfold rd, wr, aset, aget. cbn [nth_error bind].
  destruct (find_spec c0 v0) as [E0 [L0 W0]]; auto. destruct (find_spec c1 v1) as [E1 [L1 W1]]; auto.
  rewrite E0. cbn [bind]. rewrite W0. cbn [length Nat.ltb Nat.leb lset bind nth_error].
  rewrite E1. cbn [bind]. rewrite W1. reflexivity.
Qed.
Lemma find_all_3 : forall ind c0 c1 c2 x3 v0 v1 v2, c0 < 256 -> c1 < 256 -> c2 < 256 ->
  alphabet_value c0 = Some v0 -> alphabet_value c1 = Some v1 -> alphabet_value c2 = Some v2 ->
  find_all ind 3 0 [Some c0; Some c1; Some c2; x3] = Ok [Some v0; Some v1; Some v2; x3].
Proof.
  intros. cbn [find_all]. unfold rd, wr, aset, aget. cbn [nth_error bind].
  destruct (find_spec c0 v0) as [E0 [L0 W0]]; auto. destruct (find_spec c1 v1) as [E1 [L1 W1]]; auto.
  destruct (find_spec c2 v2) as [E2 [L2 W2]]; auto.
  rewrite E0. cbn [bind]. rewrite W0. cbn [length Nat.ltb Nat.leb lset bind nth_error].
  rewrite E1. cbn [bind]. rewrite W1. cbn [length Nat.ltb Nat.leb lset bind nth_error].
  rewrite E2. cbn [bind]. rewrite W2. reflexivity.
Qed.
Lemma find_all_4 : forall ind c0 c1 c2 c3 v0 v1 v2 v3, c0 < 256 -> c1 < 256 -> c2 < 256 -> c3 < 256 ->
  alphabet_value c0 = Some v0 -> alphabet_value c1 = Some v1 -> alphabet_value c2 = Some v2 ->
  alphabet_value c3 = Some v3 ->
  find_all ind 4 0 [Some c0; Some c1; Some c2; Some c3] = Ok [Some v0; Some v1; Some v2; Some v3].
Proof.
  intros. cbn [find_all]. unfold rd, wr, aset, aget. cbn [nth_error bind].
  destruct (find_spec c0 v0) as [E0 [L0 W0]]; auto. destruct (find_spec c1 v1) as [E1 [L1 W1]]; auto.
  destruct (find_spec c2 v2) as [E2 [L2 W2]]; auto. destruct (find_spec c3 v3) as [E3 [L3 W3]]; auto.
  rewrite E0. cbn [bind]. rewrite W0. cbn [length Nat.ltb Nat.leb lset bind nth_error].
  rewrite E1. cbn [bind]. rewrite W1. cbn [length Nat.ltb Nat.leb lset bind nth_error].
  rewrite E2. cbn [bind]. rewrite W2. cbn [length Nat.ltb Nat.leb lset bind nth_error].
  rewrite E3. cbn [bind]. rewrite W3. reflexivity.
Qed.

Lemma list4_ind : forall (P : list N -> Prop),
  P [] -> (forall a, P [a]) -> (forall a b, P [a; b]) -> (forall a b c, P [a; b; c]) ->
  (forall a b c d l, P l -> P (a :: b :: c :: d :: l)) -> forall l, P l.
Proof.
  intros P H0 H1 H2 H3 H4. fix IH 1. intros [|a [|b [|c [|d l]]]]; [exact H0|apply H1|apply H2|apply H3|apply H4; apply IH].
Qed.

Section Step.
Variable ind : outcome N.

Lemma step_stop : forall s i a4 ret len, (0 < len)%Z -> (len < 2 ^ 31)%Z ->
  match s with [] => False | c :: _ => c < 256 /\ alphabet_value c = None end ->
  dec_loop ind s len i a4 ret = Ok (i, a4, ret).
Proof.
  intros [|c s] i a4 ret len H1 H2 H3; [contradiction|]. destruct H3 as [Hc E].
  cbn [dec_loop]. destruct (Z.eqb_spec len 0); [reflexivity|].
  destruct (Z.ltb_spec (- 2 ^ 31) len); [|lia]. cbn [defined bind].
  rewrite cond_spec by auto. rewrite E. reflexivity.
Qed.

Lemma step_go : forall c v s i a4 ret len, (0 < len)%Z -> (i < 3)%nat -> length a4 = 4%nat ->
  c < 256 -> alphabet_value c = Some v ->
  dec_loop ind (c :: s) len i a4 ret = dec_loop ind s (len - 1) (S i) (lset a4 i (Some c)) ret.
Proof.
  intros c v s i a4 ret len H1 Hi HL Hc E.
  cbn [dec_loop]. destruct (Z.eqb_spec len 0); [lia|].
  destruct (Z.ltb_spec (- 2 ^ 31) len); [|lia]. cbn [defined bind].
  rewrite cond_spec by auto. rewrite E. unfold wr. rewrite aset_Ok by lia. cbn [bind].
  destruct i as [|[|[|]]]; try lia; reflexivity.
Qed.

Lemma step_full : forall c0 c1 c2 c3 v0 v1 v2 v3 s ret len, (0 < len)%Z ->
  c0 < 256 -> c1 < 256 -> c2 < 256 -> c3 < 256 ->
  alphabet_value c0 = Some v0 -> alphabet_value c1 = Some v1 -> alphabet_value c2 = Some v2 ->
  alphabet_value c3 = Some v3 -> forall x,
  dec_loop ind (c3 :: s) len 3 [Some c0; Some c1; Some c2; x] ret
  = dec_loop ind s (len - 1) 0 [Some v0; Some v1; Some v2; Some v3] (ret ++ trip v0 v1 v2 v3).
Proof.
  intros. cbn [dec_loop]. destruct (Z.eqb_spec len 0); [lia|].
  destruct (Z.ltb_spec (- 2 ^ 31) len); [|lia]. cbn [defined bind].
  rewrite cond_spec by auto. rewrite H7. unfold wr, aset. cbn [length Nat.ltb Nat.leb lset bind Nat.eqb].
  rewrite (find_all_4 ind c0 c1 c2 c3 v0 v1 v2 v3) by auto. cbn [bind].
  unfold rd at 1 2 3 4. unfold aget. cbn [nth_error bind].
  destruct (find_spec c0 v0) as [_ [L0 _]]; auto. destruct (find_spec c1 v1) as [_ [L1 _]]; auto.
  destruct (find_spec c2 v2) as [_ [L2 _]]; auto. destruct (find_spec c3 v3) as [_ [L3 _]]; auto.
  rewrite b0_ok, b1_ok, b2_ok by auto. reflexivity.
Qed.

Lemma rd_lax : forall a4 i, (i < length a4)%nat -> (exists g, ind = Ok g) -> exists v, rd ind a4 i = Ok v.
Proof.
  intros a4 i Hi [g ->]. unfold rd. destruct (aget_lt a4 i Hi) as [x E]. rewrite E. cbn [bind].
  destruct x; eauto.
Qed.

(* the tail after 0..3 leftover characters *)
Lemma tail0 : forall a4 ret, dec_tail ind (Ok (0%nat, a4, ret)) = Ok ret.
Proof. reflexivity. Qed.

Lemma firstn0_gen : forall (o1 o2 : outcome N) (f : N -> N -> list N) ret,
  (exists v, o1 = Ok v) -> (exists v, o2 = Ok v) ->
  (let! v1 := o1 in let! v2 := o2 in Ok (ret ++ firstn 0 (f v1 v2))) = Ok (ret ++ []).
Proof. intros o1 o2 f ret [v1 ->] [v2 ->]. reflexivity. Qed.

Lemma tail1 : forall c v x1 x2 x3 ret, c < 256 -> alphabet_value c = Some v ->
  ((exists g, ind = Ok g) \/ exists y1 y2, x1 = Some y1 /\ x2 = Some y2) ->
  dec_tail ind (Ok (1%nat, [Some c; x1; x2; x3], ret)) = Ok (ret ++ []).
Proof.
  intros c v x1 x2 x3 ret Hc E HI. cbn [dec_tail bind Nat.eqb].
  rewrite (find_all_1 ind c x1 x2 x3 v) by auto. cbn [bind].
  unfold rd, aget. cbn [nth_error bind]. cbn [Nat.sub firstn].
  destruct x1 as [y1|], x2 as [y2|]; cbn [bind]; try reflexivity;
    destruct HI as [[g ->]|[y1' [y2' [A B]]]]; try discriminate; reflexivity.
Qed.

Lemma tail2 : forall c0 c1 v0 v1 x2 x3 ret, c0 < 256 -> c1 < 256 ->
  alphabet_value c0 = Some v0 -> alphabet_value c1 = Some v1 ->
  ((exists g, ind = Ok g) \/ exists y2, x2 = Some y2) ->
  dec_tail ind (Ok (2%nat, [Some c0; Some c1; x2; x3], ret))
  = Ok (ret ++ [value_of (bitsL v0 [5;4;3;2;1;0] ++ bitsL v1 [5;4])]).
Proof.
  intros c0 c1 v0 v1 x2 x3 ret H0 H1 E0 E1 HI. cbn [dec_tail bind Nat.eqb].
  rewrite (find_all_2 ind c0 c1 x2 x3 v0 v1) by auto. cbn [bind].
  unfold rd, aget. cbn [nth_error bind]. cbn [Nat.sub firstn].
  destruct (find_spec c0 v0) as [_ [L0 _]]; auto. destruct (find_spec c1 v1) as [_ [L1 _]]; auto.
  rewrite b0_ok by auto.
  destruct x2 as [y2|]; cbn [bind]; try reflexivity;
    destruct HI as [[g ->]|[y2' A]]; try discriminate; reflexivity.
Qed.

Lemma tail3 : forall c0 c1 c2 v0 v1 v2 x3 ret, c0 < 256 -> c1 < 256 -> c2 < 256 ->
  alphabet_value c0 = Some v0 -> alphabet_value c1 = Some v1 -> alphabet_value c2 = Some v2 ->
  dec_tail ind (Ok (3%nat, [Some c0; Some c1; Some c2; x3], ret))
  = Ok (ret ++ [value_of (bitsL v0 [5;4;3;2;1;0] ++ bitsL v1 [5;4]);
                value_of (bitsL v1 [3;2;1;0] ++ bitsL v2 [5;4;3;2])]).
Proof.
  intros c0 c1 c2 v0 v1 v2 x3 ret H0 H1 H2 E0 E1 E2. cbn [dec_tail bind Nat.eqb].
  rewrite (find_all_3 ind c0 c1 c2 x3 v0 v1 v2) by auto. cbn [bind].
  unfold rd, aget. cbn [nth_error bind]. cbn [Nat.sub firstn].
  destruct (find_spec c0 v0) as [_ [L0 _]]; auto. destruct (find_spec c1 v1) as [_ [L1 _]]; auto.
  destruct (find_spec c2 v2) as [_ [L2 _]]; auto.
  rewrite b0_ok, b1_ok by auto. reflexivity.
Qed.

Lemma loop_end : forall i a4 ret, dec_loop ind [] 0 i a4 ret = Ok (i, a4, ret).
Proof. reflexivity. Qed.
End Step.

(* hypotheses under which the leftover group is not read while indeterminate *)
Definition okind (ind : outcome N) (x1 x2 : option N) (k : nat) : Prop :=
  (exists g, ind = Ok g) \/ (k <> 1%nat /\ k <> 2%nat) \/ (exists y1 y2, x1 = Some y1 /\ x2 = Some y2).

Lemma decode_gen : forall ind s x0 x1 x2 x3 ret,
  Forall (fun c => c < 256) s -> (Z.of_nat (length s) < 2 ^ 31)%Z ->
  okind ind x1 x2 (length (prefix_values s)) ->
  dec_tail ind (dec_loop ind s (Z.of_nat (length s)) 0 [x0; x1; x2; x3] ret)
  = Ok (ret ++ dec_octets (prefix_values s)).
Proof.
  intros ind s. remember (length s) as n eqn:Hn. revert s Hn.
  induction n as [n IH] using lt_wf_ind. intros s Hn x0 x1 x2 x3 ret HF HL HI.
  (* first character *)
  destruct s as [|c0 s].
  { subst n. cbn. rewrite app_nil_r. reflexivity. }
  inversion HF as [|? ? F0 HF0]; subst x l. cbn [length] in Hn.
  destruct (alphabet_value c0) as [v0|] eqn:E0.
  2:{ rewrite step_stop; [|lia|lia|auto]. cbn [prefix_values]. rewrite E0. cbn. rewrite app_nil_r. reflexivity. }
  rewrite (step_go ind c0 v0) by (auto; lia). cbn [lset].
  cbn [prefix_values] in *. rewrite E0 in *.
  (* second *)
  destruct s as [|c1 s].
  { subst n. cbn [length] in *. change (Z.of_nat 1 - 1)%Z with 0%Z. rewrite loop_end.
    rewrite (tail1 ind c0 v0); auto.
    cbn [prefix_values length] in HI. destruct HI as [H|[H|H]]; auto. lia. }
  inversion HF0 as [|? ? F1 HF1]; subst x l. cbn [length] in Hn.
  destruct (alphabet_value c1) as [v1|] eqn:E1.
  2:{ cbn [prefix_values] in *. rewrite E1 in *. rewrite step_stop; [|lia|lia|auto]. rewrite (tail1 ind c0 v0); auto.
      cbn [length] in HI. destruct HI as [H|[H|H]]; auto. lia. }
  rewrite (step_go ind c1 v1) by (auto; lia). cbn [lset].
  cbn [prefix_values] in *. rewrite E1 in *.
  (* third *)
  destruct s as [|c2 s].
  { subst n. cbn [length] in *. change (Z.of_nat 2 - 1 - 1)%Z with 0%Z. rewrite loop_end.
    rewrite (tail2 ind c0 c1 v0 v1); auto.
    cbn [prefix_values length] in HI. destruct HI as [H|[H|[y1 [y2 [A B]]]]]; eauto. lia. }
  inversion HF1 as [|? ? F2 HF2]; subst x l. cbn [length] in Hn.
  destruct (alphabet_value c2) as [v2|] eqn:E2.
  2:{ cbn [prefix_values] in *. rewrite E2 in *. rewrite step_stop; [|lia|lia|auto]. rewrite (tail2 ind c0 c1 v0 v1); auto.
      cbn [length] in HI. destruct HI as [H|[H|[y1 [y2 [A B]]]]]; eauto. lia. }
  rewrite (step_go ind c2 v2) by (auto; lia). cbn [lset].
  cbn [prefix_values] in *. rewrite E2 in *.
  (* fourth *)
  destruct s as [|c3 s].
  { subst n. cbn [length] in *. change (Z.of_nat 3 - 1 - 1 - 1)%Z with 0%Z. rewrite loop_end.
    rewrite (tail3 ind c0 c1 c2 v0 v1 v2); auto. }
  inversion HF2 as [|? ? F3 HF3]; subst x l. cbn [length] in Hn.
  destruct (alphabet_value c3) as [v3|] eqn:E3.
  2:{ cbn [prefix_values] in *. rewrite E3 in *. rewrite step_stop; [|lia|lia|auto].
      rewrite (tail3 ind c0 c1 c2 v0 v1 v2); auto. }
  rewrite (step_full ind c0 c1 c2 c3 v0 v1 v2 v3) by (auto; lia).
  cbn [prefix_values] in *. rewrite E3 in *.
  replace (Z.of_nat n - 1 - 1 - 1 - 1)%Z with (Z.of_nat (length s)) by lia.
  rewrite (IH (length s)); try lia; auto.
  - rewrite dec_octets_cons, <- app_assoc. reflexivity.
  - right. right. eauto.
Qed.

Lemma to_int32_small : forall n, (0 <= n < 2 ^ 31)%Z -> to_int32 n = n.
Proof.
  intros n H. unfold to_int32. rewrite Z.mod_small by lia.
  destruct (Z.ltb_spec n (2 ^ 31)); lia.
Qed.

Lemma decode_spec : forall g s, Forall (fun c => c < 256) s -> (Z.of_nat (length s) < 2 ^ 31)%Z ->
  base64_decode (Ok g) s = Ok (rfc4648_decode s).
Proof.
  intros g s HF HL. rewrite decode_tail_eq, to_int32_small by lia.
  rewrite decode_gen; auto.
  left. eauto.
Qed.

Lemma decode_spec_strict : forall s, Forall (fun c => c < 256) s -> (Z.of_nat (length s) < 2 ^ 31)%Z ->
  length (prefix_values s) <> 1%nat -> length (prefix_values s) <> 2%nat ->
  base64_decode UB s = Ok (rfc4648_decode s).
Proof.
  intros s HF HL H1 H2. rewrite decode_tail_eq, to_int32_small by lia.
  rewrite decode_gen; auto.
  right. left. auto.
Qed.

(* lengths of 2^32 characters are seen as 0 *)
Lemma decode_huge : forall ind s, Z.of_nat (length s) = (2 ^ 32)%Z -> base64_decode ind s = Ok [].
Proof.
  intros ind s H. rewrite decode_tail_eq, H. change (to_int32 (2 ^ 32)) with 0%Z.
  destruct s; reflexivity.
Qed.

(* ---- round trip on the specification ---- *)
Lemma alphabet_inv : forall v, v < 64 -> alphabet_value (alphabet v) = Some v /\ alphabet v < 256.
Proof.
  intros v Hv.
  assert (H : ((match alphabet_value (alphabet v) with Some u => u =? v | None => false end)
              && (alphabet v <? 256))%bool = true).
  { revert v Hv. apply check1. vm_compute. reflexivity. }
  apply andb_true_iff in H. destruct H as [H1 H2].
  destruct (alphabet_value (alphabet v)); [|discriminate].
  apply N.eqb_eq in H1. apply N.ltb_lt in H2. subst; auto.
Qed.

Lemma prefix_values_alphabet : forall vs n, Forall (fun v => v < 64) vs ->
  prefix_values (map alphabet vs ++ repeat 61 n) = vs.
Proof.
  induction vs; intros n H; cbn [map app prefix_values].
  - destruct n; reflexivity.
  - inversion H; subst. destruct (alphabet_inv a) as [E _]; auto. rewrite E. f_equal. auto.
Qed.

Lemma groups6_lt : forall n bits, Forall (fun v => v < 64) (groups6 n bits).
Proof.
  induction n; intro bits; cbn [groups6]; [constructor|].
  destruct bits; [constructor|]. constructor; auto.
  apply value6_lt. rewrite firstn_length, app_length, repeat_length. cbn [length]. lia.
Qed.

Lemma bits_value6 : forall a b c d e f, bits_of 6 (value_of [a; b; c; d; e; f]) = [a; b; c; d; e; f].
Proof. intros [] [] [] [] [] []; reflexivity. Qed.

Lemma value_bits8 : forall v, v < 256 -> value_of (bits_of 8 v) = v.
Proof. intros. apply N.eqb_eq. revert v H. apply check1. vm_compute. reflexivity. Qed.

Lemma quad_bits : forall a b c,
  flat_map (bits_of 6) (quad a b c) = bits_of 8 a ++ bits_of 8 b ++ bits_of 8 c.
Proof.
  intros. unfold quad, bitsL. cbn [flat_map map app].
  rewrite !bits_value6. reflexivity.
Qed.

Lemma octets8_block : forall a b c r n,
  octets (3 + n) (bits_of 8 a ++ bits_of 8 b ++ bits_of 8 c ++ r)
  = [value_of (bits_of 8 a); value_of (bits_of 8 b); value_of (bits_of 8 c)] ++ octets n r.
Proof. reflexivity. Qed.

Lemma dec_enc : forall bs, Forall (fun b => b < 256) bs -> dec_octets (enc_groups bs) = bs.
Proof.
  intro bs. induction bs using list3_ind; intro HF.
  - reflexivity.
  - inversion HF; subst. unfold enc_groups.
    change (groups6 (length (flat_map (bits_of 8) [a])) (flat_map (bits_of 8) [a]))
      with (firstn 2 (quad a 0 0)).
    unfold quad, bitsL. cbn [firstn map app]. unfold dec_octets. cbn [flat_map].
    rewrite !bits_value6.
    transitivity [value_of (bits_of 8 a)]; [reflexivity|].
    rewrite value_bits8 by auto. reflexivity.
  - inversion HF as [|? ? H1 HF1]; subst. inversion HF1; subst. unfold enc_groups.
    change (groups6 (length (flat_map (bits_of 8) [a; b])) (flat_map (bits_of 8) [a; b]))
      with (firstn 3 (quad a b 0)).
    unfold quad, bitsL. cbn [firstn map app]. unfold dec_octets. cbn [flat_map].
    rewrite !bits_value6.
    transitivity [value_of (bits_of 8 a); value_of (bits_of 8 b)]; [reflexivity|].
    rewrite !value_bits8 by auto. reflexivity.
  - inversion HF as [|? ? F1 F']; subst. inversion F' as [|? ? F2 F'']; subst.
    inversion F'' as [|? ? F3 F''']; subst.
    rewrite enc_groups_cons. unfold dec_octets in *.
    rewrite flat_map_app, quad_bits, <- !app_assoc.
    rewrite (octets_fuel _ (3 + length (bits_of 8 a ++ bits_of 8 b ++ bits_of 8 c ++ flat_map (bits_of 6) (enc_groups bs)))) by lia.
    rewrite octets8_block, !value_bits8 by auto. cbn [app]. do 3 f_equal.
    etransitivity; [|apply IHbs; auto]. apply octets_fuel; rewrite ?app_length; lia.
Qed.

Lemma spec_roundtrip : forall bs, Forall (fun b => b < 256) bs -> rfc4648_decode (rfc4648_encode bs) = bs.
Proof.
  intros bs H. unfold rfc4648_decode, rfc4648_encode.
  rewrite prefix_values_alphabet by apply groups6_lt. apply dec_enc. auto.
Qed.

Lemma encode_chars : forall bs, Forall (fun c => c < 256) (rfc4648_encode bs).
Proof.
  intros. unfold rfc4648_encode. apply Forall_app. split.
  - apply Forall_map. eapply Forall_impl; [|apply groups6_lt].
    intros a Ha. apply alphabet_inv. auto.
  - apply Forall_forall. intros x Hx. apply repeat_spec in Hx. subst. reflexivity.
Qed.

Lemma enc_groups_length3 : forall bs,
  (length (enc_groups bs) + padding (length bs) = 4 * ((length bs + 2) / 3))%nat.
Proof.
  intro bs. induction bs using list3_ind; try reflexivity.
  rewrite enc_groups_cons, app_length. cbn [length]. rewrite padding_cons.
  replace (S (S (S (length bs))) + 2)%nat with (length bs + 2 + 1 * 3)%nat by lia.
  rewrite Nat.div_add by lia. unfold quad. cbn [length]. lia.
Qed.

Lemma encode_length : forall bs, length (rfc4648_encode bs) = (4 * ((length bs + 2) / 3))%nat.
Proof.
  intros. rewrite <- enc_groups_length3. unfold rfc4648_encode.
  rewrite app_length, map_length, repeat_length. reflexivity.
Qed.

Lemma dec_octets_length : forall vs, length (dec_octets vs) = (3 * length vs / 4)%nat.
Proof.
  intro vs. induction vs using list4_ind; try reflexivity.
  rewrite dec_octets_cons, app_length, IHvs. unfold trip. cbn [length].
  replace (3 * S (S (S (S (length vs)))))%nat with (3 * length vs + 3 * 4)%nat by lia.
  rewrite Nat.div_add by lia. lia.
Qed.

Lemma dec_octets_bytes : forall vs, Forall (fun b => b < 256) (dec_octets vs).
Proof.
  intro vs. unfold dec_octets. generalize (flat_map (bits_of 6) vs). intro bits.
  generalize (length bits) at 1. intro n. revert bits.
  induction n; intro bits; cbn [octets]; [constructor|].
  destruct (Nat.ltb_spec (length bits) 8); [constructor|]. constructor; auto.
  pose proof (value_bound (firstn 8 bits)) as B. rewrite firstn_length in B.
  replace (Nat.min 8 (length bits)) with 8%nat in B by lia. exact B.
Qed.

Lemma roundtrip : forall ind g bs, Forall (fun b => b < 256) bs ->
  (Z.of_nat (4 * ((length bs + 2) / 3)) < 2 ^ 31)%Z ->
  exists s, base64_encode ind bs = Ok s /\ base64_decode (Ok g) s = Ok bs.
Proof.
  intros ind g bs HF HL. exists (rfc4648_encode bs). split; [apply encode_spec; auto|].
  rewrite decode_spec.
  - rewrite spec_roundtrip; auto.
  - apply encode_chars.
  - rewrite encode_length. exact HL.
Qed.

Lemma decode_prefix_only : forall g s c t,
  Forall (fun c => c < 256) (s ++ c :: t) -> (Z.of_nat (length (s ++ c :: t)) < 2 ^ 31)%Z ->
  alphabet_value c = None -> base64_decode (Ok g) (s ++ c :: t) = base64_decode (Ok g) s.
Proof.
  intros g s c t HF HL E. rewrite app_length in HL.
  rewrite !decode_spec; auto.
  - f_equal. unfold rfc4648_decode. replace (prefix_values (s ++ c :: t)) with (prefix_values s); [reflexivity|].
    clear HF HL. induction s; cbn [app prefix_values]; [rewrite E; reflexivity|].
    destruct (alphabet_value a); [f_equal; auto|reflexivity].
  - apply Forall_app in HF. tauto.
  - lia.
  - rewrite app_length. lia.
Qed.

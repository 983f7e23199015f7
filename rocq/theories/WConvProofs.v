(* Proofs about the conversion of wide and narrow strings. *)
From Coq Require Import NArith ZArith List Bool Lia Arith.
From Coq Require Import ZifyN.
From Verif Require Import Base WConvModel WConvSpec.
Import ListNotations.
Open Scope N_scope.
Ltac Zify.zify_post_hook ::= Z.to_euclidean_division_equations.

(* ---- characters ---- *)
Lemma wcrtomb_some : forall c bs, wcrtomb c = Some bs -> utf8 c bs.
Proof.
  intros c bs H. unfold wcrtomb in H.
  destruct (N.ltb_spec c 128); [injection H as <-; constructor; lia|].
  destruct (N.ltb_spec c 2048); [injection H as <-; apply u2; lia|].
  destruct ((55296 <=? c) && (c <=? 57343)) eqn:Q; [discriminate|]. apply andb_false_iff in Q.
  assert (SC : c < 55296 \/ 57343 < c) by (destruct Q as [Q|Q]; apply N.leb_gt in Q; lia).
  destruct (N.ltb_spec c 65536); [injection H as <-; apply u3; unfold scalar; lia|].
  destruct (N.ltb_spec c 1114112); [|discriminate]. injection H as <-. apply u4; lia.
Qed.
Lemma wcrtomb_none : forall c, wcrtomb c = None -> ~ scalar c.
Proof.
  intros c H S. unfold wcrtomb in H. unfold scalar in S.
  destruct (N.ltb_spec c 128); [discriminate|]. destruct (N.ltb_spec c 2048); [discriminate|].
  destruct ((55296 <=? c) && (c <=? 57343)) eqn:Q.
  - apply andb_true_iff in Q. destruct Q as (A & B). apply N.leb_le in A, B. lia.
  - destruct (N.ltb_spec c 65536); [discriminate|]. destruct (N.ltb_spec c 1114112); [discriminate|]. lia.
Qed.
Lemma utf8_scalar : forall c bs, utf8 c bs -> scalar c.
Proof. intros c bs H. inversion H; subst; unfold scalar in *; lia. Qed.
Lemma utf8_fun : forall c bs bs', utf8 c bs -> utf8 c bs' -> bs = bs'.
Proof.
  intros c bs bs' H H'. inversion H; inversion H'; subst; try lia; try reflexivity.
  - assert (x0 = x) by lia. assert (y0 = y) by lia. congruence.
  - assert (x0 = x) by lia. assert (y0 = y) by lia. assert (z0 = z) by lia. congruence.
  - assert (x0 = x) by lia. assert (y0 = y) by lia. assert (z0 = z) by lia. assert (w0 = w) by lia. congruence.
Qed.
Lemma wcrtomb_utf8 : forall c bs, utf8 c bs -> wcrtomb c = Some bs.
Proof.
  intros c bs H. destruct (wcrtomb c) as [bs'|] eqn:E.
  - f_equal. eapply utf8_fun; eauto using wcrtomb_some.
  - exfalso. apply (wcrtomb_none _ E). eapply utf8_scalar; eauto.
Qed.
Lemma utf8_pos : forall c bs, utf8 c bs -> (1 <= length bs)%nat.
Proof. intros c bs H. inversion H; cbn; lia. Qed.
Lemma utf8_zero : forall c bs, utf8 c bs -> c <> 0 -> ~ In 0 bs.
Proof. intros c bs H D HI. inversion H; subst; cbn [In] in HI; repeat (destruct HI as [HI|HI]; [lia|]); exact HI. Qed.

Ltac tests := repeat match goal with |- context [?a =? ?b] => destruct (N.eqb_spec a b); try lia end;
  repeat match goal with
  | |- context [?a <? ?b] => destruct (N.ltb_spec a b); try lia
  | |- context [?a <=? ?b] => destruct (N.leb_spec a b); try lia
  end; cbn [andb].
Ltac same := match goal with |- Ok (Some (?a, _)) = Ok (Some (?b, _)) => replace a with b by lia; reflexivity end.
Lemma mbrtowc_utf8 : forall c cb q, utf8 c cb -> mbrtowc (cb ++ q) = Ok (Some (c, q)).
Proof.
  intros c cb q H. inversion H; subst; unfold mbrtowc, cont; cbn [app].
  - tests. reflexivity.
  - tests; same.
  - unfold scalar in *. tests; same.
  - tests; same.
Qed.
Lemma cont_inv : forall lo hi src k r, cont lo hi src k = Ok (Some r) -> exists b q, src = b :: q /\ lo <= b <= hi /\ k (b - 128) q = Ok (Some r).
Proof.
  intros lo hi src k r H. destruct src as [|b q]; [discriminate|]. cbn in H. destruct ((lo <=? b) && (b <=? hi)) eqn:E; [|discriminate].
  apply andb_true_iff in E. destruct E as (A & B). apply N.leb_le in A, B. exists b, q. auto.
Qed.
Ltac inv_cont H := apply cont_inv in H; let b := fresh "b" in let q := fresh "q" in let B := fresh "B" in destruct H as (b & q & -> & B & H).
Ltac plus a n := let x := fresh "x" in assert (exists x, a = n + x) as (x & ->) by (exists (a - n); lia).
Lemma mbrtowc_some : forall src c q, mbrtowc src = Ok (Some (c, q)) -> exists cb, utf8 c cb /\ src = cb ++ q.
Proof.
  intros src c q H. destruct src as [|a src]; [discriminate|]. cbn [mbrtowc] in H.
  destruct (N.ltb_spec a 128). { injection H as -> ->. exists [c]. split; [constructor; lia|reflexivity]. }
  destruct ((194 <=? a) && (a <=? 223)) eqn:E2.
  { apply andb_true_iff in E2. destruct E2 as (A & B). apply N.leb_le in A, B. inv_cont H. injection H as <- <-.
    exists [a; b]. split; [|reflexivity]. plus a 192. plus b 128. apply u2; lia. }
  destruct ((224 <=? a) && (a <=? 239)) eqn:E3.
  { apply andb_true_iff in E3. destruct E3 as (A & B). apply N.leb_le in A, B. inv_cont H. inv_cont H. injection H as <- <-.
    exists [a; b; b0]. split; [|reflexivity].
    repeat match goal with B : context [?u =? ?v] |- _ => destruct (N.eqb_spec u v) end; plus a 224; plus b 128; plus b0 128; apply u3; unfold scalar; lia. }
  destruct ((240 <=? a) && (a <=? 244)) eqn:E4; [|discriminate].
  apply andb_true_iff in E4. destruct E4 as (A & B). apply N.leb_le in A, B. inv_cont H. inv_cont H. inv_cont H. injection H as <- <-.
  exists [a; b; b0; b1]. split; [|reflexivity].
  repeat match goal with B : context [?u =? ?v] |- _ => destruct (N.eqb_spec u v) end; plus a 240; plus b 128; plus b0 128; plus b1 128; apply u4; lia.
Qed.
Lemma cont_zero : forall lo hi src k, 128 <= lo -> In 0 src -> (forall x q, In 0 q -> exists r, k x q = Ok r) -> exists r, cont lo hi src k = Ok r.
Proof.
  intros lo hi src k L Z K. destruct src as [|b q]; [destruct Z|]. cbn. destruct ((lo <=? b) && (b <=? hi)) eqn:E; [|eauto].
  apply andb_true_iff in E. destruct E as (A & _). apply N.leb_le in A. destruct Z as [Z|Z]; [lia|auto].
Qed.
Lemma mbrtowc_zero : forall src, In 0 src -> exists r, mbrtowc src = Ok r.
Proof.
  intros src Z. destruct src as [|a src]; [destruct Z|]. cbn [mbrtowc]. destruct (N.ltb_spec a 128); [eauto|]. destruct Z as [Z|Z]; [lia|].
  destruct ((194 <=? a) && (a <=? 223)). { apply cont_zero; [lia|exact Z|eauto]. }
  destruct ((224 <=? a) && (a <=? 239)).
  { apply cont_zero; [destruct (a =? 224); lia|exact Z|]. intros x q Zq. apply cont_zero; [lia|exact Zq|eauto]. }
  destruct ((240 <=? a) && (a <=? 244)); [|eauto].
  apply cont_zero; [destruct (a =? 240); lia|exact Z|]. intros x q Zq. apply cont_zero; [lia|exact Zq|]. intros y q' Zq'. apply cont_zero; [lia|exact Zq'|eauto].
Qed.
Lemma text_app : forall p bs q cs, text p bs -> text q cs -> text (p ++ q) (bs ++ cs).
Proof. intros p bs q cs H. induction H; intros Q; cbn; [exact Q|]. rewrite <- app_assoc. constructor; auto. Qed.
Lemma text_snoc : forall p bs c cb, text p bs -> c <> 0 -> utf8 c cb -> text (p ++ [c]) (bs ++ cb).
Proof. intros p bs c cb H D U. apply text_app; [exact H|]. rewrite <- (app_nil_r cb). constructor; auto. constructor. Qed.
Lemma text_len : forall p bs, text p bs -> (length p <= length bs)%nat.
Proof. intros p bs H. induction H as [|c cb p bs D U H IH]; cbn; [lia|]. rewrite app_length. pose proof (utf8_pos _ _ U). lia. Qed.
Lemma text_fun : forall p bs cs, text p bs -> text p cs -> bs = cs.
Proof.
  intros p bs cs H. revert cs. induction H as [|c cb p bs D U H IH]; intros cs Q; inversion Q; subst; [reflexivity|].
  f_equal; [eapply utf8_fun; eauto|auto].
Qed.
Lemma text_zero : forall p bs, text p bs -> ~ In 0 p /\ ~ In 0 bs.
Proof.
  intros p bs H. induction H as [|c cb p bs D U H (I1 & I2)]; [split; intros []|]. split.
  - intros [->|X]; auto.
  - rewrite in_app_iff. intros [X|X]; [exact (utf8_zero _ _ U D X)|auto].
Qed.

(* ---- stores ---- *)
Lemma over_len : forall out dst, (length out <= length dst)%nat -> length (over out dst) = length dst.
Proof. intros out dst H. unfold over. rewrite app_length, skipn_length. lia. Qed.
Lemma over_set : forall out dst b, (length out < length dst)%nat -> aset (over out dst) (length out) b = Ok (over (out ++ [b]) dst).
Proof.
  intros out dst b H. rewrite aset_Ok by (rewrite over_len; lia). f_equal. unfold over. rewrite app_length. cbn [length].
  rewrite lset_split by (rewrite app_length, skipn_length; lia). rewrite firstn_app, firstn_all, Nat.sub_diag. cbn [firstn]. rewrite app_nil_r.
  rewrite <- app_assoc. cbn [app]. f_equal. f_equal.
  rewrite skipn_app, skipn_all2 by lia. cbn [app]. rewrite (skipn_skipn (S (length out) - length out)). f_equal. lia.
Qed.
Lemma over_store : forall bs out dst, (length out + length bs <= length dst)%nat -> store (over out dst) (length out) bs = Ok (over (out ++ bs) dst).
Proof.
  induction bs as [|b bs IH]; intros out dst H; cbn [store length] in *.
  - rewrite app_nil_r. reflexivity.
  - rewrite over_set by lia. cbn [bind]. replace (S (length out)) with (length (out ++ [b])) by (rewrite app_length; cbn; lia).
    rewrite IH by (rewrite app_length; cbn; lia). rewrite <- app_assoc. reflexivity.
Qed.

(* ---- the loops ---- *)
Lemma wcsrtombs_ok : forall lim dst src p bs, text p bs -> (length bs <= lim)%nat -> (lim <= length dst)%nat ->
  In 0 src \/ (lim <= length bs + length src)%nat ->
  exists dst' r, wcsrtombs src (over bs dst) (length bs) (N.of_nat lim) = Ok (dst', r) /\ narrowed lim (p ++ src) dst dst' r.
Proof.
  intros lim dst. induction src as [|c src IH]; intros p bs T L1 L2 Z.
  - destruct Z as [[]|Z]. cbn [length] in Z. cbn [wcsrtombs]. rewrite (proj2 (N.eqb_eq _ _)) by lia.
    do 2 eexists. split; [reflexivity|]. exists p, [], bs. split; [reflexivity|]. split; [exact T|]. split; [exact L1|]. right. left. split; [lia|]. auto.
  - cbn [wcsrtombs]. destruct (N.eqb_spec (N.of_nat (length bs)) (N.of_nat lim)).
    { do 2 eexists. split; [reflexivity|]. exists p, (c :: src), bs. split; [reflexivity|]. split; [exact T|]. split; [exact L1|]. right. left. split; [lia|]. auto. }
    destruct (N.eqb_spec c 0) as [->|D].
    { rewrite over_set by lia. cbn [bind]. do 2 eexists. split; [reflexivity|]. exists p, (0 :: src), bs. split; [reflexivity|]. split; [exact T|]. split; [exact L1|].
      left. exists src. split; [reflexivity|]. split; [lia|]. auto. }
    destruct (wcrtomb c) as [cb|] eqn:E.
    + pose proof (wcrtomb_some _ _ E) as U. destruct (N.leb_spec (N.of_nat (length bs + length cb)) (N.of_nat lim)).
      * rewrite over_store by lia. cbn [bind]. rewrite <- app_length.
        destruct (IH (p ++ [c]) (bs ++ cb)) as (dst' & r & ER & X); auto.
        -- apply text_snoc; auto.
        -- rewrite app_length. lia.
        -- destruct Z as [[Z|Z]|Z]; [congruence|auto|]. right. rewrite app_length. pose proof (utf8_pos _ _ U). cbn [length] in Z. lia.
        -- rewrite <- app_assoc in X. eauto.
      * do 2 eexists. split; [reflexivity|]. exists p, (c :: src), bs. split; [reflexivity|]. split; [exact T|]. split; [exact L1|].
        right. right. left. exists c, src, cb. split; [reflexivity|]. split; [exact D|]. split; [exact U|]. split; [lia|]. auto.
    + do 2 eexists. split; [reflexivity|]. exists p, (c :: src), bs. split; [reflexivity|]. split; [exact T|]. split; [exact L1|].
      right. right. right. exists c, src. split; [reflexivity|]. split; [apply wcrtomb_none, E|]. split; [lia|]. auto.
Qed.
Lemma mbsrtowcs_ok : forall lim dst fuel src p bs, text p bs -> (length p <= lim)%nat -> (lim <= length dst)%nat ->
  In 0 src -> (length src < fuel)%nat ->
  exists dst' r, mbsrtowcs fuel src (over p dst) (length p) (N.of_nat lim) = Ok (dst', r) /\ widened lim (bs ++ src) dst dst' r.
Proof.
  intros lim dst. induction fuel as [|fuel IH]; intros src p bs T L1 L2 Z L; [lia|].
  cbn [mbsrtowcs]. destruct (N.eqb_spec (N.of_nat (length p)) (N.of_nat lim)).
  { do 2 eexists. split; [reflexivity|]. exists p, src, bs. split; [reflexivity|]. split; [exact T|]. split; [exact L1|]. right. left. split; [lia|]. auto. }
  destruct (mbrtowc_zero src Z) as (r & E). rewrite E. cbn [bind]. destruct r as [(c, q)|].
  - destruct (mbrtowc_some _ _ _ E) as (cb & U & ->). rewrite over_set by lia. cbn [bind].
    destruct (N.eqb_spec c 0) as [->|D].
    + assert (cb = [0]) by (eapply utf8_fun; [exact U|constructor; lia]). subst cb.
      do 2 eexists. split; [reflexivity|]. exists p, (0 :: q), bs. split; [reflexivity|]. split; [exact T|]. split; [exact L1|].
      left. exists q. split; [reflexivity|]. split; [lia|]. auto.
    + replace (S (length p)) with (length (p ++ [c])) by (rewrite app_length; cbn; lia).
      destruct (IH q (p ++ [c]) (bs ++ cb)) as (dst' & r & ER & X); auto.
      * apply text_snoc; auto.
      * rewrite app_length. cbn. lia.
      * apply in_app_iff in Z. destruct Z as [Z|Z]; [|exact Z]. exfalso. exact (utf8_zero _ _ U D Z).
      * rewrite app_length in L. pose proof (utf8_pos _ _ U). lia.
      * rewrite <- app_assoc in X. eauto.
  - do 2 eexists. split; [reflexivity|]. exists p, src, bs. split; [reflexivity|]. split; [exact T|]. split; [exact L1|].
    right. right. split; [lia|]. split; [|auto]. intros c cb q' U ->. rewrite (mbrtowc_utf8 _ _ _ U) in E. discriminate.
Qed.
Lemma over_nil : forall dst, over [] dst = dst.
Proof. reflexivity. Qed.

Lemma to_int_small : forall n, (N.of_nat n < 2 ^ 31) -> to_int (N.of_nat n) = Z.of_nat n.
Proof.
  intros n H. unfold to_int. rewrite N.mod_small by (change (2 ^ 31) with 2147483648 in H; change (2 ^ 32) with 4294967296; lia).
  destruct (N.ltb_spec (N.of_nat n) (2 ^ 31)); lia.
Qed.
Lemma to_size_nat : forall n, (Z.of_nat n < 2 ^ 31)%Z -> to_size (Z.of_nat n) = N.of_nat n.
Proof. intros n H. unfold to_size. rewrite Z.mod_small by lia. lia. Qed.

(* Theorems about radix_sort (C68). *)
From Coq Require Import NArith List Arith Lia Sorting.Permutation Sorting.Sorted.
From Verif Require Import Base RadixModel RadixProofs.
Import ListNotations.

(* for all arrays of 32-bit words with room for n elements: the first n elements of a are sorted, everything behind them is
   unchanged in both arrays, and no access is out of bounds *)
Theorem C68_sorts : forall a temp n, n <= length a -> n <= length temp -> Forall (fun x => (x < 2 ^ 32)%N) (firstn n a) ->
  exists s temp', radix_sort a temp n = Ok (s ++ skipn n a, temp') /\ Permutation (firstn n a) s /\ StronglySorted N.le s /\
    skipn n temp' = skipn n temp /\ length temp' = length temp.
Proof. exact radix_ok. Qed.
(* the result is determined by this *)
Theorem C68_unique : forall s t, Permutation s t -> StronglySorted N.le s -> StronglySorted N.le t -> s = t.
Proof.
  induction s as [|x s IH]; intros t P S T; [now apply Permutation_nil in P|].
  destruct t as [|y t]; [symmetry in P; now apply Permutation_nil in P|].
  inversion S as [|? ? S1 S2]; inversion T as [|? ? T1 T2]; subst. rewrite Forall_forall in S2, T2.
  assert (x = y).
  { assert (I1 : In x (y :: t)) by (eapply Permutation_in; [exact P|left; auto]). assert (I2 : In y (x :: s)) by (eapply Permutation_in; [symmetry; exact P|left; auto]).
    destruct I1 as [I1|I1]; auto. destruct I2 as [I2|I2]; auto. apply T2 in I1. apply S2 in I2. lia. }
  subst y. f_equal. apply IH; auto. now apply Permutation_cons_inv in P.
Qed.

Example C68_ex : match radix_sort [70000; 3; 4294967295; 256; 3; 9]%N [0; 0; 0; 0; 0; 7]%N 5 with Ok (a, t) => a = [3; 3; 256; 70000; 4294967295; 9]%N /\ nth 5 t 0%N = 7%N | _ => False end.
Proof. vm_compute. auto. Qed.

Print Assumptions C68_sorts.
Print Assumptions C68_unique.

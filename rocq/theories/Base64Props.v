(* Property theorems C05-C07: src/clean-core/base64.cc. *)
From Coq Require Import NArith ZArith List.
From Verif Require Import Base Base64Model Base64Spec Base64Proofs.
Import ListNotations.
Open Scope N_scope.

(* C05: whatever the garbage g in the never-written local bytes is, decoding an encoding returns
   the input (as long as the encoded text has fewer than 2^31 characters) *)
Theorem C05_roundtrip : forall ind g bs, Forall (fun b => b < 256) bs ->
  (Z.of_nat (4 * ((length bs + 2) / 3)) < 2 ^ 31)%Z ->
  exists s, base64_encode ind bs = Ok s /\ base64_decode (Ok g) s = Ok bs.
Proof. exact roundtrip. Qed.

Example C05_ex : base64_encode UB [77; 97; 110; 255] = Ok [84; 87; 70; 117; 47; 119; 61; 61]
  /\ base64_decode (Ok 0) [84; 87; 70; 117; 47; 119; 61; 61] = Ok [77; 97; 110; 255].
Proof. split; vm_compute; reflexivity. Qed.

(* C06: no indeterminate byte is read by the encoder (ind = UB is allowed) *)
Theorem C06_encode_rfc4648 : forall ind bs, Forall (fun b => b < 256) bs ->
  base64_encode ind bs = Ok (rfc4648_encode bs).
Proof. exact encode_spec. Qed.

Theorem C06_encode_length : forall bs, length (rfc4648_encode bs) = (4 * ((length bs + 2) / 3))%nat.
Proof. exact encode_length. Qed.

Example C06_ex : rfc4648_encode [77; 97] = [84; 87; 69; 61].
Proof. vm_compute. reflexivity. Qed.

(* C07 *)
Theorem C07_decode_rfc4648 : forall g s, Forall (fun c => c < 256) s ->
  (Z.of_nat (length s) < 2 ^ 31)%Z -> base64_decode (Ok g) s = Ok (rfc4648_decode s).
Proof. exact decode_spec. Qed.

Theorem C07_decode_length : forall s,
  length (rfc4648_decode s) = (3 * length (prefix_values s) / 4)%nat.
Proof. exact (fun s => dec_octets_length (prefix_values s)). Qed.

Theorem C07_decode_prefix_only : forall g s c t,
  Forall (fun c => c < 256) (s ++ c :: t) -> (Z.of_nat (length (s ++ c :: t)) < 2 ^ 31)%Z ->
  alphabet_value c = None -> base64_decode (Ok g) (s ++ c :: t) = base64_decode (Ok g) s.
Proof. exact decode_prefix_only. Qed.

(* strict reading of the standard: no indeterminate byte is evaluated unless the text consists of
   exactly 1 or 2 alphabet characters (before the first other character) ... *)
Theorem C07_decode_strict : forall s, Forall (fun c => c < 256) s -> (Z.of_nat (length s) < 2 ^ 31)%Z ->
  length (prefix_values s) <> 1%nat -> length (prefix_values s) <> 2%nat ->
  base64_decode UB s = Ok (rfc4648_decode s).
Proof. exact decode_spec_strict. Qed.

(* ... and in that case it is: "QQ==" (the encoding of one byte) evaluates char_array_4[2] uninitialised *)
Theorem C07_strict_indeterminate_refuted :
  exists s, Forall (fun c => c < 256) s /\ base64_encode UB [65] = Ok s /\ base64_decode UB s = UB.
Proof.
  exists [81; 81; 61; 61]. split; [|split]; [repeat constructor|vm_compute; reflexivity..].
Qed.

(* the length is held in an int: a text of 2^32 characters decodes to nothing *)
Theorem C07_huge_refuted : forall ind s, Z.of_nat (length s) = (2 ^ 32)%Z -> base64_decode ind s = Ok [].
Proof. exact decode_huge. Qed.

Example C07_ex : base64_decode (Ok 7) [84; 87; 70; 117; 33; 84] = Ok [77; 97; 110].
Proof. vm_compute. reflexivity. Qed.

Print Assumptions C05_roundtrip.
Print Assumptions C06_encode_rfc4648.
Print Assumptions C06_encode_length.
Print Assumptions C07_decode_rfc4648.
Print Assumptions C07_decode_length.
Print Assumptions C07_decode_prefix_only.
Print Assumptions C07_decode_strict.
Print Assumptions C07_strict_indeterminate_refuted.
Print Assumptions C07_huge_refuted.

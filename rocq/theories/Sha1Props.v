(* Property theorems C08-C09: src/clean-core/hash.sha1.hh and hash.sha1.cc. *)
From Coq Require Import NArith List.
From Verif Require Import Base Sha1Model Sha1Spec Sha1Proofs.
Import ListNotations.
Open Scope N_scope.

(* C08: junk is the arbitrary content of the 128 byte buffer that the constructor leaves uninitialised *)
Theorem C08_fips180_4 : forall junk chunks, length junk = 128%nat -> bytes junk -> Forall bytes chunks ->
  N.of_nat (length (concat chunks)) < 2 ^ 61 ->
  sha1_chunks junk chunks = Ok (SHA1 (concat chunks)).
Proof. exact sha1_chunks_fips. Qed.

Theorem C08_make_hash : forall junk data, length junk = 128%nat -> bytes junk -> bytes data ->
  N.of_nat (length data) < 2 ^ 61 -> make_hash_sha1 junk data = Ok (SHA1 data).
Proof. exact make_hash_fips. Qed.

(* the text form: 40 lower case hex digits, two per digest byte, high nibble first *)
Theorem C08_hex_string : forall junk data, length junk = 128%nat -> bytes junk -> bytes data ->
  N.of_nat (length data) < 2 ^ 61 ->
  exists t, make_hash_sha1_string junk data = Ok t /\ length t = 40%nat /\
    (forall c, In c t -> 48 <= c <= 57 \/ 97 <= c <= 102) /\
    forall i, (i < 20)%nat ->
      hex_value (nth (2 * i) t 0) * 16 + hex_value (nth (2 * i + 1) t 0) = nth i (SHA1 data) 0.
Proof. exact hex_string_spec. Qed.

(* a builder can be reused after reset() whatever was done with it before *)
Theorem C08_reuse_after_reset : forall b chunks, length (buffer b) = 128%nat -> bytes (buffer b) ->
  Forall bytes chunks ->
  (let! b := add_all chunks (reset b) in finalize b) = Ok (SHA1 (concat chunks)).
Proof. exact reuse_spec. Qed.

(* FIPS 180 example: "abc", added as "a" and "bc" *)
Example C08_ex : sha1_chunks (repeat 7 128) [[97]; [98; 99]]
  = Ok [0xa9;0x99;0x3e;0x36;0x47;0x06;0x81;0x6a;0xba;0x3e;0x25;0x71;0x78;0x50;0xc2;0x6c;0x9c;0xd0;0xd8;0x9d]
  /\ SHA1 [97; 98; 99]
  = [0xa9;0x99;0x3e;0x36;0x47;0x06;0x81;0x6a;0xba;0x3e;0x25;0x71;0x78;0x50;0xc2;0x6c;0x9c;0xd0;0xd8;0x9d].
Proof. split; vm_compute; reflexivity. Qed.

(* C09: no bound on the total length *)
Theorem C09_split_invariance : forall junk junk' chunks, length junk = 128%nat -> bytes junk ->
  length junk' = 128%nat -> bytes junk' -> Forall bytes chunks ->
  sha1_chunks junk chunks = sha1_chunks junk' [concat chunks].
Proof. exact split_invariance. Qed.

Example C09_ex : sha1_chunks (repeat 7 128) [repeat 65 50; []; repeat 66 90]
  = sha1_chunks (repeat 0 128) [repeat 65 50 ++ repeat 66 90].
Proof. vm_compute. reflexivity. Qed.

Print Assumptions C08_fips180_4.
Print Assumptions C08_make_hash.
Print Assumptions C08_hex_string.
Print Assumptions C08_reuse_after_reset.
Print Assumptions C09_split_invariance.

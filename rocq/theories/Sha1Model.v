(* Model of src/clean-core/hash.sha1.hh (sha1_builder) and hash.sha1.cc.
   Bytes are numbers 0..255, uint32_t/uint64_t/size_t are N with explicit wrap-around.
   The target is little endian (the code byte-swaps unconditionally).
   Not modelled: the strict-aliasing rule for the uint32_t/uint64_t accesses to the std::byte buffer
   (lines 97 and 181). *)
From Coq Require Import NArith Arith List Bool.
From Verif Require Import Base BitsModel.
Import ListNotations.
Open Scope N_scope.

(* memory image of an unsigned integer of n bytes on a little endian machine *)
Fixpoint le_bytes (n : nat) (v : N) : list N :=
  match n with O => [] | S m => (v mod 256) :: le_bytes m (v / 256) end.
Fixpoint le_load (bs : list N) : N :=
  match bs with [] => 0 | b :: t => b + 256 * le_load t end.

(* hash.sha1.hh:130 rol (bits is 1, 5 or 30) *)
Definition rol (value bits : N) : N :=
  N.lor (wrap 32 (N.shiftl value bits)) (N.shiftr value (32 - bits)).

Definition add32 (a b : N) : N := wadd 32 a b.

(* hash.sha1.hh:131-134 blk *)
Definition blk (block : list N) (i : nat) : outcome N :=
  let ix k := N.to_nat (N.land (N.of_nat i + k) 15) in
  let! b13 := aget block (ix 13) in
  let! b8 := aget block (ix 8) in
  let! b2 := aget block (ix 2) in
  let! b0 := aget block i in
  Ok (rol (N.lxor (N.lxor (N.lxor b13 b8) b2) b0) 1).

(* the five working variables a..e of transform as a register file *)
Definition ra : nat := 0. Definition rb : nat := 1. Definition rc : nat := 2.
Definition rd : nat := 3. Definition re : nat := 4.

Inductive op := R (kind : nat) (v w x y z : nat) (i : nat).
Notation R0 := (R 0). Notation R1 := (R 1). Notation R2 := (R 2).
Notation R3 := (R 3). Notation R4 := (R 4).

(* hash.sha1.hh:142,149 / 156,170 / 163: the round function applied to w, x, y *)
Definition round_f (kind : nat) (w x y : N) : N :=
  match kind with
  | 0%nat | 1%nat => N.lxor (N.land w (N.lxor x y)) y
  | 3%nat => N.lor (N.land (N.lor w x) y) (N.land w x)
  | _ => N.lxor (N.lxor w x) y
  end.
(* the constants on the same lines *)
Definition round_k (kind : nat) : N :=
  match kind with
  | 0%nat | 1%nat => 0x5a827999
  | 2%nat => 0x6ed9eba1
  | 3%nat => 0x8f1bbcdc
  | _ => 0xca62c1d6
  end.

(* hash.sha1.hh:140-172 R0..R4: R1..R4 first update block[i] = blk(block, i); then
   z += f(w,x,y) + block[i] + K + rol(v,5);  w = rol(w,30) *)
Definition do_op (o : op) (st : list N * list N) : outcome (list N * list N) :=
  let '(block, regs) := st in
  let '(R kind v w x y z i) := o in
  let! block :=
    (match kind with
     | 0%nat => Ok block
     | _ => let! n := blk block i in aset block i n
     end) in
  let! bi := aget block i in
  let! vv := aget regs v in
  let! vw := aget regs w in
  let! vx := aget regs x in
  let! vy := aget regs y in
  let! vz := aget regs z in
  let s := add32 (add32 (add32 (round_f kind vw vx vy) bi) (round_k kind)) (rol vv 5) in
  let! regs := aset regs z (add32 vz s) in
  let! vw := aget regs w in
  let! regs := aset regs w (rol vw 30) in
  Ok (block, regs).

Fixpoint do_ops (os : list op) (st : list N * list N) : outcome (list N * list N) :=
  match os with
  | [] => Ok st
  | o :: t => let! st := do_op o st in do_ops t st
  end.

(* hash.sha1.hh:194-273: the unrolled 80 calls, verbatim *)
Definition program : list op :=
  [
   R0 ra rb rc rd re 0; R0 re ra rb rc rd 1; R0 rd re ra rb rc 2; R0 rc rd re ra rb 3; R0 rb rc rd re ra 4;
   R0 ra rb rc rd re 5; R0 re ra rb rc rd 6; R0 rd re ra rb rc 7; R0 rc rd re ra rb 8; R0 rb rc rd re ra 9;
   R0 ra rb rc rd re 10; R0 re ra rb rc rd 11; R0 rd re ra rb rc 12; R0 rc rd re ra rb 13; R0 rb rc rd re ra 14;
   R0 ra rb rc rd re 15; R1 re ra rb rc rd 0; R1 rd re ra rb rc 1; R1 rc rd re ra rb 2; R1 rb rc rd re ra 3;
   R2 ra rb rc rd re 4; R2 re ra rb rc rd 5; R2 rd re ra rb rc 6; R2 rc rd re ra rb 7; R2 rb rc rd re ra 8;
   R2 ra rb rc rd re 9; R2 re ra rb rc rd 10; R2 rd re ra rb rc 11; R2 rc rd re ra rb 12; R2 rb rc rd re ra 13;
   R2 ra rb rc rd re 14; R2 re ra rb rc rd 15; R2 rd re ra rb rc 0; R2 rc rd re ra rb 1; R2 rb rc rd re ra 2;
   R2 ra rb rc rd re 3; R2 re ra rb rc rd 4; R2 rd re ra rb rc 5; R2 rc rd re ra rb 6; R2 rb rc rd re ra 7;
   R3 ra rb rc rd re 8; R3 re ra rb rc rd 9; R3 rd re ra rb rc 10; R3 rc rd re ra rb 11; R3 rb rc rd re ra 12;
   R3 ra rb rc rd re 13; R3 re ra rb rc rd 14; R3 rd re ra rb rc 15; R3 rc rd re ra rb 0; R3 rb rc rd re ra 1;
   R3 ra rb rc rd re 2; R3 re ra rb rc rd 3; R3 rd re ra rb rc 4; R3 rc rd re ra rb 5; R3 rb rc rd re ra 6;
   R3 ra rb rc rd re 7; R3 re ra rb rc rd 8; R3 rd re ra rb rc 9; R3 rc rd re ra rb 10; R3 rb rc rd re ra 11;
   R4 ra rb rc rd re 12; R4 re ra rb rc rd 13; R4 rd re ra rb rc 14; R4 rc rd re ra rb 15; R4 rb rc rd re ra 0;
   R4 ra rb rc rd re 1; R4 re ra rb rc rd 2; R4 rd re ra rb rc 3; R4 rc rd re ra rb 4; R4 rb rc rd re ra 5;
   R4 ra rb rc rd re 6; R4 re ra rb rc rd 7; R4 rd re ra rb rc 8; R4 rc rd re ra rb 9; R4 rb rc rd re ra 10;
   R4 ra rb rc rd re 11; R4 re ra rb rc rd 12; R4 rd re ra rb rc 13; R4 rc rd re ra rb 14; R4 rb rc rd re ra 15
  ].

(* hash.sha1.hh:183-184: block[i] = byteswap(buffer_u32[i]) for i < 16 *)
Definition load_block (buf : list N) : list N :=
  map (fun i => byteswap_n 4 (le_load (firstn 4 (skipn (4 * i) buf)))) (seq 0 16).

(* hash.sha1.hh:178-281 transform; buf points at 64 readable bytes *)
Definition transform (buf : list N) (digest : list N) : outcome (list N) :=
  let! _ := defined (64 <=? length buf)%nat in
  let! st := do_ops program (load_block buf, digest) in
  Ok (map (fun p => add32 (fst p) (snd p)) (combine digest (snd st))).

(* hash.sha1.hh:122-128 the members *)
Record builder := mkB {
  digest : list N;                (* uint32_t[5] *)
  total : N;                      (* size_t total_size_in_bytes *)
  buffer : list N;                (* std::byte[128] *)
  bsize : N                       (* size_t buffer_size *)
}.

(* hash.sha1.hh:39-51 reset (buffer contents are left as they are) *)
Definition reset (b : builder) : builder :=
  mkB [0x67452301; 0xefcdab89; 0x98badcfe; 0x10325476; 0xc3d2e1f0] 0 (buffer b) 0.

(* memcpy(buffer_block + off, src, |src|): writing outside the 128 byte array is UB *)
Definition copy_in (buf : list N) (off : N) (src : list N) : outcome (list N) :=
  if off + N.of_nat (length src) <=? 128 then
    let o := N.to_nat off in
    Ok (firstn o buf ++ src ++ skipn (o + length src) buf)
  else UB.

(* hash.sha1.hh:58-76 the loop of add; every iteration but the last consumes a block *)
Fixpoint add_loop (fuel : nat) (data : list N) (b : builder) : outcome builder :=
  match fuel with
  | O => OutOfFuel
  | S fuel =>
      let need := wsub 64 64 (bsize b) in
      if N.of_nat (length data) <? need then
        let! buf := copy_in (buffer b) (bsize b) data in
        let bs := wadd 64 (bsize b) (N.of_nat (length data)) in
        let! _ := contract (bs <? 64) in
        Ok (mkB (digest b) (total b) buf bs)
      else
        let n := N.to_nat need in
        let! buf := copy_in (buffer b) (bsize b) (firstn n data) in
        let! d := transform buf (digest b) in
        add_loop fuel (skipn n data) (mkB d (total b) buf 0)
  end.

(* hash.sha1.hh:54-77 add *)
Definition add (data : list N) (b : builder) : outcome builder :=
  add_loop (S (length data))
    data (mkB (digest b) (wadd 64 (total b) (N.of_nat (length data))) (buffer b) (bsize b)).

(* hash.sha1.hh:92-93 zero padding *)
Fixpoint pad_loop (fuel : nat) (buf : list N) (bs : N) : outcome (list N * N) :=
  match fuel with
  | O => OutOfFuel
  | S fuel =>
      if bs mod 64 =? 56 then Ok (buf, bs)
      else let! buf := copy_in buf bs [0] in pad_loop fuel buf (wadd 64 bs 1)
  end.

(* hash.sha1.hh:82-116 finalize *)
Definition finalize (b : builder) : outcome (list N) :=
  let total_bits := wmul 64 (total b) 8 in
  let! buf := copy_in (buffer b) (bsize b) [0x80] in
  let! (buf, bs) := pad_loop 65 buf (wadd 64 (bsize b) 1) in
  let! buf := copy_in buf bs (le_bytes 8 (byteswap_n 8 total_bits)) in
  let bs := wadd 64 bs 8 in
  let! _ := contract ((bs =? 64) || (bs =? 128)) in
  let! d := transform buf (digest b) in
  let! d := (if bs =? 128 then transform (skipn 64 buf) d else Ok d) in
  Ok (flat_map (fun w => le_bytes 4 (byteswap_n 4 w)) d).

(* a sequence of add calls *)
Fixpoint add_all (chunks : list (list N)) (b : builder) : outcome builder :=
  match chunks with
  | [] => Ok b
  | c :: t => let! b := add c b in add_all t b
  end.

(* usage of the builder: construct (buffer holds arbitrary bytes), add chunks, finalize *)
Definition sha1_chunks (junk : list N) (chunks : list (list N)) : outcome (list N) :=
  let! b := add_all chunks (reset (mkB [] 0 junk 0)) in finalize b.

(* hash.sha1.cc:3-10 make_hash_sha1 *)
Definition make_hash_sha1 (junk data : list N) : outcome (list N) :=
  let b := reset (reset (mkB [] 0 junk 0)) in
  let! b := add data b in finalize b.

(* hash.sha1.cc:14-25 make_hash_sha1_string *)
Definition hexdigit (v : N) : N := nth (N.to_nat v)
  [48;49;50;51;52;53;54;55;56;57;97;98;99;100;101;102] 0.
Definition make_hash_sha1_string (junk data : list N) : outcome (list N) :=
  let! h := make_hash_sha1 junk data in
  Ok (flat_map (fun b => [hexdigit (N.shiftr b 4); hexdigit (N.land b 15)]) h).

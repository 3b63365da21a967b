(** Model of crypto/prg.hpp, crypto/otp.hpp and the AES-based part of crypto/hash.hpp. *)
From Coq Require Import Arith NArith List Bool.
From Verif.Base Require Import Words ListX.
From Verif.Crypto Require Import BlockModel AESModel.
Import ListNotations.
Local Open Scope N_scope.

(* crypto/prg.hpp:22-25  struct Seed *)
Record Seed := mkSeed { counter : N; aes_key : Key }.

(* crypto/block.hpp: MakeBlock(high, low) *)
Definition MakeBlock (high low : N) : N := of_lanes high low.

(* crypto/prg.hpp:51-57  ReSeed *)
Definition ReSeed (salt id : N) : Seed := mkSeed 0 (GenEncKey (N.lxor salt (MakeBlock 0 id))).
(* crypto/prg.hpp:59-91  SetSeed; [entropy] is the block drawn from the system's random device, used
   when no salt is given *)
Definition SetSeed (entropy : N) (salt : option N) (id : N) : Seed :=
  match salt with Some s => ReSeed s id | None => ReSeed entropy id end.

(* crypto/prg.hpp:98-99, 104-105  n counter blocks, seed.counter++ (size_t) each *)
Fixpoint counter_blocks (c : N) (n : nat) : list N * N :=
  match n with
  | O => ([], c)
  | S n' => let '(l, c') := counter_blocks (wrap64 (c + 1)) n' in (MakeBlock 0 c :: l, c')
  end.
(* crypto/prg.hpp:97-102 *)
Fixpoint full_batches (k : Key) (c : N) (n : nat) : list N * N :=
  match n with
  | O => ([], c)
  | S n' => let '(temp, c1) := counter_blocks c 8 in
            let '(rest, c2) := full_batches k c1 n' in (FastECBEnc k temp ++ rest, c2)
  end.
(* crypto/prg.hpp:93-110  GenRandomBlocks *)
Definition GenRandomBlocks (s : Seed) (LEN : nat) : list N * Seed :=
  let '(batches, c1) := full_batches (aes_key s) (counter s) (LEN / 8)%nat in
  let '(temp, c2) := counter_blocks c1 (LEN mod 8)%nat in
  (batches ++ FastECBEnc (aes_key s) temp, mkSeed c2 (aes_key s)).

(* crypto/prg.hpp:114-131  GenRandomBytes.  ceil(double(LEN)/16) is modelled as the exact ceiling
   (true below 2^53). *)
Definition GenRandomBytes (s : Seed) (LEN : nat) : list N * Seed :=
  let '(blocks, s') := GenRandomBlocks s ((LEN + 15) / 16)%nat in
  (firstn LEN (flat_map (le_bytes 16) blocks), s').

(* crypto/prg.hpp:134-142  GenRandomBits *)
Definition GenRandomBits (s : Seed) (LEN : nat) : list N * Seed :=
  let '(bytes, s') := GenRandomBytes s LEN in (map (fun b => N.land b 1) bytes, s').

(* crypto/prg.hpp:162-167  GenRandomBitMatrix; None: assertion failure *)
Definition GenRandomBitMatrix (s : Seed) (ROW_NUM COLUMN_NUM : nat) : option (list N * Seed) :=
  if Nat.eqb (ROW_NUM mod 128) 0 && Nat.eqb (COLUMN_NUM mod 8) 0
  then Some (GenRandomBlocks s (ROW_NUM / 128 * COLUMN_NUM)%nat) else None.

(* crypto/otp.hpp:6-34  XOR; None when B is shorter than A (reads past its end, after a printed warning) *)
Definition XORbytes (a b : list N) : option (list N) := blocks_map2 N.lxor a b.

(* crypto/otp.hpp:39-46, 48-55  OTP::Enc, OTP::Dec on byte vectors *)
Definition OTP_Enc (key : N) (plain : list N) : option (list N) :=
  let seed := SetSeed 0 (Some key) 0 in
  let '(pad, _) := GenRandomBytes seed (length plain) in XORbytes pad plain.
Definition OTP_Dec (key : N) (cipher : list N) : option (list N) :=
  let seed := SetSeed 0 (Some key) 0 in
  let '(pad, _) := GenRandomBytes seed (length cipher) in XORbytes pad cipher.
(* crypto/otp.hpp:57-77  the std::string versions copy into byte vectors; Dec calls Enc *)
Definition OTP_EncStr (key : N) (plain : list N) : option (list N) := OTP_Enc key plain.
Definition OTP_DecStr (key : N) (cipher : list N) : option (list N) := OTP_Enc key cipher.

(** ** crypto/hash.hpp *)
(* crypto/aes.hpp:217-223  AES_Initialize *)
Definition fixed_enc_key : Key := GenEncKey zero_block.

(* crypto/hash.hpp:39-59  CBCAES(input, LEN, output).  [mem] is the memory from [input] on, as far as it
   may be read; line 52 loads the blocks from [input], not from the padded buffer of lines 44-48.
   None: a load past [mem], or LEN = 0 (data[0] and data[-1] of an empty array). *)
Fixpoint load_blocks (n : nat) (mem : list N) : option (list N) :=
  match n with
  | O => Some []
  | S n' => if Nat.leb 16 (length mem)
            then match load_blocks n' (skipn 16 mem) with
                 | Some r => Some (le_val (firstn 16 mem) :: r) | None => None end
            else None
  end.
Definition CBCAES (mem : list N) (LEN : nat) : option N :=
  let BLOCK_NUM := ((LEN + 15) / 16)%nat in
  match load_blocks BLOCK_NUM mem with
  | None => None
  | Some data => match CBCEnc fixed_enc_key data with
                 | None => None
                 | Some c => Some (nth (BLOCK_NUM - 1) c 0)
                 end
  end.

(* crypto/hash.hpp:62-73  Dedicated_CBCAES, on 32 bytes given as two blocks *)
Definition Dedicated_CBCAES (x : N * N) : N * N :=
  match cbc_enc_from fixed_enc_key IV [fst x; snd x] with
  | [a; b] => (a, b)
  | _ => x
  end.

(* crypto/hash.hpp:183-190  FastBlocksToBlock; None on an empty vector *)
Definition FastBlocksToBlock (v : list N) : option N :=
  match CBCEnc fixed_enc_key v with Some c => Some (nth (length v - 1) c 0) | None => None end.

(* crypto/hash.hpp:210-223  BlockToBytes(var, output, LEN): 32 bytes, or the error return *)
Definition BlockToBytes (var : N) (LEN : nat) : option (list N) :=
  if Nat.ltb 32 LEN then None
  else let '(a, b) := Dedicated_CBCAES (var, 0) in Some (le_bytes 16 a ++ le_bytes 16 b).

(** Model of mpc/oprf/vole_oprf.hpp: the OPRF from VOLE and OKVS.

    The binned OKVS is OKVS/BaxosModel.v, the VOLE VOLE/VOLEModel.v, AES and
    PRG Crypto/*.  Client1, Server1 and Evaluate1 (:247-373) are the same
    functions without the timing output. *)
From Coq Require Import NArith ZArith List Bool Arith.
From Verif.Base Require Import Words ListX.
From Verif.Crypto Require Import BlockModel AESModel PRGModel.
From Verif.Group Require Import ECModel.
From Verif.Net Require Import ChannelModel PartyModel.
From Verif.OKVS Require Import GFModel PaxosModel BaxosModel.
From Verif.VOLE Require Import VOLEModel.
Import ListNotations.

(** :25-32 BlockToByte and :34-41 ByteToBlock *)
Definition BlockToByte (v : list N) : list N := flat_map (le_bytes 16) v.
Fixpoint ByteToBlock_n (n : nat) (v : list N) : list N :=
  match n with O => [] | S n => le_val (firstn 16 v) :: ByteToBlock_n n (skipn 16 v) end.
Definition ByteToBlock (v : list N) : list N := ByteToBlock_n (length v / 16) v.

(** :76-83 the number of items and the number of bins that Setup chooses; the
    constructor of Baxos divides the items by the bin size and rounds up
    (mpc/okvs/baxos.hpp:51) *)
Definition setup_items (LOG : nat) : N := 2 ^ N.of_nat LOG.
Definition setup_bin_size (LOG : nat) : N :=
  if N.ltb (2 ^ 15) (N.shiftr (setup_items LOG) 7) then N.shiftr (setup_items LOG) 7 else 2 ^ 15.
Definition setup_bins (LOG : nat) : N := (setup_items LOG + setup_bin_size LOG - 1) / setup_bin_size LOG.

Section VOPRF.
Variable G : ECGroup.
Variable hash : list N -> list N.
Variable g : pt G.
(** :69-94 Setup: the OKVS object (its numbers are computed in floating point and
    arbitrary here); thread_num is 1 *)
Variable B : baxos.
(** :85 okvs_output_size *)
Definition out_size : nat := nbins B * btotal B.

(** AES under the key of SetSeed(&seed_r, 0), the hash function of the OKVS
    object after pp.okvs.seed = okvs_seed *)
Definition okvs_enc (seed_r : N) : N -> N := Enc (aes_key (SetSeed 0 (Some seed_r) 0)).

(** solve and decode with one thread: the only thread does everything *)
Definition solve1 (enc : N -> N) (X values out : list N) : option (list N) :=
  solve enc 1 B 1 (repeat 0 (length X)) (repeat 0 (nbins B)) (fun _ => None) X values out.
Definition decode1 (enc : N -> N) (X vals vec : list N) : option (list N) :=
  bdecode enc 1 B 1 (repeat 0 (length X)) X vals vec.

(** :120-135 P[i] ^= A[i], and :193-208 K[i] ^= gf128_mul(Delta, A[i]), for i < size *)
Definition add_to (f : N -> N) (size : nat) (P A : list N) : option (list N) :=
  if (size <=? length P) && (size <=? length A)
  then Some (map2 N.lxor (firstn size P) (map f (firstn size A)) ++ skipn size P) else None.

(** :101-105 seed_r; [eC]: what the system gives for the seed of line 101 *)
Definition client_seed (eC : N) : N := nth 0 (fst (GenRandomBlocks (SetSeed eC None 0) 1)) 0%N.
(** :170-174 Delta *)
Definition server_delta (eS : N) : N := nth 1 (fst (GenRandomBlocks (SetSeed eS None 0) 2)) 0%N.

(** :96-161 Client. [eC]: the system randomness of its seed; [r]: the randomness of
    the VOLE; the result also with what the client holds at the end, the vector C
    and r *)
Definition Client_state (eC : N) (r : vole_random) (X : list N) (ITEM_NUM : nat) : party G (list (list N) * list N * N) :=
  let seed_r := client_seed eC in
  local (solve1 (okvs_enc seed_r) X (repeat 0%N ITEM_NUM) (repeat 0%N out_size)) (fun P =>
  pbind (VOLE_A G hash g r out_size 128) (fun '(A, C) =>
  Put (MBlocks G [seed_r])
  (local (add_to (fun x => x) out_size P A) (fun P =>
  Put (MBlocks G P)
  (local (decode1 (okvs_enc seed_r) X (repeat 0%N ITEM_NUM) C) (fun output =>
  Ret (map (le_bytes 16) output, C, seed_r))))))).
Definition Client (eC : N) (r : vole_random) (X : list N) (ITEM_NUM : nat) : party G (list (list N)) :=
  pbind (Client_state eC r X ITEM_NUM) (fun s => Ret (fst (fst s))).

(** :163-221 Server. The result is the key and the r that is stored in pp.okvs. *)
Definition Server (eS : N) (r : vole_random) : party G (list N * N) :=
  let Delta := server_delta eS in
  pbind (VOLE_B G hash g r out_size 128 Delta) (fun K =>
  get_blocks 1 (fun s => let seed_r := nth 0 s 0%N in
  get_blocks out_size (fun A =>
  local (add_to (gf128_mul Delta) out_size K A) (fun K =>
  Ret (BlockToByte K, seed_r))))).

(** :223-243 Evaluate *)
Definition Evaluate (key : list N * N) (Y : list N) (ITEM_NUM : nat) : option (list (list N)) :=
  option_map (map (le_bytes 16)) (decode1 (okvs_enc (snd key)) Y (repeat 0%N ITEM_NUM) (ByteToBlock (fst key))).
End VOPRF.

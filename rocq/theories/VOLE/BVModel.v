(** Model of mpc/vole/basevole.hpp: vector oblivious linear evaluation from
    oblivious transfer, over GF(2^128).

    Both parties read the parameters of the transfer from a file in the working
    directory ("npot.pp", "alszote.pp") or create it: the model passes the
    generator [g]. The random choices of the transfers are arguments. *)
From Coq Require Import NArith ZArith List Bool Arith.
From Verif.Base Require Import Words ListX.
From Verif.Crypto Require Import BlockModel AESModel PRGModel.
From Verif.Group Require Import ECModel.
From Verif.Net Require Import ChannelModel PartyModel.
From Verif.OT Require Import OTModel.
From Verif.OKVS Require Import GFModel.
From Verif.PKE Require Import ElGamalModel.
Import ListNotations.

(** :380-394 gadget_innerProduct; None: the assertion fails.  The block
    wi has the single bit i. *)
Definition gadget_innerProduct (v : list N) : option N :=
  if (length v =? 128)%nat then
    Some (fold_left (fun x i => N.lxor x (gf128_mul (2 ^ N.of_nat i) (nth i v 0%N))) (seq 0 128) 0%N)
  else None.

(** :131-153 the bits of one half of delta, lowest first *)
Fixpoint word_bits (n : nat) (w : N) : list N :=
  match n with
  | O => []
  | S n => (if (w mod 2 =? 1)%N then 1%N else 0%N) :: word_bits n (N.shiftr w 1)
  end.
(** :131-153, :285-308 decompose delta = (u64_h, u64_l) *)
Definition delta_bits (delta : N) : list N := word_bits 64 (lo64 delta) ++ word_bits 64 (hi64 delta).

(** the key of PRG::SetSeed(fixed_seed, 0) with which the OT keys are expanded *)
Definition expand_key : Key := aes_key (SetSeed 0 (Some fixed_seed) 0).

Section BaseVOLE.
Variable G : ECGroup.
Variable hash : list N -> list N.
Variable g : pt G.

(** :48-115 baseVOLE_A; returns (u, w). [entropy]: the random seed of seed_k *)
Definition baseVOLE_A (entropy : N) (d : Z) (r : nat -> Z) (ptr_u : option N) : party G (N * N) :=
  let '(k0, s1) := GenRandomBlocks (SetSeed entropy None 0) 128 in
  let '(k1, s2) := GenRandomBlocks s1 128 in
  pbind (NP_Send G hash g d r k0 k1 128) (fun _ =>
  let w0 := FastECBEnc expand_key k0 in
  let w1 := FastECBEnc expand_key k1 in
  let u := match ptr_u with Some u => u | None => nth 0 (fst (GenRandomBlocks s2 1)) 0%N end in
  let gama := map (fun i => N.lxor (N.lxor (nth i w0 0%N) (nth i w1 0%N)) u) (seq 0 128) in
  Put (MBlocks G gama)
  (local (gadget_innerProduct w0) (fun w => Ret (u, w)))).

(** :118-199 baseVOLE_B; returns (delta, v) *)
Definition baseVOLE_B (entropy : N) (sk : nat -> Z) (ptr_delta : option N) : party G (N * N) :=
  let delta := match ptr_delta with
               | Some x => x
               | None => nth 0 (fst (GenRandomBlocks (SetSeed entropy None 0) 1)) 0%N
               end in
  let bits := delta_bits delta in
  pbind (NP_Receive G hash g sk bits 128) (fun k =>
  let w := FastECBEnc expand_key k in
  get_blocks 128 (fun gama =>
  let vv := map (fun i => if (nth i bits 0 =? 1)%N then N.lxor (nth i w 0%N) (nth i gama 0%N) else nth i w 0%N) (seq 0 128) in
  local (gadget_innerProduct vv) (fun v => Ret (delta, v)))).

(** The transfers of the t-fold version: ALSZ OT extension with the default
    base length (ALSZ_Setup_BASE_LEN). Arguments: the system randomness of the
    two sides and the contents of the transposition buffers. *)
Record ot_random := mkOT { eS : N; eR : N; skS : nat -> Z; dR : Z; rR : nat -> Z; stS : list N; stR : list N }.
Definition alsz_Send (o : ot_random) (m0 m1 : list N) (LEN : nat) : party G unit :=
  OTE_Send G (ALSZ_RandomSend G hash g 128 (eS o) (skS o) (stS o) LEN) 128 m0 m1 LEN.
Definition alsz_Receive (o : ot_random) (bits : list N) (LEN : nat) : party G (list N) :=
  OTE_Receive G (fun b => ALSZ_RandomReceive G hash g 128 (eR o) (dR o) (rR o) (stR o) b LEN) 128 bits LEN.

(** :204-270 baseVOLE_tA; returns (vec_u, vec_w) *)
Definition baseVOLE_tA (o : ot_random) (entropy : N) (t : nat) : party G (list N * list N) :=
  let LEN := (t * 128)%nat in
  let '(k0, s1) := GenRandomBlocks (SetSeed entropy None 0) LEN in
  let '(k1, s2) := GenRandomBlocks s1 LEN in
  pbind (alsz_Send o k0 k1 LEN) (fun _ =>
  let w0 := FastECBEnc expand_key k0 in
  let w1 := FastECBEnc expand_key k1 in
  let vec_u := fst (GenRandomBlocks s2 t) in
  let gama := flat_map (fun j => map (fun i =>
                let temp := (j * 128 + i)%nat in
                N.lxor (N.lxor (nth temp w0 0%N) (nth temp w1 0%N)) (nth j vec_u 0%N)) (seq 0 128)) (seq 0 t) in
  Put (MBlocks G gama)
  (local (all_some (fun i => gadget_innerProduct (firstn 128 (skipn (i * 128) w0))) (seq 0 t)) (fun vec_w =>
   Ret (vec_u, vec_w)))).

(** :273-346 baseVOLE_tB; returns vec_v *)
Definition baseVOLE_tB (o : ot_random) (t : nat) (delta : N) : party G (list N) :=
  let LEN := (t * 128)%nat in
  let bits := delta_bits delta in
  let select := flat_map (fun _ => bits) (seq 0 t) in
  pbind (alsz_Receive o select LEN) (fun k =>
  let w := FastECBEnc expand_key k in
  get_blocks LEN (fun gama =>
  local (all_some (fun j =>
           let temp := (j * 128)%nat in
           gadget_innerProduct (map (fun i =>
             if (nth i bits 0 =? 1)%N then N.lxor (nth (i + temp) w 0%N) (nth (i + temp) gama 0%N)
             else nth (i + temp) w 0%N) (seq 0 128))) (seq 0 t)) Ret)).
End BaseVOLE.

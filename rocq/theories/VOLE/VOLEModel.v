(** Model of mpc/vole/vole.hpp: VOLE_A, VOLE_B, tmpVOLE_A, tmpVOLE_B.

    Simplifications: N_item is below 2^63, so doubling it does not wrap; the
    number of levels std::ceil(log2(x)) is the exact rounded-up logarithm (the
    floating-point result is exact for the 32-bit lengths for which the encoder
    is defined); the parameter files of the transfers are modelled by the
    generator [g], as in BVModel. *)
From Coq Require Import NArith ZArith List Bool Arith.
From Verif.Base Require Import Words ListX.
From Verif.Crypto Require Import BlockModel AESModel PRGModel.
From Verif.Group Require Import ECModel.
From Verif.Net Require Import ChannelModel PartyModel.
From Verif.OT Require Import OTModel.
From Verif.VOLE Require Import BVModel CodeModel GGMModel.
Import ListNotations.

(** std::vector<block>::resize: new blocks are zero *)
Definition resize (n : nat) (l : list N) : list N := firstn n l ++ repeat 0%N (n - length l).
(** reading n elements from the start of a vector [l], behind which [past] lies
    in readable memory *)
Definition read (n : nat) (l past : list N) : list N := firstn n (l ++ past).
(** conversion to uint32_t *)
Definition to32 (n : nat) : nat := N.to_nat (wrap32 (N.of_nat n)).

(** :103-112, :191-193, :208-212 the lengths, after N_item *= 2.
    None: division by t = 0, or the logarithm of 0 converted to uint8_t *)
Record dims := mkDims { total : nat; sub_len : nat; last_len : nat; level : nat; level_last : nat; select_len : nat; extend_len : nat }.
Definition dims_of (N_item t : nat) : option dims :=
  let n := (2 * N_item)%nat in
  if (t =? 0)%nat || (n / t =? 0)%nat then None else
  let sl := (n / t)%nat in
  let ll := (n mod t + n / t)%nat in
  let lv := Nat.log2_up sl in
  let lvl := Nat.log2_up ll in
  let sel := (lv * (t - 1) + lvl)%nat in
  let ext := if (sel mod 128 =? 0)%nat then sel else (sel + (128 - sel mod 128))%nat in
  Some (mkDims n sl ll lv lvl sel ext).

(** :129-138 the calls of FullEval; n of them left; returns vec_m0, vec_m1, vec_leaf, vec_sendtoR *)
Fixpoint full_loop (n i t : nat) (D : dims) (ks vs m0 m1 leaf send : list N)
  : option (list N * list N * list N * list N) :=
  match n with
  | O => Some (m0, m1, leaf, send)
  | S n =>
      let last := (i =? t - 1)%nat in
      match get ks i, get vs i with
      | Some k, Some v =>
          match FullEval GGM_PRG (if last then level_last D else level D) k m0 m1 with
          | None => None
          | Some (r, lf, m0, m1) =>
              full_loop n (S i) t D ks vs m0 m1 (leaf ++ resize (if last then last_len D else sub_len D) lf) (send ++ [N.lxor r v])
          end
      | _, _ => None
      end
  end.

(** :201-203 base_field_A[i * sub_len + vec_index[i]] = vec_u[i]; n iterations left *)
Fixpoint place (n i : nat) (D : dims) (index : list nat) (us base : list N) : option (list N) :=
  match n with
  | O => Some base
  | S n =>
      match get index i, get us i with
      | Some x, Some u => match set base (i * sub_len D + x) u with None => None | Some base => place n (S i) D index us base end
      | _, _ => None
      end
  end.
(** :213-216 the selection bits *)
Definition select_bits (D : dims) (index : list nat) (index_last : nat) : list N :=
  fold_left (fun v x => TransToBitVec (N.of_nat x) v (level D)) (rev index)
            (TransToBitVec (N.of_nat index_last) [] (level_last D)).
(** :251-270 the calls of PuncEval; n of them left *)
Fixpoint punc_loop (n i t : nat) (D : dims) (from_S ws ms bits leaf : list N) : option (list N) :=
  match n with
  | O => Some leaf
  | S n =>
      let last := (i =? t - 1)%nat in
      match get from_S i, get ws i with
      | Some s, Some w =>
          match PuncEval GGM_PRG (if last then level_last D else level D) (N.lxor s w)
                  (skipn (i * level D) ms) (skipn (i * level D) bits) with
          | None => None
          | Some lf =>
              let leaf := leaf ++ resize (if last then last_len D else sub_len D) lf in
              if last then Some leaf else punc_loop n (S i) t D from_S ws ms bits leaf
          end
      | _, _ => None
      end
  end.

Section VOLE.
Variable G : ECGroup.
Variable hash : list N -> list N.
Variable g : pt G.

(** :99-182 tmpVOLE_B.  [entropy]: the seed of seed_k; [past0], [past1]: the
    memory behind vec_m0 and vec_m1, which the transfer reads up to EXTEND_LEN *)
Definition tmpVOLE_B (o : ot_random) (entropy : N) (past0 past1 : list N) (N_item t : nat) (vec_v : list N) : party G (list N) :=
  local (dims_of N_item t) (fun D =>
  let '(vec_k, s1) := GenRandomBlocks (SetSeed entropy None 0) t in
  local (full_loop t 0 t D vec_k vec_v [] [] [] []) (fun '(m0, m1, leaf, send) =>
  Put (MBlocks G send)
  (pbind (alsz_Send G hash g o (read (extend_len D) m0 past0) (read (extend_len D) m1 past1) (extend_len D)) (fun _ =>
  let ec_key := nth 0 (fst (GenRandomBlocks s1 1)) 0%N in
  Put (MBlocks G [ec_key])
  (local (dualEncode default_config (mkSeed 0 (GenEncKey ec_key)) leaf) Ret))))).

(** :185-301 tmpVOLE_A; returns (vec_A, vec_C).  [e1], [e2]: the seeds of the two
    calls of GenRandomMod; [past]: the memory behind vec_select_bit *)
Definition tmpVOLE_A (o : ot_random) (e1 e2 : N) (past : list N) (N_item t : nat) (vec_u vec_w : list N) : party G (list N * list N) :=
  local (dims_of N_item t) (fun D =>
  local (GenRandomMod (to32 (sub_len D)) (to32 (t - 1)) (SetSeed e1 None 0)) (fun index =>
  local (GenRandomMod (to32 (last_len D)) 1 (SetSeed e2 None 0)) (fun il =>
  let index_last := nth 0 il 0%nat in
  local (place t 0 D (index ++ [index_last]) vec_u (repeat 0%N (total D))) (fun base =>
  let bits := select_bits D index index_last in
  get_blocks t (fun from_S =>
  pbind (alsz_Receive G hash g o (read (extend_len D) bits past) (extend_len D)) (fun ms =>
  local (punc_loop t 0 t D from_S vec_w (resize (select_len D) ms) bits []) (fun leaf =>
  get_blocks 1 (fun key =>
  local (dualEncode2 default_config (mkSeed 0 (GenEncKey (nth 0 key 0%N))) leaf base) (fun '(C, A) =>
  Ret (A, C)))))))))).

(** the random choices and the memory contents of one run *)
Record vole_random := mkVR { ot1 : ot_random; ot2 : ot_random; base_entropy : N; seed_k : N; seed_1 : N; seed_2 : N;
                             behind_m0 : list N; behind_m1 : list N; behind_bits : list N }.

(** :59-78 VOLE_A; returns (vec_A, vec_C) *)
Definition VOLE_A (r : vole_random) (N_item t : nat) : party G (list N * list N) :=
  if (N_item <? 256)%nat then baseVOLE_tA G hash g (ot1 r) (base_entropy r) N_item
  else pbind (baseVOLE_tA G hash g (ot1 r) (base_entropy r) t) (fun '(vec_u, vec_w) =>
       tmpVOLE_A (ot2 r) (seed_1 r) (seed_2 r) (behind_bits r) N_item t vec_u vec_w).
(** :81-93 VOLE_B; returns vec_B *)
Definition VOLE_B (r : vole_random) (N_item t : nat) (delta : N) : party G (list N) :=
  if (N_item <? 256)%nat then baseVOLE_tB G hash g (ot1 r) N_item delta
  else pbind (baseVOLE_tB G hash g (ot1 r) t delta) (fun vec_v =>
       tmpVOLE_B (ot2 r) (seed_k r) (behind_m0 r) (behind_m1 r) N_item t vec_v).
End VOLE.

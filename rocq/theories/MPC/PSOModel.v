(** Model of mpc/pso: the mqRPMT-based set operations. *)
From Coq Require Import NArith ZArith List Bool Arith.
From Verif.Base Require Import Words ListX.
From Verif.Crypto Require Import BigIntModel PRGModel.
From Verif.Group Require Import ECModel.
From Verif.Net Require Import ChannelModel PartyModel.
From Verif.OT Require Import OTModel.
Import ListNotations.

(** what the two parties of an ALSZ OT extension draw *)
Record Draws := mkDraws { d_eS : N; d_eR : N; d_sk : nat -> Z; d_d : Z; d_r : nat -> Z; d_stS : list N; d_stR : list N }.

Section PSO.
Variable G : ECGroup.
Variable hash : list N -> list N.
(** the generator of ALSZOTE::PP; BASE_LEN is always 128 (ALSZ_Setup_BASE_LEN) *)
Variable g : pt G.
Variable D : Draws.
(** cwPRFmqRPMT::Server and ::Client with their parameters (mpc/rpmt/cwprf_mqrpmt.hpp, CwModel.v) *)
Variable mqServer : list N -> party G (list N).
Variable mqClient : list N -> party G unit.
Definition BASE : nat := 128.
Definition ot_send (ROW : nat) := ALSZ_RandomSend G hash g BASE (d_eS D) (d_sk D) (d_stS D) ROW.
Definition ot_recv (ROW : nat) (bits : list N) := ALSZ_RandomReceive G hash g BASE (d_eR D) (d_d D) (d_r D) (d_stR D) bits ROW.

(** mpc/pso/mqrpmt_psi.hpp:105-124 *)
Definition PSI_Send (SENDER : nat) (X : list N) : party G unit :=
  if (length X =? SENDER)%nat then
    pbind (mqClient X) (fun _ => OTE_OnesidedSend G (ot_send (length X)) BASE X (length X))
  else Fail.
(** :126-148 *)
Definition PSI_Receive (RECEIVER : nat) (Y : list N) : party G (list N) :=
  if (length Y =? RECEIVER)%nat then
    pbind (mqServer Y) (fun bits => OTE_OnesidedReceive G (ot_recv (length bits)) BASE bits (length bits))
  else Fail.

(** mpc/pso/mqrpmt_psi_card.hpp:104-122 *)
Definition Card_Send (SENDER : nat) (X : list N) : party G unit :=
  if (length X =? SENDER)%nat then mqClient X else Fail.
(** :124-150; size_t addition of the bytes *)
Definition cardinality (bits : list N) : N := fold_left (fun c b => wrap64 (c + b)) bits 0%N.
Definition Card_Receive (RECEIVER : nat) (Y : list N) : party G N :=
  if (length Y =? RECEIVER)%nat then pbind (mqServer Y) (fun bits => Ret (cardinality bits)) else Fail.

(** mpc/pso/mqrpmt_psu.hpp:103-124 *)
Definition PSU_Send (SENDER : nat) (X : list N) : party G unit :=
  if (length X =? SENDER)%nat then
    pbind (mqClient X) (fun _ => OTE_OnesidedSend G (ot_send SENDER) BASE X SENDER)
  else Fail.
(** :126-162 *)
Definition flip_bits (bits : list N) : list N := map (fun b => N.lxor b 1) bits.
Definition PSU_Receive (RECEIVER : nat) (Y : list N) : party G (list N) :=
  if (length Y =? RECEIVER)%nat then
    pbind (mqServer Y) (fun bits0 => let bits := flip_bits bits0 in
    pbind (OTE_OnesidedReceive G (ot_recv (length bits)) BASE bits (length bits)) (fun diff => Ret (Y ++ diff)))
  else Fail.
(** :165-206, :208-257: items are byte strings; BytesToBlock as StringToBlock *)
Definition padded (n : nat) : nat := ((n + 127) / 128 * 128)%nat.
Definition PSU_Send_bytes (SENDER : nat) (X : list (list N)) (ITEM_LEN : nat) : party G unit :=
  if (length X =? SENDER)%nat then
    pbind (mqClient (map (StringToBlock hash) X)) (fun _ =>
    let P := X ++ repeat (repeat 0%N ITEM_LEN) (padded (length X) - length X) in
    OTE_OnesidedSendByteVector G (ot_send (length P)) P (length P))
  else Fail.
Definition PSU_Receive_bytes (RECEIVER : nat) (Y : list (list N)) (ITEM_LEN : nat) : party G (list (list N)) :=
  if (length Y =? RECEIVER)%nat then
    pbind (mqServer (map (StringToBlock hash) Y)) (fun bits0 => let bits := flip_bits bits0 in
    let P := bits ++ repeat 0%N (padded (length bits) - length bits) in
    pbind (OTE_OnesidedReceiveByteVector G (ot_recv (padded (length bits))) P (padded (length bits))) (fun diff => Ret (Y ++ diff)))
  else Fail.

(** mpc/pso/mqrpmt_psi_card_sum.hpp.  BigInt(pow(2, e)) goes through a conversion of a double to size_t, which is
    undefined from 2^64 on: Fail *)
Definition two_to (e : nat) : option Z := if (e <? 64)%nat then Some (2 ^ Z.of_nat e)%Z else None.
(** :119-174; r: GenRandomBigIntVectorLessThan; the vector of values is updated in place (second result) *)
Definition Sum_Send (SENDER LOG_SUM LOG_VALUE : nat) (r : nat -> Z) (X : list N) (v : list Z) : party G ((N * Z) * list Z) :=
  if (length X =? SENDER)%nat then
    local (two_to LOG_VALUE) (fun _ => local (two_to LOG_SUM) (fun SUM_BOUND =>
    let mask := fold_left Z.add (map r (seq 0 SENDER)) 0%Z in
    pbind (mqClient X) (fun _ =>
    if has SENDER v then
      let v' := map (fun i => BigInt_Mod (nth i v 0%Z + r i) SUM_BOUND) (seq 0 SENDER) ++ skipn SENDER v in
      let m0 := map (fun i => ToByteVector (r i) (LOG_SUM / 8)) (seq 0 SENDER) in
      let m1 := map (fun i => ToByteVector (nth i v' 0%Z) (LOG_SUM / 8)) (seq 0 SENDER) in
      pbind (OTE_SendByteVector G (ot_send SENDER) m0 m1 SENDER) (fun _ =>
      get_int 8 (fun CARDINALITY => get_bigint (LOG_SUM / 8) (fun SUM =>
      Ret ((CARDINALITY, BigInt_Mod (SUM - mask) SUM_BOUND), v'))))
    else Fail)))
  else Fail.
(** :176-221: the loop over vec_v runs to RECEIVER_ITEM_NUM and indexes vec_result *)
Definition Sum_Receive (RECEIVER LOG_SUM : nat) (Y : list N) : party G N :=
  if (length Y =? RECEIVER)%nat then
    pbind (mqServer Y) (fun bits =>
    pbind (OTE_ReceiveByteVector G (ot_recv (length bits)) bits (length bits)) (fun result =>
    local (two_to LOG_SUM) (fun SUM_BOUND =>
    if has RECEIVER result then
      let masked := BigInt_Mod (fold_left (fun s i => (s + FromByteVector (nth i result []))%Z) (seq 0 RECEIVER) 0%Z) SUM_BOUND in
      Put (MInt G 8 (cardinality bits)) (Put (MBigInt G (LOG_SUM / 8) masked) (Ret (cardinality bits)))
    else Fail)))
  else Fail.

(** mpc/pso/mqrpmt_private_id.hpp; OPRF::Server, ::Client, ::Evaluate with their parameters *)
Variable Key : Type.
Variable oprf_Server1 oprf_Server2 : party G Key.
Variable oprf_Client1 oprf_Client2 : list N -> nat -> party G (list (list N)).
Variable oprf_Evaluate1 oprf_Evaluate2 : Key -> list N -> nat -> option (list (list N)).
Variable shuffle : list (list N) -> list (list N).
(** vec_id[i] = XOR(F1[i], F2[i]); a second vector shorter than the first is read past its end *)
Definition xor_ids (n : nat) (F1 F2 : list (list N)) : option (list (list N)) :=
  if has n F1 && has n F2 then all_some (fun i => XORbytes (nth i F1 []) (nth i F2 [])) (seq 0 n) else None.
(** :97-133 *)
Definition ID_Send (SENDER : nat) (X : list N) (ITEM_LEN : nat) : party G (list (list N) * list (list N)) :=
  if (length X =? SENDER)%nat then
    pbind oprf_Server1 (fun k1 => local (oprf_Evaluate1 k1 X SENDER) (fun F1 =>
    pbind (oprf_Client2 X SENDER) (fun F2 => local (xor_ids SENDER F1 F2) (fun ids =>
    pbind (PSU_Send_bytes SENDER ids ITEM_LEN) (fun _ =>
    get_bytesvec (fun union_ids => Ret (union_ids, ids)))))))
  else Fail.
(** :137-185 *)
Definition ID_Receive (RECEIVER : nat) (Y : list N) (ITEM_LEN : nat) : party G (list (list N) * list (list N)) :=
  if (length Y =? RECEIVER)%nat then
    pbind (oprf_Client1 Y RECEIVER) (fun F1 =>
    pbind oprf_Server2 (fun k2 => local (oprf_Evaluate2 k2 Y RECEIVER) (fun F2 =>
    local (xor_ids RECEIVER F1 F2) (fun ids =>
    pbind (PSU_Receive_bytes RECEIVER ids ITEM_LEN) (fun union_ids =>
    Put (MBytesVec G (shuffle union_ids)) (Ret (shuffle union_ids, ids)))))))
  else Fail.
End PSO.

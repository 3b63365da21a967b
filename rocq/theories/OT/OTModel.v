(** Model of mpc/ot: Naor-Pinkas base OT, IKNP and ALSZ OT extension.

    Loops whose iterations are independent (the OpenMP loops) are maps over the indices.
    Random scalars are functions of the index, the block drawn from the system's random
    device is an argument; the theorems hold for all of them. *)
From Coq Require Import NArith ZArith List Bool Arith.
From Verif.Base Require Import Words ListX.
From Verif.Utility Require Import SerialModel.
From Verif.Crypto Require Import BigIntModel BlockModel AESModel PRGModel.
From Verif.Group Require Import ECModel.
From Verif.Net Require Import ChannelModel PartyModel.
Import ListNotations.

(** all results, if every one of them is defined *)
Fixpoint all_some {A B} (f : A -> option B) (l : list A) : option (list B) :=
  match l with
  | [] => Some []
  | a :: r => match f a, all_some f r with Some b, Some bs => Some (b :: bs) | _, _ => None end
  end.
(** the elements 0 .. n-1 of a vector are accessible *)
Definition has {A} (n : nat) (v : list A) : bool := (n <=? length v)%nat.

Section OT.
Variable G : ECGroup.
Variable hash : list N -> list N.   (* BasicHash, crypto/hash.hpp:24-36: 32 bytes *)

(** /repo crypto/hash.hpp:76-82 *)
Definition StringToBlock (s : list N) : N := le_val (firstn 16 (hash s)).
(** /repo crypto/hash.hpp:130-134 *)
Definition ECPointToBlock (A : pt G) : N := StringToBlock (ToByteString G A).

(** ** /repo mpc/ot/naor_pinkas_ot.hpp *)
(** :85-147; d, r: the random exponents; a size mismatch is only reported, reading past a
    shorter vector is undefined *)
Definition NP_Send (g : pt G) (d : Z) (r : nat -> Z) (m0 m1 : list N) (LEN : nat) : party G unit :=
  let C := pmul G g d in
  let Z i := pmul G C (r i) in
  Put (MPoints G [C]) (Put (MPoints G (map (fun i => pmul G g (r i)) (seq 0 LEN)))
    (get_points LEN (fun pk0 =>
      let K0 i := pmul G (nth i pk0 (inf G)) (r i) in
      let K1 i := psub G (Z i) (K0 i) in
      if has LEN m0 && has LEN m1 then
        Put (MBlocks G (map (fun i => N.lxor (ECPointToBlock (K0 i)) (nth i m0 0%N)) (seq 0 LEN)))
        (Put (MBlocks G (map (fun i => N.lxor (ECPointToBlock (K1 i)) (nth i m1 0%N)) (seq 0 LEN))) (Ret tt))
      else Fail))).
(** :149-210 *)
Definition NP_Receive (g : pt G) (sk : nat -> Z) (bits : list N) (LEN : nat) : party G (list N) :=
  get_points 1 (fun vC => let C := nth 0 vC (inf G) in
  get_points LEN (fun X =>
    if has LEN bits then
      Put (MPoints G (map (fun i => let pk := pmul G g (sk i) in
                                    if (nth i bits 0 =? 1)%N then psub G C pk else pk) (seq 0 LEN)))
      (get_blocks LEN (fun Y0 => get_blocks LEN (fun Y1 =>
        Ret (map (fun i => let K := ECPointToBlock (pmul G (nth i X (inf G)) (sk i)) in
                           if (nth i bits 0 =? 0)%N then N.lxor (nth i Y0 0%N) K else N.lxor (nth i Y1 0%N) K) (seq 0 LEN)))))
    else Fail)).

(** ** shared by the two OT extensions *)
(** PRG::ReSeed(seed, &k, 0); PRG::GenRandomBlocks(seed, n) *)
Definition pad (k : N) (n : nat) : list N := fst (GenRandomBlocks (ReSeed k 0) n).
(** BitMatrixTranspose((uint8_t * )M.data(), ROWS, COLS, out) on vectors of blocks *)
Definition transpose (stale : list N) (M : list N) (ROWS COLS : nat) : option (list N) :=
  match BitMatrixTranspose (vec_bytes 16 M) ROWS COLS stale (repeat 0%N (16 * length M)) with
  | Some o => Some (bytes_vec 16 (length M) o)
  | None => None
  end.
(** memcpy(row.data(), M.data() + i*COLUMN_NUM/128, COLUMN_NUM/8) *)
Definition row (M : list N) (COL i : nat) : list N := firstn (COL / 128) (skipn (i * COL / 128) M).
(** CheckParameters *)
Definition admitted (ROW COL : nat) : bool := ((ROW mod 128 =? 0) && (COL mod 128 =? 0))%nat.
(** the two key vectors of RandomSend from the transposed matrix and the packed bits *)
Definition keys0 (QT : list N) (COL ROW : nat) : option (list N) :=
  all_some (fun i => FastBlocksToBlock (row QT COL i)) (seq 0 ROW).
Definition keys1 (QT s : list N) (COL ROW : nat) : option (list N) :=
  all_some (fun i => match XOR (row QT COL i) s with Some x => FastBlocksToBlock x | None => None end) (seq 0 ROW).

(** ** /repo mpc/ot/iknp_ote.hpp *)
(** :124-141  the column loop of RandomSend; memcpy of column j to Q + j*ROW_NUM/128 *)
Fixpoint IKNP_columns (ROW : nat) (cols : list (N * N)) : party G (list N) :=
  match cols with                                     (* (selection bit, key) per column *)
  | [] => Ret []
  | (b, k) :: cols' =>
      get_blocks (ROW / 128) (fun C0 => get_blocks (ROW / 128) (fun C1 =>
        local (XOR (if (b =? 0)%N then C0 else C1) (pad k (ROW / 128))) (fun plain =>
          pbind (IKNP_columns ROW cols') (fun Q => Ret (plain ++ Q)))))
  end.
(** :97-169.  Sizes that CheckParameters rejects make the copies overrun their buffers:
    Fail.  entropy: the seed of SetSeed(nullptr, 0); sk: the randomness of the base OT *)
Definition IKNP_RandomSend (g : pt G) (BASE_LEN : nat) (entropy : N) (sk : nat -> Z) (stale : list N) (ROW : nat)
  : party G (list N * list N) :=
  let COL := BASE_LEN in
  if admitted ROW COL then
    let bits := fst (GenRandomBits (SetSeed entropy None 0) COL) in
    pbind (NP_Receive g sk bits COL) (fun K =>
    pbind (IKNP_columns ROW (combine bits K)) (fun Q =>
    local (transpose stale Q COL ROW) (fun QT =>
    let s := FromSparseBytes (COL / 128) bits in
    local (keys0 QT COL ROW) (fun K0 => local (keys1 QT s COL ROW) (fun K1 => Ret (K0, K1))))))
  else Fail.
(** :204-224  the column loop of RandomReceive *)
Fixpoint IKNP_send_columns (ROW : nat) (rblock : list N) (T : list N) (ks : list (N * N)) : party G unit :=
  match ks with
  | [] => Ret tt
  | (k0, k1) :: ks' =>
      let m0 := firstn (ROW / 128) T in
      local (XOR m0 rblock) (fun m1 => local (XOR m0 (pad k0 (ROW / 128))) (fun C0 => local (XOR m1 (pad k1 (ROW / 128))) (fun C1 =>
        Put (MBlocks G C0) (Put (MBlocks G C1) (IKNP_send_columns ROW rblock (skipn (ROW / 128) T) ks')))))
  end.
(** :171-242 *)
Definition IKNP_RandomReceive (g : pt G) (BASE_LEN : nat) (entropy : N) (d : Z) (r : nat -> Z) (stale : list N)
  (bits : list N) (ROW : nat) : party G (list N) :=
  let COL := BASE_LEN in
  if admitted ROW COL && has ROW bits then
    local (GenRandomBitMatrix (SetSeed entropy None 0) ROW COL) (fun '(T, s1) =>
    let '(K0, s2) := GenRandomBlocks s1 COL in
    let '(K1, _) := GenRandomBlocks s2 COL in
    pbind (NP_Send g d r K0 K1 COL) (fun _ =>
    let rblock := FromSparseBytes (ROW / 128) (firstn ROW bits) in
    pbind (IKNP_send_columns ROW rblock T (combine K0 K1)) (fun _ =>
    local (transpose stale T COL ROW) (fun TT =>
    local (keys0 TT COL ROW) (fun K => Ret K)))))
  else Fail.

(** ** the outer layer, the same text in both extensions *)
Section Outer.
(** RandomSend / RandomReceive with their parameters *)
Variable rsend : party G (list N * list N).
Variable rrecv : list N -> party G (list N).
Variable BASE_LEN : nat.
(** :244-288 (ALSZ :261-305) *)
Definition OTE_Send (m0 m1 : list N) (ROW : nat) : party G unit :=
  if admitted ROW BASE_LEN then
    pbind rsend (fun '(K0, K1) =>
      if has ROW m0 && has ROW m1 then
        Put (MBlocks G (map (fun i => N.lxor (nth i m0 0%N) (nth i K0 0%N)) (seq 0 ROW)))
        (Put (MBlocks G (map (fun i => N.lxor (nth i m1 0%N) (nth i K1 0%N)) (seq 0 ROW))) (Ret tt))
      else Fail)
  else Fail.
(** :291-345 (ALSZ :308-361) *)
Definition OTE_Receive (bits : list N) (ROW : nat) : party G (list N) :=
  if admitted ROW BASE_LEN then
    pbind (rrecv bits) (fun K =>
    get_blocks ROW (fun C0 => get_blocks ROW (fun C1 =>
      Ret (map (fun i => if (nth i bits 0 =? 0)%N then N.lxor (nth i C0 0%N) (nth i K 0%N)
                         else N.lxor (nth i C1 0%N) (nth i K 0%N)) (seq 0 ROW)))))
  else Fail.
(** :347-394 (ALSZ :364-411) *)
Definition OTE_OnesidedSend (m : list N) (ROW : nat) : party G unit :=
  if admitted ROW BASE_LEN then
    pbind rsend (fun '(K0, K1) =>
      if has ROW m then
        Put (MBlocks G (map (fun i => N.lxor (nth i m 0%N) (nth i K1 0%N)) (seq 0 ROW))) (Ret tt)
      else Fail)
  else Fail.
(** :397-441 (ALSZ :414-458); emplace_back for the selected indices *)
Definition OTE_OnesidedReceive (bits : list N) (ROW : nat) : party G (list N) :=
  if admitted ROW BASE_LEN then
    pbind (rrecv bits) (fun K =>
    get_blocks ROW (fun C =>
      Ret (map (fun i => N.lxor (nth i C 0%N) (nth i K 0%N)) (filter (fun i => (nth i bits 0 =? 1)%N) (seq 0 ROW)))))
  else Fail.

(** ** byte-vector messages, only in /repo mpc/ot/alsz_ote.hpp *)
(** :468-504; SendBytesVector and vec_outer_C[0] need a first item *)
Definition OTE_OnesidedSendByteVector (m : list (list N)) (ROW : nat) : party G unit :=
  pbind rsend (fun '(K0, K1) =>
    if has ROW m then
      local (all_some (fun i => OTP_Enc (nth i K1 0%N) (nth i m [])) (seq 0 ROW)) (fun C =>
        match C with [] => Fail | _ => Put (MBytesVec G C) (Ret tt) end)
    else Fail).
(** :506-540; vec_outer_C has the size the sender chose *)
Definition OTE_OnesidedReceiveByteVector (bits : list N) (ROW : nat) : party G (list (list N)) :=
  pbind (rrecv bits) (fun K =>
  get_bytesvec (fun C =>
    local (all_some (fun i => if (i <? length C)%nat then OTP_Dec (nth i K 0%N) (nth i C []) else None)
                    (filter (fun i => (nth i bits 0 =? 1)%N) (seq 0 ROW))) Ret)).
(** :543-586 *)
Definition OTE_SendByteVector (m0 m1 : list (list N)) (ROW : nat) : party G unit :=
  pbind rsend (fun '(K0, K1) =>
    if has ROW m0 && has ROW m1 then
      local (all_some (fun i => OTP_Enc (nth i K0 0%N) (nth i m0 [])) (seq 0 ROW)) (fun C0 =>
      local (all_some (fun i => OTP_Enc (nth i K1 0%N) (nth i m1 [])) (seq 0 ROW)) (fun C1 =>
        match C0, C1 with
        | _ :: _, _ :: _ => Put (MBytesVec G C0) (Put (MBytesVec G C1) (Ret tt))
        | _, _ => Fail
        end))
    else Fail).
(** :588-633; only the value 1 selects the second message *)
Definition OTE_ReceiveByteVector (bits : list N) (ROW : nat) : party G (list (list N)) :=
  pbind (rrecv bits) (fun K =>
  get_bytesvec (fun C0 => get_bytesvec (fun C1 =>
    local (all_some (fun i =>
             let C := if (nth i bits 0 =? 1)%N then C1 else C0 in
             if (i <? length C)%nat then OTP_Dec (nth i K 0%N) (nth i C []) else None) (seq 0 ROW)) Ret))).
End Outer.

(** ** /repo mpc/ot/alsz_ote.hpp *)
(** :130-136 *)
Definition ALSZ_matrix (seeds : list N) (ROW : nat) : list N := flat_map (fun k => pad k (ROW / 128)) seeds.
(** :142-148  Q[j*ROW_NUM/128 + i] ^= P[j*ROW_NUM/128 + i] when bit j is 1 *)
Definition ALSZ_correct (bits Q P : list N) (ROW : nat) : list N :=
  map (fun p => if (nth (p / (ROW / 128)) bits 0 =? 1)%N then N.lxor (nth p Q 0%N) (nth p P 0%N) else nth p Q 0%N) (seq 0 (length Q)).
(** :99-180 *)
Definition ALSZ_RandomSend (g : pt G) (BASE_LEN : nat) (entropy : N) (sk : nat -> Z) (stale : list N) (ROW : nat)
  : party G (list N * list N) :=
  let COL := BASE_LEN in
  if admitted ROW COL then
    let bits := fst (GenRandomBits (SetSeed entropy None 0) COL) in
    pbind (NP_Receive g sk bits COL) (fun seeds =>
    let Q := ALSZ_matrix seeds ROW in
    get_blocks (ROW / 128 * COL) (fun P =>
    local (transpose stale (ALSZ_correct bits Q P ROW) COL ROW) (fun QT =>
    let s := FromSparseBytes (COL / 128) bits in
    local (keys0 QT COL ROW) (fun K0 => local (keys1 QT s COL ROW) (fun K1 => Ret (K0, K1))))))
  else Fail.
(** :219-237  the columns of P *)
Definition ALSZ_adjust (tu : list (N * N)) (rblock : list N) (ROW : nat) : option (list (list N)) :=
  all_some (fun '(t, u) =>
    match XOR (pad t (ROW / 128)) (pad u (ROW / 128)) with Some x => XOR x rblock | None => None end) tu.
(** :184-259 *)
Definition ALSZ_RandomReceive (g : pt G) (BASE_LEN : nat) (entropy : N) (d : Z) (r : nat -> Z) (stale : list N)
  (bits : list N) (ROW : nat) : party G (list N) :=
  let COL := BASE_LEN in
  if admitted ROW COL && has ROW bits then
    let '(TS, s1) := GenRandomBlocks (SetSeed entropy None 0) COL in
    let '(US, _) := GenRandomBlocks s1 COL in
    pbind (NP_Send g d r TS US COL) (fun _ =>
    let rblock := FromSparseBytes (ROW / 128) (firstn ROW bits) in
    local (ALSZ_adjust (combine TS US) rblock ROW) (fun P =>
    Put (MBlocks G (concat P))
    (local (transpose stale (ALSZ_matrix TS ROW) COL ROW) (fun TT =>
     local (keys0 TT COL ROW) (fun K => Ret K)))))
  else Fail.
(** :61-67  Setup(BASE_LEN) ignores its argument: pp.BASE_LEN keeps its default *)
Definition ALSZ_Setup_BASE_LEN (BASE_LEN : nat) : nat := 128.
End OT.

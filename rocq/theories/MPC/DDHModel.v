(** Model of mpc/oprf/ddh_oprf.hpp and mpc/peqt/peqt_from_ddh.hpp.

    H is Hash::BlockToECPoint as a function ([hashes_to]); the random exponents and the
    permutations drawn by std::shuffle are arguments. *)
From Coq Require Import NArith ZArith List Bool Arith.
From Verif.Base Require Import Words ListX.
From Verif.Crypto Require Import BigIntModel.
From Verif.Group Require Import ECModel.
From Verif.Net Require Import ChannelModel PartyModel.
From Verif.OT Require Import OTModel.
From Verif.MPC Require Import HashModel.
Import ListNotations.

(** for(i < n) out[map[i]] = f(i) on a vector of n elements d; undefined when an index is out
    of range.  (The loops are parallel; when two indices coincide the later one is kept here,
    any of them in the code: the theorems are about permutations.) *)
Definition scatter {A} (d : A) (n : nat) (map : list nat) (f : nat -> A) : option (list A) :=
  if has n map && forallb (fun p => p <? n)%nat (firstn n map)
  then Some (fold_left (fun out i => upd out (nth i map 0%nat) (f i)) (seq 0 n) (repeat d n))
  else None.

Section DDH.
Variable G : ECGroup.
Variable H : N -> pt G.
Variable hash : list N -> list N.

(** ** /repo mpc/oprf/ddh_oprf.hpp *)
(** :82-115; k: the key drawn below the order *)
Definition DDHOPRF_Server (k : Z) (permutation_map : list nat) (INPUT_NUM : nat) : party G (list N) :=
  get_points INPUT_NUM (fun mask_X =>
  local (scatter (inf G) INPUT_NUM permutation_map (fun i => pmul G (nth i mask_X (inf G)) k)) (fun Fk =>
  Put (MPoints G Fk) (Ret (ToByteVector k BN_BYTE_LEN)))).
(** :117-139; garbage i: the uninitialised buffer of the i-th ECPointToBytes *)
Definition DDHOPRF_Evaluate (garbage : nat -> list N) (key : list N) (X : list N) (INPUT_NUM : nat) : option (list (list N)) :=
  let k := FromByteVector key in
  if has INPUT_NUM X then
    Some (map (fun i => ECPointToBytes G hash (garbage i) (pmul G (H (nth i X 0%N)) k)) (seq 0 INPUT_NUM))
  else None.
(** :141-184; r: the mask drawn below the order *)
Definition DDHOPRF_Client (garbage : nat -> list N) (r : Z) (X : list N) (INPUT_NUM : nat) : party G (list (list N)) :=
  if has INPUT_NUM X then
    Put (MPoints G (map (fun i => pmul G (H (nth i X 0%N)) r) (seq 0 INPUT_NUM)))
    (get_points INPUT_NUM (fun Fk =>
      let r_inverse := ModInverse r (order G) in
      Ret (map (fun i => ECPointToBytes G hash (garbage i) (pmul G (nth i Fk (inf G)) r_inverse)) (seq 0 INPUT_NUM))))
  else Fail.

(** ** /repo mpc/peqt/peqt_from_ddh.hpp *)
(** :39-44; a mismatch of the sizes is only reported (:25-27); a grid larger than the vector
    is an access out of range *)
Definition grid_map (row_map column_map : list nat) (LEN ROW_NUM COLUMN_NUM : nat) : option (list nat) :=
  if (ROW_NUM * COLUMN_NUM <=? LEN)%nat then
    Some (fold_left (fun m i => fold_left (fun m j =>
            upd m (i * COLUMN_NUM + j) (nth i row_map 0 * COLUMN_NUM + nth j column_map 0)%nat) (seq 0 COLUMN_NUM) m)
          (seq 0 ROW_NUM) (repeat 0%nat LEN))
  else None.
(** :19-86; k: the random key, row_map and column_map: the shuffled vectors *)
Definition PEQT_Send (k : Z) (row_map column_map : list nat) (Y : list N) (ROW_NUM COLUMN_NUM : nat) : party G (list nat) :=
  let LEN := length Y in
  local (grid_map row_map column_map LEN ROW_NUM COLUMN_NUM) (fun permutation_map =>
  local (scatter (inf G) LEN permutation_map (fun i => pmul G (H (nth i Y 0%N)) k)) (fun Fk_Y =>
  get_points LEN (fun mask_X =>
  Put (MPoints G Fk_Y)
  (local (scatter (inf G) LEN permutation_map (fun i => pmul G (nth i mask_X (inf G)) k)) (fun Fk_X =>
  Put (MPoints G Fk_X) (Ret permutation_map)))))).
(** :88-137; r: the random mask *)
Definition PEQT_Receive (r : Z) (X : list N) (ROW_NUM COLUMN_NUM : nat) : party G (list N) :=
  let LEN := length X in
  Put (MPoints G (map (fun i => pmul G (H (nth i X 0%N)) r) (seq 0 LEN)))
  (get_points LEN (fun Fk_Y => get_points LEN (fun Fk_X =>
    let r_inverse := ModInverse r (order G) in
    Ret (map (fun i => if peqb G (nth i Fk_Y (inf G)) (pmul G (nth i Fk_X (inf G)) r_inverse) then 1%N else 0%N) (seq 0 LEN))))).
End DDH.

(** Model of mpc/rpmt/cwprf_mqrpmt.hpp (all four variants) and mpc/psi/cwprf_psi.hpp. *)
From Coq Require Import NArith ZArith List Bool Arith.
From Verif.Base Require Import Words ListX.
From Verif.Filter Require Import BloomModel.
From Verif.Crypto Require Import BigIntModel PRGModel.
From Verif.Group Require Import ECModel.
From Verif.PKE Require Import ElGamalModel.
From Verif.Net Require Import ChannelModel PartyModel.
From Verif.OT Require Import OTModel.
Import ListNotations.

Section Generic.
Variable G : ECGroup.
(** what the two variants (prime256v1 and X25519) differ in: the point type, hashing a block to it,
    the multiplication with the server's and with the client's key, the bytes the Bloom filter sees,
    the channel functions, equality *)
Variable T : Type.
Variable dT : T.
Variable h : N -> T.
Variable mul1 mul2 : T -> T.
Variable bytes : T -> list N.
Variable eqb : T -> T -> bool.
Variable send : list T -> msg G.
Variable recv : forall A, nat -> (list T -> party G A) -> party G A.
(** Bloom filter: the keyed hash, the salts beyond 128, the floating-point table size, the order in
    which the threads perform the insertions, and the answer of the i-th Contain call *)
Variable FastKeyedHash : N -> list N -> N.
Variable big_salt : N -> N -> list N.
Variable raw_bits : N -> N -> N.
Variable order_of : list insert_step -> list insert_step.
Variable contain : BloomFilter -> nat -> list N -> bool.

(** :94-167 (prime256v1), :242-317 (X25519), with BLOOMFILTER *)
Definition mq_Server (SERVER_LEN CLIENT_LEN : nat) (Y : list N) : party G (list N) :=
  if (SERVER_LEN =? length Y)%nat then
    Put (send (map (fun y => mul1 (h y)) Y))
    (recv _ CLIENT_LEN (fun FX =>
      let Z i := mul1 (nth i FX dT) in
      get_int 8 (fun filter_size => get_bytes (N.to_nat filter_size) (fun buffer =>
      local (bloom_ReadObject big_salt buffer) (fun filter =>
      Ret (map (fun i => if contain filter i (bytes (Z i)) then 1%N else 0%N) (seq 0 CLIENT_LEN)))))))
  else Fail.
(** :169-238, :319-385 *)
Definition mq_Client (SERVER_LEN CLIENT_LEN : nat) (ssp : N) (X : list N) : party G unit :=
  if (CLIENT_LEN =? length X)%nat then
    recv _ SERVER_LEN (fun FY =>
    Put (send (map (fun x => mul2 (h x)) X))
    (let W := map (fun i => mul2 (nth i FY dT)) (seq 0 SERVER_LEN) in
     let filter := bloom_new big_salt (N.of_nat (length W)) ssp (raw_bits (N.of_nat (length W)) ssp) in
     local (exec_insert_steps FastKeyedHash filter (order_of (Insert_steps filter (map bytes W)))) (fun filter =>
     Put (MInt G 8 (bloom_ObjectSize filter)) (Put (MBytes G (bloom_WriteObject filter)) (Ret tt)))))
  else Fail.

(** the same without BLOOMFILTER: the points themselves, shuffled, and a hash set *)
Definition mq_Server_set (SERVER_LEN CLIENT_LEN : nat) (Y : list N) : party G (list N) :=
  if (SERVER_LEN =? length Y)%nat then
    Put (send (map (fun y => mul1 (h y)) Y))
    (recv _ CLIENT_LEN (fun FX =>
      recv _ SERVER_LEN (fun FY =>
      let Z i := mul1 (nth i FX dT) in
      Ret (map (fun i => if existsb (eqb (Z i)) FY then 1%N else 0%N) (seq 0 CLIENT_LEN)))))
  else Fail.
Definition mq_Client_set (shuffle : list T -> list T) (SERVER_LEN CLIENT_LEN : nat) (X : list N) : party G unit :=
  if (CLIENT_LEN =? length X)%nat then
    recv _ SERVER_LEN (fun FY =>
    Put (send (map (fun x => mul2 (h x)) X))
    (Put (send (shuffle (map (fun i => mul2 (nth i FY dT)) (seq 0 SERVER_LEN)))) (Ret tt)))
  else Fail.
End Generic.

Section Instances.
Variable G : ECGroup.
Variable FastKeyedHash : N -> list N -> N.
Variable big_salt : N -> N -> list N.
Variable raw_bits : N -> N -> N.
Variable order_of : list insert_step -> list insert_step.
Variable contain : BloomFilter -> nat -> list N -> bool.

(** filter/bloom_filter.hpp:152-170, 233-250: the uncompressed octets in a zeroed buffer *)
Definition point_bytes (P : pt G) : list N := if peqb G P (inf G) then repeat 0%N 65 else unc65 G P.
(** :94-167 and :169-238 *)
Definition EC_Server (H : N -> pt G) (k1 : Z) :=
  mq_Server G (pt G) (inf G) H (fun P => pmul G P k1) point_bytes (MPoints G) (fun A => get_points) big_salt contain.
Definition EC_Client (H : N -> pt G) (k2 : Z) :=
  mq_Client G (pt G) (inf G) H (fun P => pmul G P k2) point_bytes (MPoints G) (fun A => get_points) FastKeyedHash big_salt raw_bits order_of.
Definition EC_Server_set (H : N -> pt G) (k1 : Z) :=
  mq_Server_set G (pt G) (inf G) H (fun P => pmul G P k1) (peqb G) (MPoints G) (fun A => get_points).
Definition EC_Client_set (H : N -> pt G) (k2 : Z) :=
  mq_Client_set G (pt G) (inf G) H (fun P => pmul G P k2) (MPoints G) (fun A => get_points).

(** Hash::BlockToBytes(var, px, 32) *)
Definition hash32 (var : N) : list N := match BlockToBytes var 32 with Some d => d | None => [] end.
(** memcmp of the 32 bytes (crypto/ec_25519.hpp:100-102) *)
Definition bytes_eqb (a b : list N) : bool := if list_eq_dec N.eq_dec a b then true else false.
(** :242-317 and :319-385: both keys are drawn from the fixed seed; e1, e2: what the random device
    would have given *)
Variable X : X25519.
Definition X_Server (e1 : N) :=
  mq_Server G (list N) [] hash32 (fun P => XMul X P (draw32 e1)) (fun P => P) (MPoints25519 G) (fun A => get_points25519) big_salt contain.
Definition X_Client (e2 : N) :=
  mq_Client G (list N) [] hash32 (fun P => XMul X P (draw32 e2)) (fun P => P) (MPoints25519 G) (fun A => get_points25519) FastKeyedHash big_salt raw_bits order_of.
Definition X_Server_set (e1 : N) :=
  mq_Server_set G (list N) [] hash32 (fun P => XMul X P (draw32 e1)) bytes_eqb (MPoints25519 G) (fun A => get_points25519).
Definition X_Client_set (e2 : N) :=
  mq_Client_set G (list N) [] hash32 (fun P => XMul X P (draw32 e2)) (MPoints25519 G) (fun A => get_points25519).

(** ** /repo mpc/psi/cwprf_psi.hpp *)
Definition get_stringvec {A} (LEN : nat) (k : list (list N) -> party G A) : party G A :=
  Get (TStringVec G LEN) (fun m => match m with MStringVec _ _ v => k v | _ => Fail end).
(** :75-94 *)
Record PSI_PP := mkPSI { SENDER_ITEM_NUM : nat; RECEIVER_ITEM_NUM : nat; TRUNCATE_LEN : nat }.
Definition PSI_Setup (ssp LOG_SENDER LOG_RECEIVER : nat) : PSI_PP :=
  mkPSI (2 ^ LOG_SENDER) (2 ^ LOG_RECEIVER) ((ssp + LOG_SENDER + LOG_RECEIVER + 7) / 8).
(** std::string(px, px + TRUNCATE_LEN) of 32 bytes; beyond them undefined *)
Definition truncate (LEN : nat) (P : list N) : option (list N) :=
  if (LEN <=? 32)%nat then Some (firstn LEN P) else None.
(** :120-173 *)
Definition PSI_Send (e1 : N) (pp : PSI_PP) (Y : list N) : party G unit :=
  if (length Y =? SENDER_ITEM_NUM pp)%nat then
    let k1 := draw32 e1 in
    Put (MPoints25519 G (map (fun y => XMul X (hash32 y) k1) Y))
    (get_points25519 (RECEIVER_ITEM_NUM pp) (fun FX =>
      local (all_some (fun i => truncate (TRUNCATE_LEN pp) (XMul X (nth i FX []) k1)) (seq 0 (RECEIVER_ITEM_NUM pp))) (fun S =>
      Put (MStringVec G (TRUNCATE_LEN pp) S) (Ret tt))))
  else Fail.
(** :175-236; S.find on the set of truncated strings *)
Definition PSI_Receive (e2 : N) (pp : PSI_PP) (XX : list N) : party G (list N) :=
  if (length XX =? RECEIVER_ITEM_NUM pp)%nat then
    let k2 := draw32 e2 in
    get_points25519 (SENDER_ITEM_NUM pp) (fun FY =>
    Put (MPoints25519 G (map (fun x => XMul X (hash32 x) k2) XX))
    (get_stringvec (TRUNCATE_LEN pp) (fun V =>
      local (all_some (fun i => truncate (TRUNCATE_LEN pp) (XMul X (nth i FY []) k2)) (seq 0 (SENDER_ITEM_NUM pp))) (fun S =>
      if has (RECEIVER_ITEM_NUM pp) V then
        Ret (map snd (filter (fun p => existsb (bytes_eqb (fst p)) S) (combine V XX)))
      else Fail))))
  else Fail.
End Instances.

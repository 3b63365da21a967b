(** Model of mpc/rpmt/rrpke_mqrpmt.hpp: the mqRPMT from a re-randomisable public-key
    encryption and an OKVS (only compiled without X25519 acceleration).

    The binned OKVS is OKVS/BaxosModel.v, ElGamal over the curve PKE/ElGamalModel.v.
    The OpenMP loops over independent entries are [map]s; the threads of the OKVS and
    their schedules are arguments. *)
From Coq Require Import NArith ZArith List Bool Arith.
From Verif.Base Require Import Words ListX.
From Verif.Group Require Import ECModel.
From Verif.PKE Require Import ElGamalModel.
From Verif.Net Require Import ChannelModel PartyModel.
From Verif.OKVS Require Import SparseModel PaxosModel BaxosModel.
Import ListNotations.

(** :153, :221 uint64_t bin_size = 1 << (pp.LOG_SERVER_LEN-7); size_t, so that below 7
    the amount is at least 2^64-7, and [1] is an int: shifting by 31 or more is
    undefined.  The number of bins as the constructor of Baxos computes it
    (mpc/okvs/baxos.hpp:51) *)
Definition rr_bin_size (LOG : nat) : option N :=
  if (7 <=? LOG) && (LOG - 7 <? 31) then Some (2 ^ N.of_nat (LOG - 7))%N else None.
Definition rr_bins (LOG : nat) : option N :=
  match rr_bin_size LOG with
  | Some s => Some ((2 ^ N.of_nat LOG + s - 1) / s)%N
  | None => None
  end.

Section RR.
Variable G : ECGroup.
(** pke/elgamal.hpp:82-95 Setup *)
Variable g : pt G.
(** the hash of the OKVS object: AES under the key of PRG::SetSeed(fixed_seed, 0) *)
Variable enc : N -> N.
(** :154, :222 the OKVS object that both sides construct from the same numbers *)
Variable B : baxos.
(** NUMBER_OF_THREADS, include/global.hpp:24 *)
Variable T : nat.

(** mpc/okvs/okvs_utility.hpp BlockArrayValue: 9 blocks *)
Definition VLEN : nat := 9.
Definition VBYTES : nat := 144.
(** :155, :223 out_length *)
Definition rr_out : nat := nbins B * btotal B.

(** :107-113 *)
Definition CTtoBlockArrayValue (ct : GCT G) : N := le_val (CTtoByteArray G ct ++ repeat 0%N 14).
(** :115-120 *)
Definition BlockArrayValueToCT (v : N) : option (GCT G) := ByteArraytoCT G (firstn 130 (le_bytes VBYTES v)).
(** arrays of BlockArrayValue as bytes (:161, :165, :226, :243) *)
Definition value_bytes (v : list N) : list N := flat_map (le_bytes VBYTES) v.
Fixpoint bytes_value (n : nat) (d : list N) : list N :=
  match n with O => [] | S n => le_val (firstn VBYTES d) :: bytes_value n (skipn VBYTES d) end.

(** :134-151 what the server stores for the i-th item *)
Definition rr_value (sk k : Z) (r : nat -> Z) (i : nat) : N :=
  CTtoBlockArrayValue (G_Enc G g (pmul G g sk) (pmul G g k) (r i)).

(** :169-176 the loop body of the last step *)
Definition rr_bit (sk : Z) (m : pt G) (v : N) : option N :=
  match BlockArrayValueToCT v with
  | Some ct => Some (if peqb G m (G_Dec G sk ct) then 1%N else 0%N)
  | None => None
  end.

(** :122-200 Server. [sk]: the key KeyGen draws; [k]: the scalar GenRandomECPoint draws;
    [r]: the randomness of the encryptions; [s1], [s2]: the schedules of solve *)
Definition rr_Server (SERVER_LEN CLIENT_LEN : nat) (sk k : Z) (r : nat -> Z) (s1 s2 : list nat) (Y : list N) : party G (list N) :=
  if negb (SERVER_LEN =? length Y) then Fail else
  Put (MPoints G [pmul G g sk])
  (let m := pmul G g k in
   let values := map (rr_value sk k r) (seq 0 SERVER_LEN) in
   local (solve enc VLEN B T s1 s2 (fun _ => None) Y values (repeat 0%N rr_out)) (fun D =>
   Put (MBytes G (value_bytes D))
   (get_bytes (CLIENT_LEN * VBYTES) (fun d =>
   local (all_some (map (rr_bit sk m) (bytes_value CLIENT_LEN d))) (fun bits => Ret bits))))).

(** :235-242 the loop body of the client's last step *)
Definition rr_rerand (pk : pt G) (v : N) (r : Z) : option N :=
  match BlockArrayValueToCT v with
  | Some ct => Some (CTtoBlockArrayValue (G_ReRand G g pk ct r))
  | None => None
  end.

(** :202-246 Client. [r]: the randomness of the re-randomisations; [s]: the schedule of
    decode.  The function returns nothing; the result here is what the client has seen:
    the decoded values and the OKVS. *)
Definition rr_Client (CLIENT_LEN : nat) (r : nat -> Z) (s : list nat) (X : list N) : party G (list N * list N) :=
  if negb (CLIENT_LEN =? length X) then Fail else
  get_points 1 (fun pks => match pks with
  | [pk] =>
    get_bytes (rr_out * VBYTES) (fun d =>
    let D := bytes_value rr_out d in
    local (bdecode enc VLEN B T s X (repeat 0%N CLIENT_LEN) D) (fun dec =>
    local (all_some (map (fun i => rr_rerand pk (nth i dec 0%N) (r i)) (seq 0 CLIENT_LEN))) (fun out =>
    Put (MBytes G (value_bytes out)) (Ret (dec, D)))))
  | _ => Fail
  end).
End RR.

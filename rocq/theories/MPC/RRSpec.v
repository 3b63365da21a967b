(** What a user of the rrPKE-based mqRPMT relies on. *)
From Coq Require Import NArith ZArith List Bool Arith.
From Verif.Base Require Import Words ListX.
From Verif.Group Require Import ECModel.
From Verif.PKE Require Import ElGamalModel.
From Verif.OKVS Require Import PaxosModel PaxosSpec BaxosModel BaxosSpec.
From Verif.MPC Require Import VOPRFSpec RRModel.
Import ListNotations.

(** A value of 144 bytes is the encoding of a ciphertext: two uncompressed points and
    14 zero bytes.  Everybody can test this. *)
Definition looks_like_ct (G : ECGroup) (v : N) : Prop :=
  exists P Q, le_bytes 144 v = point_slot G P ++ point_slot G Q ++ repeat 0%N 14.

(** The sizes: several bins, room in each for every thread's items, GF(2^128), fewer
    than 256 gap rows per bin; the client's items per bin are countable. *)
Definition rr_sizes (enc : N -> N) (B : baxos) (T : nat) (Y values X : list N) : Prop :=
  usable (binp B) /\ bkind B = gf_128 /\ roomy enc B T Y
  /\ (forall b, b < nbins B -> good_bin enc 9 B b Y values None)
  /\ countable enc B X.

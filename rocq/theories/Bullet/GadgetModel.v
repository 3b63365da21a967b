(** Model of gadget/range_proof.hpp: range proofs about the plaintext of a twisted ElGamal
    ciphertext. *)
From Coq Require Import NArith ZArith List Bool.
From Verif.Base Require Import Words ListX.
From Verif.Crypto Require Import BigIntModel.
From Verif.Group Require Import ECModel.
From Verif.PKE Require Import DlogModel ElGamalModel.
From Verif.Sigma Require Import SigmaModel.
From Verif.Bullet Require Import IPModel BPModel.
Import ListNotations.
Local Open Scope Z_scope.

Section Gadget.
Variable G : ECGroup.
Variable key : pt G -> N.
Variable H : list N -> Z.
Local Infix "+p" := (padd G) (at level 50, left associativity).
Local Infix "-p" := (psub G) (at level 50, left associativity).
Local Notation "P *p k" := (pmul G P k%Z) (at level 40, left associativity).

(** /repo gadget/range_proof.hpp:23-27, 90-96 *)
Record RPP := { rp_enc : TPP G; rp_bullet : BPPP G }.
(** /repo gadget/range_proof.hpp:38-41 *)
Record RP1 := { rp1_ptke : PKProof G; rp1_bullet : BPProof G }.
(** /repo gadget/range_proof.hpp:48-53 *)
Record RP2 := { rp2_ct : TCT G; rp2_dle : DLEProof G; rp2_ptke : PKProof G; rp2_bullet : BPProof G }.

(** /repo gadget/range_proof.hpp:61-68 on the two-element vector {Y, Y} *)
Definition AdjustBulletInstance (bpp : BPPP G) (L R : Z) (Y : pt G) : list (pt G) :=
  [Y -p bp_h G bpp *p (L - 0); Y +p bp_h G bpp *p (2 ^ Z.of_nat (bp_range G bpp) - R)].
(** /repo gadget/range_proof.hpp:71-78 on {m, m} *)
Definition AdjustBulletWitness (bpp : BPPP G) (L R m : Z) : list Z :=
  [m - (L - 0); m + (2 ^ Z.of_nat (bp_range G bpp) - R)].
(** /repo gadget/range_proof.hpp:80-87 *)
Definition CheckRange (L R : Z) (len : nat) : bool := negb ((R <? L) || (2 ^ Z.of_nat len <? R)).

(** /repo gadget/range_proof.hpp:99-134; draws: a, b of the knowledge proof, [rn] of the
    Bulletproof; None: illegal range, or Bullet::Prove stops *)
Definition RP1_Prove (pp : RPP) (pk : pt G) (ct : TCT G) (L R r m : Z) (tr : list N) (a b : Z) (rn : BPRand)
  : option (RP1 * list N) :=
  if CheckRange L R (bp_range G (rp_bullet pp)) then
    let k := PK_Prove G H (t_g G (rp_enc pp)) (t_h G (rp_enc pp)) pk ct m r tr a b in
    do bp <- BP_Prove G H (rp_bullet pp) (AdjustBulletInstance (rp_bullet pp) L R (tY G ct)) [r; r]
               (AdjustBulletWitness (rp_bullet pp) L R m) (snd k) rn;
    Some ({| rp1_ptke := fst k; rp1_bullet := fst bp |}, snd bp)
  else None.

(** /repo gadget/range_proof.hpp:137-160; [c] is the combiner drawn by FastVerify *)
Definition RP1_Verify (pp : RPP) (pk : pt G) (ct : TCT G) (L R : Z) (tr : list N) (p : RP1) (c : Z)
  : option (bool * list N) :=
  let v1 := PK_Verify G H (t_g G (rp_enc pp)) (t_h G (rp_enc pp)) pk ct tr (rp1_ptke p) in
  do v2 <- BP_FastVerify G H (rp_bullet pp) (AdjustBulletInstance (rp_bullet pp) L R (tY G ct)) (snd v1) (rp1_bullet p) c;
  Some (fst v1 && fst v2, snd v2).

(** /repo gadget/range_proof.hpp:162-216; the decryption table [st] is loaded; draws:
    r_star, w of the equality proof, a, b, [rn]; [sched] interleaves the search tasks *)
Definition RP2_Prove (pp : RPP) (st : dstate G) (pk : pt G) (ct : TCT G) (L R sk : Z) (tr : list N)
  (sched : list nat) (rstar w a b : Z) (rn : BPRand) : option (RP2 * list N) :=
  if CheckRange L R (bp_range G (rp_bullet pp)) then
    let ct' := T_ReEnc G (rp_enc pp) pk sk ct rstar in
    do m <- T_Dec G key (rp_enc pp) st sk ct sched;
    let d := DLE_Prove G H (t_g G (rp_enc pp)) pk (tY G ct' -p tY G ct) (tX G ct' -p tX G ct) sk tr w in
    let k := PK_Prove G H (t_g G (rp_enc pp)) (t_h G (rp_enc pp)) pk ct' m rstar (snd d) a b in
    do bp <- BP_Prove G H (rp_bullet pp) (AdjustBulletInstance (rp_bullet pp) L R (tY G ct')) [rstar; rstar]
               (AdjustBulletWitness (rp_bullet pp) L R m) (snd k) rn;
    Some ({| rp2_ct := ct'; rp2_dle := fst d; rp2_ptke := fst k; rp2_bullet := fst bp |}, snd bp)
  else None.

(** /repo gadget/range_proof.hpp:219-250 *)
Definition RP2_Verify (pp : RPP) (pk : pt G) (ct : TCT G) (L R : Z) (tr : list N) (p : RP2) (c : Z)
  : option (bool * list N) :=
  let ct' := rp2_ct p in
  let v1 := DLE_Verify G H (t_g G (rp_enc pp)) pk (tY G ct' -p tY G ct) (tX G ct' -p tX G ct) tr (rp2_dle p) in
  let v2 := PK_Verify G H (t_g G (rp_enc pp)) (t_h G (rp_enc pp)) pk ct' (snd v1) (rp2_ptke p) in
  do v3 <- BP_FastVerify G H (rp_bullet pp) (AdjustBulletInstance (rp_bullet pp) L R (tY G ct')) (snd v2) (rp2_bullet p) c;
  Some (fst v1 && fst v2 && fst v3, snd v3).
End Gadget.

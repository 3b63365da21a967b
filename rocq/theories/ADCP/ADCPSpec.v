(** Vocabulary of the properties about confidential payments (C45-C51, C82-C84). *)
From Coq Require Import NArith ZArith List.
From Verif.Base Require Import Words ListX.
From Verif.Crypto Require Import BigIntModel BigIntSpec BigIntProofs.
From Verif.Group Require Import ECModel ECProofs.
From Verif.PKE Require Import DlogModel DlogSpec ElGamalModel ElGamalProps.
From Verif.Sigma Require Import SigmaModel.
From Verif.Bullet Require Import IPModel BPModel BPSpec BPProps.
From Verif.ADCP Require Import ADCPModel.
Import ListNotations.
Local Open Scope Z_scope.

Section Spec.
Variable G : ECGroup.
Variable key : pt G -> N.
Variable H : list N -> Z.
Local Notation q := (order G).
Local Infix "+p" := (padd G) (at level 50, left associativity).
Local Notation "P *p k" := (pmul G P k%Z) (at level 40, left associativity).

(** Parameters as Setup makes them: the encryption scheme and the range proofs share
    g and h, and n range proofs fit the generator vectors. *)
Definition params_ok (pp : APP G) (n : nat) (rn : BPRand) : Prop :=
  t_g G (a_enc G pp) = bp_g G (a_bullet G pp) /\ t_h G (a_enc G pp) = bp_h G (a_bullet G pp) /\
  bp_wf G (a_bullet G pp) (repeat (inf G) n) rn.
(** the amounts the range proofs speak about *)
Definition amount (pp : APP G) (v : Z) : Prop := 0 <= v < 2 ^ Z.of_nat (bp_range G (a_bullet G pp)).

(** The account's keys belong together and its encrypted balance is its plaintext balance. *)
Definition account_ok (pp : APP G) (a : Account G) : Prop :=
  invertible G (ac_sk G a) /\ ac_pk G a = t_g G (a_enc G pp) *p ac_sk G a /\
  T_DecECPoint G (ac_sk G a) (ac_ct G a) = t_h G (a_enc G pp) *p ac_m G a.

Definition total (accts : list (Account G)) : Z := zsum (map (ac_m G) accts).

(** the transfer ciphertext encrypts v for the sender, the receiver and the supervisor *)
Definition transfers (pp : APP G) (t : CTx1 G) (v : Z) : Prop :=
  exists r, c_tr G t = T_MREnc G (a_enc G pp) [c_pks G t; c_pkr G t; a_pka G pp] v r.

(** decryption works: Setup and Initialize have run, and the 64-bit keys of the
    searched points do not collide *)
Definition decrypts (hash : list N -> pt G) (L T : nat) (pp : APP G) (st : dstate G) : Prop :=
  t_ready G key hash L T (a_enc G pp) st /\
  forall m, keys_separate G key (t_h G (a_enc G pp)) (t_h G (a_enc G pp) *p m) L T.
(** every search task gets enough turns *)
Definition fair (L T : nat) (sched : list nat) : Prop :=
  forall i, (i < SEARCH_TASK_NUM)%nat -> (SLICED_GIANTSTEP_NUM L T + 4 <= count_occ Nat.eq_dec sched i)%nat.

(** the transcript of a transaction when its range proof is checked *)
Definition range_transcript1 (pp : APP G) (t : CTx1 G) : list N :=
  let g := t_g G (a_enc G pp) in let h := t_h G (a_enc G pp) in
  match PTE_Verify G H g h [c_pks G t; c_pkr G t; a_pka G pp] (c_tr G t) [] (c_pte G t) with
  | Some (_, tr) => snd (PK_Verify G H g h (c_pks G t) (c_ref G t) tr (c_pk G t))
  | None => []
  end.
Definition range_transcriptN (pp : APP G) (t : CTxN G) : list N :=
  let g := t_g G (a_enc G pp) in let h := t_h G (a_enc G pp) in
  match PTE_verifies G H g h (a_pka G pp) (m_pkr G t) (m_rtr G t) (m_pte G t) [] with
  | Some (_, tr) => snd (PK_Verify G H g h (m_pks G t) (m_ref G t) tr (m_pk G t))
  | None => []
  end.

(** what the receivers' ciphertexts of a one-to-many transaction encrypt *)
Definition pays (pp : APP G) (t : CTxN G) (vs : list Z) : Prop :=
  exists rs, length rs = length vs /\ length vs = length (m_pkr G t) /\
    m_rtr G t = map2 (fun pk x => T_MREnc G (a_enc G pp) [pk; a_pka G pp] (fst x) (snd x)) (m_pkr G t) (combine vs rs).
End Spec.

(** Vocabulary of C92, C93: accepted transactions that have the same content and answer
    different challenges.  A run is a hash function (the verifier's coins) and the
    transaction that was accepted for it. *)
From Coq Require Import NArith ZArith List.
From Verif.Crypto Require Import BigIntModel BigIntSpec BigIntProofs.
From Verif.Group Require Import ECModel ECProofs.
From Verif.PKE Require Import ElGamalModel.
From Verif.Sigma Require Import SigmaModel SigmaSpec.
From Verif.Bullet Require Import IPModel BPModel BPSpec ExtractSpec BPExtractSpec.
From Verif.ADCP Require Import ADCPModel ADCPSpec ADCPGateSpec.
Import ListNotations.
Local Open Scope Z_scope.

Section Spec.
Variable G : ECGroup.
Variable hex : Z -> list N.
Local Notation q := (order G).

(** ** one-to-one transactions *)
Definition run1 : Type := ((list N -> Z) * CTx1 G)%type.
(** keys, amount, balance before and after *)
Definition content1 (t : CTx1 G) := (c_pks G t, c_pkr G t, c_tr G t, c_bal G t, c_ref G t).
Definition accepts1 (pp : APP G) (x : run1) : Prop := exists c, VerifyCTx1 G (fst x) hex pp (snd x) c = Some true.

(** the challenges of the three proofs of knowledge *)
Definition ch_equal1 (pp : APP G) (x : run1) : Z :=
  let t := snd x in
  match PTE_Verify G (fst x) (t_g G (a_enc G pp)) (t_h G (a_enc G pp)) [c_pks G t; c_pkr G t; a_pka G pp] (c_tr G t) [] (c_pte G t) with
  | Some (_, tr) => fst x tr | None => 0 end.
Definition ch_know1 (pp : APP G) (x : run1) : Z := fst x (range_transcript1 G (fst x) pp (snd x)).
Definition ch_owner1 (pp : APP G) (x : run1) : Z :=
  match owner_input1 G (fst x) hex pp (snd x) with Some tr => fst x tr | None => 0 end.

(** two runs with the same first message of one of the proofs and different challenges *)
Definition fork_equal1 (pp : APP G) (x x' : run1) : Prop :=
  pteA G (c_pte G (snd x)) = pteA G (c_pte G (snd x')) /\ pteB G (c_pte G (snd x)) = pteB G (c_pte G (snd x')) /\
  distinct_challenges G (ch_equal1 pp x) (ch_equal1 pp x').
Definition fork_know1 (pp : APP G) (x x' : run1) : Prop :=
  pkA G (c_pk G (snd x)) = pkA G (c_pk G (snd x')) /\ pkB G (c_pk G (snd x)) = pkB G (c_pk G (snd x')) /\
  distinct_challenges G (ch_know1 pp x) (ch_know1 pp x').
Definition fork_owner1 (pp : APP G) (x x' : run1) : Prop :=
  dleA1 G (c_dle G (snd x)) = dleA1 G (c_dle G (snd x')) /\ dleA2 G (c_dle G (snd x)) = dleA2 G (c_dle G (snd x')) /\
  distinct_challenges G (ch_owner1 pp x) (ch_owner1 pp x').

(** what the forks give: numbers computed from the answers *)
Definition got_amount1 pp (x x' : run1) := extracted G (ptet G (c_pte G (snd x))) (ptet G (c_pte G (snd x'))) (ch_equal1 pp x) (ch_equal1 pp x').
Definition got_coin1 pp (x x' : run1) := extracted G (ptez G (c_pte G (snd x))) (ptez G (c_pte G (snd x'))) (ch_equal1 pp x) (ch_equal1 pp x').
Definition got_left1 pp (x x' : run1) := extracted G (pkz2 G (c_pk G (snd x))) (pkz2 G (c_pk G (snd x'))) (ch_know1 pp x) (ch_know1 pp x').
Definition got_fresh1 pp (x x' : run1) := extracted G (pkz1 G (c_pk G (snd x))) (pkz1 G (c_pk G (snd x'))) (ch_know1 pp x) (ch_know1 pp x').
Definition got_key1 pp (x x' : run1) := extracted G (dlez G (c_dle G (snd x))) (dlez G (c_dle G (snd x'))) (ch_owner1 pp x) (ch_owner1 pp x').

(** a tree of range proofs that were part of accepted transactions with the given content;
    every one is accepted for two values of the verifier's random combiner *)
Definition range_runs1 (pp : APP G) content {d} (T : bp_tree G d) : Prop :=
  forall i j k l w, (i < bp_range G (a_bullet G pp) * 2)%nat -> (j < 4)%nat -> (k < 3)%nat -> (l < 2)%nat -> is_branch d w ->
  exists (H : list N -> Z) t c c',
    let p := c_bp G t in let tr := range_transcript1 G H pp t in
    content1 t = content /\ p = bp_branch G T i j k l w /\
    y_of G H tr p = ty G T i /\ z_of G H tr p = tz G T i j /\ x_of G H tr p = tch G T i j k /\ e_of G H tr p = te G T i j k l /\
    ip_challenges_of G H tr p = snd (branch G d (tip G T i j k l) w) /\
    ~ cong q c c' /\ VerifyCTx1 G H hex pp t c = Some true /\ VerifyCTx1 G H hex pp t c' = Some true.

(** an opening of a commitment agrees with the extracted one, or gives a relation *)
Definition same_opening (pp : APP G) (r v r' v' : Z) : Prop :=
  cong q v v' \/ relation G [t_g G (a_enc G pp); t_h G (a_enc G pp)] [r - r'; v - v'].

(** ** one-to-many transactions *)
Definition runN : Type := ((list N -> Z) * CTxN G)%type.
(** keys, the sender's and the receivers' amounts, balance before and after *)
Definition contentN (t : CTxN G) := (m_pks G t, m_pkr G t, m_str G t, m_rtr G t, m_bal G t, m_ref G t).
Definition acceptsN (pp : APP G) (x : runN) : Prop := exists c, VerifyCTxN G (fst x) hex pp (snd x) c = Some true.

Local Infix "-p" := (psub G) (at level 50, left associativity).
(** the challenges of the proofs of knowledge; the receivers' proofs are checked in order *)
Definition ch_equalN (pp : APP G) (i : nat) (x : runN) : Z :=
  let t := snd x in
  match PTE_verifies G (fst x) (t_g G (a_enc G pp)) (t_h G (a_enc G pp)) (a_pka G pp) (firstn (S i) (m_pkr G t)) (m_rtr G t) (m_pte G t) [] with
  | Some (_, tr) => fst x tr | None => 0 end.
Definition ch_knowN (pp : APP G) (x : runN) : Z := fst x (range_transcriptN G (fst x) pp (snd x)).
(** the part of the sender's ciphertext that is not in the receivers' ciphertexts *)
Definition restN (t : CTxN G) : pt G := fold_left (fun acc x => acc -p tmY G x) (firstn (length (m_pkr G t)) (m_rtr G t)) (tY G (m_str G t)).
Definition ch_sumN (pp : APP G) (x : runN) : Z :=
  let t := snd x in
  match BP_FastVerify G (fst x) (a_bullet G pp) (map (tmY G) (firstn (length (m_pkr G t)) (m_rtr G t)) ++ [tY G (m_ref G t)])
          (range_transcriptN G (fst x) pp t) (m_bp G t) 1 with
  | Some (_, tr) => fst x (snd (DLK_Verify G (fst x) (t_g G (a_enc G pp)) (restN t) tr (m_dlk G t))) | None => 0 end.
Definition ch_ownerN (pp : APP G) (x : runN) : Z :=
  match owner_inputN G (fst x) hex pp (snd x) with Some tr => fst x tr | None => 0 end.

Definition noct : TMRCT G := {| tvX := []; tmY := inf G |}.
Definition nopte : PTEProof G := {| pteA := []; pteB := inf G; ptez := 0; ptet := 0 |}.
Definition pte_at (i : nat) (x : runN) : PTEProof G := nth i (m_pte G (snd x)) nopte.
Definition fork_equalN (pp : APP G) (i : nat) (x x' : runN) : Prop :=
  pteA G (pte_at i x) = pteA G (pte_at i x') /\ pteB G (pte_at i x) = pteB G (pte_at i x') /\
  distinct_challenges G (ch_equalN pp i x) (ch_equalN pp i x').
Definition fork_knowN (pp : APP G) (x x' : runN) : Prop :=
  pkA G (m_pk G (snd x)) = pkA G (m_pk G (snd x')) /\ pkB G (m_pk G (snd x)) = pkB G (m_pk G (snd x')) /\
  distinct_challenges G (ch_knowN pp x) (ch_knowN pp x').
Definition fork_sumN (pp : APP G) (x x' : runN) : Prop :=
  dlkA G (m_dlk G (snd x)) = dlkA G (m_dlk G (snd x')) /\ distinct_challenges G (ch_sumN pp x) (ch_sumN pp x').
Definition fork_ownerN (pp : APP G) (x x' : runN) : Prop :=
  dleA1 G (m_dle G (snd x)) = dleA1 G (m_dle G (snd x')) /\ dleA2 G (m_dle G (snd x)) = dleA2 G (m_dle G (snd x')) /\
  distinct_challenges G (ch_ownerN pp x) (ch_ownerN pp x').

Definition got_amountN pp i (x x' : runN) := extracted G (ptet G (pte_at i x)) (ptet G (pte_at i x')) (ch_equalN pp i x) (ch_equalN pp i x').
Definition got_coinN pp i (x x' : runN) := extracted G (ptez G (pte_at i x)) (ptez G (pte_at i x')) (ch_equalN pp i x) (ch_equalN pp i x').
Definition got_leftN pp (x x' : runN) := extracted G (pkz2 G (m_pk G (snd x))) (pkz2 G (m_pk G (snd x'))) (ch_knowN pp x) (ch_knowN pp x').
Definition got_freshN pp (x x' : runN) := extracted G (pkz1 G (m_pk G (snd x))) (pkz1 G (m_pk G (snd x'))) (ch_knowN pp x) (ch_knowN pp x').
Definition got_restN pp (x x' : runN) := extracted G (dlkz G (m_dlk G (snd x))) (dlkz G (m_dlk G (snd x'))) (ch_sumN pp x) (ch_sumN pp x').
Definition got_keyN pp (x x' : runN) := extracted G (dlez G (m_dle G (snd x))) (dlez G (m_dle G (snd x'))) (ch_ownerN pp x) (ch_ownerN pp x').

Definition range_runsN (pp : APP G) content (n : nat) {d} (T : bp_tree G d) : Prop :=
  forall i j k l w, (i < bp_range G (a_bullet G pp) * S n)%nat -> (j < S n + 2)%nat -> (k < 3)%nat -> (l < 2)%nat -> is_branch d w ->
  exists (H : list N -> Z) t c c',
    let p := m_bp G t in let tr := range_transcriptN G H pp t in
    contentN t = content /\ p = bp_branch G T i j k l w /\
    y_of G H tr p = ty G T i /\ z_of G H tr p = tz G T i j /\ x_of G H tr p = tch G T i j k /\ e_of G H tr p = te G T i j k l /\
    ip_challenges_of G H tr p = snd (branch G d (tip G T i j k l) w) /\
    ~ cong q c c' /\ VerifyCTxN G H hex pp t c = Some true /\ VerifyCTxN G H hex pp t c' = Some true.
End Spec.

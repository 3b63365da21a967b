(** Vocabulary of C96: accepted range proofs about an encrypted value that answer different
    challenges.  A run is a hash function, the transcript so far and the accepted proof. *)
From Coq Require Import NArith ZArith List.
From Verif.Crypto Require Import BigIntModel BigIntSpec BigIntProofs.
From Verif.Group Require Import ECModel ECProofs.
From Verif.PKE Require Import ElGamalModel.
From Verif.Sigma Require Import SigmaModel SigmaSpec.
From Verif.Bullet Require Import IPModel BPModel BPSpec GadgetModel ExtractSpec BPExtractSpec.
Import ListNotations.
Local Open Scope Z_scope.

Section Spec.
Variable G : ECGroup.
Local Notation q := (order G).
Local Infix "-p" := (psub G) (at level 50, left associativity).

(** two openings of one commitment: the same value, or a relation between g and h *)
Definition two_openings (g h : pt G) (r m r' m' : Z) : Prop := cong q m m' \/ relation G [g; h] [r - r'; m - m'].

(** what the openings [v0], [v1] of the two shifted commitments say about a value [m] that
    was opened with [r]: it is in [L, R), or there is a relation *)
Definition inside (pp : RPP G) (L R r m : Z) (rs vs : list Z) : Prop :=
  let g := t_g G (rp_enc G pp) in let h := t_h G (rp_enc G pp) in
  let w := nth 0 vs 0 + L in
  let w' := nth 1 vs 0 - (2 ^ Z.of_nat (bp_range G (rp_bullet G pp)) - R) in
  (cong q m w /\ L <= w < R) \/ relation G [g; h] [r - nth 0 rs 0; m - w] \/ relation G [g; h] [r - nth 1 rs 0; m - w'].

(** the challenges of a branch of the tree *)
Definition along {d} (T : bp_tree G d) (H : list N -> Z) (tr : list N) (p : BPProof G) (i j k l : nat) (w : list nat) : Prop :=
  p = bp_branch G T i j k l w /\
  y_of G H tr p = ty G T i /\ z_of G H tr p = tz G T i j /\ x_of G H tr p = tch G T i j k /\ e_of G H tr p = te G T i j k l /\
  ip_challenges_of G H tr p = snd (branch G d (tip G T i j k l) w).

(** ** the prover knows the randomness *)
Section Known.
Variables (pp : RPP G) (pk : pt G) (ct : TCT G) (L R : Z).
Definition grun1 : Type := ((list N -> Z) * list N * RP1 G)%type.
Definition gaccepts1 (x : grun1) : Prop :=
  let '(H, tr, p) := x in exists c out, RP1_Verify G H pp pk ct L R tr p c = Some (true, out).
Definition know1 (x : grun1) : bool * list N :=
  let '(H, tr, p) := x in PK_Verify G H (t_g G (rp_enc G pp)) (t_h G (rp_enc G pp)) pk ct tr (rp1_ptke G p).
Definition gch1 (x : grun1) : Z := let '(H, _, _) := x in H (snd (know1 x)).
Definition gpk1 (x : grun1) : PKProof G := let '(_, _, p) := x in rp1_ptke G p.
Definition gfork1 (x x' : grun1) : Prop :=
  pkA G (gpk1 x) = pkA G (gpk1 x') /\ pkB G (gpk1 x) = pkB G (gpk1 x') /\ distinct_challenges G (gch1 x) (gch1 x').
Definition got_value1 (x x' : grun1) := extracted G (pkz2 G (gpk1 x)) (pkz2 G (gpk1 x')) (gch1 x) (gch1 x').
Definition got_random1 (x x' : grun1) := extracted G (pkz1 G (gpk1 x)) (pkz1 G (gpk1 x')) (gch1 x) (gch1 x').
Definition gruns1 {d} (T : bp_tree G d) : Prop :=
  forall i j k l w, (i < bp_range G (rp_bullet G pp) * 2)%nat -> (j < 4)%nat -> (k < 3)%nat -> (l < 2)%nat -> is_branch d w ->
  exists (H : list N -> Z) tr p c c' out out', along T H (snd (know1 (H, tr, p))) (rp1_bullet G p) i j k l w /\
    ~ cong q c c' /\ RP1_Verify G H pp pk ct L R tr p c = Some (true, out) /\ RP1_Verify G H pp pk ct L R tr p c' = Some (true, out').
End Known.

(** ** the prover knows the key: all runs contain the same refreshed ciphertext *)
Section Key.
Variables (pp : RPP G) (pk : pt G) (ct ct' : TCT G) (L R : Z).
Definition grun2 : Type := ((list N -> Z) * list N * RP2 G)%type.
Definition gaccepts2 (x : grun2) : Prop :=
  let '(H, tr, p) := x in rp2_ct G p = ct' /\ exists c out, RP2_Verify G H pp pk ct L R tr p c = Some (true, out).
Definition owner2 (x : grun2) : bool * list N :=
  let '(H, tr, p) := x in DLE_Verify G H (t_g G (rp_enc G pp)) pk (tY G ct' -p tY G ct) (tX G ct' -p tX G ct) tr (rp2_dle G p).
Definition know2 (x : grun2) : bool * list N :=
  let '(H, tr, p) := x in PK_Verify G H (t_g G (rp_enc G pp)) (t_h G (rp_enc G pp)) pk ct' (snd (owner2 x)) (rp2_ptke G p).
Definition hash2 (x : grun2) : list N -> Z := let '(H, _, _) := x in H.
Definition proof2 (x : grun2) : RP2 G := let '(_, _, p) := x in p.
Definition gch_owner2 (x : grun2) : Z := hash2 x (snd (owner2 x)).
Definition gch_know2 (x : grun2) : Z := hash2 x (snd (know2 x)).
Definition gfork_owner2 (x x' : grun2) : Prop :=
  dleA1 G (rp2_dle G (proof2 x)) = dleA1 G (rp2_dle G (proof2 x')) /\ dleA2 G (rp2_dle G (proof2 x)) = dleA2 G (rp2_dle G (proof2 x')) /\
  distinct_challenges G (gch_owner2 x) (gch_owner2 x').
Definition gfork_know2 (x x' : grun2) : Prop :=
  pkA G (rp2_ptke G (proof2 x)) = pkA G (rp2_ptke G (proof2 x')) /\ pkB G (rp2_ptke G (proof2 x)) = pkB G (rp2_ptke G (proof2 x')) /\
  distinct_challenges G (gch_know2 x) (gch_know2 x').
Definition got_key2 (x x' : grun2) := extracted G (dlez G (rp2_dle G (proof2 x))) (dlez G (rp2_dle G (proof2 x'))) (gch_owner2 x) (gch_owner2 x').
Definition got_value2 (x x' : grun2) := extracted G (pkz2 G (rp2_ptke G (proof2 x))) (pkz2 G (rp2_ptke G (proof2 x'))) (gch_know2 x) (gch_know2 x').
Definition got_random2 (x x' : grun2) := extracted G (pkz1 G (rp2_ptke G (proof2 x))) (pkz1 G (rp2_ptke G (proof2 x'))) (gch_know2 x) (gch_know2 x').
Definition gruns2 {d} (T : bp_tree G d) : Prop :=
  forall i j k l w, (i < bp_range G (rp_bullet G pp) * 2)%nat -> (j < 4)%nat -> (k < 3)%nat -> (l < 2)%nat -> is_branch d w ->
  exists (H : list N -> Z) tr p c c' out out', along T H (snd (know2 (H, tr, p))) (rp2_bullet G p) i j k l w /\ rp2_ct G p = ct' /\
    ~ cong q c c' /\ RP2_Verify G H pp pk ct L R tr p c = Some (true, out) /\ RP2_Verify G H pp pk ct L R tr p c' = Some (true, out').
End Key.
End Spec.

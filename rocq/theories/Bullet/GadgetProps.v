(** Property C44: range proofs about encrypted values. *)
From Coq Require Import NArith ZArith List Lia Bool Arith Setoid Znumtheory.
From Coq Require Import ZifyBool ZifyNat ZifyN.
From Verif.Base Require Import Words ListX.
From Verif.Crypto Require Import BigIntModel BigIntSpec BigIntProofs.
From Verif.Group Require Import ECModel ECProofs ZqGroup.
From Verif.PKE Require Import DlogModel DlogSpec DlogProofs DlogProps ElGamalModel ElGamalProofs ElGamalProps.
From Verif.Sigma Require Import SigmaModel SigmaProofs SigmaProps.
From Verif.Bullet Require Import IPModel BPModel BPSpec LagSpec IPProofs BPProofs BPProps GadgetModel.
Import ListNotations.
Local Open Scope Z_scope.

Lemma low_negative : forall R a, a < 0 -> low R a = 0.
Proof.
  intros R a A. unfold low. apply sum_zero. intros j _. unfold bitf.
  assert (E : GetTheNthBit a (N.of_nat j) = 0%N); [|rewrite E; reflexivity].
  unfold GetTheNthBit. destruct (Z.eqb_spec (GetLastNBits (Rshift a (N.of_nat j)) 1) 1) as [X|X]; [exfalso|reflexivity].
  revert X. unfold GetLastNBits, Rshift, BN_rshift, BN_mask_bits. rewrite (Z.sgn_neg a A).
  assert (D : 0 <= Z.abs a / 2 ^ Z.of_N (N.of_nat j)) by (apply Z.div_pos; [lia|apply Z.pow_pos_nonneg; lia]).
  set (d := Z.abs a / 2 ^ Z.of_N (N.of_nat j)) in *. clearbody d. destruct (_ <? 1)%N; [lia|].
  assert (M : 0 <= Z.abs (-1 * d) mod 2 ^ Z.of_N 1) by (apply Z.mod_pos_bound; reflexivity).
  set (e := Z.abs (-1 * d) mod 2 ^ Z.of_N 1) in *. clearbody e. assert (S : Z.sgn (-1 * d) <= 0) by lia. nia.
Qed.

Section Props.
Variable G : ECGroup.
Variable key : pt G -> N.
Hypothesis key64 : forall P, (key P < 2 ^ 64)%N.
Local Notation q := (order G).
Local Infix "+p" := (padd G) (at level 50, left associativity).
Local Infix "-p" := (psub G) (at level 50, left associativity).
Local Notation "P *p k" := (pmul G P k%Z) (at level 40, left associativity).
Local Notation "a == b" := (cong q a b) (at level 70).

(** encryption and commitment use the same generators g, h (both Setup functions take
    the curve generator and its hash), and the range length is a power of two that the
    generator vectors cover twice *)
Definition rp_wf (pp : RPP G) (rn : BPRand) : Prop :=
  t_g G (rp_enc G pp) = bp_g G (rp_bullet G pp) /\ t_h G (rp_enc G pp) = bp_h G (rp_bullet G pp) /\
  bp_wf G (rp_bullet G pp) [inf G; inf G] rn.
(** a range [L, R) accepted by CheckRange, not starting below 0 *)
Definition range_ok (pp : RPP G) (L R : Z) : Prop := 0 <= L <= R /\ R <= 2 ^ Z.of_nat (bp_range G (rp_bullet G pp)).

Lemma check_ok : forall pp L R, range_ok pp L R -> CheckRange L R (bp_range G (rp_bullet G pp)) = true.
Proof. intros pp L R [A B]. unfold CheckRange. apply negb_true_iff, orb_false_iff. lia. Qed.

Lemma adjust_commits : forall bpp L R Y r m, Y = bp_g G bpp *p r +p bp_h G bpp *p m ->
  commits G (bp_g G bpp) (bp_h G bpp) (AdjustBulletInstance G bpp L R Y) [r; r] (AdjustBulletWitness G bpp L R m).
Proof.
  intros bpp L R Y r m ->. split; [reflexivity|]. split; [reflexivity|].
  unfold AdjustBulletInstance, AdjustBulletWitness. generalize (2 ^ Z.of_nat (bp_range G bpp)). intros t.
  intros [|[|j]] Hj; cbn [nth]; [| |cbn in Hj; lia]; bpgen; clear; intros; logs G; gring.
Qed.

Lemma adjust_range : forall bpp L R m, 0 <= L -> R <= 2 ^ Z.of_nat (bp_range G bpp) -> L <= m < R ->
  Forall (in_range (bp_range G bpp)) (AdjustBulletWitness G bpp L R m).
Proof. intros bpp L R m A B M. unfold AdjustBulletWitness, in_range. repeat constructor; lia. Qed.

(** the Bulletproof part on an honest opening: accepted when m is in [L, R) *)
Lemma bullet_in : forall (H : list N -> Z) bpp L R Y r m tr rn, bp_wf G bpp [inf G; inf G] rn ->
  0 <= L -> R <= 2 ^ Z.of_nat (bp_range G bpp) -> L <= m < R -> Y = bp_g G bpp *p r +p bp_h G bpp *p m ->
  exists p tr', BP_Prove G H bpp (AdjustBulletInstance G bpp L R Y) [r; r] (AdjustBulletWitness G bpp L R m) tr rn = Some (p, tr') /\
    (good_challenges G H tr p -> forall c, BP_FastVerify G H bpp (AdjustBulletInstance G bpp L R Y) tr p c = Some (true, tr')).
Proof.
  intros H bpp L R Y r m tr rn W A B M EY.
  destruct (C41_complete G H bpp (AdjustBulletInstance G bpp L R Y) _ _ tr rn W (adjust_commits bpp L R Y r m EY) (adjust_range bpp L R m A B M)) as [p [tr' [E V]]].
  exists p, tr'. split; [exact E|]. intros GC. apply (V GC).
Qed.

(** and rejected when m is outside *)
Lemma bullet_out : forall (H : list N -> Z) bpp L R Y r m tr rn, bp_wf G bpp [inf G; inf G] rn ->
  0 <= L <= R -> R <= 2 ^ Z.of_nat (bp_range G bpp) -> 0 <= m < 2 ^ Z.of_nat (bp_range G bpp) -> ~ L <= m < R ->
  2 < q -> 2 ^ Z.of_nat (bp_range G bpp) < q -> bp_h G bpp <> inf G -> Y = bp_g G bpp *p r +p bp_h G bpp *p m ->
  exists p tr', BP_Prove G H bpp (AdjustBulletInstance G bpp L R Y) [r; r] (AdjustBulletWitness G bpp L R m) tr rn = Some (p, tr') /\
    (good_challenges G H tr p -> unit_mod G (z_of G H tr p) ->
     forall c, unit_mod G c -> BP_FastVerify G H bpp (AdjustBulletInstance G bpp L R Y) tr p c = Some (false, tr')).
Proof.
  intros H bpp L R Y r m tr rn W A B M OUT Q2 Q2n HF EY.
  destruct (BP_honest_difference G H bpp (AdjustBulletInstance G bpp L R Y) _ _ tr rn W (adjust_commits bpp L R Y r m EY)) as [p [EP [D [Q1 Qi]]]].
  exists p, (trend G H tr p). split; [exact EP|]. intros GC UZ c UC. specialize (Qi GC).
  rewrite BP_FastVerify_spec by exact D. rewrite Qi, padd_inf. do 2 f_equal.
  destruct (peqb_spec G (E1 G H bpp (AdjustBulletInstance G bpp L R Y) tr p *p c) (inf G)) as [X|X]; [exfalso|reflexivity].
  rewrite Q1, pmul_mul in X. set (z := z_of G H tr p) in *.
  rewrite <- (pmul_0 G (bp_h G bpp)) in X. apply (pmul_inj G _ _ _ HF) in X.
  rewrite Z.mul_comm, <- (Z.mul_0_r c) in X. apply (cong_cancel G c) in X; [|exact UC].
  unfold sum, AdjustBulletWitness in X. cbn [AdjustBulletInstance length seq map zsum nth] in X.
  set (n := bp_range G bpp) in *. set (t := 2 ^ Z.of_nat n) in *.
  assert (TP : 0 < t) by (unfold t; apply Z.pow_pos_nonneg; lia).
  assert (ZC : forall a, z * a == 0 -> a == 0).
  { intros a E. apply (cong_cancel G z); [exact UZ|]. rewrite Z.mul_0_r. exact E. }
  change (z ^ Z.of_nat 2) with (z * (z * 1)) in X. change (z ^ Z.of_nat 3) with (z * (z * (z * 1))) in X.
  assert (UP : forall n, ~ 2 ^ Z.of_nat n == 0).
  { assert (U2 : ~ 2 == 0) by (apply (range_not_0 G 2); lia).
    induction n0 as [|k IH]; [apply (range_not_0 G 1); lia|]. rewrite Nat2Z.inj_succ, Z.pow_succ_r by lia.
    intros E. apply IH. apply (cong_cancel G 2); [exact U2|]. rewrite Z.mul_0_r. exact E. }
  destruct (Z.lt_ge_cases m L) as [ML|ML].
  - rewrite (low_negative n (m - (L - 0))), (low_small n (m + (t - R))) in X by (unfold t in *; lia).
    apply (range_not_0 G (L - m)); [lia|]. apply ZC, ZC. destruct X as [u X]. exists (- u). lia.
  - assert (MR : R <= m) by lia.
    rewrite (low_small n (m - (L - 0))), (low_mod n (m + (t - R))) in X by (unfold t in *; lia). fold t in X.
    replace ((m + (t - R)) mod t) with (m - R) in X.
    + apply (UP n). apply ZC, ZC, ZC. fold t. destruct X as [u X]. exists u. lia.
    + symmetry. replace (m + (t - R)) with (m - R + 1 * t) by ring. rewrite Z.mod_add, Z.mod_small by lia. reflexivity.
Qed.

(** ** the holder of the randomness *)
Theorem C44_known_randomness_complete : forall (H : list N -> Z) pp pk L R m r tr a b rn,
  rp_wf pp rn -> range_ok pp L R -> L <= m < R ->
  let ct := T_Enc G (rp_enc G pp) pk m r in
  exists p tr', RP1_Prove G H pp pk ct L R r m tr a b rn = Some (p, tr') /\
    let tr1 := snd (PK_Verify G H (t_g G (rp_enc G pp)) (t_h G (rp_enc G pp)) pk ct tr (rp1_ptke G p)) in
    (good_challenges G H tr1 (rp1_bullet G p) -> forall c, RP1_Verify G H pp pk ct L R tr p c = Some (true, tr')).
Proof.
  intros H pp pk L R m r tr a b rn [EG [EH W]] RO M ct. pose proof RO as [[L0 LR] R2].
  unfold RP1_Prove. rewrite check_ok by exact RO.
  destruct (PK_Prove G H (t_g G (rp_enc G pp)) (t_h G (rp_enc G pp)) pk ct m r tr a b) as [kp ktr] eqn:EK. cbn [fst snd].
  pose proof (C33_complete G H (rp_enc G pp) pk m r tr a b kp ktr EK) as VK. fold ct in VK.
  destruct (bullet_in H (rp_bullet G pp) L R (tY G ct) r m ktr rn W L0 R2 M) as [p [tr' [EP VP]]].
  { unfold ct, T_Enc. cbn [tY]. rewrite msum2, EG, EH. reflexivity. }
  rewrite EP. cbn [obind fst snd]. eexists. exists tr'. split; [reflexivity|]. cbn [rp1_ptke rp1_bullet]. rewrite VK. cbn [snd].
  intros GC c. unfold RP1_Verify. cbn [rp1_ptke rp1_bullet]. rewrite VK. cbn [fst snd]. rewrite (VP GC c). reflexivity.
Qed.

Theorem C44_known_randomness_out_of_range : forall (H : list N -> Z) pp pk L R m r tr a b rn,
  rp_wf pp rn -> range_ok pp L R -> 2 ^ Z.of_nat (bp_range G (rp_bullet G pp)) < q -> 2 < q -> t_h G (rp_enc G pp) <> inf G ->
  0 <= m < 2 ^ Z.of_nat (bp_range G (rp_bullet G pp)) -> ~ L <= m < R ->
  let ct := T_Enc G (rp_enc G pp) pk m r in
  exists p tr', RP1_Prove G H pp pk ct L R r m tr a b rn = Some (p, tr') /\
    let tr1 := snd (PK_Verify G H (t_g G (rp_enc G pp)) (t_h G (rp_enc G pp)) pk ct tr (rp1_ptke G p)) in
    (good_challenges G H tr1 (rp1_bullet G p) -> unit_mod G (z_of G H tr1 (rp1_bullet G p)) ->
     forall c, unit_mod G c -> RP1_Verify G H pp pk ct L R tr p c = Some (false, tr')).
Proof.
  intros H pp pk L R m r tr a b rn [EG [EH W]] RO Qn Q2 HF M OUT ct. pose proof RO as [LR R2].
  unfold RP1_Prove. rewrite check_ok by exact RO.
  destruct (PK_Prove G H (t_g G (rp_enc G pp)) (t_h G (rp_enc G pp)) pk ct m r tr a b) as [kp ktr] eqn:EK. cbn [fst snd].
  pose proof (C33_complete G H (rp_enc G pp) pk m r tr a b kp ktr EK) as VK. fold ct in VK.
  rewrite EH in HF.
  destruct (bullet_out H (rp_bullet G pp) L R (tY G ct) r m ktr rn W LR R2 M OUT Q2 Qn HF) as [p [tr' [EP VP]]].
  { unfold ct, T_Enc. cbn [tY]. rewrite msum2, EG, EH. reflexivity. }
  rewrite EP. cbn [obind fst snd]. eexists. exists tr'. split; [reflexivity|]. cbn [rp1_ptke rp1_bullet]. rewrite VK. cbn [snd].
  intros GC UZ c UC. unfold RP1_Verify. cbn [rp1_ptke rp1_bullet]. rewrite VK. cbn [fst snd]. rewrite (VP GC UZ c UC). reflexivity.
Qed.

(** ** the holder of the secret key *)
(** any ciphertext that decrypts to h^m is decrypted to m by the search *)
Lemma Dec_of_point : forall hash L T pp st sk ct m sched,
  t_ready G key hash L T pp st -> T_DecECPoint G sk ct = t_h G pp *p m -> 0 <= m < covered L T ->
  keys_separate G key (t_h G pp) (t_h G pp *p m) L T ->
  finished G (run G key st (t_h G pp *p m) L T 0 sched) = true ->
  T_Dec G key pp st sk ct sched = Some m.
Proof.
  intros hash L T pp st sk ct m sched R E B SEP Fin.
  destruct (t_ready_loaded G key key64 _ _ _ _ _ R) as [C LD]. destruct R as [Epp [F [Cov _]]].
  unfold T_DecECPoint in E. unfold T_Dec. rewrite E.
  assert (EL : t_len G pp = L /\ t_trade G pp = T) by (rewrite Epp; split; reflexivity).
  destruct EL as [-> ->].
  rewrite (proj1 (loaded_search G key (t_h G pp) L T st m sched C F Cov LD SEP Fin) B). reflexivity.
Qed.

(** parts shared by the two theorems about the holder of the key *)
Lemma RP2_parts : forall (H : list N -> Z) pp pk ct sk m tr rstar w,
  invertible G sk -> T_KeyGen G (rp_enc G pp) sk = (pk, sk) ->
  T_DecECPoint G sk ct = t_h G (rp_enc G pp) *p m ->
  let ct' := T_ReEnc G (rp_enc G pp) pk sk ct rstar in
  ct' = T_Enc G (rp_enc G pp) pk m rstar /\
  let d := DLE_Prove G H (t_g G (rp_enc G pp)) pk (tY G ct' -p tY G ct) (tX G ct' -p tX G ct) sk tr w in
  DLE_Verify G H (t_g G (rp_enc G pp)) pk (tY G ct' -p tY G ct) (tX G ct' -p tX G ct) tr (fst d) = (true, snd d).
Proof.
  intros H pp pk ct sk m tr rstar w I K E ct'. unfold T_KeyGen in K. injection K as K.
  unfold T_DecECPoint in E. split.
  - unfold ct', T_ReEnc, T_Enc. rewrite E, msum2. reflexivity.
  - cbv zeta. destruct (DLE_Prove _ _ _ _ _ _ _ _ _) as [d dtr] eqn:ED. cbn [fst snd].
    apply (C32_complete G H _ _ _ _ sk tr w d dtr (eq_sym K)); [|exact ED].
    unfold ct', T_ReEnc. cbn [tX tY]. rewrite <- K. pose proof (inv_cong G sk I) as V.
    transitivity (((t_g G (rp_enc G pp) *p rstar) *p sk) -p tX G ct *p (sk * ModInverse sk q)).
    + rewrite (pmul_cong G _ _ _ V), pmul_1. generalize (t_g G (rp_enc G pp)) (tX G ct). clear. intros. logs G. gring.
    + generalize (ModInverse sk q) (t_g G (rp_enc G pp)) (tX G ct) (tY G ct). clear. intros. logs G. gring.
Qed.

Theorem C44_known_key_complete : forall (H : list N -> Z) hash LEN T pp st pk sk ct L R m tr sched rstar w a b rn,
  rp_wf pp rn -> range_ok pp L R -> L <= m < R ->
  t_ready G key hash LEN T (rp_enc G pp) st -> invertible G sk -> T_KeyGen G (rp_enc G pp) sk = (pk, sk) ->
  T_DecECPoint G sk ct = t_h G (rp_enc G pp) *p m -> m < covered LEN T ->
  keys_separate G key (t_h G (rp_enc G pp)) (t_h G (rp_enc G pp) *p m) LEN T ->
  finished G (run G key st (t_h G (rp_enc G pp) *p m) LEN T 0 sched) = true ->
  exists p tr', RP2_Prove G key H pp st pk ct L R sk tr sched rstar w a b rn = Some (p, tr') /\
    let ct' := rp2_ct G p in
    let tr1 := snd (DLE_Verify G H (t_g G (rp_enc G pp)) pk (tY G ct' -p tY G ct) (tX G ct' -p tX G ct) tr (rp2_dle G p)) in
    let tr2 := snd (PK_Verify G H (t_g G (rp_enc G pp)) (t_h G (rp_enc G pp)) pk ct' tr1 (rp2_ptke G p)) in
    (good_challenges G H tr2 (rp2_bullet G p) -> forall c, RP2_Verify G H pp pk ct L R tr p c = Some (true, tr')).
Proof.
  intros H hash LEN T pp st pk sk ct L R m tr sched rstar w a b rn [EG [EH W]] RO M RD I K DP CV SEP FIN. pose proof RO as [[L0 LR] R2].
  unfold RP2_Prove. rewrite check_ok by exact RO.
  rewrite (Dec_of_point hash LEN T (rp_enc G pp) st sk ct m sched RD DP) by (assumption || lia). cbn [obind].
  destruct (RP2_parts H pp pk ct sk m tr rstar w I K DP) as [EC VD]. cbv zeta in VD.
  set (ct' := T_ReEnc G (rp_enc G pp) pk sk ct rstar) in *. clearbody ct'.
  destruct (DLE_Prove _ _ _ _ _ _ _ _ _) as [d dtr] eqn:ED. cbn [fst snd] in VD |- *.
  destruct (PK_Prove G H (t_g G (rp_enc G pp)) (t_h G (rp_enc G pp)) pk ct' m rstar dtr a b) as [kp ktr] eqn:EK. cbn [fst snd].
  assert (VK : PK_Verify G H (t_g G (rp_enc G pp)) (t_h G (rp_enc G pp)) pk ct' dtr kp = (true, ktr)).
  { rewrite EC in EK |- *. exact (C33_complete G H (rp_enc G pp) pk m rstar dtr a b kp ktr EK). }
  destruct (bullet_in H (rp_bullet G pp) L R (tY G ct') rstar m ktr rn W L0 R2 M) as [p [tr' [EP VP]]].
  { rewrite EC. unfold T_Enc. cbn [tY]. rewrite msum2, EG, EH. reflexivity. }
  rewrite EP. cbn [obind fst snd]. eexists. exists tr'. split; [reflexivity|]. cbn [rp2_ct rp2_dle rp2_ptke rp2_bullet]. cbv zeta.
  rewrite VD. cbn [snd]. rewrite VK. cbn [snd]. intros GC c.
  unfold RP2_Verify. cbn [rp2_ct rp2_dle rp2_ptke rp2_bullet]. rewrite VD. cbn [fst snd]. rewrite VK. cbn [fst snd]. rewrite (VP GC c). reflexivity.
Qed.

Theorem C44_known_key_out_of_range : forall (H : list N -> Z) hash LEN T pp st pk sk ct L R m tr sched rstar w a b rn,
  rp_wf pp rn -> range_ok pp L R -> 2 ^ Z.of_nat (bp_range G (rp_bullet G pp)) < q -> 2 < q ->
  0 <= m < 2 ^ Z.of_nat (bp_range G (rp_bullet G pp)) -> ~ L <= m < R ->
  t_ready G key hash LEN T (rp_enc G pp) st -> invertible G sk -> T_KeyGen G (rp_enc G pp) sk = (pk, sk) ->
  T_DecECPoint G sk ct = t_h G (rp_enc G pp) *p m -> m < covered LEN T ->
  keys_separate G key (t_h G (rp_enc G pp)) (t_h G (rp_enc G pp) *p m) LEN T ->
  finished G (run G key st (t_h G (rp_enc G pp) *p m) LEN T 0 sched) = true ->
  exists p tr', RP2_Prove G key H pp st pk ct L R sk tr sched rstar w a b rn = Some (p, tr') /\
    let ct' := rp2_ct G p in
    let tr1 := snd (DLE_Verify G H (t_g G (rp_enc G pp)) pk (tY G ct' -p tY G ct) (tX G ct' -p tX G ct) tr (rp2_dle G p)) in
    let tr2 := snd (PK_Verify G H (t_g G (rp_enc G pp)) (t_h G (rp_enc G pp)) pk ct' tr1 (rp2_ptke G p)) in
    (good_challenges G H tr2 (rp2_bullet G p) -> unit_mod G (z_of G H tr2 (rp2_bullet G p)) ->
     forall c, unit_mod G c -> RP2_Verify G H pp pk ct L R tr p c = Some (false, tr')).
Proof.
  intros H hash LEN T pp st pk sk ct L R m tr sched rstar w a b rn [EG [EH W]] RO Qn Q2 M OUT RD I K DP CV SEP FIN. pose proof RO as [LR R2].
  pose proof RD as [_ [HF _]]. rewrite EH in HF.
  unfold RP2_Prove. rewrite check_ok by exact RO.
  rewrite (Dec_of_point hash LEN T (rp_enc G pp) st sk ct m sched RD DP) by (assumption || lia). cbn [obind].
  destruct (RP2_parts H pp pk ct sk m tr rstar w I K DP) as [EC VD]. cbv zeta in VD.
  set (ct' := T_ReEnc G (rp_enc G pp) pk sk ct rstar) in *. clearbody ct'.
  destruct (DLE_Prove _ _ _ _ _ _ _ _ _) as [d dtr] eqn:ED. cbn [fst snd] in VD |- *.
  destruct (PK_Prove G H (t_g G (rp_enc G pp)) (t_h G (rp_enc G pp)) pk ct' m rstar dtr a b) as [kp ktr] eqn:EK. cbn [fst snd].
  assert (VK : PK_Verify G H (t_g G (rp_enc G pp)) (t_h G (rp_enc G pp)) pk ct' dtr kp = (true, ktr)).
  { rewrite EC in EK |- *. exact (C33_complete G H (rp_enc G pp) pk m rstar dtr a b kp ktr EK). }
  destruct (bullet_out H (rp_bullet G pp) L R (tY G ct') rstar m ktr rn W LR R2 M OUT Q2 Qn HF) as [p [tr' [EP VP]]].
  { rewrite EC. unfold T_Enc. cbn [tY]. rewrite msum2, EG, EH. reflexivity. }
  rewrite EP. cbn [obind fst snd]. eexists. exists tr'. split; [reflexivity|]. cbn [rp2_ct rp2_dle rp2_ptke rp2_bullet]. cbv zeta.
  rewrite VD. cbn [snd]. rewrite VK. cbn [snd]. intros GC UZ c UC.
  unfold RP2_Verify. cbn [rp2_ct rp2_dle rp2_ptke rp2_bullet]. rewrite VD. cbn [fst snd]. rewrite VK. cbn [fst snd]. rewrite (VP GC UZ c UC). reflexivity.
Qed.

(** an illegal range terminates the prover *)
Theorem C44_illegal_range : forall (H : list N -> Z) pp st pk ct L R r m sk tr sched rstar w a b rn,
  R < L \/ 2 ^ Z.of_nat (bp_range G (rp_bullet G pp)) < R ->
  RP1_Prove G H pp pk ct L R r m tr a b rn = None /\ RP2_Prove G key H pp st pk ct L R sk tr sched rstar w a b rn = None.
Proof.
  intros H pp st pk ct L R r m sk tr sched rstar w a b rn I.
  assert (E : CheckRange L R (bp_range G (rp_bullet G pp)) = false) by (unfold CheckRange; apply negb_false_iff, orb_true_iff; lia).
  unfold RP1_Prove, RP2_Prove. rewrite E. split; reflexivity.
Qed.

(** A refreshed ciphertext for a different message makes the equality proof fail for all
    challenges but one: two accepted answers for the same first message give the secret
    key, and with it the refreshed ciphertext decrypts like the original one. *)
Theorem C44_refresh_bound : forall (H H' : list N -> Z) pp pk sk ct ct' tr tr' A1 A2 z z',
  t_g G (rp_enc G pp) <> inf G -> invertible G sk -> T_KeyGen G (rp_enc G pp) sk = (pk, sk) ->
  let verify h t s := DLE_Verify G h (t_g G (rp_enc G pp)) pk (tY G ct' -p tY G ct) (tX G ct' -p tX G ct) t
                        {| dleA1 := A1; dleA2 := A2; dlez := s |} in
  fst (verify H tr z) = true -> fst (verify H' tr' z') = true ->
  ~ H (snd (verify H tr z)) == H' (snd (verify H' tr' z')) ->
  T_DecECPoint G sk ct' = T_DecECPoint G sk ct.
Proof.
  intros H H' pp pk sk ct ct' tr tr' A1 A2 z z' GF I K verify V V' D. unfold T_KeyGen in K. injection K as K.
  destruct (C32_special_soundness G H H' _ _ _ _ tr tr' A1 A2 z z' V V' D) as [S1 S2]. cbv zeta in S1, S2.
  match type of S1 with _ *p ?e = _ => set (s := e) in * end. clearbody s.
  rewrite <- K in S1. apply (pmul_inj G _ _ _ GF) in S1. rewrite (pmul_cong G _ _ _ S1) in S2.
  pose proof (inv_cong G sk I) as IV. unfold T_DecECPoint. clear - S2 IV.
  set (i := ModInverse sk q) in *. clearbody i. revert S2. generalize (tX G ct) (tX G ct') (tY G ct) (tY G ct'). intros X X' Y Y' S2.
  assert (E : (X' -p X) *p i = Y' -p Y).
  { rewrite <- S2, pmul_mul, (pmul_cong G _ _ _ IV). apply pmul_1. }
  transitivity (Y +p (Y' -p Y) -p X *p i -p (X' -p X) *p i); [clear; logs G; gring|]. rewrite E. clear. logs G. gring.
Qed.
End Props.


(** ** the hypotheses are met by concrete, non-trivial data *)
Definition rp101 : RPP G101 := {| rp_enc := tpp101; rp_bullet :=
  {| bp_range := 4; bp_g := t_g G101 tpp101; bp_h := t_h G101 tpp101; bp_u := p101 31;
     bp_vg := map p101 [3; 14; 15; 92; 65; 35; 89; 79]; bp_vh := map p101 [27; 18; 28; 18; 20; 45; 90; 45] |} |}.
Definition rn8 : BPRand :=
  {| rd_alpha := 33; rd_sL := [5; 6; 7; 8; 1; 2; 3; 4]; rd_sR := [90; 91; 92; 93; 94; 95; 96; 97]; rd_rho := 12; rd_tau1 := 44; rd_tau2 := 55 |}.

Example C44_hypotheses : rp_wf G101 rp101 rn8 /\ range_ok G101 rp101 3 9 /\ 2 ^ 4 < order G101 /\ t_h G101 (rp_enc G101 rp101) <> inf G101.
Proof.
  split; [|split; [|split]].
  - split; [reflexivity|]. split; [reflexivity|]. exists 3%nat. repeat split; cbn; lia.
  - split; cbn; lia.
  - cbn. lia.
  - intros E. apply (f_equal (@proj1_sig _ _)) in E. vm_compute in E. discriminate.
Qed.

(** an in-range value is proved and accepted, with challenges met by a concrete hash *)
Example C44_run : match RP1_Prove G101 toyH rp101 (p101 40) (T_Enc G101 tpp101 (p101 40) 8 21) 3 9 21 8 [7%N] 5 6 rn8 with
  | Some (p, tr') => RP1_Verify G101 toyH rp101 (p101 40) (T_Enc G101 tpp101 (p101 40) 8 21) 3 9 [7%N] p 77 = Some (true, tr')
  | None => False end.
Proof. vm_compute. reflexivity. Qed.
Example C44_run_out : match RP1_Prove G101 toyH rp101 (p101 40) (T_Enc G101 tpp101 (p101 40) 9 21) 3 9 21 9 [7%N] 5 6 rn8 with
  | Some (p, tr') => RP1_Verify G101 toyH rp101 (p101 40) (T_Enc G101 tpp101 (p101 40) 9 21) 3 9 [7%N] p 77 = Some (false, tr')
  | None => False end.
Proof. vm_compute. reflexivity. Qed.

Definition rp4099 (e : TPP G4099) : RPP G4099 := {| rp_enc := e; rp_bullet :=
  {| bp_range := 4; bp_g := t_g G4099 e; bp_h := t_h G4099 e; bp_u := pgen G4099;
     bp_vg := map (pmul G4099 (pgen G4099)) [3; 14; 15; 92; 65; 35; 89; 79];
     bp_vh := map (pmul G4099 (pgen G4099)) [27; 18; 28; 18; 20; 45; 90; 45] |} |}.

Example C44_known_key_hypotheses : exists pp st, let rp := rp4099 pp in
  let pk := fst (T_KeyGen G4099 pp 1234) in let ct := T_Enc G4099 pp pk 8 55 in
  rp_wf G4099 rp rn8 /\ range_ok G4099 rp 3 9 /\ t_ready G4099 key4099 (fun _ => pmul G4099 (pgen G4099) 7) 12 0 (rp_enc G4099 rp) st /\
  invertible G4099 1234 /\ T_KeyGen G4099 (rp_enc G4099 rp) 1234 = (pk, 1234) /\
  T_DecECPoint G4099 1234 ct = pmul G4099 (t_h G4099 (rp_enc G4099 rp)) 8 /\ 8 < covered 12 0 /\
  keys_separate G4099 key4099 (t_h G4099 (rp_enc G4099 rp)) (pmul G4099 (t_h G4099 (rp_enc G4099 rp)) 8) 12 0 /\
  finished G4099 (run G4099 key4099 st (pmul G4099 (t_h G4099 (rp_enc G4099 rp)) 8) 12 0 0 round_robin) = true.
Proof.
  destruct t_ready_4099 as [pp [st R]]. exists pp, st. cbn [rp_enc rp4099]. cbv zeta.
  assert (I : invertible G4099 1234) by (apply range_not_0; cbn; lia).
  split; [split; [reflexivity|]; split; [reflexivity|]; exists 3%nat; repeat split; cbn; lia|].
  split; [split; cbn; lia|]. split; [exact R|]. split; [exact I|]. split; [reflexivity|].
  split; [|split; [reflexivity|]; split; [apply sep_4099|apply C27_search_terminates; apply round_robin_long]].
  pose proof R as [E _]. rewrite E. apply Zq_ext. vm_compute. reflexivity.
Qed.

Print Assumptions C44_known_randomness_complete.
Print Assumptions C44_known_randomness_out_of_range.
Print Assumptions C44_known_key_complete.
Print Assumptions C44_known_key_out_of_range.
Print Assumptions C44_illegal_range.
Print Assumptions C44_refresh_bound.

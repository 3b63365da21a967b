(** Property C96: whoever gets a range proof about an encrypted value accepted has encrypted
    a value in the range. *)
From Coq Require Import NArith ZArith List Lia Bool Arith Setoid Znumtheory.
From Coq Require Import ZifyBool ZifyNat ZifyN.
From Verif.Base Require Import Words ListX.
From Verif.Crypto Require Import BigIntModel BigIntSpec BigIntProofs.
From Verif.Group Require Import ECModel ECProofs ZqGroup.
From Verif.PKE Require Import DlogModel DlogProps ElGamalModel ElGamalProofs ElGamalProps.
From Verif.Sigma Require Import SigmaModel SigmaSpec SigmaProofs SigmaProps.
From Verif.Bullet Require Import IPModel BPModel BPSpec LagSpec IPProofs BPProofs BPProps GadgetModel GadgetProps LagProofs.
From Verif.Bullet Require Import ExtractSpec BPExtractSpec BPExtractProofs ExtractProps GadgetSoundSpec.
Import ListNotations.
Local Open Scope Z_scope.

Section Props.
Variable G : ECGroup.
Local Notation q := (order G).
Local Infix "==" := (cong q) (at level 70).
Local Infix "+p" := (padd G) (at level 50, left associativity).
Local Infix "-p" := (psub G) (at level 50, left associativity).
Local Notation "P *p k" := (pmul G P k%Z) (at level 40, left associativity).

Lemma open_twice : forall g h Y r m r' m', Y = g *p r +p h *p m -> Y = g *p r' +p h *p m' -> two_openings G g h r m r' m'.
Proof.
  intros g h Y r v r' v' E E'. unfold two_openings. destruct (Z.eqb_spec ((v - v') mod q) 0) as [Z0|Z0].
  - left. apply (sub_cong0 q). apply (cong0_mod q (order_prime G)). exact Z0.
  - right. split; [reflexivity|]. split.
    + cbn [msum]. rewrite padd_inf. rewrite E in E'.
      match type of E' with ?a = ?b => transitivity (a -p b) end; [|rewrite E'; apply padd_neg]. clear. logs G. gring.
    + cbn [zeros forallb]. rewrite andb_true_r. apply andb_false_iff. right. apply Z.eqb_neq. exact Z0.
Qed.

Lemma bound2 : forall R d, (R * 2 = 2 ^ d)%nat -> (d < 64)%nat -> (N.of_nat (R * 2) < 2 ^ 64)%N.
Proof. intros R d E Hd. rewrite E, of_nat_pow2. apply N.pow_lt_mono_r; lia. Qed.

(** the range part *)
Lemma range_part : forall pp L R r m rs vs Y,
  t_g G (rp_enc G pp) = bp_g G (rp_bullet G pp) -> t_h G (rp_enc G pp) = bp_h G (rp_bullet G pp) ->
  range_ok G pp L R -> 2 * 2 ^ Z.of_nat (bp_range G (rp_bullet G pp)) <= q ->
  Y = t_g G (rp_enc G pp) *p r +p t_h G (rp_enc G pp) *p m ->
  bp_found_ok G (rp_bullet G pp) (AdjustBulletInstance G (rp_bullet G pp) L R Y) (BpWitness rs vs) ->
  inside G pp L R r m rs vs.
Proof.
  intros pp L R r m rs vs Y EG EH [RL RR] BQ EY [[Lr [Lv CM]] RG]. cbn [AdjustBulletInstance length] in *. unfold inside. cbv zeta.
  rewrite EG, EH in *. set (g := bp_g G (rp_bullet G pp)) in *. set (h := bp_h G (rp_bullet G pp)) in *.
  set (n := 2 ^ Z.of_nat (bp_range G (rp_bullet G pp))) in *.
  pose proof (CM 0%nat ltac:(lia)) as C0. pose proof (CM 1%nat ltac:(lia)) as C1. unfold AdjustBulletInstance in C0, C1. cbn [nth] in C0, C1. fold n h in C0, C1.
  rewrite Forall_forall in RG. pose proof (RG (nth 0 vs 0) ltac:(apply nth_In; lia)) as R0. pose proof (RG (nth 1 vs 0) ltac:(apply nth_In; lia)) as R1.
  unfold in_range in R0, R1. fold n in R0, R1. clear CM RG. clearbody g h n.
  assert (E0 : Y = g *p nth 0 rs 0 +p h *p (nth 0 vs 0 + L)).
  { transitivity (Y -p h *p (L - 0) +p h *p L); [clear; logs G; gring|]. rewrite C0. clear. logs G. gring. }
  assert (E1 : Y = g *p nth 1 rs 0 +p h *p (nth 1 vs 0 - (n - R))).
  { transitivity (Y +p h *p (n - R) -p h *p (n - R)); [clear; logs G; gring|]. rewrite C1. clear. logs G. gring. }
  destruct (open_twice g h Y _ _ _ _ EY E0) as [S0|S0]; [|right; left; exact S0].
  destruct (open_twice g h Y _ _ _ _ EY E1) as [S1|S1]; [|right; right; exact S1].
  left. split; [exact S0|]. assert (S : nth 0 vs 0 + L == nth 1 vs 0 - (n - R)) by (rewrite <- S0; exact S1).
  destruct S as [k K]. assert (k = 0) by nia. subst k. lia.
Qed.

(** two values of the combiner *)
Lemma combine_ok : forall H bpp Y L R tr p c c' o o', (N.of_nat (bp_range G bpp * 2) < 2 ^ 64)%N -> ~ c == c' ->
  BP_FastVerify G H bpp (AdjustBulletInstance G bpp L R Y) tr p c = Some (true, o) ->
  BP_FastVerify G H bpp (AdjustBulletInstance G bpp L R Y) tr p c' = Some (true, o') ->
  BP_Verify G H bpp (AdjustBulletInstance G bpp L R Y) tr p = Some (true, o).
Proof.
  intros H bpp Y L R tr p c c' o o' B NC V V'.
  apply (C42_two_combiners_imply_verify G H _ (AdjustBulletInstance G bpp L R Y) _ _ _ c c' B NC V).
  pose proof (fast_dims G H _ (AdjustBulletInstance G bpp L R Y) _ _ _ _ B V) as D. rewrite BP_FastVerify_spec in V by exact D. injection V as _ <-.
  pose proof V' as V2. rewrite BP_FastVerify_spec in V2 by exact D. injection V2 as _ ET. rewrite ET. exact V'.
Qed.

(** ** C96 *)
Theorem C96_known_randomness_sound : forall pp pk ct L R d (T : bp_tree G d) x x',
  t_g G (rp_enc G pp) = bp_g G (rp_bullet G pp) -> t_h G (rp_enc G pp) = bp_h G (rp_bullet G pp) ->
  range_ok G pp L R -> 2 * 2 ^ Z.of_nat (bp_range G (rp_bullet G pp)) <= q ->
  (bp_range G (rp_bullet G pp) * 2 = 2 ^ d)%nat -> (d < 64)%nat ->
  gaccepts1 G pp pk ct L R x -> gaccepts1 G pp pk ct L R x' -> gfork1 G pp pk ct x x' ->
  let C := AdjustBulletInstance G (rp_bullet G pp) L R (tY G ct) in
  bp_good G (rp_bullet G pp) C T -> gruns1 G pp pk ct L R T ->
  let m := got_value1 G pp pk ct x x' in let r := got_random1 G pp pk ct x x' in
  ct = T_Enc G (rp_enc G pp) pk m r /\
  match bp_extract G (bp_range G (rp_bullet G pp)) 2 d T with
  | BpRelation e => bp_found_ok G (rp_bullet G pp) C (BpRelation e)
  | BpWitness rs vs => inside G pp L R r m rs vs
  end.
Proof.
  intros pp pk ct L R d T [[H tr] p] [[H' tr'] p'] EG EH RO BQ ER Hd A A' F C Good RR m r.
  pose proof (bound2 _ _ ER Hd) as B.
  assert (E : ct = T_Enc G (rp_enc G pp) pk m r).
  { destruct A as [c [o A]]. destruct A' as [c' [o' A']]. unfold RP1_Verify in A, A'.
    destruct (BP_FastVerify G H _ _ _ _ _) as [[b2 o2]|]; cbn [obind fst snd] in A; [|discriminate].
    destruct (BP_FastVerify G H' _ _ _ _ _) as [[b2' o2']|]; cbn [obind fst snd] in A'; [|discriminate].
    injection A as A _. injection A' as A' _. apply andb_prop in A, A'. destruct A as [A _], A' as [A' _].
    destruct F as [FA [FB FD]]. unfold m, r, got_value1, got_random1. unfold gch1, know1 in *. cbn [gpk1] in *.
    destruct (rp1_ptke G p) as [PA PB z1 z2], (rp1_ptke G p') as [PA' PB' z1' z2']. cbn [pkA pkB pkz1 pkz2] in *. subst PA' PB'.
    exact (C33_special_soundness G H H' (rp_enc G pp) pk ct tr tr' PA PB z1 z2 z1' z2' A A' FD). }
  split; [exact E|].
  assert (AC : bp_accepted G (rp_bullet G pp) C T).
  { intros i j k l w Hi Hj Hk Hl Hw. cbn [C AdjustBulletInstance length] in Hi, Hj. destruct (RR i j k l w Hi Hj Hk Hl Hw) as [Hh [t [pr [c [c' [o [o' [[EP [Y [Z [X [Ee IPc]]]]] [NC [V V']]]]]]]]]].
    unfold RP1_Verify in V, V'. cbn [know1] in *.
    destruct (BP_FastVerify G Hh _ _ _ _ c) as [[b2 o2]|] eqn:EB; cbn [obind fst snd] in V; [|discriminate].
    destruct (BP_FastVerify G Hh _ _ _ _ c') as [[b2' o2']|] eqn:EB'; cbn [obind fst snd] in V'; [|discriminate].
    injection V as V _. injection V' as V' _. apply andb_prop in V, V'. destruct V as [_ V], V' as [_ V']. subst b2 b2'.
    exists Hh, (snd (PK_Verify G Hh (t_g G (rp_enc G pp)) (t_h G (rp_enc G pp)) pk ct t (rp1_ptke G pr))), o2. cbv zeta. rewrite <- EP. do 5 (split; [assumption|]).
    exact (combine_ok _ _ _ _ _ _ _ _ _ _ _ B NC EB EB'). }
  pose proof (C91_range_proof_special_soundness G (rp_bullet G pp) C d T ER Hd Good AC) as OK. cbn [C AdjustBulletInstance length] in OK.
  destruct (bp_extract G (bp_range G (rp_bullet G pp)) 2 d T) as [rs vs|e]; [|exact OK].
  apply (range_part pp L R r m rs vs (tY G ct) EG EH RO BQ); [|exact OK]. rewrite E. unfold T_Enc. cbn [tY]. rewrite ?msum2. reflexivity.
Qed.

Theorem C96_known_key_sound : forall pp pk ct ct' L R d (T : bp_tree G d) x x' y y',
  t_g G (rp_enc G pp) = bp_g G (rp_bullet G pp) -> t_h G (rp_enc G pp) = bp_h G (rp_bullet G pp) ->
  range_ok G pp L R -> 2 * 2 ^ Z.of_nat (bp_range G (rp_bullet G pp)) <= q ->
  (bp_range G (rp_bullet G pp) * 2 = 2 ^ d)%nat -> (d < 64)%nat ->
  Forall (gaccepts2 G pp pk ct ct' L R) [x; x'; y; y'] -> gfork_owner2 G pp pk ct ct' x x' -> gfork_know2 G pp pk ct ct' y y' ->
  let C := AdjustBulletInstance G (rp_bullet G pp) L R (tY G ct') in
  bp_good G (rp_bullet G pp) C T -> gruns2 G pp pk ct ct' L R T ->
  let sk := got_key2 G pp pk ct ct' x x' in let m := got_value2 G pp pk ct ct' y y' in let r := got_random2 G pp pk ct ct' y y' in
  pk = t_g G (rp_enc G pp) *p sk /\ (invertible G sk -> T_DecECPoint G sk ct = t_h G (rp_enc G pp) *p m) /\
  match bp_extract G (bp_range G (rp_bullet G pp)) 2 d T with
  | BpRelation e => bp_found_ok G (rp_bullet G pp) C (BpRelation e)
  | BpWitness rs vs => inside G pp L R r m rs vs
  end.
Proof.
  intros pp pk ct ct' L R d T x x' y y' EG EH RO BQ ER Hd FA F1 F2 C Good RR sk m r.
  pose proof (bound2 _ _ ER Hd) as B.
  inversion_clear FA as [|? ? A1 FB]. inversion_clear FB as [|? ? A1' FC]. inversion_clear FC as [|? ? A2 FD]. inversion_clear FD as [|? ? A2' _].
  assert (PART : forall Hh t pr, gaccepts2 G pp pk ct ct' L R (Hh, t, pr) -> fst (owner2 G pp pk ct ct' (Hh, t, pr)) = true /\ fst (know2 G pp pk ct ct' (Hh, t, pr)) = true).
  { intros Hh t pr [EC [c [o A]]]. unfold RP2_Verify in A. cbv zeta in A. rewrite EC in A. cbn [know2 owner2].
    destruct (BP_FastVerify G Hh _ _ _ _ _) as [[b2 o2]|]; cbn [obind fst snd] in A; [|discriminate]. injection A as A _.
    apply andb_prop in A. destruct A as [A _]. apply andb_prop in A. exact A. }
  assert (ESK : pk = t_g G (rp_enc G pp) *p sk /\ (tY G ct' -p tY G ct) *p sk = tX G ct' -p tX G ct).
  { destruct x as [[H tr] p], x' as [[H' tr'] p']. apply PART in A1, A1'. destruct A1 as [V _], A1' as [V' _]. destruct F1 as [FA [FB FD]].
    unfold sk, got_key2. unfold gch_owner2, owner2, hash2 in *. cbn [proof2] in *.
    destruct (rp2_dle G p) as [PA PB z], (rp2_dle G p') as [PA' PB' z']. cbn [dleA1 dleA2 dlez] in *. subst PA' PB'.
    destruct (C32_special_soundness G H H' _ _ _ _ tr tr' PA PB z z' V V' FD) as [S1 S2]. split; [symmetry; exact S1|exact S2]. }
  assert (E : ct' = T_Enc G (rp_enc G pp) pk m r).
  { destruct y as [[H tr] p], y' as [[H' tr'] p']. apply PART in A2, A2'. destruct A2 as [_ V], A2' as [_ V']. destruct F2 as [FA [FB FD]].
    unfold m, r, got_value2, got_random2. unfold gch_know2, hash2 in *. unfold know2 in *. cbn [proof2] in *.
    revert V V' FD. generalize (snd (owner2 G pp pk ct ct' (H, tr, p))) (snd (owner2 G pp pk ct ct' (H', tr', p'))). intros u u' V V' FD.
    destruct (rp2_ptke G p) as [PA PB z1 z2], (rp2_ptke G p') as [PA' PB' z1' z2']. cbn [pkA pkB pkz1 pkz2] in *. subst PA' PB'.
    exact (C33_special_soundness G H H' (rp_enc G pp) pk ct' u u' PA PB z1 z2 z1' z2' V V' FD). }
  destruct ESK as [ESK EOP]. split; [exact ESK|]. split.
  - intros I. pose proof (inv_cong G sk I) as IV. rewrite E, ESK in EOP. unfold T_Enc in EOP. cbn [tX tY] in EOP. rewrite ?msum2 in EOP.
    unfold T_DecECPoint. revert EOP IV. generalize (t_g G (rp_enc G pp)) (t_h G (rp_enc G pp)) (tX G ct) (tY G ct) (ModInverse sk q). clearbody sk m r. clear. intros g h X Y i EOP IV.
    assert (EX : X = (Y -p h *p m) *p sk).
    { match type of EOP with ?a = ?b => transitivity ((Y -p h *p m) *p sk +p (a -p b)) end; [clear; logs G; gring|].
      rewrite EOP. unfold psub at 2. rewrite padd_neg, padd_inf. reflexivity. }
    rewrite EX, pmul_mul, (pmul_cong G _ _ _ IV), pmul_1. clear. logs G. gring.
  - assert (AC : bp_accepted G (rp_bullet G pp) C T).
    { intros i j k l w Hi Hj Hk Hl Hw. cbn [C AdjustBulletInstance length] in Hi, Hj. destruct (RR i j k l w Hi Hj Hk Hl Hw) as [Hh [t [pr [c [c' [o [o' [[EP [Y [Z [X [Ee IPc]]]]] [EC [NC [V V']]]]]]]]]]].
      unfold RP2_Verify in V, V'. cbv zeta in V, V'. rewrite EC in V, V'. cbn [know2 owner2] in *.
      destruct (BP_FastVerify G Hh _ _ _ _ c) as [[b2 o2]|] eqn:EB; cbn [obind fst snd] in V; [|discriminate].
      destruct (BP_FastVerify G Hh _ _ _ _ c') as [[b2' o2']|] eqn:EB'; cbn [obind fst snd] in V'; [|discriminate].
      injection V as V _. injection V' as V' _. apply andb_prop in V, V'. destruct V as [_ V], V' as [_ V']. subst b2 b2'.
      exists Hh. eexists. exists o2. cbv zeta. rewrite <- EP. split; [exact Y|]. do 4 (split; [assumption|]).
      exact (combine_ok _ _ _ _ _ _ _ _ _ _ _ B NC EB EB'). }
    pose proof (C91_range_proof_special_soundness G (rp_bullet G pp) C d T ER Hd Good AC) as OK. cbn [C AdjustBulletInstance length] in OK.
    destruct (bp_extract G (bp_range G (rp_bullet G pp)) 2 d T) as [rs vs|e]; [|exact OK].
    apply (range_part pp L R r m rs vs (tY G ct') EG EH RO BQ); [|exact OK]. rewrite E. unfold T_Enc. cbn [tY]. rewrite ?msum2. reflexivity.
Qed.
End Props.
Print Assumptions C96_known_randomness_sound.
Print Assumptions C96_known_key_sound.

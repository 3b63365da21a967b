(** Properties C92, C93: whoever gets a confidential transaction accepted knows what it
    moves. *)
From Coq Require Import NArith ZArith List Lia Bool Arith Setoid.
From Coq Require Import ZifyBool ZifyNat ZifyN.
From Verif.Base Require Import Words ListX.
From Verif.Crypto Require Import BigIntModel BigIntSpec BigIntProofs.
From Verif.Group Require Import ECModel ECProofs ZqGroup.
From Verif.PKE Require Import DlogModel DlogProps ElGamalModel ElGamalProofs ElGamalProps.
From Verif.Sigma Require Import SigmaModel SigmaSpec SigmaProofs SigmaProps.
From Verif.Bullet Require Import IPModel BPModel BPSpec LagSpec IPProofs BPProofs BPProps GadgetModel GadgetProps LagProofs.
From Verif.Bullet Require Import ExtractSpec BPExtractSpec BPExtractProofs ExtractProps.
From Verif.ADCP Require Import ADCPModel ADCPSpec ADCPProofs ADCPProps ADCPManyProps ADCPGateSpec ADCPSoundSpec.
Import ListNotations.
Local Open Scope Z_scope.

Section Props.
Variable G : ECGroup.
Local Notation q := (order G).
Local Infix "==" := (cong q) (at level 70).
Local Infix "+p" := (padd G) (at level 50, left associativity).
Local Infix "-p" := (psub G) (at level 50, left associativity).
Local Notation "P *p k" := (pmul G P k%Z) (at level 40, left associativity).

(** ** openings *)
Lemma opening_agrees : forall pp Y r v r' v', Y = t_g G (a_enc G pp) *p r +p t_h G (a_enc G pp) *p v ->
  Y = t_g G (a_enc G pp) *p r' +p t_h G (a_enc G pp) *p v' -> same_opening G pp r v r' v'.
Proof.
  intros pp Y r v r' v' E E'. unfold same_opening. destruct (Z.eqb_spec ((v - v') mod q) 0) as [Z0|Z0].
  - left. apply (sub_cong0 q). apply (cong0_mod q (order_prime G)). exact Z0.
  - right. split; [reflexivity|]. split.
    + cbn [msum]. rewrite padd_inf. rewrite E in E'. revert E'. generalize (t_g G (a_enc G pp)) (t_h G (a_enc G pp)). intros g h E'.
      match type of E' with ?a = ?b => transitivity (a -p b) end; [|rewrite E'; apply padd_neg]. clear. logs G. gring.
    + cbn [zeros forallb]. rewrite andb_true_r. apply andb_false_iff. right. apply Z.eqb_neq. exact Z0.
Qed.

(** what was refreshed with the key is what was encrypted *)
Lemma refreshed : forall pp sk bal X Y r v m rs, invertible G sk ->
  X = (t_g G pp *p sk) *p r -> Y = t_g G pp *p r +p t_h G pp *p v ->
  (tY G bal -p Y -p (t_g G pp *p rs +p t_h G pp *p m)) *p sk = tX G bal -p X -p (t_g G pp *p sk) *p rs ->
  T_DecECPoint G sk bal = t_h G pp *p (v + m).
Proof.
  intros pp sk bal X Y r v m rs I -> -> E. unfold T_DecECPoint. generalize dependent (t_g G pp). generalize (t_h G pp) (tX G bal) (tY G bal). intros h BX BY g E.
  assert (EX : BX = (BY -p h *p (v + m)) *p sk).
  { match type of E with ?a = ?b => transitivity ((BY -p h *p (v + m)) *p sk +p (b -p a)) end.
    - clear. logs G. gring.
    - rewrite E. unfold psub at 2. rewrite padd_neg, padd_inf. reflexivity. }
  rewrite EX. pose proof (inv_cong G sk I) as V.
  transitivity (BY -p (BY -p h *p (v + m)) *p (sk * ModInverse sk q)).
  - generalize (ModInverse sk q). clear. intros. logs G. gring.
  - rewrite (pmul_cong G _ _ _ V), pmul_1. clear. logs G. gring.
Qed.

Section One.
Variable hex : Z -> list N.

Lemma accepted_parts1 : forall H pp t c, VerifyCTx1 G H hex pp t c = Some true ->
  let g := t_g G (a_enc G pp) in let h := t_h G (a_enc G pp) in
  exists tr, PTE_Verify G H g h [c_pks G t; c_pkr G t; a_pka G pp] (c_tr G t) [] (c_pte G t) = Some (true, tr) /\
    PK_Verify G H g h (c_pks G t) (c_ref G t) tr (c_pk G t) = (true, range_transcript1 G H pp t) /\
    exists tr', BP_FastVerify G H (a_bullet G pp) [tmY G (c_tr G t); tY G (c_ref G t)] (range_transcript1 G H pp t) (c_bp G t) c = Some (true, tr') /\
      fst (DLE_Verify G H (tY G (c_bal G t) -p tmY G (c_tr G t) -p tY G (c_ref G t))
             (tX G (c_bal G t) -p nth 0 (tvX G (c_tr G t)) (inf G) -p tX G (c_ref G t)) g (c_pks G t) (tr' ++ ToSign1 G hex t) (c_dle G t)) = true.
Proof.
  intros H pp t c V. cbv zeta. unfold VerifyCTx1 in V. cbv zeta in V. unfold range_transcript1.
  destruct (PTE_Verify G H _ _ _ _ _ _) as [[b1 tr]|] eqn:E1; cbn [obind fst snd] in V; [|discriminate].
  destruct (PK_Verify G H _ _ _ _ tr _) as [b2 tr2] eqn:E2. cbn [fst snd] in V |- *.
  destruct (BP_FastVerify G H _ _ tr2 _ c) as [[b3 tr3]|] eqn:E3; cbn [obind fst snd] in V; [|discriminate].
  injection V as V. apply andb_prop in V. destruct V as [V V4]. apply andb_prop in V. destruct V as [V V3]. apply andb_prop in V. destruct V as [V1 V2]. subst b1 b2 b3.
  exists tr. split; [reflexivity|]. rewrite E2. split; [reflexivity|]. exists tr3. split; [reflexivity|exact V4].
Qed.
Lemma dims_bound : forall R n d, (R * n = 2 ^ d)%nat -> (d < 64)%nat -> (N.of_nat (R * n) < 2 ^ 64)%N.
Proof. intros R n d E Hd. rewrite E, of_nat_pow2. apply N.pow_lt_mono_r; lia. Qed.

(** the sender's proof, with the challenge named in the specification *)
Lemma accepted_owner1 : forall H pp t c, (N.of_nat (bp_range G (a_bullet G pp) * 2) < 2 ^ 64)%N -> VerifyCTx1 G H hex pp t c = Some true ->
  exists tr, let D := DLE_Verify G H (tY G (c_bal G t) -p tmY G (c_tr G t) -p tY G (c_ref G t))
    (tX G (c_bal G t) -p nth 0 (tvX G (c_tr G t)) (inf G) -p tX G (c_ref G t)) (t_g G (a_enc G pp)) (c_pks G t) tr (c_dle G t) in
    fst D = true /\ ch_owner1 G hex pp (H, t) = H (snd D).
Proof.
  intros H pp t c B V. destruct (accepted_parts1 _ _ _ _ V) as [tr [_ [_ [tr' [EB ED]]]]]. exists (tr' ++ ToSign1 G hex t). cbv zeta. split; [exact ED|].
  pose proof (fast_dims G H _ [tmY G (c_tr G t); tY G (c_ref G t)] _ _ _ _ B EB) as D. rewrite BP_FastVerify_spec in EB by exact D. injection EB as _ ET.
  unfold ch_owner1, owner_input1. cbn [fst snd]. rewrite (BP_FastVerify_spec G H _ [tmY G (c_tr G t); tY G (c_ref G t)] _ _ _ D), ET. reflexivity.
Qed.

(** ** C92 *)
Theorem C92_one_to_one_sound : forall pp pks pkr ct bal ref d (T : bp_tree G d) x1 x1' x2 x2' x3 x3',
  t_g G (a_enc G pp) = bp_g G (a_bullet G pp) -> t_h G (a_enc G pp) = bp_h G (a_bullet G pp) ->
  (bp_range G (a_bullet G pp) * 2 = 2 ^ d)%nat -> (d < 64)%nat -> length (tvX G ct) = 3%nat ->
  Forall (fun x => content1 G (snd x) = (pks, pkr, ct, bal, ref) /\ accepts1 G hex pp x) [x1; x1'; x2; x2'; x3; x3'] ->
  fork_equal1 G pp x1 x1' -> fork_know1 G pp x2 x2' -> fork_owner1 G hex pp x3 x3' ->
  bp_good G (a_bullet G pp) [tmY G ct; tY G ref] T -> range_runs1 G hex pp (pks, pkr, ct, bal, ref) T ->
  let v := got_amount1 G pp x1 x1' in let r := got_coin1 G pp x1 x1' in
  let m := got_left1 G pp x2 x2' in let r' := got_fresh1 G pp x2 x2' in
  let sk := got_key1 G hex pp x3 x3' in
  ct = T_MREnc G (a_enc G pp) [pks; pkr; a_pka G pp] v r /\
  ref = T_Enc G (a_enc G pp) pks m r' /\
  pks = t_g G (a_enc G pp) *p sk /\ (invertible G sk -> T_DecECPoint G sk bal = t_h G (a_enc G pp) *p (v + m)) /\
  match bp_extract G (bp_range G (a_bullet G pp)) 2 d T with
  | BpRelation e => bp_found_ok G (a_bullet G pp) [tmY G ct; tY G ref] (BpRelation e)
  | BpWitness rs vs =>
      amount G pp (nth 0 vs 0) /\ amount G pp (nth 1 vs 0) /\
      same_opening G pp r v (nth 0 rs 0) (nth 0 vs 0) /\ same_opening G pp r' m (nth 1 rs 0) (nth 1 vs 0)
  end.
Proof.
  intros pp pks pkr ct bal ref d T x1 x1' x2 x2' x3 x3' EG EH ER Hd LX FA F1 F2 F3 Good RR v r m r' sk.
  pose proof (dims_bound _ _ _ ER Hd) as B.
  inversion_clear FA as [|? ? [C1 [c1 A1]] FB]. inversion_clear FB as [|? ? [C1' [c1' A1']] FC]. inversion_clear FC as [|? ? [C2 [c2 A2]] FD].
  inversion_clear FD as [|? ? [C2' [c2' A2']] FE]. inversion_clear FE as [|? ? [C3 [c3 A3]] FF]. inversion_clear FF as [|? ? [C3' [c3' A3']] _].
  assert (Ect : ct = T_MREnc G (a_enc G pp) [pks; pkr; a_pka G pp] v r).
  { destruct (accepted_parts1 _ _ _ _ A1) as [tr [V _]]. destruct (accepted_parts1 _ _ _ _ A1') as [tr' [V' _]].
    destruct F1 as [FA [FB FD]]. unfold v, r, got_amount1, got_coin1, ch_equal1 in *. cbv zeta in *. rewrite V, V' in *.
    unfold content1 in C1, C1'. injection C1 as P1 P2 P3 P4 P5. injection C1' as Q1 Q2 Q3 Q4 Q5. rewrite P1, P2, P3 in V. rewrite Q1, Q2, Q3 in V'.
    destruct (c_pte G (snd x1)) as [PA PB z t], (c_pte G (snd x1')) as [PA' PB' z' t']. cbn [pteA pteB ptez ptet] in *. subst PA' PB'.
    exact (C34_special_soundness G _ _ (a_enc G pp) [pks; pkr; a_pka G pp] ct [] [] PA PB z t z' t' tr tr' LX V V' FD). }
  assert (Eref : ref = T_Enc G (a_enc G pp) pks m r').
  { destruct (accepted_parts1 _ _ _ _ A2) as [tr [_ [V _]]]. destruct (accepted_parts1 _ _ _ _ A2') as [tr' [_ [V' _]]].
    destruct F2 as [FA [FB FD]]. unfold m, r', got_left1, got_fresh1, ch_know1 in *.
    unfold content1 in C2, C2'. injection C2 as P1 P2 P3 P4 P5. injection C2' as Q1 Q2 Q3 Q4 Q5. rewrite P1, P5 in V. rewrite Q1, Q5 in V'.
    destruct (c_pk G (snd x2)) as [PA PB z1 z2], (c_pk G (snd x2')) as [PA' PB' z1' z2']. cbn [pkA pkB pkz1 pkz2] in *. subst PA' PB'.
    pose proof (C33_special_soundness G (fst x2) (fst x2') (a_enc G pp) pks ref tr tr' PA PB z1 z2 z1' z2') as S. cbv zeta in S. rewrite V, V' in S. cbn [fst snd] in S.
    exact (S eq_refl eq_refl FD). }
  assert (Esk : pks = t_g G (a_enc G pp) *p sk /\
    (tY G bal -p tmY G ct -p tY G ref) *p sk = tX G bal -p nth 0 (tvX G ct) (inf G) -p tX G ref).
  { destruct (accepted_owner1 _ _ _ _ B A3) as [tr [V E]]. destruct (accepted_owner1 _ _ _ _ B A3') as [tr' [V' E']].
    destruct F3 as [FA [FB FD]]. unfold sk, got_key1 in *. rewrite <- (surjective_pairing x3) in E. rewrite <- (surjective_pairing x3') in E'. rewrite E, E' in *.
    unfold content1 in C3, C3'. injection C3 as P1 P2 P3 P4 P5. injection C3' as Q1 Q2 Q3 Q4 Q5. rewrite P1, P3, P4, P5 in *. rewrite Q1, Q3, Q4, Q5 in *.
    destruct (c_dle G (snd x3)) as [PA PB z], (c_dle G (snd x3')) as [PA' PB' z']. cbn [dleA1 dleA2 dlez] in *. subst PA' PB'.
    destruct (C32_special_soundness G (fst x3) (fst x3') _ _ _ _ tr tr' PA PB z z' V V' FD) as [S1 S2]. split; [symmetry; exact S2|exact S1]. }
  destruct Esk as [Esk Eop].
  split; [exact Ect|]. split; [exact Eref|]. split; [exact Esk|]. split.
  - intros I. apply (refreshed (a_enc G pp) sk bal (nth 0 (tvX G ct) (inf G)) (tmY G ct) r v m r' I).
    + rewrite Ect. cbn [T_MREnc tvX map nth]. rewrite Esk. reflexivity.
    + rewrite Ect. cbn [T_MREnc tmY]. rewrite ?msum2. reflexivity.
    + rewrite <- Esk. pose proof Eop as Q. rewrite Eref in Q. unfold T_Enc in Q. cbn [tX tY] in Q. rewrite ?msum2 in Q. exact Q.
  - assert (AC : bp_accepted G (a_bullet G pp) [tmY G ct; tY G ref] T).
    { intros bi bj bk bl bw Hi Hj Hk Hl Hw. cbn [length] in Hi, Hj. destruct (RR bi bj bk bl bw Hi Hj Hk Hl Hw) as [H [t [c [c' [EC [EP [Y [Z [X [Ee [IPc [NC [V V']]]]]]]]]]]]].
      destruct (accepted_parts1 _ _ _ _ V) as [_ [_ [_ [tr' [EB _]]]]]. destruct (accepted_parts1 _ _ _ _ V') as [_ [_ [_ [tr'' [EB' _]]]]].
      exists H, (range_transcript1 G H pp t), tr'. unfold content1 in EC. injection EC as P1 P2 P3 P4 P5. rewrite P3, P5 in EB, EB'. cbv zeta in *. rewrite <- EP.
      do 5 (split; [assumption|]). apply (C42_two_combiners_imply_verify G H _ [tmY G ct; tY G ref] _ _ _ c c' B NC EB).
      pose proof (fast_dims G H _ [tmY G ct; tY G ref] _ _ _ _ B EB) as D. rewrite BP_FastVerify_spec in EB by exact D. injection EB as _ <-.
      pose proof EB' as EB2. rewrite BP_FastVerify_spec in EB2 by exact D. injection EB2 as _ ET. rewrite ET. exact EB'. }
    pose proof (C91_range_proof_special_soundness G (a_bullet G pp) [tmY G ct; tY G ref] d T ER Hd Good AC) as OK. cbn [length] in OK.
    destruct (bp_extract G (bp_range G (a_bullet G pp)) 2 d T) as [rs vs|e]; [|exact OK].
    cbn [bp_found_ok] in OK. destruct OK as [[Lr [Lv CM]] RG]. rewrite Forall_forall in RG.
    pose proof (CM 0%nat ltac:(cbn; lia)) as CM0. pose proof (CM 1%nat ltac:(cbn; lia)) as CM1. cbn [nth length] in *.
    split; [apply RG, nth_In; lia|]. split; [apply RG, nth_In; lia|]. rewrite <- EG, <- EH in CM0, CM1. split.
    + refine (opening_agrees pp _ _ _ _ _ _ CM0). rewrite Ect. cbn [T_MREnc tmY]. rewrite ?msum2. reflexivity.
    + refine (opening_agrees pp _ _ _ _ _ _ CM1). rewrite Eref. unfold T_Enc. cbn [tY]. rewrite ?msum2. reflexivity.
Qed.
End One.

Section Many.
Variable hex : Z -> list N.

Lemma verifies_at : forall (H : list N -> Z) g h pka pkr cts ps tr out i, PTE_verifies G H g h pka pkr cts ps tr = Some (true, out) -> (i < length pkr)%nat ->
  exists tri outi, PTE_Verify G H g h [nth i pkr (inf G); pka] (nth i cts (noct G)) tri (nth i ps (nopte G)) = Some (true, outi) /\
    PTE_verifies G H g h pka (firstn (S i) pkr) cts ps tr = Some (true, outi).
Proof.
  intros H g h pka. induction pkr as [|pk pkr IH]; intros cts ps tr out i E Hi; [cbn in Hi; lia|].
  cbn [PTE_verifies] in E. destruct cts as [|ct cts]; [discriminate|]. destruct ps as [|p ps]; [discriminate|].
  destruct (PTE_Verify G H g h [pk; pka] ct tr p) as [[b tr1]|] eqn:EV; cbn [obind fst snd] in E; [|discriminate].
  destruct (PTE_verifies G H g h pka pkr cts ps tr1) as [[b2 tr2]|] eqn:EW; cbn [obind fst snd] in E; [|discriminate].
  injection E as EB EO. apply andb_prop in EB. destruct EB. subst b b2 tr2.
  destruct i as [|i].
  - exists tr, tr1. split; [exact EV|]. cbn [firstn PTE_verifies]. rewrite EV. reflexivity.
  - cbn [length] in Hi. destruct (IH _ _ _ _ i EW ltac:(lia)) as [tri [outi [A B]]]. exists tri, outi. split; [exact A|].
    change (firstn (S (S i)) (pk :: pkr)) with (pk :: firstn (S i) pkr). cbn [PTE_verifies]. rewrite EV. cbn [obind fst snd]. rewrite B. reflexivity.
Qed.
Lemma verifies_len : forall (H : list N -> Z) g h pka pkr cts ps tr o, PTE_verifies G H g h pka pkr cts ps tr = Some o -> (length pkr <= length cts)%nat.
Proof.
  intros H g h pka. induction pkr as [|pk pkr IH]; intros cts ps tr o E; [cbn; lia|]. cbn [PTE_verifies] in E.
  destruct cts as [|ct cts]; [discriminate|]. destruct ps as [|p ps]; [discriminate|].
  destruct (PTE_Verify G H g h [pk; pka] ct tr p) as [v|]; cbn [obind] in E; [|discriminate].
  destruct (PTE_verifies G H g h pka pkr cts ps (snd v)) as [w|] eqn:EW; cbn [obind] in E; [|discriminate]. cbn [length]. specialize (IH _ _ _ _ EW). lia.
Qed.

Lemma accepted_partsN : forall H pp t c, VerifyCTxN G H hex pp t c = Some true ->
  let g := t_g G (a_enc G pp) in let h := t_h G (a_enc G pp) in let n := length (m_pkr G t) in
  let C := map (tmY G) (firstn n (m_rtr G t)) ++ [tY G (m_ref G t)] in let u := T_HomoSub G (m_bal G t) (m_str G t) in
  length C = S n /\
  exists tr, PTE_verifies G H g h (a_pka G pp) (m_pkr G t) (m_rtr G t) (m_pte G t) [] = Some (true, tr) /\
    PK_Verify G H g h (m_pks G t) (m_ref G t) tr (m_pk G t) = (true, range_transcriptN G H pp t) /\
    exists tr', BP_FastVerify G H (a_bullet G pp) C (range_transcriptN G H pp t) (m_bp G t) c = Some (true, tr') /\
      fst (DLK_Verify G H g (restN G t) tr' (m_dlk G t)) = true /\
      fst (DLE_Verify G H (tY G u -p tY G (m_ref G t)) (tX G u -p tX G (m_ref G t)) g (m_pks G t)
             (snd (DLK_Verify G H g (restN G t) tr' (m_dlk G t)) ++ ToSignN G hex t) (m_dle G t)) = true.
Proof.
  intros H pp t c V. cbv zeta. unfold VerifyCTxN in V. cbv zeta in V. unfold range_transcriptN.
  destruct (PTE_verifies G H _ _ _ _ _ _ _) as [[b1 tr]|] eqn:E1; cbn [obind fst snd] in V; [|discriminate].
  split.
  { rewrite app_length, map_length, firstn_length. apply verifies_len in E1. cbn [length]. lia. }
  destruct (PK_Verify G H _ _ _ _ tr _) as [b2 tr2] eqn:E2. cbn [fst snd] in V |- *.
  destruct (BP_FastVerify G H _ _ tr2 _ c) as [[b3 tr3]|] eqn:E3; cbn [obind fst snd] in V; [|discriminate].
  injection V as V. apply andb_prop in V. destruct V as [V V5]. apply andb_prop in V. destruct V as [V V4]. apply andb_prop in V. destruct V as [V V3].
  apply andb_prop in V. destruct V as [V1 V2]. subst b1 b2 b3.
  exists tr. split; [reflexivity|]. rewrite E2. split; [reflexivity|]. exists tr3. split; [reflexivity|]. split; [exact V4|exact V5].
Qed.

(** the last two proofs, with the challenges named in the specification *)
Lemma accepted_ownerN : forall H pp t c, (N.of_nat (bp_range G (a_bullet G pp) * S (length (m_pkr G t))) < 2 ^ 64)%N -> VerifyCTxN G H hex pp t c = Some true ->
  exists tr tr', let K := DLK_Verify G H (t_g G (a_enc G pp)) (restN G t) tr (m_dlk G t) in let u := T_HomoSub G (m_bal G t) (m_str G t) in
    let D := DLE_Verify G H (tY G u -p tY G (m_ref G t)) (tX G u -p tX G (m_ref G t)) (t_g G (a_enc G pp)) (m_pks G t) tr' (m_dle G t) in
    fst K = true /\ ch_sumN G pp (H, t) = H (snd K) /\ fst D = true /\ ch_ownerN G hex pp (H, t) = H (snd D).
Proof.
  intros H pp t c B V. destruct (accepted_partsN _ _ _ _ V) as [LC [tr [_ [_ [tr' [EB [EK ED]]]]]]].
  exists tr', (snd (DLK_Verify G H (t_g G (a_enc G pp)) (restN G t) tr' (m_dlk G t)) ++ ToSignN G hex t). cbv zeta in *.
  rewrite <- LC in B. pose proof (fast_dims G H _ _ _ _ _ _ B EB) as D. rewrite BP_FastVerify_spec in EB by exact D. injection EB as _ ET.
  split; [exact EK|]. split; [|split; [exact ED|]].
  - unfold ch_sumN. cbn [fst snd]. rewrite (BP_FastVerify_spec G H _ _ _ _ _ D), ET. reflexivity.
  - unfold ch_ownerN, owner_inputN. cbn [fst snd]. cbv zeta. rewrite (BP_FastVerify_spec G H _ _ _ _ _ D), ET. reflexivity.
Qed.

Lemma take_sum : forall g h l (r v : nat -> Z) Y, (forall i, (i < length l)%nat -> tmY G (nth i l (noct G)) = g *p r i +p h *p v i) ->
  fold_left (fun acc x => acc -p tmY G x) l Y = Y -p (g *p zsum (map r (seq 0 (length l))) +p h *p zsum (map v (seq 0 (length l)))).
Proof.
  intros g h. induction l as [|x l IH]; intros r v Y E.
  - cbn. clear. logs G. gring.
  - cbn [fold_left length seq map zsum]. rewrite <- seq_shift, !map_map. rewrite (IH (fun i => r (S i)) (fun i => v (S i))).
    + pose proof (E 0%nat ltac:(cbn; lia)) as E0. cbn [nth] in E0. rewrite E0. generalize (zsum (map (fun i => r (S i)) (seq 0 (length l)))) (zsum (map (fun i => v (S i)) (seq 0 (length l)))) (r 0%nat) (v 0%nat).
      clear. intros. logs G. gring.
    + intros i Hi. exact (E (S i) ltac:(cbn; lia)).
Qed.

(** ** C93 *)
Theorem C93_one_to_many_sound : forall pp pks pkr str rtr bal ref d (T : bp_tree G d) (x x' : nat -> runN G) x2 x2' x3 x3' x4 x4',
  let n := length pkr in
  t_g G (a_enc G pp) = bp_g G (a_bullet G pp) -> t_h G (a_enc G pp) = bp_h G (a_bullet G pp) ->
  (bp_range G (a_bullet G pp) * S n = 2 ^ d)%nat -> (d < 64)%nat -> (forall i, (i < n)%nat -> length (tvX G (nth i rtr (noct G))) = 2%nat) ->
  let ok (y : runN G) := contentN G (snd y) = (pks, pkr, str, rtr, bal, ref) /\ acceptsN G hex pp y in
  (forall i, (i < n)%nat -> ok (x i) /\ ok (x' i) /\ fork_equalN G pp i (x i) (x' i)) ->
  Forall ok [x2; x2'; x3; x3'; x4; x4'] -> fork_knowN G pp x2 x2' -> fork_sumN G pp x3 x3' -> fork_ownerN G hex pp x4 x4' ->
  let C := map (tmY G) (firstn n rtr) ++ [tY G ref] in
  bp_good G (a_bullet G pp) C T -> range_runsN G hex pp (pks, pkr, str, rtr, bal, ref) n T ->
  let v i := got_amountN G pp i (x i) (x' i) in let r i := got_coinN G pp i (x i) (x' i) in
  let m := got_leftN G pp x2 x2' in let r' := got_freshN G pp x2 x2' in
  let rho := got_restN G pp x3 x3' + zsum (map r (seq 0 n)) in
  let sk := got_keyN G hex pp x4 x4' in
  let g := t_g G (a_enc G pp) in let h := t_h G (a_enc G pp) in
  (forall i, (i < n)%nat -> nth i rtr (noct G) = T_MREnc G (a_enc G pp) [nth i pkr (inf G); a_pka G pp] (v i) (r i)) /\
  ref = T_Enc G (a_enc G pp) pks m r' /\ pks = g *p sk /\
  tY G str = g *p rho +p h *p zsum (map v (seq 0 n)) /\
  (invertible G sk -> T_DecECPoint G sk bal = T_DecECPoint G sk str +p h *p m) /\
  (invertible G sk -> tX G str = pks *p rho -> T_DecECPoint G sk bal = h *p (zsum (map v (seq 0 n)) + m)) /\
  match bp_extract G (bp_range G (a_bullet G pp)) (S n) d T with
  | BpRelation e => bp_found_ok G (a_bullet G pp) C (BpRelation e)
  | BpWitness rs vs =>
      (forall i, (i < n)%nat -> amount G pp (nth i vs 0) /\ same_opening G pp (r i) (v i) (nth i rs 0) (nth i vs 0)) /\
      amount G pp (nth n vs 0) /\ same_opening G pp r' m (nth n rs 0) (nth n vs 0)
  end.
Proof.
  intros pp pks pkr str rtr bal ref d T x x' x2 x2' x3 x3' x4 x4' n EG EH ER Hd LX ok F1 FA F2 F3 F4 C Good RR v r m r' rho sk g h.
  pose proof (dims_bound _ _ _ ER Hd) as B. unfold ok in *. clear ok.
  inversion_clear FA as [|? ? [C2 [c2 A2]] FB]. inversion_clear FB as [|? ? [C2' [c2' A2']] FC]. inversion_clear FC as [|? ? [C3 [c3 A3]] FD].
  inversion_clear FD as [|? ? [C3' [c3' A3']] FE]. inversion_clear FE as [|? ? [C4 [c4 A4]] FF]. inversion_clear FF as [|? ? [C4' [c4' A4']] _].
  assert (LR : (n <= length rtr)%nat).
  { destruct (accepted_partsN _ _ _ _ A2) as [_ [tr [V _]]]. apply verifies_len in V. unfold contentN in C2. injection C2 as _ Q _ Q' _ _. rewrite Q, Q' in V. exact V. }
  assert (Ect : forall i, (i < n)%nat -> nth i rtr (noct G) = T_MREnc G (a_enc G pp) [nth i pkr (inf G); a_pka G pp] (v i) (r i)).
  { intros i Hi. destruct (F1 i Hi) as [[C1 [c1 A1]] [[C1' [c1' A1']] [FA [FB FD]]]]. specialize (LX i Hi).
    destruct (accepted_partsN _ _ _ _ A1) as [_ [tr [V _]]]. destruct (accepted_partsN _ _ _ _ A1') as [_ [tr' [V' _]]].
    unfold contentN in C1, C1'. injection C1 as P1 P2 P3 P4 P5 P6. injection C1' as Q1 Q2 Q3 Q4 Q5 Q6. unfold v, r, got_amountN, got_coinN, ch_equalN in *. cbv zeta in *.
    rewrite P2, P4 in *. rewrite Q2, Q4 in *.
    destruct (verifies_at _ _ _ _ _ _ _ _ _ i V Hi) as [t1 [o1 [W1 W2]]]. destruct (verifies_at _ _ _ _ _ _ _ _ _ i V' Hi) as [t1' [o1' [W1' W2']]].
    rewrite W2, W2' in *. fold (pte_at G i (x i)) in W1. fold (pte_at G i (x' i)) in W1'.
    destruct (pte_at G i (x i)) as [PA PB z t], (pte_at G i (x' i)) as [PA' PB' z' t']. cbn [pteA pteB ptez ptet] in *. subst PA' PB'.
    exact (C34_special_soundness G _ _ (a_enc G pp) [nth i pkr (inf G); a_pka G pp] _ _ _ PA PB z t z' t' o1 o1' LX W1 W1' FD). }
  assert (Eref : ref = T_Enc G (a_enc G pp) pks m r').
  { destruct (accepted_partsN _ _ _ _ A2) as [_ [tr [_ [V _]]]]. destruct (accepted_partsN _ _ _ _ A2') as [_ [tr' [_ [V' _]]]].
    destruct F2 as [FA [FB FD]]. unfold m, r', got_leftN, got_freshN, ch_knowN in *.
    unfold contentN in C2, C2'. injection C2 as P1 P2 P3 P4 P5 P6. injection C2' as Q1 Q2 Q3 Q4 Q5 Q6. rewrite P1, P6 in V. rewrite Q1, Q6 in V'.
    destruct (m_pk G (snd x2)) as [PA PB z1 z2], (m_pk G (snd x2')) as [PA' PB' z1' z2']. cbn [pkA pkB pkz1 pkz2] in *. subst PA' PB'.
    pose proof (C33_special_soundness G (fst x2) (fst x2') (a_enc G pp) pks ref tr tr' PA PB z1 z2 z1' z2') as S. cbv zeta in S. rewrite V, V' in S. cbn [fst snd] in S.
    exact (S eq_refl eq_refl FD). }
  assert (LN : forall y : runN G, contentN G (snd y) = (pks, pkr, str, rtr, bal, ref) -> (N.of_nat (bp_range G (a_bullet G pp) * S (length (m_pkr G (snd y)))) < 2 ^ 64)%N).
  { intros y Ey. unfold contentN in Ey. injection Ey as _ -> _ _ _ _. exact B. }
  assert (RS : forall y : runN G, contentN G (snd y) = (pks, pkr, str, rtr, bal, ref) -> restN G (snd y) = fold_left (fun acc x => acc -p tmY G x) (firstn n rtr) (tY G str)).
  { intros y Ey. unfold contentN in Ey. injection Ey as _ E1 E2 E3 _ _. unfold restN. rewrite E1, E2, E3. reflexivity. }
  assert (Esum : tY G str = g *p rho +p h *p zsum (map v (seq 0 n))).
  { destruct (accepted_ownerN _ _ _ _ (LN _ C3) A3) as [t1 [_ [V [E _]]]]. destruct (accepted_ownerN _ _ _ _ (LN _ C3') A3') as [t1' [_ [V' [E' _]]]].
    destruct F3 as [FA FD]. unfold rho, got_restN in *. rewrite <- (surjective_pairing x3) in E. rewrite <- (surjective_pairing x3') in E'. rewrite E, E' in *.
    rewrite (RS _ C3) in *. rewrite (RS _ C3') in *.
    destruct (m_dlk G (snd x3)) as [PA z], (m_dlk G (snd x3')) as [PA' z']. cbn [dlkA dlkz] in *. subst PA'.
    pose proof (C31_special_soundness G (fst x3) (fst x3') _ _ t1 t1' PA z z' V V' FD) as S. cbv zeta in S.
    revert S. match goal with |- _ *p ?e = _ -> _ => generalize e end. intros e S. rewrite (take_sum g h _ r v) in S.
    - rewrite firstn_length, Nat.min_l in S by exact LR. revert S. fold g. clearbody g h.
      generalize (zsum (map r (seq 0 n))) (zsum (map v (seq 0 n))) (tY G str). clear. intros a b Y S.
      transitivity (Y -p (g *p a +p h *p b) +p (g *p a +p h *p b)); [clear; logs G; gring|]. rewrite <- S. clear. logs G. gring.
    - intros i Hi. rewrite firstn_length, Nat.min_l in Hi by exact LR. rewrite nth_firstn_lt by exact Hi. rewrite (Ect i Hi). cbn [T_MREnc tmY]. rewrite ?msum2. reflexivity. }
  assert (Esk : pks = g *p sk /\ (tY G (T_HomoSub G bal str) -p tY G ref) *p sk = tX G (T_HomoSub G bal str) -p tX G ref).
  { destruct (accepted_ownerN _ _ _ _ (LN _ C4) A4) as [_ [t1 [_ [_ [V E]]]]]. destruct (accepted_ownerN _ _ _ _ (LN _ C4') A4') as [_ [t1' [_ [_ [V' E']]]]].
    destruct F4 as [FA [FB FD]]. unfold sk, got_keyN in *. rewrite <- (surjective_pairing x4) in E. rewrite <- (surjective_pairing x4') in E'. rewrite E, E' in *.
    unfold contentN in C4, C4'. injection C4 as P1 P2 P3 P4 P5 P6. injection C4' as Q1 Q2 Q3 Q4 Q5 Q6. rewrite P1, P3, P5, P6 in *. rewrite Q1, Q3, Q5, Q6 in *.
    destruct (m_dle G (snd x4)) as [PA PB z], (m_dle G (snd x4')) as [PA' PB' z']. cbn [dleA1 dleA2 dlez] in *. subst PA' PB'.
    destruct (C32_special_soundness G (fst x4) (fst x4') _ _ _ _ t1 t1' PA PB z z' V V' FD) as [S1 S2]. split; [symmetry; exact S2|exact S1]. }
  destruct Esk as [Esk Eop].
  assert (Edec : invertible G sk -> T_DecECPoint G sk bal = T_DecECPoint G sk str +p h *p m).
  { intros I. pose proof (inv_cong G sk I) as IV. rewrite Eref in Eop. unfold T_Enc in Eop. rewrite Esk in Eop. cbn [tX tY T_HomoSub] in Eop. rewrite ?msum2 in Eop. fold g h in Eop. clearbody g h sk m.
    unfold T_DecECPoint. revert Eop IV. clear. generalize (tX G bal) (tY G bal) (tX G str) (tY G str) (ModInverse sk q). intros X Y X' Y' i Eop IV.
    assert (EX : X = X' +p (Y -p Y' -p h *p m) *p sk).
    { match type of Eop with ?a = ?b => transitivity (X' +p (Y -p Y' -p h *p m) *p sk +p (b -p a)) end; [clear; logs G; gring|].
      rewrite Eop. unfold psub at 3. rewrite padd_neg, padd_inf. reflexivity. }
    rewrite EX. transitivity (Y -p X' *p i -p (Y -p Y' -p h *p m) *p (sk * i)); [clear; logs G; gring|].
    rewrite (pmul_cong G _ _ _ IV), pmul_1. clear. logs G. gring. }
  split; [exact Ect|]. split; [exact Eref|]. split; [exact Esk|]. split; [exact Esum|]. split; [exact Edec|]. split.
  - intros I EX. rewrite (Edec I). unfold T_DecECPoint. rewrite EX, Esum, Esk. pose proof (inv_cong G sk I) as IV. revert IV. clearbody g h sk m rho v. clear.
    generalize (ModInverse sk q) (zsum (map v (seq 0 n))). intros i s IV.
    transitivity (g *p rho +p h *p s -p (g *p rho) *p (sk * i) +p h *p m); [clear; logs G; gring|].
    rewrite (pmul_cong G _ _ _ IV), pmul_1. clear. logs G. gring.
  - assert (LC : length C = S n) by (unfold C; rewrite app_length, map_length, firstn_length, Nat.min_l by exact LR; cbn; lia).
    assert (AC : bp_accepted G (a_bullet G pp) C T).
    { intros bi bj bk bl bw Hi Hj Hk Hl Hw. rewrite LC in Hi, Hj. destruct (RR bi bj bk bl bw Hi Hj Hk Hl Hw) as [H [t [c [c' [EC [EP [Y [Z [X [Ee [IPc [NC [V V']]]]]]]]]]]]].
      destruct (accepted_partsN _ _ _ _ V) as [_ [_ [_ [_ [tr' [EB _]]]]]]. destruct (accepted_partsN _ _ _ _ V') as [_ [_ [_ [_ [tr'' [EB' _]]]]]].
      exists H, (range_transcriptN G H pp t), tr'. unfold contentN in EC. injection EC as P1 P2 P3 P4 P5 P6. rewrite P2, P4, P6 in EB, EB'. fold n in EB, EB'. fold C in EB, EB'. cbv zeta in *. rewrite <- EP.
      do 5 (split; [assumption|]). rewrite <- LC in B. apply (C42_two_combiners_imply_verify G H _ C _ _ _ c c' B NC EB).
      pose proof (fast_dims G H _ C _ _ _ _ B EB) as D. rewrite BP_FastVerify_spec in EB by exact D. injection EB as _ <-.
      pose proof EB' as EB2. rewrite BP_FastVerify_spec in EB2 by exact D. injection EB2 as _ ET. rewrite ET. exact EB'. }
    pose proof (C91_range_proof_special_soundness G (a_bullet G pp) C d T ltac:(rewrite LC; exact ER) Hd Good AC) as OK. rewrite LC in OK.
    destruct (bp_extract G (bp_range G (a_bullet G pp)) (S n) d T) as [rs vs|e]; [|exact OK].
    cbn [bp_found_ok] in OK. destruct OK as [[Lr [Lv CM]] RG]. rewrite Forall_forall in RG. rewrite LC in *.
    assert (RGi : forall i, (i < S n)%nat -> amount G pp (nth i vs 0)) by (intros i Hi; apply RG, nth_In; lia).
    rewrite <- EG, <- EH in CM. split; [|split].
    + intros i Hi. split; [apply RGi; lia|]. refine (opening_agrees pp _ _ _ _ _ _ (CM i ltac:(lia))). unfold C.
      rewrite app_nth1 by (rewrite map_length, firstn_length; lia). change (inf G) with (tmY G (noct G)). rewrite map_nth, nth_firstn_lt by exact Hi.
      rewrite (Ect i Hi). cbn [T_MREnc tmY]. rewrite ?msum2. reflexivity.
    + apply RGi. lia.
    + refine (opening_agrees pp _ _ _ _ _ _ (CM n ltac:(lia))). unfold C. rewrite app_nth2 by (rewrite map_length, firstn_length; lia).
      rewrite map_length, firstn_length, Nat.min_l, Nat.sub_diag by exact LR. cbn [nth]. rewrite Eref. unfold T_Enc. cbn [tY]. rewrite ?msum2. reflexivity.
Qed.
End Many.

End Props.

Print Assumptions C92_one_to_one_sound.
Print Assumptions C93_one_to_many_sound.

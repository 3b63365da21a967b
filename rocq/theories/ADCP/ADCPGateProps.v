(** Properties C94, C95: what the sender's proof of a transaction binds, and whose accounts
    and transactions the miner and the audits act on. *)
From Coq Require Import NArith ZArith List Lia Bool Arith.
From Coq Require Import ZifyBool ZifyNat ZifyN.
From Verif.Base Require Import Words ListX.
From Verif.Crypto Require Import BigIntModel.
From Verif.Group Require Import ECModel ECProofs ZqGroup.
From Verif.PKE Require Import DlogModel DlogProps ElGamalModel.
From Verif.Sigma Require Import SigmaModel SigmaSpec SigmaProofs SigmaProps.
From Verif.Bullet Require Import IPModel BPModel BPSpec BPProofs BPProps GadgetModel GadgetProps.
From Verif.ADCP Require Import ADCPModel ADCPSpec ADCPProofs ADCPProps ADCPManyProps ADCPGateSpec.
Import ListNotations.
Local Open Scope Z_scope.

Section Props.
Variable G : ECGroup.
Local Infix "-p" := (psub G) (at level 50, left associativity).

(** ** C94 *)
Section Binding.
Variables (H : list N -> Z) (hex : Z -> list N).
Local Notation bytes := (ToByteString G).

Lemma run_split : forall (u v x y : list N), Forall (fun c => (45 <= c)%N) u -> Forall (fun c => (45 <= c)%N) v ->
  (nth 0 x 45 < 45)%N -> (nth 0 y 45 < 45)%N -> u ++ x = v ++ y -> u = v /\ x = y.
Proof.
  induction u as [|a u IH]; intros [|b v] x y Fu Fv Hx Hy E; cbn [app] in E.
  - auto.
  - subst x. cbn [nth] in Hx. inversion Fv. lia.
  - subst y. cbn [nth] in Hy. inversion Fu. lia.
  - injection E as -> E. inversion_clear Fu. inversion_clear Fv. destruct (IH v x y) as [-> ->]; auto.
Qed.

Lemma head_small : encodings_ok G hex -> forall P x, (nth 0 (bytes P ++ x) 45 < 45)%N.
Proof.
  intros [E _] P x. unfold ToByteString. destruct (peqb G P (inf G)); [cbn; lia|]. specialize (E P).
  pose proof (comp33_length G P). destruct (comp33 G P); [discriminate|]. exact E.
Qed.

Lemma hex_split : encodings_ok G hex -> forall a b P Q x y, hex a ++ bytes P ++ x = hex b ++ bytes Q ++ y -> a = b /\ bytes P ++ x = bytes Q ++ y.
Proof.
  intros EO a b P Q x y E. pose proof (head_small EO) as HS. destruct EO as [_ [D I]].
  apply run_split in E; auto. destruct E as [E F]. auto.
Qed.

Fixpoint rounds (L R : list (pt G)) : list N :=
  match L, R with l :: L', r :: R' => bytes l ++ bytes r ++ rounds L' R' | _, _ => [] end.
Lemma IP_rounds_tr : forall L R tr, snd (IP_challenges G H tr L R) = tr ++ rounds L R.
Proof.
  induction L as [|l L IH]; intros [|r R] tr; cbn [IP_challenges rounds snd]; rewrite ?app_nil_r; try reflexivity.
  cbv zeta. cbn [snd]. rewrite IH, <- !app_assoc. reflexivity.
Qed.
Lemma rounds_length : forall n L R, length L = n -> length R = n -> length (rounds L R) = (66 * n)%nat.
Proof.
  induction n as [|n IH]; intros [|l L] [|r R] EL ER; try discriminate; [reflexivity|]. cbn [rounds]. injection EL as EL. injection ER as ER.
  rewrite !app_length, !ToByteString_length, IH by assumption. lia.
Qed.

(** the transcript after the range proof, and the rest of a string *)
Lemma trend_split : forall pp n tr tr' p p' rest rest', bp_dims G pp n p -> bp_dims G pp n p' ->
  (forall x y, tr ++ x = tr' ++ y -> tr = tr') ->
  trend G H tr p ++ rest = trend G H tr' p' ++ rest' -> tr = tr' /\ rest = rest'.
Proof.
  intros pp n tr tr' p p' rest rest' [k [EL [_ [_ [_ [LL LR]]]]]] [k' [EL' [_ [_ [_ [LL' LR']]]]]] SP E.
  assert (k' = k) by (apply (Nat.pow_inj_r 2); [lia|congruence]).
  unfold trend in E. rewrite !IP_rounds_tr in E. unfold tr4, tr3, tr2, tr1, chx in E. rewrite <- !app_assoc in E.
  pose proof (SP _ _ E) as ET. split; [exact ET|]. subst tr'. apply app_inv_head in E.
  do 4 (apply (bytes_app_inj G) in E; let Q := fresh "Q" in destruct E as [Q E]).
  rewrite Q, Q0, Q1, Q2 in E. apply app_inv_head in E.
  apply app_inj_len in E; [exact (proj2 E)|]. rewrite !(rounds_length k) by congruence. reflexivity.
Qed.
(** what the equality proof puts into the transcript *)
Lemma pte_out : forall g h pks ct tr p o, PTE_Verify G H g h pks ct tr p = Some o ->
  snd o = tr ++ cat_points G pks ++ cat_points G (firstn (length pks) (tvX G ct)) ++ bytes (tmY G ct) ++
          cat_points G (firstn (length pks) (pteA G p)) ++ bytes (pteB G p) /\
  (length pks <= length (tvX G ct))%nat /\ (length pks <= length (pteA G p))%nat.
Proof.
  intros g h pks ct tr p o E. unfold PTE_Verify in E. destruct ((length pks <=? length (tvX G ct)) && (length pks <=? length (pteA G p)))%nat eqn:L; [|discriminate].
  inversion E. cbn [snd]. unfold PTE_instance. rewrite <- !app_assoc. split; [reflexivity|]. lia.
Qed.
Lemma pte_split : forall pks pks' ct ct' p p' x y, length pks = length pks' ->
  (length pks <= length (tvX G ct))%nat -> (length pks <= length (pteA G p))%nat ->
  (length pks' <= length (tvX G ct'))%nat -> (length pks' <= length (pteA G p'))%nat ->
  (cat_points G pks ++ cat_points G (firstn (length pks) (tvX G ct)) ++ bytes (tmY G ct) ++
    cat_points G (firstn (length pks) (pteA G p)) ++ bytes (pteB G p)) ++ x =
  (cat_points G pks' ++ cat_points G (firstn (length pks') (tvX G ct')) ++ bytes (tmY G ct') ++
    cat_points G (firstn (length pks') (pteA G p')) ++ bytes (pteB G p')) ++ y ->
  pks = pks' /\ firstn (length pks) (tvX G ct) = firstn (length pks) (tvX G ct') /\ tmY G ct = tmY G ct' /\
  firstn (length pks) (pteA G p) = firstn (length pks) (pteA G p') /\ pteB G p = pteB G p' /\ x = y.
Proof.
  intros pks pks' ct ct' p p' x y L L1 L2 L3 L4 E. rewrite <- !app_assoc in E.
  apply app_inj_len in E; [|rewrite !cat_points_length; lia]. destruct E as [E1 E]. apply cat_points_inj in E1; [|exact L]. subst pks'.
  apply app_inj_len in E; [|rewrite !cat_points_length, !firstn_length; lia]. destruct E as [E1 E]. apply cat_points_inj in E1; [|rewrite !firstn_length; lia].
  apply (bytes_app_inj G) in E. destruct E as [E2 E].
  apply app_inj_len in E; [|rewrite !cat_points_length, !firstn_length; lia]. destruct E as [E3 E]. apply cat_points_inj in E3; [|rewrite !firstn_length; lia].
  apply (bytes_app_inj G) in E. destruct E as [E4 E]. auto 6.
Qed.
Lemma pk_split : forall g h pk ct tr p pk' ct' tr' p' x y, (forall x y, tr ++ x = tr' ++ y -> tr = tr') ->
  snd (PK_Verify G H g h pk ct tr p) ++ x = snd (PK_Verify G H g h pk' ct' tr' p') ++ y ->
  tr = tr' /\ pk = pk' /\ ct = ct' /\ pkA G p = pkA G p' /\ pkB G p = pkB G p' /\ x = y.
Proof.
  intros g h pk [X Y] tr p pk' [X' Y'] tr' p' x y SP E. unfold PK_Verify in E. cbn [snd tX tY] in E. rewrite <- !app_assoc in E.
  pose proof (SP _ _ E). subst tr'. apply app_inv_head in E. do 5 (apply (bytes_app_inj G) in E; let Q := fresh in destruct E as [Q E]). subst. auto 8.
Qed.

Lemma verify1_inv : forall pp t c b, VerifyCTx1 G H hex pp t c = Some b -> (N.of_nat (bp_range G (a_bullet G pp) * 2) < 2 ^ 64)%N ->
  bp_dims G (a_bullet G pp) 2 (c_bp G t) /\
  exists o, PTE_Verify G H (t_g G (a_enc G pp)) (t_h G (a_enc G pp)) [c_pks G t; c_pkr G t; a_pka G pp] (c_tr G t) [] (c_pte G t) = Some o /\
    range_transcript1 G H pp t = snd (PK_Verify G H (t_g G (a_enc G pp)) (t_h G (a_enc G pp)) (c_pks G t) (c_ref G t) (snd o) (c_pk G t)).
Proof.
  intros pp t c b V B. unfold VerifyCTx1 in V. cbv zeta in V.
  destruct (PTE_Verify G H _ _ _ _ _ _) as [o|] eqn:EP; cbn [obind] in V; [|discriminate].
  match type of V with obind ?x _ = _ => destruct x as [o3|] eqn:EB; cbn [obind] in V; [|discriminate] end.
  split; [exact (fast_dims G H _ [tmY G (c_tr G t); tY G (c_ref G t)] _ _ _ _ B EB)|]. exists o. split; [reflexivity|]. unfold range_transcript1. rewrite EP. destruct o. reflexivity.
Qed.

Lemma dle_split : forall g1 h1 g2 h2 g1' h1' g2' h2' tr tr' p p',
  snd (DLE_Verify G H g1 h1 g2 h2 tr p) = snd (DLE_Verify G H g1' h1' g2' h2' tr' p') ->
  exists x y, tr ++ x = tr' ++ y.
Proof. intros g1 h1 g2 h2 g1' h1' g2' h2' tr tr' p p' E. unfold DLE_Verify in E. cbn [snd] in E. rewrite <- !app_assoc in E. eexists. eexists. exact E. Qed.

(** The challenge of the sender's proof is the hash of a string that determines the serial
    number, the two keys, the balance, the amount's ciphertext and the new balance: to change
    any of them is to change the challenge. *)
Theorem C94_one_to_one : encodings_ok G hex -> forall pp t t' c c' b b',
  (N.of_nat (bp_range G (a_bullet G pp) * 2) < 2 ^ 64)%N ->
  VerifyCTx1 G H hex pp t c = Some b -> VerifyCTx1 G H hex pp t' c' = Some b' ->
  owner_input1 G H hex pp t = owner_input1 G H hex pp t' ->
  c_sn G t = c_sn G t' /\ c_pks G t = c_pks G t' /\ c_pkr G t = c_pkr G t' /\ c_bal G t = c_bal G t' /\
  firstn 3 (tvX G (c_tr G t)) = firstn 3 (tvX G (c_tr G t')) /\ tmY G (c_tr G t) = tmY G (c_tr G t') /\ c_ref G t = c_ref G t'.
Proof.
  intros EO pp t t' c c' b b' B V V' E. destruct (verify1_inv _ _ _ _ V B) as [D [o [EP ER]]]. destruct (verify1_inv _ _ _ _ V' B) as [D' [o' [EP' ER']]].
  unfold owner_input1 in E. cbv zeta in E. rewrite (BP_FastVerify_spec G H _ [tmY G (c_tr G t); tY G (c_ref G t)] _ _ _ D), (BP_FastVerify_spec G H _ [tmY G (c_tr G t'); tY G (c_ref G t')] _ _ _ D') in E. injection E as E.
  apply dle_split in E. destruct E as [x [y E]]. rewrite <- !app_assoc in E.
  destruct (pte_out _ _ _ _ _ _ _ EP) as [EO1 [L1 L2]]. destruct (pte_out _ _ _ _ _ _ _ EP') as [EO1' [L1' L2']]. cbn [app] in EO1, EO1'.
  assert (SP : forall x y, snd o ++ x = snd o' ++ y -> snd o = snd o').
  { intros u v Q. pose proof Q as Q'. rewrite EO1, EO1' in Q. apply pte_split in Q; try assumption; [|reflexivity]. destruct Q as [_ [_ [_ [_ [_ Q]]]]].
    subst v. apply app_inv_tail in Q'. exact Q'. }
  assert (SP2 : forall x y, range_transcript1 G H pp t ++ x = range_transcript1 G H pp t' ++ y -> range_transcript1 G H pp t = range_transcript1 G H pp t').
  { intros u v Q. pose proof Q as Q'. rewrite ER, ER' in Q. apply pk_split in Q; [|exact SP]. destruct Q as [_ [_ [_ [_ [_ Q]]]]]. subst v. apply app_inv_tail in Q'. exact Q'. }
  destruct (trend_split _ _ _ _ _ _ _ _ D D' SP2 E) as [ET ES].
  pose proof ET as ET'. apply (f_equal (fun l => l ++ [])) in ET'. rewrite ER, ER' in ET'. apply pk_split in ET'; [|exact SP].
  destruct ET' as [EO2 [_ [EF _]]]. apply (f_equal (fun l => l ++ [])) in EO2. rewrite EO1, EO1' in EO2.
  apply pte_split in EO2; try assumption; [|reflexivity]. destruct EO2 as [_ [EX [EY _]]].
  unfold ToSign1 in ES. rewrite <- !app_assoc in ES. apply (hex_split EO) in ES. destruct ES as [-> ES].
  do 2 (apply (bytes_app_inj G) in ES; let Q := fresh in destruct ES as [Q ES]). unfold T_CTToByteString in ES. rewrite <- !app_assoc in ES.
  do 2 (apply (bytes_app_inj G) in ES; let Q := fresh in destruct ES as [Q ES]).
  repeat split; try assumption. destruct (c_bal G t) as [X0 Y0], (c_bal G t') as [X1 Y1]. cbn [tX tY] in *. congruence.
Qed.
(** the same for one-to-many transactions *)
Fixpoint ptes (pka : pt G) (pkr : list (pt G)) (cts : list (TMRCT G)) (ps : list (PTEProof G)) : list N :=
  match pkr, cts, ps with
  | pk :: pkr', ct :: cts', p :: ps' =>
      (cat_points G [pk; pka] ++ cat_points G (firstn 2 (tvX G ct)) ++ bytes (tmY G ct) ++
       cat_points G (firstn 2 (pteA G p)) ++ bytes (pteB G p)) ++ ptes pka pkr' cts' ps'
  | _, _, _ => []
  end.
(** the parts of the receivers' ciphertexts that the code reads *)
Definition read_part (ct : TMRCT G) : list (pt G) * pt G := (firstn 2 (tvX G ct), tmY G ct).
Fixpoint enough (pkr : list (pt G)) (cts : list (TMRCT G)) (ps : list (PTEProof G)) : Prop :=
  match pkr with
  | [] => True
  | _ :: pkr' => match cts, ps with
                 | ct :: cts', p :: ps' => (2 <= length (tvX G ct))%nat /\ (2 <= length (pteA G p))%nat /\ enough pkr' cts' ps'
                 | _, _ => False
                 end
  end.
Lemma ptes_out : forall g h pka pkr cts ps tr o, PTE_verifies G H g h pka pkr cts ps tr = Some o ->
  snd o = tr ++ ptes pka pkr cts ps /\ enough pkr cts ps.
Proof.
  intros g h pka. induction pkr as [|pk pkr IH]; intros cts ps tr o E; cbn [PTE_verifies] in E.
  - inversion E. cbn [snd ptes enough]. rewrite app_nil_r. auto.
  - destruct cts as [|ct cts]; [discriminate|]. destruct ps as [|p ps]; [discriminate|].
    destruct (PTE_Verify G H g h [pk; pka] ct tr p) as [v|] eqn:EV; cbn [obind] in E; [|discriminate].
    destruct (PTE_verifies G H g h pka pkr cts ps (snd v)) as [w|] eqn:EW; cbn [obind] in E; [|discriminate]. inversion E. subst o. cbn [snd].
    destruct (IH _ _ _ _ EW) as [-> EN]. destruct (pte_out _ _ _ _ _ _ _ EV) as [-> [L1 L2]]. cbn [ptes enough length] in *.
    rewrite <- !app_assoc. auto.
Qed.
Lemma ptes_split : forall pka pkr pkr' cts cts' ps ps' x y, length pkr = length pkr' -> enough pkr cts ps -> enough pkr' cts' ps' ->
  ptes pka pkr cts ps ++ x = ptes pka pkr' cts' ps' ++ y ->
  pkr = pkr' /\ map read_part (firstn (length pkr) cts) = map read_part (firstn (length pkr) cts') /\ x = y.
Proof.
  intros pka. induction pkr as [|pk pkr IH]; intros [|pk' pkr'] cts cts' ps ps' x y L EN EN' E; try discriminate.
  - cbn in E. auto.
  - cbn [enough] in EN, EN'. destruct cts as [|ct cts]; [contradiction|]. destruct ps as [|p ps]; [contradiction|].
    destruct cts' as [|ct' cts']; [contradiction|]. destruct ps' as [|p' ps']; [contradiction|].
    destruct EN as [L1 [L2 EN]], EN' as [L1' [L2' EN']]. cbn [ptes] in E. rewrite <- app_assoc in E. rewrite <- (app_assoc _ (ptes pka pkr' cts' ps')) in E.
    change 2%nat with (length [pk; pka]) in E at 1 2. change 2%nat with (length [pk'; pka]) in E.
    apply pte_split in E; try assumption; [|reflexivity]. destruct E as [E1 [E2 [E3 [_ [_ E]]]]]. injection E1 as ->.
    injection L as L. destruct (IH _ _ _ _ _ _ _ L EN EN' E) as [-> [EM ->]]. assert (RP : read_part ct = read_part ct') by (unfold read_part; rewrite E3; f_equal; exact E2).
    cbn [length]. rewrite !firstn_cons. cbn [map]. rewrite EM, RP. auto.
Qed.

Lemma verifyN_inv : forall pp t c b, VerifyCTxN G H hex pp t c = Some b -> (N.of_nat (bp_range G (a_bullet G pp) * S (length (m_pkr G t))) < 2 ^ 64)%N ->
  bp_dims G (a_bullet G pp) (length (map (tmY G) (firstn (length (m_pkr G t)) (m_rtr G t)) ++ [tY G (m_ref G t)])) (m_bp G t) /\
  length (map (tmY G) (firstn (length (m_pkr G t)) (m_rtr G t)) ++ [tY G (m_ref G t)]) = S (length (m_pkr G t)) /\
  exists o, PTE_verifies G H (t_g G (a_enc G pp)) (t_h G (a_enc G pp)) (a_pka G pp) (m_pkr G t) (m_rtr G t) (m_pte G t) [] = Some o /\
    range_transcriptN G H pp t = snd (PK_Verify G H (t_g G (a_enc G pp)) (t_h G (a_enc G pp)) (m_pks G t) (m_ref G t) (snd o) (m_pk G t)).
Proof.
  intros pp t c b V B. unfold VerifyCTxN in V. cbv zeta in V.
  destruct (PTE_verifies G H _ _ _ _ _ _ _) as [o|] eqn:EP; cbn [obind] in V; [|discriminate].
  assert (LL : length (map (tmY G) (firstn (length (m_pkr G t)) (m_rtr G t)) ++ [tY G (m_ref G t)]) = S (length (m_pkr G t))).
  { destruct (ptes_out _ _ _ _ _ _ _ _ EP) as [_ EN]. rewrite app_length, map_length, firstn_length. cbn [length].
    assert (length (m_pkr G t) <= length (m_rtr G t))%nat; [|lia]. clear -EN. revert EN. generalize (m_rtr G t) (m_pte G t).
    induction (m_pkr G t) as [|a l IH]; intros cts ps EN; cbn [enough] in EN; [cbn; lia|]. destruct cts, ps; try contradiction. cbn [length].
    specialize (IH _ _ (proj2 (proj2 EN))). lia. }
  match type of V with obind ?x _ = _ => destruct x as [o3|] eqn:EB; cbn [obind] in V; [|discriminate] end.
  split; [|split; [exact LL|]].
  - apply fast_dims in EB; [exact EB|]. rewrite LL. exact B.
  - exists o. split; [reflexivity|]. unfold range_transcriptN. rewrite EP. destruct o. reflexivity.
Qed.

Theorem C94_one_to_many : encodings_ok G hex -> forall pp t t' c c' b b',
  (N.of_nat (bp_range G (a_bullet G pp) * S (length (m_pkr G t))) < 2 ^ 64)%N -> length (m_pkr G t) = length (m_pkr G t') ->
  VerifyCTxN G H hex pp t c = Some b -> VerifyCTxN G H hex pp t' c' = Some b' ->
  owner_inputN G H hex pp t = owner_inputN G H hex pp t' ->
  m_sn G t = m_sn G t' /\ m_pks G t = m_pks G t' /\ m_pkr G t = m_pkr G t' /\ m_bal G t = m_bal G t' /\ m_str G t = m_str G t' /\
  map read_part (firstn (length (m_pkr G t)) (m_rtr G t)) = map read_part (firstn (length (m_pkr G t)) (m_rtr G t')) /\ m_ref G t = m_ref G t'.
Proof.
  intros EO pp t t' c c' b b' B EL V V' E. destruct (verifyN_inv _ _ _ _ V B) as [D [DL [o [EP ER]]]].
  destruct (verifyN_inv _ _ _ _ V' ltac:(rewrite <- EL; exact B)) as [D' [DL' [o' [EP' ER']]]].
  unfold owner_inputN in E. cbv zeta in E. rewrite (BP_FastVerify_spec G H _ _ _ _ _ D), (BP_FastVerify_spec G H _ _ _ _ _ D') in E. injection E as E.
  apply dle_split in E. destruct E as [x [y E]]. unfold DLK_Verify in E. cbn [snd] in E. rewrite <- !app_assoc in E.
  destruct (ptes_out _ _ _ _ _ _ _ _ EP) as [EO1 EN]. destruct (ptes_out _ _ _ _ _ _ _ _ EP') as [EO1' EN']. cbn [app] in EO1, EO1'.
  assert (SP : forall x y, snd o ++ x = snd o' ++ y -> snd o = snd o').
  { intros u v Q. pose proof Q as Q'. rewrite EO1, EO1' in Q. apply ptes_split in Q; try assumption. destruct Q as [_ [_ Q]]. subst v. apply app_inv_tail in Q'. exact Q'. }
  assert (SP2 : forall x y, range_transcriptN G H pp t ++ x = range_transcriptN G H pp t' ++ y -> range_transcriptN G H pp t = range_transcriptN G H pp t').
  { intros u v Q. pose proof Q as Q'. rewrite ER, ER' in Q. apply pk_split in Q; [|exact SP]. destruct Q as [_ [_ [_ [_ [_ Q]]]]]. subst v. apply app_inv_tail in Q'. exact Q'. }
  rewrite DL in D. rewrite DL', <- EL in D'.
  destruct (trend_split _ _ _ _ _ _ _ _ D D' SP2 E) as [ET ES].
  pose proof ET as ET'. apply (f_equal (fun l => l ++ [])) in ET'. rewrite ER, ER' in ET'. apply pk_split in ET'; [|exact SP].
  destruct ET' as [EO2 [_ [EF _]]]. apply (f_equal (fun l => l ++ [])) in EO2. rewrite EO1, EO1' in EO2.
  apply ptes_split in EO2; try assumption. destruct EO2 as [EK [EX _]].
  do 3 (apply (bytes_app_inj G) in ES; let Q := fresh in destruct ES as [Q ES]).
  unfold ToSignN in ES. rewrite <- !app_assoc in ES. apply (hex_split EO) in ES. destruct ES as [-> ES].
  apply (bytes_app_inj G) in ES; destruct ES as [EPS ES]. rewrite EK in ES. apply app_inv_head in ES.
  unfold T_CTToByteString in ES. rewrite <- !app_assoc in ES.
  do 4 (apply (bytes_app_inj G) in ES; let Q := fresh in destruct ES as [Q ES]).
  repeat split; try assumption.
  - destruct (m_bal G t) as [X0 Y0], (m_bal G t') as [X1 Y1]. cbn [tX tY] in *. congruence.
  - destruct (m_str G t) as [X0 Y0], (m_str G t') as [X1 Y1]. cbn [tX tY] in *. congruence.
Qed.
End Binding.

(** ** C95 *)
Variable key : pt G -> N.
(** the miner accepts a one-to-one transaction only if it verifies and names the two
    accounts; what it rejects changes nothing *)
Theorem C95_miner_one_to_one : forall (H : list N -> Z) hex pp st t accts i j c s1 s2 b accts',
  Miner1 G key H hex pp st t accts i j c s1 s2 = Some (b, accts') ->
  if b then VerifyCTx1 G H hex pp t c = Some true /\ c_pks G t = ac_pk G (nth i accts (acct0 G)) /\ c_pkr G t = ac_pk G (nth j accts (acct0 G)) /\
            length accts' = length accts /\
            forall k, (k <> i -> k <> j -> nth k accts' (acct0 G) = nth k accts (acct0 G)) /\
              ac_id G (nth k accts' (acct0 G)) = ac_id G (nth k accts (acct0 G)) /\
              ac_pk G (nth k accts' (acct0 G)) = ac_pk G (nth k accts (acct0 G)) /\
              ac_sk G (nth k accts' (acct0 G)) = ac_sk G (nth k accts (acct0 G))
  else accts' = accts.
Proof.
  intros H hex pp st t accts i j c s1 s2 b accts' M. unfold Miner1 in M.
  destruct (peqb_spec G (c_pks G t) (ac_pk G (nth i accts (acct0 G)))) as [PS|_]; cbn [negb] in M; [|inversion M; reflexivity].
  destruct (peqb_spec G (c_pkr G t) (ac_pk G (nth j accts (acct0 G)))) as [PR|_]; cbn [negb] in M; [|inversion M; reflexivity].
  destruct (VerifyCTx1 G H hex pp t c) as [[|]|] eqn:V; cbn [obind] in M; try discriminate; [|inversion M; reflexivity].
  unfold UpdateAccount1 in M. cbv zeta in M.
  destruct (T_Dec G key _ st _ _ s1) as [m1|]; cbn [obind] in M; [|discriminate].
  set (acc1 := upd accts i _) in M.
  destruct (T_Dec G key _ st _ _ s2) as [m2|]; cbn [obind] in M; [|discriminate]. inversion M. subst b accts'. clear M.
  split; [reflexivity|]. split; [exact PS|]. split; [exact PR|].
  assert (U : forall (l : list (Account G)) k n ct m, k = n \/ nth k (upd l n (set_balance G (nth n l (acct0 G)) ct m)) (acct0 G) = nth k l (acct0 G)).
  { intros l k n ct m. destruct (Nat.eq_dec k n); [left; assumption|right]. apply nth_upd_other. congruence. }
  assert (W : forall (l : list (Account G)) k n ct m, let a := nth k (upd l n (set_balance G (nth n l (acct0 G)) ct m)) (acct0 G) in
    let o := nth k l (acct0 G) in ac_id G a = ac_id G o /\ ac_pk G a = ac_pk G o /\ ac_sk G a = ac_sk G o).
  { intros l k n ct m. cbv zeta. destruct (U l k n ct m) as [->| ->]; [|auto].
    destruct (Nat.lt_ge_cases n (length l)) as [Hn|Hn]; [rewrite nth_upd_same by exact Hn; auto|].
    rewrite !nth_overflow; [auto|lia|rewrite upd_length; lia]. }
  split; [unfold acc1; rewrite !upd_length; reflexivity|]. intros k. split.
  - intros Ki Kj. rewrite nth_upd_other by congruence. unfold acc1. apply nth_upd_other. congruence.
  - match goal with |- ac_id G (nth k (upd acc1 j (set_balance G _ ?ct ?m)) _) = _ /\ _ => destruct (W acc1 k j ct m) as [-> [-> ->]] end.
    unfold acc1. apply W.
Qed.

(** the same for one-to-many transactions; the sender's serial number advances *)
Theorem C95_miner_one_to_many : forall (H : list N -> Z) hex pp st t s rs c s1 ss b s' rs',
  MinerN G key H hex pp st t s rs c s1 ss = Some (b, (s', rs')) ->
  if b then VerifyCTxN G H hex pp t c = Some true /\ m_pks G t = ac_pk G s /\ firstn (length rs) (m_pkr G t) = map (ac_pk G) rs /\
            ac_sn G s' = ac_sn G s + 1 /\ ac_id G s' = ac_id G s /\ ac_pk G s' = ac_pk G s /\ ac_sk G s' = ac_sk G s /\
            map (ac_pk G) rs' = map (ac_pk G) rs /\ map (ac_id G) rs' = map (ac_id G) rs /\ map (ac_sk G) rs' = map (ac_sk G) rs /\
            map (ac_sn G) rs' = map (ac_sn G) rs
  else s' = s /\ rs' = rs.
Proof.
  intros H hex pp st t s rs c s1 ss b s' rs' M. unfold MinerN in M.
  destruct (peqb_spec G (m_pks G t) (ac_pk G s)) as [PS|_]; cbn [negb] in M; [|inversion M; auto].
  destruct (receivers_match G (m_pkr G t) rs) as [[|]|] eqn:RM; cbn [obind negb] in M; try discriminate; [|inversion M; auto].
  destruct (VerifyCTxN G H hex pp t c) as [[|]|] eqn:V; cbn [obind] in M; try discriminate; [|inversion M; auto].
  unfold UpdateAccountN in M. cbv zeta in M.
  destruct (T_Dec G key _ st _ _ s1) as [m1|]; cbn [obind] in M; [|discriminate].
  destruct (credit G key pp st (m_rtr G t) rs ss) as [l|] eqn:CR; cbn [obind] in M; [|discriminate]. inversion M. subst b s' rs'. clear M.
  split; [reflexivity|]. split; [exact PS|]. split.
  { clear -RM. revert RM. generalize (m_pkr G t). induction rs as [|r rs IH]; intros pkr E; [reflexivity|].
    destruct pkr as [|pk pkr]; [discriminate|]. cbn [receivers_match] in E. destruct (peqb_spec G pk (ac_pk G r)) as [->|_]; [|discriminate].
    cbn [length firstn map]. rewrite IH by exact E. reflexivity. }
  cbn [ac_sn ac_id ac_pk ac_sk]. do 4 (split; [reflexivity|]).
  clear -CR. revert ss l CR. generalize (m_rtr G t). induction rs as [|r rs IH]; intros rtr ss l E.
  - destruct rtr; inversion E; auto.
  - destruct rtr as [|x rtr]; [discriminate|]. cbn [credit] in E. cbv zeta in E. destruct (T_Dec G key _ st _ _ _) as [m|]; cbn [obind] in E; [|discriminate].
    destruct (credit G key pp st rtr rs (tl ss)) as [l'|] eqn:E'; cbn [obind] in E; [|discriminate]. inversion E. subst l.
    destruct (IH _ _ _ E') as [A1 [A2 [A3 A4]]]. cbn [map set_balance ac_pk ac_id ac_sk ac_sn]. rewrite A1, A2, A3, A4. auto.
Qed.

(** the audits accept only proofs about transactions of the audited user *)
Theorem C95_audits : forall (H : list N -> Z) pp u pk t t1 t2 ts v r1 r2 L R p p' p2 c,
  (AuditOpen G H pp u t v p = true -> ac_pk G u = c_pks G t \/ ac_pk G u = c_pkr G t) /\
  (AuditRate G H pp pk t1 t2 r1 r2 p' = true -> pk = c_pkr G t1 /\ pk = c_pks G t2) /\
  (AuditLimit G H pp pk ts L R p2 c = Some true -> Forall (fun t => c_pks G t = pk) ts).
Proof.
  intros H pp u pk t t1 t2 ts v r1 r2 L R p p' p2 c. split; [|split]; intros A.
  - unfold AuditOpen in A. destruct (peqb_spec G (ac_pk G u) (c_pks G t)) as [E|_]; [left; exact E|].
    destruct (peqb_spec G (ac_pk G u) (c_pkr G t)) as [E|_]; [right; exact E|discriminate].
  - unfold AuditRate in A. destruct (peqb_spec G pk (c_pkr G t1)) as [E|_]; [|discriminate]. destruct (peqb_spec G pk (c_pks G t2)) as [E'|_]; [auto|discriminate].
  - unfold AuditLimit in A. destruct (forallb _ ts) eqn:F; [|discriminate]. rewrite forallb_forall in F. apply Forall_forall.
    intros x I. specialize (F x I). destruct (peqb_spec G pk (c_pks G x)); [congruence|discriminate].
Qed.
End Props.

(** ** concrete cases *)
(** an encoding with the required property: a sign and a row of digits *)
Definition hexu (z : Z) : list N := (if z <? 0 then [45%N] else []) ++ repeat 49%N (Z.to_nat (Z.abs z)).
Lemma hexu_ok : encodings_ok G4099 hexu.
Proof.
  split; [|split].
  - intros P. cbn. lia.
  - intros z. unfold hexu. apply Forall_app. split; [destruct (z <? 0); repeat constructor; lia|].
    apply Forall_forall. intros c I. apply repeat_spec in I. subst c. lia.
  - intros a b E. unfold hexu in E. destruct (a <? 0) eqn:A, (b <? 0) eqn:B; cbn [app] in E.
    + injection E as E. apply (f_equal (@length N)) in E. rewrite !repeat_length in E. lia.
    + destruct (Z.to_nat (Z.abs b)); discriminate.
    + destruct (Z.to_nat (Z.abs a)); discriminate.
    + apply (f_equal (@length N)) in E. rewrite !repeat_length in E. lia.
Qed.

Definition renumber (t : CTx1 G4099) (sn : Z) : CTx1 G4099 :=
  {| c_sn := sn; c_bal := c_bal _ t; c_pks := c_pks _ t; c_pkr := c_pkr _ t; c_tr := c_tr _ t; c_pte := c_pte _ t;
     c_bp := c_bp _ t; c_ref := c_ref _ t; c_pk := c_pk _ t; c_dle := c_dle _ t |}.
Definition alice_pays : CTx1 G4099 := match CreateCTx1 G4099 toyH hexu ap4099 alice 3 (ac_pk G4099 bob) cr8 with Some t => t | None => ctx0 G4099 end.

(** a payment and the same payment with another serial number are both checked to the end;
    the second is rejected, and the challenges are hashes of different strings *)
Example C94_run : let t' := renumber alice_pays 3 in
  VerifyCTx1 G4099 toyH hexu ap4099 alice_pays 5 = Some true /\ VerifyCTx1 G4099 toyH hexu ap4099 t' 5 = Some false /\
  owner_input1 G4099 toyH hexu ap4099 alice_pays <> owner_input1 G4099 toyH hexu ap4099 t'.
Proof.
  cbv zeta. assert (V : VerifyCTx1 G4099 toyH hexu ap4099 alice_pays 5 = Some true) by (vm_compute; reflexivity).
  assert (V' : VerifyCTx1 G4099 toyH hexu ap4099 (renumber alice_pays 3) 5 = Some false) by (vm_compute; reflexivity).
  split; [exact V|]. split; [exact V'|]. intros E.
  destruct (C94_one_to_one G4099 toyH hexu hexu_ok ap4099 _ _ 5 5 _ _ ltac:(reflexivity) V V' E) as [S _]. vm_compute in S. discriminate.
Qed.

Example C94_many_run : match CreateCTxN G4099 toyH hexu ap4099 alice [4] [ac_pk G4099 bob] mr4 with
  | Some t => VerifyCTxN G4099 toyH hexu ap4099 t 5 = Some true /\ (N.of_nat (bp_range G4099 (a_bullet G4099 ap4099) * S (length (m_pkr G4099 t))) < 2 ^ 64)%N
  | None => False end.
Proof. vm_compute. split; reflexivity. Qed.

(** the miner accepts (C46_C47_run, C51_mint_run) and rejects *)
Example C95_run : forall st, Miner1 G4099 key4099 toyH hexu ap4099 st alice_pays [alice; bob; carol] 0 2 5 [] [] = Some (false, [alice; bob; carol]).
Proof. intros st. unfold Miner1. replace (peqb G4099 (c_pks G4099 alice_pays) _) with true by (vm_compute; reflexivity).
  replace (peqb G4099 (c_pkr G4099 alice_pays) _) with false by (vm_compute; reflexivity). reflexivity. Qed.

Print Assumptions C94_one_to_one.
Print Assumptions C94_one_to_many.
Print Assumptions C95_miner_one_to_one.
Print Assumptions C95_miner_one_to_many.
Print Assumptions C95_audits.

(** Properties C45, C49 and C51: one-to-many confidential payments. *)
From Coq Require Import NArith ZArith List Lia Bool Arith Setoid.
From Coq Require Import ZifyBool ZifyNat ZifyN.
From Verif.Base Require Import Words ListX.
From Verif.Crypto Require Import BigIntModel BigIntSpec BigIntProofs.
From Verif.Group Require Import ECModel ECProofs ZqGroup.
From Verif.PKE Require Import DlogModel DlogSpec DlogProofs DlogProps ElGamalModel ElGamalProofs ElGamalProps.
From Verif.Sigma Require Import SigmaModel SigmaSpec SigmaProofs SigmaProps.
From Verif.Bullet Require Import IPModel BPModel BPSpec IPProofs BPProofs BPProps GadgetModel GadgetProps.
From Verif.ADCP Require Import ADCPModel ADCPSpec ADCPProofs ADCPProps.
Import ListNotations.
Local Open Scope Z_scope.

Section Props.
Variable G : ECGroup.
Local Notation q := (order G).
Local Infix "+p" := (padd G) (at level 50, left associativity).
Local Infix "-p" := (psub G) (at level 50, left associativity).
Local Notation "P *p k" := (pmul G P k%Z) (at level 40, left associativity).
Local Notation "a == b" := (cong q a b) (at level 70).

(** CreateCTx with the sender's transfer ciphertext [str] and the sender's remaining
    balance [m'] as parameters: what a sender with a modified program can run. *)
Definition Build (H : list N -> Z) hex (pp : APP G) (s : Account G) (vs : list Z) (pkr : list (pt G)) (rn : MRand)
  (str : TCT G) (m' : Z) : option (CTxN G) :=
  let g := t_g G (a_enc G pp) in
  let h := t_h G (a_enc G pp) in
  let rtr := map2 (fun pk x => T_MREnc G (a_enc G pp) [pk; a_pka G pp] (fst x) (snd x)) pkr (combine vs (mr_rs rn)) in
  match PTE_proves G H g h (a_pka G pp) pkr rtr vs (mr_rs rn) (mr_ab rn) [] with
  | Some pte =>
    let upd_ct := T_HomoSub G (ac_ct G s) str in
    let ref := T_ReEnc G (a_enc G pp) (ac_pk G s) (ac_sk G s) upd_ct (mr_star rn) in
    let k := PK_Prove G H g h (ac_pk G s) ref m' (mr_star rn) (snd pte) (mr_a2 rn) (mr_b2 rn) in
    match BP_Prove G H (a_bullet G pp) (map (tmY G) rtr ++ [tY G ref]) (mr_rs rn ++ [mr_star rn]) (vs ++ [m']) (snd k) (mr_bp rn) with
    | Some bp =>
      let hb := fold_left (fun acc x => acc -p tmY G x) rtr (tY G str) in
      let w := fold_left Z.sub (mr_rs rn) (mr_r rn) in
      let dk := DLK_Prove G H g hb w (snd bp) (mr_k rn) in
      let ctx d := {| m_sn := ac_sn G s; m_bal := ac_ct G s; m_pks := ac_pk G s; m_str := str; m_pkr := pkr; m_rtr := rtr;
                      m_ref := ref; m_pk := fst k; m_dle := d; m_pte := fst pte; m_bp := fst bp; m_dlk := fst dk |} in
      let blank := {| dleA1 := inf G; dleA2 := inf G; dlez := 0 |} in
      let d := DLE_Prove G H (tY G upd_ct -p tY G ref) (tX G upd_ct -p tX G ref) g (ac_pk G s) (ac_sk G s)
                 (snd dk ++ ToSignN G hex (ctx blank)) (mr_w rn) in
      Some (ctx (fst d))
    | None => None
    end
  | None => None
  end.

Lemma Create_is_Build : forall (H : list N -> Z) hex pp s vs pkr rn,
  CreateCTxN G H hex pp s vs pkr rn =
  Build H hex pp s vs pkr rn (T_Enc G (a_enc G pp) (ac_pk G s) (fold_left Z.add vs 0) (mr_r rn)) (ac_m G s - fold_left Z.add vs 0).
Proof. reflexivity. Qed.

Lemma fold_add : forall vs a, fold_left Z.add vs a = a + zsum vs.
Proof. induction vs as [|v vs IH]; intros a; cbn [fold_left zsum]; [lia|]. rewrite IH. lia. Qed.

Lemma PTE_many : forall (H : list N -> Z) (pp : APP G) pkr vs rs ab tr,
  length vs = length pkr -> length rs = length pkr -> length ab = length pkr ->
  let rtr := map2 (fun pk x => T_MREnc G (a_enc G pp) [pk; a_pka G pp] (fst x) (snd x)) pkr (combine vs rs) in
  exists ps tr', PTE_proves G H (t_g G (a_enc G pp)) (t_h G (a_enc G pp)) (a_pka G pp) pkr rtr vs rs ab tr = Some (ps, tr') /\
    PTE_verifies G H (t_g G (a_enc G pp)) (t_h G (a_enc G pp)) (a_pka G pp) pkr rtr ps tr = Some (true, tr').
Proof.
  intros H pp. induction pkr as [|pk pkr IH]; intros vs rs ab tr L1 L2 L3.
  - destruct vs, rs, ab; try discriminate. exists [], tr. split; reflexivity.
  - destruct vs as [|v vs]; [discriminate|]. destruct rs as [|r rs]; [discriminate|]. destruct ab as [|x ab]; [discriminate|].
    cbn [length] in L1, L2, L3.
    destruct (C34_complete G H (a_enc G pp) [pk; a_pka G pp] v r tr (fst x) (snd x)) as [p [tr1 [EP VP]]].
    destruct (IH vs rs ab tr1 ltac:(lia) ltac:(lia) ltac:(lia)) as [ps [tr2 [EPS VPS]]].
    cbn [combine map2 fst snd]. exists (p :: ps), tr2.
    cbn [PTE_proves PTE_verifies]. rewrite EP, VP. cbn [obind fst snd]. rewrite EPS, VPS. split; reflexivity.
Qed.

Lemma many_blind : forall (pp : APP G) pkr vs rs r Y, length vs = length pkr -> length rs = length pkr ->
  Y = t_g G (a_enc G pp) *p r +p t_h G (a_enc G pp) *p zsum vs ->
  fold_left (fun acc x => acc -p tmY G x) (map2 (fun pk x => T_MREnc G (a_enc G pp) [pk; a_pka G pp] (fst x) (snd x)) pkr (combine vs rs)) Y
  = t_g G (a_enc G pp) *p fold_left Z.sub rs r.
Proof.
  intros pp. induction pkr as [|pk pkr IH]; intros vs rs r Y L1 L2 E.
  - destruct vs, rs; try discriminate. cbn [map2 combine fold_left]. rewrite E. cbn [zsum]. rewrite pmul_0, padd_inf. reflexivity.
  - destruct vs as [|v vs]; [discriminate|]. destruct rs as [|r0 rs]; [discriminate|]. cbn [length] in L1, L2.
    cbn [combine map2 fold_left fst snd T_MREnc tmY]. apply IH; [lia|lia|]. rewrite E. cbn [zsum].
    generalize (zsum vs) (t_g G (a_enc G pp)) (t_h G (a_enc G pp)). clear. intros. logs G. gring.
Qed.

Lemma many_commits : forall (pp : APP G) pkr vs rs P r m, length vs = length pkr -> length rs = length pkr ->
  P = t_g G (a_enc G pp) *p r +p t_h G (a_enc G pp) *p m ->
  commits G (t_g G (a_enc G pp)) (t_h G (a_enc G pp))
    (map (tmY G) (map2 (fun pk x => T_MREnc G (a_enc G pp) [pk; a_pka G pp] (fst x) (snd x)) pkr (combine vs rs)) ++ [P]) (rs ++ [r]) (vs ++ [m]).
Proof.
  intros pp. induction pkr as [|pk pkr IH]; intros vs rs P r m L1 L2 E.
  - destruct vs, rs; try discriminate. split; [reflexivity|]. split; [reflexivity|].
    intros [|j] Hj; [exact E|cbn in Hj; lia].
  - destruct vs as [|v vs]; [discriminate|]. destruct rs as [|r0 rs]; [discriminate|]. cbn [length] in L1, L2.
    destruct (IH vs rs P r m ltac:(lia) ltac:(lia) E) as [A [B C]]. cbn [combine map2 map app fst snd T_MREnc tmY].
    split; [cbn [length]; congruence|]. split; [cbn [length]; congruence|].
    intros [|j] Hj; [reflexivity|]. cbn [nth]. apply C. cbn [length] in Hj. lia.
Qed.

(** A built transaction verifies whenever [m'] is what is left of the balance after
    [str], and the second part of [str] hides the sum of the amounts. *)
Lemma Build_verifies : forall (H : list N -> Z) hex pp s vs pkr rn str m',
  params_ok G pp (S (length pkr)) (mr_bp rn) -> invertible G (ac_sk G s) -> ac_pk G s = t_g G (a_enc G pp) *p ac_sk G s ->
  T_DecECPoint G (ac_sk G s) (T_HomoSub G (ac_ct G s) str) = t_h G (a_enc G pp) *p m' ->
  tY G str = t_g G (a_enc G pp) *p mr_r rn +p t_h G (a_enc G pp) *p zsum vs ->
  length vs = length pkr -> length (mr_rs rn) = length pkr -> length (mr_ab rn) = length pkr ->
  Forall (amount G pp) vs -> amount G pp m' ->
  exists t, Build H hex pp s vs pkr rn str m' = Some t /\ pays G pp t vs /\
    m_pks G t = ac_pk G s /\ m_pkr G t = pkr /\ m_str G t = str /\
    (good_challenges G H (range_transcriptN G H pp t) (m_bp G t) -> forall c, VerifyCTxN G H hex pp t c = Some true).
Proof.
  intros H hex pp s vs pkr rn str m' [EG [EH W]] I K D YS L1 L2 L3 AV AM. unfold Build.
  set (g := t_g G (a_enc G pp)) in *. set (h := t_h G (a_enc G pp)) in *.
  destruct (PTE_many H pp pkr vs (mr_rs rn) (mr_ab rn) [] L1 L2 L3) as [ps [ptr [EP VP]]]. cbv zeta in EP, VP.
  assert (HB := many_blind pp pkr vs (mr_rs rn) (mr_r rn) (tY G str) L1 L2 YS).
  assert (MC := fun P => many_commits pp pkr vs (mr_rs rn) P (mr_star rn) m' L1 L2).
  fold g h in EP, VP, HB, MC.
  set (rtr := map2 (fun pk x => T_MREnc G (a_enc G pp) [pk; a_pka G pp] (fst x) (snd x)) pkr (combine vs (mr_rs rn))) in *.
  rewrite EP. cbn [fst snd].
  set (u := T_HomoSub G (ac_ct G s) str) in *. set (ref := T_ReEnc G (a_enc G pp) (ac_pk G s) (ac_sk G s) u (mr_star rn)).
  assert (RE : ref = T_Enc G (a_enc G pp) (ac_pk G s) m' (mr_star rn)).
  { unfold ref, T_ReEnc, T_Enc. rewrite msum2. do 2 f_equal. exact D. }
  destruct (PK_Prove G H g h (ac_pk G s) ref m' (mr_star rn) ptr (mr_a2 rn) (mr_b2 rn)) as [kp ktr] eqn:EK. cbn [fst snd].
  assert (VK : PK_Verify G H g h (ac_pk G s) ref ptr kp = (true, ktr)).
  { rewrite RE in EK |- *. exact (C33_complete G H (a_enc G pp) _ _ _ _ _ _ _ _ EK). }
  assert (CM := MC (tY G ref) ltac:(rewrite RE; unfold T_Enc; cbn [tY]; rewrite msum2; reflexivity)). clear MC.
  assert (LR : length rtr = length pkr) by (unfold rtr; rewrite map2_length, combine_length; lia).
  set (C := map (tmY G) rtr ++ [tY G ref]) in *.
  assert (LC : length C = S (length pkr)) by (unfold C; rewrite app_length, map_length, LR; cbn [length]; lia).
  assert (W' : bp_wf G (a_bullet G pp) C (mr_bp rn)) by (unfold bp_wf in W |- *; rewrite repeat_length in W; rewrite LC; exact W).
  rewrite EG, EH in CM.
  assert (RG : Forall (in_range (bp_range G (a_bullet G pp))) (vs ++ [m'])).
  { apply Forall_app. split; [exact AV|]. constructor; [exact AM|constructor]. }
  destruct (C41_complete G H (a_bullet G pp) C _ _ ktr (mr_bp rn) W' CM RG) as [bp [btr [EB VB]]].
  rewrite EB. cbn [fst snd]. rewrite HB.
  destruct (DLK_Prove G H g (g *p fold_left Z.sub (mr_rs rn) (mr_r rn)) (fold_left Z.sub (mr_rs rn) (mr_r rn)) btr (mr_k rn)) as [lp ltr] eqn:EL.
  assert (VL := C31_complete G H _ _ _ _ _ _ _ eq_refl EL). cbn [fst snd].
  set (blank := {| dleA1 := inf G; dleA2 := inf G; dlez := 0 |}).
  set (ctx := fun d => {| m_sn := ac_sn G s; m_bal := ac_ct G s; m_pks := ac_pk G s; m_str := str; m_pkr := pkr; m_rtr := rtr;
                      m_ref := ref; m_pk := kp; m_dle := d; m_pte := ps; m_bp := bp; m_dlk := lp |}).
  change ({| m_sn := ac_sn G s; m_bal := ac_ct G s; m_pks := ac_pk G s; m_str := str; m_pkr := pkr; m_rtr := rtr;
                      m_ref := ref; m_pk := kp; m_dle := blank; m_pte := ps; m_bp := bp; m_dlk := lp |}) with (ctx blank).
  assert (VD := refresh_dle G H (a_enc G pp) (ac_pk G s) (ac_sk G s) u (mr_star rn) (ltr ++ ToSignN G hex (ctx blank)) (mr_w rn) I K).
  cbv zeta in VD. fold ref in VD. fold g in VD.
  destruct (DLE_Prove G H (tY G u -p tY G ref) (tX G u -p tX G ref) g (ac_pk G s) (ac_sk G s) (ltr ++ ToSignN G hex (ctx blank)) (mr_w rn)) as [dp dtr] eqn:ED.
  cbn [fst snd] in VD. cbn [fst]. exists (ctx dp). split; [reflexivity|].
  split; [exists (mr_rs rn); split; [congruence|]; split; [exact L1|reflexivity]|]. do 3 (split; [reflexivity|]).
  assert (RT : range_transcriptN G H pp (ctx dp) = ktr).
  { unfold range_transcriptN, ctx. cbn [m_pks m_pkr m_rtr m_pte m_ref m_pk]. fold g h. rewrite VP, VK. reflexivity. }
  rewrite RT. cbn [ctx m_bp]. intros GC c. destruct (VB GC) as [_ FV].
  unfold VerifyCTxN, ctx. cbn [m_sn m_bal m_pks m_str m_pkr m_rtr m_ref m_pk m_dle m_pte m_bp m_dlk]. fold g h. rewrite VP. cbn [obind fst snd].
  rewrite VK. cbn [fst snd]. rewrite <- LR, firstn_all. fold C. rewrite FV. cbn [obind fst snd]. rewrite HB, VL. cbn [fst snd].
  change (ToSignN G hex _) with (ToSignN G hex (ctx blank)). fold u. rewrite VD. reflexivity.
Qed.

(** ** C45 *)
Theorem C45_one_to_many : forall (H : list N -> Z) hex pp s vs pkr rn,
  params_ok G pp (S (length pkr)) (mr_bp rn) -> account_ok G pp s ->
  length vs = length pkr -> length (mr_rs rn) = length pkr -> length (mr_ab rn) = length pkr ->
  Forall (amount G pp) vs -> amount G pp (ac_m G s - zsum vs) ->
  exists t, CreateCTxN G H hex pp s vs pkr rn = Some t /\ pays G pp t vs /\ m_pks G t = ac_pk G s /\ m_pkr G t = pkr /\
    m_str G t = T_Enc G (a_enc G pp) (ac_pk G s) (zsum vs) (mr_r rn) /\
    (good_challenges G H (range_transcriptN G H pp t) (m_bp G t) -> forall c, VerifyCTxN G H hex pp t c = Some true).
Proof.
  intros H hex pp s vs pkr rn PP AO L1 L2 L3 AV AM. rewrite Create_is_Build, fold_add, Z.add_0_l.
  pose proof AO as [I [K D]]. apply Build_verifies; try assumption.
  - unfold T_Enc. rewrite msum2. apply (debit_point G pp s _ (mr_r rn)); [exact AO|reflexivity|reflexivity].
  - unfold T_Enc. cbn [tY]. apply msum2.
Qed.

(** ** the miner *)
Variable key : pt G -> N.
Hypothesis key64 : forall P, (key P < 2 ^ 64)%N.
(** the decrypted balances after crediting the receivers *)
Lemma credit_ok : forall hash L T pp st pkr vs rs0 accts ss,
  decrypts G key hash L T pp st -> Forall (fair L T) ss -> length ss = length accts ->
  length vs = length pkr -> length rs0 = length pkr -> (length accts <= length pkr)%nat ->
  Forall (balance_ok G L T pp) accts -> receivers_match G pkr accts = Some true ->
  (forall k, (k < length accts)%nat -> 0 <= ac_m G (nth k accts (acct0 G)) + nth k vs 0 < covered L T) ->
  exists accts', credit G key pp st (map2 (fun pk x => T_MREnc G (a_enc G pp) [pk; a_pka G pp] (fst x) (snd x)) pkr (combine vs rs0)) accts ss = Some accts' /\
    length accts' = length accts /\ Forall (balance_ok G L T pp) accts' /\
    forall k, (k < length accts)%nat -> same_holder G (nth k accts' (acct0 G)) (nth k accts (acct0 G)) /\
      ac_m G (nth k accts' (acct0 G)) = ac_m G (nth k accts (acct0 G)) + nth k vs 0.
Proof.
  intros hash L T pp st pkr. induction pkr as [|pk pkr IH]; intros vs rs0 accts ss D F LS L1 L2 LA BO RM B.
  - destruct accts as [|a accts]; [|cbn in LA; lia]. exists []. cbn [credit]. split; [reflexivity|]. split; [reflexivity|]. split; [constructor|].
    intros k Hk. cbn in Hk. lia.
  - destruct accts as [|a accts].
    + exists []. destruct vs as [|v vs]; [discriminate|]. destruct rs0 as [|r rs0]; [discriminate|]. cbn [combine map2 credit]. split; [reflexivity|]. split; [reflexivity|]. split; [constructor|]. intros k Hk. cbn in Hk. lia.
    + destruct vs as [|v vs]; [discriminate|]. destruct rs0 as [|r rs0]; [discriminate|]. destruct ss as [|s1 ss]; [discriminate|].
      cbn [length] in L1, L2, LS, LA. cbn [receivers_match] in RM. destruct (peqb_spec G pk (ac_pk G a)) as [PK|_]; [|discriminate].
      pose proof (Forall_inv BO) as BA. pose proof (Forall_inv_tail BO) as BT. pose proof (Forall_inv F) as F1. pose proof (Forall_inv_tail F) as FT.
      destruct (IH vs rs0 accts ss D FT ltac:(lia) ltac:(lia) ltac:(lia) ltac:(lia) BT RM) as [accts' [E [LL [BO' M]]]].
      { intros k Hk. apply (B (S k)). cbn [length]. lia. }
      cbn [combine map2 credit T_MREnc map nth tvX tmY fst snd hd tl].
      assert (P := credit_point G pp a (pk *p r) r v _ (proj1 BA) (f_equal (fun P => P *p r) PK) eq_refl).
      pose proof (B 0%nat ltac:(cbn [length]; lia)) as B0. cbn [nth] in B0.
      rewrite (Dec_some G key key64 hash L T pp st _ _ _ _ D F1 P B0). cbn [obind]. rewrite E. cbn [obind].
      eexists. split; [reflexivity|]. split; [cbn [length]; congruence|].
      split; [constructor; [apply set_balance_ok; [exact (proj1 BA)|exact P|exact B0]|exact BO']|].
      intros [|k] Hk; cbn [nth]; [split; [repeat split|reflexivity]|]. apply M. cbn [length] in Hk. lia.
Qed.

(** Whatever the sender's ciphertext is: what the miner makes of a transaction that
    verifies, whose receiver ciphertexts encrypt [vs] and whose sender ciphertext
    decrypts (for the sender) to [d]. *)
Lemma MinerN_does : forall (H : list N -> Z) hex hash L T pp st t vs s rs c s1 ss d,
  decrypts G key hash L T pp st -> fair L T s1 -> Forall (fair L T) ss -> length ss = length rs ->
  pays G pp t vs -> balance_ok G L T pp s -> Forall (balance_ok G L T pp) rs ->
  m_pks G t = ac_pk G s -> receivers_match G (m_pkr G t) rs = Some true -> VerifyCTxN G H hex pp t c = Some true ->
  T_DecECPoint G (ac_sk G s) (m_str G t) = t_h G (a_enc G pp) *p d -> 0 <= ac_m G s - d < covered L T ->
  (forall k, (k < length rs)%nat -> 0 <= ac_m G (nth k rs (acct0 G)) + nth k vs 0 < covered L T) ->
  exists s' rs', MinerN G key H hex pp st t s rs c s1 ss = Some (true, (s', rs')) /\
    balance_ok G L T pp s' /\ Forall (balance_ok G L T pp) rs' /\ length rs' = length rs /\
    ac_m G s' = ac_m G s - d /\
    (forall k, (k < length rs)%nat -> same_holder G (nth k rs' (acct0 G)) (nth k rs (acct0 G)) /\
       ac_m G (nth k rs' (acct0 G)) = ac_m G (nth k rs (acct0 G)) + nth k vs 0).
Proof.
  intros H hex hash L T pp st t vs s rs c s1 ss d D F1 FS LS [rs0 [L1 [L2 ER]]] SO RO PK RM VT DP B BR.
  assert (LA : (length rs <= length (m_pkr G t))%nat).
  { clear - RM. revert RM. generalize (m_pkr G t). induction rs as [|r rs IH]; intros l RM; [cbn; lia|].
    destruct l as [|p l]; [discriminate|]. cbn [receivers_match] in RM. destruct (peqb G p (ac_pk G r)); [|discriminate].
    apply IH in RM. cbn [length]. lia. }
  destruct (credit_ok hash L T pp st (m_pkr G t) vs rs0 rs ss D FS LS L2 ltac:(lia) LA RO RM BR) as [rs' [E [LL [BO' M]]]].
  unfold MinerN. rewrite PK, peqb_refl, RM. cbn [negb obind]. rewrite VT. cbn [obind]. unfold UpdateAccountN.
  assert (P : T_DecECPoint G (ac_sk G s) (T_HomoSub G (ac_ct G s) (m_str G t)) = t_h G (a_enc G pp) *p (ac_m G s - d)).
  { rewrite Dec_sub, DP, (proj2 (proj2 (proj1 SO))). apply h_sub. }
  rewrite (Dec_some G key key64 hash L T pp st _ _ _ _ D F1 P B). cbn [obind]. rewrite ER, E. cbn [obind].
  eexists. exists rs'. split; [reflexivity|]. split.
  { split; [|exact B]. destruct SO as [[I [K _]] _]. split; [exact I|]. split; [exact K|exact P]. }
  split; [exact BO'|]. split; [exact LL|]. split; [reflexivity|exact M].
Qed.

Lemma zsum_shift : forall (rs rs' : list (Account G)) vs, length rs' = length rs -> length vs = length rs ->
  (forall k, (k < length rs)%nat -> ac_m G (nth k rs' (acct0 G)) = ac_m G (nth k rs (acct0 G)) + nth k vs 0) ->
  total G rs' = total G rs + zsum vs.
Proof.
  unfold total. induction rs as [|r rs IH]; intros rs' vs L1 L2 M.
  - destruct rs', vs; try discriminate. reflexivity.
  - destruct rs' as [|r' rs']; [discriminate|]. destruct vs as [|v vs]; [discriminate|]. cbn [length] in L1, L2.
    cbn [map zsum]. rewrite (IH rs' vs) by (try lia; intros k Hk; apply (M (S k)); cbn [length]; lia).
    pose proof (M 0%nat ltac:(cbn [length]; lia)) as M0. cbn [nth] in M0. lia.
Qed.

(** ** C51: what holds.  When the sender's ciphertext encrypts the sum of the amounts,
    as the one of CreateCTx does, and the accounts given to Miner are those of all the
    receivers, the sender loses what the receivers gain. *)
Theorem C51_wellformed_partial : forall (H : list N -> Z) hex hash L T pp st t vs s rs c s1 ss r,
  decrypts G key hash L T pp st -> fair L T s1 -> Forall (fair L T) ss -> length ss = length rs ->
  pays G pp t vs -> m_str G t = T_Enc G (a_enc G pp) (m_pks G t) (zsum vs) r ->
  balance_ok G L T pp s -> Forall (balance_ok G L T pp) rs ->
  m_pks G t = ac_pk G s -> m_pkr G t = map (ac_pk G) rs -> VerifyCTxN G H hex pp t c = Some true ->
  0 <= ac_m G s - zsum vs < covered L T ->
  (forall k, (k < length rs)%nat -> 0 <= ac_m G (nth k rs (acct0 G)) + nth k vs 0 < covered L T) ->
  exists s' rs', MinerN G key H hex pp st t s rs c s1 ss = Some (true, (s', rs')) /\
    balance_ok G L T pp s' /\ Forall (balance_ok G L T pp) rs' /\ total G (s' :: rs') = total G (s :: rs) /\
    (forall k, (k < length rs)%nat -> ac_m G (nth k rs' (acct0 G)) = ac_m G (nth k rs (acct0 G)) + nth k vs 0).
Proof.
  intros H hex hash L T pp st t vs s rs c s1 ss r D F1 FS LS PY ES SO RO PK PR VT B BR.
  assert (RM : receivers_match G (m_pkr G t) rs = Some true).
  { rewrite PR. clear. induction rs as [|a rs IH]; [reflexivity|]. cbn [map receivers_match]. rewrite peqb_refl. exact IH. }
  destruct (MinerN_does H hex hash L T pp st t vs s rs c s1 ss (zsum vs) D F1 FS LS PY SO RO PK RM VT) as [s' [rs' [E [SO' [RO' [LL [MS MR]]]]]]].
  - rewrite ES. unfold T_Enc. rewrite msum2, PK. destruct SO as [[I [K _]] _]. rewrite K. apply Dec_enc. exact I.
  - exact B.
  - exact BR.
  - exists s', rs'. split; [exact E|]. split; [exact SO'|]. split; [exact RO'|]. split.
    + destruct PY as [rs0 [L1 [L2 _]]]. rewrite PR, map_length in L2.
      pose proof (zsum_shift rs rs' vs LL L2 (fun k Hk => proj2 (MR k Hk))) as ZS. unfold total in *. cbn [map zsum]. lia.
    + intros k Hk. apply MR. exact Hk.
Qed.

(** ** C51: what is false.  Miner accepts a list of accounts that stops early; the sender
    pays for the receivers that are missing. *)
Theorem C51_dropped_receivers_refuted : forall (H : list N -> Z) hex hash L T pp st t vs s rs dropped c s1 ss r,
  decrypts G key hash L T pp st -> fair L T s1 -> Forall (fair L T) ss -> length ss = length rs ->
  pays G pp t vs -> m_str G t = T_Enc G (a_enc G pp) (m_pks G t) (zsum vs) r ->
  balance_ok G L T pp s -> Forall (balance_ok G L T pp) rs ->
  m_pks G t = ac_pk G s -> m_pkr G t = map (ac_pk G) rs ++ dropped -> VerifyCTxN G H hex pp t c = Some true ->
  0 <= ac_m G s - zsum vs < covered L T ->
  (forall k, (k < length rs)%nat -> 0 <= ac_m G (nth k rs (acct0 G)) + nth k vs 0 < covered L T) ->
  exists s' rs', MinerN G key H hex pp st t s rs c s1 ss = Some (true, (s', rs')) /\
    total G (s' :: rs') = total G (s :: rs) - zsum (skipn (length rs) vs).
Proof.
  intros H hex hash L T pp st t vs s rs dropped c s1 ss r D F1 FS LS PY ES SO RO PK PR VT B BR.
  assert (RM : receivers_match G (m_pkr G t) rs = Some true).
  { rewrite PR. clear. induction rs as [|a rs IH]; [destruct dropped; reflexivity|]. cbn [map app receivers_match]. rewrite peqb_refl. exact IH. }
  destruct (MinerN_does H hex hash L T pp st t vs s rs c s1 ss (zsum vs) D F1 FS LS PY SO RO PK RM VT) as [s' [rs' [E [SO' [RO' [LL [MS MR]]]]]]].
  - rewrite ES. unfold T_Enc. rewrite msum2, PK. destruct SO as [[I [K _]] _]. rewrite K. apply Dec_enc. exact I.
  - exact B.
  - exact BR.
  - exists s', rs'. split; [exact E|]. destruct PY as [rs0 [L1 [L2 _]]]. rewrite PR, app_length, map_length in L2.
    assert (ZS : total G rs' = total G rs + zsum (firstn (length rs) vs)).
    { apply zsum_shift; [exact LL|rewrite firstn_length; lia|]. intros k Hk. rewrite nth_firstn_lt by exact Hk. apply MR. exact Hk. }
    assert (SP : zsum vs = zsum (firstn (length rs) vs) + zsum (skipn (length rs) vs)) by (rewrite <- zsum_app, firstn_skipn; reflexivity).
    unfold total in *. cbn [map zsum]. lia.
Qed.

(** ** C51: what is false.  Nothing proves the first part of the sender's own ciphertext.
    A sender that replaces it by their key times the second part makes a transaction that
    verifies and that pays the receivers, but that debits nothing: money is created. *)
Definition free_ct (pp : APP G) (s : Account G) (v r : Z) : TCT G :=
  let Y := t_g G (a_enc G pp) *p r +p t_h G (a_enc G pp) *p v in {| tX := Y *p ac_sk G s; tY := Y |}.

Theorem C51_mint_refuted : forall (H : list N -> Z) hex hash L T pp st vs s rs rn s1 ss,
  decrypts G key hash L T pp st -> fair L T s1 -> Forall (fair L T) ss -> length ss = length rs ->
  params_ok G pp (S (length rs)) (mr_bp rn) -> length vs = length rs -> length (mr_rs rn) = length rs -> length (mr_ab rn) = length rs ->
  Forall (amount G pp) vs -> amount G pp (ac_m G s) -> balance_ok G L T pp s -> Forall (balance_ok G L T pp) rs ->
  (forall k, (k < length rs)%nat -> 0 <= ac_m G (nth k rs (acct0 G)) + nth k vs 0 < covered L T) ->
  exists t, Build H hex pp s vs (map (ac_pk G) rs) rn (free_ct pp s (zsum vs) (mr_r rn)) (ac_m G s) = Some t /\
    (good_challenges G H (range_transcriptN G H pp t) (m_bp G t) -> forall c,
     exists s' rs', MinerN G key H hex pp st t s rs c s1 ss = Some (true, (s', rs')) /\
       ac_m G s' = ac_m G s /\ total G (s' :: rs') = total G (s :: rs) + zsum vs).
Proof.
  intros H hex hash L T pp st vs s rs rn s1 ss D F1 FS LS PP L1 L2 L3 AV AM SO RO BR.
  pose proof SO as [[I [K DB]] CB].
  assert (DF : T_DecECPoint G (ac_sk G s) (free_ct pp s (zsum vs) (mr_r rn)) = t_h G (a_enc G pp) *p 0).
  { unfold T_DecECPoint, free_ct. cbn [tX tY]. generalize (t_g G (a_enc G pp) *p mr_r rn +p t_h G (a_enc G pp) *p zsum vs). intros Y.
    transitivity (Y -p Y *p (ac_sk G s * ModInverse (ac_sk G s) q)).
    - generalize (ModInverse (ac_sk G s) q). revert Y. clear. intros. logs G. gring.
    - rewrite (pmul_cong G _ _ _ (inv_cong G _ I)), pmul_1, pmul_0. apply padd_neg. }
  destruct (Build_verifies H hex pp s vs (map (ac_pk G) rs) rn (free_ct pp s (zsum vs) (mr_r rn)) (ac_m G s)) as [t [EB [PY [PK [PR [ES VT]]]]]];
    try assumption; try (rewrite map_length; assumption).
  - rewrite Dec_sub, DF, DB, h_sub, Z.sub_0_r. reflexivity.
  - reflexivity.
  - exists t. split; [exact EB|]. intros GC c.
    assert (RM : receivers_match G (m_pkr G t) rs = Some true).
    { rewrite PR. clear. induction rs as [|a rs IH]; [reflexivity|]. cbn [map receivers_match]. rewrite peqb_refl. exact IH. }
    destruct (MinerN_does H hex hash L T pp st t vs s rs c s1 ss 0 D F1 FS LS PY SO RO PK RM (VT GC c)) as [s' [rs' [E [SO' [RO' [LL [MS MR]]]]]]].
    + rewrite ES. exact DF.
    + lia.
    + exact BR.
    + exists s', rs'. split; [exact E|]. split; [lia|].
      pose proof (zsum_shift rs rs' vs LL L1 (fun k Hk => proj2 (MR k Hk))) as ZS. unfold total in *. cbn [map zsum]. lia.
Qed.

(** ** C49 *)
Theorem C49_supervisor_many : forall hash L T pp st ska t vs ss,
  decrypts G key hash L T pp st -> Forall (fair L T) ss -> length ss = length vs ->
  invertible G ska -> a_pka G pp = t_g G (a_enc G pp) *p ska ->
  pays G pp t vs -> Forall (fun v => 0 <= v < covered L T) vs -> SuperviseCTxN G key pp st ska t ss = Some vs.
Proof.
  intros hash L T pp st ska t vs ss D F LS I K [rs0 [L1 [L2 ER]]] B. unfold SuperviseCTxN. rewrite ER. clear ER.
  revert vs ss rs0 F LS L1 L2 B. generalize (m_pkr G t). induction l as [|pk pkr IH]; intros vs ss rs0 F LS L1 L2 B.
  - destruct vs; [reflexivity|discriminate].
  - destruct vs as [|v vs]; [discriminate|]. destruct rs0 as [|r rs0]; [discriminate|]. destruct ss as [|s ss]; [discriminate|].
    cbn [length] in LS, L1, L2. cbn [combine map2 supervise_loop T_MREnc map nth tvX tmY fst snd hd tl].
    rewrite (Dec_some G key key64 hash L T pp st _ _ v _ D (Forall_inv F)); [|rewrite K; apply Dec_enc; exact I|exact (Forall_inv B)].
    cbn [obind]. rewrite (IH vs ss rs0 (Forall_inv_tail F)); [reflexivity|lia|lia|lia|exact (Forall_inv_tail B)].
Qed.
End Props.

(** ** the hypotheses are met by concrete, non-trivial data *)
Definition hash4099 : list N -> pt G4099 := fun _ => pmul G4099 (pgen G4099) 7.
Definition ap4099 : APP G4099 :=
  let e := T_Setup G4099 hash4099 12 0 in
  {| a_snlen := 4; a_maxrecv := 7; a_coins := 4096; a_bullet := rp_bullet G4099 (rp4099 e); a_enc := e; a_pka := pmul G4099 (t_g G4099 e) 777 |}.
Definition toyhex (z : Z) : list N := [Z.to_N (Z.abs z)].
Definition alice : Account G4099 := CreateAccount G4099 toyH ap4099 [65%N] 11 0 1234.
Definition bob : Account G4099 := CreateAccount G4099 toyH ap4099 [66%N] 2 0 99.
Definition carol : Account G4099 := CreateAccount G4099 toyH ap4099 [67%N] 0 0 1000.
Definition cr8 : CRand := {| cr_r := 17; cr_a1 := 18; cr_b1 := 19; cr_star := 20; cr_a2 := 21; cr_b2 := 22; cr_bp := rn8; cr_w := 23 |}.
Definition rn16 : BPRand :=
  {| rd_alpha := 33; rd_sL := [5; 6; 7; 8; 1; 2; 3; 4; 9; 10; 11; 12; 13; 14; 15; 16];
     rd_sR := [90; 91; 92; 93; 94; 95; 96; 97; 98; 99; 100; 101; 102; 103; 104; 105]; rd_rho := 12; rd_tau1 := 44; rd_tau2 := 55 |}.
Definition mr4 : MRand := {| mr_r := 17; mr_rs := [31]; mr_ab := [(18, 19)]; mr_star := 20; mr_a2 := 21; mr_b2 := 22; mr_bp := rn8; mr_k := 24; mr_w := 23 |}.

Lemma unit4099 : forall a, (a mod 4099 =? 0) = false -> unit_mod G4099 a.
Proof. intros a E [k K]. change (order G4099) with 4099 in K. rewrite K, Z.add_0_l, Z.mod_mul in E by lia. discriminate. Qed.

Lemma ready_4099 : exists st, decrypts G4099 key4099 hash4099 12 0 ap4099 st.
Proof.
  destruct t_ready_4099 as [pp [st R]]. exists st. pose proof R as [E _]. split; [|intros m; apply sep_4099].
  rewrite E in R. exact R.
Qed.
Lemma fair_4099 : fair 12 0 round_robin.
Proof. exact round_robin_long. Qed.
Lemma params_4099_2 : params_ok G4099 ap4099 2 rn8.
Proof. split; [reflexivity|]. split; [reflexivity|]. exists 3%nat. repeat split; cbn; lia. Qed.
Lemma account_4099 : forall id m sk, 0 <= m < covered 12 0 -> 0 < sk < 4099 -> balance_ok G4099 12 0 ap4099 (CreateAccount G4099 toyH ap4099 id m 0 sk).
Proof. intros id m sk B S. split; [apply C46_new_account; apply range_not_0; change (order G4099) with 4099; lia|exact B]. Qed.

Definition good4099 (tr : list N) (p : BPProof G4099) : bool :=
  negb (y_of G4099 toyH tr p mod 4099 =? 0) && forallb (fun c => negb (c mod 4099 =? 0)) (ip_challenges_of G4099 toyH tr p).
Lemma good_4099 : forall tr p, good4099 tr p = true -> good_challenges G4099 toyH tr p.
Proof.
  intros tr p E. apply andb_prop in E. destruct E as [E1 E2]. split; [apply unit4099; apply negb_true_iff; exact E1|].
  apply Forall_forall. intros c I. rewrite forallb_forall in E2. apply unit4099. apply negb_true_iff. exact (E2 c I).
Qed.

(** alice pays 3 to bob: created, accepted, and accepted again *)
Example C46_C47_run : exists st t accts1 accts2,
  CreateCTx1 G4099 toyH toyhex ap4099 alice 3 (ac_pk G4099 bob) cr8 = Some t /\
  Miner1 G4099 key4099 toyH toyhex ap4099 st t [alice; bob; carol] 0 1 5 round_robin round_robin = Some (true, accts1) /\
  map (ac_m G4099) accts1 = [8; 5; 0] /\
  Miner1 G4099 key4099 toyH toyhex ap4099 st t accts1 0 1 5 round_robin round_robin = Some (true, accts2) /\
  ac_m G4099 (nth 0 accts2 (acct0 G4099)) = 5 /\ ac_m G4099 (nth 1 accts2 (acct0 G4099)) = 8.
Proof.
  destruct ready_4099 as [st D]. exists st.
  assert (BA : balance_ok G4099 12 0 ap4099 alice) by (apply account_4099; [vm_compute; split; [discriminate|reflexivity]|lia]).
  assert (BB : balance_ok G4099 12 0 ap4099 bob) by (apply account_4099; [vm_compute; split; [discriminate|reflexivity]|lia]).
  assert (BC : balance_ok G4099 12 0 ap4099 carol) by (apply account_4099; [vm_compute; split; [discriminate|reflexivity]|lia]).
  assert (BO : Forall (balance_ok G4099 12 0 ap4099) [alice; bob; carol]) by exact (Forall_cons _ BA (Forall_cons _ BB (Forall_cons _ BC (Forall_nil _)))).
  destruct (C45_one_to_one G4099 toyH toyhex ap4099 alice 3 (ac_pk G4099 bob) cr8 params_4099_2 (proj1 BA)) as [t [E [TR [PS [PR VF]]]]];
    [split; cbn; lia|split; cbn; lia|].
  assert (GC : good_challenges G4099 toyH (range_transcript1 G4099 toyH ap4099 t) (c_bp G4099 t)).
  { apply good_4099.
    assert (X : match CreateCTx1 G4099 toyH toyhex ap4099 alice 3 (ac_pk G4099 bob) cr8 with
      | Some t => good4099 (range_transcript1 G4099 toyH ap4099 t) (c_bp G4099 t) | None => false end = true) by (vm_compute; reflexivity).
    rewrite E in X. exact X. }
  destruct (C46_accepted_moves G4099 key4099 key4099_64 toyH toyhex hash4099 12 0 ap4099 st t [alice; bob; carol] 0 1 5 round_robin round_robin 3
    D fair_4099 fair_4099 ltac:(cbn; lia) ltac:(cbn; lia) BO TR) as [accts1 [M1 [L1 [B1 S1]]]];
    [vm_compute; split; discriminate|vm_compute; discriminate|intros _; vm_compute; reflexivity|exact PS|exact PR|exact (VF GC 5)|].
  destruct (C47_replay_refuted G4099 key4099 key4099_64 toyH toyhex hash4099 12 0 ap4099 st t [alice; bob; carol] 0 1 5 round_robin round_robin 3 accts1
    D fair_4099 fair_4099 ltac:(cbn; lia) ltac:(cbn; lia) ltac:(discriminate) BO TR) as [accts2 [M2 [A2 B2]]];
    [vm_compute; split; discriminate|exact M1|vm_compute; discriminate|vm_compute; reflexivity|].
  exists t, accts1, accts2. split; [exact E|]. split; [exact M1|]. split; [|split; [exact M2|split; [exact A2|exact B2]]].
  destruct accts1 as [|a [|b [|c [|]]]]; try discriminate L1. cbn [map].
  destruct (S1 0%nat) as [_ X0], (S1 1%nat) as [_ X1], (S1 2%nat) as [_ X2]. cbn [nth Nat.eqb] in X0, X1, X2. rewrite X0, X1, X2. reflexivity.
Qed.

(** alice, with 11 coins, makes 9 more for bob and keeps hers *)
Example C51_mint_run : exists st t s' rs',
  MinerN G4099 key4099 toyH toyhex ap4099 st t alice [bob] 5 round_robin [round_robin] = Some (true, (s', rs')) /\
  total G4099 [alice; bob] = 13 /\ ac_m G4099 s' = 11 /\ total G4099 (s' :: rs') = 22.
Proof.
  destruct ready_4099 as [st D]. exists st.
  assert (BA : balance_ok G4099 12 0 ap4099 alice) by (apply account_4099; [vm_compute; split; [discriminate|reflexivity]|lia]).
  assert (BB : balance_ok G4099 12 0 ap4099 bob) by (apply account_4099; [vm_compute; split; [discriminate|reflexivity]|lia]).
  destruct (C51_mint_refuted G4099 key4099 key4099_64 toyH toyhex hash4099 12 0 ap4099 st [9] alice [bob] mr4 round_robin [round_robin]
    D fair_4099 (Forall_cons _ fair_4099 (Forall_nil _)) eq_refl params_4099_2 eq_refl eq_refl eq_refl) as [t [E M]].
  - constructor; [split; cbn; lia|constructor].
  - split; cbn; lia.
  - exact BA.
  - exact (Forall_cons _ BB (Forall_nil _)).
  - intros [|k] Hk; [vm_compute; split; [discriminate|reflexivity]|cbn in Hk; lia].
  - assert (GC : good_challenges G4099 toyH (range_transcriptN G4099 toyH ap4099 t) (m_bp G4099 t)).
    { apply good_4099.
      assert (X : match Build G4099 toyH toyhex ap4099 alice [9] (map (ac_pk G4099) [bob]) mr4 (free_ct G4099 ap4099 alice (zsum [9]) (mr_r mr4)) (ac_m G4099 alice) with
        | Some t => good4099 (range_transcriptN G4099 toyH ap4099 t) (m_bp G4099 t) | None => false end = true) by (vm_compute; reflexivity).
      rewrite E in X. exact X. }
    destruct (M GC 5) as [s' [rs' [MN [A B]]]]. exists t, s', rs'. split; [exact MN|]. split; [reflexivity|]. split; [exact A|]. rewrite B. reflexivity.
Qed.

(** the other direction of the checks, computed: an overspending transaction, a policy *)
Example C45_overspending_run : match CreateCTx1 G4099 toyH toyhex ap4099 bob 3 (ac_pk G4099 alice) cr8 with
  | Some t => VerifyCTx1 G4099 toyH toyhex ap4099 t 5 = Some false | None => False end.
Proof. vm_compute. reflexivity. Qed.
Example C45_many_run : match CreateCTxN G4099 toyH toyhex ap4099 alice [4] [ac_pk G4099 bob] mr4 with
  | Some t => VerifyCTxN G4099 toyH toyhex ap4099 t 5 = Some true | None => False end.
Proof. vm_compute. reflexivity. Qed.
Example C50_open_run : match CreateCTx1 G4099 toyH toyhex ap4099 alice 3 (ac_pk G4099 bob) cr8 with
  | Some t => match JustifyOpen G4099 toyH ap4099 bob t 3 44 with
              | Some p => AuditOpen G4099 toyH ap4099 bob t 3 p = true /\ AuditOpen G4099 toyH ap4099 bob t 4 p = false
              | None => False end
  | None => False end.
Proof. vm_compute. split; reflexivity. Qed.

Print Assumptions C45_one_to_many.
Print Assumptions C51_wellformed_partial.
Print Assumptions C51_dropped_receivers_refuted.
Print Assumptions C51_mint_refuted.
Print Assumptions C49_supervisor_many.

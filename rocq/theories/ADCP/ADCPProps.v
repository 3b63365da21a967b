(** Properties C45, C46, C47, C49, C50, C82: one-to-one confidential payments. *)
From Coq Require Import NArith ZArith List Lia Bool Arith Setoid.
From Coq Require Import ZifyBool ZifyNat ZifyN.
From Verif.Base Require Import Words ListX.
From Verif.Crypto Require Import BigIntModel BigIntSpec BigIntProofs.
From Verif.Group Require Import ECModel ECProofs ZqGroup.
From Verif.PKE Require Import DlogModel DlogSpec DlogProofs DlogProps ElGamalModel ElGamalProofs ElGamalProps.
From Verif.Sigma Require Import SigmaModel SigmaSpec SigmaProofs SigmaProps.
From Verif.Bullet Require Import IPModel BPModel BPSpec LagSpec IPProofs BPProofs BPProps GadgetModel GadgetProps.
From Verif.ADCP Require Import ADCPModel ADCPSpec ADCPProofs.
Import ListNotations.
Local Open Scope Z_scope.

Section Props.
Variable G : ECGroup.
Local Notation q := (order G).
Local Infix "+p" := (padd G) (at level 50, left associativity).
Local Infix "-p" := (psub G) (at level 50, left associativity).
Local Notation "P *p k" := (pmul G P k%Z) (at level 40, left associativity).
Local Notation "a == b" := (cong q a b) (at level 70).

Lemma refresh_dle : forall (H : list N -> Z) pp pk sk ct rstar tr w,
  invertible G sk -> pk = t_g G pp *p sk ->
  let ref := T_ReEnc G pp pk sk ct rstar in
  let d := DLE_Prove G H (tY G ct -p tY G ref) (tX G ct -p tX G ref) (t_g G pp) pk sk tr w in
  DLE_Verify G H (tY G ct -p tY G ref) (tX G ct -p tX G ref) (t_g G pp) pk tr (fst d) = (true, snd d).
Proof.
  intros H pp pk sk ct rstar tr w I K ref. cbv zeta. destruct (DLE_Prove _ _ _ _ _ _ _ _ _) as [d dtr] eqn:ED. cbn [fst snd].
  refine (C32_complete G H _ _ _ _ sk tr w d dtr _ K ED).
  unfold ref, T_ReEnc. cbn [tX tY]. rewrite K. pose proof (inv_cong G sk I) as V.
  transitivity (tX G ct *p (sk * ModInverse sk q) -p ((t_g G pp *p rstar) *p sk)).
  + rewrite (pmul_cong G _ _ _ V), pmul_1. generalize (t_g G pp) (tX G ct). clear. intros. logs G. gring.
  + generalize (ModInverse sk q) (t_g G pp) (tX G ct) (tY G ct). clear. intros. logs G. gring.
Qed.

Lemma commits2 : forall g h P Q r r' v v', P = g *p r +p h *p v -> Q = g *p r' +p h *p v' ->
  commits G g h [P; Q] [r; r'] [v; v'].
Proof.
  intros g h P Q r r' v v' -> ->. split; [reflexivity|]. split; [reflexivity|].
  intros [|[|j]] Hj; [reflexivity|reflexivity|cbn in Hj; lia].
Qed.

(** What CreateCTx makes of an account and an amount, up to the range proof. *)
Lemma Create1_shape : forall (H : list N -> Z) hex pp s v pkr rn,
  params_ok G pp 2 (cr_bp rn) -> account_ok G pp s ->
  exists t, CreateCTx1 G H hex pp s v pkr rn = Some t /\ transfers G pp t v /\
    c_pks G t = ac_pk G s /\ c_pkr G t = pkr /\ c_sn G t = ac_sn G s /\ c_bal G t = ac_ct G s /\
    exists C tr', BP_Prove G H (a_bullet G pp) C [cr_r rn; cr_star rn] [v; ac_m G s - v] (range_transcript1 G H pp t) (cr_bp rn) = Some (c_bp G t, tr') /\
      length C = 2%nat /\ commits G (bp_g G (a_bullet G pp)) (bp_h G (a_bullet G pp)) C [cr_r rn; cr_star rn] [v; ac_m G s - v] /\
      forall c, VerifyCTx1 G H hex pp t c =
        match BP_FastVerify G H (a_bullet G pp) C (range_transcript1 G H pp t) (c_bp G t) c with
        | Some (b, tr'') => if list_eq_dec N.eq_dec tr'' tr' then Some b else VerifyCTx1 G H hex pp t c
        | None => None
        end.
Proof.
  intros H hex pp s v pkr rn [EG [EH W]] [I [K D]]. unfold CreateCTx1.
  set (g := t_g G (a_enc G pp)) in *. set (h := t_h G (a_enc G pp)) in *.
  set (pks := [ac_pk G s; pkr; a_pka G pp]).
  set (ct := T_MREnc G (a_enc G pp) pks v (cr_r rn)).
  destruct (C34_complete G H (a_enc G pp) pks v (cr_r rn) [] (cr_a1 rn) (cr_b1 rn)) as [pte [ptr [EP VP]]].
  fold ct g h in EP, VP. rewrite EP. cbn [obind fst snd].
  set (u := {| tX := tX G (ac_ct G s) -p nth 0 (tvX G ct) (inf G); tY := tY G (ac_ct G s) -p tmY G ct |}).
  set (ref := T_ReEnc G (a_enc G pp) (ac_pk G s) (ac_sk G s) u (cr_star rn)).
  assert (RE : ref = T_Enc G (a_enc G pp) (ac_pk G s) (ac_m G s - v) (cr_star rn)).
  { unfold ref, T_ReEnc, T_Enc. rewrite msum2. do 2 f_equal. fold g h.
    change (T_DecECPoint G (ac_sk G s) u = h *p (ac_m G s - v)).
    apply (debit_point G pp s (nth 0 (tvX G ct) (inf G)) (cr_r rn) v (tmY G ct)); [split; [exact I|split; [exact K|exact D]]|reflexivity|reflexivity]. }
  destruct (PK_Prove G H g h (ac_pk G s) ref (ac_m G s - v) (cr_star rn) ptr (cr_a2 rn) (cr_b2 rn)) as [kp ktr] eqn:EK. cbn [fst snd].
  assert (VK : PK_Verify G H g h (ac_pk G s) ref ptr kp = (true, ktr)).
  { rewrite RE in EK |- *. exact (C33_complete G H (a_enc G pp) _ _ _ _ _ _ _ _ EK). }
  assert (CM : commits G (bp_g G (a_bullet G pp)) (bp_h G (a_bullet G pp)) [tmY G ct; tY G ref] [cr_r rn; cr_star rn] [v; ac_m G s - v]).
  { rewrite <- EG, <- EH. apply commits2; [reflexivity|]. rewrite RE. unfold T_Enc. cbn [tY]. rewrite msum2. reflexivity. }
  destruct (BP_honest_difference G H (a_bullet G pp) [tmY G ct; tY G ref] [cr_r rn; cr_star rn] [v; ac_m G s - v] ktr (cr_bp rn) W CM) as [bp [EB _]].
  rewrite EB. cbn [obind fst snd].
  set (btr := trend G H ktr bp) in *.
  set (blank := {| dleA1 := inf G; dleA2 := inf G; dlez := 0 |}).
  set (ctx := fun d => {| c_sn := ac_sn G s; c_bal := ac_ct G s; c_pks := ac_pk G s; c_pkr := pkr; c_tr := ct; c_pte := pte;
                  c_bp := bp; c_ref := ref; c_pk := kp; c_dle := d |}).
  change ({| c_sn := ac_sn G s; c_bal := ac_ct G s; c_pks := ac_pk G s; c_pkr := pkr; c_tr := ct; c_pte := pte;
                  c_bp := bp; c_ref := ref; c_pk := kp; c_dle := blank |}) with (ctx blank).
  assert (VD := refresh_dle H (a_enc G pp) (ac_pk G s) (ac_sk G s) u (cr_star rn) (btr ++ ToSign1 G hex (ctx blank)) (cr_w rn) I K).
  cbv zeta in VD. fold ref in VD. fold g in VD.
  destruct (DLE_Prove G H (tY G u -p tY G ref) (tX G u -p tX G ref) g (ac_pk G s) (ac_sk G s) (btr ++ ToSign1 G hex (ctx blank)) (cr_w rn)) as [dp dtr] eqn:ED.
  cbn [fst snd] in VD. cbn [fst]. exists (ctx dp). split; [reflexivity|].
  assert (RT : range_transcript1 G H pp (ctx dp) = ktr).
  { unfold range_transcript1, ctx. cbn [c_pks c_pkr c_tr c_pte c_ref c_pk]. fold g h pks. rewrite VP, VK. reflexivity. }
  split; [exists (cr_r rn); reflexivity|]. do 4 (split; [reflexivity|]).
  exists [tmY G ct; tY G ref], btr. rewrite RT. split; [exact EB|]. split; [reflexivity|]. split; [exact CM|].
  intros c. cbn [ctx c_bp]. destruct (BP_FastVerify G H (a_bullet G pp) [tmY G ct; tY G ref] ktr bp c) as [[b tr'']|] eqn:EV.
  - destruct (list_eq_dec N.eq_dec tr'' btr) as [->|N]; [|reflexivity].
    unfold VerifyCTx1, ctx. cbn [c_sn c_bal c_pks c_pkr c_tr c_pte c_bp c_ref c_pk c_dle]. fold g h pks. rewrite VP. cbn [obind fst snd]. rewrite VK. cbn [fst snd].
    rewrite EV. cbn [obind fst snd].
    change (ToSign1 G hex _) with (ToSign1 G hex (ctx blank)). change (tX G (ac_ct G s) -p nth 0 (tvX G ct) (inf G)) with (tX G u).
    change (tY G (ac_ct G s) -p tmY G ct) with (tY G u). rewrite VD. cbn [fst]. destruct b; reflexivity.
  - unfold VerifyCTx1, ctx. cbn [c_sn c_bal c_pks c_pkr c_tr c_pte c_bp c_ref c_pk c_dle]. fold g h pks. rewrite VP. cbn [obind fst snd]. rewrite VK. cbn [fst snd].
    rewrite EV. reflexivity.
Qed.

(** ** C45 *)
Theorem C45_one_to_one : forall (H : list N -> Z) hex pp s v pkr rn,
  params_ok G pp 2 (cr_bp rn) -> account_ok G pp s -> amount G pp v -> amount G pp (ac_m G s - v) ->
  exists t, CreateCTx1 G H hex pp s v pkr rn = Some t /\ transfers G pp t v /\ c_pks G t = ac_pk G s /\ c_pkr G t = pkr /\
    (good_challenges G H (range_transcript1 G H pp t) (c_bp G t) -> forall c, VerifyCTx1 G H hex pp t c = Some true).
Proof.
  intros H hex pp s v pkr rn PP AO V V'.
  destruct (Create1_shape H hex pp s v pkr rn PP AO) as [t [EC [TR [PS [PR [_ [_ [C [tr' [EB [LC [CM VF]]]]]]]]]]]].
  exists t. split; [exact EC|]. split; [exact TR|]. split; [exact PS|]. split; [exact PR|]. intros GC c.
  destruct PP as [_ [_ W]].
  assert (W' : bp_wf G (a_bullet G pp) C (cr_bp rn)) by (unfold bp_wf in *; rewrite LC; exact W).
  destruct (C41_complete G H (a_bullet G pp) C _ _ (range_transcript1 G H pp t) (cr_bp rn) W' CM
    ltac:(constructor; [exact V|constructor; [exact V'|constructor]])) as [p [tr'' [EB' FV]]].
  rewrite EB in EB'. assert (p = c_bp G t) by congruence. assert (tr'' = tr') by congruence. subst p tr''.
  rewrite VF, (proj2 (FV GC) c). destruct (list_eq_dec N.eq_dec tr' tr'); [reflexivity|congruence].
Qed.

(** An account that tries to spend more than its balance produces a transaction that is
    rejected. *)
Theorem C45_overspending_rejected : forall (H : list N -> Z) hex pp s v pkr rn t,
  params_ok G pp 2 (cr_bp rn) -> account_ok G pp s -> bp_h G (a_bullet G pp) <> inf G ->
  amount G pp v -> ac_m G s < v -> v - ac_m G s < q ->
  CreateCTx1 G H hex pp s v pkr rn = Some t ->
  good_challenges G H (range_transcript1 G H pp t) (c_bp G t) -> unit_mod G (z_of G H (range_transcript1 G H pp t) (c_bp G t)) ->
  forall c, unit_mod G c -> VerifyCTx1 G H hex pp t c = Some false.
Proof.
  intros H hex pp s v pkr rn t PP AO HF V MV VQ E GC UZ c UC.
  destruct (Create1_shape H hex pp s v pkr rn PP AO) as [t' [EC [_ [_ [_ [_ [_ [C [tr' [EB [LC [CM VF]]]]]]]]]]]].
  assert (t' = t) by congruence. subst t'. rewrite VF. destruct PP as [_ [_ W]].
  assert (W' : bp_wf G (a_bullet G pp) C (cr_bp rn)) by (unfold bp_wf in *; rewrite LC; exact W).
  set (tr := range_transcript1 G H pp t) in *.
  destruct (BP_honest_difference G H (a_bullet G pp) C _ _ tr (cr_bp rn) W' CM) as [p [EB' [D [Q1 Qi]]]].
  rewrite EB in EB'. assert (p = c_bp G t) by congruence. subst p. assert (tr' = trend G H tr (c_bp G t)) by congruence. subst tr'.
  specialize (Qi GC). rewrite BP_FastVerify_spec by exact D.
  destruct (list_eq_dec _ _ _) as [_|N]; [|congruence]. rewrite Qi, padd_inf. f_equal.
  destruct (peqb_spec G (E1 G H (a_bullet G pp) C tr (c_bp G t) *p c) (inf G)) as [X|X]; [exfalso|reflexivity].
  rewrite Q1, pmul_mul, LC in X. set (z := z_of G H tr (c_bp G t)) in *.
  rewrite <- (pmul_0 G (bp_h G (a_bullet G pp))) in X. apply (pmul_inj G _ _ _ HF) in X.
  rewrite Z.mul_comm, <- (Z.mul_0_r c) in X. apply (cong_cancel G c) in X; [|exact UC].
  unfold sum in X. cbn [seq map zsum nth] in X.
  rewrite low_small, low_negative in X; [|lia|exact V].
  assert (ZC : forall a, z * a == 0 -> a == 0).
  { intros a E'. apply (cong_cancel G z); [exact UZ|]. rewrite Z.mul_0_r. exact E'. }
  change (z ^ Z.of_nat 3) with (z * (z * (z * 1))) in X.
  apply (range_not_0 G (v - ac_m G s)); [lia|]. apply ZC, ZC, ZC. destruct X as [u X]. exists (- u). lia.
Qed.

(** ** C46 *)
Variable key : pt G -> N.
Hypothesis key64 : forall P, (key P < 2 ^ 64)%N.
(** A transaction that verifies, for an amount the sender has, is accepted and moves
    exactly that amount from the sender to the receiver. *)
Theorem C46_accepted_moves : forall (H : list N -> Z) hex hash L T pp st t accts i j c s1 s2 v,
  decrypts G key hash L T pp st -> fair L T s1 -> fair L T s2 ->
  (i < length accts)%nat -> (j < length accts)%nat -> Forall (balance_ok G L T pp) accts ->
  transfers G pp t v -> 0 <= v <= q - covered L T -> v <= ac_m G (nth i accts (acct0 G)) ->
  (i <> j -> ac_m G (nth j accts (acct0 G)) + v < covered L T) ->
  c_pks G t = ac_pk G (nth i accts (acct0 G)) -> c_pkr G t = ac_pk G (nth j accts (acct0 G)) ->
  VerifyCTx1 G H hex pp t c = Some true ->
  exists accts', Miner1 G key H hex pp st t accts i j c s1 s2 = Some (true, accts') /\
    length accts' = length accts /\ Forall (balance_ok G L T pp) accts' /\
    forall k, same_holder G (nth k accts' (acct0 G)) (nth k accts (acct0 G)) /\
      ac_m G (nth k accts' (acct0 G)) = ac_m G (nth k accts (acct0 G)) - (if (k =? i)%nat then v else 0) + (if (k =? j)%nat then v else 0).
Proof.
  intros H hex hash L T pp st t accts i j c s1 s2 v D F1 F2 Hi Hj BO TR V VM CJ PS PR VT.
  destruct (Update1_succeeds G key key64 hash L T pp st t accts i j s1 s2 v D F1 F2 Hi Hj BO TR ltac:(lia) CJ PS PR) as [accts' U].
  exists accts'. unfold Miner1. rewrite PS, PR, !peqb_refl, VT. cbn [negb obind]. rewrite U. split; [reflexivity|].
  destruct (Update1_moves G key key64 hash L T pp st t accts i j s1 s2 v accts' D F1 F2 Hi Hj BO TR V PS PR U) as [A [B [_ E]]].
  auto.
Qed.

(** a submission: the transaction, who is debited and credited, the miner's draws *)
Record submission := { s_tx : CTx1 G; s_from : nat; s_to : nat; s_comb : Z; s_d1 : list nat; s_d2 : list nat }.
(** the miner processes submissions one after the other; None: the program stops *)
Fixpoint history (H : list N -> Z) hex pp st (accts : list (Account G)) (l : list submission) : option (list (Account G)) :=
  match l with
  | [] => Some accts
  | x :: l' =>
      match Miner1 G key H hex pp st (s_tx x) accts (s_from x) (s_to x) (s_comb x) (s_d1 x) (s_d2 x) with
      | Some (_, accts') => history H hex pp st accts' l'
      | None => None
      end
  end.

(** Whatever is submitted, and whatever the miner answers, the total of the balances
    stays the same and every encrypted balance stays the account's plaintext balance.
    The submissions need not come from CreateCTx, only their transfer ciphertexts must be
    well formed, which is what the equality proof is for (C34_special_soundness). *)
Theorem C46_conservation : forall (H : list N -> Z) hex hash L T pp st l accts accts',
  decrypts G key hash L T pp st -> Forall (balance_ok G L T pp) accts ->
  Forall (fun x => (exists v, transfers G pp (s_tx x) v /\ 0 <= v <= q - covered L T) /\
                   (s_from x < length accts)%nat /\ (s_to x < length accts)%nat /\ fair L T (s_d1 x) /\ fair L T (s_d2 x)) l ->
  history H hex pp st accts l = Some accts' ->
  total G accts' = total G accts /\ Forall (balance_ok G L T pp) accts' /\ length accts' = length accts /\
  forall k, same_holder G (nth k accts' (acct0 G)) (nth k accts (acct0 G)).
Proof.
  intros H hex hash L T pp st l. induction l as [|x l IH]; intros accts accts' D BO F E; cbn [history] in E.
  - assert (accts' = accts) by congruence. subst. repeat split; assumption.
  - inversion F as [|x' l' [[v [TR V]] [Hi [Hj [F1 F2]]]] FL]; subst.
    assert (STAY : history H hex pp st accts l = Some accts' -> total G accts' = total G accts /\ Forall (balance_ok G L T pp) accts' /\ length accts' = length accts /\
      forall k, same_holder G (nth k accts' (acct0 G)) (nth k accts (acct0 G))) by (intros E'; exact (IH accts accts' D BO FL E')).
    unfold Miner1 in E.
    destruct (peqb_spec G (c_pks G (s_tx x)) (ac_pk G (nth (s_from x) accts (acct0 G)))) as [PS|_]; cbn [negb] in E; [|exact (STAY E)].
    destruct (peqb_spec G (c_pkr G (s_tx x)) (ac_pk G (nth (s_to x) accts (acct0 G)))) as [PR|_]; cbn [negb] in E; [|exact (STAY E)].
    destruct (VerifyCTx1 G H hex pp (s_tx x) (s_comb x)) as [[|]|] eqn:VT; cbn [obind] in E; [|exact (STAY E)|discriminate].
    destruct (UpdateAccount1 G key pp st (s_tx x) accts (s_from x) (s_to x) (s_d1 x) (s_d2 x)) as [a|] eqn:U; cbn [obind] in E; [|discriminate].
    destruct (Update1_moves G key key64 hash L T pp st (s_tx x) accts _ _ _ _ v a D F1 F2 Hi Hj BO TR V PS PR U) as [LA [BA [TA SA]]].
    rewrite <- LA in FL. destruct (IH a accts' D BA FL E) as [T1 [B1 [L1 S1]]].
    split; [congruence|]. split; [exact B1|]. split; [congruence|].
    intros k. apply (same_trans G _ (nth k a (acct0 G))); [apply S1|apply SA].
Qed.

(** RevealBalance shows the plaintext balance. *)
Theorem C46_reveal : forall hash L T pp st a s,
  decrypts G key hash L T pp st -> fair L T s -> balance_ok G L T pp a -> RevealBalance G key pp st a s = Some (ac_m G a).
Proof. intros hash L T pp st a s D F [[I [K E]] B]. exact (Dec_some G key key64 hash L T pp st _ _ _ s D F E B). Qed.

(** a new account is consistent *)
Theorem C46_new_account : forall (H : list N -> Z) pp id m sn sk, invertible G sk ->
  account_ok G pp (CreateAccount G H pp id m sn sk) /\ ac_m G (CreateAccount G H pp id m sn sk) = m.
Proof.
  intros H pp id m sn sk I. split; [|reflexivity]. split; [exact I|]. split; [reflexivity|].
  cbn [CreateAccount ac_sk ac_ct ac_m T_KeyGen fst snd]. unfold T_Enc. rewrite msum2. apply Dec_enc. exact I.
Qed.

(** ** C47: what is false.  Every accepted transaction is accepted again, for as long as
    the sender has the amount: nothing records that it was processed, and neither the
    serial number nor the balance it was made for is compared with the account. *)
Theorem C47_replay_refuted : forall (H : list N -> Z) hex hash L T pp st t accts i j c s1 s2 v accts1,
  decrypts G key hash L T pp st -> fair L T s1 -> fair L T s2 ->
  (i < length accts)%nat -> (j < length accts)%nat -> i <> j -> Forall (balance_ok G L T pp) accts ->
  transfers G pp t v -> 0 <= v <= q - covered L T ->
  Miner1 G key H hex pp st t accts i j c s1 s2 = Some (true, accts1) ->
  2 * v <= ac_m G (nth i accts (acct0 G)) -> ac_m G (nth j accts (acct0 G)) + 2 * v < covered L T ->
  exists accts2, Miner1 G key H hex pp st t accts1 i j c s1 s2 = Some (true, accts2) /\
    ac_m G (nth i accts2 (acct0 G)) = ac_m G (nth i accts (acct0 G)) - 2 * v /\
    ac_m G (nth j accts2 (acct0 G)) = ac_m G (nth j accts (acct0 G)) + 2 * v.
Proof.
  intros H hex hash L T pp st t accts i j c s1 s2 v accts1 D F1 F2 Hi Hj NIJ BO TR V M VM CJ.
  unfold Miner1 in M.
  destruct (peqb_spec G (c_pks G t) (ac_pk G (nth i accts (acct0 G)))) as [PS|_]; cbn [negb] in M; [|discriminate].
  destruct (peqb_spec G (c_pkr G t) (ac_pk G (nth j accts (acct0 G)))) as [PR|_]; cbn [negb] in M; [|discriminate].
  destruct (VerifyCTx1 G H hex pp t c) as [[|]|] eqn:VT; cbn [obind] in M; try discriminate.
  destruct (UpdateAccount1 G key pp st t accts i j s1 s2) as [a|] eqn:U; cbn [obind] in M; [|discriminate].
  assert (a = accts1) by congruence. subst a.
  destruct (Update1_moves G key key64 hash L T pp st t accts i j s1 s2 v accts1 D F1 F2 Hi Hj BO TR V PS PR U) as [LA [BA [_ SA]]].
  destruct (SA i) as [[_ [SPi _]] Mi]. destruct (SA j) as [[_ [SPj _]] Mj].
  rewrite Nat.eqb_refl in Mi, Mj. rewrite (proj2 (Nat.eqb_neq i j) NIJ) in Mi. rewrite (proj2 (Nat.eqb_neq j i)) in Mj by congruence.
  destruct (C46_accepted_moves H hex hash L T pp st t accts1 i j c s1 s2 v D F1 F2 ltac:(lia) ltac:(lia) BA TR V ltac:(lia) ltac:(lia)
    ltac:(congruence) ltac:(congruence) VT) as [accts2 [M2 [_ [_ S2]]]].
  exists accts2. split; [exact M2|]. destruct (S2 i) as [_ Mi2]. destruct (S2 j) as [_ Mj2].
  rewrite Nat.eqb_refl in Mi2, Mj2. rewrite (proj2 (Nat.eqb_neq i j) NIJ) in Mi2. rewrite (proj2 (Nat.eqb_neq j i)) in Mj2 by congruence.
  lia.
Qed.

(** ** C82: what is false.  A sender can make a transaction for a balance they do not
    have, by inventing the encrypted balance it refers to.  It verifies, and the miner
    stops with an error when it decrypts the sender's new, negative balance. *)
Theorem C82_invented_balance_refuted : forall (H : list N -> Z) hex hash L T pp st accts i j v M r rn s1 s2,
  params_ok G pp 2 (cr_bp rn) -> decrypts G key hash L T pp st -> fair L T s1 ->
  (i < length accts)%nat -> Forall (balance_ok G L T pp) accts ->
  amount G pp v -> v <= q - covered L T -> ac_m G (nth i accts (acct0 G)) < v -> amount G pp (M - v) ->
  let s := nth i accts (acct0 G) in
  let invented := {| ac_id := ac_id G s; ac_pk := ac_pk G s; ac_sk := ac_sk G s; ac_m := M; ac_sn := ac_sn G s;
                     ac_ct := T_Enc G (a_enc G pp) (ac_pk G s) M r |} in
  exists t, CreateCTx1 G H hex pp invented v (ac_pk G (nth j accts (acct0 G))) rn = Some t /\
    (good_challenges G H (range_transcript1 G H pp t) (c_bp G t) -> forall c,
      VerifyCTx1 G H hex pp t c = Some true /\ Miner1 G key H hex pp st t accts i j c s1 s2 = None).
Proof.
  intros H hex hash L T pp st accts i j v M r rn s1 s2 PP D F1 Hi BO V VQ MV VM s invented.
  assert (SO : balance_ok G L T pp s) by (apply (proj1 (Forall_nth _ _) BO); exact Hi).
  assert (IO : account_ok G pp invented).
  { destruct SO as [[I [K E]] _]. split; [exact I|]. split; [exact K|]. cbn [invented ac_sk ac_ct ac_m]. unfold T_Enc. rewrite msum2, K. apply Dec_enc. exact I. }
  destruct (C45_one_to_one H hex pp invented v (ac_pk G (nth j accts (acct0 G))) rn PP IO V VM) as [t [E [TR [PS [PR VF]]]]].
  exists t. split; [exact E|]. intros GC c. split; [exact (VF GC c)|].
  unfold Miner1. cbn [invented ac_pk] in PS. rewrite PS, PR. fold s. rewrite !peqb_refl, (VF GC c). cbn [negb obind].
  unfold UpdateAccount1. fold s. destruct (transfer_parts G _ _ _ TR) as [r' [X0 [_ [_ Y]]]].
  assert (P1 := debit_point G pp s _ r' v _ (proj1 SO) (eq_trans X0 (f_equal (fun P => P *p r') PS)) Y).
  pose proof D as [[_ [_ [Cov _]]] _]. fold s in MV. destruct SO as [_ B]. unfold amount in V.
  rewrite (Dec_none G key key64 hash L T pp st (ac_sk G s) _ (ac_m G s - v + q) s1 D F1); [reflexivity| |lia].
  rewrite P1. apply pmul_cong. exists (-1). lia.
Qed.

(** ** C49 *)
Theorem C49_supervisor : forall hash L T pp st ska t v s,
  decrypts G key hash L T pp st -> fair L T s -> invertible G ska -> a_pka G pp = t_g G (a_enc G pp) *p ska ->
  transfers G pp t v -> 0 <= v < covered L T -> SuperviseCTx1 G key pp st ska t s = Some v.
Proof.
  intros hash L T pp st ska t v s D F I K TR V. destruct (transfer_parts G _ _ _ TR) as [r [_ [_ [X2 Y]]]].
  apply (Dec_some G key key64 hash L T pp st _ _ _ _ D F); [|exact V]. rewrite X2, Y, K. apply Dec_enc. exact I.
Qed.

(** ** C50 *)
Lemma open_cases : forall pp u t v r, account_ok G pp u -> ac_pk G u = c_pks G t \/ ac_pk G u = c_pkr G t ->
  c_tr G t = T_MREnc G (a_enc G pp) [c_pks G t; c_pkr G t; a_pka G pp] v r -> forall v',
  open_instance G pp (ac_pk G u) t v' =
    (t_g G (a_enc G pp) *p r +p t_h G (a_enc G pp) *p (v - v'), ac_pk G u *p r, t_g G (a_enc G pp), ac_pk G u).
Proof.
  intros pp u t v r AO PK TR v'. unfold open_instance. rewrite TR. cbn [tmY tvX T_MREnc map nth].
  assert (E : t_g G (a_enc G pp) *p r +p t_h G (a_enc G pp) *p v -p t_h G (a_enc G pp) *p v' = t_g G (a_enc G pp) *p r +p t_h G (a_enc G pp) *p (v - v')).
  { generalize (t_g G (a_enc G pp)) (t_h G (a_enc G pp)). clear. intros. logs G. gring. }
  rewrite E. destruct (peqb_spec G (ac_pk G u) (c_pks G t)) as [X|X]; [rewrite X; reflexivity|].
  destruct PK as [Y|Y]; [congruence|]. rewrite Y. reflexivity.
Qed.
Lemma party : forall (pk a b : pt G), pk = a \/ pk = b -> negb (peqb G pk a) && negb (peqb G pk b) = false.
Proof. intros pk a b [->| ->]; rewrite peqb_refl; [reflexivity|apply andb_false_r]. Qed.

(** The open policy: either party of a transaction can show its amount. *)
Theorem C50_open_complete : forall (H : list N -> Z) pp u t v w,
  account_ok G pp u -> ac_pk G u = c_pks G t \/ ac_pk G u = c_pkr G t -> transfers G pp t v ->
  exists p, JustifyOpen G H pp u t v w = Some p /\ AuditOpen G H pp u t v p = true.
Proof.
  intros H pp u t v w AO PK [r TR]. unfold JustifyOpen, AuditOpen. rewrite party by exact PK.
  rewrite (open_cases pp u t v r AO PK TR v), Z.sub_diag, pmul_0, padd_inf.
  eexists. split; [reflexivity|]. destruct AO as [I [K D]].
  destruct (DLE_Prove G H _ _ _ _ (ac_sk G u) [] w) as [p tr] eqn:E. cbn [fst].
  rewrite (C32_complete G H _ _ _ _ (ac_sk G u) [] w p tr); [reflexivity| |symmetry; symmetry; exact K|exact E].
  rewrite K. generalize (t_g G (a_enc G pp)). clear. intros. logs G. gring.
Qed.

(** Whoever can answer two challenges has opened to the amount that was transferred. *)
Theorem C50_open_sound : forall (H H' : list N -> Z) pp u t v v' A1 A2 z z',
  account_ok G pp u -> ac_pk G u = c_pks G t \/ ac_pk G u = c_pkr G t -> transfers G pp t v ->
  t_g G (a_enc G pp) <> inf G -> t_h G (a_enc G pp) <> inf G ->
  let '(g1, h1, g2, h2) := open_instance G pp (ac_pk G u) t v' in
  AuditOpen G H pp u t v' {| dleA1 := A1; dleA2 := A2; dlez := z |} = true ->
  AuditOpen G H' pp u t v' {| dleA1 := A1; dleA2 := A2; dlez := z' |} = true ->
  distinct_challenges G (H (snd (DLE_Verify G H g1 h1 g2 h2 [] {| dleA1 := A1; dleA2 := A2; dlez := z |})))
                        (H' (snd (DLE_Verify G H' g1 h1 g2 h2 [] {| dleA1 := A1; dleA2 := A2; dlez := z' |}))) ->
  v' == v.
Proof.
  intros H H' pp u t v v' A1 A2 z z' AO PK [r TR] GF HF. unfold AuditOpen. rewrite party by exact PK.
  rewrite (open_cases pp u t v r AO PK TR v'). intros V V' DC.
  destruct (C32_special_soundness G H H' _ _ _ _ [] [] A1 A2 z z' V V' DC) as [S1 S2]. cbv zeta in S1, S2.
  match type of S1 with _ *p ?e = _ => set (w := e) in * end. clearbody w. destruct AO as [I [K D]].
  rewrite K in S2. apply (pmul_inj G _ _ _ GF) in S2.
  assert (Z1 : t_h G (a_enc G pp) *p ((v - v') * w) = inf G).
  { transitivity ((t_g G (a_enc G pp) *p r +p t_h G (a_enc G pp) *p (v - v')) *p w -p t_g G (a_enc G pp) *p (r * w)).
    - generalize (t_g G (a_enc G pp)) (t_h G (a_enc G pp)). clear. intros. logs G. gring.
    - rewrite S1, K. transitivity (t_g G (a_enc G pp) *p (r * (ac_sk G u - w))).
      + generalize (t_g G (a_enc G pp)). clear. intros. logs G. gring.
      + rewrite <- (pmul_0 G (t_g G (a_enc G pp))). apply pmul_cong. destruct S2 as [k S2]. exists (- (r * k)). lia. }
  rewrite <- (pmul_0 G (t_h G (a_enc G pp))) in Z1. apply (pmul_inj G _ _ _ HF) in Z1.
  assert (WU : ~ w == 0) by (intros X; apply I; rewrite <- S2; exact X).
  rewrite Z.mul_comm, <- (Z.mul_0_r w) in Z1. apply (cong_cancel G w) in Z1; [|exact WU].
  destruct Z1 as [k Z1]. exists (- k). lia.
Qed.

(** The rate policy: the receiver of v1 that sends v2 with t1 * v1 = t2 * v2. *)
Theorem C50_rate_complete : forall (H : list N -> Z) pp u tin tout v1 v2 t1 t2 w,
  account_ok G pp u -> ac_pk G u = c_pkr G tin -> ac_pk G u = c_pks G tout ->
  transfers G pp tin v1 -> transfers G pp tout v2 -> t1 * v1 = t2 * v2 ->
  exists p, JustifyRate G H pp u tin tout t1 t2 w = Some p /\ AuditRate G H pp (ac_pk G u) tin tout t1 t2 p = true.
Proof.
  intros H pp u tin tout v1 v2 t1 t2 w [I [K D]] P1 P2 TR1 TR2 E.
  destruct (transfer_parts G _ _ _ TR1) as [r1 [_ [X1 [_ Y1]]]]. destruct (transfer_parts G _ _ _ TR2) as [r2 [X2 [_ [_ Y2]]]].
  unfold JustifyRate, AuditRate. rewrite <- P1, <- P2, peqb_refl. cbn [negb orb].
  eexists. split; [reflexivity|]. destruct (DLE_Prove G H _ _ _ _ (ac_sk G u) [] w) as [p tr] eqn:EP. cbn [fst].
  rewrite (C32_complete G H _ _ _ _ (ac_sk G u) [] w p tr); [reflexivity|exact K| |exact EP].
  unfold rate_diff, T_HomoSub, T_ScalarMul. cbn [tX tY]. rewrite X1, X2, Y1, Y2, <- P1, <- P2, K.
  set (g := t_g G (a_enc G pp)). set (h := t_h G (a_enc G pp)). set (sk := ac_sk G u).
  transitivity ((g *p (r1 * t1 - r2 * t2) +p h *p (t1 * v1 - t2 * v2)) *p sk).
  - rewrite E, Z.sub_diag, pmul_0, padd_inf. generalize g. clear. intros. logs G. gring.
  - generalize g h. clear. intros. logs G. gring.
Qed.

(** Whoever can answer two challenges has sent t1/t2 of what they received. *)
Theorem C50_rate_sound : forall (H H' : list N -> Z) pp u tin tout v1 v2 t1 t2 A1 A2 z z',
  account_ok G pp u -> transfers G pp tin v1 -> transfers G pp tout v2 ->
  t_g G (a_enc G pp) <> inf G -> t_h G (a_enc G pp) <> inf G ->
  let d := rate_diff G tin tout t1 t2 in
  AuditRate G H pp (ac_pk G u) tin tout t1 t2 {| dleA1 := A1; dleA2 := A2; dlez := z |} = true ->
  AuditRate G H' pp (ac_pk G u) tin tout t1 t2 {| dleA1 := A1; dleA2 := A2; dlez := z' |} = true ->
  distinct_challenges G
    (H (snd (DLE_Verify G H (t_g G (a_enc G pp)) (ac_pk G u) (tY G d) (tX G d) [] {| dleA1 := A1; dleA2 := A2; dlez := z |})))
    (H' (snd (DLE_Verify G H' (t_g G (a_enc G pp)) (ac_pk G u) (tY G d) (tX G d) [] {| dleA1 := A1; dleA2 := A2; dlez := z' |}))) ->
  t1 * v1 == t2 * v2.
Proof.
  intros H H' pp u tin tout v1 v2 t1 t2 A1 A2 z z' [I [K D]] TR1 TR2 GF HF d V V' DC. unfold AuditRate in V, V'.
  destruct (peqb_spec G (ac_pk G u) (c_pkr G tin)) as [P1|_]; [|discriminate].
  destruct (peqb_spec G (ac_pk G u) (c_pks G tout)) as [P2|_]; [|discriminate]. cbn [negb orb] in V, V'. fold d in V, V'.
  destruct (C32_special_soundness G H H' _ _ _ _ [] [] A1 A2 z z' V V' DC) as [S1 S2]. cbv zeta in S1, S2.
  match type of S1 with _ *p ?e = _ => set (w := e) in * end. clearbody w.
  destruct (transfer_parts G _ _ _ TR1) as [r1 [_ [X1 [_ Y1]]]]. destruct (transfer_parts G _ _ _ TR2) as [r2 [X2 [_ [_ Y2]]]].
  unfold d, rate_diff, T_HomoSub, T_ScalarMul in S2. cbn [tX tY] in S2. rewrite X1, X2, Y1, Y2, <- P1, <- P2, K in S2.
  rewrite K in S1. apply (pmul_inj G _ _ _ GF) in S1. rewrite (pmul_cong G _ _ _ S1) in S2.
  set (g := t_g G (a_enc G pp)) in *. set (h := t_h G (a_enc G pp)) in *. set (sk := ac_sk G u) in *.
  assert (Z1 : h *p (sk * (t1 * v1 - t2 * v2)) = inf G).
  { match type of S2 with ?a = ?b => transitivity (a -p b) end.
    - generalize g h. clear. intros. logs G. gring.
    - rewrite S2. apply padd_neg. }
  rewrite <- (pmul_0 G h) in Z1. apply (pmul_inj G _ _ _ HF) in Z1. rewrite <- (Z.mul_0_r sk) in Z1.
  apply (cong_cancel G sk) in Z1; [|exact I]. destruct Z1 as [k Z1]. exists k. lia.
Qed.

(** The limit policy: the sender of transactions with total in [L,R). *)
Lemma limit_sum_point : forall pp u ts vs, account_ok G pp u ->
  Forall2 (fun t v => ac_pk G u = c_pks G t /\ transfers G pp t v) ts vs ->
  T_DecECPoint G (ac_sk G u) (limit_sum G ts) = t_h G (a_enc G pp) *p zsum vs.
Proof.
  intros pp u ts vs [I [K D]] F. unfold limit_sum.
  assert (ST : forall acc m, T_DecECPoint G (ac_sk G u) acc = t_h G (a_enc G pp) *p m ->
    T_DecECPoint G (ac_sk G u) (fold_left (fun acc t => T_HomoAdd G acc {| tX := nth 0 (tvX G (c_tr G t)) (inf G); tY := tmY G (c_tr G t) |}) ts acc)
    = t_h G (a_enc G pp) *p (m + zsum vs)).
  { induction F as [|t v ts vs [P TR] F IH]; intros acc m E; cbn [fold_left zsum].
    - rewrite Z.add_0_r. exact E.
    - rewrite (IH _ (m + v)); [f_equal; lia|]. destruct (transfer_parts G _ _ _ TR) as [r [X [_ [_ Y]]]].
      rewrite Dec_add, E, X, Y, <- P, K, Dec_enc by exact I. apply h_add. }
  rewrite (ST _ 0); [f_equal; lia|]. unfold T_DecECPoint. cbn [tX tY]. rewrite pmul_0, inf_mul. unfold psub. rewrite pneg_inf, padd_inf. reflexivity.
Qed.

Lemma limit_party : forall pp u ts vs, Forall2 (fun t v => ac_pk G u = c_pks G t /\ transfers G pp t v) ts vs ->
  forallb (fun t => peqb G (ac_pk G u) (c_pks G t)) ts = true.
Proof. intros pp u ts vs F. induction F as [|t v ts vs [P _] F IH]; [reflexivity|]. cbn [forallb]. rewrite P, peqb_refl, <- P. exact IH. Qed.

Theorem C50_limit_complete : forall (H : list N -> Z) hash LEN T pp st u ts vs L R sched rstar w a b rn,
  params_ok G pp 2 rn -> decrypts G key hash LEN T pp st -> fair LEN T sched -> account_ok G pp u ->
  Forall2 (fun t v => ac_pk G u = c_pks G t /\ transfers G pp t v) ts vs ->
  0 <= L -> R <= 2 ^ Z.of_nat (bp_range G (a_bullet G pp)) -> L <= zsum vs < R -> zsum vs < covered LEN T ->
  exists p, JustifyLimit G key H pp st u ts L R sched rstar w a b rn = Some (Some p) /\
    let ct := limit_sum G ts in let ct' := rp2_ct G p in
    let g := t_g G (a_enc G pp) in let h := t_h G (a_enc G pp) in
    let tr1 := snd (DLE_Verify G H g (ac_pk G u) (tY G ct' -p tY G ct) (tX G ct' -p tX G ct) [] (rp2_dle G p)) in
    let tr2 := snd (PK_Verify G H g h (ac_pk G u) ct' tr1 (rp2_ptke G p)) in
    (good_challenges G H tr2 (rp2_bullet G p) -> forall c, AuditLimit G H pp (ac_pk G u) ts L R p c = Some true).
Proof.
  intros H hash LEN T pp st u ts vs L R sched rstar w a b rn PP [RD SEP] F AO FT L0 R2 M CV.
  pose proof (limit_sum_point pp u ts vs AO FT) as DP. pose proof (limit_party pp u ts vs FT) as FP. destruct AO as [I [K D]].
  destruct (C44_known_key_complete G key key64 H hash LEN T (gadget_pp G pp) st (ac_pk G u) (ac_sk G u) (limit_sum G ts) L R (zsum vs) []
    sched rstar w a b rn) as [p [tr' [E V]]].
  - exact PP.
  - split; [lia|exact R2].
  - exact M.
  - exact RD.
  - exact I.
  - unfold T_KeyGen. rewrite K. reflexivity.
  - exact DP.
  - exact CV.
  - apply SEP.
  - apply fair_finished. exact F.
  - exists p. unfold JustifyLimit, AuditLimit. rewrite FP, E. split; [reflexivity|].
    cbv zeta in V |- *. intros GC c. rewrite (V GC c). reflexivity.
Qed.
End Props.

Print Assumptions C45_one_to_one.
Print Assumptions C45_overspending_rejected.
Print Assumptions C46_accepted_moves.
Print Assumptions C46_conservation.
Print Assumptions C46_reveal.
Print Assumptions C46_new_account.
Print Assumptions C47_replay_refuted.
Print Assumptions C82_invented_balance_refuted.
Print Assumptions C49_supervisor.
Print Assumptions C50_open_complete.
Print Assumptions C50_open_sound.
Print Assumptions C50_rate_complete.
Print Assumptions C50_rate_sound.
Print Assumptions C50_limit_complete.

(** Properties C36-C39: one-out-of-many proofs and accountable ring signatures. *)
From Coq Require Import NArith ZArith List Lia Bool Arith Setoid.
From Coq Require Import ZifyBool ZifyNat ZifyN.
From Verif.Base Require Import Words ListX.
From Verif.Crypto Require Import BigIntModel BigIntSpec BigIntProofs.
From Verif.Group Require Import ECModel ECProofs ZqGroup.
From Verif.PKE Require Import ElGamalModel ElGamalProofs.
From Verif.Sigma Require Import SigmaModel SigmaSpec SigmaProofs SigmaProps.
From Verif.Ring Require Import RingModel RingSpec RingProofs.
Import ListNotations.
Local Open Scope Z_scope.

Section Props.
Variable G : ECGroup.
Local Notation q := (order G).
Local Infix "+p" := (padd G) (at level 50, left associativity).
Local Infix "-p" := (psub G) (at level 50, left associativity).
Local Notation "P *p k" := (pmul G P k%Z) (at level 40, left associativity).

(** parameters for which the accesses of Prove and Verify stay in bounds *)
Definition dims_ok (pp : ERPP G) (m : nat) (cts : list (TCT G)) (rn : ERRand) : Prop :=
  (2 <= er_n G pp)%nat /\ (1 <= m)%nat /\ length cts = (er_n G pp ^ m)%nat /\
  (m * er_n G pp <= length (er_h G pp))%nat /\ rand_shape (er_n G pp) m rn.

(** ** C36 *)
Theorem C36_complete : forall (H : list N -> Z) pp m cts ek l r tr rn,
  dims_ok pp m cts rn -> (l < length cts)%nat ->
  encrypts_with G (t_g G (er_enc G pp)) ek (inf G) r (nth l cts (ct_inf G)) ->
  exists p tr', ER_Prove G H pp m cts ek l r tr rn = Some (p, tr') /\
                ER_Verify G H pp m cts ek tr p = Some (true, tr').
Proof.
  intros H pp m cts ek l r tr rn [Hn [Hm [LN [LH SH]]]] Hl [WX WY].
  destruct (ER_core G H pp m cts ek l r tr rn ltac:(lia) Hm LN LH SH) as [p [tr' [b [E [V [_ I]]]]]].
  exists p, tr'. split; [exact E|]. rewrite V. do 2 f_equal. apply I. cbv zeta.
  rewrite Nat.mod_small, WX, WY, padd_inf by exact Hl. split; reflexivity.
Qed.

(** For a challenge different from 0 the output of Prove is accepted only if the
    ciphertext at the given position really is the encryption of zero with the given
    randomness. *)
Theorem C36_wrong_witness_rejected : forall (H : list N -> Z) pp m cts ek l r tr rn p tr',
  dims_ok pp m cts rn -> (l < length cts)%nat ->
  ER_Prove G H pp m cts ek l r tr rn = Some (p, tr') ->
  ~ cong q (H tr') 0 ->
  ~ encrypts_with G (t_g G (er_enc G pp)) ek (inf G) r (nth l cts (ct_inf G)) ->
  ER_Verify G H pp m cts ek tr p = Some (false, tr').
Proof.
  intros H pp m cts ek l r tr rn p tr' [Hn [Hm [LN [LH SH]]]] Hl EP NX W.
  destruct (ER_core G H pp m cts ek l r tr rn ltac:(lia) Hm LN LH SH) as [p1 [tr1 [b [E [V [_ I]]]]]].
  rewrite EP in E. inversion E; subst p1 tr1. rewrite V. do 2 f_equal. destruct b; [|reflexivity].
  exfalso. apply W. destruct I as [I _]. specialize (I eq_refl). cbv zeta in I.
  rewrite Nat.mod_small in I by exact Hl.
  assert (NP : ~ cong q (H tr' ^ Z.of_nat m) 0).
  { clear - NX. intros C. assert (K : exists k, (k <= m)%nat /\ cong q (H tr' ^ Z.of_nat k) 0) by (exists m; split; [lia|exact C]).
    clear C. destruct K as [k [_ C]]. induction k as [|k IH].
    - change (Z.of_nat 0) with 0 in C. rewrite Z.pow_0_r in C. apply (range_not_0 G 1); [pose proof (order_gt1 G); lia|exact C].
    - apply IH. rewrite Nat2Z.inj_succ, Z.pow_succ_r in C by lia.
      apply (cong_cancel G (H tr')); [exact NX|]. rewrite Z.mul_0_r. exact C. }
  assert (CAN : forall P Q, P *p (H tr' ^ Z.of_nat m) = Q *p (H tr' ^ Z.of_nat m) -> P = Q).
  { clear - NP. intros P Q E. revert NP E. generalize (H tr' ^ Z.of_nat m). intros k NP E.
    pose proof (inv_cong G k NP) as C. rewrite <- (pmul_1 G P), <- (pmul_1 G Q).
    rewrite <- !(pmul_cong G _ _ _ C), <- !pmul_mul, E. reflexivity. }
  destruct I as [IX IY]. split; [exact (CAN _ _ IX)|]. rewrite padd_inf. exact (CAN _ _ IY).
Qed.

(** A list of one ciphertext (m = 0): Verify writes outside an empty vector. *)
Theorem C36_single_ciphertext_refuted : forall (H : list N -> Z) pp cts ek tr p,
  ER_Verify G H pp 0 cts ek tr p = None.
Proof. reflexivity. Qed.

(** ** C37: false; a proof for any list of ciphertexts whatsoever *)
Theorem C37_soundness_refuted : forall (H : list N -> Z) pp m cts ek tr rn z,
  (1 <= er_n G pp)%nat -> (1 <= m)%nat -> (m * er_n G pp <= length (er_h G pp))%nat ->
  rand_shape (er_n G pp) m rn ->
  exists p tr', er_forge G H pp m cts ek tr rn z = Some p /\
                ER_Verify G H pp m cts ek tr p = Some (true, tr').
Proof.
  intros H pp m cts ek tr rn z Hn Hm LH [Lc [Fc Lr]]. set (n := er_n G pp) in *.
  set (star := Decompose 0 n m). set (delta := vec_delta_of n star). set (a := vec_a_of (rn_cols rn)).
  assert (Ls : length star = m) by apply Decompose_length.
  assert (Fs : Forall (fun d => (d < n)%nat) star) by (apply Decompose_lt; exact Hn).
  assert (Ld : length delta = (m * n)%nat) by (unfold delta; rewrite delta_length, Ls; reflexivity).
  assert (La : length a = (m * n)%nat) by (unfold a; rewrite (veca_length n), Lc; [reflexivity|exact Fc]).
  assert (Lcc : length (vec_c_of a delta) = (m * n)%nat) by (unfold vec_c_of; rewrite map2_length; lia).
  assert (Ldd : length (vec_d_of a) = (m * n)%nat) by (unfold vec_d_of; rewrite map_length; exact La).
  pose proof (Commit_some G (er_g G pp) (er_h G pp) delta (rn_B rn) ltac:(lia)) as EB.
  pose proof (Commit_some G (er_g G pp) (er_h G pp) a (rn_A rn) ltac:(lia)) as EA.
  pose proof (Commit_some G (er_g G pp) (er_h G pp) (vec_c_of a delta) (rn_C rn) ltac:(lia)) as EC.
  pose proof (Commit_some G (er_g G pp) (er_h G pp) (vec_d_of a) (rn_D rn) ltac:(lia)) as ED.
  set (B := er_g G pp *p rn_B rn +p msum G (er_h G pp) delta) in *.
  set (A := er_g G pp *p rn_A rn +p msum G (er_h G pp) a) in *.
  set (C := er_g G pp *p rn_C rn +p msum G (er_h G pp) (vec_c_of a delta)) in *.
  set (D := er_g G pp *p rn_D rn +p msum G (er_h G pp) (vec_d_of a)) in *.
  set (tr' := er_transcript G tr B A C D). set (x := H tr').
  unfold er_forge. fold n star delta a. rewrite EB, EA, EC, ED. fold tr' x.
  eexists. exists tr'. split; [reflexivity|].
  unfold ER_Verify. fold n. cbn [erB erA erC erD erf erzA erzC erG erz]. fold tr' x.
  assert (Lf : length (vec_f_of delta a x) = (m * n)%nat) by (unfold vec_f_of; rewrite map2_length; lia).
  cbn [length]. rewrite Lf, repeat_length, Nat.leb_refl.
  assert (E1 : (1 <=? m)%nat = true) by (apply Nat.leb_le; exact Hm). rewrite E1.
  assert (E2 : (m <=? S (m - 1))%nat = true) by (apply Nat.leb_le; lia). rewrite E2. cbn [andb].
  rewrite (map_nth_all (fun v => v * (x - v)) _ _ Lf).
  rewrite (commit_lin G (er_g G pp) (er_h G pp) delta a (rn_B rn) (rn_A rn) x (vec_f_of delta a x) _ B A ltac:(lia) EB EA eq_refl eq_refl).
  rewrite (square_split delta a x (delta_bits n star) ltac:(lia)).
  rewrite (commit_lin G (er_g G pp) (er_h G pp) (vec_c_of a delta) (vec_d_of a) (rn_C rn) (rn_D rn) x _ _ C D ltac:(lia) EC ED eq_refl eq_refl).
  rewrite !peqb_refl. unfold delta at 1, a at 1. rewrite condition0_ok by assumption. cbn [andb].
  do 2 f_equal. apply T_eqb_true. rewrite left_X, left_Y.
  set (S0 := ct_lincomb G cts (map (er_product G n m (vec_f_of delta a x)) (seq 0 (length cts)))).
  set (E0 := T_EncPoint G (er_enc G pp) ek (inf G) z). clearbody S0 E0.
  assert (W : forall (f : TCT G -> pt G) L, f (ct_inf G) = inf G ->
    fold_left (fun acc k => acc -p f (nth k (T_HomoSub G S0 E0 :: repeat (ct_inf G) (m - 1)) (ct_inf G)) *p nth k (powers m 1 x) 0) (seq 0 m) L
    = L -p f (T_HomoSub G S0 E0)).
  { intros f L Hf. destruct m as [|m']; [lia|]. cbn [seq fold_left nth]. rewrite powers_nth by lia.
    change (Z.of_nat 0) with 0. rewrite Z.pow_0_r, Z.mul_1_l, pmul_1.
    replace (S m' - 1)%nat with m' by lia. generalize (L -p f (T_HomoSub G S0 E0)). clear - Hf. intros P.
    assert (X : forall l, (forall k, In k l -> (1 <= k)%nat) ->
      fold_left (fun acc k => acc -p f (nth k (T_HomoSub G S0 E0 :: repeat (ct_inf G) m') (ct_inf G)) *p nth k (powers (S m') 1 x) 0) l P = P).
    { induction l as [|k l IH]; intros K; cbn [fold_left]; [reflexivity|].
      destruct k as [|k]; [specialize (K 0%nat (or_introl eq_refl)); lia|].
      cbn [nth]. rewrite nth_repeat, Hf, inf_mul. unfold psub at 2. rewrite pneg_inf, padd_inf. apply IH.
      intros j J. apply K. right. exact J. }
    apply X. intros k Hk. apply in_seq in Hk. lia. }
  split.
  - rewrite (W (tX G)) by reflexivity. cbn [T_HomoSub tX]. generalize (tX G S0) (tX G E0). clear. intros. logs G. gring.
  - rewrite (W (tY G)) by reflexivity. cbn [T_HomoSub tY]. generalize (tY G S0) (tY G E0). clear. intros. logs G. gring.
Qed.

(** ** C38 *)
Definition ars_ok (pp : ARSPP G) (m : nat) (R : list (pt G)) (rn : ERRand) : Prop :=
  (1 <= m)%nat /\ length R = (2 ^ m)%nat /\ (m * 2 <= length (ar_h G pp))%nat /\ rand_shape 2 m rn.

Lemma ring_index_spec : forall R vk, In vk R -> (ring_index G R vk < length R)%nat /\ nth (ring_index G R vk) R (inf G) = vk.
Proof.
  induction R as [|P R IH]; intros vk I; [destruct I|]. cbn [ring_index]. destruct (peqb_spec G P vk) as [->|N].
  - cbn [length nth]. split; [lia|reflexivity].
  - destruct I as [E|I]; [congruence|]. destruct (IH vk I) as [A B]. cbn [length nth]. split; [lia|exact B].
Qed.

Lemma ring_ct_zero : forall pp R ct_vk r l M, (l < length R)%nat ->
  ct_vk = T_EncPoint G (ar_enc G pp) (ar_ek G pp) M r ->
  (encrypts_with G (t_g G (ar_enc G pp)) (ar_ek G pp) (inf G) r (nth l (ring_cts G pp R ct_vk) (ct_inf G)) <-> nth l R (inf G) = M).
Proof.
  intros pp R ct_vk r l M Hl ->. unfold ring_cts. rewrite nth_map' with (d := inf G) by exact Hl.
  unfold encrypts_with, T_HomoSub, T_EncPoint. cbn [tX tY]. set (P := nth l R (inf G)). clearbody P.
  rewrite !pmul_0. generalize (t_g G (ar_enc G pp)) (ar_ek G pp). clear. intros g ek. split.
  - intros [_ E]. revert E. rewrite padd_inf, padd_inf_l. intros E.
    transitivity (g *p r +p M -p (g *p r +p M -p P)); [clear; logs G; gring|]. rewrite E. clear. logs G. gring.
  - intros ->. rewrite padd_inf, padd_inf_l. split.
    + unfold psub. rewrite pneg_inf. apply padd_inf.
    + clear. logs G. gring.
Qed.

Lemma cts_length : forall pp R c, length (ring_cts G pp R c) = length R.
Proof. intros. apply map_length. Qed.

Theorem C38_complete : forall (H : list N -> Z) pp m sk R message r t s rn, ars_ok pp m R rn ->
  In (t_g G (ar_enc G pp) *p sk) R ->
  exists sg, ARS_Sign G H pp m sk R message r t s rn = Some sg /\ ARS_Verify G H pp m R message sg = Some true.
Proof.
  intros H pp m sk R message r t s rn [Hm [LR [LH SH]]] I.
  destruct (ring_index_spec R _ I) as [Hl Hv]. unfold ARS_Sign.
  set (l := ring_index G R (t_g G (ar_enc G pp) *p sk)) in *.
  set (ct := T_EncPoint G (ar_enc G pp) (ar_ek G pp) (t_g G (ar_enc G pp) *p sk) r).
  destruct (C36_complete H (ars_er G pp) m (ring_cts G pp R ct) (ar_ek G pp) l r message rn) as [p [tr' [E V]]].
  - unfold dims_ok, ars_er. cbn [er_n er_h]. rewrite cts_length. repeat split; try lia; apply SH.
  - rewrite cts_length. exact Hl.
  - cbn [ars_er er_enc]. eapply ring_ct_zero; [exact Hl|reflexivity|exact Hv].
  - rewrite E. eexists. split; [reflexivity|]. unfold ARS_Verify. cbn [as_vk as_proof as_s as_zs as_zt].
    fold ct. rewrite V. cbn [andb]. f_equal. apply T_eqb_true. unfold ct, T_HomoAdd, T_ScalarMul, T_EncPoint. cbn [tX tY].
    generalize (H tr') (t_g G (ar_enc G pp)) (ar_ek G pp). clear. intros x g ek. logs G. split; gring.
Qed.

(** signing with a key that is not in the ring: rejected unless the challenge is 0 *)
Theorem C38_nonmember_rejected : forall (H : list N -> Z) pp m sk R message r t s rn sg b, ars_ok pp m R rn ->
  ~ In (t_g G (ar_enc G pp) *p sk) R ->
  ARS_Sign G H pp m sk R message r t s rn = Some sg ->
  (forall tr, ~ cong q (H tr) 0) ->
  ARS_Verify G H pp m R message sg = Some b -> b = false.
Proof.
  intros H pp m sk R message r t s rn sg b [Hm [LR [LH SH]]] NI S NH V.
  assert (LI : ring_index G R (t_g G (ar_enc G pp) *p sk) = length R).
  { clear - NI. induction R as [|P R IH]; [reflexivity|]. cbn [ring_index length].
    destruct (peqb_spec G P (t_g G (ar_enc G pp) *p sk)) as [->|N]; [exfalso; apply NI; left; reflexivity|].
    f_equal. apply IH. intros I. apply NI. right. exact I. }
  unfold ARS_Sign in S. rewrite LI in S.
  set (ct := T_EncPoint G (ar_enc G pp) (ar_ek G pp) (t_g G (ar_enc G pp) *p sk) r) in *.
  (* the digits of the ring size are those of 0 *)
  assert (P0 : ER_Prove G H (ars_er G pp) m (ring_cts G pp R ct) (ar_ek G pp) (length R) r message rn
             = ER_Prove G H (ars_er G pp) m (ring_cts G pp R ct) (ar_ek G pp) 0 r message rn).
  { unfold ER_Prove. cbn [ars_er er_n]. assert (D : Decompose (length R) 2 m = Decompose 0 2 m).
    { apply Decompose_eq; [lia|apply Nat.neq_0_lt_0, Nat.pow_nonzero; lia|]. rewrite LR, Nat.mod_same; [reflexivity|apply Nat.pow_nonzero; lia]. }
    rewrite D. reflexivity. }
  rewrite P0 in S. destruct (ER_Prove G H (ars_er G pp) m (ring_cts G pp R ct) (ar_ek G pp) 0 r message rn) as [[p tr']|] eqn:E; [|discriminate].
  inversion S; subst sg. clear S. unfold ARS_Verify in V. cbn [as_vk as_proof as_s as_zs as_zt] in V.
  assert (L0 : (0 < length R)%nat) by (rewrite LR; apply Nat.neq_0_lt_0, Nat.pow_nonzero; lia).
  rewrite (C36_wrong_witness_rejected H (ars_er G pp) m (ring_cts G pp R ct) (ar_ek G pp) 0 r message rn p tr') in V.
  - cbn [andb] in V. congruence.
  - unfold dims_ok, ars_er. cbn [er_n er_h]. rewrite cts_length. repeat split; try lia; apply SH.
  - rewrite cts_length. exact L0.
  - exact E.
  - apply NH.
  - cbn [ars_er er_enc]. intros W. eapply ring_ct_zero in W; [|exact L0|reflexivity].
    apply NI. rewrite <- W. apply nth_In. exact L0.
Qed.

(** Open names the signer of every signature that Sign produces. *)
Theorem C38_open_names_signer : forall (H : list N -> Z) pp m sk R message r t s rn sg dk a,
  ar_ek G pp = t_g G (ar_enc G pp) *p dk -> ~ cong q dk 0 ->
  ARS_Sign G H pp m sk R message r t s rn = Some sg ->
  fst (ARS_Open G H pp dk sg a) = fst (ARS_KeyGen G pp sk).
Proof.
  intros H pp m sk R message r t s rn sg dk a EK ND S. unfold ARS_Sign in S.
  destruct (ER_Prove _ _ _ _ _ _ _ _ _ _) as [[p tr']|]; [|discriminate]. inversion S; subst sg. clear S.
  unfold ARS_Open, T_DecECPoint, ARS_KeyGen. cbn [fst as_vk tX tY T_EncPoint]. rewrite EK, T_key_cancel by exact ND.
  generalize (t_g G (ar_enc G pp)). clear. intros g. logs G. gring.
Qed.

Theorem C38_justify_accepts : forall (H : list N -> Z) pp sg dk a vk pi,
  ar_ek G pp = t_g G (ar_enc G pp) *p dk -> ~ cong q dk 0 ->
  ARS_Open G H pp dk sg a = (vk, pi) -> ARS_Justify G H pp sg vk pi = true.
Proof.
  intros H pp sg dk a vk pi EK ND O. unfold ARS_Open in O.
  destruct (DLE_Prove G H (t_g G (ar_enc G pp)) (ar_ek G pp) (tY G (as_vk G sg) -p T_DecECPoint G dk (as_vk G sg)) (tX G (as_vk G sg)) dk [] a) as [p tr'] eqn:E.
  pose proof (f_equal fst O) as O1. pose proof (f_equal snd O) as O2. cbn [fst snd] in O1, O2. clear O. subst vk pi.
  unfold ARS_Justify. erewrite C32_complete; [reflexivity|exact EK| |exact E].
  unfold T_DecECPoint. pose proof (inv_cong G dk ND) as I. generalize (tX G (as_vk G sg)) (tY G (as_vk G sg)). intros X Y.
  transitivity (X *p (dk * ModInverse dk q)); [rewrite (pmul_cong G X _ _ I); symmetry; apply pmul_1|].
  generalize (ModInverse dk q). clear. intros i. logs G. gring.
Qed.

(** an accepted opening is correct: two accepting answers to different challenges with one
    first message are possible only for the key that the ciphertext decrypts to *)
Theorem C38_justify_sound : forall (H H' : list N -> Z) pp sg dk vk A1 A2 z z',
  ar_ek G pp = t_g G (ar_enc G pp) *p dk -> ~ cong q dk 0 -> t_g G (ar_enc G pp) <> inf G ->
  let p := {| dleA1 := A1; dleA2 := A2; dlez := z |} in
  let p' := {| dleA1 := A1; dleA2 := A2; dlez := z' |} in
  ARS_Justify G H pp sg vk p = true -> ARS_Justify G H' pp sg vk p' = true ->
  (let tr := DLE_instance G (t_g G (ar_enc G pp)) (ar_ek G pp) (tY G (as_vk G sg) -p vk) (tX G (as_vk G sg))
             ++ ToByteString G A1 ++ ToByteString G A2 in
   distinct_challenges G (H tr) (H' tr)) ->
  vk = T_DecECPoint G dk (as_vk G sg).
Proof.
  intros H H' pp sg dk vk A1 A2 z z' EK ND NG p p' V V' D. unfold ARS_Justify in V, V'.
  destruct (C32_special_soundness G H H' _ _ _ _ [] [] A1 A2 z z' V V' D) as [E1 E2].
  set (w := extracted _ _ _ _ _) in *. clearbody w. rewrite EK in E1. apply pmul_inj in E1; [|exact NG].
  rewrite (pmul_cong G _ _ _ E1) in E2. unfold T_DecECPoint. rewrite <- E2.
  pose proof (inv_cong G dk ND) as I. rewrite pmul_mul, (pmul_cong G _ _ _ I), pmul_1.
  generalize (tY G (as_vk G sg)). clear. intros Y. logs G. gring.
Qed.

(** A ring of one key (m = 0): Verify writes outside an empty vector. *)
Theorem C38_single_member_refuted : forall (H : list N -> Z) pp R message sg,
  ARS_Verify G H pp 0 R message sg = None.
Proof. reflexivity. Qed.

(** ** C39: false; anyone can sign in the name of any ring member *)
Theorem C39_framing_refuted : forall (H : list N -> Z) pp m R l message r zs zt rn dk a,
  ars_ok pp m R rn -> (l < length R)%nat ->
  ar_ek G pp = t_g G (ar_enc G pp) *p dk -> ~ cong q dk 0 ->
  exists sg, ars_forge G H pp m R l message r zs zt rn = Some sg /\
    ARS_Verify G H pp m R message sg = Some true /\
    fst (ARS_Open G H pp dk sg a) = nth l R (inf G) /\
    ARS_Justify G H pp sg (fst (ARS_Open G H pp dk sg a)) (snd (ARS_Open G H pp dk sg a)) = true.
Proof.
  intros H pp m R l message r zs zt rn dk a [Hm [LR [LH SH]]] Hl EK ND. unfold ars_forge.
  set (ct := T_EncPoint G (ar_enc G pp) (ar_ek G pp) (nth l R (inf G)) r).
  destruct (C36_complete H (ars_er G pp) m (ring_cts G pp R ct) (ar_ek G pp) l r message rn) as [p [tr' [E V]]].
  - unfold dims_ok, ars_er. cbn [er_n er_h]. rewrite cts_length. repeat split; try lia; apply SH.
  - rewrite cts_length. exact Hl.
  - cbn [ars_er er_enc]. eapply ring_ct_zero; [exact Hl|reflexivity|reflexivity].
  - rewrite E. eexists. split; [reflexivity|]. split; [|split].
    + unfold ARS_Verify. cbn [as_vk as_proof as_s as_zs as_zt]. rewrite V. cbn [andb]. f_equal. apply T_eqb_true.
      unfold T_HomoAdd, T_ScalarMul, T_HomoSub. cbn [tX tY].
      set (e := T_EncPoint _ _ _ (_ *p zs) zt). generalize (tX G e) (tY G e) (tX G ct) (tY G ct) (H tr'). clear.
      intros eX eY cX cY x. logs G. split; gring.
    + unfold ARS_Open, T_DecECPoint. cbn [fst as_vk]. unfold ct. cbn [tX tY T_EncPoint]. rewrite EK, T_key_cancel by exact ND.
      generalize (t_g G (ar_enc G pp)) (nth l R (inf G)). clear. intros g P. logs G. gring.
    + eapply C38_justify_accepts; [exact EK|exact ND|reflexivity].
Qed.
End Props.

(** ** concrete cases: a ring of four keys over the 101-element group *)
Definition ex_enc : TPP G101 := tpp101.
Definition ex_pp : ARSPP G101 :=
  {| ar_g := pgen G101; ar_h := map p101 [3; 5; 7; 11; 13]; ar_enc := ex_enc; ar_ek := p101 23 |}.
Definition ex_ring : list (pt G101) := map p101 [40; 41; 42; 43].
Definition ex_rn : ERRand :=
  {| rn_B := 5; rn_A := 6; rn_cols := [[1; 2]; [3; 4]]; rn_C := 7; rn_D := 8; rn_rho := [9; 10] |}.

Example C38_case : ars_ok G101 ex_pp 2 ex_ring ex_rn /\ In (pmul G101 (t_g G101 ex_enc) 42) ex_ring.
Proof.
  split; [unfold ars_ok, rand_shape; cbn; repeat split; try lia; repeat constructor|].
  right. right. left. apply Zq_ext. vm_compute. reflexivity.
Qed.

Example C38_case_accepts :
  match ARS_Sign G101 toyH ex_pp 2 42 ex_ring [1%N; 2%N] 17 18 19 ex_rn with
  | Some sg => ARS_Verify G101 toyH ex_pp 2 ex_ring [1%N; 2%N] sg
  | None => None
  end = Some true.
Proof. vm_compute. reflexivity. Qed.

(** a list in which nothing encrypts zero, and an accepted forged proof for it *)
Example C37_case :
  let cts := map (fun k => T_EncPoint G101 ex_enc (p101 23) (p101 k) 4) [1; 2; 3; 4] in
  Forall (fun ct => forall r, ~ encrypts_with G101 (t_g G101 ex_enc) (p101 23) (inf G101) r ct) cts /\
  match er_forge G101 toyH (ars_er G101 ex_pp) 2 cts (p101 23) [9%N] ex_rn 55 with
  | Some p => option_map fst (ER_Verify G101 toyH (ars_er G101 ex_pp) 2 cts (p101 23) [9%N] p)
  | None => None
  end = Some true.
Proof.
  split; [|vm_compute; reflexivity].
  assert (X : forall k, 1 <= k < 101 -> forall r, ~ encrypts_with G101 (t_g G101 ex_enc) (p101 23) (inf G101) r
            (T_EncPoint G101 ex_enc (p101 23) (p101 k) 4)).
  { intros k Hk r [E1 E2]. cbn [T_EncPoint tX tY] in E1, E2. rewrite padd_inf in E2.
    apply pmul_inj in E1; [|intros C; apply (f_equal (fun p => proj1_sig p)) in C; vm_compute in C; discriminate C].
    rewrite <- (pmul_cong G101 _ _ _ E1) in E2.
    assert (Z0 : p101 k = inf G101).
    { apply (padd_cancel_l G101 _ _ (pmul G101 (t_g G101 ex_enc) 4)). rewrite E2, padd_inf. reflexivity. }
    apply (f_equal (fun p => proj1_sig p)) in Z0. assert (Z1 : (1 * k) mod 101 = 0) by exact Z0. rewrite Z.mul_1_l, Z.mod_small in Z1 by lia. lia. }
  repeat constructor; apply X; lia.
Qed.

Print Assumptions C36_complete.
Print Assumptions C36_wrong_witness_rejected.
Print Assumptions C36_single_ciphertext_refuted.
Print Assumptions C37_soundness_refuted.
Print Assumptions C38_complete.
Print Assumptions C38_nonmember_rejected.
Print Assumptions C38_open_names_signer.
Print Assumptions C38_justify_accepts.
Print Assumptions C38_justify_sound.
Print Assumptions C38_single_member_refuted.
Print Assumptions C39_framing_refuted.

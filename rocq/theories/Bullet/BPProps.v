(** Properties C40-C43: the inner-product argument and the aggregated range proof. *)
From Coq Require Import NArith ZArith List Lia Bool Arith Setoid Znumtheory.
From Coq Require Import ZifyBool ZifyNat ZifyN.
From Verif.Base Require Import Words ListX.
From Verif.Crypto Require Import BigIntModel BigIntSpec BigIntProofs.
From Verif.Group Require Import ECModel ECProofs ZqGroup.
From Verif.Sigma Require Import SigmaProofs SigmaProps.
From Verif.Ring Require Import RingProofs.
From Verif.Bullet Require Import IPModel BPModel BPSpec LagSpec IPProofs BPProofs.
Import ListNotations.
Local Open Scope Z_scope.

Section Props.
Variable G : ECGroup.
Local Notation q := (order G).
Local Infix "+p" := (padd G) (at level 50, left associativity).
Local Infix "-p" := (psub G) (at level 50, left associativity).
Local Notation "P *p k" := (pmul G P k%Z) (at level 40, left associativity).
Local Notation "a == b" := (cong q a b) (at level 70).

(** ** C40 *)
(** parameters and witness of length 2^k *)
Definition ip_wf (k : nat) (pp : IPPP G) (a b : list Z) : Prop :=
  (k < 64)%nat /\ ip_len G pp = (2 ^ k)%nat /\ length (ip_g G pp) = (2 ^ k)%nat /\
  length (ip_h G pp) = (2 ^ k)%nat /\ length a = (2 ^ k)%nat /\ length b = (2 ^ k)%nat.

Theorem C40_complete : forall (H : list N -> Z) k pp P a b tr,
  ip_wf k pp a b -> ip_statement G (ip_g G pp) (ip_h G pp) (ip_u G pp) P a b ->
  exists p tr', IP_Prove G H pp P a b tr = Some (p, tr') /\
    (Forall (unit_mod G) (fst (IP_challenges G H tr (ipL G p) (ipR G p))) ->
     IP_Verify G H pp P tr p = Some (true, tr') /\ IP_FastVerify G H pp P tr p = Some (true, tr')).
Proof.
  intros H k pp P a b tr [Hk [EN [Lg [Lh [La Lb]]]]] O.
  destruct (IP_core G H k pp P a b tr EN Hk Lg Lh La Lb) as [p [tr' [E [S [T I]]]]]. exists p, tr'. split; [exact E|].
  intros NZ. cbv zeta in I. specialize (I NZ).
  pose proof (Verify_spec G H k pp P tr p EN Hk S) as V. pose proof (FastVerify_spec G H k pp P tr p EN Hk S) as F. cbv zeta in V, F.
  rewrite V, F, T. rewrite (proj2 (peqb_true G _ _) (proj2 I O)). split; reflexivity.
Qed.

(** The output of Prove on vectors that do not open P is rejected by both. *)
Theorem C40_wrong_witness_rejected : forall (H : list N -> Z) k pp P a b tr p tr',
  ip_wf k pp a b -> ~ ip_statement G (ip_g G pp) (ip_h G pp) (ip_u G pp) P a b ->
  IP_Prove G H pp P a b tr = Some (p, tr') ->
  Forall (unit_mod G) (fst (IP_challenges G H tr (ipL G p) (ipR G p))) ->
  IP_Verify G H pp P tr p = Some (false, tr') /\ IP_FastVerify G H pp P tr p = Some (false, tr').
Proof.
  intros H k pp P a b tr p tr' [Hk [EN [Lg [Lh [La Lb]]]]] O E0 NZ.
  destruct (IP_core G H k pp P a b tr EN Hk Lg Lh La Lb) as [p1 [tr1 [E [S [T I]]]]].
  rewrite E0 in E. assert (p1 = p) by congruence. assert (tr1 = tr') by congruence. subst p1. rewrite H1 in T.
  cbv zeta in I. specialize (I NZ).
  pose proof (Verify_spec G H k pp P tr p EN Hk S) as V. pose proof (FastVerify_spec G H k pp P tr p EN Hk S) as F. cbv zeta in V, F.
  rewrite V, F, T. destruct (peqb_spec G (ip_lhs G (ip_g G pp) (ip_h G pp) (ip_u G pp) (fst (IP_challenges G H tr (ipL G p) (ipR G p))) (ipa G p) (ipb G p)) (ip_rhs G (ipL G p) (ipR G p) (fst (IP_challenges G H tr (ipL G p) (ipR G p))) P)) as [X|X].
  - exfalso. apply O. apply I. exact X.
  - split; reflexivity.
Qed.

(** Every proof, honest or not, gets the same answer from both verifiers. *)
Theorem C40_verifiers_agree : forall (H : list N -> Z) pp P tr p, (N.of_nat (ip_len G pp) < 2 ^ 64)%N ->
  IP_Verify G H pp P tr p = IP_FastVerify G H pp P tr p.
Proof.
  intros H pp P tr p B. destruct (is_pow2 (ip_len G pp) && ip_sizes G pp p) eqn:C.
  - apply andb_prop in C. destruct C as [C S]. destruct (is_pow2_inv _ B C) as [k EN].
    assert (Hk : (k < 64)%nat).
    { rewrite EN, of_nat_pow2 in B. apply N.pow_lt_mono_r_iff in B; lia. }
    rewrite (Verify_spec G H k pp P tr p EN Hk S), (FastVerify_spec G H k pp P tr p EN Hk S). reflexivity.
  - unfold IP_Verify, IP_FastVerify. rewrite C. reflexivity.
Qed.

(** a proof of the wrong number of rounds is never accepted *)
Theorem C40_wrong_length_not_accepted : forall (H : list N -> Z) pp P tr p tr',
  IP_Verify G H pp P tr p = Some (true, tr') ->
  length (ipL G p) = Nat.log2 (ip_len G pp) /\ length (ipR G p) = Nat.log2 (ip_len G pp).
Proof.
  intros H pp P tr p tr' E. unfold IP_Verify in E. destruct (is_pow2 (ip_len G pp) && ip_sizes G pp p) eqn:C; [|discriminate].
  apply andb_prop in C. destruct (sizes_inv G _ _ (proj2 C)) as [_ [_ X]]. exact X.
Qed.

(** ** C41 *)
(** parameters, statement, witness and draws for which Prove runs: the total number of
    bits is a power of two and the generator vectors are long enough *)
Definition bp_wf (pp : BPPP G) (C : list (pt G)) (rn : BPRand) : Prop :=
  exists k, (k < 64)%nat /\ (bp_range G pp * length C = 2 ^ k)%nat /\
    (2 ^ k <= length (bp_vg G pp))%nat /\ (2 ^ k <= length (bp_vh G pp))%nat /\
    length (rd_sL rn) = (2 ^ k)%nat /\ length (rd_sR rn) = (2 ^ k)%nat.

Lemma app4 : forall (a b c : list N), (a ++ b) ++ c = a ++ b ++ c.
Proof. intros. symmetry. apply app_assoc. Qed.

Lemma ch_of : forall H tr p, chy G H tr p = y_of G H tr p /\ chz G H tr p = z_of G H tr p /\ chx G H tr p = x_of G H tr p /\
  chip G H tr p = ip_challenges_of G H tr p.
Proof.
  intros H tr p. unfold chy, chz, chx, chip, y_of, z_of, x_of, ip_challenges_of, tr4, chx, tr3, tr2, tr1.
  rewrite <- !app_assoc. auto.
Qed.

(** combined difference of the opening actually proved *)
Lemma msum_commits : forall g h C r v z, commits G g h C r v ->
  msum G C (zpow (length C) z) = g *p sum (length C) (fun j => z ^ Z.of_nat (S (S j)) * nth j r 0)
     +p h *p sum (length C) (fun j => z ^ Z.of_nat (S (S j)) * nth j v 0).
Proof.
  intros g h C r v z [_ [_ E]]. unfold zpow, sum.
  assert (X : forall (l : list (pt G)) o, (forall j, (j < length l)%nat -> nth j l (inf G) = g *p nth (o + j) r 0 +p h *p nth (o + j) v 0) ->
    msum G l (map (fun j => z ^ Z.of_nat (S (S j))) (seq o (length l))) =
    g *p zsum (map (fun j => z ^ Z.of_nat (S (S j)) * nth j r 0) (seq o (length l))) +p
    h *p zsum (map (fun j => z ^ Z.of_nat (S (S j)) * nth j v 0) (seq o (length l)))).
  { induction l as [|c l IH]; intros o Q; cbn [length seq map msum zsum].
    - rewrite !pmul_0, padd_inf. reflexivity.
    - rewrite (IH (S o)).
      + pose proof (Q 0%nat ltac:(cbn [length]; lia)) as Q0. cbn [nth] in Q0. rewrite Nat.add_0_r in Q0. rewrite Q0.
        generalize (z ^ Z.of_nat (S (S o))). clear. intros. logs G. gring.
      + intros j Hj. rewrite Nat.add_succ_comm. apply (Q (S j)). cbn [length]. lia. }
  apply (X C 0%nat). exact E.
Qed.

Lemma BP_honest_difference : forall (H : list N -> Z) pp C r v tr rn, bp_wf pp C rn ->
  commits G (bp_g G pp) (bp_h G pp) C r v ->
  exists p, BP_Prove G H pp C r v tr rn = Some (p, trend G H tr p) /\ bp_dims G pp (length C) p /\
   E1 G H pp C tr p = bp_h G pp *p sum (length C) (fun j => (z_of G H tr p) ^ Z.of_nat (S (S j)) * (nth j v 0 - low (bp_range G pp) (nth j v 0))) /\
   (good_challenges G H tr p -> E2 G H pp C tr p = inf G).
Proof.
  intros H pp C r v tr rn [k [Hk [EL [Lg [Lh [LL LR]]]]]] CM. pose proof CM as [Lr [Lv _]].
  destruct (BP_honest G H pp C r v tr rn k EL Hk Lg Lh ltac:(lia) ltac:(lia) LL LR) as [p [EP [D [Q1 Q2]]]].
  destruct (ch_of H tr p) as [Ey [Ez [Ex Ei]]].
  exists p. split; [exact EP|]. split; [exact D|]. split.
  - rewrite Q1, (msum_commits _ _ _ _ _ _ CM), Ez.
    rewrite (sum_ext (length C) (fun j => z_of G H tr p ^ Z.of_nat (S (S j)) * (nth j v 0 - low (bp_range G pp) (nth j v 0)))
      (fun j => 1 * (z_of G H tr p ^ Z.of_nat (S (S j)) * nth j v 0) + -1 * (z_of G H tr p ^ Z.of_nat (S (S j)) * low (bp_range G pp) (nth j v 0)))) by (intros; ring).
    rewrite sum_lin. bpgen. clear. intros. logs G. gring.
  - intros [Y X]. apply Q2; [rewrite Ey; exact Y|rewrite Ei; exact X].
Qed.

Lemma sum_zero : forall n f, (forall i, (i < n)%nat -> f i = 0) -> sum n f = 0.
Proof.
  intros n f Z0. rewrite (sum_ext n f (fun i => 0 * 0)) by (intros; rewrite Z0 by assumption; reflexivity).
  rewrite sum_scale. reflexivity.
Qed.

Theorem C41_complete : forall (H : list N -> Z) pp C r v tr rn,
  bp_wf pp C rn -> commits G (bp_g G pp) (bp_h G pp) C r v -> Forall (in_range (bp_range G pp)) v ->
  exists p tr', BP_Prove G H pp C r v tr rn = Some (p, tr') /\
    (good_challenges G H tr p ->
     BP_Verify G H pp C tr p = Some (true, tr') /\ forall c, BP_FastVerify G H pp C tr p c = Some (true, tr')).
Proof.
  intros H pp C r v tr rn W CM RG. destruct (BP_honest_difference H pp C r v tr rn W CM) as [p [EP [D [Q1 Q2]]]].
  exists p, (trend G H tr p). split; [exact EP|]. intros GC. specialize (Q2 GC).
  rewrite sum_zero, pmul_0 in Q1.
  - rewrite BP_Verify_spec by exact D. rewrite Q1, Q2, peqb_refl. split; [reflexivity|].
    intros c. rewrite BP_FastVerify_spec by exact D. rewrite Q1, Q2, inf_mul, padd_inf, peqb_refl. reflexivity.
  - intros j Hj. rewrite low_small; [ring|]. rewrite Forall_forall in RG. apply RG. apply nth_In. destruct CM as [_ [-> _]]. exact Hj.
Qed.

(** The output of Prove is accepted exactly when the parts of the values above 2^n cancel
    in the combination with powers of the challenge z. *)
Theorem C41_acceptance_exact : forall (H : list N -> Z) pp C r v tr rn p tr',
  bp_wf pp C rn -> commits G (bp_g G pp) (bp_h G pp) C r v -> Forall (fun x => 0 <= x) v -> bp_h G pp <> inf G ->
  BP_Prove G H pp C r v tr rn = Some (p, tr') -> good_challenges G H tr p ->
  let overflow j := nth j v 0 / 2 ^ Z.of_nat (bp_range G pp) * 2 ^ Z.of_nat (bp_range G pp) in
  let cancel := sum (length C) (fun j => (z_of G H tr p) ^ Z.of_nat (j + 2) * overflow j) == 0 in
  (BP_Verify G H pp C tr p = Some (true, tr') <-> cancel) /\
  (forall c, unit_mod G c -> (BP_FastVerify G H pp C tr p c = Some (true, tr') <-> cancel)).
Proof.
  intros H pp C r v tr rn p tr' W CM NN HF E GC overflow cancel.
  destruct (BP_honest_difference H pp C r v tr rn W CM) as [p' [EP [D [Q1 Q2]]]].
  rewrite E in EP. assert (p = p') by congruence. subst p'. assert (tr' = trend G H tr p) by congruence. subst tr'. specialize (Q2 GC).
  assert (QE : E1 G H pp C tr p = inf G <-> cancel).
  { rewrite Q1. rewrite (sum_ext (length C) _ (fun j => (z_of G H tr p) ^ Z.of_nat (j + 2) * overflow j)).
    - fold (sum (length C) (fun j => (z_of G H tr p) ^ Z.of_nat (j + 2) * overflow j)). unfold cancel. split.
      + intros X. apply (pmul_inj G (bp_h G pp)); [exact HF|]. rewrite X, pmul_0. reflexivity.
      + intros X. rewrite (pmul_cong G _ _ _ X). apply pmul_0.
    - intros j Hj. replace (S (S j)) with (j + 2)%nat by lia. f_equal. unfold overflow. rewrite low_mod.
      + rewrite Z.mod_eq by (apply Z.pow_nonzero; lia). ring.
      + rewrite Forall_forall in NN. apply NN. apply nth_In. destruct CM as [_ [-> _]]. exact Hj. }
  split.
  - rewrite BP_Verify_spec by exact D. rewrite Q2, peqb_refl, andb_true_r, <- QE, <- peqb_true. split; intros X; [injection X as X; exact X|rewrite X; reflexivity].
  - intros c NC. rewrite BP_FastVerify_spec by exact D. rewrite Q2, padd_inf, <- QE.
    assert (U : E1 G H pp C tr p *p c = inf G <-> E1 G H pp C tr p = inf G).
    { split; [|intros ->; apply inf_mul]. intros X. destruct (peqb_spec G (E1 G H pp C tr p) (inf G)) as [Y|Y]; [exact Y|exfalso].
      apply NC. apply (pmul_inj G _ _ _ Y). rewrite X, pmul_0. reflexivity. }
    rewrite <- U, <- peqb_true. split; intros X; [injection X as X; exact X|rewrite X; reflexivity].
Qed.

(** in particular a single value outside the range is always rejected *)
Theorem C41_out_of_range_rejected : forall (H : list N -> Z) pp P r v tr rn p tr',
  bp_wf pp [P] rn -> commits G (bp_g G pp) (bp_h G pp) [P] [r] [v] -> bp_h G pp <> inf G -> 2 < q ->
  2 ^ Z.of_nat (bp_range G pp) <= v < q ->
  BP_Prove G H pp [P] [r] [v] tr rn = Some (p, tr') -> good_challenges G H tr p -> unit_mod G (z_of G H tr p) ->
  BP_Verify G H pp [P] tr p <> Some (true, tr') /\ forall c, unit_mod G c -> BP_FastVerify G H pp [P] tr p c <> Some (true, tr').
Proof.
  intros H pp P r v tr rn p tr' W CM HF Q2 RV E GC UZ.
  assert (P2 : 0 < 2 ^ Z.of_nat (bp_range G pp)) by (apply Z.pow_pos_nonneg; lia).
  destruct (C41_acceptance_exact H pp [P] [r] [v] tr rn p tr' W CM ltac:(constructor; [lia|constructor]) HF E GC) as [A B].
  match type of A with _ <-> ?c => assert (NC : ~ c) end.
  { unfold sum. cbn [length seq map zsum nth Nat.add]. rewrite Z.add_0_r. set (w := v / 2 ^ Z.of_nat (bp_range G pp)).
    assert (W1 : 1 <= w < q).
    { unfold w. split; [apply Z.div_le_lower_bound; lia|]. apply Z.div_lt_upper_bound; [lia|]. nia. }
    intros X. apply (range_not_0 G w W1).
    assert (U2 : ~ 2 == 0) by (apply (range_not_0 G 2); lia).
    assert (UP : forall n, ~ 2 ^ Z.of_nat n == 0).
    { induction n as [|n IH]; [apply (range_not_0 G 1); lia|]. rewrite Nat2Z.inj_succ, Z.pow_succ_r by lia.
      intros Y. apply IH. apply (cong_cancel G 2); [exact U2|]. rewrite Z.mul_0_r. exact Y. }
    apply (cong_cancel G (2 ^ Z.of_nat (bp_range G pp))); [apply UP|]. rewrite Z.mul_0_r, Z.mul_comm.
    change (z_of G H tr p ^ Z.of_nat 2) with (z_of G H tr p * (z_of G H tr p * 1)) in X. rewrite Z.mul_1_r, <- Z.mul_assoc in X.
    apply (cong_cancel G (z_of G H tr p)); [exact UZ|]. apply (cong_cancel G (z_of G H tr p)); [exact UZ|]. rewrite X, !Z.mul_0_r. reflexivity. }
  split; [intros X; apply NC, A, X|]. intros c UC X. apply NC. apply (B c UC). exact X.
Qed.

(** when the total number of bits is not a power of two, Prove and Verify terminate the
    process *)
Theorem C41_not_power_of_two : forall (H : list N -> Z) pp C r v tr rn p c,
  is_pow2 (bp_range G pp * length C) = false ->
  BP_Prove G H pp C r v tr rn = None /\ BP_Verify G H pp C tr p = None /\ BP_FastVerify G H pp C tr p c = None.
Proof.
  intros H pp C r v tr rn p c E. split; [|split].
  - unfold BP_Prove, bp_ip. rewrite E. destruct (_ && _); [|reflexivity].
    repeat match goal with |- obind ?o _ = None => destruct o; cbn [obind]; [|reflexivity] end. reflexivity.
  - unfold BP_Verify, bp_ip. rewrite E. destruct (_ && _); [|reflexivity].
    repeat match goal with |- obind ?o _ = None => destruct o; cbn [obind]; [|reflexivity] end. reflexivity.
  - unfold BP_FastVerify. rewrite E, andb_false_r. reflexivity.
Qed.

(** ** C42 *)
(** an answer of a verifier implies that the sizes fit *)
Lemma pow2_bound : forall n, (N.of_nat n < 2 ^ 64)%N -> is_pow2 n = true -> exists k, (k < 64)%nat /\ n = (2 ^ k)%nat.
Proof.
  intros n B C. destruct (is_pow2_inv _ B C) as [k EN]. exists k. split; [|exact EN].
  rewrite EN, of_nat_pow2 in B. apply N.pow_lt_mono_r_iff in B; lia.
Qed.

Lemma verify_dims : forall H pp C tr p o, (N.of_nat (bp_range G pp * length C) < 2 ^ 64)%N ->
  BP_Verify G H pp C tr p = Some o -> bp_dims G pp (length C) p.
Proof.
  intros H pp C tr p o B E. unfold BP_Verify, bp_ip in E.
  destruct ((_ <=? _) && (_ <=? _))%nat eqn:L in E; [|discriminate].
  destruct (is_pow2 (bp_range G pp * length C)) eqn:Q.
  2:{ repeat match type of E with obind ?o _ = Some _ => destruct o; cbn [obind] in E; [|discriminate] end. discriminate. }
  destruct (pow2_bound _ B Q) as [k [Hk EL]]. rewrite EL in *.
  repeat match type of E with obind ?o _ = Some _ => let X := fresh "X" in destruct o eqn:X; cbn [obind] in E; [|discriminate] end.
  match goal with X : IP_FastVerify G H ?i ?P ?t ?b = Some _, Y : obind _ _ = Some ?i |- _ => rename X into XV; rename Y into XI end.
  unfold IP_FastVerify in XV. destruct (_ && ip_sizes G _ _) eqn:S in XV; [|discriminate]. apply andb_prop in S. destruct S as [_ S].
  destruct (sizes_inv G _ _ S) as [_ [_ [LL LR]]].
  repeat match type of XI with obind ?o _ = Some _ => destruct o; cbn [obind] in XI; [|discriminate] end.
  injection XI as XI. subst i. cbn [ip_len] in LL, LR. rewrite Nat.log2_pow2 in LL, LR by lia.
  exists k. repeat split; try assumption; lia.
Qed.

Lemma fast_dims : forall H pp C tr p c o, (N.of_nat (bp_range G pp * length C) < 2 ^ 64)%N ->
  BP_FastVerify G H pp C tr p c = Some o -> bp_dims G pp (length C) p.
Proof.
  intros H pp C tr p c o B E. unfold BP_FastVerify in E. destruct (_ && _) eqn:L in E; [|discriminate].
  repeat (apply andb_prop in L; destruct L as [L ?]).
  destruct (pow2_bound _ B H1) as [k [Hk EL]]. rewrite EL in *. apply andb_prop in H0. destruct H0 as [LL LR]. rewrite Nat.log2_pow2 in LL, LR by lia.
  exists k. repeat split; try assumption; lia.
Qed.

Theorem C42_verify_implies_fast : forall (H : list N -> Z) pp C tr p tr' c,
  (N.of_nat (bp_range G pp * length C) < 2 ^ 64)%N ->
  BP_Verify G H pp C tr p = Some (true, tr') -> BP_FastVerify G H pp C tr p c = Some (true, tr').
Proof.
  intros H pp C tr p tr' c B E. pose proof (verify_dims _ _ _ _ _ _ B E) as D. pose proof E as E'. rewrite BP_Verify_spec in E' by exact D.
  assert (tr' = trend G H tr p) by congruence. subst tr'. apply (proj1 (BP_fast_naive G H pp C tr p D)). exact E.
Qed.

Theorem C42_two_combiners_imply_verify : forall (H : list N -> Z) pp C tr p tr' c c',
  (N.of_nat (bp_range G pp * length C) < 2 ^ 64)%N ->
  ~ c == c' -> BP_FastVerify G H pp C tr p c = Some (true, tr') -> BP_FastVerify G H pp C tr p c' = Some (true, tr') ->
  BP_Verify G H pp C tr p = Some (true, tr').
Proof.
  intros H pp C tr p tr' c c' B N E E'. pose proof (fast_dims _ _ _ _ _ _ _ B E) as D. pose proof E as E0. rewrite BP_FastVerify_spec in E0 by exact D.
  assert (tr' = trend G H tr p) by congruence. subst tr'. exact (proj2 (BP_fast_naive G H pp C tr p D) c c' N E E').
Qed.

(** a rejected proof passes the fast verifier for at most one combiner *)
Theorem C42_rejected_at_most_one_combiner : forall (H : list N -> Z) pp C tr p tr' c c',
  (N.of_nat (bp_range G pp * length C) < 2 ^ 64)%N ->
  BP_Verify G H pp C tr p = Some (false, tr') ->
  BP_FastVerify G H pp C tr p c = Some (true, tr') -> BP_FastVerify G H pp C tr p c' = Some (true, tr') -> c == c'.
Proof.
  intros H pp C tr p tr' c c' B V E E'.
  destruct (Z.eq_dec (c mod q) (c' mod q)) as [X|X].
  - pose proof (order_pos G). exists (c / q - c' / q). pose proof (Z.div_mod c q ltac:(lia)). pose proof (Z.div_mod c' q ltac:(lia)). nia.
  - assert (NC : ~ c == c') by (intros [m Y]; apply X; rewrite Y, Z.mod_add by (pose proof (order_pos G); lia); reflexivity).
    pose proof (C42_two_combiners_imply_verify H pp C tr p tr' c c' B NC E E'). congruence.
Qed.

(** ** C43 *)
(** The commitments are not part of what the challenges are computed from. *)
Lemma Prove_ignores_statement : forall (H : list N -> Z) pp C C' r v tr rn, length C = length C' ->
  BP_Prove G H pp C r v tr rn = BP_Prove G H pp C' r v tr rn.
Proof. intros H pp C C' r v tr rn E. unfold BP_Prove. rewrite E. reflexivity. Qed.

(** Someone who runs Prove on the values v0 and 0 and only then chooses the two
    commitments gets an accepted proof for commitments they can open to v0 + z and to -1:
    the second one is to no value of the range. *)
Theorem C43_binding_refuted : forall (H : list N -> Z) pp P0 P1 r0 r1 v0 tr rn,
  bp_wf pp [P0; P1] rn -> in_range (bp_range G pp) v0 -> 2 ^ Z.of_nat (bp_range G pp) < q ->
  exists p tr', BP_Prove G H pp [P0; P1] [r0; r1] [v0; 0] tr rn = Some (p, tr') /\
    (good_challenges G H tr p ->
     exists C0 C1 v0', C0 = bp_g G pp *p r0 +p bp_h G pp *p v0' /\ C1 = bp_g G pp *p r1 +p bp_h G pp *p (-1) /\
       (forall w, in_range (bp_range G pp) w -> ~ w == -1) /\
       BP_Verify G H pp [C0; C1] tr p = Some (true, tr') /\
       forall c, BP_FastVerify G H pp [C0; C1] tr p c = Some (true, tr')).
Proof.
  intros H pp P0 P1 r0 r1 v0 tr rn [k [Hk [EL [Lg [Lh [LL LR]]]]]] RV BQ.
  destruct (BP_honest G H pp [P0; P1] [r0; r1] [v0; 0] tr rn k EL Hk Lg Lh ltac:(cbn; lia) ltac:(cbn; lia) LL LR) as [p [EP [_ _]]].
  exists p, (trend G H tr p). split; [exact EP|]. intros [Y X]. destruct (ch_of H tr p) as [Ey [Ez [Ex Ei]]].
  set (z := z_of G H tr p) in *.
  exists (bp_g G pp *p r0 +p bp_h G pp *p (v0 + z)), (bp_g G pp *p r1 +p bp_h G pp *p (-1)), (v0 + z).
  split; [reflexivity|]. split; [reflexivity|]. split.
  { intros w [W1 W2] [m W]. assert (m <= 0 \/ 1 <= m) as [M|M] by lia; nia. }
  set (C := [bp_g G pp *p r0 +p bp_h G pp *p (v0 + z); bp_g G pp *p r1 +p bp_h G pp *p (-1)]).
  destruct (BP_honest G H pp C [r0; r1] [v0; 0] tr rn k EL Hk Lg Lh ltac:(cbn; lia) ltac:(cbn; lia) LL LR) as [p' [EP' [D [Q1 Q2]]]].
  rewrite (Prove_ignores_statement H pp C [P0; P1]) in EP' by reflexivity. rewrite EP in EP'. assert (p' = p) by congruence. subst p'.
  rewrite <- Ey in Y. rewrite <- Ei in X. specialize (Q2 Y X).
  assert (Z1 : E1 G H pp C tr p = inf G).
  { rewrite Q1, Ez. fold z. unfold C, zpow, sum. cbn [length seq map msum zsum nth].
    rewrite (low_small _ v0 RV), (low_small _ 0) by (split; [lia|apply Z.pow_pos_nonneg; lia]).
    change (z ^ Z.of_nat 2) with (z * (z * 1)). change (z ^ Z.of_nat 3) with (z * (z * (z * 1))).
    transitivity (bp_g G pp *p 0); [|apply pmul_0]. rewrite padd_inf. bpgen. clear. intros. logs G. gring. }
  rewrite BP_Verify_spec by exact D. rewrite Z1, Q2, peqb_refl. split; [reflexivity|].
  intros c. rewrite BP_FastVerify_spec by exact D. rewrite Z1, Q2, inf_mul, padd_inf, peqb_refl. reflexivity.
Qed.
End Props.

(** ** the hypotheses are met by concrete, non-trivial data *)
Definition bp101 : BPPP G101 :=
  {| bp_range := 2; bp_g := pgen G101; bp_h := p101 9; bp_u := p101 31;
     bp_vg := map p101 [3; 14; 15; 92; 65]; bp_vh := map p101 [27; 18; 28; 18; 20] |}.
Definition rn101 : BPRand :=
  {| rd_alpha := 33; rd_sL := [5; 6; 7; 8]; rd_sR := [90; 91; 92; 93]; rd_rho := 12; rd_tau1 := 44; rd_tau2 := 55 |}.
Definition C101 : list (pt G101) := [padd G101 (pmul G101 (pgen G101) 21) (pmul G101 (p101 9) 3); padd G101 (pmul G101 (pgen G101) 22) (pmul G101 (p101 9) 2)].

Example C40_example : exists P, ip_wf G101 2 {| ip_len := 4; ip_g := map p101 [3; 14; 15; 92]; ip_h := map p101 [27; 18; 28; 18]; ip_u := p101 31 |} [1; 2; 3; 4] [9; 8; 7; 6] /\
  ip_statement G101 (map p101 [3; 14; 15; 92]) (map p101 [27; 18; 28; 18]) (p101 31) P [1; 2; 3; 4] [9; 8; 7; 6].
Proof. eexists. split; [repeat split; cbn; lia|]. reflexivity. Qed.

Example C41_hypotheses : bp_wf G101 bp101 C101 rn101 /\ commits G101 (bp_g G101 bp101) (bp_h G101 bp101) C101 [21; 22] [3; 2] /\
  Forall (in_range (bp_range G101 bp101)) [3; 2].
Proof.
  split; [exists 2%nat; repeat split; cbn; lia|]. split.
  - split; [reflexivity|]. split; [reflexivity|]. intros [|[|j]] Hj; [reflexivity|reflexivity|cbn in Hj; lia].
  - unfold in_range. repeat constructor; cbn; lia.
Qed.

Lemma unit101 : forall a, (a mod 101 =? 0) = false -> unit_mod G101 a.
Proof. intros a E [k K]. change (order G101) with 101 in K. rewrite K, Z.add_0_l, Z.mod_mul in E by lia. discriminate. Qed.

Definition proof101 := BP_Prove G101 toyH bp101 C101 [21; 22] [3; 2] [7%N] rn101.
Example C41_challenges : exists p tr', proof101 = Some (p, tr') /\ good_challenges G101 toyH [7%N] p.
Proof.
  assert (T : match proof101 with Some (p, _) => ((y_of G101 toyH [7%N] p mod 101 =? 0) = false /\
      forallb (fun c => negb (c mod 101 =? 0)) (ip_challenges_of G101 toyH [7%N] p) = true) | None => False end) by (vm_compute; split; reflexivity).
  destruct proof101 as [[p tr']|]; [|contradiction]. exists p, tr'. split; [reflexivity|].
  destruct T as [T1 T2]. split; [apply unit101; exact T1|].
  apply Forall_forall. intros c I. rewrite forallb_forall in T2. specialize (T2 c I). apply unit101. apply negb_true_iff. exact T2.
Qed.

Print Assumptions C40_complete.
Print Assumptions C40_wrong_witness_rejected.
Print Assumptions C40_verifiers_agree.
Print Assumptions C40_wrong_length_not_accepted.
Print Assumptions C41_complete.
Print Assumptions C41_acceptance_exact.
Print Assumptions C41_out_of_range_rejected.
Print Assumptions C41_not_power_of_two.
Print Assumptions C42_verify_implies_fast.
Print Assumptions C42_two_combiners_imply_verify.
Print Assumptions C42_rejected_at_most_one_combiner.
Print Assumptions C43_binding_refuted.

(** Property C102: anonymity of ring signatures.  It is false of the code. *)
From Coq Require Import NArith ZArith List Lia Bool Arith Setoid Morphisms.
From Coq Require Import ZifyBool ZifyNat ZifyN.
From Verif.Base Require Import Words ListX.
From Verif.Crypto Require Import BigIntModel BigIntSpec BigIntProofs.
From Verif.Group Require Import ECModel ECProofs ZqGroup.
From Verif.PKE Require Import ElGamalModel ElGamalProofs.
From Verif.Sigma Require Import SigmaModel SigmaSpec SigmaProofs SigmaProps.
From Verif.Ring Require Import RingModel RingSpec RingProofs RingProps AnonSpec.
Import ListNotations.
Local Open Scope Z_scope.

Lemma low_bounds : forall q x rho m, 1 < x -> Forall (fun c => 0 <= c < q) rho -> length rho = m ->
  0 <= low x m rho /\ low x m rho * (x - 1) <= (q - 1) * (x ^ Z.of_nat m - 1).
Proof.
  intros q x rho m Hx F L.
  assert (X : forall k, (k <= m)%nat -> 0 <= low x k rho /\ low x k rho * (x - 1) <= (q - 1) * (x ^ Z.of_nat k - 1)).
  { induction k as [|k IH]; intros Hk.
    - unfold low. cbn [seq map zsum]. change (Z.of_nat 0) with 0. rewrite Z.pow_0_r. lia.
    - specialize (IH ltac:(lia)). rewrite low_succ, Nat2Z.inj_succ, Z.pow_succ_r by lia.
      assert (P : 0 < x ^ Z.of_nat k) by (apply Z.pow_pos_nonneg; lia).
      assert (R : 0 <= nth k rho 0 < q) by (rewrite Forall_forall in F; apply F, nth_In; lia).
      revert IH P R. generalize (low x k rho) (x ^ Z.of_nat k) (nth k rho 0). clear - Hx. intros s p c IH P R. split; [nia|].
      assert (c * (p * (x - 1)) <= (q - 1) * (p * (x - 1))) by (apply Z.mul_le_mono_nonneg_r; nia). nia. }
  apply X. lia.
Qed.

Lemma candidate_found : forall q x rho m r, 1 < q -> 1 < x -> Forall (fun c => 0 <= c < q) rho -> length rho = m ->
  In r (candidates q x m (r * x ^ Z.of_nat m - low x m rho)).
Proof.
  intros q x rho m r Hq Hx F L. destruct (low_bounds q x rho m Hx F L) as [S0 S1]. unfold candidates.
  assert (P : 0 < x ^ Z.of_nat m) by (apply Z.pow_pos_nonneg; lia). revert S0 S1 P.
  generalize (low x m rho) (x ^ Z.of_nat m). intros s p S0 S1 P.
  replace (- (r * p - s)) with (s + (- r) * p) by ring. rewrite Z.div_add by lia.
  pose proof (Z.div_pos s p S0 P) as D0. pose proof (Z.mul_div_le s p P) as D1.
  assert (D2 : s / p <= (q - 1) / (x - 1)).
  { apply Z.div_le_lower_bound; [lia|]. revert D0 D1. generalize (s / p). intros d D0 D1.
    destruct (Z_lt_le_dec (q - 1) ((x - 1) * d)) as [Lt|]; [exfalso|assumption].
    assert (p * q <= p * ((x - 1) * d)) by (apply Z.mul_le_mono_nonneg_l; lia).
    assert ((x - 1) * (p * d) <= (x - 1) * s) by (apply Z.mul_le_mono_nonneg_l; lia). nia. }
  apply in_map_iff. exists (Z.to_nat (s / p)). split; [rewrite Z2Nat.id by exact D0; ring|].
  apply in_seq. unfold tries. lia.
Qed.

Lemma Some_inj : forall (A : Type) (a c : A), Some a = Some c -> a = c.
Proof. intros A a c E. inversion E. reflexivity. Qed.

Section Props.
Variable G : ECGroup.
Local Notation q := (order G).
Local Infix "+p" := (padd G) (at level 50, left associativity).
Local Infix "-p" := (psub G) (at level 50, left associativity).
Local Notation "P *p k" := (pmul G P k%Z) (at level 40, left associativity).
Local Notation "a == b" := (cong q a b) (at level 70).

(** the randomness of the witness is among the candidates *)
Theorem C102_witness_revealed : forall (H : list N -> Z) pp m cts ek l r tr rn p tr',
  ER_Prove G H pp m cts ek l r tr rn = Some (p, tr') ->
  length (rn_rho rn) = m -> Forall (fun c => 0 <= c < q) (rn_rho rn) -> 1 < H tr' ->
  In r (candidates q (H tr') m (erz G p)) /\
  tr' = er_transcript G tr (erB G p) (erA G p) (erC G p) (erD G p).
Proof.
  intros H pp m cts ek l r tr rn p tr' E L F Hx. unfold ER_Prove in E.
  destruct (Commit G (er_g G pp) (er_h G pp) (vec_delta_of _ _) _) as [B|]; [|discriminate].
  destruct (Commit G (er_g G pp) (er_h G pp) (vec_a_of _) _) as [A|]; [|discriminate].
  destruct (Commit G (er_g G pp) (er_h G pp) (vec_c_of _ _) _) as [C|]; [|discriminate].
  destruct (Commit G (er_g G pp) (er_h G pp) (vec_d_of _) _) as [D|]; [|discriminate].
  destruct (polys _ _ _ _ _ _) as [P|]; [|discriminate]. apply Some_inj in E.
  assert (E1 := f_equal fst E). assert (E2 := f_equal snd E). cbn [fst snd] in E1, E2. subst tr' p. clear E. cbn [erz erB erA erC erD].
  split; [|reflexivity]. set (x := H (er_transcript G tr B A C D)) in *.
  rewrite fold_z, powers_nth, Z.mul_1_l by lia.
  assert (Z1 : zsum (map (fun k => nth k (rn_rho rn) 0 * nth k (powers (S m) 1 x) 0) (seq 0 m)) = low x m (rn_rho rn)).
  { unfold low. f_equal. apply map_ext_in. intros k Hk. apply in_seq in Hk. rewrite powers_nth by lia. f_equal. lia. }
  rewrite Z1. apply candidate_found; try assumption. apply order_gt1.
Qed.

(** Anybody can name the signer. *)
Theorem C102_anonymity_refuted : forall (H : list N -> Z) pp m sk R message r t s rn sg,
  ar_ek G pp <> inf G ->
  length (rn_rho rn) = m -> Forall (fun c => 0 <= c < q) (rn_rho rn) ->
  ARS_Sign G H pp m sk R message r t s rn = Some sg ->
  1 < challenge_of G H message sg ->
  name_signer G H pp m message sg = Some (t_g G (ar_enc G pp) *p sk).
Proof.
  intros H pp m sk R message r t s rn sg NE L F E Hx. unfold ARS_Sign in E.
  destruct (ER_Prove G H (ars_er G pp) m _ (ar_ek G pp) _ r message rn) as [[pi tr']|] eqn:EP; [|discriminate].
  inversion E. subst sg. clear E. unfold challenge_of in Hx. cbn [as_proof] in Hx.
  assert (ET : tr' = er_transcript G message (erB G pi) (erA G pi) (erC G pi) (erD G pi)).
  { unfold ER_Prove in EP. repeat (destruct (Commit _ _ _ _ _); [|discriminate]). destruct (polys _ _ _ _ _ _); [|discriminate]. inversion EP. reflexivity. }
  rewrite <- ET in Hx. destruct (C102_witness_revealed H _ m _ _ _ r message rn pi tr' EP L F Hx) as [I _].
  unfold name_signer, challenge_of. cbn [as_proof as_vk T_EncPoint tX tY]. rewrite <- ET.
  destruct (find _ _) as [r'|] eqn:FD.
  - apply find_some in FD. destruct FD as [_ P]. apply peqb_true in P. apply (pmul_inj G) in P; [|exact NE].
    rewrite (pmul_cong G _ _ _ P). f_equal. generalize (t_g G (ar_enc G pp)). clear. intros. logs G. gring.
  - exfalso. pose proof (find_none _ _ FD r I) as X. cbv beta in X. rewrite peqb_refl in X. discriminate.
Qed.
(** The number of candidates is small: at most two when the challenge is more than half of the order. *)
Theorem C102_few_candidates : forall x, q <= 2 * (x - 1) -> (tries q x <= 2)%nat.
Proof.
  intros x Hx. unfold tries. pose proof (order_gt1 G).
  assert ((q - 1) / (x - 1) < 2) by (apply Z.div_lt_upper_bound; lia). lia.
Qed.
End Props.

(** concrete case: the member with key 42, challenge 60 *)
Example C102_case :
  ar_ek G101 ex_pp <> inf G101 /\ length (rn_rho ex_rn) = 2%nat /\ Forall (fun c => 0 <= c < order G101) (rn_rho ex_rn) /\
  match ARS_Sign G101 (fun _ => 60) ex_pp 2 42 ex_ring [1%N; 2%N] 17 18 19 ex_rn with
  | Some sg => option_map (fun P => proj1_sig P) (name_signer G101 (fun _ => 60) ex_pp 2 [1%N; 2%N] sg) = Some 42
  | None => False
  end.
Proof.
  split; [intros C; apply (f_equal (fun p => proj1_sig p)) in C; vm_compute in C; discriminate C|].
  split; [reflexivity|]. split; [repeat constructor; change (order G101) with 101; lia|]. vm_compute. reflexivity.
Qed.

Print Assumptions C102_witness_revealed.
Print Assumptions C102_anonymity_refuted.
Print Assumptions C102_few_candidates.

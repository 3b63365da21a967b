(** Property C112: ciphertexts and signatures kept in files. *)
From Coq Require Import NArith ZArith List Bool Arith Lia.
From Coq Require Import ZifyBool ZifyNat ZifyN.
From Verif.Base Require Import Words ListX.
From Verif.Crypto Require Import BigIntModel BigIntProofs.
From Verif.Group Require Import ECModel ECProofs ZqGroup.
From Verif.PKE Require Import ElGamalModel ElGamalProps CTFileModel.
From Verif.Sigma Require Import SigmaModel SigmaProps.
From Verif.Param Require Import ParamModel ParamSpec ParamProofs ParamProps.
Import ListNotations.
Local Open Scope N_scope.

Section Props.
Variable G : ECGroup.
Variable gb g32 : list N.
Hypothesis Hgb : length gb = 65%nat.
Hypothesis H32 : length g32 = 32%nat.
Local Notation fin P := (P <> inf G).

(** a point at infinity leaves the object alone *)
Lemma get_point_inf : forall old r, get_point G gb old (mkIfs (write_point G gb (inf G) ++ r) true) = (old, mkIfs r true).
Proof.
  intros old r. unfold get_point, write_point. destruct (peqb_spec G (inf G) (inf G)) as [_|N]; [|congruence].
  set (b := 0 :: skipn 1 gb). assert (Lb : length b = length gb) by (unfold b; cbn [length]; rewrite skipn_length, Hgb; reflexivity).
  rewrite <- Hgb. rewrite fill_write by exact Lb. rewrite oct65_head0; [reflexivity|rewrite Lb; exact Hgb|reflexivity].
Qed.
(** a new point, or a finite one: what was written is read *)
Lemma get_point_any : forall old P r, old = inf G \/ fin P ->
  get_point G gb old (mkIfs (write_point G gb P ++ r) true) = (P, mkIfs r true).
Proof.
  intros old P r H. destruct (peqb_spec G P (inf G)) as [E|N].
  - subst P. rewrite get_point_inf. destruct H as [H|H]; [subst; reflexivity|congruence].
  - apply get_point_write; assumption.
Qed.

(** ** Ciphertexts for one receiver *)
Lemma G_found : forall old ct, (gX G old = inf G \/ fin (gX G ct)) -> (gY G old = inf G \/ fin (gY G ct)) ->
  fetch (G_read G gb) old (G_write G gb ct) = ct.
Proof.
  intros old [X Y] A B. unfold fetch, G_read, G_write. cbn [gX gY] in *. rewrite get_point_any by exact A.
  rewrite <- (app_nil_r (write_point G gb Y)), get_point_any by exact B. reflexivity.
Qed.
Lemma E_found : forall old ct, (eX G old = inf G \/ fin (eX G ct)) -> (eY G old = inf G \/ fin (eY G ct)) ->
  fetch (E_read G gb) old (E_write G gb ct) = ct.
Proof.
  intros old [X Y] A B. unfold fetch, E_read, E_write. cbn [eX eY] in *. rewrite get_point_any by exact A.
  rewrite <- (app_nil_r (write_point G gb Y)), get_point_any by exact B. reflexivity.
Qed.
Lemma T_found : forall old ct, (tX G old = inf G \/ fin (tX G ct)) -> (tY G old = inf G \/ fin (tY G ct)) ->
  fetch (T_read G gb) old (T_write G gb ct) = ct.
Proof.
  intros old [X Y] A B. unfold fetch, T_read, T_write. cbn [tX tY] in *. rewrite get_point_any by exact A.
  rewrite <- (app_nil_r (write_point G gb Y)), get_point_any by exact B. reflexivity.
Qed.

(** every message survives the file when the object read into is new *)
Theorem C112_elgamal_new : forall g sk pk M r, G_KeyGen G g sk = (pk, sk) ->
  G_Dec G sk (fetch (G_read G gb) (new_GCT G) (G_write G gb (G_Enc G g pk M r))) = M.
Proof.
  intros g sk pk M r K. rewrite G_found by (left; reflexivity). apply (C25_dec_enc G g sk pk M r 0 K).
Qed.
(** exponential ElGamal and the twisted variant: the ciphertext itself is found again *)
Theorem C112_exponential_new : forall ct, fetch (E_read G gb) (new_ECT G) (E_write G gb ct) = ct.
Proof. intros. apply E_found; left; reflexivity. Qed.
Theorem C112_twisted_new : forall ct, fetch (T_read G gb) (new_TCT G) (T_write G gb ct) = ct.
Proof. intros. apply T_found; left; reflexivity. Qed.
(** into an object already in use: only when neither point is at infinity *)
Theorem C112_reused_partial : forall old ct, fin (gX G ct) -> fin (gY G ct) -> fetch (G_read G gb) old (G_write G gb ct) = ct.
Proof. intros. apply G_found; right; assumption. Qed.
(** otherwise the old half stays: for every key and randomness there is a message that the file loses *)
Theorem C112_reused_refuted : forall g sk pk r old, G_KeyGen G g sk = (pk, sk) -> fin (pmul G g r) -> fin (gY G old) ->
  exists M, G_Dec G sk (G_Enc G g pk M r) = M /\
            G_Dec G sk (fetch (G_read G gb) old (G_write G gb (G_Enc G g pk M r))) <> M.
Proof.
  intros g sk pk r old K F N. exists (pmul G pk (- r)). split; [apply (C25_dec_enc G g sk pk _ r 0 K)|].
  assert (EP : pk = pmul G g sk) by (unfold G_KeyGen in K; congruence). subst pk. clear K.
  unfold G_Enc.
  assert (Z : padd G (pmul G (pmul G g sk) r) (pmul G (pmul G g sk) (- r)) = inf G).
  { rewrite <- pmul_add. rewrite Z.add_opp_diag_r. apply pmul_0. }
  rewrite Z. unfold fetch, G_read, G_write. cbn [gX gY].
  rewrite get_point_write by assumption. rewrite <- (app_nil_r (write_point G gb (inf G))), get_point_inf. cbn [fst].
  unfold G_Dec. cbn [gX gY]. intros E. apply N.
  assert (E' : padd G (psub G (gY G old) (pmul G (pmul G g r) sk)) (pmul G (pmul G g r) sk) = padd G (pmul G (pmul G g sk) (- r)) (pmul G (pmul G g r) sk)) by (f_equal; exact E).
  assert (EL : padd G (psub G (gY G old) (pmul G (pmul G g r) sk)) (pmul G (pmul G g r) sk) = gY G old).
  { generalize (pmul G (pmul G g r) sk). generalize (gY G old). intros U V. logs G. gring. }
  rewrite EL in E'. rewrite E'. rewrite !pmul_mul, <- pmul_add. replace (sk * - r + r * sk)%Z with 0%Z by ring. apply pmul_0.
Qed.

(** ** Signatures *)
Theorem C112_signature : forall (H : list N -> Z) g sk pk message r old, Schnorr_KeyGen G g sk = (pk, sk) ->
  old = new_SIG G \/ fin (pmul G g r) ->
  Schnorr_Verify G H g pk message (fetch (SIG_read G gb g32) old (SIG_write G gb g32 (Schnorr_Sign G H g sk message r))) = true.
Proof.
  intros H g sk pk message r old K O.
  replace (fetch (SIG_read G gb g32) old (SIG_write G gb g32 (Schnorr_Sign G H g sk message r))) with (Schnorr_Sign G H g sk message r);
    [apply C29_signatures_verify; exact K|].
  unfold fetch, SIG_read, SIG_write. destruct (Schnorr_Sign G H g sk message r) as [A z] eqn:ES. cbn [sigA sigz].
  assert (EA : A = pmul G g r) by (unfold Schnorr_Sign in ES; congruence).
  assert (Ez : (0 <= z < 2 ^ 256)%Z).
  { assert (EZ : z = modq G (r + sk * H (ToByteString G (pmul G g r) ++ message))) by (unfold Schnorr_Sign in ES; congruence).
    rewrite EZ. pose proof (modq_range G (r + sk * H (ToByteString G (pmul G g r) ++ message))) as R.
    pose proof (order_256 G). lia. }
  rewrite get_point_any by (destruct O as [O|O]; [left; subst old; reflexivity|right; rewrite EA; exact O]).
  rewrite <- (app_nil_r (write_bigint g32 z)), (get_bigint_write gb g32 Hgb H32) by exact Ez. reflexivity.
Qed.

(** ** Ciphertexts for several receivers *)
Theorem C112_several_partial : forall old ct, length (evY G old) = length (evY G ct) -> fin (emX G ct) -> Forall (fun P => fin P) (evY G ct) ->
  fetch (EM_read G gb) old (EM_write G gb ct) = ct.
Proof.
  intros old [X v] L F V. unfold fetch, EM_read, EM_write. cbn [emX evY] in *. rewrite get_point_write by assumption.
  rewrite <- (app_nil_r (write_points G gb v)), (get_points_write G gb g32 Hgb H32) by assumption. reflexivity.
Qed.
Theorem C112_twisted_several_partial : forall old ct, length (tvX G old) = length (tvX G ct) -> fin (tmY G ct) -> Forall (fun P => fin P) (tvX G ct) ->
  fetch (TM_read G gb) old (TM_write G gb ct) = ct.
Proof.
  intros old [v Y] L F V. unfold fetch, TM_read, TM_write. cbn [tvX tmY] in *. rewrite (get_points_write G gb g32 Hgb H32) by assumption.
  rewrite <- (app_nil_r (write_point G gb Y)), get_point_write by assumption. reflexivity.
Qed.
(** A new object has no room: no receiver finds their half, whatever the ciphertext *)
Theorem C112_several_refuted : forall ct, evY G ct <> [] ->
  evY G (fetch (EM_read G gb) (new_EMRCT G) (EM_write G gb ct)) = [] /\
  fetch (EM_read G gb) (new_EMRCT G) (EM_write G gb ct) <> ct.
Proof.
  intros [X v] N. cbn [evY] in N.
  assert (E : evY G (fetch (EM_read G gb) (new_EMRCT G) (EM_write G gb {| emX := X; evY := v |})) = []).
  { unfold fetch, EM_read, EM_write, new_EMRCT. cbn [emX evY]. destruct (get_point _ _ _ _) as [? ?]. reflexivity. }
  split; [exact E|]. intros D. rewrite D in E. cbn [evY] in E. contradiction.
Qed.
(** the twisted variant puts the first receiver's half where the common half belongs *)
Theorem C112_twisted_several_refuted : forall P v Y, fin P ->
  fetch (TM_read G gb) (new_TMRCT G) (TM_write G gb {| tvX := P :: v; tmY := Y |}) = {| tvX := []; tmY := P |}.
Proof.
  intros P v Y F. unfold fetch, TM_read, TM_write, new_TMRCT. cbn [tvX tmY get_points write_points]. rewrite <- app_assoc.
  rewrite get_point_write by assumption. reflexivity.
Qed.

(** ** Parameters *)
Theorem C112_parameters : forall MSG_LEN TRADEOFF_NUM, (MSG_LEN < 64)%nat -> u64 (N.of_nat TRADEOFF_NUM) ->
  found_again any (EPP_write G gb g32) (EPP_read G gb g32) (E_Setup G MSG_LEN TRADEOFF_NUM).
Proof.
  intros n t Hn Ht old _. unfold fetch, EPP_read, EPP_write, E_Setup. cbn [e_len e_trade e_size e_g].
  assert (Un : u64 (N.of_nat n)) by (apply small_u64; lia).
  rewrite read8_write by exact Un. rewrite read8_write by exact Ht.
  rewrite (get_bigint_write gb g32 Hgb H32) by (split; [apply Z.pow_nonneg; discriminate|apply Z.pow_lt_mono_r; lia]).
  rewrite <- (app_nil_r (write_point G gb (pgen G))), get_point_write by (try exact Hgb; apply pgen_finite).
  cbn [fst]. rewrite !Nat2N.id. reflexivity.
Qed.
Theorem C112_generator : forall g, fin g -> found_again any (gen_write G gb) (gen_read G gb) g.
Proof.
  intros g F old _. unfold fetch, gen_read, gen_write. rewrite <- (app_nil_r (write_point G gb g)), get_point_write by assumption. reflexivity.
Qed.
End Props.

(** ** X25519: 32 bytes each way, into any object *)
Theorem C112_x25519 : forall (X : X25519) g sk M r old, length M = 32%nat -> length (xX old) = 32%nat -> length (xY old) = 32%nat ->
  X_Dec X sk (fetch X_read old (X_write (X_EncWith X g (XMul X g sk) M r))) = M.
Proof.
  intros X g sk M r old L LX LY.
  replace (fetch X_read old (X_write (X_EncWith X g (XMul X g sk) M r))) with (X_EncWith X g (XMul X g sk) M r); [apply C25_x25519_dec_enc; exact L|].
  destruct (X_EncWith X g (XMul X g sk) M r) as [A B] eqn:E.
  assert (LA : length A = 32%nat) by (assert (EA : A = XMul X g r) by (unfold X_EncWith in E; congruence); rewrite EA; apply xmul_length).
  assert (LB : length B = 32%nat).
  { assert (EB : B = XXor (XMul X (XMul X g sk) r) M) by (unfold X_EncWith in E; congruence). rewrite EB. unfold XXor. rewrite map2_length.
    unfold XMul. rewrite xmul_length, L. reflexivity. }
  unfold fetch, X_read, X_write. cbn [xX xY]. rewrite <- LX at 1. rewrite fill_write by congruence.
  replace (mkIfs B true) with (mkIfs (B ++ []) true) by (rewrite app_nil_r; reflexivity). rewrite <- LY at 1. rewrite fill_write by congruence. reflexivity.
Qed.

(** ** Cases *)
Definition buf65 : list N := repeat 7 65.
Definition buf32 : list N := repeat 9 32.
(** a ciphertext for two receivers, saved and fetched into an object with room for two *)
Definition case_em : EMRCT G101 := {| emX := p101 5; evY := [p101 17; p101 40] |}.
Example C112_case_several : fetch (EM_read G101 buf65) {| emX := p101 1; evY := [inf G101; p101 3] |} (EM_write G101 buf65 case_em) = case_em.
Proof.
  apply (C112_several_partial G101 buf65 buf32 eq_refl eq_refl); [reflexivity|discriminate|]. repeat (constructor; [discriminate|]). constructor.
Qed.
Example C112_case_new : evY G101 (fetch (EM_read G101 buf65) (new_EMRCT G101) (EM_write G101 buf65 case_em)) = [].
Proof. apply (C112_several_refuted G101 buf65 case_em). discriminate. Qed.
Example C112_case_reused : exists M, G_Dec G101 11 (G_Enc G101 (p101 2) (p101 22) M 3) = M /\
  G_Dec G101 11 (fetch (G_read G101 buf65) {| gX := p101 8; gY := p101 9 |} (G_write G101 buf65 (G_Enc G101 (p101 2) (p101 22) M 3))) <> M.
Proof. apply (C112_reused_refuted G101 buf65 eq_refl); [reflexivity|discriminate|discriminate]. Qed.
Example C112_case_signature : forall H, Schnorr_Verify G101 H (p101 2) (p101 22) [65; 66]
  (fetch (SIG_read G101 buf65 buf32) {| sigA := p101 8; sigz := 5 |} (SIG_write G101 buf65 buf32 (Schnorr_Sign G101 H (p101 2) 11 [65; 66] 3))) = true.
Proof. intros H. apply (C112_signature G101 buf65 buf32 eq_refl eq_refl); [reflexivity|right; discriminate]. Qed.
Example C112_case_x25519 : length (xX new_XCT) = 32%nat /\ length (xY new_XCT) = 32%nat.
Proof. split; reflexivity. Qed.

Print Assumptions C112_elgamal_new.
Print Assumptions C112_exponential_new.
Print Assumptions C112_twisted_new.
Print Assumptions C112_reused_partial.
Print Assumptions C112_reused_refuted.
Print Assumptions C112_signature.
Print Assumptions C112_several_partial.
Print Assumptions C112_twisted_several_partial.
Print Assumptions C112_several_refuted.
Print Assumptions C112_twisted_several_refuted.
Print Assumptions C112_parameters.
Print Assumptions C112_generator.
Print Assumptions C112_x25519.

(** Properties C21-C26: the ElGamal variants. *)
From Coq Require Import NArith ZArith List Lia Bool Arith Permutation.
From Coq Require Import ZifyBool ZifyNat ZifyN.
From Verif.Base Require Import Words ListX.
From Verif.Utility Require Import SerialModel SerialProofs.
From Verif.Crypto Require Import BigIntModel BigIntSpec BigIntProofs PRGModel PRGProofs AESModel.
From Verif.Group Require Import ECModel ECProofs ZqGroup.
From Verif.PKE Require Import DlogModel DlogSpec DlogProofs DlogProps ElGamalModel ElGamalProofs.
Import ListNotations.
Local Open Scope Z_scope.

Section Props.
Variable G : ECGroup.
Variable key : pt G -> N.
Hypothesis key64 : forall P, (key P < 2 ^ 64)%N.
Local Notation q := (order G).

(** what Initialize finds on disk: nothing, or the table BuildSaveTable wrote *)
Definition disk_ok (base : pt G) (R T : nat) (file : option (list N)) : Prop :=
  file = None \/ exists garbage bs, length garbage = 65%nat /\ build_schedule bs /\
    file = Some (table_file G key garbage base R T bs).
(** a secret key that has an inverse modulo the group order *)
Definition invertible (sk : Z) : Prop := ~ cong q sk 0.
(** all messages of the configured message space *)
Definition msg_space (len : nat) (m : Z) : Prop := 0 <= m < 2 ^ Z.of_nat len.

(** ** twisted exponential ElGamal *)

(** the process has run Setup and Initialize *)
Definition t_ready (hash : list N -> pt G) (L T : nat) (pp : TPP G) (st : dstate G) : Prop :=
  pp = T_Setup G hash L T /\ t_h G pp <> inf G /\ covered L T <= q /\
  exists garbage bs file, length garbage = 65%nat /\ build_schedule bs /\ disk_ok (t_h G pp) L T file /\
    T_Initialize G key garbage bs pp (dstate0 G) file = Some st.

Lemma t_ready_loaded : forall hash L T pp st, t_ready hash L T pp st ->
  CheckDlogParameters L T = true /\ loaded G key (t_h G pp) L T st.
Proof.
  intros hash L T pp st [-> [F [Cov [gb [bs [file [Lg [P [D E]]]]]]]]].
  unfold T_Initialize in E. cbn [t_len t_trade t_h T_Setup] in *.
  destruct (CheckDlogParameters L T) eqn:C; [|discriminate]. split; [reflexivity|].
  exact (Init_loaded G key gb bs _ L T file st C P Lg key64 F Cov D E).
Qed.

(** C21, in the generality the search supports: every message the table covers. *)
Theorem C21_dec_correct_covered : forall hash L T pp st sk pk m r sched,
  t_ready hash L T pp st -> invertible sk -> T_KeyGen G pp sk = (pk, sk) ->
  0 <= m < covered L T ->
  keys_separate G key (t_h G pp) (pmul G (t_h G pp) m) L T ->
  finished G (run G key st (pmul G (t_h G pp) m) L T 0 sched) = true ->
  T_Dec G key pp st sk (T_Enc G pp pk m r) sched = Some m.
Proof.
  intros hash L T pp st sk pk m r sched R I K B SEP Fin.
  destruct (t_ready_loaded _ _ _ _ _ R) as [C LD]. destruct R as [Epp [F [Cov _]]].
  inversion K; subst pk; clear K. unfold T_Dec, T_Enc. cbn [tX tY].
  rewrite msum2, T_Dec_point by exact I.
  assert (EL : t_len G pp = L /\ t_trade G pp = T) by (rewrite Epp; split; reflexivity).
  destruct EL as [-> ->].
  rewrite (proj1 (loaded_search G key _ L T st m sched C F Cov LD SEP Fin) B). reflexivity.
Qed.

(** C21 for even message lengths: every message of the message space decrypts,
    under every interleaving of the search. *)
Theorem C21_dec_correct_partial : forall hash L T pp st sk pk m r sched,
  t_ready hash L T pp st -> invertible sk -> T_KeyGen G pp sk = (pk, sk) ->
  Nat.even L = true -> msg_space L m ->
  keys_separate G key (t_h G pp) (pmul G (t_h G pp) m) L T ->
  finished G (run G key st (pmul G (t_h G pp) m) L T 0 sched) = true ->
  T_Dec G key pp st sk (T_Enc G pp pk m r) sched = Some m.
Proof.
  intros hash L T pp st sk pk m r sched R I K Ev B SEP Fin.
  apply (C21_dec_correct_covered hash L T); auto.
  destruct (t_ready_loaded _ _ _ _ _ R) as [C _]. rewrite covered_even by assumption. exact B.
Qed.

(** C21 is false for odd message lengths: the process exits on every message in the
    upper half of the message space. *)
Theorem C21_odd_length_refuted : forall hash L T pp st sk pk m r sched,
  t_ready hash L T pp st -> invertible sk -> T_KeyGen G pp sk = (pk, sk) ->
  Nat.odd L = true -> 2 ^ (Z.of_nat L - 1) <= m < 2 ^ Z.of_nat L -> m < q ->
  keys_separate G key (t_h G pp) (pmul G (t_h G pp) m) L T ->
  finished G (run G key st (pmul G (t_h G pp) m) L T 0 sched) = true ->
  T_Dec G key pp st sk (T_Enc G pp pk m r) sched = None.
Proof.
  intros hash L T pp st sk pk m r sched R I K Od B Bq SEP Fin.
  destruct (t_ready_loaded _ _ _ _ _ R) as [C LD]. destruct R as [Epp [F [Cov _]]].
  inversion K; subst pk; clear K. unfold T_Dec, T_Enc. cbn [tX tY].
  rewrite msum2, T_Dec_point by exact I.
  assert (EL : t_len G pp = L /\ t_trade G pp = T) by (rewrite Epp; split; reflexivity).
  destruct EL as [-> ->].
  rewrite (proj2 (loaded_search G key _ L T st m sched C F Cov LD SEP Fin)); [reflexivity|].
  rewrite covered_odd by assumption. lia.
Qed.

(** C21 for messages that are group elements: no restriction on the message. *)
Theorem C21_dec_point_correct : forall (pp : TPP G) sk pk M r,
  invertible sk -> T_KeyGen G pp sk = (pk, sk) ->
  T_DecECPoint G sk (T_EncPoint G pp pk M r) = M.
Proof.
  intros pp sk pk M r I K. inversion K; subst pk; clear K.
  unfold T_DecECPoint, T_EncPoint. cbn [tX tY]. rewrite T_key_cancel by exact I.
  apply psub_eq, padd_comm.
Qed.

(** C21: the hypothesis on the secret key is needed; KeyGen can return 0, and then
    decryption of a message other than the randomness itself fails. *)
Theorem C21_zero_key_refuted : forall (pp : TPP G) pk M r,
  t_g G pp <> inf G -> ~ cong q r 0 -> T_KeyGen G pp 0 = (pk, 0) ->
  T_DecECPoint G 0 (T_EncPoint G pp pk M r) <> M.
Proof.
  intros pp pk M r F Nr K E. inversion K; subst pk; clear K.
  unfold T_DecECPoint, T_EncPoint in E. cbn [tX tY] in E.
  rewrite pmul_0, !inf_mul in E. unfold psub in E. rewrite pneg_inf, padd_inf in E.
  apply Nr. apply (pmul_inj G (t_g G pp)); [exact F|]. rewrite pmul_0.
  apply (padd_cancel_r G _ _ M). rewrite E, padd_inf_l. reflexivity.
Qed.

(** C22: the homomorphic operations on ciphertexts are encryptions of the sum, the
    difference and the multiple. *)
Theorem C22_homomorphic : forall (pp : TPP G) pk m1 r1 m2 r2 k,
  T_HomoAdd G (T_Enc G pp pk m1 r1) (T_Enc G pp pk m2 r2) = T_Enc G pp pk (m1 + m2) (r1 + r2) /\
  T_HomoSub G (T_Enc G pp pk m1 r1) (T_Enc G pp pk m2 r2) = T_Enc G pp pk (m1 - m2) (r1 - r2) /\
  T_ScalarMul G (T_Enc G pp pk m1 r1) k = T_Enc G pp pk (m1 * k) (r1 * k).
Proof.
  intros [len sz tr g h] pk m1 r1 m2 r2 k. unfold T_HomoAdd, T_HomoSub, T_ScalarMul, T_Enc.
  cbn [tX tY t_g t_h]. rewrite !msum2. logs G.
  repeat split; f_equal; gring.
Qed.

(** C22: on arbitrary ciphertexts (not only honestly generated ones) the operations
    act on the decrypted group elements. *)
Theorem C22_homomorphic_all_ciphertexts : forall sk c1 c2 k,
  T_DecECPoint G sk (T_HomoAdd G c1 c2) = padd G (T_DecECPoint G sk c1) (T_DecECPoint G sk c2) /\
  T_DecECPoint G sk (T_HomoSub G c1 c2) = psub G (T_DecECPoint G sk c1) (T_DecECPoint G sk c2) /\
  T_DecECPoint G sk (T_ScalarMul G c1 k) = pmul G (T_DecECPoint G sk c1) k.
Proof.
  intros sk [X1 Y1] [X2 Y2] k. unfold T_HomoAdd, T_HomoSub, T_ScalarMul, T_DecECPoint.
  cbn [tX tY]. logs G. repeat split; gring.
Qed.

(** C22: decrypting with Dec yields the sum, difference and multiple whenever the
    table covers the result. *)
Theorem C22_homomorphic_dec : forall hash L T pp st sk pk m1 r1 m2 r2 k sched,
  t_ready hash L T pp st -> invertible sk -> T_KeyGen G pp sk = (pk, sk) ->
  let dec_ok ct m :=
    0 <= m < covered L T -> keys_separate G key (t_h G pp) (pmul G (t_h G pp) m) L T ->
    finished G (run G key st (pmul G (t_h G pp) m) L T 0 sched) = true ->
    T_Dec G key pp st sk ct sched = Some m in
  dec_ok (T_HomoAdd G (T_Enc G pp pk m1 r1) (T_Enc G pp pk m2 r2)) (m1 + m2) /\
  dec_ok (T_HomoSub G (T_Enc G pp pk m1 r1) (T_Enc G pp pk m2 r2)) (m1 - m2) /\
  dec_ok (T_ScalarMul G (T_Enc G pp pk m1 r1) k) (m1 * k).
Proof.
  intros hash L T pp st sk pk m1 r1 m2 r2 k sched R I K. cbv zeta.
  destruct (C22_homomorphic pp pk m1 r1 m2 r2 k) as [-> [-> ->]].
  repeat split; intros; apply (C21_dec_correct_covered hash L T); auto.
Qed.

(** C22: ReRand gives an encryption of the same message with added randomness, for
    any ciphertext; ReEnc of an encryption is the fresh encryption with the given
    randomness, and for any ciphertext keeps the decrypted group element. *)
Theorem C22_rerand : forall (pp : TPP G) sk pk ct m r r', invertible sk -> T_KeyGen G pp sk = (pk, sk) ->
  T_ReRand G pp pk (T_Enc G pp pk m r) r' = T_Enc G pp pk m (r + r') /\
  T_DecECPoint G sk (T_ReRand G pp pk ct r') = T_DecECPoint G sk ct.
Proof.
  intros [len sz tr g h] sk pk [X Y] m r r' I K. inversion K; subst pk; clear K.
  unfold T_ReRand, T_Enc, T_DecECPoint. cbn [tX tY t_g t_h]. rewrite !msum2. split.
  - logs G. f_equal; gring.
  - pose proof (inv_cong G sk I) as V. set (i := ModInverse sk q) in *. clearbody i.
    logs G. collect. apply gmul_cong. destruct V as [c V]. exists (- (lg * r' * c)).
    replace (lY + lg * r' - (lX + lg * (sk * r')) * i) with (lY + lg * r' - lX * i - lg * r' * (sk * i)) by ring.
    rewrite V. ring.
Qed.

Theorem C22_reenc : forall (pp : TPP G) sk pk ct m r r', invertible sk -> T_KeyGen G pp sk = (pk, sk) ->
  T_ReEnc G pp pk sk (T_Enc G pp pk m r) r' = T_Enc G pp pk m r' /\
  T_DecECPoint G sk (T_ReEnc G pp pk sk ct r') = T_DecECPoint G sk ct /\
  tX G (T_ReEnc G pp pk sk ct r') = pmul G pk r'.
Proof.
  intros pp sk pk ct m r r' I K. inversion K; subst pk; clear K.
  unfold T_ReEnc, T_Enc, T_DecECPoint. cbn [tX tY]. split; [|split; [|reflexivity]].
  - f_equal. rewrite !msum2, T_Dec_point by exact I. reflexivity.
  - rewrite T_key_cancel by exact I. apply psub_eq, padd_comm.
Qed.

(** C23: every recipient of a multi-recipient ciphertext decrypts the same message. *)
Theorem C23_multi_recipient_partial : forall hash L T pp st sks pks m r i sched,
  t_ready hash L T pp st ->
  pks = map (fun sk => fst (T_KeyGen G pp sk)) sks -> (i < length sks)%nat ->
  invertible (nth i sks 0) -> Nat.even L = true -> msg_space L m ->
  keys_separate G key (t_h G pp) (pmul G (t_h G pp) m) L T ->
  finished G (run G key st (pmul G (t_h G pp) m) L T 0 sched) = true ->
  let ct := T_MREnc G pp pks m r in
  length (tvX G ct) = length sks /\
  T_Dec G key pp st (nth i sks 0) {| tX := nth i (tvX G ct) (inf G); tY := tmY G ct |} sched = Some m.
Proof.
  intros hash L T pp st sks pks m r i sched R -> Hi I Ev B SEP Fin. cbv zeta.
  unfold T_MREnc. cbn [tvX tmY]. split; [rewrite !map_length; reflexivity|].
  rewrite map_map. rewrite nth_map' with (d := 0) by exact Hi. cbn [T_KeyGen fst].
  rewrite <- (C21_dec_correct_partial hash L T pp st (nth i sks 0) _ m r sched R I eq_refl Ev B SEP Fin).
  unfold T_Dec, T_Enc. cbn [tX tY]. rewrite msum2. reflexivity.
Qed.

(** C23 for the component the recipients compute before the discrete log: no
    restriction on the message. *)
Theorem C23_multi_recipient_point : forall (pp : TPP G) sks pks m r i,
  pks = map (fun sk => fst (T_KeyGen G pp sk)) sks -> (i < length sks)%nat -> invertible (nth i sks 0) ->
  let ct := T_MREnc G pp pks m r in
  T_DecECPoint G (nth i sks 0) {| tX := nth i (tvX G ct) (inf G); tY := tmY G ct |} = pmul G (t_h G pp) m.
Proof.
  intros pp sks pks m r i -> Hi I. cbv zeta. unfold T_MREnc, T_DecECPoint. cbn [tvX tmY tX tY].
  rewrite map_map. rewrite nth_map' with (d := 0) by exact Hi. cbn [T_KeyGen fst].
  apply T_Dec_point. exact I.
Qed.

(** ** exponential ElGamal *)
Definition e_ready (L T : nat) (pp : EPP G) (st : dstate G) : Prop :=
  pp = E_Setup G L T /\ covered L T <= q /\
  exists garbage bs file, length garbage = 65%nat /\ build_schedule bs /\ disk_ok (pgen G) L T file /\
    E_Initialize G key garbage bs pp (dstate0 G) file = Some st.

Lemma e_ready_loaded : forall L T pp st, e_ready L T pp st ->
  CheckDlogParameters L T = true /\ loaded G key (pgen G) L T st.
Proof.
  intros L T pp st [-> [Cov [gb [bs [file [Lg [P [D E]]]]]]]].
  unfold E_Initialize in E. cbn [e_len e_trade e_g E_Setup] in *.
  destruct (CheckDlogParameters L T) eqn:C; [|discriminate]. split; [reflexivity|].
  exact (Init_loaded G key gb bs _ L T file st C P Lg key64 (pgen_finite G) Cov D E).
Qed.

Lemma E_Dec_point : forall g sk r m,
  psub G (padd G (pmul G (pmul G g sk) r) (pmul G g m)) (pmul G (pmul G g r) sk) = pmul G g m.
Proof. intros g sk r m. logs G. gring. Qed.

(** C24: decryption, for every secret key (also 0). *)
Theorem C24_dec_correct_covered : forall L T pp st sk pk m r sched,
  e_ready L T pp st -> E_KeyGen G pp sk = (pk, sk) -> 0 <= m < covered L T ->
  keys_separate G key (pgen G) (pmul G (pgen G) m) L T ->
  finished G (run G key st (pmul G (pgen G) m) L T 0 sched) = true ->
  E_Dec G key pp st sk (E_Enc G pp pk m r) sched = Some m.
Proof.
  intros L T pp st sk pk m r sched R K B SEP Fin.
  destruct (e_ready_loaded _ _ _ _ R) as [C LD]. destruct R as [-> [Cov _]].
  inversion K; subst pk; clear K. unfold E_Dec, E_Enc. cbn [eX eY e_len e_trade e_g E_Setup].
  rewrite msum2, E_Dec_point.
  rewrite (proj1 (loaded_search G key _ L T st m sched C (pgen_finite G) Cov LD SEP Fin) B). reflexivity.
Qed.

Theorem C24_dec_correct_partial : forall L T pp st sk pk m r sched,
  e_ready L T pp st -> E_KeyGen G pp sk = (pk, sk) -> Nat.even L = true -> msg_space L m ->
  keys_separate G key (pgen G) (pmul G (pgen G) m) L T ->
  finished G (run G key st (pmul G (pgen G) m) L T 0 sched) = true ->
  E_Dec G key pp st sk (E_Enc G pp pk m r) sched = Some m.
Proof.
  intros L T pp st sk pk m r sched R K Ev B SEP Fin. apply (C24_dec_correct_covered L T); auto.
  destruct (e_ready_loaded _ _ _ _ R) as [C _]. rewrite covered_even by assumption. exact B.
Qed.

Theorem C24_odd_length_refuted : forall L T pp st sk pk m r sched,
  e_ready L T pp st -> E_KeyGen G pp sk = (pk, sk) ->
  Nat.odd L = true -> 2 ^ (Z.of_nat L - 1) <= m < 2 ^ Z.of_nat L -> m < q ->
  keys_separate G key (pgen G) (pmul G (pgen G) m) L T ->
  finished G (run G key st (pmul G (pgen G) m) L T 0 sched) = true ->
  E_Dec G key pp st sk (E_Enc G pp pk m r) sched = None.
Proof.
  intros L T pp st sk pk m r sched R K Od B Bq SEP Fin.
  destruct (e_ready_loaded _ _ _ _ R) as [C LD]. destruct R as [-> [Cov _]].
  inversion K; subst pk; clear K. unfold E_Dec, E_Enc. cbn [eX eY e_len e_trade e_g E_Setup].
  rewrite msum2, E_Dec_point.
  rewrite (proj2 (loaded_search G key _ L T st m sched C (pgen_finite G) Cov LD SEP Fin)); [reflexivity|].
  rewrite covered_odd by assumption. lia.
Qed.

(** C24: homomorphic operations, re-randomisation and re-encryption. *)
Theorem C24_operations : forall (pp : EPP G) sk pk m1 r1 m2 r2 k r',
  E_KeyGen G pp sk = (pk, sk) ->
  E_HomoAdd G (E_Enc G pp pk m1 r1) (E_Enc G pp pk m2 r2) = E_Enc G pp pk (m1 + m2) (r1 + r2) /\
  E_HomoSub G (E_Enc G pp pk m1 r1) (E_Enc G pp pk m2 r2) = E_Enc G pp pk (m1 - m2) (r1 - r2) /\
  E_ScalarMul G (E_Enc G pp pk m1 r1) k = E_Enc G pp pk (m1 * k) (r1 * k) /\
  E_ReRand G pp pk (E_Enc G pp pk m1 r1) r' = E_Enc G pp pk m1 (r1 + r') /\
  E_ReEnc G pp pk sk (E_Enc G pp pk m1 r1) r' = E_Enc G pp pk m1 r'.
Proof.
  intros [len sz tr g] sk pk m1 r1 m2 r2 k r' K. inversion K; subst pk; clear K.
  unfold E_HomoAdd, E_HomoSub, E_ScalarMul, E_ReRand, E_ReEnc, E_Enc.
  cbn [eX eY e_g]. rewrite !msum2. logs G. repeat split; f_equal; gring.
Qed.

(** C24: every recipient of a multi-recipient ciphertext gets an ordinary ciphertext
    of the message under their own key. *)
Theorem C24_multi_recipient : forall (pp : EPP G) pks m r i, (i < length pks)%nat ->
  let ct := E_MREnc G pp pks m r in
  {| eX := emX G ct; eY := nth i (evY G ct) (inf G) |} = E_Enc G pp (nth i pks (inf G)) m r.
Proof.
  intros pp pks m r i Hi. cbv zeta. unfold E_MREnc, E_Enc. cbn [emX evY]. f_equal.
  rewrite nth_map' with (d := inf G) by exact Hi. rewrite msum2. reflexivity.
Qed.

(** ** plain ElGamal over the curve *)
Theorem C25_dec_enc : forall g sk pk M r r',
  G_KeyGen G g sk = (pk, sk) ->
  G_Dec G sk (G_Enc G g pk M r) = M /\
  G_Dec G sk (G_ReRand G g pk (G_Enc G g pk M r) r') = M /\
  G_ReRand G g pk (G_Enc G g pk M r) r' = G_Enc G g pk M (r + r').
Proof.
  intros g sk pk M r r' K. inversion K; subst pk; clear K.
  unfold G_Dec, G_ReRand, G_Enc. cbn [gX gY]. logs G. repeat split; try f_equal; gring.
Qed.

(** re-randomising any ciphertext keeps what it decrypts to *)
Theorem C25_rerand_any : forall g sk pk ct r', G_KeyGen G g sk = (pk, sk) ->
  G_Dec G sk (G_ReRand G g pk ct r') = G_Dec G sk ct.
Proof.
  intros g sk pk [X Y] r' K. inversion K; subst pk; clear K.
  unfold G_Dec, G_ReRand. cbn [gX gY]. logs G. gring.
Qed.

(** the byte conversion round-trips for every ciphertext, also with points at infinity *)
Theorem C25_bytes_roundtrip : forall ct,
  ByteArraytoCT G (CTtoByteArray G ct) = Some ct /\ length (CTtoByteArray G ct) = 130%nat.
Proof.
  intros [X Y]. unfold ByteArraytoCT, CTtoByteArray. cbn [gX gY].
  rewrite app_length, !point_slot_length. split; [|reflexivity].
  change (65 + 65 <? 130)%nat with false. cbv iota.
  rewrite firstn_app_exact' by (symmetry; apply point_slot_length).
  rewrite skipn_app_exact' by (symmetry; apply point_slot_length).
  rewrite firstn_all2 by (rewrite point_slot_length; lia).
  rewrite !slot_point_slot. reflexivity.
Qed.
End Props.

(** ** ElGamal over X25519 *)

(** C25: decryption recovers every 32-byte message, for any keys and randomness. *)
Theorem C25_x25519_dec_enc : forall (X : X25519) g sk M r, length M = 32%nat ->
  X_Dec X sk (X_EncWith X g (XMul X g sk) M r) = M.
Proof.
  intros X g sk M r L. unfold X_Dec, X_EncWith, XMul, XXor. cbn [xX xY].
  rewrite (xmul_comm X sk r). apply map2_xor_self. rewrite xmul_length. symmetry. exact L.
Qed.

Theorem C25_x25519_keygen_dec_enc : forall (X : X25519) g sk pk M e1 e2, length M = 32%nat ->
  X_KeyGen X g e1 = (pk, sk) -> X_Dec X sk (X_Enc X g pk M e2) = M.
Proof.
  intros X g sk pk M e1 e2 L K. unfold X_KeyGen in K. inversion K; subst.
  apply C25_x25519_dec_enc. exact L.
Qed.

(** C26 is false: whatever entropy the system supplies, key generation returns the
    same key pair, encryption the same ciphertext, and the ephemeral randomness of
    every encryption equals the secret key of every user. *)
Theorem C26_keys_constant_refuted : forall (X : X25519) g e1 e2 pk M,
  X_KeyGen X g e1 = X_KeyGen X g e2 /\
  X_Enc X g pk M e1 = X_Enc X g pk M e2 /\
  X_Enc X g pk M e1 = X_EncWith X g pk M (snd (X_KeyGen X g e2)).
Proof. intros. repeat split. Qed.

(** C26: hence anyone decrypts every ciphertext without any key. *)
Theorem C26_public_decryption_refuted : forall (X : X25519) g pk sk M e1 e2,
  length M = 32%nat -> X_KeyGen X g e1 = (pk, sk) ->
  X_Dec X (draw32 0) (X_Enc X g pk M e2) = M.
Proof.
  intros X g pk sk M e1 e2 L K. unfold X_KeyGen in K. inversion K; subst.
  change (draw32 e1) with (draw32 0). apply C25_x25519_dec_enc. exact L.
Qed.

(** C26: two messages encrypted to the same key reveal their difference. *)
Theorem C26_two_time_pad_refuted : forall (X : X25519) g pk M1 M2 e1 e2,
  length M1 = 32%nat -> length M2 = 32%nat ->
  XXor (xY (X_Enc X g pk M1 e1)) (xY (X_Enc X g pk M2 e2)) = XXor M1 M2.
Proof.
  intros X g pk M1 M2 e1 e2 L1 L2. unfold X_Enc, X_EncWith. cbn [xY].
  change (draw32 e2) with (draw32 e1).
  assert (Lp : length (XMul X pk (draw32 e1)) = 32%nat) by apply xmul_length.
  revert Lp. generalize (XMul X pk (draw32 e1)). unfold XXor.
  intros p Lp. rewrite <- L1 in Lp, L2. clear L1. revert p M2 Lp L2.
  induction M1 as [|a M1 IH]; intros [|x p] [|b M2] Lp L2; try discriminate; cbn [map2]; [reflexivity|].
  f_equal; [|apply IH; cbn in *; lia].
  rewrite (N.lxor_comm x a), N.lxor_assoc. f_equal.
  rewrite <- N.lxor_assoc, N.lxor_nilpotent, N.lxor_0_l. reflexivity.
Qed.

(** ** concrete cases *)
Lemma t_ready_4099 : exists pp st, t_ready G4099 key4099 (fun _ => pmul G4099 (pgen G4099) 7) 12 0 pp st.
Proof.
  set (hash := fun _ : list N => pmul G4099 (pgen G4099) 7).
  set (pp := T_Setup G4099 hash 12 0).
  assert (F : t_h G4099 pp <> inf G4099).
  { intros E. apply (f_equal (@proj1_sig _ _)) in E. revert E. vm_compute. discriminate. }
  assert (Cov : covered 12 0 <= order G4099) by (vm_compute; discriminate).
  assert (C : CheckDlogParameters 12 0 = true) by reflexivity.
  exists pp.
  destruct (C27_load_succeeds G4099 key4099 key4099_64 (t_h G4099 pp) 12 0 (repeat 7%N 65)
    (rev (seq 0 BUILD_TASK_NUM)) (conj C (conj F Cov)) eq_refl bs_ok) as [st E].
  exists st. split; [reflexivity|]. split; [exact F|]. split; [exact Cov|].
  exists (repeat 7%N 65), (rev (seq 0 BUILD_TASK_NUM)),
    (Some (table_file G4099 key4099 (repeat 7%N 65) (t_h G4099 pp) 12 0 (rev (seq 0 BUILD_TASK_NUM)))).
  split; [reflexivity|]. split; [apply bs_ok|]. split.
  - right. exists (repeat 7%N 65), (rev (seq 0 BUILD_TASK_NUM)). split; [reflexivity|]. split; [apply bs_ok|reflexivity].
  - unfold T_Initialize. exact E.
Qed.

Example C21_example : exists pp st, forall r,
  T_Dec G4099 key4099 pp st 1234 (T_Enc G4099 pp (fst (T_KeyGen G4099 pp 1234)) 4095 r) round_robin = Some 4095.
Proof.
  destruct t_ready_4099 as [pp [st R]]. exists pp, st. intros r.
  apply (C21_dec_correct_partial G4099 key4099 key4099_64 _ 12 0 pp st 1234 _ 4095 r round_robin R).
  - apply range_not_0. cbn. lia.
  - reflexivity.
  - reflexivity.
  - unfold msg_space. cbn. lia.
  - apply sep_4099.
  - apply C27_search_terminates. apply round_robin_long.
Qed.

Example C23_example : exists pp st, forall r,
  let sks := [17; 1000; 4098] in
  let ct := T_MREnc G4099 pp (map (fun sk => fst (T_KeyGen G4099 pp sk)) sks) 2049 r in
  T_Dec G4099 key4099 pp st 4098 {| tX := nth 2 (tvX G4099 ct) (inf G4099); tY := tmY G4099 ct |} round_robin = Some 2049.
Proof.
  destruct t_ready_4099 as [pp [st R]]. exists pp, st. intros r. cbv zeta.
  refine (proj2 (C23_multi_recipient_partial G4099 key4099 key4099_64 _ 12 0 pp st [17; 1000; 4098] _ 2049 r 2 round_robin R
    eq_refl _ _ _ _ _ _)).
  - cbn. lia.
  - apply range_not_0. cbn. lia.
  - reflexivity.
  - unfold msg_space. cbn. lia.
  - apply sep_4099.
  - apply C27_search_terminates. apply round_robin_long.
Qed.

(** an instance of the X25519 interface: multiplication modulo 2^256 *)
Definition toyX : X25519.
Proof.
  refine {| xmul := fun a P => be_bytes 32 ((be_val a * be_val P) mod 2 ^ 256) |}.
  - intros. apply be_bytes_length.
  - intros. apply be_bytes_ok.
  - intros a b P.
    assert (B : forall x, (x mod 2 ^ 256 < 256 ^ N.of_nat 32)%N)
      by (intros x; change (256 ^ N.of_nat 32)%N with (2 ^ 256)%N; apply N.mod_upper_bound; discriminate).
    rewrite !be_val_bytes by apply B. f_equal.
    rewrite !N.mul_mod_idemp_r by discriminate. f_equal. lia.
Defined.
Example C25_x25519_example : X_Dec toyX (repeat 3%N 32) (X_EncWith toyX (repeat 9%N 32)
  (XMul toyX (repeat 9%N 32) (repeat 3%N 32)) (repeat 77%N 32) (repeat 5%N 32)) = repeat 77%N 32.
Proof. apply C25_x25519_dec_enc. reflexivity. Qed.

Print Assumptions C21_dec_correct_covered.
Print Assumptions C21_dec_correct_partial.
Print Assumptions C21_odd_length_refuted.
Print Assumptions C21_dec_point_correct.
Print Assumptions C21_zero_key_refuted.
Print Assumptions C22_homomorphic.
Print Assumptions C22_homomorphic_all_ciphertexts.
Print Assumptions C22_homomorphic_dec.
Print Assumptions C22_rerand.
Print Assumptions C22_reenc.
Print Assumptions C23_multi_recipient_partial.
Print Assumptions C23_multi_recipient_point.
Print Assumptions C24_dec_correct_covered.
Print Assumptions C24_dec_correct_partial.
Print Assumptions C24_odd_length_refuted.
Print Assumptions C24_operations.
Print Assumptions C24_multi_recipient.
Print Assumptions C25_dec_enc.
Print Assumptions C25_rerand_any.
Print Assumptions C25_bytes_roundtrip.
Print Assumptions C25_x25519_dec_enc.
Print Assumptions C25_x25519_keygen_dec_enc.
Print Assumptions C26_keys_constant_refuted.
Print Assumptions C26_public_decryption_refuted.
Print Assumptions C26_two_time_pad_refuted.

From Coq Require Import NArith ZArith List Lia Bool Arith Setoid.
From Coq Require Import ZifyBool ZifyNat ZifyN.
From Verif.Base Require Import Words ListX.
From Verif.Utility Require Import SerialModel SerialProofs.
From Verif.Crypto Require Import BigIntModel BigIntSpec BigIntProofs.
From Verif.Group Require Import ECModel ECProofs.
From Verif.PKE Require Import ElGamalModel ElGamalProofs.
From Verif.Sigma Require Import SigmaModel SigmaSpec.
Import ListNotations.
Local Open Scope Z_scope.

Section P.
Variable G : ECGroup.
Local Notation q := (order G).
Local Infix "+p" := (padd G) (at level 50, left associativity).
Local Notation "P *p k" := (pmul G P k%Z) (at level 40, left associativity).
Local Notation bytes := (ToByteString G).

Lemma distinct_sub : forall e e', distinct_challenges G e e' -> ~ cong q (e - e') 0.
Proof.
  intros e e' N C. apply N. destruct C as [k E]. exists k. lia.
Qed.

(** from two accepting answers the exponent of [h] over [g] *)
Lemma extract_one : forall g h A z z' e e', distinct_challenges G e e' ->
  g *p z = A +p h *p e -> g *p z' = A +p h *p e' ->
  g *p extracted G z z' e e' = h.
Proof.
  intros g h A z z' e e' D E E'.
  pose proof (inv_cong G _ (distinct_sub _ _ D)) as V. unfold extracted.
  assert (X : g *p (z - z') = h *p (e - e')).
  { rewrite <- !Z.add_opp_r, !pmul_add, !pmul_neg, E, E'.
    clear. logs G. gring. }
  rewrite <- pmul_mul, X, pmul_mul. rewrite (pmul_cong G h _ _ V). apply pmul_1.
Qed.

Lemma extract_two : forall g h Y B z z' t t' e e', distinct_challenges G e e' ->
  msum G [g; h] [z; t] = B +p Y *p e -> msum G [g; h] [z'; t'] = B +p Y *p e' ->
  msum G [g; h] [extracted G z z' e e'; extracted G t t' e e'] = Y.
Proof.
  intros g h Y B z z' t t' e e' D E E'.
  pose proof (inv_cong G _ (distinct_sub _ _ D)) as V. unfold extracted.
  rewrite msum2 in *. set (i := ModInverse (e - e') q) in *. clearbody i.
  assert (X : g *p (z - z') +p h *p (t - t') = Y *p (e - e')).
  { transitivity (psub G (g *p z +p h *p t) (g *p z' +p h *p t')).
    - clear. logs G. gring.
    - rewrite E, E'. clear. logs G. gring. }
  transitivity ((g *p (z - z') +p h *p (t - t')) *p i).
  - clear. logs G. gring.
  - rewrite X, pmul_mul, (pmul_cong G Y _ _ V). apply pmul_1.
Qed.

Lemma answer_ok : forall g a e w, g *p modq G (a + e * w) = g *p a +p g *p w *p e.
Proof. intros. logs G. gring. Qed.
Lemma answer_ok' : forall g a e w X, X = g *p w -> g *p modq G (a + e * w) = g *p a +p X *p e.
Proof. intros. subst. apply answer_ok. Qed.
Lemma answer2_ok : forall g h a b e r v Y, Y = msum G [g; h] [r; v] ->
  msum G [g; h] [modq G (a + e * r); modq G (b + e * v)] = msum G [g; h] [a; b] +p Y *p e.
Proof. intros. subst. rewrite !msum2. logs G. gring. Qed.

(** blinding: the answer determines the random value and vice versa *)
Lemma blind_unique : forall c z, in_Zq G z ->
  in_Zq G (modq G (z - c)) /\ modq G (modq G (z - c) + c) = z /\
  forall a, in_Zq G a -> modq G (a + c) = z -> a = modq G (z - c).
Proof.
  intros c z Hz. split; [apply modq_range|]. split.
  - rewrite <- (modq_small G z Hz) at 2. apply cong_modq. rewrite modq_cong. apply cong_eq. ring.
  - intros a Ha <-. rewrite <- (modq_small G a Ha) at 1. apply cong_modq.
    rewrite modq_cong. apply cong_eq. ring.
Qed.

(** conditions of the plaintext-equality verifier *)
Lemma PTE_conditions_spec : forall pks A X z e, (length pks <= length A)%nat -> (length pks <= length X)%nat ->
  PTE_conditions G pks A X z e = true <->
  forall i, (i < length pks)%nat ->
    nth i pks (inf G) *p z = nth i A (inf G) +p nth i X (inf G) *p e.
Proof.
  induction pks as [|pk pks IH]; intros [|Ai A] [|Xi X] z e LA LX; cbn [length] in *; try lia; cbn [PTE_conditions].
  - split; [intros _ i Hi; lia|reflexivity].
  - split; [intros _ i Hi; lia|reflexivity].
  - split; [intros _ i Hi; lia|reflexivity].
  - split; [intros _ i Hi; lia|reflexivity].
  - rewrite andb_true_iff, peqb_true, IH by lia. split.
    + intros [E F] [|i] Hi; cbn [nth]; [exact E|apply F; lia].
    + intros F. split; [apply (F 0%nat); lia|]. intros i Hi. apply (F (S i)). lia.
Qed.

(** ** encodings *)
Lemma app_inj_len : forall (A : Type) (a b c d : list A), length a = length c -> a ++ b = c ++ d -> a = c /\ b = d.
Proof.
  intros A a. induction a as [|x a IH]; intros b [|y c] d L E; cbn in *; try lia; [auto|].
  inversion E. destruct (IH b c d ltac:(lia) H1). subst. auto.
Qed.

Lemma cat_points_length : forall v, length (cat_points G v) = (33 * length v)%nat.
Proof.
  unfold cat_points. induction v as [|P v IH]; cbn [map concat length]; [reflexivity|].
  rewrite app_length, ToByteString_length, IH. lia.
Qed.

Lemma cat_points_inj : forall v w, length v = length w -> cat_points G v = cat_points G w -> v = w.
Proof.
  unfold cat_points. induction v as [|P v IH]; intros [|Q w] L E; cbn in L; try lia; [reflexivity|].
  cbn [map concat] in E. apply app_inj_len in E; [|rewrite !ToByteString_length; reflexivity].
  destruct E as [E1 E2]. apply ToByteString_inj in E1. f_equal; [exact E1|]. apply IH; [lia|exact E2].
Qed.

Lemma bytes_app_inj : forall P Q a b, bytes P ++ a = bytes Q ++ b -> P = Q /\ a = b.
Proof.
  intros P Q a b E. apply app_inj_len in E; [|rewrite !ToByteString_length; reflexivity].
  destruct E as [E1 E2]. split; [apply ToByteString_inj; exact E1|exact E2].
Qed.

Lemma bigint_bytes_inj : forall a b, 0 <= a -> 0 <= b -> BigInt_ToByteString a = BigInt_ToByteString b -> a = b.
Proof.
  intros a b Ha Hb E. unfold BigInt_ToByteString in E.
  apply (f_equal BN_bin2bn) in E. rewrite !bin_bn2bin in E. lia.
Qed.

(** ** Pedersen *)
Lemma Commit_some : forall g hs m r, (length m <= length hs)%nat ->
  Commit G g hs m r = Some (g *p r +p msum G hs m).
Proof.
  intros g hs m r L. unfold Commit. destruct (Nat.leb_spec (length m) (length hs)); [|lia].
  unfold ECPointVectorMul, same_size. rewrite firstn_length, Nat.min_l, Nat.eqb_refl by lia.
  do 2 f_equal. clear H. revert hs L. induction m as [|x m IH]; intros hs L; [destruct hs; reflexivity|].
  destruct hs as [|h hs]; cbn [length] in L; [lia|]. cbn [length firstn msum]. rewrite IH by lia. reflexivity.
Qed.

Lemma msum_add : forall hs a b, length a = length b ->
  msum G hs a +p msum G hs b = msum G hs (map2 Z.add a b).
Proof.
  induction hs as [|h hs IH]; intros [|x a] [|y b] L; cbn [length] in L; try lia; cbn [msum map2];
    try apply padd_inf.
  rewrite <- IH by lia. rewrite pmul_add.
  generalize (msum G hs a) (msum G hs b). intros P Q. clear. logs G. gring.
Qed.

Lemma msum_neg : forall hs a, msum G hs (map Z.opp a) = pneg G (msum G hs a).
Proof.
  induction hs as [|h hs IH]; intros [|x a]; cbn [msum map]; try (symmetry; apply pneg_inf).
  rewrite IH, pmul_neg. generalize (msum G hs a). intros P. clear. logs G. gring.
Qed.

Lemma msum_sub : forall hs a b, length a = length b ->
  msum G hs (map2 Z.sub a b) = psub G (msum G hs a) (msum G hs b).
Proof.
  intros hs a b L. unfold psub. rewrite <- msum_neg, msum_add by (rewrite map_length; exact L).
  f_equal. revert b L. induction a as [|x a IH]; intros [|y b] L; cbn [length] in L; try lia; cbn [map2 map]; [reflexivity|].
  f_equal. apply IH. lia.
Qed.

Lemma msum_zeros : forall hs n, msum G hs (repeat 0 n) = inf G.
Proof.
  induction hs as [|h hs IH]; intros [|n]; cbn [msum repeat]; try reflexivity.
  rewrite pmul_0, IH. apply padd_inf.
Qed.

Lemma msum_pad : forall hs m n, msum G hs (pad n m) = msum G hs m.
Proof.
  intros hs m n. unfold pad. generalize (n - length m)%nat. clear n. intros k. revert hs.
  induction m as [|x m IH]; intros [|h hs]; cbn [app msum]; try reflexivity.
  - exact (msum_zeros (h :: hs) k).
  - rewrite IH. reflexivity.
Qed.

Lemma pad_length : forall n m, (length m <= n)%nat -> length (pad n m) = n.
Proof. intros n m L. unfold pad. rewrite app_length, repeat_length. lia. Qed.
End P.

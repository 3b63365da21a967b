(** The group laws and the proof method used for every protocol: write each point
    as a multiple of the generator, reduce to an equation modulo the order. *)
From Coq Require Import NArith ZArith List Lia Bool Znumtheory Arith Morphisms Setoid.
From Coq Require Import ZifyBool ZifyNat ZifyN.
From Verif.Base Require Import Words ListX.
From Verif.Utility Require Import SerialModel SerialProofs.
From Verif.Crypto Require Import BigIntModel BigIntSpec BigIntProofs.
From Verif.Group Require Import ECModel.
Import ListNotations.
Local Open Scope Z_scope.

(** ** congruences *)
Global Instance cong_equiv q : Equivalence (cong q).
Proof.
  split.
  - intros a. apply cong_refl.
  - intros a b. apply cong_sym.
  - intros a b c. apply cong_trans.
Qed.
Global Instance cong_add_proper q : Proper (cong q ==> cong q ==> cong q) Z.add.
Proof. intros a b H c d H'. apply cong_add; assumption. Qed.
Global Instance cong_mul_proper q : Proper (cong q ==> cong q ==> cong q) Z.mul.
Proof. intros a b H c d H'. apply cong_mul; assumption. Qed.
Global Instance cong_opp_proper q : Proper (cong q ==> cong q) Z.opp.
Proof. intros a b [k ->]. exists (- k). lia. Qed.
Global Instance cong_sub_proper q : Proper (cong q ==> cong q ==> cong q) Z.sub.
Proof. intros a b [k ->] c d [l ->]. exists (k - l). lia. Qed.

Lemma cong_eq : forall q a b, a = b -> cong q a b.
Proof. intros q a b ->. reflexivity. Qed.

Lemma cong_pow : forall q a b n, 0 <= n -> cong q a b -> cong q (a ^ n) (b ^ n).
Proof.
  intros q a b n Hn H. revert n Hn. apply natlike_ind.
  - reflexivity.
  - intros n Hn IH. rewrite !Z.pow_succ_r by lia. rewrite IH, H. reflexivity.
Qed.

Section Laws.
Variable G : ECGroup.
Local Notation q := (order G).
Local Notation g := (pgen G).
Local Infix "+p" := (padd G) (at level 50, left associativity).
Local Infix "*p" := (pmul G) (at level 40, left associativity).

Lemma order_pos : 0 < q.
Proof. pose proof (prime_ge_2 _ (order_prime G)). lia. Qed.
Lemma order_gt1 : 1 < q.
Proof. pose proof (prime_ge_2 _ (order_prime G)). lia. Qed.

Lemma modq_mod : forall x, modq G x = x mod q.
Proof. intros x. apply Mod_pos, order_pos. Qed.
Lemma modq_cong : forall x, cong q (modq G x) x.
Proof. intros x. rewrite modq_mod. apply cong_modl, order_pos. Qed.
Lemma modq_range : forall x, 0 <= modq G x < q.
Proof. intros x. rewrite modq_mod. apply Z.mod_pos_bound, order_pos. Qed.
Lemma modq_small : forall x, 0 <= x < q -> modq G x = x.
Proof. intros x H. rewrite modq_mod. apply Z.mod_small. exact H. Qed.
Lemma cong_modq : forall a b, cong q a b -> modq G a = modq G b.
Proof. intros a b H. rewrite !modq_mod. apply cong_mod; [apply order_pos|exact H]. Qed.
Lemma modq_eq_cong : forall a b, modq G a = modq G b -> cong q a b.
Proof. intros a b H. rewrite !modq_mod in H. apply cong_mod; [apply order_pos|exact H]. Qed.
Lemma cong_canon : forall a b, 0 <= a < q -> 0 <= b < q -> cong q a b -> a = b.
Proof.
  intros a b Ha Hb H. apply cong_modq in H. rewrite !modq_small in H by assumption. exact H.
Qed.

Lemma padd_inf_l : forall P, inf G +p P = P.
Proof. intros P. rewrite padd_comm. apply padd_inf. Qed.
Lemma padd_neg_l : forall P, pneg G P +p P = inf G.
Proof. intros P. rewrite padd_comm. apply padd_neg. Qed.
Lemma padd_cancel_r : forall P Q R, P +p R = Q +p R -> P = Q.
Proof.
  intros P Q R H. rewrite <- (padd_inf G P), <- (padd_inf G Q), <- (padd_neg G R).
  rewrite !padd_assoc, H. reflexivity.
Qed.
Lemma padd_cancel_l : forall P Q R, R +p P = R +p Q -> P = Q.
Proof. intros P Q R H. apply (padd_cancel_r P Q R). rewrite !(padd_comm G _ R). exact H. Qed.
Lemma pneg_unique : forall P Q, P +p Q = inf G -> Q = pneg G P.
Proof. intros P Q H. apply (padd_cancel_l _ _ P). rewrite H, padd_neg. reflexivity. Qed.

Lemma pneg_inf : pneg G (inf G) = inf G.
Proof. symmetry. apply pneg_unique. apply padd_inf. Qed.
Lemma pneg_involutive : forall P, pneg G (pneg G P) = P.
Proof. intros P. symmetry. apply pneg_unique. apply padd_neg_l. Qed.
Lemma pneg_eq_inf : forall P, pneg G P = inf G -> P = inf G.
Proof. intros P H. rewrite <- (pneg_involutive P), H. apply pneg_inf. Qed.

Lemma pmul_pred : forall P k, P *p (k - 1) = P *p k +p pneg G P.
Proof.
  intros P k. apply (padd_cancel_r _ _ P). rewrite <- pmul_succ.
  rewrite <- padd_assoc, padd_neg_l, padd_inf. f_equal. lia.
Qed.

Lemma pmul_add : forall P a b, P *p (a + b) = P *p a +p P *p b.
Proof.
  intros P a b. revert b. apply Z.peano_ind.
  - rewrite Z.add_0_r, pmul_0, padd_inf. reflexivity.
  - intros b IH. rewrite <- Z.add_1_r, Z.add_assoc, !pmul_succ, IH, padd_assoc. reflexivity.
  - intros b IH. rewrite <- Z.sub_1_r, Z.add_sub_assoc, !pmul_pred, IH, padd_assoc. reflexivity.
Qed.

Lemma pmul_neg : forall P a, P *p (- a) = pneg G (P *p a).
Proof. intros P a. apply pneg_unique. rewrite <- pmul_add, Z.add_opp_diag_r. apply pmul_0. Qed.

Lemma pmul_1 : forall P, P *p 1 = P.
Proof. intros P. replace 1 with (0 + 1) by lia. rewrite pmul_succ, pmul_0, padd_inf_l. reflexivity. Qed.

Lemma pmul_mul : forall P a b, P *p a *p b = P *p (a * b).
Proof.
  intros P a b. revert b. apply Z.peano_ind.
  - rewrite Z.mul_0_r, !pmul_0. reflexivity.
  - intros b IH. rewrite <- Z.add_1_r, pmul_succ, IH, Z.mul_add_distr_l, Z.mul_1_r, pmul_add. reflexivity.
  - intros b IH. rewrite <- Z.sub_1_r, pmul_pred, IH, Z.mul_sub_distr_l, Z.mul_1_r.
    rewrite <- Z.add_opp_r, pmul_add, pmul_neg. reflexivity.
Qed.

Lemma inf_mul : forall a, inf G *p a = inf G.
Proof. intros a. rewrite <- (pmul_0 G g), pmul_mul. reflexivity. Qed.

Lemma gmul_cong : forall a b, cong q a b -> g *p a = g *p b.
Proof.
  intros a b [k ->]. rewrite pmul_add, Z.mul_comm, <- pmul_mul, pmul_order, inf_mul, padd_inf. reflexivity.
Qed.

Lemma pmul_cong : forall P a b, cong q a b -> P *p a = P *p b.
Proof.
  intros P a b H. destruct (pgen_all G P) as [p ->]. rewrite !pmul_mul. apply gmul_cong.
  rewrite H. reflexivity.
Qed.

Lemma pmul_modq : forall P a, P *p (modq G a) = P *p a.
Proof. intros P a. apply pmul_cong, modq_cong. Qed.

Lemma gmul_inj : forall a b, g *p a = g *p b -> cong q a b.
Proof.
  intros a b H.
  assert (Z0 : g *p (a - b) = inf G).
  { rewrite <- Z.add_opp_r, pmul_add, pmul_neg, H, padd_neg. reflexivity. }
  destruct (Z.eq_dec ((a - b) mod q) 0) as [E|E].
  - apply Z.mod_divide in E; [|pose proof order_pos; lia]. destruct E as [k Hk]. exists k. lia.
  - exfalso. destruct (ModInverse_prime (a - b) q (order_prime G) E) as [_ I].
    apply (pgen_finite G). rewrite <- (pmul_1 g).
    assert (C : cong q ((a - b) * ModInverse (a - b) q) 1).
    { apply cong_mod; [apply order_pos|]. rewrite I, Z.mod_1_l by apply order_gt1. reflexivity. }
    rewrite <- (gmul_cong _ _ C), <- pmul_mul, Z0. apply inf_mul.
Qed.

Lemma gmul_iff : forall a b, g *p a = g *p b <-> cong q a b.
Proof. split; [apply gmul_inj|apply gmul_cong]. Qed.

(** a finite point generates: multiples are equal only modulo the order *)
Lemma pmul_inj : forall P a b, P <> inf G -> P *p a = P *p b -> cong q a b.
Proof.
  intros P a b F H. destruct (pgen_all G P) as [p ->]. rewrite !pmul_mul in H.
  apply gmul_inj in H.
  assert (Np : p mod q <> 0).
  { intros E. apply F. rewrite <- (pmul_0 G g). apply gmul_cong. apply cong_mod; [apply order_pos|].
    rewrite E, Z.mod_0_l; [reflexivity|pose proof order_pos; lia]. }
  destruct (ModInverse_prime p q (order_prime G) Np) as [_ I]. set (i := ModInverse p q) in *.
  assert (C : cong q (p * i) 1).
  { apply cong_mod; [apply order_pos|]. rewrite I, Z.mod_1_l by apply order_gt1. reflexivity. }
  assert (X : cong q (p * i * a) (p * i * b)).
  { replace (p * i * a) with (i * (p * a)) by ring. replace (p * i * b) with (i * (p * b)) by ring.
    rewrite H. reflexivity. }
  rewrite C, !Z.mul_1_l in X. exact X.
Qed.

Lemma point_log : forall P H, P <> inf G -> exists k, H = P *p k.
Proof.
  intros P H F. destruct (pgen_all G P) as [p Ep]. destruct (pgen_all G H) as [h ->]. subst P.
  assert (Np : p mod q <> 0).
  { intros E. apply F. rewrite <- (pmul_0 G g). apply gmul_cong. apply cong_mod; [apply order_pos|].
    rewrite E, Z.mod_0_l; [reflexivity|pose proof order_pos; lia]. }
  destruct (ModInverse_prime p q (order_prime G) Np) as [_ I]. set (i := ModInverse p q) in *.
  assert (C : cong q (p * i) 1).
  { apply cong_mod; [apply order_pos|]. rewrite I, Z.mod_1_l by apply order_gt1. reflexivity. }
  exists (i * h). rewrite pmul_mul. apply gmul_cong. rewrite Z.mul_assoc, C. rewrite Z.mul_1_l. reflexivity.
Qed.

(** inverses modulo the order *)
Lemma inv_cong : forall a, ~ cong q a 0 -> cong q (a * ModInverse a q) 1.
Proof.
  intros a H. assert (Na : a mod q <> 0).
  { intros E. apply H. apply cong_mod; [apply order_pos|]. rewrite E, Z.mod_0_l; [reflexivity|].
    pose proof order_pos. lia. }
  destruct (ModInverse_prime a q (order_prime G) Na) as [_ I].
  apply cong_mod; [apply order_pos|]. rewrite I, Z.mod_1_l by apply order_gt1. reflexivity.
Qed.

Lemma range_not_0 : forall a, 1 <= a < q -> ~ cong q a 0.
Proof.
  intros a H [k E]. pose proof order_pos. destruct (Z.lt_trichotomy k 0) as [L|[L|L]]; [nia|subst k; lia|nia].
Qed.

Lemma cong_cancel : forall a x y, ~ cong q a 0 -> cong q (a * x) (a * y) -> cong q x y.
Proof.
  intros a x y N H. pose proof (inv_cong a N) as C. set (i := ModInverse a q) in *.
  assert (X : cong q (a * i * x) (a * i * y)).
  { replace (a * i * x) with (i * (a * x)) by ring. replace (a * i * y) with (i * (a * y)) by ring.
    rewrite H. reflexivity. }
  rewrite C, !Z.mul_1_l in X. exact X.
Qed.

(** the rewriting rules that collect everything in one exponent *)
Lemma g_add : forall a b, g *p a +p g *p b = g *p (a + b).
Proof. intros. symmetry. apply pmul_add. Qed.
Lemma g_neg : forall a, pneg G (g *p a) = g *p (- a).
Proof. intros. symmetry. apply pmul_neg. Qed.
Lemma g_sub : forall a b, psub G (g *p a) (g *p b) = g *p (a - b).
Proof. intros. unfold psub. rewrite g_neg, g_add. reflexivity. Qed.
Lemma g_inf : inf G = g *p 0.
Proof. symmetry. apply pmul_0. Qed.
Lemma g_gen : forall P, P = g -> P = g *p 1.
Proof. intros P ->. symmetry. apply pmul_1. Qed.

Lemma vec_log : forall V, exists l, V = map (pmul G g) l.
Proof.
  induction V as [|P V [l ->]].
  - exists []. reflexivity.
  - destruct (pgen_all G P) as [p ->]. exists (p :: l). reflexivity.
Qed.

Lemma msum_log : forall l a, msum G (map (pmul G g) l) a = g *p (dot l a).
Proof.
  unfold dot. induction l as [|x l IH]; intros [|y a]; cbn [map msum combine zsum fst snd];
    try (rewrite pmul_0; reflexivity).
  rewrite IH, pmul_mul, g_add. reflexivity.
Qed.

Lemma peqb_true : forall P Q, peqb G P Q = true <-> P = Q.
Proof. intros P Q. destruct (peqb_spec G P Q); split; congruence. Qed.
Lemma peqb_refl : forall P, peqb G P P = true.
Proof. intros P. apply peqb_true. reflexivity. Qed.

(** ** encodings *)
Lemma ToByteString_length : forall P, length (ToByteString G P) = 33%nat.
Proof.
  intros P. unfold ToByteString. destruct (peqb G P (inf G)); [reflexivity|apply comp33_length].
Qed.

Lemma ToByteString_inj : forall P Q, ToByteString G P = ToByteString G Q -> P = Q.
Proof.
  intros P Q H. unfold ToByteString in H.
  destruct (peqb_spec G P (inf G)) as [EP|NP]; destruct (peqb_spec G Q (inf G)) as [EQ|NQ].
  - congruence.
  - exfalso. apply (comp33_head G Q NQ). rewrite <- H. reflexivity.
  - exfalso. apply (comp33_head G P NP). rewrite H. reflexivity.
  - apply (comp33_inj G); assumption.
Qed.

Lemma ToByteString_ok : forall P, bytes_ok (ToByteString G P).
Proof.
  intros P. unfold ToByteString. destruct (peqb G P (inf G)); [|apply comp33_ok].
  constructor; [reflexivity|]. apply Forall_forall. intros x I. apply repeat_spec in I. subst. reflexivity.
Qed.

Lemma read_write_point : forall gb old P rest, P <> inf G ->
  read_point G old (write_point G gb P ++ rest) = Some (P, rest).
Proof.
  intros gb old P rest F. unfold read_point, write_point.
  destruct (peqb_spec G P (inf G)); [contradiction|].
  rewrite fin_read_app by (symmetry; apply unc65_length). rewrite oct65_unc65 by exact F. reflexivity.
Qed.

Lemma read_write_point_inf : forall gb old rest, length gb = 65%nat ->
  read_point G old (write_point G gb (inf G) ++ rest) = Some (old, rest).
Proof.
  intros gb old rest L. unfold read_point, write_point. rewrite peqb_refl.
  rewrite fin_read_app.
  - rewrite oct65_head0; [reflexivity| |reflexivity].
    cbn [length]. rewrite skipn_length, L. reflexivity.
  - cbn [length]. rewrite skipn_length, L. reflexivity.
Qed.

Lemma read_write_points : forall gb v old rest, Forall (fun P => P <> inf G) v -> length old = length v ->
  read_points G old (write_points G gb v ++ rest) = Some (v, rest).
Proof.
  induction v as [|P v IH]; intros [|o old] rest F L; try discriminate; cbn [read_points write_points]; [reflexivity|].
  inversion F; subst. rewrite <- app_assoc, read_write_point by assumption.
  rewrite IH; [reflexivity|assumption|]. cbn in L. lia.
Qed.

End Laws.

(** Replace every point variable by a multiple of the generator. *)
Ltac logs G :=
  repeat match goal with
  | P : pt G |- _ =>
      let p := fresh "l" P in let E := fresh in
      destruct (pgen_all G P) as [p E]; subst P
  end.

(** Collect both sides of a point equation in one exponent. *)
Ltac collect :=
  repeat first
    [ rewrite pmul_modq
    | rewrite g_add | rewrite g_sub | rewrite g_neg | rewrite pmul_mul ].

(** Remove the reductions modulo the order inside a congruence. *)
Ltac unmod :=
  repeat match goal with
  | |- context [modq ?G ?x] => setoid_rewrite (modq_cong G x)
  end.

Ltac congring := unmod; apply cong_eq; ring.

(** Prove a point equation that holds for all points and scalars. *)
Ltac gring := collect; apply gmul_cong; congring.

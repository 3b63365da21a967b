From Coq Require Import NArith List Bool Lia ZifyBool ZifyNat ZifyN Ring Ring_theory.
From Verif Require Import Base.Words Base.ListX OKVS.GFModel OKVS.GFSpec.
Import ListNotations.
Local Open Scope N_scope.

(** ** The ring of polynomials over GF(2) *)

Lemma double_lxor : forall a b, N.double (N.lxor a b) = N.lxor (N.double a) (N.double b).
Proof.
  intros a b. rewrite !N.double_spec, !(N.mul_comm 2).
  change 2 with (2 ^ 1). rewrite <- !N.shiftl_mul_pow2. apply N.shiftl_lxor.
Qed.

Lemma lxor4 : forall a b c d,
  N.lxor (N.lxor a b) (N.lxor c d) = N.lxor (N.lxor a c) (N.lxor b d).
Proof.
  intros. rewrite !N.lxor_assoc. f_equal.
  rewrite <- !N.lxor_assoc, (N.lxor_comm b c). reflexivity.
Qed.

Lemma clmul_lxor_l : forall a b y, clmul (N.lxor a b) y = N.lxor (clmul a y) (clmul b y).
Proof.
  intros a b [|p]; [reflexivity|]. cbn [clmul]. induction p as [p IH|p IH|].
  - cbn [clmul_pos]. rewrite IH, double_lxor. apply lxor4.
  - cbn [clmul_pos]. rewrite IH, double_lxor. reflexivity.
  - reflexivity.
Qed.

Lemma clmul_double_l : forall a y, clmul (N.double a) y = N.double (clmul a y).
Proof.
  intros a [|p]; [reflexivity|]. cbn [clmul]. induction p as [p IH|p IH|].
  - cbn [clmul_pos]. rewrite IH, <- double_lxor. reflexivity.
  - cbn [clmul_pos]. rewrite IH. reflexivity.
  - reflexivity.
Qed.

Lemma clmul_double_r : forall a y, clmul a (N.double y) = N.double (clmul a y).
Proof. intros a [|p]; reflexivity. Qed.

Lemma clmul_succ_double_r : forall a y,
  clmul a (N.succ_double y) = N.lxor a (N.double (clmul a y)).
Proof.
  intros a [|p]; [|reflexivity]. cbn. rewrite N.lxor_0_r. reflexivity.
Qed.

Lemma clmul_0_l : forall y, clmul 0 y = 0.
Proof.
  intros [|p]; [reflexivity|]. cbn [clmul].
  induction p as [p IH|p IH|]; cbn [clmul_pos]; try rewrite IH; reflexivity.
Qed.

Lemma clmul_1_l : forall y, clmul 1 y = y.
Proof.
  intros y. induction y as [|y IH|y IH] using N.binary_ind.
  - reflexivity.
  - rewrite clmul_double_r, IH. reflexivity.
  - rewrite clmul_succ_double_r, IH. destruct y; reflexivity.
Qed.

Lemma succ_double_lxor : forall y, N.succ_double y = N.lxor 1 (N.double y).
Proof. intros [|p]; reflexivity. Qed.

Lemma clmul_comm : forall x y, clmul x y = clmul y x.
Proof.
  intros x y. revert x. induction y as [|y IH|y IH] using N.binary_ind; intros x.
  - rewrite clmul_0_l. reflexivity.
  - rewrite clmul_double_r, clmul_double_l, IH. reflexivity.
  - rewrite clmul_succ_double_r, succ_double_lxor, clmul_lxor_l, clmul_1_l.
    rewrite clmul_double_l, IH. reflexivity.
Qed.

Lemma clmul_lxor_r : forall x a b, clmul x (N.lxor a b) = N.lxor (clmul x a) (clmul x b).
Proof. intros. rewrite clmul_comm, clmul_lxor_l, !(clmul_comm _ x). reflexivity. Qed.

Lemma clmul_assoc : forall x y z, clmul x (clmul y z) = clmul (clmul x y) z.
Proof.
  intros x y z. revert x y. induction z as [|z IH|z IH] using N.binary_ind; intros x y.
  - reflexivity.
  - rewrite !clmul_double_r, IH. reflexivity.
  - rewrite !clmul_succ_double_r, clmul_lxor_r, clmul_double_r, IH. reflexivity.
Qed.

Definition of_bool (b : bool) : N := if b then 1 else 0.

Lemma poly_ring : ring_theory 0 1 N.lxor clmul N.lxor (fun x => x) (@eq N).
Proof.
  constructor; intros.
  - apply N.lxor_0_l.
  - apply N.lxor_comm.
  - symmetry; apply N.lxor_assoc.
  - apply clmul_1_l.
  - apply clmul_comm.
  - apply clmul_assoc.
  - apply clmul_lxor_l.
  - reflexivity.
  - apply N.lxor_nilpotent.
Qed.

Lemma poly_morph : ring_morph 0 1 N.lxor clmul N.lxor (fun x => x) (@eq N)
  false true xorb andb xorb (fun b => b) Bool.eqb of_bool.
Proof.
  constructor; try reflexivity; try (intros [] []; reflexivity).
  intros [] [] H; try reflexivity; discriminate.
Qed.

Ltac bool_cst t :=
  match t with
  | true => t | false => t
  | 0 => constr:(false) | 1 => constr:(true)
  | _ => constr:(NotConstant)
  end.

(** ** Shifts are products with powers of X *)

Lemma clmul_pow2 : forall a n, clmul a (2 ^ n) = N.shiftl a n.
Proof.
  intros a n. induction n as [|n IH] using N.peano_ind.
  - rewrite N.shiftl_0_r. reflexivity.
  - rewrite N.pow_succ_r', <- N.double_spec, clmul_double_r, IH.
    rewrite N.shiftl_succ_r. reflexivity.
Qed.

Definition X64 : N := 2 ^ 64.

Lemma shl64 : forall a, N.shiftl a 64 = clmul a X64.
Proof. intros. symmetry. apply clmul_pow2. Qed.

Lemma lxor_disjoint : forall a b k, b < 2 ^ k ->
  N.lxor (N.shiftl a k) b = N.shiftl a k + b.
Proof.
  intros a b k H.
  assert (E : N.land (N.shiftl a k) b = 0).
  { apply N.bits_inj. intros i. rewrite N.land_spec, N.bits_0.
    destruct (N.lt_ge_cases i k) as [C|C].
    - rewrite N.shiftl_spec_low by exact C. reflexivity.
    - rewrite (testbit_bounded k b i H C). apply andb_false_r. }
  symmetry. apply N.add_nocarry_lxor. exact E.
Qed.

Lemma split64 : forall x, x = N.lxor (clmul (x / 2 ^ 64) X64) (lo64 x).
Proof.
  intros x. rewrite <- shl64, lxor_disjoint.
  - rewrite N.shiftl_mul_pow2. pose proof (N.div_mod x (2 ^ 64)). unfold lo64. lia.
  - apply N.mod_lt. discriminate.
Qed.

Lemma hi64_small : forall x, x < 2 ^ 128 -> hi64 x = x / 2 ^ 64.
Proof.
  intros x H. unfold hi64. apply N.mod_small.
  apply N.div_lt_upper_bound; [discriminate|]. exact H.
Qed.

Lemma lo64_lxor : forall a b, lo64 (N.lxor a b) = N.lxor (lo64 a) (lo64 b).
Proof.
  intros a b. unfold lo64. rewrite <- !N.land_ones.
  apply N.bits_inj. intros i. rewrite !N.land_spec, !N.lxor_spec, !N.land_spec.
  destruct (N.testbit a i), (N.testbit b i), (N.testbit (N.ones 64) i); reflexivity.
Qed.

Lemma hi64_lxor : forall a b, hi64 (N.lxor a b) = N.lxor (hi64 a) (hi64 b).
Proof.
  intros a b. unfold hi64. change (2 ^ 64) with (2 ^ 64).
  rewrite <- !N.shiftr_div_pow2, N.shiftr_lxor. apply lo64_lxor.
Qed.

Lemma slli8_lxor : forall a b, slli8 (N.lxor a b) = N.lxor (slli8 a) (slli8 b).
Proof.
  intros a b. unfold slli8. rewrite N.shiftl_lxor, <- !N.land_ones.
  apply N.bits_inj. intros i. rewrite !N.land_spec, !N.lxor_spec, !N.land_spec.
  destruct (N.testbit (N.shiftl a 64) i), (N.testbit (N.shiftl b 64) i),
    (N.testbit (N.ones 128) i); reflexivity.
Qed.

Lemma srli8_lxor : forall a b, srli8 (N.lxor a b) = N.lxor (srli8 a) (srli8 b).
Proof. intros. apply N.shiftr_lxor. Qed.

(** ** Sizes *)

Lemma clmul_lt : forall a y i j, a < 2 ^ i -> y < 2 ^ j -> clmul a y < 2 ^ (i + j).
Proof.
  intros a y i. induction y as [|y IH|y IH] using N.binary_ind; intros j Ha Hy.
  - cbn [clmul]. apply N.neq_0_lt_0, N.pow_nonzero. discriminate.
  - rewrite clmul_double_r, N.double_spec. rewrite N.double_spec in Hy.
    destruct (N.eq_dec y 0) as [->|Z].
    { cbn [clmul]. apply N.neq_0_lt_0, N.pow_nonzero. discriminate. }
    destruct (N.eq_dec j 0) as [->|J]; [rewrite N.pow_0_r in Hy; lia|].
    replace j with (N.succ (j - 1)) in * by lia.
    rewrite N.add_succ_r, N.pow_succ_r'. rewrite N.pow_succ_r' in Hy.
    specialize (IH (j - 1) Ha ltac:(lia)). lia.
  - rewrite clmul_succ_double_r. rewrite N.succ_double_spec in Hy.
    destruct (N.eq_dec j 0) as [->|J]; [rewrite N.pow_0_r in Hy; lia|].
    replace j with (N.succ (j - 1)) in * by lia. rewrite N.pow_succ_r' in Hy.
    specialize (IH (j - 1) Ha ltac:(lia)).
    apply lxor_lt.
    + eapply N.lt_le_trans; [exact Ha|]. apply N.pow_le_mono_r; lia.
    + rewrite N.double_spec, N.add_succ_r, N.pow_succ_r'. lia.
Qed.

Lemma lo64_lt : forall x, lo64 x < 2 ^ 64.
Proof. intros. apply N.mod_lt. discriminate. Qed.

Lemma hi64_lt : forall x, hi64 x < 2 ^ 64.
Proof. intros. apply N.mod_lt. discriminate. Qed.

Lemma slli8_lt : forall x, slli8 x < 2 ^ 128.
Proof. intros. apply N.mod_lt. discriminate. Qed.

Lemma clmul64_lt : forall a b, a < 2 ^ 64 -> b < 2 ^ 64 -> clmul a b < 2 ^ 128.
Proof. intros a b Ha Hb. exact (clmul_lt a b 64 64 Ha Hb). Qed.

Lemma gf128_mul_lt : forall x y, gf128_mul x y < 2 ^ 128.
Proof.
  intros. unfold gf128_mul, clmul_00, clmul_01, clmul_10, clmul_11. cbv zeta.
  repeat match goal with |- N.lxor _ _ < _ => apply lxor_lt end;
    try apply slli8_lt; apply clmul64_lt; (apply lo64_lt || apply hi64_lt).
Qed.

(** ** The reduction *)

Definition blk128 (x : N) : N := x mod 2 ^ 128.

Lemma blk128_split : forall x, blk128 x = N.lxor (clmul (hi64 x) X64) (lo64 x).
Proof.
  intros x. rewrite (split64 (blk128 x)). f_equal.
  - f_equal. unfold blk128, hi64. change (2 ^ 128) with (2 ^ 64 * 2 ^ 64).
    rewrite N.mod_mul_r by discriminate.
    rewrite (N.mul_comm (2 ^ 64) (_ mod _)), N.div_add by discriminate.
    rewrite N.div_small by (apply N.mod_lt; discriminate). reflexivity.
  - unfold blk128, lo64. change (2 ^ 128) with (2 ^ 64 * 2 ^ 64).
    rewrite N.mod_mul_r by discriminate.
    rewrite (N.mul_comm (2 ^ 64) (_ mod _)), N.mod_add by discriminate.
    apply N.mod_mod. discriminate.
Qed.

Lemma slli8_lo : forall a, slli8 a = clmul (lo64 a) X64.
Proof.
  intros a. unfold slli8. rewrite <- shl64, !N.shiftl_mul_pow2. unfold lo64.
  change (2 ^ 128) with (2 ^ 64 * 2 ^ 64).
  rewrite N.mul_mod_distr_r by discriminate. reflexivity.
Qed.

Lemma srli_split : forall a, a = N.lxor (clmul (srli8 a) X64) (lo64 a).
Proof. intros a. unfold srli8. rewrite N.shiftr_div_pow2. apply split64. Qed.

Lemma srli_lo : forall a, a < 2 ^ 128 -> lo64 (srli8 a) = srli8 a.
Proof.
  intros a H. unfold srli8. rewrite N.shiftr_div_pow2. apply N.mod_small.
  apply N.div_lt_upper_bound; [discriminate|exact H].
Qed.

Lemma poly_f : field_polynomial = N.lxor (clmul X64 X64) 135.
Proof. reflexivity. Qed.

(** The quotient is read off the code: the upper half of the product and the
    first correction. *)
Definition quotient (x y : N) : N :=
  let mid := N.lxor (clmul_10 x y) (clmul_01 x y) in
  let high := N.lxor (clmul_11 x y) (srli8 mid) in
  let impact := clmul_01 high 135 in
  N.lxor (clmul (hi64 high) X64) (lo64 (N.lxor high (srli8 impact))).

Section Reduction.
Add Ring poly : poly_ring (morphism poly_morph, constants [bool_cst]).

Lemma reduction : forall x y,
  clmul (blk128 x) (blk128 y)
  = N.lxor (clmul (quotient x y) field_polynomial) (gf128_mul x y).
Proof.
  intros x y. rewrite !blk128_split, poly_f.
  unfold quotient, gf128_mul, clmul_00, clmul_01, clmul_10, clmul_11. cbv zeta.
  change (lo64 135) with 135.
  assert (Hx1 := hi64_lt x). assert (Hx0 := lo64_lt x).
  assert (Hy1 := hi64_lt y). assert (Hy0 := lo64_lt y).
  set (x1 := hi64 x) in *. set (x0 := lo64 x) in *.
  set (y1 := hi64 y) in *. set (y0 := lo64 y) in *.
  clearbody x1 x0 y1 y0. clear x y.
  assert (Hm : N.lxor (clmul x0 y1) (clmul x1 y0) < 2 ^ 128).
  { apply lxor_lt; apply clmul64_lt; assumption. }
  assert (H11 : clmul x1 y1 < 2 ^ 128) by (apply clmul64_lt; assumption).
  set (mid := N.lxor (clmul x0 y1) (clmul x1 y0)) in *.
  assert (Emid := srli_split mid).
  rewrite !slli8_lo.
  assert (Hh : N.lxor (clmul x1 y1) (srli8 mid) < 2 ^ 128).
  { apply lxor_lt; [exact H11|]. unfold srli8. rewrite N.shiftr_div_pow2.
    apply N.div_lt_upper_bound; [discriminate|].
    eapply N.lt_le_trans; [exact Hm|]. discriminate. }
  set (high := N.lxor (clmul x1 y1) (srli8 mid)) in *.
  assert (Ehigh : clmul x1 y1 = N.lxor high (srli8 mid)).
  { unfold high. ring. }
  assert (Ehs : high = N.lxor (clmul (hi64 high) X64) (lo64 high)).
  { rewrite hi64_small by exact Hh. apply split64. }
  assert (Hi : clmul (hi64 high) 135 < 2 ^ 128).
  { apply clmul64_lt; [apply hi64_lt|reflexivity]. }
  set (impact := clmul (hi64 high) 135) in *.
  assert (Eimp := srli_split impact).
  rewrite lo64_lxor, (srli_lo impact Hi).
  assert (Edef : impact = clmul (hi64 high) 135) by reflexivity.
  assert (Emdef : mid = N.lxor (clmul x0 y1) (clmul x1 y0)) by reflexivity.
  clearbody impact high mid.
  set (h1 := hi64 high) in *. set (h0 := lo64 high) in *.
  set (i1 := srli8 impact) in *. set (i0 := lo64 impact) in *.
  set (m1 := srli8 mid) in *. set (m0 := lo64 mid) in *.
  clearbody h1 h0 i1 i0 m1 m0. clear Hx1 Hx0 Hy1 Hy0 Hm H11 Hh Hi.
  set (g := 135) in *. set (Xv := X64) in *. clearbody g Xv.
  transitivity (N.lxor (N.lxor (clmul (clmul x1 y1) (clmul Xv Xv)) (clmul mid Xv))
                       (clmul x0 y0)).
  { rewrite Emdef. ring. }
  rewrite Emid, Ehigh, Ehs.
  transitivity (N.lxor (N.lxor (clmul (clmul h1 Xv) (clmul Xv Xv))
    (clmul h0 (clmul Xv Xv))) (N.lxor (clmul m0 Xv) (clmul x0 y0))).
  { ring. }
  (* the two sides differ by Xv * (h1*g - impact) *)
  transitivity (N.lxor (N.lxor (N.lxor (clmul (clmul h1 Xv) (clmul Xv Xv))
    (clmul h0 (clmul Xv Xv))) (N.lxor (clmul m0 Xv) (clmul x0 y0)))
    (N.lxor (clmul Xv (clmul h1 g)) (clmul Xv (N.lxor (clmul i1 Xv) i0)))).
  { rewrite <- Edef, <- Eimp. ring. }
  ring.
Qed.
End Reduction.

(** ** Uniqueness of the remainder *)

Lemma clmul_log2 : forall a y, a <> 0 -> y <> 0 ->
  clmul a y <> 0 /\ N.log2 (clmul a y) = N.log2 a + N.log2 y.
Proof.
  intros a y Ha. induction y as [|y IH|y IH] using N.binary_ind; intros Hy.
  - contradiction.
  - rewrite clmul_double_r.
    assert (y <> 0) as Y by (intros ->; apply Hy; reflexivity).
    destruct (IH Y) as (I1 & I2). split.
    + destruct (clmul a y); [contradiction|discriminate].
    + rewrite !N.double_spec, !N.log2_double by lia. lia.
  - rewrite clmul_succ_double_r.
    destruct (N.eq_dec y 0) as [->|Y].
    { cbn [clmul N.double]. rewrite N.lxor_0_r. split; [exact Ha|].
      change (N.succ_double 0) with 1. rewrite N.log2_1. lia. }
    destruct (IH Y) as (I1 & I2).
    assert (L : N.log2 (N.double (clmul a y)) = N.succ (N.log2 a + N.log2 y)).
    { rewrite N.double_spec, N.log2_double by lia. lia. }
    assert (D : N.log2 (N.lxor a (N.double (clmul a y))) = N.succ (N.log2 a + N.log2 y)).
    { apply N.log2_bits_unique.
      - rewrite N.lxor_spec. rewrite <- L at 2. rewrite N.bit_log2.
        + rewrite N.bits_above_log2 by lia. reflexivity.
        + rewrite N.double_spec. lia.
      - intros m Hm. rewrite N.lxor_spec, !N.bits_above_log2 by lia. reflexivity. }
    split.
    + intros Z. rewrite Z in D. cbn in D. lia.
    + rewrite D, N.succ_double_spec, N.log2_succ_double by lia. lia.
Qed.

Lemma remainder_unique : forall q r q' r', r < 2 ^ 128 -> r' < 2 ^ 128 ->
  N.lxor (clmul q field_polynomial) r = N.lxor (clmul q' field_polynomial) r' ->
  r = r'.
Proof.
  intros q r q' r' H H' E.
  assert (E2 : clmul (N.lxor q q') field_polynomial = N.lxor r r').
  { rewrite clmul_lxor_l. apply (f_equal (fun t => N.lxor t (N.lxor (clmul q' field_polynomial) r))) in E.
    rewrite lxor4, N.lxor_nilpotent, N.lxor_0_r in E.
    rewrite E. rewrite (N.lxor_comm _ r'), (N.lxor_comm (clmul q' _) r).
    rewrite lxor4, N.lxor_nilpotent, N.lxor_0_r. apply N.lxor_comm. }
  assert (L : N.lxor r r' < 2 ^ 128) by (apply lxor_lt; assumption).
  destruct (N.eq_dec (N.lxor q q') 0) as [Z|Z].
  - rewrite Z, clmul_0_l in E2. symmetry in E2. apply N.lxor_eq in E2. exact E2.
  - exfalso. destruct (clmul_log2 _ field_polynomial Z ltac:(discriminate)) as (A & B).
    rewrite E2 in A, B. change (N.log2 field_polynomial) with 128 in B.
    assert (N.log2 (N.lxor r r') < 128) by (apply N.log2_lt_pow2; lia). lia.
Qed.

(** Congruence modulo the field polynomial *)
Definition cong (a b : N) : Prop := exists q, N.lxor a b = clmul q field_polynomial.

Lemma cong_eq : forall a b, a < 2 ^ 128 -> b < 2 ^ 128 -> cong a b -> a = b.
Proof.
  intros a b Ha Hb [q E]. apply (remainder_unique 0 a q b Ha Hb).
  rewrite clmul_0_l, N.lxor_0_l, <- E, N.lxor_assoc, N.lxor_nilpotent, N.lxor_0_r.
  reflexivity.
Qed.

Section Congruence.
Add Ring poly : poly_ring (morphism poly_morph, constants [bool_cst]).

Lemma cong_refl : forall a, cong a a.
Proof. intros a. exists 0. rewrite clmul_0_l. apply N.lxor_nilpotent. Qed.

Lemma cong_sym : forall a b, cong a b -> cong b a.
Proof. intros a b [q E]. exists q. rewrite N.lxor_comm. exact E. Qed.

Lemma cong_trans : forall a b c, cong a b -> cong b c -> cong a c.
Proof.
  intros a b c [q E] [q' E']. exists (N.lxor q q').
  rewrite clmul_lxor_l, <- E, <- E'. ring.
Qed.

Lemma cong_add : forall a b c d, cong a b -> cong c d -> cong (N.lxor a c) (N.lxor b d).
Proof.
  intros a b c d [q E] [q' E']. exists (N.lxor q q').
  rewrite clmul_lxor_l, <- E, <- E'. ring.
Qed.

Lemma cong_mul : forall a b c d, cong a b -> cong c d -> cong (clmul a c) (clmul b d).
Proof.
  intros a b c d [q E] [q' E']. exists (N.lxor (clmul q c) (clmul b q')).
  transitivity (N.lxor (clmul c (N.lxor a b)) (clmul b (N.lxor c d))).
  { ring. }
  rewrite E, E'. ring.
Qed.

Lemma mul_cong : forall x y, x < 2 ^ 128 -> y < 2 ^ 128 ->
  cong (gf128_mul x y) (clmul x y).
Proof.
  intros x y Hx Hy. pose proof (reduction x y) as R.
  unfold blk128 in R. rewrite !N.mod_small in R by assumption.
  exists (quotient x y). rewrite R. ring.
Qed.
End Congruence.

(** ** The field laws of the code *)

Notation "x ** y" := (gf128_mul x y) (at level 40, left associativity).
Definition in128 (x : N) := x < 2 ^ 128.
Local Hint Resolve gf128_mul_lt : core.

Lemma gf_comm : forall x y, x < 2 ^ 128 -> y < 2 ^ 128 -> x ** y = y ** x.
Proof.
  intros x y Hx Hy. apply cong_eq; auto.
  eapply cong_trans; [apply mul_cong; assumption|].
  rewrite clmul_comm. apply cong_sym, mul_cong; assumption.
Qed.

Lemma gf_assoc : forall x y z, x < 2 ^ 128 -> y < 2 ^ 128 -> z < 2 ^ 128 ->
  x ** (y ** z) = x ** y ** z.
Proof.
  intros x y z Hx Hy Hz. apply cong_eq; auto.
  eapply cong_trans; [apply mul_cong; auto|].
  eapply cong_trans; [apply cong_mul; [apply cong_refl|apply mul_cong; auto]|].
  rewrite clmul_assoc. apply cong_sym.
  eapply cong_trans; [apply mul_cong; auto|].
  apply cong_mul; [apply mul_cong; auto|apply cong_refl].
Qed.

Lemma gf_1_l : forall x, x < 2 ^ 128 -> 1 ** x = x.
Proof.
  intros x Hx. apply cong_eq; auto.
  eapply cong_trans; [apply mul_cong; [reflexivity|auto]|].
  rewrite clmul_1_l. apply cong_refl.
Qed.

Lemma gf_mul_blk : forall x y, blk128 x ** blk128 y = x ** y.
Proof.
  assert (L : forall x, lo64 (blk128 x) = lo64 x).
  { intros x. unfold blk128, lo64. change (2 ^ 128) with (2 ^ 64 * 2 ^ 64).
    rewrite N.mod_mul_r by discriminate.
    rewrite (N.mul_comm (2 ^ 64) (_ mod _)), N.mod_add by discriminate.
    apply N.mod_mod. discriminate. }
  assert (H : forall x, hi64 (blk128 x) = hi64 x).
  { intros x. unfold blk128, hi64. change (2 ^ 128) with (2 ^ 64 * 2 ^ 64).
    rewrite N.mod_mul_r by discriminate.
    rewrite (N.mul_comm (2 ^ 64) (_ mod _)), N.div_add by discriminate.
    rewrite (N.div_small (x mod 2 ^ 64)) by (apply N.mod_lt; discriminate).
    rewrite N.add_0_l. apply N.mod_mod. discriminate. }
  intros x y. unfold gf128_mul, clmul_00, clmul_01, clmul_10, clmul_11.
  rewrite !L, !H. reflexivity.
Qed.

Lemma blk128_lt : forall x, blk128 x < 2 ^ 128.
Proof. intros. apply N.mod_lt. discriminate. Qed.

Lemma blk128_lxor : forall a b, blk128 (N.lxor a b) = N.lxor (blk128 a) (blk128 b).
Proof.
  intros a b. unfold blk128. rewrite <- !N.land_ones.
  apply N.bits_inj. intros i. rewrite !N.land_spec, !N.lxor_spec, !N.land_spec.
  destruct (N.testbit a i), (N.testbit b i), (N.testbit (N.ones 128) i); reflexivity.
Qed.

Lemma gf_add_l : forall a b y, N.lxor a b ** y = N.lxor (a ** y) (b ** y).
Proof.
  intros a b y. rewrite <- (gf_mul_blk (N.lxor a b)), <- (gf_mul_blk a), <- (gf_mul_blk b).
  rewrite blk128_lxor. pose proof (blk128_lt a). pose proof (blk128_lt b).
  pose proof (blk128_lt y).
  apply cong_eq; auto; [apply lxor_lt; auto|].
  eapply cong_trans; [apply mul_cong; auto; apply lxor_lt; auto|].
  rewrite clmul_lxor_l. apply cong_sym, cong_add; apply mul_cong; auto.
Qed.

Lemma gf_comm' : forall x y, x ** y = y ** x.
Proof.
  intros. rewrite <- (gf_mul_blk x y), <- (gf_mul_blk y x).
  apply gf_comm; apply blk128_lt.
Qed.

Lemma gf_add_r : forall x a b, x ** N.lxor a b = N.lxor (x ** a) (x ** b).
Proof. intros. rewrite gf_comm', gf_add_l, !(gf_comm' x). reflexivity. Qed.

Lemma gf_0_l : forall y, 0 ** y = 0.
Proof.
  intros y. rewrite <- (N.lxor_nilpotent 0) at 1. rewrite gf_add_l.
  apply N.lxor_nilpotent.
Qed.

Lemma gf_assoc' : forall x y z, x ** (y ** z) = x ** y ** z.
Proof.
  intros x y z.
  rewrite <- (gf_mul_blk x (y ** z)), <- (gf_mul_blk (x ** y) z).
  rewrite <- (gf_mul_blk x y), <- (gf_mul_blk y z).
  unfold blk128 at 2 5. rewrite !(N.mod_small (_ ** _)) by auto.
  apply gf_assoc; apply blk128_lt.
Qed.

(** C70: the arithmetic of GF(2^128). *)
From Coq Require Import NArith List Bool Lia ZifyBool ZifyNat ZifyN.
From Verif Require Import Base.Words Base.ListX OKVS.GFModel OKVS.GFSpec OKVS.GFProofs
  OKVS.GFInverse.
Import ListNotations.
Local Open Scope N_scope.

(** The instruction's carry-less product is the product of polynomials. *)
Lemma fold_xorb_app : forall l b,
  fold_right xorb false (l ++ [b]) = xorb (fold_right xorb false l) b.
Proof.
  induction l as [|a l IH]; intros b; cbn [app fold_right].
  - destruct b; reflexivity.
  - rewrite IH. rewrite xorb_assoc_reverse. reflexivity.
Qed.

Lemma coefficient_double : forall x y k,
  coefficient x (N.double y) (S k) = coefficient x y k.
Proof.
  intros x y k. unfold coefficient.
  rewrite (seq_S (S k)), map_app. cbn [map]. rewrite fold_xorb_app.
  replace (S k - (0 + S k))%nat with 0%nat by lia. cbn [N.of_nat].
  rewrite N.double_spec, (N.testbit_even_0 y), andb_false_r, xorb_false_r.
  f_equal. apply map_ext_in. intros i Hi. apply in_seq in Hi.
  f_equal. replace (S k - i)%nat with (S (k - i)) by lia.
  rewrite Nat2N.inj_succ, N.testbit_even_succ by lia. reflexivity.
Qed.

Lemma coefficient_double_0 : forall x y, coefficient x (N.double y) 0 = false.
Proof.
  intros x y. unfold coefficient. cbn [seq map fold_right Nat.sub N.of_nat].
  rewrite N.double_spec, N.testbit_even_0, andb_false_r. reflexivity.
Qed.

Lemma coefficient_succ_double : forall x y k,
  coefficient x (N.succ_double y) k
  = xorb (N.testbit x (N.of_nat k)) (coefficient x (N.double y) k).
Proof.
  intros x y k. unfold coefficient.
  rewrite (seq_S k), !map_app. cbn [map]. rewrite !fold_xorb_app.
  replace (k - (0 + k))%nat with 0%nat by lia. cbn [N.of_nat Nat.add].
  rewrite N.double_spec, N.succ_double_spec, N.testbit_even_0, N.testbit_odd_0.
  rewrite andb_false_r, andb_true_r, xorb_false_r, xorb_comm.
  f_equal. f_equal. apply map_ext_in. intros i Hi. apply in_seq in Hi.
  f_equal. replace (k - i)%nat with (S (k - i - 1)) by lia.
  rewrite Nat2N.inj_succ, N.testbit_even_succ, N.testbit_odd_succ by lia. reflexivity.
Qed.

Theorem C70_carryless_product : forall x y, product x y (clmul x y).
Proof.
  intros x y. induction y as [|y IH|y IH] using N.binary_ind; intros k.
  - cbn [clmul]. rewrite N.bits_0. unfold coefficient. symmetry.
    induction (seq 0 (S k)) as [|i l IHl]; [reflexivity|]. cbn [map fold_right].
    rewrite IHl, N.bits_0, andb_false_r. reflexivity.
  - rewrite clmul_double_r. destruct k as [|k].
    + rewrite coefficient_double_0, N.double_spec. apply N.testbit_even_0.
    + rewrite coefficient_double, <- IH, N.double_spec, Nat2N.inj_succ.
      apply N.testbit_even_succ. lia.
  - rewrite clmul_succ_double_r, coefficient_succ_double, N.lxor_spec. f_equal.
    destruct k as [|k].
    + rewrite coefficient_double_0, N.double_spec. apply N.testbit_even_0.
    + rewrite coefficient_double, <- IH, N.double_spec, Nat2N.inj_succ.
      apply N.testbit_even_succ. lia.
Qed.
Print Assumptions C70_carryless_product.

(** C70: [gf128_mul] returns the remainder of the product modulo
    X^128+X^7+X^2+X+1, and no other number is that remainder. *)
Theorem C70_field_product :
  forall x y, x < 2 ^ 128 -> y < 2 ^ 128 ->
  field_product x y (gf128_mul x y) /\
  (forall r, field_product x y r -> r = gf128_mul x y).
Proof.
  intros x y Hx Hy.
  assert (Uniq : forall a b p, product a b p -> p = clmul a b).
  { intros a b p H. apply N.bits_inj. intros k.
    rewrite <- (N2Nat.id k), (H (N.to_nat k)). symmetry. apply C70_carryless_product. }
  pose proof (reduction x y) as R. unfold blk128 in R.
  rewrite !N.mod_small in R by assumption.
  split.
  - split; [apply gf128_mul_lt|].
    exists (clmul x y), (quotient x y), (clmul (quotient x y) field_polynomial).
    split; [apply C70_carryless_product|]. split; [apply C70_carryless_product|].
    exact R.
  - intros r (Hr & p & q & m & Hp & Hm & E).
    apply Uniq in Hp. apply Uniq in Hm. subst p m.
    apply (remainder_unique q r (quotient x y)); [exact Hr|apply gf128_mul_lt|].
    rewrite <- E. exact R.
Qed.
Print Assumptions C70_field_product.

(** C70: the laws of a field, with xor as addition. *)
Theorem C70_field :
  forall x y z, x < 2 ^ 128 -> y < 2 ^ 128 -> z < 2 ^ 128 ->
  gf128_mul x y < 2 ^ 128 /\
  gf128_mul x y = gf128_mul y x /\
  gf128_mul x (gf128_mul y z) = gf128_mul (gf128_mul x y) z /\
  gf128_mul x (N.lxor y z) = N.lxor (gf128_mul x y) (gf128_mul x z) /\
  gf128_mul (N.lxor x y) z = N.lxor (gf128_mul x z) (gf128_mul y z) /\
  gf128_mul 1 x = x /\
  (x <> 0 -> gf128_inv x < 2 ^ 128 /\ gf128_mul (gf128_inv x) x = 1) /\
  (gf128_mul x y = 0 -> x = 0 \/ y = 0).
Proof.
  intros x y z Hx Hy Hz.
  split; [apply gf128_mul_lt|]. split; [apply gf_comm'|]. split; [apply gf_assoc'|].
  split; [apply gf_add_r|]. split; [apply gf_add_l|]. split; [apply gf_1_l, Hx|].
  split.
  - intros H. split; [rewrite inv_gpow by exact Hx; apply gpow_lt|].
    apply inverse; assumption.
  - apply no_zero_divisors; assumption.
Qed.
Print Assumptions C70_field.

(** C70: the inverse of 0 is 0 (and not an error). *)
Theorem C70_inverse_of_zero : gf128_inv 0 = 0.
Proof. vm_compute. reflexivity. Qed.

(** C70: the version for arrays multiplies each block. *)
Theorem C70_array :
  forall xs y i, (i < length xs)%nat ->
  length (gf128_mul_array xs y) = length xs /\
  nth i (gf128_mul_array xs y) 0 = gf128_mul (nth i xs 0) y.
Proof.
  intros xs y i H. unfold gf128_mul_array. rewrite map_length. split; [reflexivity|].
  exact (nth_map' (fun b => gf128_mul b y) xs i 0 0 H).
Qed.

Example C70_run :
  gf128_mul (2 ^ 127) 2 = 135 /\
  gf128_mul 0x66e94bd4ef8a2c3b884cfa59ca342b2e 0x0388dace60b6a392f328c2b971b2fe78
  = gf128_mul 0x0388dace60b6a392f328c2b971b2fe78 0x66e94bd4ef8a2c3b884cfa59ca342b2e /\
  gf128_mul (gf128_inv 0x66e94bd4ef8a2c3b884cfa59ca342b2e)
            0x66e94bd4ef8a2c3b884cfa59ca342b2e = 1.
Proof. vm_compute. auto. Qed.

Print Assumptions C70_inverse_of_zero.
Print Assumptions C70_array.

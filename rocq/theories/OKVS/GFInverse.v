(** Inverses in GF(2^128): the field polynomial has no proper factor.
    The argument is Berlekamp's: squaring is additive, its 128-fold iterate is
    the identity, and its fixed points are 0 and 1 only. *)
From Coq Require Import NArith List Bool Lia ZifyBool ZifyNat ZifyN.
From Verif Require Import Base.Words Base.ListX OKVS.GFModel OKVS.GFSpec OKVS.GFProofs.
Import ListNotations.
Local Open Scope N_scope.

(** ** Additive maps are determined by the powers of X *)

Definition additive (f : N -> N) : Prop :=
  forall a b, f (N.lxor a b) = N.lxor (f a) (f b).

Lemma additive_0 : forall f, additive f -> f 0 = 0.
Proof.
  intros f H. rewrite <- (N.lxor_nilpotent 0) at 1. rewrite H. apply N.lxor_nilpotent.
Qed.

Lemma additive_ext : forall f g k, additive f -> additive g ->
  (forall i, (i < k)%nat -> f (2 ^ N.of_nat i) = g (2 ^ N.of_nat i)) ->
  forall x, x < 2 ^ N.of_nat k -> f x = g x.
Proof.
  intros f g k Hf Hg. induction k as [|k IH]; intros E x Hx.
  - assert (x = 0) as -> by (cbn in Hx; lia). rewrite !additive_0; auto.
  - assert (IH' : forall x, x < 2 ^ N.of_nat k -> f x = g x).
    { apply IH. intros i Hi. apply E. lia. }
    clear IH. rewrite Nat2N.inj_succ, N.pow_succ_r' in Hx.
    destruct (N.lt_ge_cases x (2 ^ N.of_nat k)) as [C|C]; [apply IH'; exact C|].
    assert (S : x = N.lxor (2 ^ N.of_nat k) (x - 2 ^ N.of_nat k)).
    { replace (2 ^ N.of_nat k) with (N.shiftl 1 (N.of_nat k)) at 1
        by apply N.shiftl_1_l.
      rewrite lxor_disjoint by lia. rewrite N.shiftl_1_l. lia. }
    rewrite S, Hf, Hg, E by lia. f_equal. apply IH'. lia.
Qed.

Lemma squarings_additive : forall k, additive (squarings k).
Proof.
  induction k as [|k IH]; intros a b; [reflexivity|]. cbn [squarings].
  rewrite gf_add_l, !gf_add_r, (gf_comm' b a).
  rewrite <- IH. f_equal.
  rewrite !N.lxor_assoc. f_equal. rewrite <- N.lxor_assoc, N.lxor_nilpotent.
  apply N.lxor_0_l.
Qed.

(** ** Powers *)

Definition gpow (x n : N) : N := N.iter n (gf128_mul x) 1.

Lemma gpow_0 : forall x, gpow x 0 = 1.
Proof. reflexivity. Qed.

Lemma gpow_succ : forall x n, gpow x (N.succ n) = gf128_mul x (gpow x n).
Proof. intros. unfold gpow. apply N.iter_succ. Qed.

Lemma gpow_lt : forall x n, gpow x n < 2 ^ 128.
Proof.
  intros x n. destruct (N.eq_dec n 0) as [->|H]; [reflexivity|].
  replace n with (N.succ (N.pred n)) by lia. rewrite gpow_succ. apply gf128_mul_lt.
Qed.

Lemma gpow_add : forall x m n, gpow x (m + n) = gf128_mul (gpow x m) (gpow x n).
Proof.
  intros x m n. induction m as [|m IH] using N.peano_ind.
  - rewrite N.add_0_l, gpow_0, gf_1_l by apply gpow_lt. reflexivity.
  - rewrite N.add_succ_l, !gpow_succ, IH. apply gf_assoc'.
Qed.

Lemma gpow_1 : forall x, x < 2 ^ 128 -> gpow x 1 = x.
Proof.
  intros x H. change 1 with (N.succ 0). rewrite gpow_succ, gpow_0, gf_comm'.
  apply gf_1_l, H.
Qed.

Lemma squarings_gpow : forall k x n, squarings k (gpow x n) = gpow x (n * 2 ^ N.of_nat k).
Proof.
  induction k as [|k IH]; intros x n.
  - cbn [squarings]. change (2 ^ N.of_nat 0) with 1. rewrite N.mul_1_r. reflexivity.
  - cbn [squarings]. rewrite <- gpow_add, IH.
    apply (f_equal (gpow x)). rewrite Nat2N.inj_succ, N.pow_succ_r'. lia.
Qed.

Lemma gpow_mul : forall x m n, gpow (gpow x m) n = gpow x (m * n).
Proof.
  intros x m n. induction n as [|n IH] using N.peano_ind.
  - rewrite N.mul_0_r. reflexivity.
  - rewrite gpow_succ, IH, <- gpow_add. apply (f_equal (gpow x)). lia.
Qed.

Lemma gpow_2 : forall i, (i < 128)%nat -> gpow 2 (N.of_nat i) = 2 ^ N.of_nat i.
Proof.
  assert (forallb (fun i => gf128_mul 2 (2 ^ N.of_nat i) =? 2 ^ N.of_nat (S i)) (seq 0 127) = true) as H
    by (vm_compute; reflexivity).
  rewrite forallb_forall in H. induction i as [|i IH]; intros Hi; [reflexivity|].
  rewrite Nat2N.inj_succ, gpow_succ, IH by lia. rewrite <- Nat2N.inj_succ. apply N.eqb_eq, H, in_seq. lia.
Qed.

(** x^(2^128) = x *)
Lemma frobenius_period : forall x, x < 2 ^ 128 -> squarings 128 x = x.
Proof.
  apply (additive_ext (squarings 128) (fun x => x) 128).
  - apply squarings_additive.
  - intros a b. reflexivity.
  - intros i Hi.
    rewrite <- (gpow_2 i Hi).
    rewrite squarings_gpow, N.mul_comm, <- gpow_mul.
    assert (P : gpow 2 (2 ^ N.of_nat 128) = 2).
    { transitivity (squarings 128 (gpow 2 1)).
      - rewrite squarings_gpow, N.mul_1_l. reflexivity.
      - vm_compute. reflexivity. }
    rewrite P. reflexivity.
Qed.

(** ** The fixed points of squaring *)

Definition select (y : N) (i : nat) (c : N) : N :=
  if N.testbit y (N.of_nat i) then c else 0.

Fixpoint apply_columns (cols : list N) (i : nat) (y : N) : N :=
  match cols with
  | [] => 0
  | c :: cols => N.lxor (select y i c) (apply_columns cols (S i) y)
  end.

Lemma columns_additive : forall cols i, additive (apply_columns cols i).
Proof.
  induction cols as [|c cols IH]; intros i a b; [reflexivity|].
  cbn [apply_columns]. rewrite IH, lxor4. f_equal.
  unfold select. rewrite N.lxor_spec.
  destruct (N.testbit a (N.of_nat i)), (N.testbit b (N.of_nat i)); cbn [xorb];
    rewrite ?N.lxor_0_r, ?N.lxor_0_l, ?N.lxor_nilpotent; reflexivity.
Qed.

(** A left inverse of (squaring - identity) on the polynomials without constant
    term; found by Gaussian elimination outside, checked here. *)
Definition berlekamp : list N :=
  [0x295ac0b1f4731af9676aac9fa4b20b08;
   0xe5da5595ee970b89929959af766af404;
   0xe5da5595ee970b89929959af766af406;
   0x4e9826c74350bfe67783f7333404a20c;
   0xe5da5595ee970b89929959af766af402;
   0x2aaea79ad7da34b07dc714cb83074e6a;
   0x4e9826c74350bfe67783f7333404a204;
   0xcc8095241ae41171f5f3f531d2d9fe18;
   0xe5da5595ee970b89929959af766af412;
   0x4e983687d159ce9677cb862e8ac85b44;
   0x2aaea79ad7da34b07dc714cb83074e4a;
   0xaae2ab6aaf144aaff73fcb3c06aaff56;
   0x4e9826c74350bfe67783f7333404a244;
   0xe62f327ccd5792dd893fe9ca40603f62;
   0xcc8095241ae41171f5f3f531d2d9fe98;
   0xab52f0323f47c90be1336bc7d453b626;
   0xe5da5595ee970b89929959af766af512;
   0x2abe34bad75338b479a6a089abf4573a;
   0x4e983687d159ce9677cb862e8ac85944;
   0x1e8ccb9dcc72f2e1a9cbef8232562fc;
   0x2aaea79ad7da34b07dc714cb83074a4a;
   0x2442c3221f3dc1a0ce869b24a80e48c;
   0xaae2ab6aaf144aaff73fcb3c06aaf756;
   0xcf64612f39c4323deb3ff936dd9aa228;
   0x4e9826c74350bfe67783f7333404b244;
   0xcc911696880d4909f0d5382a57572458;
   0xe62f327ccd5792dd893fe9ca40601f62;
   0x4d7cd7cc29d28cf2697f6478e5db2834;
   0xcc8095241ae41171f5f3f531d2d9be98;
   0xccc99127569146a7fc0956ca1a5b86a4;
   0xab52f0323f47c90be1336bc7d4533626;
   0x65cece94dacd5b1c14f5986b001eeb82;
   0xe5da5595ee970b89929959af766bf512;
   0x2b0e7fa2d509ca746fe27169c7c3e73a;
   0x2abe34bad75338b479a6a089abf6573a;
   0x65df4d264824132411d3553885980142;
   0x4e983687d159ce9677cb862e8acc5944;
   0xcf74f70e70ef2af7ef6fd21d2af671a4;
   0x1e8ccb9dcc72f2e1a9cbef8232d62fc;
   0xcec4b9173b16cdf9f91a9d8499490f58;
   0x2aaea79ad7da34b07dc714cb83174a4a;
   0x83f16f99175f624799a6cf206b513bdc;
   0x2442c3221f3dc1a0ce869b24aa0e48c;
   0x3f562a96a2aa9081b9e27ebe84671c0;
   0xaae2ab6aaf144aaff73fcb3c06eaf756;
   0xccc9c07ae11bcce3fcd6d526cddeebd4;
   0xcf64612f39c4323deb3ff936dd1aa228;
   0xa95fc803c09556f7e461dfebe8467196;
   0x4e9826c74350bfe67783f7333504b244;
   0x4cdc1ab0f0ab5b2e7b20ee03c15c7384;
   0xcc911696880d4909f0d5382a55572458;
   0xaaba68961da11d79fb48c8c7fe68cf6a;
   0xe62f327ccd5792dd893fe9ca44601f62;
   0xe5db5416ee209847938b5c70638d3bee;
   0x4d7cd7cc29d28cf2697f6478eddb2834;
   0x6437818b95e2e76e0b49fa26a7e512ce;
   0xcc8095241ae41171f5f3f531c2d9be98;
   0x4cd9020746184ba27868a299022ddf34;
   0xccc99127569146a7fc0956ca3a5b86a4;
   0x824171dcefbe4a8b8f1d24e407e8e76c;
   0xab52f0323f47c90be1336bc794533626;
   0xe62e22af1f6bf32b88711e202cdc3b5e;
   0x65cece94dacd5b1c14f5986b801eeb82;
   0x83f4672b23a92e499aadb85427b54520;
   0xe5da5595ee970b89929959ae766bf512;
   0x1040920971720048711dbeccf94c;
   0x2b0e7fa2d509ca746fe2716bc7c3e73a;
   0x81edd40a7a7437cb99d6b267d0d7976c;
   0x2abe34bad75338b479a6a08dabf6573a;
   0xe46a1e8deccdf96d84dd884d1a5d4462;
   0x65df4d264824132411d3553085980142;
   0x804c1cb1eac70f698ab1aeeb3a605920;
   0x4e983687d159ce9677cb863e8acc5944;
   0xa94f4b3252499e01e04514377dbd55aa;
   0xcf74f70e70ef2af7ef6fd23d2af671a4;
   0xe7d77da5831189d3978a93f3f56f619e;
   0x1e8ccb9dcc72f2e1a9cbeb8232d62fc;
   0x4cdd0f362b68e52a7a5109eab0a16ef4;
   0xcec4b9173b16cdf9f91a9d0499490f58;
   0xe4329c3d7bf233698830781e88d05912;
   0x2aaea79ad7da34b07dc715cb83174a4a;
   0x82082082597387418618bcbfcff334e0;
   0x83f16f99175f624799a6cd206b513bdc;
   0x294b124ed1181a846297e291f4adcc3a;
   0x2442c3221f3dc1a0ce86db24aa0e48c;
   0xe78fff41144664939b696b666550119e;
   0x3f562a96a2aa9081b9e2febe84671c0;
   0xcd78dbfd54a1436beb568d9e63d55a14;
   0xaae2ab6aaf144aaff73fdb3c06eaf756;
   0xccdd4e7b1ce38d0ffacabbbeed722b64;
   0xccc9c07ae11bcce3fcd6f526cddeebd4;
   0x3e5e1ccb1bf89c61fb4754fa43bbf3c;
   0xcf64612f39c4323deb3fb936dd1aa228;
   0xe5da00893461b455926f68f4172caea2;
   0xa95fc803c09556f7e4615febe8467196;
   0xe78ae2a77b3e87b1981cf1dccb9d1fd2;
   0x4e9826c74350bfe67782f7333504b244;
   0x2912d4222a675b0a6fd777b6c15f72c6;
   0x4cdc1ab0f0ab5b2e7b22ee03c15c7384;
   0xe7d6682e58d237f196f8740f85956fd2;
   0xcc911696880d4909f0d1382a55572458;
   0xab4366b0764a0b4be46143c933474626;
   0xaaba68961da11d79fb40c8c7fe68cf6a;
   0xe7d77d718378aeb397849bb7f7de0d9e;
   0xe62f327ccd5792dd892fe9ca44601f62;
   0x64231d9efb5729d60d13f9bd382e380e;
   0xe5db5416ee20984793ab5c70638d3bee;
   0x81b51ab7a5fe1499959811bd9a557220;
   0x4d7cd7cc29d28cf2693f6478eddb2834;
   0x295ab4bb43072c12678a4ee975a08406;
   0x6437818b95e2e76e0bc9fa26a7e512ce;
   0xab0eead38eb165ebef9e1acd25989a26;
   0xcc8095241ae41171f4f3f531c2d9be98;
   0x3ba7996db230c0010185b9b29b00000;
   0x4cd9020746184ba27a68a299022ddf34;
   0x8210932010890d058261f45338765990;
   0xccc99127569146a7f80956ca3a5b86a4;
   0x2a88e0fbb92f0c2c7f14722e3db361fa;
   0x824171dcefbe4a8b871d24e407e8e76c;
   0x29b11e87b8989fd86fb067f47d17578a;
   0xab52f0323f47c90bf1336bc794533626;
   0x0;
   0xe62e22af1f6bf32ba8711e202cdc3b5e;
   0x862e22af1f6bf32ba8711e202cdc3b6c;
   0x65cece94dacd5b1c54f5986b801eeb82;
   0x8e8cbdc6770aef73b1ef36f7c270bdac;
   0x83f4672b23a92e491aadb85427b54520;
   0x38b21c09fae1613c0db7ed8c3891e6fa].

Definition without_constant (x : N) : N := N.double (N.div2 x).

Lemma without_constant_additive : additive without_constant.
Proof.
  intros a b. unfold without_constant. rewrite !N.div2_spec, N.shiftr_lxor.
  apply double_lxor.
Qed.

Lemma fixed_points : forall e, e < 2 ^ 128 -> gf128_mul e e = e -> e = 0 \/ e = 1.
Proof.
  intros e He Fix.
  pose (f := fun x => apply_columns berlekamp 0 (N.lxor (squarings 1 x) x)).
  assert (Hf : f e = without_constant e).
  { apply (additive_ext f without_constant 128); [| |intros i Hi|exact He].
    - intros a b. unfold f. rewrite squarings_additive, lxor4, columns_additive.
      reflexivity.
    - apply without_constant_additive.
    - assert (forallb (fun i => f (2 ^ N.of_nat i) =? without_constant (2 ^ N.of_nat i))
              (seq 0 128) = true) as H by (vm_compute; reflexivity).
      rewrite forallb_forall in H. apply N.eqb_eq, H, in_seq. lia. }
  unfold f in Hf. cbn [squarings] in Hf. rewrite Fix, N.lxor_nilpotent in Hf.
  rewrite (additive_0 _ (columns_additive berlekamp 0)) in Hf.
  unfold without_constant in Hf. rewrite N.double_spec in Hf.
  assert (N.div2 e = 0) by lia.
  pose proof (N.div2_odd e). destruct (N.odd e); cbn [N.b2n] in *; lia.
Qed.

(** The chain of [gf128_inv] *)
Lemma inv_step : forall x k i m r,
  inv_rounds (S k) (S i) (gpow x m) (gpow x r)
  = inv_rounds k (S (S i)) (gpow x (m + m * 2 ^ N.of_nat (Nat.pow 2 (S i))))
      (gpow x (r + m * 2 ^ N.of_nat (Nat.pow 2 (S i)))).
Proof.
  intros x k i m r. cbn [inv_rounds Nat.eqb].
  rewrite squarings_gpow, <- !gpow_add. reflexivity.
Qed.

Lemma inv_gpow : forall x, x < 2 ^ 128 -> gf128_inv x = gpow x (2 ^ 128 - 2).
Proof.
  intros x Hx. unfold gf128_inv. rewrite <- (gpow_1 x Hx) at 1.
  assert (E : inv_rounds 7 0 (gpow x 1) 0
    = inv_rounds 6 1 (gpow x (1 + 1 * 2 ^ N.of_nat 1)) (gpow x (1 * 2 ^ N.of_nat 1))).
  { cbn [inv_rounds Nat.eqb Nat.pow]. rewrite squarings_gpow, <- gpow_add. reflexivity. }
  rewrite E. rewrite !inv_step. cbn [inv_rounds].
  apply (f_equal (gpow x)). vm_compute. reflexivity.
Qed.

Lemma inverse : forall x, x < 2 ^ 128 -> x <> 0 -> gf128_mul (gf128_inv x) x = 1.
Proof.
  intros x Hx Hne. rewrite inv_gpow by exact Hx.
  assert (P : gpow x (2 ^ 128) = x).
  { rewrite <- (frobenius_period x Hx) at 2. rewrite <- (gpow_1 x Hx) at 2.
    rewrite squarings_gpow. apply (f_equal (gpow x)). reflexivity. }
  assert (A1 : gf128_mul (gpow x (2 ^ 128 - 2)) x = gpow x (2 ^ 128 - 1)).
  { rewrite <- (gpow_1 x Hx) at 2. rewrite <- gpow_add.
    apply (f_equal (gpow x)). reflexivity. }
  rewrite A1. set (e := gpow x (2 ^ 128 - 1)) in *.
  assert (He : gf128_mul e x = x).
  { unfold e. rewrite <- (gpow_1 x Hx) at 2. rewrite <- gpow_add.
    etransitivity; [|exact P]. apply (f_equal (gpow x)). reflexivity. }
  assert (Le : e < 2 ^ 128) by apply gpow_lt. clearbody e.
  revert A1. generalize (gpow x (2 ^ 128 - 2)). intros v A1.
  assert (Hi : gf128_mul e e = e).
  { rewrite <- A1 at 2. rewrite (gf_comm' v x), gf_assoc', He, gf_comm'. exact A1. }
  destruct (fixed_points e Le Hi) as [Z|Z]; [|exact Z].
  exfalso. apply Hne. rewrite <- He, Z. apply gf_0_l.
Qed.

Lemma no_zero_divisors : forall x y, x < 2 ^ 128 -> y < 2 ^ 128 ->
  gf128_mul x y = 0 -> x = 0 \/ y = 0.
Proof.
  intros x y Hx Hy H. destruct (N.eq_dec x 0) as [|Z]; [auto|right].
  rewrite <- (gf_1_l y Hy), <- (inverse x Hx Z), <- gf_assoc', H, gf_comm'.
  apply gf_0_l.
Qed.

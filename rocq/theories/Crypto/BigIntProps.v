(** Properties C17 (BigInt serialization), C18 (polynomial multiplication) and
    C20 (modular helpers). *)
From Coq Require Import NArith ZArith List Lia Znumtheory.
From Coq Require Import ZifyBool ZifyNat ZifyN.
From Verif.Base Require Import Words ListX.
From Verif.Utility Require Import SerialModel SerialProofs.
From Verif.Crypto Require Import BigIntModel BigIntSpec BigIntProofs.
Import ListNotations.
Local Open Scope Z_scope.

(** ** C17 *)

(** The stream operators round-trip every integer of [0, 2^256), whatever the
    uninitialised buffer holds, consuming exactly what was written. *)
Theorem C17_stream_round_trip_partial : forall garbage v rest,
  Forall (fun a => 0 <= a < 2 ^ 256) v ->
  read_bigints (length v) (write_bigints garbage v ++ rest) = Some (v, rest).
Proof. exact read_write_bigints. Qed.
Print Assumptions C17_stream_round_trip_partial.

Example C17_stream_round_trip_case :
  Forall (fun a => 0 <= a < 2 ^ 256) [0; 1; 255; 256; 2 ^ 255 + 12345; 2 ^ 256 - 1].
Proof. repeat (constructor; [lia|]). constructor. Qed.

(** The byte-string conversions round-trip every non-negative integer of any size;
    ToByteVector(LEN) every one of at most LEN bytes. *)
Theorem C17_bytes_round_trip_partial : forall a, 0 <= a ->
  FromByteString (BigInt_ToByteString a) = a /\
  (forall LEN, a < 256 ^ Z.of_nat LEN -> FromByteVector (ToByteVector a LEN) = a
                                         /\ length (ToByteVector a LEN) = LEN).
Proof.
  intros a Ha. split.
  - unfold FromByteString, BigInt_ToByteString. rewrite bin_bn2bin. lia.
  - intros LEN L. assert (B : (Z.abs_N a < 256 ^ N.of_nat LEN)%N).
    { apply N2Z.inj_lt. rewrite N2Z.inj_pow, N2Z.inj_abs_N, nat_N_Z, Z.abs_eq by exact Ha. exact L. }
    unfold ToByteVector. rewrite binpad_some by exact B. split.
    + unfold FromByteVector, BN_bin2bn. rewrite be_val_bytes by exact B.
      rewrite N2Z.inj_abs_N. apply Z.abs_eq. exact Ha.
    + apply be_bytes_length.
Qed.
Print Assumptions C17_bytes_round_trip_partial.

(** Outside that range the claim is false of the code.  A negative number loses
    its sign in every encoding ... *)
Theorem C17_sign_lost_refuted : forall garbage a rest, - 2 ^ 256 < a < 0 ->
  read_bigint (write_bigint garbage a ++ rest) = Some (- a, rest) /\
  FromByteString (BigInt_ToByteString a) = - a /\
  FromByteVector (ToByteVector a BN_BYTE_LEN) = - a.
Proof.
  intros garbage a rest H.
  assert (E : BN_bn2binpad a BN_BYTE_LEN = BN_bn2binpad (- a) BN_BYTE_LEN).
  { unfold BN_bn2binpad, BN_num_bytes, BN_num_bits.
    replace (Z.abs_N a) with (Z.abs_N (- a)) by lia. reflexivity. }
  split; [|split].
  - replace (write_bigint garbage a) with (write_bigint garbage (- a))
      by (unfold write_bigint; rewrite E; reflexivity).
    apply read_write_bigint. lia.
  - unfold FromByteString, BigInt_ToByteString. rewrite bin_bn2bin. lia.
  - destruct (C17_bytes_round_trip_partial (- a) ltac:(lia)) as [_ R].
    destruct (R BN_BYTE_LEN) as [R' _]; [change (256 ^ Z.of_nat BN_BYTE_LEN) with (2 ^ 256); lia|].
    transitivity (FromByteVector (ToByteVector (- a) BN_BYTE_LEN)); [|exact R'].
    unfold ToByteVector. rewrite E. reflexivity.
Qed.
Print Assumptions C17_sign_lost_refuted.

(** ... and a number of more than 256 bits is not written at all: the stream
    receives the uninitialised buffer, and a byte vector receives LEN times the
    character '0'. *)
Theorem C17_too_large_refuted : forall garbage a LEN,
  (2 ^ 256 <= Z.abs a -> write_bigint garbage a = garbage) /\
  (256 ^ Z.of_nat LEN <= Z.abs a -> ToByteVector a LEN = repeat 48%N LEN).
Proof.
  intros garbage a LEN. split; intros H.
  - unfold write_bigint. rewrite binpad_none; [reflexivity|]. rewrite pow_256_32.
    apply N2Z.inj_le. rewrite N2Z.inj_abs_N. exact H.
  - unfold ToByteVector. rewrite binpad_none; [reflexivity|].
    apply N2Z.inj_le. rewrite N2Z.inj_pow, N2Z.inj_abs_N, nat_N_Z. exact H.
Qed.
Print Assumptions C17_too_large_refuted.

(** ** C18 *)

(** The product polynomial takes at every point the product of the two values,
    modulo the order, and it has |A|+|B|-1 coefficients. *)
Theorem C18_product_evaluates : forall A B C x q, 0 < q -> PolyMul A B q = Some C ->
  EvalPoly C x q = (EvalPoly A x q * EvalPoly B x q) mod q /\
  length C = (length A + length B - 1)%nat.
Proof.
  intros A B C x q Hq E. split; [|exact (PolyMul_some _ _ _ _ E)].
  rewrite !EvalPoly_spec by exact Hq. rewrite <- Zmult_mod.
  apply cong_mod; [exact Hq|]. exact (PolyMul_eval _ _ _ _ x Hq E).
Qed.
Print Assumptions C18_product_evaluates.

(** EvalPoly is evaluation: its value is that of the polynomial modulo q. *)
Theorem C18_eval_is_evaluation : forall P x q, 0 < q -> EvalPoly P x q = peval P x mod q.
Proof. exact EvalPoly_spec. Qed.
Print Assumptions C18_eval_is_evaluation.

(** Coefficient by coefficient the product is the convolution, reduced to [0,q). *)
Theorem C18_product_coefficients : forall A B q C k, 0 < q -> PolyMul A B q = Some C ->
  (k < length C)%nat -> nth k C 0 = conv A B k mod q.
Proof. exact PolyMul_coef. Qed.
Print Assumptions C18_product_coefficients.

(** Only the product of two empty polynomials fails (the constructor throws). *)
Theorem C18_product_total : forall A B q, PolyMul A B q = None <-> A = [] /\ B = [].
Proof.
  intros A B q. unfold PolyMul. destruct A as [|a A], B as [|b B]; cbn [length Nat.add]; split;
    try discriminate; try (intros [? ?]; discriminate); auto.
Qed.
Print Assumptions C18_product_total.

(** The same for a product of any number of non-empty polynomials. *)
Theorem C18_vector_product_evaluates : forall P x q, 0 < q -> Forall (fun p => p <> []) P ->
  exists C, PolyMulVec P q = Some C /\
            EvalPoly C x q = zprod (map (fun p => EvalPoly p x q) P) mod q.
Proof. exact PolyMulVec_eval. Qed.
Print Assumptions C18_vector_product_evaluates.

Example C18_case : PolyMul [3; 5; 10] [7; 2] 11 = Some [10; 8; 3; 9] /\ Forall (fun p => p <> []) [[3; 5; 10]; [7; 2]].
Proof. split; [vm_compute; reflexivity|repeat constructor; discriminate]. Qed.

(** ** C20 *)

(** Mod returns the canonical representative for every integer, also negative
    ones; ModAdd, ModSub, ModMul, ModSquare and ModExp are the operations modulo m. *)
Theorem C20_mod_canonical : forall a b e m, 0 < m -> 0 <= e ->
  canonical m a (BigInt_Mod a m) /\
  canonical m (a + b) (ModAdd a b m) /\ canonical m (a - b) (ModSub a b m) /\
  canonical m (a * b) (ModMul a b m) /\ canonical m (a * a) (ModSquare a m) /\
  canonical m (a ^ e) (ModExp a e m).
Proof.
  intros a b e m H He. unfold ModAdd, ModSub, ModMul, ModSquare.
  change (checked (BN_nnmod (a + b) m)) with (BigInt_Mod (a + b) m).
  change (checked (BN_nnmod (a - b) m)) with (BigInt_Mod (a - b) m).
  change (checked (BN_nnmod (a * b) m)) with (BigInt_Mod (a * b) m).
  change (checked (BN_nnmod (a * a) m)) with (BigInt_Mod (a * a) m).
  rewrite !Mod_pos by exact H. rewrite ModExp_spec by assumption.
  repeat split; try apply (canonical_mod m _ H); apply Z.mod_pos_bound; exact H.
Qed.
Print Assumptions C20_mod_canonical.

(** ModInverse is the canonical inverse for every unit, and 0 for a non-unit. *)
Theorem C20_mod_inverse : forall a m, 1 < m ->
  (Z.gcd a m = 1 -> 0 <= ModInverse a m < m /\ (a * ModInverse a m) mod m = 1) /\
  (Z.gcd a m <> 1 -> ModInverse a m = 0).
Proof.
  intros a m H. destruct (BN_mod_inverse_spec a m H) as [U N]. unfold ModInverse. split; intros G.
  - destruct (U G) as [v [E [B I]]]. rewrite E. cbn [checked]. auto.
  - rewrite (N G). reflexivity.
Qed.
Print Assumptions C20_mod_inverse.

Example C20_mod_inverse_case :
  Z.gcd (-12345) (2 ^ 127 - 1) = 1 /\ ((-12345) * ModInverse (-12345) (2 ^ 127 - 1)) mod (2 ^ 127 - 1) = 1
  /\ ModInverse 6 9 = 0.
Proof. vm_compute. auto. Qed.

(** ModNegate is the canonical negation except on the nonzero multiples of m: full
    statement [forall a m, 0 < m -> canonical m (- a) (ModNegate a m)].  Missing:
    exactly those multiples, where it is false (next theorem). *)
Theorem C20_mod_negate_partial : forall a m, 0 < m -> (a = 0 \/ a mod m <> 0) ->
  canonical m (- a) (ModNegate a m).
Proof.
  intros a m H C. rewrite ModNegate_spec by exact H.
  destruct (Z.eqb_spec a 0) as [->|Ne].
  - apply (canonical_mod m 0 H) || (unfold canonical; split; [lia|reflexivity]).
  - destruct (Z.eqb_spec (a mod m) 0) as [E|E]; [destruct C; contradiction|].
    apply canonical_mod. exact H.
Qed.
Print Assumptions C20_mod_negate_partial.

Theorem C20_mod_negate_multiple_refuted : forall a m, 0 < m -> a <> 0 -> a mod m = 0 ->
  ModNegate a m = m /\ ~ canonical m (- a) (ModNegate a m).
Proof.
  intros a m H Ne E. rewrite ModNegate_spec by exact H.
  destruct (Z.eqb_spec a 0); [contradiction|]. rewrite E, Z.eqb_refl.
  split; [reflexivity|]. unfold canonical. lia.
Qed.
Print Assumptions C20_mod_negate_multiple_refuted.

Example C20_mod_negate_case : ModNegate 3 7 = 4 /\ ModNegate 14 7 = 7 /\ ModNegate (-3) 7 = 3.
Proof. vm_compute. auto. Qed.

(** Vector helpers: on vectors of equal length each result element is the
    operation on the elements, and otherwise the program exits. *)
Theorem C20_vectors_pointwise : forall a b m, 0 < m ->
  (length a <> length b ->
     BigIntVectorModAdd a b m = None /\ BigIntVectorModSub a b m = None /\
     BigIntVectorModProduct a b m = None /\ BigIntVectorProduct a b = None /\
     BigIntVectorModInnerProduct a b m = None) /\
  (length a = length b -> exists s d p u,
     BigIntVectorModAdd a b m = Some s /\ BigIntVectorModSub a b m = Some d /\
     BigIntVectorModProduct a b m = Some p /\ BigIntVectorProduct a b = Some u /\
     BigIntVectorModInnerProduct a b m = Some (dot a b mod m) /\
     length s = length a /\ length d = length a /\ length p = length a /\ length u = length a /\
     forall i, (i < length a)%nat ->
       nth i s 0 = (nth i a 0 + nth i b 0) mod m /\
       nth i d 0 = (nth i a 0 - nth i b 0) mod m /\
       nth i p 0 = (nth i a 0 * nth i b 0) mod m /\
       nth i u 0 = nth i a 0 * nth i b 0).
Proof.
  intros a b m H.
  unfold BigIntVectorModAdd, BigIntVectorModSub, BigIntVectorModProduct, BigIntVectorProduct,
    BigIntVectorModInnerProduct, same_size.
  destruct (Nat.eqb_spec (length a) (length b)) as [L|L]; split; intros L'; try contradiction; auto.
  do 4 eexists.
  split; [reflexivity|]. split; [reflexivity|]. split; [reflexivity|]. split; [reflexivity|].
  rewrite inner_acc_spec, Z.add_0_l, Mod_pos by exact H. split; [reflexivity|].
  rewrite !map2_length. split; [lia|]. split; [lia|]. split; [lia|]. split; [lia|].
  intros i I. rewrite !(map2_pointwise _ _ _ _ a b 0 0 0 i) by assumption.
  rewrite !Mod_pos by exact H. auto.
Qed.
Print Assumptions C20_vectors_pointwise.

Theorem C20_scalar_vectors_pointwise : forall a c m, 0 < m ->
  BigIntVectorModScalar a c m = map (fun x => (x * c) mod m) a /\
  BigIntVectorScalar a c = map (fun x => x * c) a /\
  BigIntVectorModNegate a m = map (fun x => ModNegate x m) a /\
  BigIntVectorModInverse a m = map (fun x => ModInverse x m) a.
Proof.
  intros a c m H. split; [|auto]. apply map_ext. intros x. apply Mod_pos. exact H.
Qed.
Print Assumptions C20_scalar_vectors_pointwise.

(** The power vector is (1, a, a^2, ...) modulo q; of length 0 it is an
    out-of-bounds write. *)
Theorem C20_power_vector : forall LEN a q, 1 < q ->
  GenBigIntPowerVector (S LEN) a q = Some (map (fun i => a ^ Z.of_nat i mod q) (seq 0 (S LEN))) /\
  GenBigIntPowerVector 0 a q = None.
Proof.
  intros LEN a q H. split; [|reflexivity]. unfold GenBigIntPowerVector.
  rewrite (power_loop_spec LEN a q 0) by (try lia; symmetry; apply Z.mod_1_l; exact H).
  cbn [seq map]. rewrite Z.pow_0_r, Z.mod_1_l by exact H. f_equal. f_equal.
  rewrite <- seq_shift, map_map. apply map_ext. intros i.
  rewrite Nat2Z.inj_succ, Z.add_0_l, Z.add_1_l. reflexivity.
Qed.
Print Assumptions C20_power_vector.

(** GetTheNthBit is the bit of the binary expansion. *)
Theorem C20_nth_bit : forall a j, 0 <= a ->
  GetTheNthBit a j = if Z.testbit a (Z.of_N j) then 1%N else 0%N.
Proof. exact GetTheNthBit_spec. Qed.
Print Assumptions C20_nth_bit.

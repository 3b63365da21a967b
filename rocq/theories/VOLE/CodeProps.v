(** C75: the expand-convolute code. *)
From Coq Require Import NArith ZArith List Bool Arith Lia.
From Coq Require Import ZifyBool ZifyNat ZifyN.
From Verif.Base Require Import Words ListX.
From Verif.Crypto Require Import BlockModel AESModel PRGModel PRGProofs.
From Verif.OT Require Import OTSpec OTProofs.
From Verif.OKVS Require Import GFModel GFProofs.
From Verif.VOLE Require Import CodeModel CodeProofs.
Import ListNotations.

(** C75, the single encoder.  For every configuration and vector size for which
    the 32-bit products of the code do not wrap ([sizes_ok]), every seed and all
    vectors: the encoder succeeds, with size / R results, and it is linear: it
    respects xor and multiplication by any field element. *)
Theorem C75_linear : forall c s x y k, (counter s < 2 ^ 64)%N -> sizes_ok c (length x) -> length x = length y ->
  exists X Y, dualEncode c s x = Some X /\ dualEncode c s y = Some Y /\
    length X = (length x / R c)%nat /\ length Y = (length x / R c)%nat /\
    dualEncode c s (map2 N.lxor x y) = Some (map2 N.lxor X Y) /\
    dualEncode c s (map (gf128_mul k) x) = Some (map (gf128_mul k) X).
Proof.
  intros c s x y k Hs HO L. destruct (code_total c s x Hs HO) as (X & EX & LX).
  assert (A1 : forall a b a' b', N.lxor (N.lxor a a') (N.lxor b b') = N.lxor (N.lxor a b) (N.lxor a' b'))
    by (intros; apply lxor4).
  pose proof (code_hom N.lxor A1 c s x y L) as H. rewrite EX in H. destruct H as (_ & Y & LY & EY & EXY).
  exists X, Y. split; [exact EX|]. split; [exact EY|]. split; [exact LX|]. split; [congruence|]. split; [exact EXY|].
  assert (A2 : forall a b a' b' : N, gf128_mul k (N.lxor a a') = N.lxor (gf128_mul k a) (gf128_mul k a'))
    by (intros; apply gf_add_r).
  pose proof (code_hom (fun a _ => gf128_mul k a) (fun a b a' b' => A2 a b a' b') c s x y L) as H.
  rewrite EX in H. destruct H as (_ & Y' & LY' & EY' & EK).
  assert (M : forall u v : list N, length u = length v -> map2 (fun a _ : N => gf128_mul k a) u v = map (gf128_mul k) u).
  { clear. induction u as [|a u IH]; intros [|b v] L; try discriminate; [reflexivity|]. cbn [map2 map length] in *.
    rewrite IH by lia. reflexivity. }
  rewrite !M in EK by congruence. exact EK.
Qed.
Print Assumptions C75_linear.

(** C75, two vectors at once: the same results, and the same undefined cases,
    as encoding each vector separately.  The vectors must be at least as long as
    the accumulator. *)
Theorem C75_pair_partial : forall c s x y, length x = length y -> (acc c <= length x)%nat -> (N.of_nat (length x) < 2 ^ 31)%N ->
  dualEncode2 c s x y =
  match dualEncode c s x, dualEncode c s y with Some X, Some Y => Some (X, Y) | _, _ => None end.
Proof.
  intros c s x y L Ha Hn. pose proof (code_pair c s x y L Ha Hn) as H.
  destruct (dualEncode c s x) as [X|]; [|exact H]. destruct H as (Y & -> & ->). reflexivity.
Qed.
Print Assumptions C75_pair_partial.

(** Refuted for shorter vectors: the number of iterations is computed as
    std::max<int64_t>(0, size - accumulatorSize) from uint32_t operands, so the
    loop runs past the end.  The single encoder handles the same vectors. *)
Theorem C75_pair_short_refuted : forall s x y, (counter s < 2 ^ 64)%N -> (length x < 24)%nat -> length x = length y ->
  dualEncode2 default_config s x y = None /\
  exists X Y, dualEncode default_config s x = Some X /\ dualEncode default_config s y = Some Y.
Proof.
  intros s x y Hs Hx L. split; [apply code2_small; [exact Hx|reflexivity]|].
  assert (HO : forall v : list N, (length v < 24)%nat -> sizes_ok default_config (length v)).
  { intros v Hv. unfold sizes_ok. cbn [R weight acc default_config].
    pose proof (Nat.div_le_upper_bound (length v) 2 (length v)). lia. }
  destruct (code_total default_config s x Hs (HO x Hx)) as (X & EX & _).
  destruct (code_total default_config s y Hs (HO y ltac:(lia))) as (Y & EY & _).
  exists X, Y. auto.
Qed.
Print Assumptions C75_pair_short_refuted.

Lemma row_used : forall n i j x rnd x' j' r', acc_row n i j x rnd = Some (x', j', r') -> length rnd = (n + length r')%nat.
Proof.
  induction n as [|n IH]; intros i j x rnd x' j' r' E; cbn [acc_row] in E.
  - injection E as <- <- <-. reflexivity.
  - destruct rnd as [|b rnd]; [discriminate|]. cbn [length]. destruct (b =? 1)%N.
    + destruct (_ && _); [|discriminate]. apply IH in E. lia.
    + apply IH in E. lia.
Qed.
Lemma main_used : forall n a i x rnd i' x' r', (1 <= a)%nat -> (N.of_nat a < 2 ^ 32)%N ->
  acc_main n a i x rnd = Some (i', x', r') -> length rnd = (n * (a - 1) + length r')%nat.
Proof.
  induction n as [|n IH]; intros a i x rnd i' x' r' H1 H2 E; cbn [acc_main] in E.
  - injection E as <- <- <-. reflexivity.
  - rewrite acc_pred in E by assumption.
    destruct (acc_row (a - 1) i (S i) x rnd) as [[[x0 j] r0]|] eqn:ER; [|discriminate].
    apply row_used in ER. destruct (_ && _); [|discriminate].
    apply IH in E; [|assumption|assumption]. cbn [Nat.mul]. rewrite ER, E. apply Nat.add_assoc.
Qed.

(** Refuted for long vectors: from 2^32 / 24 elements on (178956971 of them) the
    number size * accumulatorSize of random bits wraps in uint32_t, and the
    encoder reads past the end of the random bits. *)
Theorem C75_long_refuted : forall s x, (counter s < 2 ^ 64)%N ->
  (2 ^ 32 <= N.of_nat (length x) * 24)%N -> (N.of_nat (length x) < 2 ^ 31)%N ->
  dualEncode default_config s x = None.
Proof.
  intros s x Hs H1 H2. unfold dualEncode. cbn [R default_config Nat.eqb]. cbn [orb].
  destruct (2 ^ 32 <=? N.of_nat (length x))%N; [reflexivity|]. unfold accumulate. cbn [acc default_config].
  rewrite main32 by (exact H2 || (apply N.leb_le; reflexivity)).
  pose proof (random_bits s (mul32 (length x) 24) Hs) as [LR _].
  destruct (GenRandomBits s (mul32 (length x) 24)) as [rnd s']. cbn [fst] in LR.
  destruct (acc_main (length x - 24) 24 0 x rnd) as [[[i x'] r']|] eqn:E; [|reflexivity]. exfalso.
  apply main_used in E; [|lia|reflexivity].
  assert (M : (N.of_nat (mul32 (length x) 24) = (N.of_nat (length x) * 24) mod 2 ^ 32)%N).
  { unfold mul32, wrap32, wrap. rewrite N2Nat.id. reflexivity. }
  pose proof (N.div_mod (N.of_nat (length x) * 24) (2 ^ 32) ltac:(discriminate)) as D.
  assert (Q : (1 <= N.of_nat (length x) * 24 / 2 ^ 32)%N) by (apply N.div_le_lower_bound; [discriminate|lia]).
  rewrite <- M in D. rewrite LR in E. lia.
Qed.
Print Assumptions C75_long_refuted.

(** The hypotheses are met, e.g. by 48 blocks. A run with a smaller code: different results. *)
Definition example_vector : list N := map (fun i => N.of_nat (i * i + 1)) (seq 0 48).
Example C75_hypotheses : sizes_ok default_config (length example_vector).
Proof. unfold sizes_ok. vm_compute. repeat split; try discriminate; repeat constructor. Qed.
Example C75_run :
  match dualEncode (mkConfig 2 3 4) (SetSeed 0 (Some 5%N) 0) (firstn 8 example_vector) with
  | Some X => (length X =? 4)%nat && negb (nth 0 X 0 =? nth 1 X 0)%N
  | None => false
  end = true.
Proof. vm_compute. reflexivity. Qed.

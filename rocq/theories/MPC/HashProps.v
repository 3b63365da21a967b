(** C84: hashing a block to a point of the curve. *)
From Coq Require Import NArith ZArith List Bool Lia.
From Coq Require Import ZifyBool ZifyNat ZifyN.
From Verif.Base Require Import Words ListX.
From Verif.Crypto Require Import BlockModel AESModel AESProofs AESKeyProofs AESProps PRGModel PRGProofs.
From Verif.Group Require Import ECModel ECProofs ZqGroup.
From Verif.PKE Require Import DlogProps.
From Verif.MPC Require Import HashModel.
Import ListNotations.
Local Open Scope N_scope.

Definition bounded (b : N * N) : Prop := fst b < 2 ^ 128 /\ snd b < 2 ^ 128.
(** the buffer after i rounds of the public 32-byte hash *)
Fixpoint rounds (i : nat) (b : N * N) : N * N :=
  match i with O => b | S i' => rounds i' (Dedicated_CBCAES b) end.

Lemma ded_bounded : forall b, bounded b -> bounded (Dedicated_CBCAES b).
Proof.
  intros [a b] [Ba Bb]. cbn [fst snd] in *. unfold Dedicated_CBCAES. cbn [fst snd cbc_enc_from]. split; cbn [fst snd].
  - apply Enc_blk, fixed_ok.
  - apply Enc_blk, fixed_ok.
Qed.
Lemma ded_inj : forall a b, bounded a -> bounded b -> Dedicated_CBCAES a = Dedicated_CBCAES b -> a = b.
Proof.
  intros a b [A1 A2] [B1 B2] E. rewrite <- (C77_dedicated_hash_invertible_refuted a A1 A2), <- (C77_dedicated_hash_invertible_refuted b B1 B2), E. reflexivity.
Qed.
Lemma rounds_inj : forall i a b, bounded a -> bounded b -> rounds i a = rounds i b -> a = b.
Proof.
  induction i as [|i IH]; intros a b A B E; [exact E|]. cbn [rounds] in E.
  apply ded_inj; auto. apply IH; auto using ded_bounded.
Qed.
Lemma rounds_bounded : forall i a, bounded a -> bounded (rounds i a).
Proof. induction i as [|i IH]; intros a A; [exact A|]. cbn [rounds]. apply IH, ded_bounded, A. Qed.
Lemma octets_inj : forall a b, bounded a -> bounded b -> octets a = octets b -> a = b.
Proof.
  intros [a1 a2] [b1 b2] [A1 A2] [B1 B2] E. unfold octets in E. cbn [fst snd] in *.
  assert (E1 := f_equal (firstn 16) E). assert (E2 := f_equal (skipn 16) E).
  rewrite !firstn_app_exact' in E1 by (rewrite le_bytes_length; reflexivity). rewrite !skipn_app_exact' in E2 by (rewrite le_bytes_length; reflexivity).
  apply (f_equal le_val) in E1. apply (f_equal le_val) in E2.
  rewrite !le_val_bytes in E1, E2 by assumption. congruence.
Qed.

Local Opaque Dedicated_CBCAES le_bytes.
Section C84.
Variable G : ECGroup.
Variable set_compressed : list N -> N -> option (pt G).
Local Notation ToPoint := (BlockToECPoint G set_compressed).
(** the y bit of a block, and the octets its i-th attempt uses as x coordinate (i = 0, 1, ...) *)
Definition y_of (var : N) : N := N.land 1 (nth 0 (octets (Dedicated_CBCAES (var, 0))) 0).
Definition x_of (i : nat) (var : N) : list N := octets (rounds (1 + i) (Dedicated_CBCAES (var, 0))).

Lemma loop_spec : forall fuel b y P, point_loop G set_compressed fuel b y = Some P <->
  exists i, (i < fuel)%nat /\ set_compressed (octets (rounds (1 + i) b)) y = Some P /\
            forall j, (j < i)%nat -> set_compressed (octets (rounds (1 + j) b)) y = None.
Proof.
  induction fuel as [|f IH]; intros b y P; cbn [point_loop].
  - split; [discriminate|]. intros [i [Hi _]]. lia.
  - destruct (set_compressed (octets (Dedicated_CBCAES b)) y) as [Q|] eqn:E.
    + split.
      * intros [= <-]. exists 0%nat. split; [lia|]. split; [exact E|]. intros j Hj. lia.
      * intros [i [Hi [Hs Hn]]]. destruct i as [|i]; [cbn [Nat.add rounds] in Hs; congruence|].
        specialize (Hn 0%nat ltac:(lia)). cbn [Nat.add rounds] in Hn. congruence.
    + rewrite IH. split; intros [i [Hi [Hs Hn]]].
      * exists (S i). split; [lia|]. split; [exact Hs|]. intros j Hj. destruct j as [|j]; [exact E|]. apply (Hn j). lia.
      * destruct i as [|i]; [cbn [Nat.add rounds] in Hs; congruence|]. exists i. split; [lia|]. split; [exact Hs|].
        intros j Hj. apply (Hn (S j)). lia.
Qed.

(** C84.  The point is the one of the first attempt that gives a point of the curve: it does not
    depend on anything but the block, and when it exists every larger number of iterations gives it. *)
Theorem C84_first_valid_attempt : forall fuel var P, ToPoint fuel var = Some P <->
  exists i, (i < fuel)%nat /\ set_compressed (x_of i var) (y_of var) = Some P /\
            forall j, (j < i)%nat -> set_compressed (x_of j var) (y_of var) = None.
Proof. intros fuel var P. exact (loop_spec fuel (Dedicated_CBCAES (var, 0)) (y_of var) P). Qed.
Theorem C84_one_value : forall fuel fuel' var P Q, ToPoint fuel var = Some P -> ToPoint fuel' var = Some Q -> P = Q.
Proof.
  intros fuel fuel' var P Q E1 E2. apply C84_first_valid_attempt in E1. apply C84_first_valid_attempt in E2.
  destruct E1 as [i [_ [S1 N1]]]. destruct E2 as [j [_ [S2 N2]]].
  destruct (Nat.lt_trichotomy i j) as [L|[L|L]].
  - rewrite (N2 i L) in S1. discriminate.
  - subst j. congruence.
  - rewrite (N1 j L) in S2. discriminate.
Qed.
(** C84.  Different blocks that are accepted at the same attempt use different x coordinates; so a
    collision needs two blocks accepted at different attempts. *)
Theorem C84_same_attempt_injective_partial : forall i a b, a < 2 ^ 128 -> b < 2 ^ 128 -> x_of i a = x_of i b -> a = b.
Proof.
  intros i a b A B E. unfold x_of in E.
  assert (Ba : bounded (a, 0)) by (split; cbn [fst snd]; [exact A|reflexivity]).
  assert (Bb : bounded (b, 0)) by (split; cbn [fst snd]; [exact B|reflexivity]).
  apply octets_inj in E; auto using rounds_bounded, ded_bounded. apply rounds_inj in E; auto using ded_bounded. apply ded_inj in E; auto. congruence.
Qed.

(** C84.  The hash is not one-way: whenever the first attempt is a point of the curve (half of the time)
    the block is read off its x coordinate with the public fixed key, and the lower 16 octets of that x
    coordinate are the same for every block. *)
Definition dk0 : Key := GenDecKey (repeat 0 11) zero_block.
Definition read_off (x : list N) : N := Dec dk0 (Dec dk0 (le_val (firstn 16 x))).
Local Transparent Dedicated_CBCAES.
Lemma first_x : forall var, x_of 0 var = le_bytes 16 (Enc fixed_enc_key (Enc fixed_enc_key var)) ++ le_bytes 16 (Enc fixed_enc_key 0).
Proof.
  intros var. unfold x_of, octets. cbn [Nat.add rounds]. unfold Dedicated_CBCAES. cbn [fst snd cbc_enc_from].
  change IV with 0. rewrite !N.lxor_0_r, !N.lxor_0_l, N.lxor_nilpotent. reflexivity.
Qed.
Local Opaque Dedicated_CBCAES.
Theorem C84_first_attempt_invertible_refuted : forall var, var < 2 ^ 128 ->
  read_off (x_of 0 var) = var /\ skipn 16 (x_of 0 var) = le_bytes 16 (Enc fixed_enc_key 0).
Proof.
  intros var B. rewrite first_x. unfold read_off.
  rewrite firstn_app_exact', skipn_app_exact' by (rewrite le_bytes_length; reflexivity).
  assert (R : forall d, blk d -> Dec dk0 (Enc fixed_enc_key d) = d)
    by (intros d Bd; exact (proj1 (C13_aes_round_trip (repeat 0 11) zero_block d eq_refl eq_refl Bd))).
  assert (Bx : forall d, blk (Enc fixed_enc_key d)) by (intros d; apply Enc_blk, fixed_ok).
  rewrite le_val_bytes by exact (Bx (Enc fixed_enc_key var)). rewrite R by apply Bx. rewrite R by exact B. split; reflexivity.
Qed.

(** C84.  Injectivity is a matter of the curve: the two constants below are different blocks with the same
    y bit, and every attempt of the second is the attempt three places later of the first; on any
    curve that rejects the first three attempts of the first block they hash to the same point.
    (prime256v1 accepts the first attempt of [block_x], so this pair does not collide there.) *)
Definition block_y : N := N.lxor (Enc fixed_enc_key 0) (Dec dk0 0).
Definition block_x : N := Dec dk0 (Dec dk0 (Dec dk0 block_y)).
Lemma rounds_S : forall i b, rounds (S i) b = rounds i (Dedicated_CBCAES b).
Proof. reflexivity. Qed.
Lemma rounds_add : forall i j b, rounds (i + j) b = rounds j (rounds i b).
Proof. induction i as [|i IH]; intros j b; [reflexivity|]. cbn [Nat.add rounds]. apply IH. Qed.
Lemma shifted : forall bx by', rounds 3 (bx, 0) = (by', 0) -> forall i, x_of (3 + i) bx = x_of i by'.
Proof.
  intros bx by' R i. unfold x_of. apply (f_equal octets).
  rewrite <- !rounds_S. replace (S (1 + (3 + i)))%nat with (3 + S (1 + i))%nat by lia. rewrite rounds_add, R. reflexivity.
Qed.
Lemma pair_check : forall bx by', (bx <? 2 ^ 128) && (by' <? 2 ^ 128) && negb (bx =? by') && (y_of bx =? y_of by') = true ->
  rounds 3 (bx, 0) = (by', 0) -> bx <> by' /\ bx < 2 ^ 128 /\ by' < 2 ^ 128 /\
  y_of bx = y_of by' /\ (forall i, x_of (3 + i) bx = x_of i by') /\
  ((forall i, (i < 3)%nat -> set_compressed (x_of i bx) (y_of bx) = None) ->
   forall fuel P, ToPoint fuel by' = Some P -> ToPoint (3 + fuel) bx = Some P).
Proof.
  intros bx by' B R. assert (S := shifted bx by' R). rewrite !andb_true_iff, negb_true_iff in B. destruct B as [[[B1 B2] B3] B4].
  apply N.ltb_lt in B1. apply N.ltb_lt in B2. apply N.eqb_neq in B3. apply N.eqb_eq in B4.
  do 5 (split; [assumption|]). intros Hn fuel P E. apply C84_first_valid_attempt in E. apply C84_first_valid_attempt.
  destruct E as [i [Hi [Hs Hr]]]. exists (3 + i)%nat. split; [lia|]. rewrite S, B4. split; [exact Hs|].
  intros j Hj. destruct (Nat.lt_ge_cases j 3) as [L|L]; [rewrite <- B4; apply Hn, L|].
  replace j with (3 + (j - 3))%nat by lia. rewrite S. apply Hr. lia.
Qed.
Theorem C84_shifted_pair : block_x <> block_y /\ block_x < 2 ^ 128 /\ block_y < 2 ^ 128 /\
  y_of block_x = y_of block_y /\ (forall i, x_of (3 + i) block_x = x_of i block_y) /\
  ((forall i, (i < 3)%nat -> set_compressed (x_of i block_x) (y_of block_x) = None) ->
   forall fuel P, ToPoint fuel block_y = Some P -> ToPoint (3 + fuel) block_x = Some P).
Proof. apply pair_check; vm_compute; reflexivity. Qed.
End C84.

(** A concrete case: in the group of integers modulo 4099, with the curve accepting an x coordinate whose
    first octet is even, the block 5 is accepted after some attempts, and the hypotheses of the
    theorems hold for it. *)
Definition toy_set (x : list N) (y : N) : option (pt G4099) :=
  if N.even (nth 0 x 0) then Some (pmul G4099 (pgen G4099) (Z.of_N (1 + y + 2 * nth 1 x 0))) else None.
Example C84_example : exists P, BlockToECPoint G4099 toy_set 10 5 = Some P /\ x_of 1 5 <> x_of 1 6.
Proof.
  assert (X : match BlockToECPoint G4099 toy_set 10 5 with Some P => true | None => false end = true) by (vm_compute; reflexivity).
  destruct (BlockToECPoint G4099 toy_set 10 5) as [P|]; [|discriminate]. exists P. split; [reflexivity|].
  intros E. exact (N.lt_neq 5 6 eq_refl (C84_same_attempt_injective_partial 1 5 6 eq_refl eq_refl E)).
Qed.
Print Assumptions C84_first_valid_attempt.
Print Assumptions C84_one_value.
Print Assumptions C84_same_attempt_injective_partial.
Print Assumptions C84_first_attempt_invertible_refuted.
Print Assumptions C84_shifted_pair.

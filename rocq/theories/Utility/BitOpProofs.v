From Coq Require Import NArith ZArith Bool Lia List.
From Coq Require Import ZifyBool ZifyNat ZifyN.
From Verif.Base Require Import Words.
From Verif.Utility Require Import BitOpModel.
Local Open Scope N_scope.

(** ** upperpower2 *)
(** [smear y n]: bit i of the result is set iff one of bits i .. i+n-1 of y is. *)
Definition smeared (y z n : N) : Prop :=
  forall i, N.testbit z i = true <-> exists j, i <= j < i + n /\ N.testbit y j = true.

Lemma smear_init : forall y, smeared y y 1.
Proof.
  intros y i. split.
  - intros H. exists i. split; [lia|auto].
  - intros (j & Hj & H). assert (j = i) by lia. subst. auto.
Qed.

Lemma smear_step : forall y z n s, s <= n -> smeared y z n ->
  smeared y (N.lor z (N.shiftr z s)) (n + s).
Proof.
  intros y z n s Hs H i. rewrite N.lor_spec, N.shiftr_spec', orb_true_iff.
  rewrite (H i), (H (i + s)). split.
  - intros [(j & Hj & B)|(j & Hj & B)]; exists j; split; auto; lia.
  - intros (j & Hj & B). destruct (N.lt_ge_cases j (i + n)).
    + left. exists j. split; auto; lia.
    + right. exists j. split; auto; lia.
Qed.

Lemma size_top : forall y j, N.testbit y j = true -> j < N.size y.
Proof.
  intros y j H. destruct (N.lt_ge_cases j (N.size y)); auto.
  rewrite (testbit_bounded (N.size y) y j) in H; auto; [discriminate|].
  apply N.size_gt.
Qed.

Lemma smeared_ones : forall y z n, N.size y <= n -> smeared y z n -> z = N.ones (N.size y).
Proof.
  intros y z n Hn H. apply N.bits_inj. intros i.
  destruct (N.lt_ge_cases i (N.size y)).
  - rewrite N.ones_spec_low by auto. apply H.
    destruct (N.eq_dec y 0) as [->|Hy]; [simpl in *; lia|].
    exists (N.log2 y). rewrite N.size_log2 in * by auto. split; [lia|].
    apply N.bit_log2; auto.
  - rewrite N.ones_spec_high by auto.
    apply not_true_is_false. intros B. apply H in B. destruct B as (j & Hj & B).
    apply size_top in B. lia.
Qed.

Lemma upperpower2_ones : forall x, 1 <= x <= 2 ^ 32 - 1 ->
  upperpower2 x = wrap32 (2 ^ N.size (x - 1)).
Proof.
  intros x Hx. unfold upperpower2, shr32.
  assert (E : sub32 x 1 = x - 1).
  { unfold sub32, wrap32. rewrite (wrap_small 32 1) by reflexivity.
    unfold wrap. replace (x + (2 ^ 32 - 1)) with ((x - 1) + 1 * 2 ^ 32) by lia.
    rewrite N.mod_add by discriminate. apply N.mod_small. lia. }
  rewrite E. cbv zeta.
  set (y := x - 1).
  pose proof (smear_init y) as S0.
  apply (smear_step _ _ _ 1) in S0; [|lia].
  apply (smear_step _ _ _ 2) in S0; [|lia].
  apply (smear_step _ _ _ 4) in S0; [|lia].
  apply (smear_step _ _ _ 8) in S0; [|lia].
  apply (smear_step _ _ _ 16) in S0; [|lia].
  apply smeared_ones in S0.
  2:{ destruct (N.eq_dec y 0) as [->|Hy]; [simpl; lia|].
      rewrite N.size_log2 by auto.
      assert (N.log2 y < 32) by (apply N.log2_lt_pow2; lia). lia. }
  rewrite S0. unfold add32. rewrite N.ones_equiv. f_equal.
  pose proof (N.pow_nonzero 2 (N.size y)). lia.
Qed.

(** least power of two >= x *)
Lemma upperpower2_spec : forall x, 1 <= x <= 2 ^ 31 ->
  exists k, upperpower2 x = 2 ^ k /\ x <= 2 ^ k /\ forall j, x <= 2 ^ j -> k <= j.
Proof.
  intros x Hx. exists (N.size (x - 1)).
  assert (L : N.size (x - 1) <= 31).
  { destruct (N.eq_dec (x - 1) 0) as [->|Hy]; [simpl; lia|].
    rewrite N.size_log2 by auto.
    assert (N.log2 (x - 1) < 31) by (apply N.log2_lt_pow2; lia). lia. }
  split; [|split].
  - rewrite upperpower2_ones by lia. apply wrap_small.
    apply N.pow_lt_mono_r; lia.
  - pose proof (N.size_gt (x - 1)). lia.
  - intros j Hj. destruct (N.eq_dec (x - 1) 0) as [E|Hy]; [rewrite E; simpl; lia|].
    rewrite N.size_log2 by auto.
    assert (N.log2 (x - 1) < j) by (apply N.log2_lt_pow2; lia). lia.
Qed.

Lemma upperpower2_overflow : forall x, x = 0 \/ 2 ^ 31 < x < 2 ^ 32 -> upperpower2 x = 0.
Proof.
  intros x [->|Hx]; [reflexivity|].
  rewrite upperpower2_ones by lia.
  assert (N.size (x - 1) = 32) as ->; [|reflexivity].
  rewrite N.size_log2 by lia.
  assert (N.log2 (x - 1) = 31); [|lia].
  apply N.log2_unique; [lia|]. change (2 ^ N.succ 31) with (2 ^ 32). lia.
Qed.

(** ** IsPowerOfTwo *)
Lemma land_pred_pow2 : forall k, N.land (2 ^ k) (2 ^ k - 1) = 0.
Proof.
  intros k. apply N.bits_inj. intros i. rewrite N.land_spec, N.bits_0, N.pow2_bits_eqb.
  rewrite N.sub_1_r, <- N.ones_equiv.
  destruct (N.eqb_spec k i); auto. subst. rewrite N.ones_spec_high; auto. lia.
Qed.

Lemma land_pred_zero : forall x, x <> 0 -> N.land x (x - 1) = 0 -> x = 2 ^ N.log2 x.
Proof.
  intros x Hx H.
  set (k := N.log2 x).
  destruct (N.log2_spec x) as [L U]; [lia|]. fold k in L, U.
  destruct (N.eq_dec x (2 ^ k)); auto. exfalso.
  assert (N.log2 (x - 1) = k).
  { apply N.log2_unique; [lia|]. lia. }
  assert (B : N.testbit (N.land x (x - 1)) k = true).
  { rewrite N.land_spec. unfold k at 1. rewrite N.bit_log2 by auto.
    rewrite <- H0. rewrite N.bit_log2; auto. intros E. rewrite E in H0. simpl in H0.
    assert (x = 1) by lia. subst x. unfold k in n. simpl in n. lia. }
  rewrite H, N.bits_0 in B. discriminate.
Qed.

Lemma IsPowerOfTwo_spec : forall x, x < 2 ^ 64 ->
  (IsPowerOfTwo x = true <-> exists k, x = 2 ^ k).
Proof.
  intros x Hx. unfold IsPowerOfTwo.
  destruct (N.eqb_spec x 0) as [->|Hn].
  - simpl. split; [discriminate|]. intros (k & E). exfalso.
    apply (N.pow_nonzero 2 k); auto. discriminate.
  - simpl negb. rewrite andb_true_l, N.eqb_eq.
    assert (E : sub64 x 1 = x - 1).
    { unfold sub64, wrap64. rewrite (wrap_small 64 1) by reflexivity.
      unfold wrap. replace (x + (2 ^ 64 - 1)) with ((x - 1) + 1 * 2 ^ 64) by lia.
      rewrite N.mod_add by discriminate. apply N.mod_small. lia. }
    rewrite E. split.
    + intros H. exists (N.log2 x). apply land_pred_zero; auto.
    + intros (k & ->). apply land_pred_pow2.
Qed.

(** ** haszero16 *)
(** a 64-bit word made of four 16-bit lanes, lane 0 least significant *)
Definition lanes4 (a b c d : N) : N := a + 2 ^ 16 * (b + 2 ^ 16 * (c + 2 ^ 16 * d)).

Lemma testbit_at : forall x i, N.testbit x i = N.odd (x / 2 ^ i).
Proof. intros. rewrite N.testbit_odd, N.shiftr_div_pow2. reflexivity. Qed.

Lemma mask8000_bits : forall y,
  N.land y 0x8000800080008000 = 0 <->
  N.testbit y 15 = false /\ N.testbit y 31 = false /\ N.testbit y 47 = false /\ N.testbit y 63 = false.
Proof.
  intros y. split.
  - intros H.
    assert (forall i, N.testbit 0x8000800080008000 i = true -> N.testbit y i = false) as A.
    { intros i Hi. assert (N.testbit (N.land y 0x8000800080008000) i = false) by (rewrite H; apply N.bits_0).
      rewrite N.land_spec, Hi, andb_true_r in H0. auto. }
    repeat split; apply A; reflexivity.
  - intros (H1 & H2 & H3 & H4). apply N.bits_inj. intros i. rewrite N.bits_0, N.land_spec.
    destruct (N.testbit 0x8000800080008000 i) eqn:E; [|apply andb_false_r].
    rewrite andb_true_r.
    assert (i < 64).
    { destruct (N.lt_ge_cases i 64); auto. rewrite (testbit_bounded 64) in E; auto; [discriminate|reflexivity]. }
    assert (i = 15 \/ i = 31 \/ i = 47 \/ i = 63) as D; [|intuition subst; auto].
    assert (F : forallb (fun k => implb (N.testbit 0x8000800080008000 (N.of_nat k))
               ((k =? 15) || (k =? 31) || (k =? 47) || (k =? 63))%nat) (List.seq 0 64) = true)
      by (vm_compute; reflexivity).
    rewrite List.forallb_forall in F. specialize (F (N.to_nat i)).
    rewrite N2Nat.id, E in F. simpl implb in F.
    assert (((N.to_nat i =? 15) || (N.to_nat i =? 31) || (N.to_nat i =? 47) || (N.to_nat i =? 63))%nat = true)
      by (apply F, List.in_seq; lia).
    lia.
Qed.

Lemma not64_bit : forall x i, i < 64 -> N.testbit (not64 x) i = negb (N.testbit x i).
Proof.
  intros. unfold not64. rewrite N.lxor_spec.
  change (2 ^ 64 - 1) with (N.ones 64). rewrite N.ones_spec_low by auto.
  destruct (N.testbit x i); reflexivity.
Qed.

Lemma odd_div_small : forall n q, 2 ^ q <= n < 2 * 2 ^ q -> N.odd (n / 2 ^ q) = true.
Proof.
  intros. replace (n / 2 ^ q) with 1; [reflexivity|].
  apply (N.div_unique n (2 ^ q) 1 (n - 2 ^ q)); lia.
Qed.

(** bit 16k+15 of a word whose low 16k bits are r, lane k is l and the rest is h *)
Lemma lane_bit : forall k r l h, r < 2 ^ (16 * k) -> l < 2 ^ 16 ->
  N.testbit (r + 2 ^ (16 * k) * (l + 2 ^ 16 * h)) (16 * k + 15) = (2 ^ 15 <=? l).
Proof.
  intros k r l h Hr Hl. rewrite testbit_at, N.pow_add_r, <- N.div_div by (apply N.pow_nonzero; discriminate).
  replace ((r + 2 ^ (16 * k) * (l + 2 ^ 16 * h)) / 2 ^ (16 * k)) with (l + 2 ^ 16 * h).
  2:{ apply (N.div_unique _ _ _ r); lia. }
  replace (l + 2 ^ 16 * h) with (l + (2 * h) * 2 ^ 15) by lia.
  rewrite N.div_add by discriminate.
  rewrite N.odd_add_mul_2.
  destruct (N.leb_spec (2 ^ 15) l).
  - apply odd_div_small. lia.
  - rewrite N.div_small; auto.
Qed.

Definition K16 : N := 0x0001000100010001.

Lemma sub64_K : forall x, x < 2 ^ 64 -> exists t, sub64 x K16 + K16 = x + 2 ^ 64 * t /\ sub64 x K16 < 2 ^ 64.
Proof.
  intros x Hx. unfold sub64. change (wrap64 K16) with K16. unfold wrap64.
  pose proof (wrap_lt 64 (x + (2 ^ 64 - K16))) as L.
  exists (1 - (x + (2 ^ 64 - K16)) / 2 ^ 64).
  split; [|exact L]. unfold wrap in *.
  pose proof (N.div_mod' (x + (2 ^ 64 - K16)) (2 ^ 64)) as D.
  assert ((x + (2 ^ 64 - K16)) / 2 ^ 64 <= 1).
  { assert ((x + (2 ^ 64 - K16)) / 2 ^ 64 < 2); [|lia].
    apply N.div_lt_upper_bound; [discriminate|]. unfold K16. lia. }
  set (q := (x + (2 ^ 64 - K16)) / 2 ^ 64) in *.
  set (m := (x + (2 ^ 64 - K16)) mod 2 ^ 64) in *.
  assert (K16 < 2 ^ 64) by reflexivity.
  assert (q = 0 \/ q = 1) as [Eq|Eq] by lia; rewrite Eq in *; lia.
Qed.

Lemma land3_bit : forall a b i, N.testbit (N.land a b) i = N.testbit a i && N.testbit b i.
Proof. intros. apply N.land_spec. Qed.

Ltac lane k r l h :=
  let E := fresh in
  pose proof (lane_bit k r l h) as E; 
  cbn [N.mul N.add Pos.mul Pos.add Pos.succ] in E.

Lemma lanes_bits : forall a b c d, a < 2^16 -> b < 2^16 -> c < 2^16 -> d < 2^16 ->
  N.testbit (lanes4 a b c d) 15 = (2^15 <=? a) /\
  N.testbit (lanes4 a b c d) 31 = (2^15 <=? b) /\
  N.testbit (lanes4 a b c d) 47 = (2^15 <=? c) /\
  N.testbit (lanes4 a b c d) 63 = (2^15 <=? d).
Proof.
  intros. unfold lanes4. repeat split.
  - rewrite <- (lane_bit 0 0 a (b + 2^16 * (c + 2^16 * d))) by (auto; lia).
    f_equal. change (2 ^ (16*0)) with 1. lia.
  - rewrite <- (lane_bit 1 a b (c + 2^16 * d)) by auto. f_equal.
  - rewrite <- (lane_bit 2 (a + 2^16 * b) c d) by (auto; change (2^(16*2)) with (2^16*2^16); nia).
    f_equal. change (2 ^ (16*2)) with (2^16*2^16). lia.
  - rewrite <- (lane_bit 3 (a + 2^16 * (b + 2^16 * c)) d 0)
      by (auto; change (2^(16*3)) with (2^16*2^16*2^16); nia).
    f_equal. change (2 ^ (16*3)) with (2^16*2^16*2^16). lia.
Qed.

Lemma lanes4_split : forall x, x < 2 ^ 64 ->
  exists a b c d, x = lanes4 a b c d /\ a < 2^16 /\ b < 2^16 /\ c < 2^16 /\ d < 2^16.
Proof.
  intros x Hx.
  exists (x mod 2^16), ((x / 2^16) mod 2^16), ((x / 2^16 / 2^16) mod 2^16), (x / 2^16 / 2^16 / 2^16).
  assert (x / 2^16 / 2^16 / 2^16 < 2^16).
  { rewrite !N.div_div by discriminate. apply N.div_lt_upper_bound; [discriminate|]. exact Hx. }
  repeat split; try (apply N.mod_lt; discriminate); auto.
  unfold lanes4.
  pose proof (N.div_mod' x (2^16)). pose proof (N.div_mod' (x / 2^16) (2^16)).
  pose proof (N.div_mod' (x / 2^16 / 2^16) (2^16)).
  lia.
Qed.

Lemma haszero16_bit : forall a b c d, a < 2^16 -> b < 2^16 -> c < 2^16 -> d < 2^16 ->
  (haszero16 (lanes4 a b c d) <> 0 <-> a = 0 \/ b = 0 \/ c = 0 \/ d = 0).
Proof.
  intros a b c d Ha Hb Hc Hd.
  assert (Hx : lanes4 a b c d < 2 ^ 64) by (unfold lanes4; lia).
  destruct (sub64_K _ Hx) as (t & Et & Lt).
  destruct (lanes4_split _ Lt) as (a' & b' & c' & d' & Es & Ha' & Hb' & Hc' & Hd').
  destruct (lanes_bits a b c d Ha Hb Hc Hd) as (B1 & B2 & B3 & B4).
  destruct (lanes_bits a' b' c' d' Ha' Hb' Hc' Hd') as (B1' & B2' & B3' & B4').
  unfold haszero16. rewrite mask8000_bits, !N.land_spec, !not64_bit by reflexivity.
  change 0x1000100010001 with K16. rewrite Es, B1, B2, B3, B4, B1', B2', B3', B4'.
  rewrite Es in Et. unfold lanes4, K16 in Et. change (0x1000100010001) with (1 + 2^16 * (1 + 2^16 * (1 + 2^16))) in Et.
  clear B1 B2 B3 B4 B1' B2' B3' B4' Es Lt Hx.
  assert (A0 : (a = 0 /\ a' = 2^16 - 1) \/ (a <> 0 /\ a' = a - 1)).
  { assert (exists q, a' + 1 + 2^16 * q = a + 2^16 * (b + 2 ^ 16 * (c + 2 ^ 16 * d) + 2^48 * t)) as (q & Eq).
    { exists (b' + 2 ^ 16 * (c' + 2 ^ 16 * d') + (1 + 2^16 * (1 + 2^16))). lia. }
    lia. }
  assert (A1 : a <> 0 -> (b = 0 /\ b' = 2^16 - 1) \/ (b <> 0 /\ b' = b - 1)).
  { intros. assert (a' = a - 1) by lia. subst a'.
    assert (b' + 1 + 2^16 * (c' + 1 + 2^16 * (d' + 1)) = b + 2^16 * (c + 2^16 * d) + 2^48 * t) by lia. lia. }
  assert (A2 : a <> 0 -> b <> 0 -> (c = 0 /\ c' = 2^16 - 1) \/ (c <> 0 /\ c' = c - 1)).
  { intros. assert (a' = a - 1) by lia. assert (b' = b - 1) by lia. subst a' b'.
    assert (c' + 1 + 2^16 * (d' + 1) = c + 2^16 * d + 2^32 * t) by lia. lia. }
  assert (A3 : a <> 0 -> b <> 0 -> c <> 0 -> (d = 0 /\ d' = 2^16 - 1) \/ (d <> 0 /\ d' = d - 1)).
  { intros. assert (a' = a - 1) by lia. assert (b' = b - 1) by lia. assert (c' = c - 1) by lia. subst a' b' c'.
    assert (d' + 1 = d + 2^16 * t) by lia. lia. }
  clear Et. split.
  - intros NZ.
    destruct (N.eq_dec a 0); [tauto|]. destruct (N.eq_dec b 0); [tauto|].
    destruct (N.eq_dec c 0); [tauto|]. destruct (N.eq_dec d 0); [tauto|].
    exfalso. apply NZ. specialize (A1 n). specialize (A2 n n0). specialize (A3 n n0 n1).
    repeat split; lia.
  - intros Z NZ. destruct NZ as (N1 & N2 & N3 & N4).
    destruct (N.eq_dec a 0); [lia|]. specialize (A1 n).
    destruct (N.eq_dec b 0); [lia|]. specialize (A2 n n0).
    destruct (N.eq_dec c 0); [lia|]. specialize (A3 n n0 n1).
    destruct (N.eq_dec d 0); [lia|]. tauto.
Qed.

Lemma lxor_split : forall a b x y, a < 2^16 -> b < 2^16 ->
  N.lxor (a + 2^16 * x) (b + 2^16 * y) = N.lxor a b + 2^16 * N.lxor x y.
Proof.
  intros a b x y Ha Hb.
  assert (P : forall u v, u < 2^16 -> u + 2^16 * v = N.lor u (N.shiftl v 16)).
  { intros u v Hu. rewrite N.shiftl_mul_pow2, (N.mul_comm (2^16)).
    rewrite N.add_nocarry_lxor. 
    - rewrite <- N.lxor_lor; auto. apply N.bits_inj. intros i. rewrite N.land_spec, N.bits_0.
      rewrite <- N.shiftl_mul_pow2. destruct (N.lt_ge_cases i 16).
      + rewrite N.shiftl_spec_low by auto. apply andb_false_r.
      + rewrite (testbit_bounded 16 u) by auto. auto.
    - apply N.bits_inj. intros i. rewrite N.land_spec, N.bits_0.
      rewrite <- N.shiftl_mul_pow2. destruct (N.lt_ge_cases i 16).
      + rewrite N.shiftl_spec_low by auto. apply andb_false_r.
      + rewrite (testbit_bounded 16 u) by auto. auto. }
  rewrite !P; auto using lxor_lt.
  apply N.bits_inj. intros i. rewrite N.lxor_spec, !N.lor_spec, N.lxor_spec.
  destruct (N.lt_ge_cases i 16).
  - rewrite !N.shiftl_spec_low by auto. rewrite !orb_false_r. auto.
  - rewrite !N.shiftl_spec_high' by auto. rewrite N.lxor_spec.
    rewrite !(testbit_bounded 16 _ i) by auto. auto.
Qed.

(** hasvalue16 is non-zero iff one of the four 16-bit lanes equals the tag *)
Lemma hasvalue16_lanes : forall a b c d n,
  a < 2^16 -> b < 2^16 -> c < 2^16 -> d < 2^16 -> n < 2^16 ->
  (hasvalue16 (lanes4 a b c d) n <> 0 <-> a = n \/ b = n \/ c = n \/ d = n).
Proof.
  intros a b c d n Ha Hb Hc Hd Hn. unfold hasvalue16.
  assert (E : wrap64 (0x0001000100010001 * n) = lanes4 n n n n).
  { unfold wrap64. rewrite wrap_small by lia. unfold lanes4. lia. }
  rewrite E. unfold lanes4.
  rewrite !lxor_split by auto. fold (lanes4 (N.lxor a n) (N.lxor b n) (N.lxor c n) (N.lxor d n)).
  rewrite haszero16_bit by (apply lxor_lt; auto).
  rewrite !N.lxor_eq_0_iff. tauto.
Qed.

(** Correctness of the precomputed division. *)
From Coq Require Import NArith List Bool Lia ZifyBool ZifyNat ZifyN Psatz.
From Verif Require Import Base.Words Base.ListX OKVS.DivModel.
Import ListNotations.
Local Open Scope N_scope.

Lemma two64_sq : two64 = two32 * two32.
Proof. reflexivity. Qed.

Lemma two32_pos : 0 < two32.
Proof. reflexivity. Qed.

Lemma div_lt_mul : forall a b c, 0 < b -> a < b * c -> a / b < c.
Proof. intros a b c Hb H. apply N.div_lt_upper_bound; lia. Qed.

Lemma prod_le : forall B a b, a < B -> b < B -> a * b <= (B - 1) * (B - 1).
Proof. intros. apply N.mul_le_mono; lia. Qed.

Lemma two_digits : forall B a b, a < B -> b < B -> a * B + b < B * B.
Proof. intros. nia. Qed.

(** ** The high half of a product *)

Lemma high_half :
  forall B x0 x1 y0 y1, 0 < B -> x0 < B -> x1 < B -> y0 < B -> y1 < B ->
  let temp := x1 * y0 + x0 * y0 / B in
  temp < B * B /\
  temp mod B + x0 * y1 < B * B /\
  x1 * y1 + temp / B + (temp mod B + x0 * y1) / B
  = ((x1 * B + x0) * (y1 * B + y0)) / (B * B) /\
  ((x1 * B + x0) * (y1 * B + y0)) / (B * B) < B * B.
Proof.
  intros B x0 x1 y0 y1 HB H0 H1 H2 H3 temp.
  assert (Hx00 : x0 * y0 <= (B - 1) * (B - 1)) by (apply prod_le; assumption).
  assert (Hc : x0 * y0 / B <= B - 1).
  { assert (x0 * y0 / B < B); [|lia].
    apply div_lt_mul; [lia|]. nia. }
  assert (Hx10 : x1 * y0 <= (B - 1) * (B - 1)) by (apply prod_le; assumption).
  assert (Ht : temp < B * B) by (unfold temp; nia).
  pose proof (N.mod_lt temp B) as Hm.
  assert (Hx01 : x0 * y1 <= (B - 1) * (B - 1)) by (apply prod_le; assumption).
  split; [exact Ht|]. split.
  { specialize (Hm ltac:(lia)). revert Hm Hx01 HB.
    generalize (temp mod B) (x0 * y1). clear. intros. nia. }
  split.
  - pose proof (N.div_mod temp B) as E1.
    pose proof (N.div_mod (x0 * y0) B) as E2.
    pose proof (N.div_mod (temp mod B + x0 * y1) B) as E3.
    pose proof (N.mod_lt (x0 * y0) B) as M2.
    pose proof (N.mod_lt (temp mod B + x0 * y1) B) as M3.
    apply N.div_unique with
      (r := ((temp mod B + x0 * y1) mod B) * B + (x0 * y0) mod B).
    + apply two_digits; [apply M3|apply M2]; lia.
    + set (r3 := (temp mod B + x0 * y1) mod B) in *.
      set (q3 := (temp mod B + x0 * y1) / B) in *.
      set (r2 := (x0 * y0) mod B) in *. 
      set (q2 := x0 * y0 / B) in *.
      set (r1 := temp mod B) in *. set (q1 := temp / B) in *.
      assert (T : temp = x1 * y0 + q2) by reflexivity.
      clearbody temp r3 q3 r2 q2 r1 q1.
      specialize (E1 ltac:(lia)). specialize (E2 ltac:(lia)).
      specialize (E3 ltac:(lia)).
      replace ((x1 * B + x0) * (y1 * B + y0))
        with (x1 * y1 * (B * B) + x0 * y1 * B + x1 * y0 * B + x0 * y0) by ring.
      rewrite E2.
      replace (x1 * y0 * B) with ((x1 * y0) * B) by ring.
      assert (X : x1 * y0 * B + B * q2 = temp * B) by (rewrite T; ring).
      assert (Y : x0 * y1 * B + r1 * B = (B * q3 + r3) * B) by (rewrite <- E3; ring).
      assert (Z : temp * B = B * B * q1 + r1 * B) by (rewrite E1; ring).
      lia.
  - pose proof (two_digits B x1 x0 H1 H0) as Q1.
    pose proof (two_digits B y1 y0 H3 H2) as Q2.
    apply div_lt_mul; [nia|]. clear -Q1 Q2.
    revert Q1 Q2. generalize (x1 * B + x0) (y1 * B + y0) (B * B). clear.
    intros. nia.
Qed.

Lemma split32 : forall x, x < two64 ->
  x / two32 < two32 /\ x mod two32 < two32 /\ x = x / two32 * two32 + x mod two32.
Proof.
  intros x H. rewrite two64_sq in H. pose proof two32_pos as P.
  split; [apply div_lt_mul; lia|]. split; [apply N.mod_lt; lia|].
  pose proof (N.div_mod x two32). lia.
Qed.

Lemma mulhi_lt : forall x y, x < two64 -> y < two64 -> x * y / two64 < two64.
Proof.
  intros x y Hx Hy. apply div_lt_mul; [reflexivity|].
  generalize dependent two64. clear. intros W Hx Hy. nia.
Qed.

Lemma mulhi_ok : forall x y, x < two64 -> y < two64 ->
  divide_mullhi_u64 x y = x * y / two64.
Proof.
  intros x y Hx Hy. unfold divide_mullhi_u64. apply N.mod_small.
  apply mulhi_lt; assumption.
Qed.

Lemma prod_lt : forall x y, x < two32 -> y < two32 -> x * y < two64.
Proof.
  intros x y. rewrite two64_sq. generalize two32. clear. intros B Hx Hy. nia.
Qed.

Lemma mulhi_portable_ok : forall x y, x < two64 -> y < two64 ->
  divide_mullhi_u64_portable x y = x * y / two64.
Proof.
  intros x y Hx Hy. unfold divide_mullhi_u64_portable, divide_mullhi_u32.
  destruct (split32 x Hx) as (A1 & A0 & Ax).
  destruct (split32 y Hy) as (B1 & B0 & Bx).
  replace (x * y) with ((x / two32 * two32 + x mod two32) *
                        (y / two32 * two32 + y mod two32))
    by (rewrite <- Ax, <- Bx; reflexivity).
  set (x1 := x / two32) in *. set (x0 := x mod two32) in *.
  set (y1 := y / two32) in *. set (y0 := y mod two32) in *.
  clearbody x1 x0 y1 y0. clear Ax Bx Hx Hy x y.
  destruct (high_half two32 x0 x1 y0 y1 two32_pos A0 A1 B0 B1)
    as (T1 & T2 & T3 & T4).
  rewrite <- two64_sq in *. unfold mul64, add64.
  rewrite (N.mod_small (x0 * y0) two64) by (apply prod_lt; assumption).
  rewrite (N.mod_small (x0 * y1) two64) by (apply prod_lt; assumption).
  rewrite (N.mod_small (x1 * y0) two64) by (apply prod_lt; assumption).
  rewrite (N.mod_small (x1 * y1) two64) by (apply prod_lt; assumption).
  rewrite (N.mod_small (x0 * y0 / two32) two32).
  2: { apply div_lt_mul; [reflexivity|]. rewrite <- two64_sq.
       apply prod_lt; assumption. }
  cbv zeta in T1, T2, T3, T4.
  set (temp := x1 * y0 + x0 * y0 / two32) in *.
  rewrite (N.mod_small temp two64) by exact T1.
  rewrite (N.mod_small (temp mod two32 + x0 * y1)) by exact T2.
  rewrite (N.mod_small (x1 * y1 + temp / two32))
    by (eapply N.le_lt_trans; [|exact T4]; rewrite <- T3; apply N.le_add_r).
  rewrite N.mod_small by (rewrite T3; exact T4). exact T3.
Qed.

Lemma shuffle_low : forall x, x < two64 -> shuffle_3311 x mod two32 = x / two32.
Proof.
  intros x H. destruct (split32 x H) as (A & _). unfold shuffle_3311.
  rewrite N.add_comm, N.mod_add by discriminate. apply N.mod_small. exact A.
Qed.

Lemma mulhi_lane_ok : forall x y, x < two64 -> y < two64 ->
  divide_mullhi_lane x y = x * y / two64.
Proof.
  intros x y Hx Hy. unfold divide_mullhi_lane, mul_epu32.
  rewrite !shuffle_low by assumption.
  destruct (split32 x Hx) as (A1 & A0 & Ax).
  destruct (split32 y Hy) as (B1 & B0 & Bx).
  replace (x * y) with ((x / two32 * two32 + x mod two32) *
                        (y / two32 * two32 + y mod two32))
    by (rewrite <- Ax, <- Bx; reflexivity).
  set (x1 := x / two32) in *. set (x0 := x mod two32) in *.
  set (y1 := y / two32) in *. set (y0 := y mod two32) in *.
  clearbody x1 x0 y1 y0. clear Ax Bx Hx Hy x y.
  destruct (high_half two32 x0 x1 y0 y1 two32_pos A0 A1 B0 B1)
    as (T1 & T2 & T3 & T4).
  rewrite <- two64_sq in *. unfold add64. cbv zeta in T1, T2, T3, T4.
  set (temp := x1 * y0 + x0 * y0 / two32) in *.
  rewrite (N.mod_small temp two64) by exact T1.
  rewrite (N.mod_small (temp mod two32 + x0 * y1)) by exact T2.
  rewrite (N.mod_small (x1 * y1 + temp / two32))
    by (eapply N.le_lt_trans; [|exact T4]; rewrite <- T3; apply N.le_add_r).
  rewrite (N.add_comm (_ / two32) (x1 * y1 + _)).
  rewrite N.mod_small by (rewrite T3; exact T4). exact T3.
Qed.

(** ** The round-up method *)

Lemma round_up :
  forall P d m e n, 0 < d -> m * d = P + e -> e * n < P -> m * n / P = n / d.
Proof.
  intros P d m e n Hd Hm He.
  pose proof (N.div_mod n d ltac:(lia)) as En.
  pose proof (N.mod_lt n d ltac:(lia)) as Rn.
  set (q := n / d) in *. set (r := n mod d) in *. clearbody q r.
  symmetry. apply N.div_unique with (r := m * n - P * q).
  - assert (d * (m * n) < d * (P * (q + 1))); [|nia].
    replace (d * (m * n)) with ((m * d) * n) by ring. rewrite Hm.
    assert (P * n + P <= P * (d * (q + 1))) by nia. nia.
  - assert (d * (P * q) <= d * (m * n)); [|nia].
    replace (d * (m * n)) with ((m * d) * n) by ring. rewrite Hm, En. nia.
Qed.

Lemma log2_bounds : forall d, 0 < d -> d < two64 ->
  63 - count_leading_zeros64 d = N.log2 d /\ N.log2 d < 64 /\
  2 ^ N.log2 d <= d /\ d < 2 * 2 ^ N.log2 d.
Proof.
  intros d Hd H. unfold count_leading_zeros64.
  assert (L : N.log2 d < 64).
  { destruct (N.eq_dec d 0); [subst; reflexivity|].
    apply N.log2_lt_pow2; [lia|]. exact H. }
  pose proof (N.log2_spec d Hd) as [A B]. rewrite N.pow_succ_r' in B.
  repeat split; lia || assumption.
Qed.

Lemma no_overflow : forall W K d M r, d < W -> K <= d -> d <> K ->
  2 * (K * W) = d * M + r -> r < d -> 2 * W <= M + 1 -> False.
Proof.
  intros W K d M r H1 H2 H3 H4 H5 H6.
  assert (A : d * (2 * W) <= d * M + d) by nia.
  assert (B : (K + 1) * (2 * W) <= d * (2 * W)) by nia. nia.
Qed.

(** ** Powers of two *)

Lemma land_pred : forall d, 0 < d -> (N.land d (d - 1) = 0 <-> d = 2 ^ N.log2 d).
Proof.
  intros d Hd. set (l := N.log2 d).
  pose proof (N.log2_spec d Hd) as [A B]. fold l in A, B.
  rewrite N.pow_succ_r' in B. split.
  - intros H. destruct (N.eq_dec d (2 ^ l)) as [E|E]; [exact E|exfalso].
    assert (T : N.testbit (N.land d (d - 1)) l = true).
    { rewrite N.land_spec.
      assert (D1 : d / 2 ^ l = 1).
      { symmetry. apply N.div_unique with (r := d - 2 ^ l); lia. }
      assert (D2 : (d - 1) / 2 ^ l = 1).
      { symmetry. apply N.div_unique with (r := d - 1 - 2 ^ l); lia. }
      apply andb_true_iff. rewrite !N.testbit_true, D1, D2.
      split; reflexivity. }
    rewrite H in T. rewrite N.bits_0 in T. discriminate.
  - intros E. rewrite E. apply N.bits_inj. intros i.
    rewrite N.land_spec, N.bits_0, N.pow2_bits_eqb.
    destruct (N.eqb_spec l i) as [->|]; [|reflexivity]. cbn [andb].
    assert (S : 2 ^ i - 1 = N.ones i) by (rewrite N.ones_equiv; lia).
    rewrite S, N.ones_spec_high by lia. reflexivity.
Qed.

Lemma land_more : forall l, l < 64 ->
  N.land l 64 = 0 /\ N.land (N.lor l 64) 64 = 64 /\ N.land (N.lor l 64) 63 = l.
Proof.
  intros l Hl.
  assert (forall f : N -> bool, (forall i, In i (map N.of_nat (seq 0 64)) -> f i = true)
    -> f l = true) as All.
  { intros f Hf. apply Hf. apply in_map_iff. exists (N.to_nat l).
    split; [lia|]. apply in_seq. lia. }
  assert (((N.land l 64 =? 0) && (N.land (N.lor l 64) 64 =? 64)
           && (N.land (N.lor l 64) 63 =? l)) = true) as T.
  { apply (All (fun l => (N.land l 64 =? 0) && (N.land (N.lor l 64) 64 =? 64)
           && (N.land (N.lor l 64) 63 =? l))).
    apply forallb_forall. vm_compute. reflexivity. }
  apply andb_prop in T as [T T3]. apply andb_prop in T as [T1 T2].
  apply N.eqb_eq in T1, T2, T3. auto.
Qed.

(** ** The generated divider *)

(** What the two branches of [divide] compute from the pair. *)
Definition divides (d : N) (dv : divider) : Prop :=
  let l := N.log2 d in
  l < 64 /\
  ((magic dv = 0 /\ more dv = l /\ d = 2 ^ l) \/
   (0 < magic dv /\ magic dv < two64 /\ more dv = l /\
    forall n, n < two64 -> magic dv * n / (two64 * 2 ^ l) = n / d) \/
   (0 < magic dv /\ magic dv < two64 /\ more dv = N.lor l 64 /\
    forall n, n < two64 ->
      (two64 + magic dv) * n / (two64 * (2 * 2 ^ l)) = n / d)).

Section Gen.
Variable div128 : N -> N -> N -> option (N * N).
Hypothesis div128_ok : forall hi d, hi < d -> d < two64 ->
  div128 hi 0 d = Some ((hi * two64) / d, (hi * two64) mod d).

Lemma gen_divider_ok : forall d, 0 < d -> d < two64 ->
  exists dv, gen_divider div128 d = Some dv /\ divides d dv.
Proof.
  intros d Hd Hd2. unfold gen_divider, divides.
  destruct (log2_bounds d Hd Hd2) as (-> & L & A & B).
  pose proof (land_pred d Hd) as LP.
  set (l := N.log2 d) in *. cbv zeta.
  replace (d =? 0) with false by (symmetry; apply N.eqb_neq; lia).
  destruct (N.eqb_spec (N.land d (d - 1)) 0) as [E|E].
  { eexists; split; [reflexivity|]. split; [exact L|]. left.
    cbn [magic more]. repeat split; auto. apply LP. exact E. }
  assert (NE : d <> 2 ^ l) by (intros X; apply E, LP, X).
  rewrite N.shiftl_1_l.
  rewrite div128_ok by lia.
  set (P := 2 ^ l * two64).
  assert (HW : 0 < two64) by reflexivity.
  set (W := two64) in *. set (K := 2 ^ l) in *.
  assert (K0 : 0 < K) by (unfold K; apply N.neq_0_lt_0, N.pow_nonzero; discriminate).
  assert (W2 : 2 <= W) by (unfold W; lia).
  assert (KW : K * 2 <= W).
  { unfold K, W, two64. rewrite N.mul_comm, <- N.pow_succ_r'.
    apply N.pow_le_mono_r; lia. }
  assert (Wstay : forall m, m < W -> add64 0 m = m /\ m mod W = m).
  { intros m Hm. unfold add64. fold W. rewrite N.add_0_l, N.mod_small; auto. }
  pose proof (N.div_mod P d ltac:(lia)) as EP.
  pose proof (N.mod_lt P d ltac:(lia)) as RP.
  set (m := P / d) in *. set (rem := P mod d) in *.
  assert (R0 : 0 < rem).
  { destruct (N.eq_dec rem 0) as [Z|]; [exfalso|lia].
    (* d divides a power of two, so it is one *)
    assert (DP : N.divide d (2 ^ (l + 64))).
    { exists m. rewrite N.pow_add_r. change (2 ^ 64) with two64. fold W K P. lia. }
    apply NE. clear - DP Hd A B. 
    assert (X : forall k d, N.divide d (2 ^ k) -> d = 2 ^ N.log2 d).
    { clear. intros k. induction k as [|k IH] using N.peano_ind; intros d [c Hc].
      - rewrite N.pow_0_r in Hc. symmetry in Hc. apply N.eq_mul_1 in Hc as [_ ->].
        reflexivity.
      - rewrite N.pow_succ_r' in Hc.
        destruct (N.Even_or_Odd d) as [[h Hh]|[h Hh]].
        + assert (D : N.divide h (2 ^ k)).
          { exists c. subst d. lia. }
          assert (h <> 0).
          { intros Z. pose proof (N.pow_nonzero 2 k ltac:(discriminate)).
            subst h. rewrite Hh in Hc. lia. }
          rewrite Hh at 2. rewrite N.log2_double by lia.
          rewrite N.pow_succ_r'. rewrite <- (IH h D). exact Hh.
        + assert (D : N.divide d (2 ^ k)).
          { destruct (N.Even_or_Odd c) as [[j Hj]|[j Hj]].
            - exists j. subst c. lia.
            - exfalso. subst c d. lia. }
          apply IH; exact D. }
    apply X in DP. exact DP. }
  replace ((0 <? rem) && (rem <? d)) with true by lia.
  assert (M : m < W).
  { destruct (N.le_gt_cases W m) as [C|C]; [|exact C]. unfold P in EP. nia. }
  destruct (N.ltb_spec (d - rem) K) as [F|F].
  - (* the 64-bit method *)
    assert (M1 : m + 1 < W).
    { destruct (N.le_gt_cases W (m + 1)) as [C|C]; [|exact C].
      assert (m = W - 1) by lia. unfold P in EP. nia. }
    eexists; split; [reflexivity|]. split; [exact L|]. right; left.
    cbn [magic more]. unfold add64. fold W.
    rewrite N.mod_small by lia.
    split; [lia|]. split; [lia|]. split; [reflexivity|]. intros n Hn.
    apply round_up with (e := d - rem); [lia| |].
    + rewrite (N.mul_comm W K). fold P. lia.
    + rewrite (N.mul_comm W K). nia.
  - (* the 65-bit method *)
    set (M2 := (2 * P) / d).
    pose proof (N.div_mod (2 * P) d ltac:(lia)) as E2.
    pose proof (N.mod_lt (2 * P) d ltac:(lia)) as R2. fold M2 in E2.
    set (r2 := (2 * P) mod d) in *.
    assert (U1 : W <= M2).
    { destruct (N.le_gt_cases W M2) as [C|C]; [exact C|]. unfold P in E2. nia. }
    assert (U2 : M2 + 1 < 2 * W).
    { destruct (N.le_gt_cases (2 * W) (M2 + 1)) as [C|C]; [|exact C].
      exfalso. apply (no_overflow W K d M2 r2); try assumption. }
    assert (Val : add64 1 (if (d <=? add64 rem rem) || (add64 rem rem <? rem)
                   then add64 (add64 m m) 1 else add64 m m) = M2 + 1 - W).
    { assert (Two : (if (d <=? add64 rem rem) || (add64 rem rem <? rem)
                     then 2 * m + 1 else 2 * m) = M2).
      { assert (Case : (d <=? add64 rem rem) || (add64 rem rem <? rem)
                       = (d <=? 2 * rem)).
        { unfold add64. fold W.
          destruct (N.le_gt_cases W (rem + rem)) as [C|C].
          - replace ((rem + rem) mod W) with (rem + rem - W).
            + destruct (N.leb_spec d (2 * rem)); [|lia].
              apply orb_true_iff. right. lia.
            + apply N.mod_unique with (q := 1); lia.
          - rewrite N.mod_small by lia. lia. }
        rewrite Case. destruct (N.leb_spec d (2 * rem)) as [C|C].
        - unfold M2. apply N.div_unique with (r := 2 * rem - d); lia.
        - unfold M2. apply N.div_unique with (r := 2 * rem); lia. }
      assert (Add : forall b : bool,
                add64 1 (if b then add64 (add64 m m) 1 else add64 m m)
                = (1 + (if b then 2 * m + 1 else 2 * m)) mod W).
      { intros []; unfold add64; fold W.
        - rewrite N.add_mod_idemp_r by lia.
          replace (1 + ((m + m) mod W + 1)) with ((m + m) mod W + 2) by lia.
          rewrite N.add_mod_idemp_l by lia. f_equal. lia.
        - rewrite N.add_mod_idemp_r by lia. f_equal. lia. }
      rewrite Add, Two. symmetry. apply N.mod_unique with (q := 1); lia. }
    eexists; split; [reflexivity|]. split; [exact L|]. right; right.
    cbn [magic more]. rewrite Val. split; [lia|]. split; [lia|].
    split; [reflexivity|]. intros n Hn.
    replace (W + (M2 + 1 - W)) with (M2 + 1) by lia.
    apply round_up with (e := d - r2); [lia| |].
    + unfold P in E2. nia.
    + assert (d - r2 <= 2 * K) by lia. nia.
Qed.

End Gen.

Lemma shr_div : forall a b c, b <> 0 -> c <> 0 -> a / b / c = a / (b * c).
Proof. intros. apply N.div_div; assumption. Qed.

Lemma half_sum : forall n q, q <= n -> n < two64 ->
  add64 (N.shiftr (sub64 n q) 1) q = (n + q) / 2.
Proof.
  intros n q H Hn. unfold add64, sub64.
  replace ((n + two64 - q) mod two64) with (n - q).
  2: { apply N.mod_unique with (q := 1); lia. }
  rewrite N.shiftr_div_pow2. change (2 ^ 1) with 2.
  pose proof (N.div_mod (n - q) 2 ltac:(lia)) as E.
  pose proof (N.mod_lt (n - q) 2 ltac:(lia)) as R.
  rewrite N.mod_small by lia.
  apply N.div_unique with (r := (n - q) mod 2); lia.
Qed.

Lemma run_ok : forall d dv (mh : N -> N -> N), 0 < d ->
  divides d dv ->
  (forall n, n < two64 -> mh (magic dv) n = magic dv * n / two64) ->
  forall n, n < two64 -> divide_u64_do mh n dv = n / d.
Proof.
  intros d dv mh Hd (L & H) Hm n Hn. unfold divide_u64_do.
  destruct (land_more _ L) as (L1 & L2 & L3).
  set (l := N.log2 d) in *.
  assert (K0 : 2 ^ l <> 0) by (apply N.pow_nonzero; discriminate).
  destruct H as [(E & M & D) | [(E & E2 & M & D) | (E & E2 & M & D)]].
  - rewrite E. cbn [N.eqb]. rewrite M, N.shiftr_div_pow2, <- D. reflexivity.
  - replace (magic dv =? 0) with false by lia.
    rewrite M, L1. cbn [N.eqb negb]. rewrite Hm by exact Hn.
    rewrite N.shiftr_div_pow2, N.div_div by (exact K0 || discriminate).
    apply D; exact Hn.
  - replace (magic dv =? 0) with false by lia.
    rewrite M, L2, L3. change (64 =? 0) with false. cbn [negb].
    rewrite Hm by exact Hn.
    assert (Q : magic dv * n / two64 <= n).
    { assert (magic dv * n / two64 < n + 1); [|lia].
      apply div_lt_mul; [reflexivity|]. nia. }
    rewrite half_sum by assumption.
    rewrite N.shiftr_div_pow2, N.div_div by (exact K0 || discriminate).
    rewrite <- (D n Hn).
    rewrite <- (N.div_div _ two64) by (discriminate || lia).
    f_equal. rewrite N.mul_add_distr_r.
    rewrite (N.mul_comm two64 n), N.div_add_l by discriminate. reflexivity.
Qed.

Lemma lane_run_ok : forall d dv, 0 < d -> divides d dv ->
  forall n, n < two64 -> divide_lane n dv = n / d.
Proof.
  intros d dv Hd H n Hn.
  change (divide_lane n dv)
    with (divide_u64_do (fun a b => divide_mullhi_lane b a) n dv).
  apply run_ok; try assumption.
  intros k Hk. rewrite (N.mul_comm (magic dv)). apply mulhi_lane_ok; [exact Hk|].
  destruct H as (_ & [(E & _) | [(_ & E & _) | (_ & E & _)]]); lia.
Qed.


(** ** The 128-by-64-bit division *)

Lemma divq_ok : forall hi d, hi < d -> d < two64 ->
  divq hi 0 d = Some ((hi * two64) / d, (hi * two64) mod d).
Proof.
  intros hi d H _. unfold divq. replace (d <=? hi) with false by lia.
  rewrite N.add_0_r. reflexivity.
Qed.

Lemma SB : forall a b, b <= a -> a < two64 -> sub64 a b = a - b.
Proof.
  intros a b Hab Ha. unfold sub64. symmetry. apply N.mod_unique with (q := 1); lia.
Qed.

Lemma mul_sub_add : forall q k d, k <= q -> q * d = d * (q - k) + k * d.
Proof. intros q k d H. replace q with (q - k + k) at 1 by lia. ring. Qed.

(** One digit of Knuth's algorithm D, in any even base. *)
Lemma knuth_digit :
  forall B n num d1 d0, 0 < B -> B <= 2 * d1 -> d1 < B -> d0 < B -> num < B ->
  n < d1 * B + d0 ->
  let den := d1 * B + d0 in
  let qhat := n / d1 in let rhat := n mod d1 in
  qhat <= B + 1 /\ qhat * d0 < B * B /\ rhat * B + num < B * B /\
  (if rhat * B + num <? qhat * d0
   then qhat - (if den <? qhat * d0 - (rhat * B + num) then 2 else 1)
   else qhat) = (n * B + num) / den /\
  (rhat * B + num < qhat * d0 -> 1 <= qhat /\
     (den < qhat * d0 - (rhat * B + num) -> 2 <= qhat)).
Proof.
  intros B n num d1 d0 HB Hn1 H1 H0 Hnum Hn den qhat rhat.
  assert (Hd1 : 0 < d1) by lia.
  pose proof (N.div_mod n d1 ltac:(lia)) as E. fold qhat rhat in E.
  pose proof (N.mod_lt n d1 ltac:(lia)) as R. fold rhat in R.
  clearbody qhat rhat.
  assert (Q1 : qhat <= B + 1).
  { destruct (N.le_gt_cases qhat (B + 1)) as [C|C]; [exact C|].
    assert (d1 * (B + 2) <= d1 * qhat) by nia. nia. }
  assert (Q2 : qhat * d0 < B * B) by nia.
  assert (Q3 : rhat * B + num < B * B) by nia.
  split; [exact Q1|]. split; [exact Q2|]. split; [exact Q3|].
  set (c2 := rhat * B + num) in *. set (c1 := qhat * d0) in *.
  assert (Tot : n * B + num + c1 = qhat * den + c2) by (unfold c1, c2, den; nia).
  assert (Two : c1 <= 2 * den + c2).
  { unfold c1, den. nia. }
  assert (C2d : c2 < den).
  { unfold c2, den. nia. }
  split.
  - destruct (N.ltb_spec c2 c1) as [C|C].
    + destruct (N.ltb_spec den (c1 - c2)) as [F|F].
      * assert (2 <= qhat) by (unfold c1, den in *; nia).
        apply N.div_unique with (r := 2 * den + c2 - c1); [lia|].
        pose proof (mul_sub_add qhat 2 den H). lia.
      * assert (1 <= qhat) by (unfold c1, den in *; nia).
        destruct (N.eq_dec (c1 - c2) den) as [Z|Z].
        -- (* the remainder is exactly zero *)
           apply N.div_unique with (r := den + c2 - c1); [lia|].
           pose proof (mul_sub_add qhat 1 den H). lia.
        -- apply N.div_unique with (r := den + c2 - c1); [lia|].
           pose proof (mul_sub_add qhat 1 den H). lia.
    + apply N.div_unique with (r := c2 - c1); [lia|].
      assert (qhat * den = den * qhat) by ring. lia.
  - intros C. split; [unfold c1 in *; nia|]. intros F. unfold c1, den in *. nia.
Qed.

Lemma digit_ok : forall n num den, two64 <= 2 * den -> den < two64 ->
  n < den -> num < two32 ->
  digit n num den = (n * two32 + num) / den.
Proof.
  intros n num den Hnorm Hden Hn Hnum.
  destruct (split32 den Hden) as (A1 & A0 & Ad).
  unfold digit.
  rewrite Ad in Hnorm.
  set (d1 := den / two32) in *. set (d0 := den mod two32) in *.
  assert (N1 : two32 <= 2 * d1).
  { rewrite two64_sq in Hnorm.
    assert (Even : exists h, two32 = 2 * h) by (exists (2 ^ 31); reflexivity).
    destruct Even as [h Hh]. clearbody d1 d0. revert Hnorm A0 A1 Hh.
    generalize two32. clear. intros B H1 H2 H3 H4.
    destruct (N.le_gt_cases B (2 * d1)) as [C|C]; [exact C|exfalso].
    assert (2 * d1 + 2 <= B) by lia. nia. }
  assert (Hn' : n < d1 * two32 + d0) by (rewrite <- Ad; exact Hn).
  clearbody d1 d0.
  destruct (knuth_digit two32 n num d1 d0 two32_pos N1 A1 A0 Hnum Hn')
    as (Q1 & Q2 & Q3 & Q4 & Q5).
  cbv zeta in *. rewrite <- two64_sq in *. rewrite <- Ad in Q4, Q5.
  set (qhat := n / d1) in *. set (rhat := n mod d1) in *.
  unfold mul64, add64.
  rewrite (N.mod_small (qhat * d0)) by exact Q2.
  rewrite (N.mod_small (rhat * two32))
    by (eapply N.le_lt_trans; [|exact Q3]; apply N.le_add_r).
  rewrite (N.mod_small (rhat * two32 + num)) by exact Q3.
  assert (Big : (n * two32 + num) / den < two32).
  { apply div_lt_mul; [lia|]. clear -Hn Hnum. nia. }
  assert (QW : qhat < two64).
  { eapply N.le_lt_trans; [exact Q1|]. reflexivity. }
  destruct (N.ltb_spec (rhat * two32 + num) (qhat * d0)) as [C|C].
  - destruct (Q5 C) as (G1 & G2).
    rewrite (SB (qhat * d0)) by (exact Q2 || (apply N.lt_le_incl; exact C)).
    destruct (N.ltb_spec den (qhat * d0 - (rhat * two32 + num))) as [F|F].
    + specialize (G2 F). rewrite (SB qhat 2) by assumption. rewrite Q4.
      apply N.mod_small. exact Big.
    + rewrite (SB qhat 1) by assumption. rewrite Q4. apply N.mod_small. exact Big.
  - rewrite Q4. apply N.mod_small. exact Big.
Qed.

Lemma lor_low : forall a b k, b < 2 ^ k -> N.lor (a * 2 ^ k) b = a * 2 ^ k + b.
Proof.
  intros a b k H.
  assert (E : N.land (a * 2 ^ k) b = 0).
  { apply N.bits_inj. intros i. rewrite N.land_spec, N.bits_0.
    destruct (N.lt_ge_cases i k) as [C|C].
    - rewrite N.mul_pow2_bits_low by exact C. reflexivity.
    - rewrite (testbit_bounded k b i H C). apply andb_false_r. }
  rewrite <- N.lxor_lor by exact E. symmetry. apply N.add_nocarry_lxor. exact E.
Qed.

Lemma shifted_lt : forall hi d S top, hi < d -> top < S -> hi * S + top < d * S.
Proof. intros. assert ((hi + 1) * S <= d * S) by nia. lia. Qed.

Lemma sub_mod : forall r y, r < two64 ->
  ((r + y) mod two64 + two64 - y mod two64) mod two64 = r.
Proof.
  intros r x R. assert (W0 : two64 <> 0) by discriminate.
  rewrite <- (N.add_mod_idemp_r r x) by exact W0.
  pose proof (N.mod_lt x two64 W0) as L.
  set (y := x mod two64) in *. clearbody y. clear x. symmetry.
  destruct (N.le_gt_cases two64 (r + y)) as [C|C].
  - replace ((r + y) mod two64) with (r + y - two64).
    2: { apply N.mod_unique with (q := 1); lia. }
    apply N.mod_unique with (q := 0); lia.
  - rewrite (N.mod_small (r + y)) by exact C.
    apply N.mod_unique with (q := 1); lia.
Qed.

Lemma step_ok : forall n k den, two64 <= 2 * den -> den < two64 ->
  n < den -> k < two32 ->
  let q := (n * two32 + k) / den in
  digit n k den = q /\ q < two32 /\
  sub64 (add64 (mul64 n two32) k) (mul64 q den) = (n * two32 + k) mod den.
Proof.
  intros n k den D2 D1 Hn Hk q.
  split; [apply digit_ok; assumption|].
  assert (Den0 : den <> 0) by lia.
  split.
  { unfold q. apply div_lt_mul; [lia|]. clear -Hn Hk. nia. }
  pose proof (N.div_mod (n * two32 + k) den Den0) as E.
  pose proof (N.mod_lt (n * two32 + k) den Den0) as R. fold q in E.
  set (r := (n * two32 + k) mod den) in *. clearbody q r.
  assert (S1 : add64 (mul64 n two32) k = (n * two32 + k) mod two64).
  { unfold add64, mul64. apply N.add_mod_idemp_l. discriminate. }
  rewrite S1. unfold mul64, sub64. rewrite E.
  replace (den * q + r) with (r + q * den) by ring.
  apply sub_mod. eapply N.lt_trans; eassumption.
Qed.

Lemma div128_portable_full : forall hi lo d, hi < d -> d < two64 -> lo < two64 ->
  div128_portable hi lo d
  = Some ((hi * two64 + lo) / d, (hi * two64 + lo) mod d).
Proof.
  intros hi lo d H Hd Hlo. unfold div128_portable.
  replace (d <=? hi) with false by lia.
  destruct (log2_bounds d ltac:(lia) Hd) as (L0 & L1 & L2 & L3).
  set (l := N.log2 d) in *.
  set (s := count_leading_zeros64 d).
  assert (Hs : s = 63 - l) by reflexivity.
  assert (D0 : d <> 0) by lia.
  assert (S1 : 2 ^ s <> 0) by (apply N.pow_nonzero; discriminate).
  assert (KS : 2 ^ l * 2 ^ s * 2 = two64).
  { rewrite <- N.pow_add_r. replace (l + s) with 63 by lia. reflexivity. }
  assert (S0 : 0 < 2 ^ s) by (apply N.neq_0_lt_0, N.pow_nonzero; discriminate).
  rewrite !N.shiftl_mul_pow2.
  assert (D1 : d * 2 ^ s < two64) by nia.
  assert (D2 : two64 <= 2 * (d * 2 ^ s)) by nia.
  rewrite (N.mod_small (d * 2 ^ s)) by exact D1.
  rewrite (N.mod_small (hi * 2 ^ s)) by nia.
  (* the shifted numerator *)
  pose proof (N.div_mod (lo * 2 ^ s) two64 ltac:(discriminate)) as EL.
  pose proof (N.mod_lt (lo * 2 ^ s) two64 ltac:(discriminate)) as RL.
  set (lo' := (lo * 2 ^ s) mod two64) in *.
  set (top := (lo * 2 ^ s) / two64) in *.
  assert (TopS : top < 2 ^ s).
  { unfold top. apply div_lt_mul; [reflexivity|].
    rewrite (N.mul_comm two64). rewrite N.mul_comm. apply N.mul_lt_mono_pos_l; assumption. }
  assert (Top : (if s =? 0 then 0 else N.shiftr lo (64 - s)) = top).
  { destruct (N.eqb_spec s 0) as [Z|Z].
    - rewrite Z in TopS. change (2 ^ 0) with 1 in TopS. lia.
    - rewrite N.shiftr_div_pow2. unfold top.
      replace two64 with (2 ^ (64 - s) * 2 ^ s).
      2: { rewrite <- N.pow_add_r. replace (64 - s + s) with 64 by lia. reflexivity. }
      rewrite N.div_mul_cancel_r; try apply N.pow_nonzero; try discriminate.
      reflexivity. }
  rewrite Top, (lor_low hi top s) by exact TopS.
  set (hi' := hi * 2 ^ s + top).
  set (den := d * 2 ^ s) in *.
  assert (Hhi : hi' < den).
  { apply shifted_lt; assumption. }
  assert (Tot : hi' * two64 + lo' = (hi * two64 + lo) * 2 ^ s).
  { unfold hi'. rewrite !N.mul_add_distr_r, EL. ring. }
  destruct (split32 lo' RL) as (A1 & A0 & Al).
  set (n1 := lo' / two32) in *. set (n0 := lo' mod two32) in *.
  assert (Den0 : den <> 0) by (intros Z; rewrite Z in Hhi; destruct hi'; discriminate Hhi).
  (* first digit *)
  pose proof (fun n k => step_ok n k den D2 D1) as Step. cbv zeta in Step.
  destruct (Step hi' n1 Hhi A1) as (G1 & G2 & G3).
  rewrite G1, G3.
  set (q1 := (hi' * two32 + n1) / den) in *.
  set (rem := (hi' * two32 + n1) mod den).
  assert (Hrem : rem < den) by (apply N.mod_lt; exact Den0).
  destruct (Step rem n0 Hrem A0) as (G4 & G5 & G6).
  rewrite G4, G6.
  set (q0 := (rem * two32 + n0) / den) in *.
  pose proof (N.div_mod (hi' * two32 + n1) den Den0) as E1. fold q1 rem in E1.
  pose proof (N.div_mod (rem * two32 + n0) den Den0) as E0. fold q0 in E0.
  set (r := (rem * two32 + n0) mod den) in *.
  assert (Hr : r < den) by (apply N.mod_lt; exact Den0).
  assert (Final : (hi * two64 + lo) * 2 ^ s = den * (q1 * two32 + q0) + r).
  { rewrite <- Tot, Al, two64_sq.
    assert (hi' * (two32 * two32) + (n1 * two32 + n0)
            = (hi' * two32 + n1) * two32 + n0) by ring.
    rewrite H0, E1. 
    assert ((den * q1 + rem) * two32 + n0 = den * q1 * two32 + (rem * two32 + n0)) by ring.
    rewrite H1, E0. ring. }
  f_equal. f_equal.
  - rewrite (lor_low q1 q0 32) by exact G5. change (2 ^ 32) with two32.
    rewrite <- (N.div_mul_cancel_r (hi * two64 + lo) d (2 ^ s)) by assumption.
    fold den. apply N.div_unique with (r := r); [exact Hr|exact Final].
  - rewrite N.shiftr_div_pow2.
    assert (M : r = ((hi * two64 + lo) mod d) * 2 ^ s).
    { rewrite <- N.mul_mod_distr_r by assumption. fold den.
      apply N.mod_unique with (q := q1 * two32 + q0); [exact Hr|exact Final]. }
    rewrite M. apply N.div_mul. assumption.
Qed.

(** C65: division by a precomputed multiplier is exact. *)
From Coq Require Import NArith List Bool Lia ZifyBool ZifyNat ZifyN.
From Verif Require Import Base.Words Base.ListX OKVS.DivModel OKVS.DivProofs.
Import ListNotations.
Local Open Scope N_scope.

(** C65, the build for x86-64 with 128-bit integers: for every non-zero 64-bit
    divisor the generator returns a divider, and with it the scalar and the
    vector code return floor(n/d) for every 64-bit n. *)
Theorem C65_division :
  forall d, 0 < d -> d < 2 ^ 64 ->
  exists dv, gen_divider divq d = Some dv /\
    forall n, n < 2 ^ 64 ->
      divide_u64_do divide_mullhi_u64 n dv = n / d /\ divide_lane n dv = n / d.
Proof.
  intros d H0 H. destruct (gen_divider_ok divq divq_ok d H0 H) as (dv & E & D).
  exists dv. split; [exact E|]. intros n Hn. split.
  - apply run_ok; try assumption. intros k Hk. apply mulhi_ok; [|exact Hk].
    destruct D as (_ & [(M & _) | [(_ & M & _) | (_ & M & _)]]); [|exact M|exact M].
    rewrite M. reflexivity.
  - apply lane_run_ok; assumption.
Qed.
Print Assumptions C65_division.

(** C65, the portable branches (no 128-bit integers, no [divq]): same claim. *)
Theorem C65_portable_division :
  forall d, 0 < d -> d < 2 ^ 64 ->
  gen_divider div128_portable d = gen_divider divq d /\
  exists dv, gen_divider div128_portable d = Some dv /\
    forall n, n < 2 ^ 64 ->
      divide_u64_do divide_mullhi_u64_portable n dv = n / d.
Proof.
  intros d H0 H.
  assert (P : forall hi d, hi < d -> d < two64 ->
    div128_portable hi 0 d = Some ((hi * two64) / d, (hi * two64) mod d)).
  { intros hi d' A B. rewrite div128_portable_full by (assumption || reflexivity).
    rewrite N.add_0_r. reflexivity. }
  split.
  - unfold gen_divider. destruct (d =? 0); [reflexivity|].
    destruct (N.land d (d - 1) =? 0) eqn:L; [reflexivity|].
    destruct (log2_bounds d H0 H) as (-> & L1 & L2 & L3).
    rewrite N.shiftl_1_l.
    assert (X : 2 ^ N.log2 d < d).
    { assert (d <> 2 ^ N.log2 d); [|lia]. intros X.
      apply land_pred in X; [|exact H0]. rewrite X in L. discriminate. }
    rewrite P, divq_ok by assumption. reflexivity.
  - destruct (gen_divider_ok _ P d H0 H) as (dv & E & D).
    exists dv. split; [exact E|]. intros n Hn.
    apply run_ok; try assumption. intros k Hk. apply mulhi_portable_ok; [|exact Hk].
    destruct D as (_ & [(M & _) | [(_ & M & _) | (_ & M & _)]]); [|exact M|exact M].
    rewrite M. reflexivity.
Qed.
Print Assumptions C65_portable_division.

(** The portable 128-by-64-bit division on its own, for every numerator whose
    quotient fits. *)
Theorem C65_wide_division :
  forall hi lo d, hi < d -> d < 2 ^ 64 -> lo < 2 ^ 64 ->
  div128_portable hi lo d
  = Some ((hi * 2 ^ 64 + lo) / d, (hi * 2 ^ 64 + lo) mod d).
Proof. intros. apply div128_portable_full; assumption. Qed.
Print Assumptions C65_wide_division.

(** C65, the 32-lane reduction: every one of the 32 words becomes its
    remainder, the words behind them are untouched. *)
Theorem C65_mod32 :
  forall d vals, 0 < d -> d < 2 ^ 64 -> (32 <= length vals)%nat ->
  (forall v, In v vals -> v < 2 ^ 64) ->
  exists dv, gen_divider divq d = Some dv /\
    doMod32 vals dv d
    = Some (map (fun v => v mod d) (firstn 32 vals) ++ skipn 32 vals).
Proof.
  intros d vals H0 H Hl Hv.
  destruct (C65_division d H0 H) as (dv & E & D). exists dv. split; [exact E|].
  unfold doMod32. replace (Nat.ltb (length vals) 32) with false by lia.
  f_equal. f_equal. apply map_ext_in. intros v Hin.
  assert (V : v < two64).
  { apply Hv. rewrite <- (firstn_skipn 32 vals). apply in_or_app. left. exact Hin. }
  destruct (D v V) as (_ & ->).
  pose proof (N.div_mod v d ltac:(lia)) as Ev.
  pose proof (N.mod_lt v d ltac:(lia)) as Rv.
  unfold mul64. rewrite N.mod_small by lia. rewrite SB by lia. lia.
Qed.
Print Assumptions C65_mod32.

(** A divisor of 0 is refused. *)
Theorem C65_zero_refused : forall f, gen_divider f 0 = None.
Proof. reflexivity. Qed.

(** Examples: the three shapes of divider (power of two, 64-bit and 65-bit
    multiplier), each at the largest numerator. *)
Example C65_run :
  gen_divider divq 1024 = Some {| magic := 0; more := 10 |} /\
  option_map more (gen_divider divq 641) = Some 9 /\
  option_map more (gen_divider divq 7) = Some 66 /\
  option_map (divide_u64_do divide_mullhi_u64 (2 ^ 64 - 1)) (gen_divider divq 7)
  = Some ((2 ^ 64 - 1) / 7) /\
  match gen_divider divq 7 with
  | Some dv => doMod32 (map N.of_nat (seq 100 32)) dv 7
  | None => None
  end = Some (map (fun i => N.of_nat i mod 7) (seq 100 32)) /\
  gen_divider div128_portable (2 ^ 64 - 1) = gen_divider divq (2 ^ 64 - 1).
Proof.
  refine (conj _ (conj _ (conj _ (conj _ (conj _ _))))); vm_compute; reflexivity.
Qed.

(** [log2_floor] and [log2_ceil], which size the tables. *)
Theorem C65_logs :
  forall x, 0 < x -> x < 2 ^ 64 ->
  2 ^ log2_floor x <= x /\ x < 2 ^ (log2_floor x + 1) /\
  (2 <= x -> x <= 2 ^ log2_ceil x /\ 2 ^ log2_ceil x < 2 * x).
Proof.
  intros x H0 H. unfold log2_floor, log2_ceil.
  destruct (log2_bounds x H0 H) as (E & L & A & B).
  assert (F : 64 - count_leading_zeros64 x - 1 = N.log2 x) by lia.
  rewrite F, N.add_1_r, N.pow_succ_r'. split; [exact A|]. split; [exact B|].
  intros H2.
  assert (H' : x - 1 < two64) by (unfold two64; lia).
  destruct (log2_bounds (x - 1) ltac:(lia) H') as (E' & L' & A' & B').
  replace (64 - count_leading_zeros64 (x - 1)) with (N.succ (N.log2 (x - 1)))
    by (unfold count_leading_zeros64 in *; lia).
  rewrite N.pow_succ_r'. lia.
Qed.
Print Assumptions C65_logs.

Print Assumptions C65_zero_refused.

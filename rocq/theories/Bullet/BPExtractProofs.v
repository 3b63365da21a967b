From Coq Require Import NArith ZArith List Lia Bool Arith Setoid Morphisms Znumtheory.
From Coq Require Import ZifyBool ZifyNat ZifyN.
From Verif.Base Require Import Words ListX.
From Verif.Crypto Require Import BigIntModel BigIntSpec BigIntProofs.
From Verif.Group Require Import ECModel ECProofs.
From Verif.Sigma Require Import SigmaModel SigmaProofs.
From Verif.Bullet Require Import IPModel BPModel BPSpec LagSpec IPProofs BPProofs BPProps LagProofs ExtractSpec ExtractProofs BPExtractSpec.
Import ListNotations.
Local Open Scope Z_scope.

Lemma sum_two : forall f, sum 2 f = f 0%nat + f 1%nat.
Proof. intros f. unfold sum. cbn [seq map zsum]. ring. Qed.

Lemma flat_dot : forall N gm et lg lh lu a b cg ch cu,
  sum (2 * N + 3) (fun p => flat N gm et lg lh lu p * flat N a b cg ch cu p) =
  sum N (fun p => gm p * a p) + sum N (fun p => et p * b p) + lg * cg + lh * ch + lu * cu.
Proof.
  intros. replace (2 * N + 3)%nat with (N + (N + 3))%nat by lia. rewrite !sum_split, sum_three.
  rewrite (sum_ext N (fun i => flat N gm et lg lh lu i * flat N a b cg ch cu i) (fun p => gm p * a p)).
  2:{ intros p Hp. unfold flat. replace (p <? N)%nat with true by lia. reflexivity. }
  rewrite (sum_ext N (fun i => flat N gm et lg lh lu (N + i) * flat N a b cg ch cu (N + i)) (fun p => et p * b p)).
  2:{ intros p Hp. unfold flat. replace (N + p <? N)%nat with false by lia. replace (N + p <? 2 * N)%nat with true by lia.
      replace (N + p - N)%nat with p by lia. reflexivity. }
  unfold flat.
  replace (N + (N + 0) <? N)%nat with false by lia. replace (N + (N + 0) <? 2 * N)%nat with false by lia. replace (N + (N + 0) =? 2 * N)%nat with true by lia.
  replace (N + (N + 1) <? N)%nat with false by lia. replace (N + (N + 1) <? 2 * N)%nat with false by lia. replace (N + (N + 1) =? 2 * N)%nat with false by lia. replace (N + (N + 1) =? 2 * N + 1)%nat with true by lia.
  replace (N + (N + 2) <? N)%nat with false by lia. replace (N + (N + 2) <? 2 * N)%nat with false by lia. replace (N + (N + 2) =? 2 * N)%nat with false by lia. replace (N + (N + 2) =? 2 * N + 1)%nat with false by lia.
  ring.
Qed.

Section Flat.
Variables (N : nat) (a b : nat -> Z) (cg ch cu : Z).
Lemma flat_a : forall p, (p < N)%nat -> flat N a b cg ch cu p = a p.
Proof. intros p Hp. unfold flat. replace (p <? N)%nat with true by lia. reflexivity. Qed.
Lemma flat_b : forall p, (p < N)%nat -> flat N a b cg ch cu (N + p) = b p.
Proof.
  intros p Hp. unfold flat. replace (N + p <? N)%nat with false by lia. replace (N + p <? 2 * N)%nat with true by lia.
  replace (N + p - N)%nat with p by lia. reflexivity.
Qed.
Lemma flat_g : flat N a b cg ch cu (2 * N) = cg.
Proof. unfold flat. replace (2 * N <? N)%nat with false by lia. replace (2 * N <? 2 * N)%nat with false by lia. rewrite Nat.eqb_refl. reflexivity. Qed.
Lemma flat_h : flat N a b cg ch cu (2 * N + 1) = ch.
Proof.
  unfold flat. replace (2 * N + 1 <? N)%nat with false by lia. replace (2 * N + 1 <? 2 * N)%nat with false by lia.
  replace (2 * N + 1 =? 2 * N)%nat with false by lia. rewrite Nat.eqb_refl. reflexivity.
Qed.
Lemma flat_u : flat N a b cg ch cu (2 * N + 2) = cu.
Proof.
  unfold flat. replace (2 * N + 2 <? N)%nat with false by lia. replace (2 * N + 2 <? 2 * N)%nat with false by lia.
  replace (2 * N + 2 =? 2 * N)%nat with false by lia. replace (2 * N + 2 =? 2 * N + 1)%nat with false by lia. reflexivity.
Qed.
End Flat.

Section Alg.
Variable G : ECGroup.
Local Notation q := (order G).
Local Notation "a == b" := (cong q a b) (at level 70).
Local Notation Pq := (order_prime G).

Lemma miss_zero : forall n y w c x v, distinct q n y ->
  (forall i, (i < n)%nat -> w i == sum n (fun k => c k * y i ^ Z.of_nat k)) ->
  v == sum n (fun k => c k * x ^ Z.of_nat k) -> miss G n y w x v == 0.
Proof.
  intros n y w c x v D E V. unfold miss. rewrite V. apply (sub_cong0 q). apply sum_cong. intros k Hk.
  rewrite (coef_spec q Pq n y w c k D Hk E). reflexivity.
Qed.

Lemma miss_sum : forall n m y (beta : nat -> Z) (W : nat -> nat -> Z) x (V : nat -> Z),
  sum m (fun p => beta p * miss G n y (fun k => W k p) x (V p)) =
  miss G n y (fun k => sum m (fun p => beta p * W k p)) x (sum m (fun p => beta p * V p)).
Proof.
  intros n m y beta W x V. unfold miss.
  rewrite (sum_ext m _ (fun p => beta p * V p - sum n (fun k => beta p * coef q n y (fun i => W i p) k * x ^ Z.of_nat k))).
  - rewrite sum_sub, sum_swap. f_equal. apply sum_ext. intros k Hk. rewrite (coef_lin q n m y beta W), sum_mul_r. reflexivity.
  - intros p Hp. rewrite Z.mul_sub_distr_l, <- sum_mul_l. f_equal. apply sum_ext. intros. ring.
Qed.

Variables (R n d : nat) (t : bp_tree G d).
Local Notation N := (R * n)%nat.
Local Notation M := (2 * (R * n) + 3)%nat.
Variables (gm et : nat -> Z) (lg lh lu lA : Z) (lS : nat -> Z) (lT1 lT2 : nat -> nat -> Z) (lC : nat -> Z).
Local Notation beta := (flat N gm et lg lh lu).
Local Notation y := (ty G t). Local Notation z := (tz G t). Local Notation x := (tch G t). Local Notation e := (te G t).

Hypothesis Dy : distinct q N y.
Hypothesis Uy : forall i, (i < N)%nat -> ~ y i == 0.
Hypothesis Dz : forall i, (i < N)%nat -> distinct q (n + 2) (z i).
Hypothesis Dx : forall i j, (i < N)%nat -> (j < n + 2)%nat -> distinct q 3 (x i j).
Hypothesis De : forall i j k, (i < N)%nat -> (j < n + 2)%nat -> (k < 3)%nat -> distinct q 2 (e i j k).
Hypothesis HR : (0 < R)%nat.
Hypothesis Hn : (0 < n)%nat.

Hypothesis H2 : forall i j k l, (i < N)%nat -> (j < n + 2)%nat -> (k < 3)%nat -> (l < 2)%nat ->
  sum M (fun p => beta p * repAS G R n d t i j k l p) == lA + x i j k * lS i.
Hypothesis H4 : forall i j k l, (i < N)%nat -> (j < n + 2)%nat -> (k < 3)%nat -> (l < 2)%nat ->
  lg * ttaux G t i j k l + lh * ttx G t i j k l ==
  sum n (fun c => lC c * z i j ^ Z.of_nat (c + 2)) + lh * delta_val R n (y i) (z i j) + lT1 i j * x i j k + lT2 i j * (x i j k * x i j k).

Definition c2 (i : nat) (m : nat) : Z := match m with 0%nat => lA | _ => lS i end.

Lemma H2' : forall i j k l, (i < N)%nat -> (j < n + 2)%nat -> (k < 3)%nat -> (l < 2)%nat ->
  sum M (fun p => beta p * repAS G R n d t i j k l p) == sum 2 (fun m => c2 i m * x i j k ^ Z.of_nat m).
Proof.
  intros i j k l Hi Hj Hk Hl. rewrite H2 by assumption. rewrite sum_two. cbn [c2]. change (Z.of_nat 0) with 0. change (Z.of_nat 1) with 1.
  apply cong_eq. ring.
Qed.

Lemma D2 : forall i j, (i < N)%nat -> (j < n + 2)%nat -> distinct q 2 (x i j).
Proof. intros i j Hi Hj. apply (distinct_sub q 3); [lia|]. apply Dx; assumption. Qed.

Lemma repA_ok : forall i j, (i < N)%nat -> (j < n + 2)%nat -> sum M (fun p => beta p * repA G R n d t i j p) == lA.
Proof.
  intros i j Hi Hj. unfold repA. rewrite <- (coef_lin q 2 M (x i j) beta (fun k p => repAS G R n d t i j k 0 p)).
  apply (coef_spec q Pq 2 (x i j) _ (c2 i) 0); [apply D2; assumption|lia|]. intros k Hk. apply H2'; lia.
Qed.

Lemma rel2_ok : forall i j k l, (i < N)%nat -> (j < n + 2)%nat -> (k < 3)%nat -> (l < 2)%nat ->
  sum M (fun p => beta p * el (rel2 G R n d t i j k l) p) == 0.
Proof.
  intros i j k l Hi Hj Hk Hl. unfold rel2.
  rewrite (sum_ext M _ (fun p => beta p * miss G 2 (x i j) (fun k => repAS G R n d t i j k 0 p) (x i j k) (repAS G R n d t i j k l p))) by (intros; rewrite el_tab by assumption; reflexivity).
  rewrite (miss_sum 2 M (x i j) beta (fun k p => repAS G R n d t i j k 0 p)).
  apply (miss_zero 2 _ _ (c2 i)); [apply D2; assumption| |apply H2'; assumption]. intros a Ha. apply H2'; lia.
Qed.

Lemma rel3_ok : forall i j k l, (i < N)%nat -> (j < n + 2)%nat ->
  sum M (fun p => beta p * el (rel3 G R n d t i j k l) p) == 0.
Proof.
  intros i j k l Hi Hj. unfold rel3.
  rewrite (sum_ext M _ (fun p => beta p * repA G R n d t i j p - beta p * repA G R n d t 0 0 p)) by (intros; rewrite el_tab by assumption; ring).
  rewrite sum_sub, !repA_ok by lia. apply cong_eq. ring.
Qed.

Definition c3 (i j : nat) (m : nat) : Z :=
  match m with 0%nat => sum n (fun c => lC c * z i j ^ Z.of_nat (c + 2)) + lh * delta_val R n (y i) (z i j) | 1%nat => lT1 i j | _ => lT2 i j end.

Lemma H4' : forall i j k l, (i < N)%nat -> (j < n + 2)%nat -> (k < 3)%nat -> (l < 2)%nat ->
  lg * ttaux G t i j k l + lh * ttx G t i j k l == sum 3 (fun m => c3 i j m * x i j k ^ Z.of_nat m).
Proof.
  intros i j k l Hi Hj Hk Hl. rewrite H4 by assumption. rewrite sum_three. cbn [c3]. change (Z.of_nat 0) with 0. change (Z.of_nat 1) with 1. change (Z.of_nat 2) with 2.
  apply cong_eq. ring.
Qed.

Lemma flat_two : forall cg ch, sum M (fun p => beta p * el (tab M (flat N none none cg ch 0)) p) = lg * cg + lh * ch.
Proof.
  intros cg ch. rewrite (sum_ext M _ (fun p => beta p * flat N none none cg ch 0 p)) by (intros; rewrite el_tab by assumption; reflexivity).
  rewrite flat_dot. unfold none.
  rewrite (sum_ext N (fun p => gm p * 0) (fun _ => 0)), (sum_ext N (fun p => et p * 0) (fun _ => 0)) by (intros; ring). rewrite sum_zero. ring.
Qed.

Lemma miss_lin : forall m w x0 (f g : nat -> Z) u v a b,
  a * miss G m w f x0 u + b * miss G m w g x0 v = miss G m w (fun k => a * f k + b * g k) x0 (a * u + b * v).
Proof.
  intros. unfold miss. rewrite (sum_ext m (fun k => coef q m w (fun k0 => a * f k0 + b * g k0) k * x0 ^ Z.of_nat k)
    (fun k => a * (coef q m w f k * x0 ^ Z.of_nat k) + b * (coef q m w g k * x0 ^ Z.of_nat k))).
  - rewrite sum_add, !sum_mul_l. ring.
  - intros k Hk. rewrite coef_add, !coef_scale. ring.
Qed.

Lemma rel4_ok : forall i j k l, (i < N)%nat -> (j < n + 2)%nat -> (k < 3)%nat -> (l < 2)%nat ->
  sum M (fun p => beta p * el (rel4 G R n d t i j k l) p) == 0.
Proof.
  intros i j k l Hi Hj Hk Hl. unfold rel4. rewrite flat_two, miss_lin.
  apply (miss_zero 3 _ _ (c3 i j)); [apply Dx; assumption| |apply H4'; assumption]. intros a Ha. apply H4'; lia.
Qed.

Lemma K_ok : forall i j, (i < N)%nat -> (j < n + 2)%nat ->
  lg * tau0 G d t i j + lh * t0 G R n d t i j == sum n (fun c => lC c * z i j ^ Z.of_nat (c + 2)).
Proof.
  intros i j Hi Hj. unfold tau0, t0. rewrite Z.mul_sub_distr_l, Z.add_sub_assoc, <- !coef_scale, <- coef_add.
  rewrite (coef_spec q Pq 3 (x i j) _ (c3 i j) 0); [cbn [c3]; apply cong_eq; ring|apply Dx; assumption|lia|].
  intros k Hk. apply H4'; lia.
Qed.

Definition c5 (m : nat) : Z := match m with 0%nat => 0 | 1%nat => 0 | S (S c) => lC c end.

Lemma shift2 : forall (f : nat -> Z) Z0, sum (n + 2) (fun k => (match k with 0%nat => 0 | 1%nat => 0 | S (S c) => f c end) * Z0 ^ Z.of_nat k) = sum n (fun c => f c * Z0 ^ Z.of_nat (c + 2)).
Proof.
  intros f Z0. rewrite (Nat.add_comm n 2), sum_split, sum_two.
  rewrite (sum_ext n (fun i => _) (fun c => f c * Z0 ^ Z.of_nat (c + 2))); [ring|].
  intros c Hc. cbn [Nat.add]. rewrite (Nat.add_comm c 2). reflexivity.
Qed.

Lemma open_ok : forall c, (c < n)%nat -> lg * rho G n d t c + lh * val G R n d t c == lC c.
Proof.
  intros c Hc. unfold rho, val. rewrite <- !coef_scale, <- coef_add.
  rewrite (coef_spec q Pq (n + 2) (z 0%nat) _ c5 (c + 2)); [rewrite (Nat.add_comm c 2); reflexivity|apply Dz; nia|lia|].
  intros j Hj. rewrite K_ok by nia. unfold c5. rewrite (shift2 lC). reflexivity.
Qed.

Lemma rel5_ok : forall i j k l, (i < N)%nat -> (j < n + 2)%nat ->
  sum M (fun p => beta p * el (rel5 G R n d t i j k l) p) == 0.
Proof.
  intros i j k l Hi Hj. unfold rel5. rewrite flat_two.
  transitivity (lg * tau0 G d t i j + lh * t0 G R n d t i j - sum n (fun c => (lg * rho G n d t c + lh * val G R n d t c) * z i j ^ Z.of_nat (c + 2))).
  - apply cong_eq. rewrite (sum_ext n (fun c => (lg * rho G n d t c + lh * val G R n d t c) * z i j ^ Z.of_nat (c + 2))
      (fun c => lg * (rho G n d t c * z i j ^ Z.of_nat (c + 2)) + lh * (val G R n d t c * z i j ^ Z.of_nat (c + 2)))) by (intros; ring).
    rewrite sum_add, !sum_mul_l. ring.
  - rewrite K_ok by assumption. apply (sub_cong0 q). apply sum_cong. intros c Hc. rewrite open_ok by exact Hc. reflexivity.
Qed.

(** ** when all the tests succeed *)
Hypothesis F2 : forall i j k l p, (i < N)%nat -> (j < n + 2)%nat -> (k < 3)%nat -> (l < 2)%nat -> (p < M)%nat ->
  miss G 2 (x i j) (fun k => repAS G R n d t i j k 0 p) (x i j k) (repAS G R n d t i j k l p) == 0.
Hypothesis F3 : forall i j p, (i < N)%nat -> (j < n + 2)%nat -> (p < M)%nat -> repA G R n d t i j p == repA G R n d t 0 0 p.
Hypothesis F4 : forall i j k l, (i < N)%nat -> (j < n + 2)%nat -> (k < 3)%nat -> (l < 2)%nat ->
  miss G 3 (x i j) (fun k => ttx G t i j k 0) (x i j k) (ttx G t i j k l) == 0.
Hypothesis F5 : forall i j, (i < N)%nat -> (j < n + 2)%nat ->
  t0 G R n d t i j == sum n (fun c => val G R n d t c * z i j ^ Z.of_nat (c + 2)).

Local Notation lv i j k l := (fst_of (ipf G d t i j k l)).
Local Notation rv i j k l := (snd_of (ipf G d t i j k l)).
Definition al (p : nat) : Z := repA G R n d t 0 0 p.
Definition si (i j p : nat) : Z := coef q 2 (x i j) (fun k => repAS G R n d t i j k 0 p) 1.

Lemma AS_line : forall i j k l p, (i < N)%nat -> (j < n + 2)%nat -> (k < 3)%nat -> (l < 2)%nat -> (p < M)%nat ->
  repAS G R n d t i j k l p == al p + x i j k * si i j p.
Proof.
  intros i j k l p Hi Hj Hk Hl Hp. pose proof (F2 i j k l p Hi Hj Hk Hl Hp) as F. unfold miss in F. rewrite (sub_cong0 q) in F. rewrite F, sum_two.
  change (Z.of_nat 0) with 0. change (Z.of_nat 1) with 1. fold (si i j p). fold (repA G R n d t i j p). rewrite (F3 i j p) by assumption. unfold al. apply cong_eq. ring.
Qed.

Lemma yinv_ok : forall i p, (i < N)%nat -> yinv G d t i p * y i ^ Z.of_nat p == 1.
Proof. intros i p Hi. unfold yinv. apply (pow_inv G). apply Uy. exact Hi. Qed.

Lemma lv_ok : forall i j k l p, (i < N)%nat -> (j < n + 2)%nat -> (k < 3)%nat -> (l < 2)%nat -> (p < N)%nat ->
  el (lv i j k l) p == al p - z i j + x i j k * si i j p.
Proof.
  intros i j k l p Hi Hj Hk Hl Hp. pose proof (AS_line i j k l p Hi Hj Hk Hl ltac:(lia)) as E. unfold repAS in E. cbv zeta in E.
  rewrite flat_a in E by exact Hp. transitivity (el (lv i j k l) p + z i j - z i j); [apply cong_eq; ring|]. rewrite E. apply cong_eq. ring.
Qed.

Lemma rv_ok : forall i j k l p, (i < N)%nat -> (j < n + 2)%nat -> (k < 3)%nat -> (l < 2)%nat -> (p < N)%nat ->
  el (rv i j k l) p == y i ^ Z.of_nat p * (al (N + p) + z i j) + zblock R (z i j) p + x i j k * (y i ^ Z.of_nat p * si i j (N + p)).
Proof.
  intros i j k l p Hi Hj Hk Hl Hp. pose proof (AS_line i j k l (N + p)%nat Hi Hj Hk Hl ltac:(lia)) as E. unfold repAS in E. cbv zeta in E.
  rewrite flat_b in E by exact Hp. pose proof (yinv_ok i p Hi) as Y. set (w := yinv G d t i p) in *. set (yp := y i ^ Z.of_nat p) in *. clearbody w yp.
  set (r := el (rv i j k l) p) in *. clearbody r.
  transitivity (yp * (w * (r - (yp * z i j + zblock R (z i j) p))) + (yp * z i j + zblock R (z i j) p) + (1 - w * yp) * (r - (yp * z i j + zblock R (z i j) p))); [apply cong_eq; ring|].
  rewrite E, Y. apply cong_eq. ring.
Qed.

(** the inner product of the extracted vectors as a polynomial in x *)
Definition I0 (i j : nat) : Z := sum N (fun p => (al p - z i j) * (y i ^ Z.of_nat p * (al (N + p) + z i j) + zblock R (z i j) p)).
Definition cI (i j m : nat) : Z :=
  match m with
  | 0%nat => I0 i j
  | 1%nat => sum N (fun p => (al p - z i j) * (y i ^ Z.of_nat p * si i j (N + p)) + si i j p * (y i ^ Z.of_nat p * (al (N + p) + z i j) + zblock R (z i j) p))
  | _ => sum N (fun p => si i j p * (y i ^ Z.of_nat p * si i j (N + p)))
  end.

Lemma inner_ok : forall i j k l, (i < N)%nat -> (j < n + 2)%nat -> (k < 3)%nat -> (l < 2)%nat ->
  sum N (fun p => el (lv i j k l) p * el (rv i j k l) p) == sum 3 (fun m => cI i j m * x i j k ^ Z.of_nat m).
Proof.
  intros i j k l Hi Hj Hk Hl.
  transitivity (sum N (fun p => (al p - z i j + x i j k * si i j p) * (y i ^ Z.of_nat p * (al (N + p) + z i j) + zblock R (z i j) p + x i j k * (y i ^ Z.of_nat p * si i j (N + p))))).
  { apply sum_cong. intros p Hp. rewrite lv_ok, rv_ok by assumption. reflexivity. }
  rewrite sum_three. cbn [cI]. unfold I0. change (Z.of_nat 0) with 0. change (Z.of_nat 1) with 1. change (Z.of_nat 2) with 2.
  rewrite <- !sum_mul_r, <- !sum_add. apply cong_eq. apply sum_ext. intros p Hp. ring.
Qed.

Lemma tx_same : forall i j k, (i < N)%nat -> (j < n + 2)%nat -> (k < 3)%nat -> ttx G t i j k 1 == ttx G t i j k 0.
Proof.
  intros i j k Hi Hj Hk. pose proof (F4 i j k 1 Hi Hj Hk ltac:(lia)) as F1. pose proof (F4 i j k 0 Hi Hj Hk ltac:(lia)) as F0.
  unfold miss in F0, F1. rewrite (sub_cong0 q) in F0, F1. rewrite F1, F0. reflexivity.
Qed.

Lemma tx_inner : forall i j k, (i < N)%nat -> (j < n + 2)%nat -> (k < 3)%nat ->
  ttx G t i j k 0 == sum 3 (fun m => cI i j m * x i j k ^ Z.of_nat m).
Proof.
  intros i j k Hi Hj Hk.
  assert (U : forall l, (l < 2)%nat -> e i j k l * (sum N (fun p => el (lv i j k l) p * el (rv i j k l) p) - ttx G t i j k l) == al (2 * N + 2) + x i j k * si i j (2 * N + 2)).
  { intros l Hl. rewrite <- (AS_line i j k l (2 * N + 2)%nat Hi Hj Hk Hl ltac:(lia)). unfold repAS. cbv zeta. rewrite flat_u. reflexivity. }
  pose proof (U 0%nat ltac:(lia)) as U0. pose proof (U 1%nat ltac:(lia)) as U1. rewrite inner_ok in U0, U1 by (assumption || lia). rewrite tx_same in U1 by assumption.
  set (I := sum 3 (fun m => cI i j m * x i j k ^ Z.of_nat m)) in *.
  symmetry. apply (sub_cong0 q). apply (cancel_q q Pq (e i j k 0%nat - e i j k 1%nat)).
  - rewrite (sub_cong0 q). apply (De i j k Hi Hj Hk); lia.
  - rewrite Z.mul_sub_distr_r, U0, U1. apply cong_eq. ring.
Qed.

Lemma t0_I0 : forall i j, (i < N)%nat -> (j < n + 2)%nat -> t0 G R n d t i j == I0 i j - delta_val R n (y i) (z i j).
Proof.
  intros i j Hi Hj. unfold t0. rewrite (coef_spec q Pq 3 (x i j) _ (cI i j) 0); [reflexivity|apply Dx; assumption|lia|].
  intros k Hk. apply tx_inner; assumption.
Qed.

(** the value coded by the bits of commitment c *)
Definition low_of (c : nat) : Z := sum R (fun m => al (c * R + m) * 2 ^ Z.of_nat m).

Lemma zblock_sum : forall (f : nat -> Z) Z0, sum N (fun p => f p * zblock R Z0 p) = sum n (fun c => sum R (fun m => f (c * R + m)%nat * 2 ^ Z.of_nat m) * Z0 ^ Z.of_nat (c + 2)).
Proof.
  intros f Z0.
  rewrite (sum_ext N _ (fun p => f ((p / R) * R + p mod R)%nat * (Z0 ^ Z.of_nat (S (S (p / R))) * 2 ^ Z.of_nat (p mod R)))).
  2:{ intros p Hp. unfold zblock. f_equal. f_equal. rewrite (Nat.div_mod p R) at 1 by lia. lia. }
  rewrite (sum_block R n (fun c m => f (c * R + m)%nat * (Z0 ^ Z.of_nat (S (S c)) * 2 ^ Z.of_nat m)) HR).
  apply sum_ext. intros c Hc. rewrite <- sum_mul_r. apply sum_ext. intros m Hm. replace (c + 2)%nat with (S (S c)) by lia. ring.
Qed.

Lemma I0_delta : forall i j, I0 i j - delta_val R n (y i) (z i j) =
  sum N (fun p => al p * al (N + p)%nat * y i ^ Z.of_nat p) + z i j * sum N (fun p => (al p - al (N + p)%nat - 1) * y i ^ Z.of_nat p)
  + sum n (fun c => low_of c * z i j ^ Z.of_nat (c + 2)).
Proof.
  intros i j. unfold low_of. rewrite <- (zblock_sum al). unfold delta_val.
  assert (Eb : sum n (fun j0 => z i j ^ Z.of_nat (S (S j0))) * z i j * sum R (fun i0 => 2 ^ Z.of_nat i0) = sum N (fun p => z i j * zblock R (z i j) p)).
  { rewrite (zblock_sum (fun _ => z i j)). rewrite (sum_ext n (fun c => sum R (fun m => z i j * 2 ^ Z.of_nat m) * z i j ^ Z.of_nat (c + 2))
      (fun c => z i j ^ Z.of_nat (S (S c)) * (z i j * sum R (fun i0 => 2 ^ Z.of_nat i0)))).
    - rewrite sum_mul_r. ring.
    - intros c Hc. rewrite sum_mul_l. replace (c + 2)%nat with (S (S c)) by lia. ring. }
  rewrite Eb. unfold I0. rewrite <- !sum_mul_l, <- !sum_add, <- !sum_sub. apply sum_ext. intros p Hp. ring.
Qed.

Lemma poly_z : forall i, (i < N)%nat ->
  sum N (fun p => al p * al (N + p)%nat * y i ^ Z.of_nat p) == 0 /\
  sum N (fun p => (al p - al (N + p)%nat - 1) * y i ^ Z.of_nat p) == 0 /\
  forall c, (c < n)%nat -> low_of c == val G R n d t c.
Proof.
  intros i Hi.
  set (f := fun k => match k with
    | 0%nat => sum N (fun p => al p * al (N + p)%nat * y i ^ Z.of_nat p)
    | 1%nat => sum N (fun p => (al p - al (N + p)%nat - 1) * y i ^ Z.of_nat p)
    | S (S c) => low_of c - val G R n d t c end).
  assert (Z0 : forall k, (k < n + 2)%nat -> f k == 0).
  { apply (poly_zero q Pq (n + 2) (z i) f (Dz i Hi)). intros j Hj.
    transitivity (t0 G R n d t i j - sum n (fun c => val G R n d t c * z i j ^ Z.of_nat (c + 2))).
    - rewrite t0_I0 by assumption. rewrite I0_delta. apply cong_eq. rewrite (Nat.add_comm n 2), sum_split, sum_two.
      rewrite (sum_ext n (fun i0 => f (2 + i0)%nat * z i j ^ Z.of_nat (2 + i0)) (fun c => low_of c * z i j ^ Z.of_nat (c + 2) - val G R n d t c * z i j ^ Z.of_nat (c + 2))).
      + rewrite sum_sub. cbn [f]. change (Z.of_nat 0) with 0. change (Z.of_nat 1) with 1. ring.
      + intros c Hc. cbn [f Nat.add]. replace (c + 2)%nat with (S (S c)) by lia. ring.
    - rewrite F5 by assumption. apply cong_eq. ring. }
  split; [apply (Z0 0%nat); lia|]. split; [apply (Z0 1%nat); lia|]. intros c Hc. apply (sub_cong0 q). apply (Z0 (S (S c))). lia.
Qed.

Lemma bits : forall p, (p < N)%nat -> al p == 0 \/ al p == 1.
Proof.
  intros p Hp.
  assert (E0 : al p * al (N + p)%nat == 0).
  { apply (poly_zero q Pq N y (fun p => al p * al (N + p)%nat) Dy); [|exact Hp]. intros i Hi. exact (proj1 (poly_z i Hi)). }
  assert (E1 : al p - al (N + p)%nat - 1 == 0).
  { apply (poly_zero q Pq N y (fun p => al p - al (N + p)%nat - 1) Dy); [|exact Hp]. intros i Hi. exact (proj1 (proj2 (poly_z i Hi))). }
  destruct (Z.eq_dec (al p mod q) 0) as [Z0|NZ].
  - left. apply (cong0_mod q Pq). exact Z0.
  - right. assert (NZ' : ~ al p == 0) by (rewrite (cong0_mod q Pq); exact NZ). pose proof (cancel_q q Pq _ _ NZ' E0) as E2. rewrite E2 in E1.
    apply (sub_cong0 q). rewrite <- E1. apply cong_eq. ring.
Qed.

Lemma bit_mod : forall p, (p < N)%nat -> al p mod q = 0 \/ al p mod q = 1.
Proof.
  intros p Hp. pose proof (order_gt1 G) as Q. destruct (bits p Hp) as [B|B].
  - left. apply (cong0_mod q Pq). exact B.
  - right. apply cong_mod in B; [|lia]. rewrite B. apply Z.mod_1_l. exact Q.
Qed.

Definition value (c : nat) : Z := sum R (fun m => al (c * R + m) mod q * 2 ^ Z.of_nat m).

Lemma value_range : forall c, (c < n)%nat -> in_range R (value c).
Proof.
  intros c Hc. unfold in_range, value.
  assert (X : forall k, (k <= R)%nat -> 0 <= sum k (fun m => al (c * R + m) mod q * 2 ^ Z.of_nat m) < 2 ^ Z.of_nat k).
  { induction k as [|k IH]; intros Hk; [rewrite sum_0; cbn; lia|]. rewrite sum_S, Nat2Z.inj_succ, Z.pow_succ_r by lia.
    specialize (IH ltac:(lia)). assert (B : (c * R + k < N)%nat) by nia. destruct (bit_mod _ B) as [->| ->]; lia. }
  apply X. lia.
Qed.

Lemma value_val : forall c, (c < n)%nat -> value c == val G R n d t c.
Proof.
  intros c Hc. rewrite <- (proj2 (proj2 (poly_z 0 ltac:(nia))) c Hc). unfold value, low_of. apply sum_cong. intros m Hm.
  rewrite cong_modl by apply order_pos. reflexivity.
Qed.

Lemma value_opens : forall c, (c < n)%nat -> lC c == lg * rho G n d t c + lh * value c.
Proof. intros c Hc. rewrite value_val by exact Hc. symmetry. apply open_ok. exact Hc. Qed.
End Alg.

(** ** from the proofs to the equations *)
Lemma el_map2 : forall a b p, (p < length a)%nat -> (p < length b)%nat -> nth p (map2 Z.mul a b) 0 = nth p a 0 * nth p b 0.
Proof.
  induction a as [|x a IH]; intros [|y b] [|p] Ha Hb; cbn [length] in *; try lia; cbn [map2 nth]; [reflexivity|]. apply IH; lia.
Qed.

Lemma fin_choice : forall (A : Type) (a0 : A) m (P : nat -> A -> Prop), (forall i, (i < m)%nat -> exists a, P i a) ->
  exists f, forall i, (i < m)%nat -> P i (f i).
Proof.
  intros A a0 m P. induction m as [|m IH]; intros E; [exists (fun _ => a0); intros; lia|].
  destruct IH as [f Ef]; [intros i Hi; apply E; lia|]. destruct (E m ltac:(lia)) as [a Ea].
  exists (fun i => if (i =? m)%nat then a else f i). intros i Hi. destruct (Nat.eqb_spec i m) as [->|Ne]; [exact Ea|]. apply Ef. lia.
Qed.

Lemma all4_In : forall R n (f : nat -> nat -> nat -> nat -> list Z) e, In e (all4 R n f) <->
  exists i j k l, ((i < R * n)%nat /\ (j < n + 2)%nat /\ (k < 3)%nat /\ (l < 2)%nat) /\ e = f i j k l.
Proof.
  intros R n f e. unfold all4. rewrite in_flat_map. setoid_rewrite in_flat_map. setoid_rewrite in_flat_map. setoid_rewrite in_map_iff. setoid_rewrite in_seq. split.
  - intros [i [Hi [j [Hj [k [Hk [l [El Hl]]]]]]]]. exists i, j, k, l. repeat split; try lia. congruence.
  - intros [i [j [k [l [[Hi [Hj [Hk Hl]]] E]]]]]. exists i. split; [lia|]. exists j. split; [lia|]. exists k. split; [lia|]. exists l. split; [congruence|lia].
Qed.

Section Group.
Variable G : ECGroup.
Local Notation q := (order G).
Local Notation gen := (pgen G).
Local Infix "+p" := (padd G) (at level 50, left associativity).
Local Infix "-p" := (psub G) (at level 50, left associativity).
Local Notation "P *p k" := (pmul G P k%Z) (at level 40, left associativity).
Local Notation "a == b" := (cong q a b) (at level 70).
Local Notation Pq := (order_prime G).

Lemma bad_some : forall l e, bad G l = Some e -> In e l /\ zeros q e = false.
Proof. intros l e E. apply find_some in E. destruct E as [I N]. apply negb_true_iff in N. auto. Qed.
Lemma bad_none : forall l e, bad G l = None -> In e l -> zeros q e = true.
Proof. intros l e E I. pose proof (find_none _ _ E e I) as N. cbv beta in N. apply negb_false_iff in N. exact N. Qed.

Lemma good_branch : forall m (u : ip_tree G m) w, good_tree G m u -> is_branch m w -> nonzero G (snd (branch G m u w)).
Proof.
  induction m as [|m IH]; intros u w Gt [Lw Fw]; cbn [branch snd]; [constructor|]. destruct w as [|i w]; [discriminate|].
  cbn [good_tree] in Gt. destruct Gt as [Un [_ Gc]]. inversion_clear Fw as [|? ? Hi Fw']. cbn [nth skipn]. constructor; [exact (Un i Hi)|].
  apply IH; [apply Gc; exact Hi|]. split; [cbn [length] in Lw; lia|exact Fw'].
Qed.

Variables (pp : BPPP G) (C : list (pt G)) (d : nat) (t : bp_tree G d).
Local Notation R := (bp_range G pp). Local Notation n := (length C). Local Notation N := (bp_range G pp * length C)%nat.
Hypothesis EL : (bp_range G pp * length C = 2 ^ d)%nat.
Hypothesis Hd : (d < 64)%nat.
Hypothesis Good : bp_good G pp C t.
Hypothesis Acc : bp_accepted G pp C t.

Definition PVt (i j k l : nat) : pt G :=
  msum G (firstn N (bp_vg G pp)) (map (fun _ => - tz G t i j) (seq 0 N)) +p
  msum G (hsc G pp N (ty G t i)) (map (fun p => ty G t i ^ Z.of_nat p * tz G t i j + zblock R (tz G t i j) p) (seq 0 N)) +p
  tA G t +p tS G t i *p tch G t i j k -p bp_h G pp *p tmu G t i j k l +p bp_u G pp *p te G t i j k l *p ttx G t i j k l.

Definition rng (i j k l : nat) : Prop := (i < N)%nat /\ (j < n + 2)%nat /\ (k < 3)%nat /\ (l < 2)%nat.

Lemma branch_eqs : forall i j k l w, rng i j k l -> is_branch d w ->
  (2 ^ d <= length (bp_vg G pp))%nat /\ (2 ^ d <= length (bp_vh G pp))%nat /\
  bp_g G pp *p ttaux G t i j k l +p bp_h G pp *p ttx G t i j k l =
    msum G C (zpow n (tz G t i j)) +p bp_h G pp *p delta_val R n (ty G t i) (tz G t i j) +p tT1 G t i j *p tch G t i j k
    +p tT2 G t i j *p (tch G t i j k * tch G t i j k) /\
  ip_eq G (firstn N (bp_vg G pp)) (hsc G pp N (ty G t i)) (bp_u G pp *p te G t i j k l) (PVt i j k l)
    (ipL G (fst (branch G d (tip G t i j k l) w))) (ipR G (fst (branch G d (tip G t i j k l) w)))
    (snd (branch G d (tip G t i j k l) w)) (ipa G (fst (branch G d (tip G t i j k l) w))) (ipb G (fst (branch G d (tip G t i j k l) w))).
Proof.
  intros i j k l w [Hi [Hj [Hk Hl]]] Hw. destruct (Acc i j k l w Hi Hj Hk Hl Hw) as [H [tr [tr' [Ey [Ez [Ex [Ee [Ei V]]]]]]]].
  set (p := bp_branch G t i j k l w) in *.
  assert (B : (N.of_nat N < 2 ^ 64)%N) by (rewrite EL, of_nat_pow2; apply N.pow_lt_mono_r; lia).
  pose proof (verify_dims G H pp C tr p _ B V) as D. pose proof D as [m [Em [_ [Lg [Lh _]]]]]. rewrite <- Em, EL in Lg, Lh.
  split; [exact Lg|]. split; [exact Lh|].
  rewrite BP_Verify_spec in V by exact D. injection V as V _. apply andb_prop in V. rewrite !peqb_true in V. destruct V as [V1 V2].
  destruct (ch_of G H tr p) as [Cy [Cz [Cx Ci]]]. rewrite Ey in Cy. rewrite Ez in Cz. rewrite Ex in Cx. rewrite Ei in Ci.
  assert (Ce : che G H tr p = te G t i j k l).
  { rewrite <- Ee. unfold che, e_of, x_of, tr4, tr3, tr2, tr1. rewrite <- !app_assoc. reflexivity. }
  split.
  - unfold E1 in V1. rewrite Cy, Cz, Cx in V1. cbn [p bp_branch bpT1 bpT2 bptaux bptx] in V1.
    apply (f_equal (fun P => P +p (bp_g G pp *p ttaux G t i j k l +p bp_h G pp *p ttx G t i j k l))) in V1. rewrite padd_inf_l in V1. rewrite <- V1.
    generalize (msum G C (zpow n (tz G t i j))). bpgen. generalize (tT1 G t i j) (tT2 G t i j). clear. intros. logs G. gring.
  - unfold E2 in V2. rewrite Cy, Ce, Ci in V2.
    assert (EP : PV G H pp C tr p = PVt i j k l).
    { unfold PV, PVt. rewrite Cy, Cz, Cx, Ce. reflexivity. }
    rewrite EP in V2. cbn [p bp_branch bpip] in V2.
    rewrite <- ip_eq_iff.
    + apply peqb_true. rewrite bool_psub. apply peqb_true. exact V2.
    + apply good_branch; [|exact Hw]. apply (proj2 (proj2 (proj2 (proj2 Good))) i j k l Hi Hj Hk Hl).
Qed.

Lemma some_branch : is_branch d (repeat 0%nat d).
Proof. split; [apply repeat_length|]. apply Forall_forall. intros x I. apply repeat_spec in I. subst x. lia. Qed.

Lemma N_pos : (0 < N)%nat.
Proof. rewrite EL. pose proof (pow2_pos d). lia. Qed.

Lemma rng0 : rng 0 0 0 0.
Proof. pose proof N_pos. unfold rng. lia. Qed.

Lemma lens : length (firstn N (bp_vg G pp)) = N /\ length (firstn N (bp_vh G pp)) = N.
Proof.
  destruct (branch_eqs 0 0 0 0 _ rng0 some_branch) as [Lg [Lh _]]. rewrite <- EL in Lg, Lh. split; apply firstn_len; assumption.
Qed.

Lemma hsc_length : forall y, length (hsc G pp N y) = N.
Proof. intros y. unfold hsc. rewrite map2_length, (proj2 lens), map_length, seq_length. lia. Qed.

Lemma ipf_ok : forall i j k l, rng i j k l ->
  ip_found_ok G (firstn N (bp_vg G pp)) (hsc G pp N (ty G t i)) (bp_u G pp *p te G t i j k l) (PVt i j k l) (ipf G d t i j k l) /\
  length (fst_of (ipf G d t i j k l)) = N /\ length (snd_of (ipf G d t i j k l)) = N.
Proof.
  intros i j k l Hr. unfold ipf.
  destruct (tree_sound G d (firstn N (bp_vg G pp)) (hsc G pp N (ty G t i)) (bp_u G pp *p te G t i j k l) (PVt i j k l) (tip G t i j k l)) as [Ok [La Lb]].
  - rewrite (proj1 lens). exact EL.
  - rewrite hsc_length. exact EL.
  - destruct Hr as [Hi [Hj [Hk Hl]]]. apply (proj2 (proj2 (proj2 (proj2 Good))) i j k l Hi Hj Hk Hl).
  - intros w Hw. apply branch_eqs; assumption.
  - split; [exact Ok|]. split; [rewrite La|rewrite Lb]; symmetry; exact EL.
Qed.

Local Notation bases := (firstn (bp_range G pp * length C) (bp_vg G pp) ++ firstn (bp_range G pp * length C) (bp_vh G pp) ++ [bp_g G pp; bp_h G pp; bp_u G pp]).
Local Notation M := (2 * (bp_range G pp * length C) + 3)%nat.

(** everything in exponents of the generator *)
Section Logs.
Variables (lgm let' : list Z) (lg lh lu lA : Z).
Hypothesis Egm : firstn N (bp_vg G pp) = map (pmul G gen) lgm.
Hypothesis Eet : firstn N (bp_vh G pp) = map (pmul G gen) let'.
Hypothesis Eg : bp_g G pp = gen *p lg.
Hypothesis Eh : bp_h G pp = gen *p lh.
Hypothesis Eu : bp_u G pp = gen *p lu.
Hypothesis EA : tA G t = gen *p lA.
Local Notation beta := (flat (bp_range G pp * length C) (el lgm) (el let') lg lh lu).

Lemma log_lens : length lgm = N /\ length let' = N.
Proof.
  destruct lens as [A B]. rewrite Egm, map_length in A. rewrite Eet, map_length in B. auto.
Qed.

Lemma rel_relation : forall e, length e = M -> sum M (fun p => beta p * el e p) == 0 -> zeros q e = false -> relation G bases e.
Proof.
  intros e Le S0 NZ. destruct log_lens as [La Lb]. unfold relation. split; [|split; [|exact NZ]].
  - rewrite !app_length, (proj1 lens), (proj2 lens). cbn [length]. lia.
  - rewrite Egm, Eet, Eg, Eh, Eu. change [gen *p lg; gen *p lh; gen *p lu] with (map (pmul G gen) [lg; lh; lu]). rewrite <- !map_app.
    change (map (pmul G gen) (lgm ++ let' ++ [lg; lh; lu])) with (gl G (lgm ++ let' ++ [lg; lh; lu])).
    assert (Ll : length (lgm ++ let' ++ [lg; lh; lu]) = M) by (rewrite !app_length; cbn [length]; lia).
    rewrite msum_el by (rewrite Ll, Le; reflexivity). rewrite Ll, (g_inf G). apply gmul_cong. rewrite <- S0. apply cong_eq. apply sum_ext. intros p Hp. f_equal.
    unfold flat, el. destruct (Nat.ltb_spec p N) as [L1|L1]; [rewrite app_nth1 by lia; reflexivity|]. rewrite app_nth2, La by lia.
    destruct (Nat.ltb_spec p (2 * N)) as [L2|L2]; [rewrite app_nth1 by lia; reflexivity|]. rewrite app_nth2, Lb by lia.
    destruct (Nat.eqb_spec p (2 * N)) as [->|N0]; [replace (2 * N - N - N)%nat with 0%nat by lia; reflexivity|].
    destruct (Nat.eqb_spec p (2 * N + 1)) as [->|N1]; [replace (2 * N + 1 - N - N)%nat with 1%nat by lia; reflexivity|].
    replace (p - N - N)%nat with 2%nat by lia. reflexivity.
Qed.

Lemma vg_el : forall v, length v = N -> msum G (firstn N (bp_vg G pp)) v = gen *p sum N (fun p => el lgm p * el v p).
Proof.
  intros v Lv. destruct log_lens as [La Lb]. rewrite Egm. change (map (pmul G gen) lgm) with (gl G lgm). rewrite msum_el by lia. rewrite La. reflexivity.
Qed.

Lemma hsc_el : forall y v, length v = N -> msum G (hsc G pp N y) v = gen *p sum N (fun p => el let' p * (ModInverse y q ^ Z.of_nat p * el v p)).
Proof.
  intros y v Lv. destruct log_lens as [La Lb]. unfold hsc. rewrite msum_product by (rewrite map_length, seq_length; apply lens).
  rewrite Eet. change (map (pmul G gen) let') with (gl G let').
  assert (Lm : length (map2 Z.mul (map (fun i => ModInverse y q ^ Z.of_nat i) (seq 0 N)) v) = N) by (rewrite map2_length, map_length, seq_length; lia).
  rewrite msum_el by lia. rewrite Lb. f_equal. apply sum_ext. intros p Hp. f_equal. unfold el.
  rewrite el_map2 by (rewrite ?map_length, ?seq_length; lia).
  rewrite nth_map' with (d := 0%nat) by (rewrite seq_length; exact Hp). rewrite seq_nth by exact Hp. reflexivity.
Qed.

Lemma rel1_relation : forall i j k l, rng i j k l -> is_relation (ipf G d t i j k l) = true -> relation G bases (rel1 G R n d t i j k l).
Proof.
  intros i j k l Hr E. destruct (ipf_ok i j k l Hr) as [Ok [La Lb]]. unfold rel1. rewrite E.
  destruct Hr as [Hi [Hj [Hk Hl]]]. destruct Good as [Dy [Gz [Gx [Ge Gl]]]]. destruct (Gl i j k l Hi Hj Hk Hl) as [Ue _]. destruct (Gz i Hi) as [Uy _].
  destruct (ipf G d t i j k l) as [|a b c] eqn:Ei; [discriminate|]. cbn [fst_of snd_of exp_of ip_found_ok] in *.
  rewrite relation_split in Ok by (rewrite ?hsc_length, ?(proj1 lens); assumption). destruct Ok as [S0 NZ].
  apply rel_relation.
  - apply tab_length.
  - rewrite (sum_ext M _ (fun p => beta p * flat N (el a) (fun p => yinv G d t i p * el b p) 0 0 (te G t i j k l * c) p)) by (intros; rewrite el_tab by assumption; reflexivity).
    rewrite flat_dot. rewrite vg_el, hsc_el, Eu, (g_inf G), !pmul_mul, !g_add in S0 by assumption. apply gmul_inj in S0.
    etransitivity; [|exact S0]. unfold yinv. apply cong_eq. ring.
  - rewrite <- not_true_iff_false in NZ |- *. intros Z0. apply NZ. rewrite (zeros_tab q Pq) in Z0.
    rewrite !zeros_app, !andb_true_iff, (zeros_one q Pq), !(zeros_spec q Pq), La, Lb. split; [|split].
    + intros p Hp. specialize (Z0 p ltac:(lia)). rewrite flat_a in Z0 by exact Hp. exact Z0.
    + intros p Hp. specialize (Z0 (N + p)%nat ltac:(lia)). rewrite flat_b in Z0 by exact Hp.
      transitivity (el b p * (yinv G d t i p * ty G t i ^ Z.of_nat p)).
      * unfold yinv. rewrite (pow_inv G _ p Uy). apply cong_eq. ring.
      * transitivity (ty G t i ^ Z.of_nat p * (yinv G d t i p * el b p)); [apply cong_eq; ring|]. rewrite Z0. apply cong_eq. ring.
    + specialize (Z0 (2 * N + 2)%nat ltac:(lia)). rewrite flat_u in Z0. apply (cancel_q q Pq (te G t i j k l)); [exact Ue|exact Z0].
Qed.

Variable lS : nat -> Z.
Hypothesis ES : forall i, (i < N)%nat -> tS G t i = gen *p lS i.
Hypothesis NR : forall i j k l, rng i j k l -> is_relation (ipf G d t i j k l) = false.

Lemma eqAS : forall i j k l, rng i j k l -> sum M (fun p => beta p * repAS G R n d t i j k l p) == lA + tch G t i j k * lS i.
Proof.
  intros i j k l Hr. destruct (ipf_ok i j k l Hr) as [Ok [La Lb]]. specialize (NR i j k l Hr). unfold repAS. cbv zeta. rewrite flat_dot.
  destruct (ipf G d t i j k l) as [a b|] eqn:Ei; [|discriminate]. cbn [fst_of snd_of ip_found_ok] in *. destruct Ok as [_ [_ S0]].
  unfold ip_statement, PVt in S0. destruct Hr as [Hi _].
  rewrite !vg_el, !hsc_el, Eu, Eh, EA, (ES i Hi) in S0 by (rewrite ?map_length, ?seq_length; assumption || reflexivity).
  rewrite dot_el, La in S0 by lia. rewrite !pmul_mul in S0. repeat first [rewrite g_add in S0|rewrite g_sub in S0]. apply gmul_inj in S0.
  set (z := tz G t i j) in *. set (y := ty G t i) in *.
  rewrite (sum_ext N (fun p => el lgm p * el (map (fun _ => - z) (seq 0 N)) p) (fun p => el lgm p * - z)) in S0
    by (intros p Hp; f_equal; exact (el_tab N (fun _ => - z) p Hp)).
  rewrite (sum_ext N (fun p => el let' p * (ModInverse y q ^ Z.of_nat p * el (map (fun p0 => y ^ Z.of_nat p0 * z + zblock R z p0) (seq 0 N)) p))
    (fun p => el let' p * (ModInverse y q ^ Z.of_nat p * (y ^ Z.of_nat p * z + zblock R z p)))) in S0
    by (intros p Hp; f_equal; f_equal; exact (el_tab N (fun p0 => y ^ Z.of_nat p0 * z + zblock R z p0) p Hp)).
  rewrite (sum_ext N (fun p => el lgm p * (el a p + z)) (fun p => el lgm p * el a p - el lgm p * - z)) by (intros; ring).
  rewrite (sum_ext N (fun p => el let' p * (yinv G d t i p * (el b p - (y ^ Z.of_nat p * z + zblock R z p))))
    (fun p => el let' p * (ModInverse y q ^ Z.of_nat p * el b p) - el let' p * (ModInverse y q ^ Z.of_nat p * (y ^ Z.of_nat p * z + zblock R z p)))) by (intros; unfold yinv, y; ring).
  rewrite !sum_sub. revert S0.
  generalize (sum N (fun p => el lgm p * el a p)) (sum N (fun p => el lgm p * - z)) (sum N (fun p => el a p * el b p)).
  generalize (sum N (fun p => el let' p * (ModInverse y q ^ Z.of_nat p * el b p))) (sum N (fun p => el let' p * (ModInverse y q ^ Z.of_nat p * (y ^ Z.of_nat p * z + zblock R z p)))).
  clear. intros s1 s2 s3 s4 s5 S0. symmetry. apply (sub_cong0 q) in S0. apply (sub_cong0 q). symmetry. symmetry in S0. etransitivity; [exact S0|].
  apply cong_eq. ring.
Qed.
End Logs.

Theorem bp_sound : bp_found_ok G pp C (bp_extract G R n d t).
Proof.
  destruct (vec_log G (firstn N (bp_vg G pp))) as [lgm Egm]. destruct (vec_log G (firstn N (bp_vh G pp))) as [let' Eet].
  destruct (vec_log G C) as [lC EC].
  destruct (pgen_all G (bp_g G pp)) as [lg Eg]. destruct (pgen_all G (bp_h G pp)) as [lh Eh]. destruct (pgen_all G (bp_u G pp)) as [lu Eu].
  destruct (pgen_all G (tA G t)) as [lA EA].
  destruct (fin_choice Z 0 N (fun i a => tS G t i = gen *p a)) as [lS ES]; [intros i _; apply pgen_all|].
  assert (CT : forall (T : nat -> nat -> pt G), exists f : nat -> nat -> Z, forall i j, (i < N)%nat -> (j < n + 2)%nat -> T i j = gen *p f i j).
  { intros T. destruct (fin_choice (nat -> Z) (fun _ => 0) N (fun i f => forall j, (j < n + 2)%nat -> T i j = gen *p f j)) as [f Ef].
    - intros i _. apply (fin_choice Z 0 (n + 2) (fun j a => T i j = gen *p a)). intros j _. apply pgen_all.
    - exists f. intros i j Hi Hj. apply Ef; assumption. }
  destruct (CT (tT1 G t)) as [lT1 ET1]. destruct (CT (tT2 G t)) as [lT2 ET2].
  unfold bp_extract. destruct (bad G (all4 R n (rel1 G R n d t))) as [e|] eqn:B1.
  { apply bad_some in B1. destruct B1 as [I NZ]. apply all4_In in I. destruct I as [i [j [k [l [Hr ->]]]]]. cbn [bp_found_ok].
    apply (rel1_relation lgm let' lg lh lu Egm Eet Eg Eh Eu); [exact Hr|]. unfold rel1 in NZ. destruct (is_relation _); [reflexivity|discriminate]. }
  assert (NR : forall i j k l, rng i j k l -> is_relation (ipf G d t i j k l) = false).
  { intros i j k l Hr. apply not_true_iff_false. intros E. pose proof (rel1_relation lgm let' lg lh lu Egm Eet Eg Eh Eu i j k l Hr E) as [_ [_ NZ]].
    rewrite (bad_none _ _ B1) in NZ; [discriminate|]. apply all4_In. exists i, j, k, l. auto. }
  pose proof Good as [Dy [Gz [Gx [Ge Gl]]]].
  assert (Dz : forall i, (i < N)%nat -> distinct q (n + 2) (tz G t i)) by (intros i Hi; apply Gz; exact Hi).
  assert (Uy : forall i, (i < N)%nat -> ~ ty G t i == 0) by (intros i Hi; exact (proj1 (Gz i Hi))).
  destruct (dims_pos R n d EL) as [HR Hn].
  assert (H2 : forall i j k l, (i < N)%nat -> (j < n + 2)%nat -> (k < 3)%nat -> (l < 2)%nat ->
    sum M (fun p => flat N (el lgm) (el let') lg lh lu p * repAS G R n d t i j k l p) == lA + tch G t i j k * lS i).
  { intros i j k l Hi Hj Hk Hl. apply (eqAS lgm let' lg lh lu lA Egm Eet Eh Eu EA lS ES NR). unfold rng. auto. }
  assert (H4 : forall i j k l, (i < N)%nat -> (j < n + 2)%nat -> (k < 3)%nat -> (l < 2)%nat ->
    lg * ttaux G t i j k l + lh * ttx G t i j k l ==
    sum n (fun c => el lC c * tz G t i j ^ Z.of_nat (c + 2)) + lh * delta_val R n (ty G t i) (tz G t i j) + lT1 i j * tch G t i j k + lT2 i j * (tch G t i j k * tch G t i j k)).
  { intros i j k l Hi Hj Hk Hl. destruct (branch_eqs i j k l _ ltac:(unfold rng; auto) some_branch) as [_ [_ [E _]]].
    rewrite Eg, Eh, (ET1 i j Hi Hj), (ET2 i j Hi Hj) in E.
    assert (LC : length lC = n) by (transitivity (length (map (pmul G gen) lC)); [rewrite map_length; reflexivity|rewrite <- EC; reflexivity]).
    assert (EM : msum G C (zpow n (tz G t i j)) = gen *p sum n (fun c => el lC c * tz G t i j ^ Z.of_nat (c + 2))).
    { rewrite EC at 1. change (map (pmul G gen) lC) with (gl G lC). rewrite msum_el by (unfold zpow; rewrite map_length, seq_length; exact LC).
      rewrite LC. f_equal. apply sum_ext. intros c Hc. f_equal. unfold zpow. change (map (fun j0 => tz G t i j ^ Z.of_nat (S (S j0))) (seq 0 n)) with (tab n (fun j0 => tz G t i j ^ Z.of_nat (S (S j0)))).
      rewrite el_tab by exact Hc. replace (c + 2)%nat with (S (S c)) by lia. reflexivity. }
    rewrite EM, !pmul_mul, !g_add in E. apply gmul_inj in E. rewrite E. apply cong_eq. ring. }
  pose proof (rel2_ok G R n d t (el lgm) (el let') lg lh lu lA lS lT1 lT2 (el lC) Uy Dz Gx Ge HR Hn H2 H4) as K2.
  pose proof (rel3_ok G R n d t (el lgm) (el let') lg lh lu lA lS lT1 lT2 (el lC) Uy Dz Gx Ge HR Hn H2 H4) as K3.
  pose proof (rel4_ok G R n d t (el lgm) (el let') lg lh lu lA lS lT1 lT2 (el lC) Uy Dz Gx Ge HR Hn H2 H4) as K4.
  pose proof (rel5_ok G R n d t (el lgm) (el let') lg lh lu lA lS lT1 lT2 (el lC) Uy Dz Gx Ge HR Hn H2 H4) as K5.
  destruct (bad G (all4 R n (rel2 G R n d t) ++ all4 R n (rel3 G R n d t) ++ all4 R n (rel4 G R n d t) ++ all4 R n (rel5 G R n d t))) as [e|] eqn:B2.
  { apply bad_some in B2. destruct B2 as [I NZ]. cbn [bp_found_ok]. rewrite !in_app_iff, !all4_In in I.
    destruct I as [I|[I|[I|I]]]; destruct I as [i [j [k [l [[Hi [Hj [Hk Hl]]] E]]]]]; subst e;
      apply (rel_relation lgm let' lg lh lu Egm Eet Eg Eh Eu); try exact NZ; try apply tab_length; auto. }
  assert (Z0 : forall e, In e (all4 R n (rel2 G R n d t)) \/ In e (all4 R n (rel3 G R n d t)) \/ In e (all4 R n (rel4 G R n d t)) \/ In e (all4 R n (rel5 G R n d t)) -> zeros q e = true).
  { intros e I. apply (bad_none _ _ B2). rewrite !in_app_iff. exact I. }
  setoid_rewrite all4_In in Z0.
  assert (F2 : forall i j k l p, (i < N)%nat -> (j < n + 2)%nat -> (k < 3)%nat -> (l < 2)%nat -> (p < M)%nat ->
    miss G 2 (tch G t i j) (fun k => repAS G R n d t i j k 0 p) (tch G t i j k) (repAS G R n d t i j k l p) == 0).
  { intros i j k l p Hi Hj Hk Hl Hp. assert (X : zeros q (rel2 G R n d t i j k l) = true) by (apply Z0; left; exists i, j, k, l; auto).
    unfold rel2 in X. rewrite (zeros_tab q Pq) in X. exact (X p Hp). }
  assert (F3 : forall i j p, (i < N)%nat -> (j < n + 2)%nat -> (p < M)%nat -> repA G R n d t i j p == repA G R n d t 0 0 p).
  { intros i j p Hi Hj Hp. assert (X : zeros q (rel3 G R n d t i j 0 0) = true) by (apply Z0; right; left; exists i, j, 0%nat, 0%nat; repeat split; auto; lia).
    unfold rel3 in X. rewrite (zeros_tab q Pq) in X. apply (sub_cong0 q). exact (X p Hp). }
  assert (F4 : forall i j k l, (i < N)%nat -> (j < n + 2)%nat -> (k < 3)%nat -> (l < 2)%nat ->
    miss G 3 (tch G t i j) (fun k => ttx G t i j k 0%nat) (tch G t i j k) (ttx G t i j k l) == 0).
  { intros i j k l Hi Hj Hk Hl. assert (X : zeros q (rel4 G R n d t i j k l) = true) by (apply Z0; right; right; left; exists i, j, k, l; auto).
    unfold rel4 in X. rewrite (zeros_tab q Pq) in X. specialize (X (2 * N + 1)%nat ltac:(lia)). rewrite flat_h in X. exact X. }
  assert (F5 : forall i j, (i < N)%nat -> (j < n + 2)%nat ->
    t0 G R n d t i j == sum n (fun c => val G R n d t c * tz G t i j ^ Z.of_nat (c + 2))).
  { intros i j Hi Hj. assert (X : zeros q (rel5 G R n d t i j 0 0) = true) by (apply Z0; right; right; right; exists i, j, 0%nat, 0%nat; repeat split; auto; lia).
    unfold rel5 in X. rewrite (zeros_tab q Pq) in X. specialize (X (2 * N + 1)%nat ltac:(lia)). rewrite flat_h in X. apply (sub_cong0 q). exact X. }
  cbn [bp_found_ok]. split.
  - unfold commits. rewrite !tab_length. split; [reflexivity|]. split; [reflexivity|]. intros c Hc.
    change (nth c (tab n (rho G n d t)) 0) with (el (tab n (rho G n d t)) c). 
    change (nth c (tab n (fun c => sum R (fun i => repA G R n d t 0 0 (c * R + i) mod q * 2 ^ Z.of_nat i))) 0) with (el (tab n (value G R n d t)) c).
    rewrite !el_tab by exact Hc.
    assert (LC : length lC = n) by (transitivity (length (map (pmul G gen) lC)); [rewrite map_length; reflexivity|rewrite <- EC; reflexivity]).
    rewrite EC at 1. rewrite nth_map' with (d := 0) by lia. rewrite Eg, Eh, !pmul_mul, g_add. apply gmul_cong.
    apply (value_opens G R n d t (el lgm) (el let') lg lh lu lA lS lT1 lT2 (el lC)); assumption.
  - apply Forall_forall. intros v I. unfold tab in I. apply in_map_iff in I. destruct I as [c [<- I]]. apply in_seq in I.
    apply (value_range G R n d t (el lgm) (el let') lg lh lu lA lS lT1 lT2 (el lC)); try assumption. lia.
Qed.
End Group.

From Coq Require Import NArith ZArith List Lia Bool Arith Setoid Morphisms.
From Coq Require Import ZifyBool ZifyNat ZifyN.
From Verif.Base Require Import Words ListX.
From Verif.Utility Require Import BitOpModel BitOpProofs.
From Verif.Crypto Require Import BigIntModel BigIntSpec BigIntProofs.
From Verif.Group Require Import ECModel ECProofs.
From Verif.Sigma Require Import SigmaModel SigmaProofs.
From Verif.Ring Require Import RingProofs.
From Verif.Bullet Require Import IPModel.
Import ListNotations.
Local Open Scope Z_scope.

(** ** halves *)
Lemma half_length : forall (A : Type) (v : list A) n, length v = (2 * n)%nat -> (length v / 2)%nat = n.
Proof. intros A v n E. rewrite E, Nat.mul_comm. apply Nat.div_mul. lia. Qed.

Lemma halves : forall (A : Type) (v : list A) n, length v = (2 * n)%nat ->
  v = left_half v ++ right_half v /\ length (left_half v) = n /\ length (right_half v) = n.
Proof.
  intros A v n E. unfold left_half, right_half. rewrite (half_length A v n E).
  assert (Es : length (skipn n v) = n) by (rewrite skipn_length; lia).
  rewrite (firstn_all2 (skipn n v)) by lia.
  split; [symmetry; apply firstn_skipn|]. split; [apply firstn_length_le; lia|exact Es].
Qed.

Lemma pow2_len : forall k, (2 ^ S k)%nat = (2 * 2 ^ k)%nat.
Proof. intros k. cbn [Nat.pow]. lia. Qed.

Lemma pow2_pos : forall k, (1 <= 2 ^ k)%nat.
Proof. intros k. pose proof (Nat.pow_nonzero 2 k ltac:(lia)). lia. Qed.

Lemma of_nat_pow2 : forall k, N.of_nat (2 ^ k) = (2 ^ N.of_nat k)%N.
Proof.
  induction k as [|k IH]; [reflexivity|]. rewrite pow2_len, Nat2N.inj_mul, IH, (Nat2N.inj_succ k), N.pow_succ_r'. reflexivity.
Qed.

Lemma is_pow2_ok : forall k, (k < 64)%nat -> is_pow2 (2 ^ k) = true.
Proof.
  intros k Hk. unfold is_pow2. apply IsPowerOfTwo_spec.
  - rewrite of_nat_pow2. apply N.pow_lt_mono_r; lia.
  - exists (N.of_nat k). apply of_nat_pow2.
Qed.

Lemma is_pow2_inv : forall n, (N.of_nat n < 2 ^ 64)%N -> is_pow2 n = true -> exists k, n = (2 ^ k)%nat.
Proof.
  intros n Hn E. apply IsPowerOfTwo_spec in E; [|exact Hn]. destruct E as [k E]. exists (N.to_nat k).
  apply Nat2N.inj. rewrite of_nat_pow2, N2Nat.id. exact E.
Qed.

(** ** linear algebra on lists *)
Definition lin (c d : Z) (a b : list Z) : list Z := map2 (fun u v => u * c + v * d) a b.

Lemma dot_nil_l : forall b, dot [] b = 0. Proof. reflexivity. Qed.
Lemma dot_cons : forall x a y b, dot (x :: a) (y :: b) = x * y + dot a b. Proof. reflexivity. Qed.

Lemma dot_lin_l : forall c d a b m, length a = length b -> dot (lin c d a b) m = c * dot a m + d * dot b m.
Proof.
  unfold lin. induction a as [|x a IH]; intros [|y b] m E; cbn [length] in E; try discriminate; cbn [map2].
  - rewrite !dot_nil_l. ring.
  - destruct m as [|z m]; [unfold dot; cbn; ring|]. rewrite !dot_cons, IH by lia. ring.
Qed.

Lemma dot_comm : forall a b, dot a b = dot b a.
Proof.
  induction a as [|x a IH]; intros [|y b]; try reflexivity. rewrite !dot_cons, IH. ring.
Qed.

Lemma dot_lin_r : forall c d a b m, length a = length b -> dot m (lin c d a b) = c * dot m a + d * dot m b.
Proof. intros. rewrite dot_comm, dot_lin_l, (dot_comm a), (dot_comm b) by assumption. reflexivity. Qed.

Lemma dot_app : forall a b c d, length a = length c -> dot (a ++ b) (c ++ d) = dot a c + dot b d.
Proof.
  induction a as [|x a IH]; intros b [|y c] d E; cbn [length] in E; try discriminate; [reflexivity|].
  cbn [app]. rewrite !dot_cons, IH by lia. ring.
Qed.

Lemma dot_cong : forall q a b a' b', Forall2 (cong q) a a' -> Forall2 (cong q) b b' -> cong q (dot a b) (dot a' b').
Proof.
  intros q a b a' b' Fa. revert b b'. induction Fa as [|x x' a a' C F IH]; intros b b' Fb; [reflexivity|].
  destruct Fb as [|y y' b b' D Fb]; [reflexivity|]. rewrite !dot_cons, C, D, (IH _ _ Fb). reflexivity.
Qed.

Lemma Forall2_length' : forall (A B : Type) (R : A -> B -> Prop) a b, Forall2 R a b -> length a = length b.
Proof. induction 1; cbn [length]; congruence. Qed.

Lemma Forall2_map_map2 : forall (A B C D : Type) (R : C -> D -> Prop) (f : A -> B -> C) (g : A -> B -> D) a b,
  (forall x y, R (f x y) (g x y)) -> Forall2 R (map2 f a b) (map2 g a b).
Proof. intros A B C D R f g. induction a as [|x a IH]; intros [|y b] E; cbn [map2]; constructor; auto. Qed.

Lemma map2_map : forall (A B A' B' C : Type) (f : A' -> B' -> C) (u : A -> A') (v : B -> B') a b,
  map2 f (map u a) (map v b) = map2 (fun x y => f (u x) (v y)) a b.
Proof. intros A B A' B' C f u v. induction a as [|x a IH]; intros [|y b]; cbn [map map2]; try reflexivity. rewrite IH. reflexivity. Qed.

(** ** the vector s *)
Fixpoint svec (x xi : list Z) : list Z :=
  match x, xi with
  | a :: x', b :: xi' => map (Z.mul b) (svec x' xi') ++ map (Z.mul a) (svec x' xi')
  | _, _ => [1]
  end.

Lemma svec_length : forall x xi, length x = length xi -> length (svec x xi) = (2 ^ length x)%nat.
Proof.
  induction x as [|a x IH]; intros [|b xi] E; cbn [length] in E; try discriminate; cbn [svec]; [reflexivity|].
  rewrite app_length, !map_length, (IH xi) by lia. cbn [length]. rewrite pow2_len. lia.
Qed.

Lemma mod_top : forall i n, (i mod 2 ^ S n = i mod 2 ^ n + (if Nat.testbit i n then 2 ^ n else 0))%nat.
Proof.
  intros i n. pose proof (Nat.pow_nonzero 2 n ltac:(lia)) as NZ.
  rewrite Nat.testbit_odd, Nat.shiftr_div_pow2, pow2_len, (Nat.mul_comm 2), Nat.mod_mul_r by lia.
  rewrite <- Nat.bit0_odd. pose proof (Nat.bit0_mod (i / 2 ^ n)) as E.
  destruct (Nat.testbit (i / 2 ^ n) 0); cbn [Nat.b2n] in E; rewrite <- E; lia.
Qed.

Section Mod.
Variable G : ECGroup.
Local Notation q := (order G).
Local Infix "+p" := (padd G) (at level 50, left associativity).
Local Notation "P *p k" := (pmul G P k%Z) (at level 40, left associativity).

Lemma modq_cong' : forall x, cong q (BigInt_Mod x q) x.
Proof. apply (modq_cong G). Qed.

Lemma SS_loop_spec : forall x xi i j s, length x = length xi ->
  cong q (SS_loop i j (j + length x) x xi s q) (s * nth (i mod 2 ^ length x) (svec x xi) 0).
Proof.
  induction x as [|a x IH]; intros [|b xi] i j s E; cbn [length] in E; try discriminate; cbn [SS_loop svec length].
  - rewrite Nat.pow_0_r, Nat.mod_1_r. cbn [nth]. rewrite Z.mul_1_r. reflexivity.
  - replace (j + S (length x))%nat with (S j + length x)%nat by lia. rewrite IH by lia. rewrite modq_cong'.
    unfold GetTheNthBitofInt. replace (S j + length x - j - 1)%nat with (length x) by lia.
    rewrite mod_top. pose proof (Nat.mod_upper_bound i (2 ^ length x) (Nat.pow_nonzero 2 _ ltac:(lia))) as B.
    assert (L : length (svec x xi) = (2 ^ length x)%nat) by (apply svec_length; lia).
    destruct (Nat.testbit i (length x)).
    + rewrite app_nth2; rewrite map_length, L; [|lia].
      replace (i mod 2 ^ length x + 2 ^ length x - 2 ^ length x)%nat with (i mod 2 ^ length x)%nat by lia.
      rewrite nth_map' with (d := 0) by lia. apply cong_eq. ring.
    + rewrite Nat.add_0_r, app_nth1 by (rewrite map_length; lia). rewrite nth_map' with (d := 0) by lia. apply cong_eq. ring.
Qed.

Lemma SS_loop_range : forall x xi i j m s, 0 <= s < q -> 0 <= SS_loop i j m x xi s q < q.
Proof.
  induction x as [|a x IH]; intros [|b xi] i j m s R; cbn [SS_loop]; try exact R. apply IH. apply (modq_range G).
Qed.

Lemma nth_SS : forall x xi i, length x = length xi -> (i < 2 ^ length x)%nat ->
  cong q (nth i (ComputeVectorSS (2 ^ length x) x xi q) 0) (nth i (svec x xi) 0) /\
  0 <= nth i (ComputeVectorSS (2 ^ length x) x xi q) 0 < q.
Proof.
  intros x xi i E Hi. unfold ComputeVectorSS. rewrite nth_map' with (d := 0%nat) by (rewrite seq_length; exact Hi).
  rewrite seq_nth, Nat.add_0_l by exact Hi. split.
  - change (length x) with (0 + length x)%nat at 1. rewrite SS_loop_spec by exact E.
    rewrite Nat.mod_small by exact Hi. apply cong_eq. ring.
  - apply SS_loop_range. pose proof (order_gt1 G). lia.
Qed.

(** challenges, their inverses and squares as the verifiers compute them *)
Definition invs (x : list Z) : list Z := map (fun c => ModInverse c q) x.
Definition sqs (x : list Z) : list Z := map (fun c => ModSquare c q) x.

Lemma square_cong : forall a, cong q (ModSquare a q) (a * a).
Proof. intros a. apply (modq_cong G). Qed.

Lemma sq_inv : forall a, cong q (ModSquare a q * ModInverse a q) a.
Proof.
  intros a. rewrite square_cong. assert (D : {cong q a 0} + {~ cong q a 0}).
  { destruct (Z.eq_dec (a mod q) 0) as [E|E].
    - left. apply cong_mod; [apply order_pos|]. rewrite E, Z.mod_0_l; [reflexivity|pose proof (order_pos G); lia].
    - right. intros C. apply E. apply cong_mod in C; [|apply order_pos]. rewrite C, Z.mod_0_l; [reflexivity|pose proof (order_pos G); lia]. }
  destruct D as [C|C].
  - generalize (ModInverse a q). intros i. rewrite C. reflexivity.
  - rewrite <- Z.mul_assoc, (inv_cong G a C). apply cong_eq. ring.
Qed.

Lemma svec_step : forall x i, (1 <= i)%nat -> (i < 2 ^ length x)%nat ->
  cong q (nth i (svec x (invs x)) 0)
         (nth (i - 2 ^ Nat.log2 i) (svec x (invs x)) 0 * nth (length x - 1 - Nat.log2 i) (sqs x) 0).
Proof.
  unfold invs, sqs. induction x as [|a x IH]; intros i Hi Hl; [cbn in Hl; lia|].
  cbn [length] in *. rewrite pow2_len in Hl. cbn [map svec].
  set (sv := svec x (map (fun c => ModInverse c q) x)) in *. set (ai := ModInverse a q).
  assert (L : length sv = (2 ^ length x)%nat) by (apply svec_length; rewrite map_length; reflexivity).
  pose proof (Nat.log2_spec i ltac:(lia)) as [LO HI].
  destruct (Nat.lt_ge_cases i (2 ^ length x)) as [C|C].
  - (* the first half *)
    assert (K : (Nat.log2 i < length x)%nat).
    { apply Nat.log2_lt_pow2; lia. }
    rewrite !app_nth1 by (rewrite map_length; lia).
    rewrite !(nth_map' (Z.mul ai) _ _ 0) by lia. rewrite (IH i Hi C).
    replace (S (length x) - 1 - Nat.log2 i)%nat with (S (length x - 1 - Nat.log2 i))%nat by lia.
    cbn [nth]. apply cong_eq. ring.
  - (* the second half *)
    assert (K : Nat.log2 i = length x).
    { apply Nat.log2_unique; [lia|]. split; [exact C|]. rewrite pow2_len. exact Hl. }
    rewrite K, app_nth2 by (rewrite map_length; lia). rewrite map_length, L, app_nth1 by (rewrite map_length; lia).
    rewrite !(nth_map' (Z.mul _) _ _ 0) by lia.
    replace (S (length x) - 1 - length x)%nat with 0%nat by lia. cbn [nth].
    transitivity (ModSquare a q * ai * nth (i - 2 ^ length x) sv 0); [|apply cong_eq; ring].
    unfold ai. rewrite sq_inv. reflexivity.
Qed.

Lemma svec_zero : forall x xi, length x = length xi -> nth 0 (svec x xi) 0 = zprod xi.
Proof.
  induction x as [|a x IH]; intros [|b xi] E; cbn [length] in E; try discriminate; [reflexivity|].
  cbn [svec zprod]. rewrite app_nth1 by (rewrite map_length, svec_length by lia; apply pow2_pos).
  rewrite nth_map' with (d := 0) by (rewrite svec_length by lia; apply pow2_pos). rewrite IH by lia. reflexivity.
Qed.

Lemma fold_mul : forall l s, fold_left Z.mul l s = s * zprod l.
Proof. induction l as [|a l IH]; intros s; cbn [fold_left zprod]; [ring|]. rewrite IH. ring. Qed.

Lemma fast_inv : forall x k, (k < 2 ^ length x)%nat ->
  let s := fold_left (FastSS_step (length x) (sqs x) q) (seq 1 k) [BigInt_Mod (fold_left Z.mul (invs x) 1) q] in
  length s = S k /\ forall i, (i <= k)%nat -> cong q (nth i s 0) (nth i (svec x (invs x)) 0) /\ 0 <= nth i s 0 < q.
Proof.
  intros x. induction k as [|k IH]; intros Hk; cbv zeta.
  - cbn [seq fold_left length]. split; [reflexivity|]. intros i Hi. assert (i = 0%nat) by lia. subst i. cbn [nth].
    split; [|apply (modq_range G)]. rewrite modq_cong', fold_mul, svec_zero by (unfold invs; rewrite map_length; reflexivity).
    apply cong_eq. ring.
  - rewrite seq_S, fold_left_app. cbn [fold_left]. cbv zeta in IH. destruct (IH ltac:(lia)) as [L I].
    set (s := fold_left _ (seq 1 k) _) in *. clearbody s. unfold FastSS_step. rewrite app_length, L. cbn [length].
    split; [lia|]. intros i Hi. destruct (Nat.eq_dec i (S k)) as [->|N].
    + rewrite app_nth2, L, Nat.sub_diag by lia. cbn [nth]. replace (1 + k)%nat with (S k) by lia. split; [|apply (modq_range G)].
      pose proof (Nat.log2_spec (S k) ltac:(lia)) as [LO _]. pose proof (pow2_pos (Nat.log2 (S k))).
      rewrite modq_cong', (svec_step x (S k)) by lia. rewrite (proj1 (I (S k - 2 ^ Nat.log2 (S k))%nat ltac:(lia))). reflexivity.
    + rewrite app_nth1 by lia. apply I. lia.
Qed.

(** the iterative computation of FastVerify gives the same vector as the direct one *)
Lemma FastSS_eq : forall x, FastComputeVectorSS (sqs x) (invs x) q = ComputeVectorSS (2 ^ length x) x (invs x) q.
Proof.
  intros x. unfold FastComputeVectorSS. assert (LI : length (invs x) = length x) by (unfold invs; apply map_length).
  rewrite LI. pose proof (pow2_pos (length x)) as P2. destruct (fast_inv x (2 ^ length x - 1) ltac:(lia)) as [L I]. cbv zeta in L, I.
  apply list_eq_nth with 0.
  - rewrite L. unfold ComputeVectorSS. rewrite map_length, seq_length. lia.
  - rewrite L. intros i Hi. destruct (I i ltac:(lia)) as [C1 R1].
    destruct (nth_SS x (invs x) i (eq_sym LI) ltac:(lia)) as [C2 R2].
    apply (cong_canon G); [exact R1|exact R2|]. rewrite C1, C2. reflexivity.
Qed.

Lemma SS_svec : forall x, Forall2 (cong q) (ComputeVectorSS (2 ^ length x) x (invs x) q) (svec x (invs x)).
Proof.
  intros x. assert (LI : length (invs x) = length x) by (unfold invs; apply map_length).
  assert (X : forall (a b : list Z), length a = length b -> (forall i, (i < length a)%nat -> cong q (nth i a 0) (nth i b 0)) -> Forall2 (cong q) a b).
  { induction a as [|u a IH]; intros [|v b] E F; cbn [length] in E; try discriminate; constructor.
    - apply (F 0%nat). cbn [length]. lia.
    - apply IH; [lia|]. intros i Hi. apply (F (S i)). cbn [length]. lia. }
  apply X; unfold ComputeVectorSS at 1; rewrite map_length, seq_length.
  - rewrite svec_length by lia. reflexivity.
  - intros i Hi. apply nth_SS; [lia|exact Hi].
Qed.

Definition nonzero (x : list Z) : Prop := Forall (fun c => ~ cong q c 0) x.

Lemma Forall2_maps : forall (A B C D : Type) (R : C -> D -> Prop) (f : A -> C) (h : B -> D) a b,
  Forall2 (fun x y => R (f x) (h y)) a b -> Forall2 R (map f a) (map h b).
Proof. intros A B C D R f h a b F. induction F; cbn [map]; constructor; auto. Qed.

Lemma Forall2_imp : forall (A B : Type) (R S : A -> B -> Prop) a b,
  (forall x y, R x y -> S x y) -> Forall2 R a b -> Forall2 S a b.
Proof. intros A B R S a b I F. induction F; constructor; auto. Qed.

Lemma svec_swap : forall x, nonzero x ->
  Forall2 (fun a b => cong q (a * b) 1) (svec x (invs x)) (svec (invs x) x).
Proof.
  unfold invs. induction x as [|a x IH]; intros N; cbn [map svec]; [constructor; [reflexivity|constructor]|].
  inversion N as [|? ? Na Nx]; subst. specialize (IH Nx). pose proof (inv_cong G a Na) as I. set (ai := ModInverse a q) in *.
  apply Forall2_app; apply Forall2_maps; eapply Forall2_imp; try exact IH; intros u v C; cbn beta in *.
  - transitivity ((a * ai) * (u * v)); [apply cong_eq; ring|]. rewrite I, C. reflexivity.
  - transitivity ((a * ai) * (u * v)); [apply cong_eq; ring|]. rewrite I, C. reflexivity.
Qed.

Lemma one_not_zero : ~ cong q 1 0.
Proof. apply range_not_0. pose proof (order_gt1 G). lia. Qed.

Lemma inverse_unique : forall s t, cong q (s * t) 1 -> cong q (ModInverse s q) t.
Proof.
  intros s t C. assert (N : ~ cong q s 0).
  { intros Z0. apply one_not_zero. rewrite <- C, Z0. reflexivity. }
  apply (cong_cancel G s); [exact N|]. rewrite (inv_cong G s N), C. reflexivity.
Qed.

Lemma si_svec : forall x, nonzero x ->
  Forall2 (cong q) (BigIntVectorModInverse (ComputeVectorSS (2 ^ length x) x (invs x) q) q) (svec (invs x) x).
Proof.
  intros x N. unfold BigIntVectorModInverse. rewrite <- (map_id (svec (invs x) x)). apply Forall2_maps.
  pose proof (SS_svec x) as F1. pose proof (svec_swap x N) as F2. revert F1 F2.
  generalize (ComputeVectorSS (2 ^ length x) x (invs x) q) (svec x (invs x)) (svec (invs x) x). clear.
  intros a b c F. revert c. induction F as [|u v a b C F IH]; intros c F2; inversion F2; subst; constructor; auto.
  apply inverse_unique. rewrite C. assumption.
Qed.

(** ** multi-exponentiations *)
Lemma msum_app : forall A B a b, length A = length a -> msum G (A ++ B) (a ++ b) = msum G A a +p msum G B b.
Proof.
  induction A as [|P A IH]; intros B [|x a] b E; cbn [length] in E; try discriminate; cbn [app msum].
  - rewrite padd_inf_l. reflexivity.
  - rewrite IH by lia. rewrite padd_assoc. reflexivity.
Qed.

Lemma msum_one : forall P x, msum G [P] [x] = P *p x.
Proof. intros. cbn [msum]. apply padd_inf. Qed.

Lemma VectorMul_some : forall A a, length A = length a -> ECPointVectorMul G A a = Some (msum G A a).
Proof. intros A a E. unfold ECPointVectorMul, same_size. rewrite E, Nat.eqb_refl. reflexivity. Qed.

Lemma msum_lin : forall A c d a b, length a = length b ->
  msum G A (lin c d a b) = msum G A a *p c +p msum G A b *p d.
Proof.
  unfold lin. induction A as [|P A IH]; intros c d [|x a] [|y b] E; cbn [length] in E; try discriminate; cbn [map2 msum];
    try (rewrite !inf_mul, padd_inf; reflexivity).
  rewrite IH by lia. generalize (msum G A a) (msum G A b). clear. intros X Y. logs G. gring.
Qed.

Lemma msum_plin : forall A B c d a, length A = length B ->
  msum G (map2 (padd G) (map (fun P => P *p c) A) (map (fun P => P *p d) B)) a = msum G A a *p c +p msum G B a *p d.
Proof.
  induction A as [|P A IH]; intros [|Q B] c d a E; cbn [length] in E; try discriminate; cbn [map map2 msum].
  - rewrite !inf_mul, padd_inf. reflexivity.
  - destruct a as [|x a]; cbn [msum]; [rewrite !inf_mul, padd_inf; reflexivity|].
    rewrite IH by lia. generalize (msum G A a) (msum G B a). clear. intros X Y. logs G. gring.
Qed.

Lemma msum_maps : forall A c v, msum G A (map (Z.mul c) v) = msum G A v *p c.
Proof.
  intros A c v. rewrite <- msum_scale. f_equal. apply map_ext. intros. ring.
Qed.

Lemma maps_cong : forall c a b, Forall2 (cong q) a b -> Forall2 (cong q) (map (fun x => x * c) a) (map (fun x => x * c) b).
Proof. intros c a b F. apply Forall2_maps. eapply Forall2_imp; [|exact F]. intros x y C. rewrite C. reflexivity. Qed.

(** ** the verification equation, with challenges x *)
Definition ip_eq (g h : list (pt G)) (u P : pt G) (L R : list (pt G)) (x : list Z) (a b : Z) : Prop :=
  msum G g (svec x (invs x)) *p a +p msum G h (svec (invs x) x) *p b +p u *p (a * b)
  = msum G L (map (fun c => c * c) x) +p msum G R (map (fun c => c * c) (invs x)) +p P.

Definition opens (g h : list (pt G)) (u P : pt G) (a b : list Z) : Prop :=
  P = msum G g a +p msum G h b +p u *p dot a b.

Lemma lin_mod : forall c d a b, Forall2 (cong q)
  (map2 (fun x y => BigInt_Mod (x + y) q) (BigIntVectorModScalar a c q) (BigIntVectorModScalar b d q)) (lin c d a b).
Proof.
  intros c d a b. unfold BigIntVectorModScalar, lin. rewrite map2_map. apply Forall2_map_map2.
  intros x y. rewrite !modq_cong'. reflexivity.
Qed.

Section Rounds.
Variable H : list N -> Z.

Lemma ModInner_some : forall a b, length a = length b -> BigIntVectorModInnerProduct a b q = Some (BigInt_Mod (dot a b) q).
Proof.
  intros a b E. unfold BigIntVectorModInnerProduct, same_size. rewrite E, Nat.eqb_refl, inner_acc_spec. reflexivity.
Qed.

Lemma rounds_spec : forall k g h u P a b tr,
  length g = (2 ^ k)%nat -> length h = (2 ^ k)%nat -> length a = (2 ^ k)%nat -> length b = (2 ^ k)%nat ->
  exists p tr', IP_rounds G H k g h u P a b tr = Some (p, tr') /\
    length (ipL G p) = k /\ length (ipR G p) = k /\
    snd (IP_challenges G H tr (ipL G p) (ipR G p)) = tr' /\
    let x := fst (IP_challenges G H tr (ipL G p) (ipR G p)) in
    length x = k /\
    (nonzero x -> (ip_eq g h u P (ipL G p) (ipR G p) x (ipa G p) (ipb G p) <-> opens g h u P a b)).
Proof.
  induction k as [|k IH]; intros g h u P a b tr Lg Lh La Lb.
  - cbn [IP_rounds]. eexists. exists tr. split; [reflexivity|]. cbn [ipL ipR ipa ipb IP_challenges fst snd length].
    do 4 (split; [reflexivity|]). intros _. unfold ip_eq, opens. cbn [svec invs map msum].
    destruct g as [|g0 [|? ?]]; cbn [length Nat.pow] in Lg; try lia. destruct h as [|h0 [|? ?]]; cbn [length Nat.pow] in Lh; try lia.
    destruct a as [|a0 [|? ?]]; cbn [length Nat.pow] in La; try lia. destruct b as [|b0 [|? ?]]; cbn [length Nat.pow] in Lb; try lia.
    cbn [nth msum]. unfold dot. cbn [combine map zsum fst snd]. rewrite !padd_inf, padd_inf_l, !pmul_1, Z.add_0_r.
    split; intros E; [symmetry; exact E|symmetry; exact E].
  - rewrite pow2_len in Lg, Lh, La, Lb. cbn [IP_rounds].
    destruct (halves _ g _ Lg) as [Eg [LgL LgR]]. destruct (halves _ h _ Lh) as [Eh [LhL LhR]].
    destruct (halves _ a _ La) as [Ea [LaL LaR]]. destruct (halves _ b _ Lb) as [Eb [LbL LbR]].
    set (gL := left_half g) in *. set (gR := right_half g) in *. set (hL := left_half h) in *. set (hR := right_half h) in *.
    set (aL := left_half a) in *. set (aR := right_half a) in *. set (bL := left_half b) in *. set (bR := right_half b) in *.
    clearbody gL gR hL hR aL aR bL bR. subst g h a b.
    rewrite !ModInner_some by lia. cbn [obind].
    rewrite !VectorMul_some by (rewrite !app_length; cbn [length]; lia). cbn [obind].
    set (L := msum G (gR ++ hL ++ [u]) (aL ++ bR ++ [BigInt_Mod (dot aL bR) q])).
    set (R := msum G (gL ++ hR ++ [u]) (aR ++ bL ++ [BigInt_Mod (dot aR bL) q])).
    set (tr1 := tr ++ ToByteString G L ++ ToByteString G R). set (x := H tr1). set (xi := ModInverse x q).
    unfold ECPointVectorAdd, ECPointVectorScalar, BigIntVectorModAdd, same_size.
    rewrite !map_length. unfold BigIntVectorModScalar at 1 2 5 6. rewrite !map_length.
    rewrite LgL, LgR, LhL, LhR, LaL, LaR, LbL, LbR, !Nat.eqb_refl. cbn [obind].
    set (g' := map2 (padd G) (map (fun P0 => P0 *p xi) gL) (map (fun P0 => P0 *p x) gR)).
    set (h' := map2 (padd G) (map (fun P0 => P0 *p x) hL) (map (fun P0 => P0 *p xi) hR)).
    set (P' := msum G [L; P; R] [ModSquare x q; 1; ModSquare xi q]).
    pose proof (lin_mod x xi aL aR) as Fa. pose proof (lin_mod xi x bL bR) as Fb.
    set (a' := map2 _ (BigIntVectorModScalar aL x q) _) in *. set (b' := map2 _ (BigIntVectorModScalar bL xi q) _) in *.
    assert (La' : length a' = (2 ^ k)%nat) by (unfold a', BigIntVectorModScalar; rewrite map2_length, !map_length; lia).
    assert (Lb' : length b' = (2 ^ k)%nat) by (unfold b', BigIntVectorModScalar; rewrite map2_length, !map_length; lia).
    assert (Lg' : length g' = (2 ^ k)%nat) by (unfold g'; rewrite map2_length, !map_length; lia).
    assert (Lh' : length h' = (2 ^ k)%nat) by (unfold h'; rewrite map2_length, !map_length; lia).
    destruct (IH g' h' u P' a' b' tr1 Lg' Lh' La' Lb') as [p [tr' [E [LL [LR [ET [LX I]]]]]]].
    rewrite (VectorMul_some [L; P; R] [ModSquare x q; 1; ModSquare xi q] eq_refl). cbn [obind]. fold P'. rewrite E. cbn [obind fst snd]. eexists. exists tr'. split; [reflexivity|].
    cbn [ipL ipR ipa ipb length IP_challenges fst snd]. fold tr1. fold x.
    split; [lia|]. split; [lia|]. split; [exact ET|]. split; [lia|].
    set (xs := fst (IP_challenges G H tr1 (ipL G p) (ipR G p))) in *. intros NZ. pose proof (Forall_inv NZ) as Nx. pose proof (Forall_inv_tail NZ) as Nxs. cbn beta in Nx.
    specialize (I Nxs). pose proof (inv_cong G x Nx) as IX. fold xi in IX.
    (* both sides reduce to the statement for the folded instance *)
    transitivity (ip_eq g' h' u P' (ipL G p) (ipR G p) xs (ipa G p) (ipb G p)); [|rewrite I].
    + unfold ip_eq. cbn [invs map svec msum]. fold (invs xs). fold xi.
      assert (Ls : length (svec xs (invs xs)) = (2 ^ k)%nat) by (rewrite svec_length; [congruence|unfold invs; rewrite map_length; reflexivity]).
      assert (Ls' : length (svec (invs xs) xs) = (2 ^ k)%nat) by (rewrite svec_length; unfold invs; rewrite map_length; [congruence|reflexivity]).
      rewrite !msum_app by (rewrite map_length; lia). rewrite !msum_maps. unfold g', h'. rewrite !msum_plin by lia.
      assert (EP : P' = L *p (x * x) +p P +p R *p (xi * xi)).
      { unfold P'. cbn [msum]. rewrite (pmul_cong G L _ _ (square_cong x)), (pmul_cong G R _ _ (square_cong xi)), pmul_1, padd_inf, padd_assoc. reflexivity. }
      rewrite EP. clear.
      generalize (msum G gL (svec xs (invs xs))) (msum G gR (svec xs (invs xs))) (msum G hL (svec (invs xs) xs)) (msum G hR (svec (invs xs) xs)).
      generalize (msum G (ipL G p) (map (fun c => c * c) xs)) (msum G (ipR G p) (map (fun c => c * c) (invs xs))).
      generalize L R (ipa G p) (ipb G p). clearbody x xi. clear. intros L R a b ML MR m1 m2 m3 m4.
      assert (T : forall X Y X' Y' : pt G, X = X' -> Y = Y' -> (X = Y <-> X' = Y')) by (intros; subst; reflexivity).
      apply T; logs G; gring.
    + unfold opens.
      assert (EL : L = msum G gR aL +p msum G hL bR +p u *p dot aL bR).
      { unfold L. rewrite !msum_app, msum_one by lia. rewrite (pmul_cong G u _ _ (modq_cong' _)), padd_assoc. reflexivity. }
      assert (ER : R = msum G gL aR +p msum G hR bL +p u *p dot aR bL).
      { unfold R. rewrite !msum_app, msum_one by lia. rewrite (pmul_cong G u _ _ (modq_cong' _)), padd_assoc. reflexivity. }
      assert (EP : P' = L *p (x * x) +p P +p R *p (xi * xi)).
      { unfold P'. cbn [msum]. rewrite (pmul_cong G L _ _ (square_cong x)), (pmul_cong G R _ _ (square_cong xi)), pmul_1, padd_inf, padd_assoc. reflexivity. }
      rewrite EP, EL, ER. rewrite (msum_cong G _ _ _ Fa), (msum_cong G _ _ _ Fb), (pmul_cong G u _ _ (dot_cong _ _ _ _ _ Fa Fb)).
      unfold g', h'. rewrite !msum_plin, !msum_lin, dot_lin_l, !dot_lin_r, !msum_app, dot_app by lia.
      clearbody x xi. clear - IX.
      generalize (msum G gL aL) (msum G gL aR) (msum G gR aL) (msum G gR aR) (msum G hL bL) (msum G hL bR) (msum G hR bL) (msum G hR bR).
      generalize (dot aL bL) (dot aL bR) (dot aR bL) (dot aR bR). intros d1 d2 d3 d4 m1 m2 m3 m4 m5 m6 m7 m8.
      assert (T : forall X Y X' Y' Z : pt G, X = X' +p Z -> Y = Y' +p Z -> (X = Y <-> X' = Y')).
      { clear. intros X Y X' Y' Z -> ->. split; [apply padd_cancel_r|intros ->; reflexivity]. }
      apply (T _ _ _ _ ((m3 +p m6 +p u *p d2) *p (x * x) +p (m2 +p m7 +p u *p d3) *p (xi * xi))).
      * clear. logs G. gring.
      * transitivity ((m1 +p m4 +p m5 +p m8 +p u *p (d1 + d4)) *p (x * xi) +p ((m3 +p m6 +p u *p d2) *p (x * x) +p (m2 +p m7 +p u *p d3) *p (xi * xi))).
        { clear. logs G. gring. }
        rewrite (pmul_cong G _ _ _ IX), pmul_1. clear. logs G. gring.
Qed.

(** ** what the two verifiers compute *)
Definition ip_lhs (g h : list (pt G)) (u : pt G) (x : list Z) (a b : Z) : pt G :=
  let s := ComputeVectorSS (2 ^ length x) x (invs x) q in
  msum G g (BigIntVectorScalar s a) +p msum G h (BigIntVectorScalar (BigIntVectorModInverse s q) b) +p u *p (a * b).
Definition ip_rhs (L R : list (pt G)) (x : list Z) (P : pt G) : pt G :=
  msum G L (sqs x) +p msum G R (sqs (invs x)) +p P.

Lemma challenges_length : forall L R tr, length L = length R -> length (fst (IP_challenges G H tr L R)) = length L.
Proof.
  induction L as [|l L IH]; intros [|r R] tr E; cbn [length] in E; try discriminate; cbn [IP_challenges fst length]; [reflexivity|].
  rewrite IH by lia. reflexivity.
Qed.

Lemma SS_length : forall n x xi, length (ComputeVectorSS n x xi q) = n.
Proof. intros. unfold ComputeVectorSS. rewrite map_length, seq_length. reflexivity. Qed.

Lemma sizes_inv : forall pp p, ip_sizes G pp p = true ->
  length (ip_g G pp) = ip_len G pp /\ length (ip_h G pp) = ip_len G pp /\
  length (ipL G p) = Nat.log2 (ip_len G pp) /\ length (ipR G p) = Nat.log2 (ip_len G pp).
Proof. intros pp p E. unfold ip_sizes in E. repeat (apply andb_prop in E; destruct E as [E ?]). lia. Qed.

Lemma Verify_spec : forall k pp P tr p, ip_len G pp = (2 ^ k)%nat -> (k < 64)%nat -> ip_sizes G pp p = true ->
  let x := fst (IP_challenges G H tr (ipL G p) (ipR G p)) in
  IP_Verify G H pp P tr p =
    Some (peqb G (ip_lhs (ip_g G pp) (ip_h G pp) (ip_u G pp) x (ipa G p) (ipb G p)) (ip_rhs (ipL G p) (ipR G p) x P),
          snd (IP_challenges G H tr (ipL G p) (ipR G p))).
Proof.
  intros k pp P tr p Ek Hk S. cbv zeta. destruct (sizes_inv _ _ S) as [Lg [Lh [LL LR]]].
  unfold IP_Verify. rewrite S. rewrite Ek in *. rewrite is_pow2_ok by exact Hk. cbn [andb]. rewrite Nat.log2_pow2 in LL, LR by lia.
  pose proof (challenges_length (ipL G p) (ipR G p) tr ltac:(lia)) as LX. set (x := fst (IP_challenges G H tr (ipL G p) (ipR G p))) in *.
  fold (invs x). fold (sqs x). fold (sqs (invs x)).
  assert (LI : length (invs x) = k) by (unfold invs; rewrite map_length; lia).
  assert (EX : (2 ^ k)%nat = (2 ^ length x)%nat) by (rewrite LX, LL; reflexivity).
  set (s := ComputeVectorSS (2 ^ k) x (invs x) q). assert (Ls : length s = (2 ^ k)%nat) by apply SS_length.
  rewrite !VectorMul_some.
  - cbn [obind]. do 3 f_equal.
    + rewrite !msum_app, msum_one.
      * unfold ip_lhs. rewrite <- EX. fold s. rewrite padd_assoc. reflexivity.
      * unfold BigIntVectorScalar, BigIntVectorModInverse. rewrite !map_length. lia.
      * unfold BigIntVectorScalar. rewrite !map_length. lia.
    + rewrite !msum_app, msum_one, pmul_1.
      * unfold ip_rhs. rewrite padd_assoc. reflexivity.
      * unfold sqs. rewrite map_length. lia.
      * unfold sqs. rewrite map_length. lia.
  - unfold sqs. rewrite !app_length, !map_length. cbn [length]. lia.
  - unfold BigIntVectorScalar, BigIntVectorModInverse. rewrite !app_length, !map_length. cbn [length]. lia.
Qed.

Lemma msum_opp : forall A a, msum G A (map Z.opp a) = pneg G (msum G A a).
Proof. exact (msum_neg G). Qed.

Lemma FastVerify_spec : forall k pp P tr p, ip_len G pp = (2 ^ k)%nat -> (k < 64)%nat -> ip_sizes G pp p = true ->
  let x := fst (IP_challenges G H tr (ipL G p) (ipR G p)) in
  IP_FastVerify G H pp P tr p =
    Some (peqb G (ip_lhs (ip_g G pp) (ip_h G pp) (ip_u G pp) x (ipa G p) (ipb G p)) (ip_rhs (ipL G p) (ipR G p) x P),
          snd (IP_challenges G H tr (ipL G p) (ipR G p))).
Proof.
  intros k pp P tr p Ek Hk S. cbv zeta. destruct (sizes_inv _ _ S) as [Lg [Lh [LL LR]]].
  unfold IP_FastVerify. rewrite S. rewrite Ek in *. rewrite is_pow2_ok by exact Hk. cbn [andb]. rewrite Nat.log2_pow2 in LL, LR by lia.
  pose proof (challenges_length (ipL G p) (ipR G p) tr ltac:(lia)) as LX. set (x := fst (IP_challenges G H tr (ipL G p) (ipR G p))) in *.
  fold (invs x). fold (sqs x). fold (sqs (invs x)). rewrite FastSS_eq.
  assert (LI : length (invs x) = k) by (unfold invs; rewrite map_length; lia).
  assert (EX : (2 ^ k)%nat = (2 ^ length x)%nat) by (rewrite LX, LL; reflexivity).
  unfold ip_lhs. set (s := ComputeVectorSS (2 ^ length x) x (invs x) q). assert (Ls : length s = (2 ^ k)%nat) by (unfold s; rewrite SS_length; lia).
  rewrite VectorMul_some.
  - cbn [obind]. do 2 f_equal. rewrite !msum_app, msum_one, !msum_opp.
    + unfold ip_rhs.
      generalize (msum G (ipL G p) (sqs x)) (msum G (ipR G p) (sqs (invs x))) (ip_u G pp *p (ipa G p * ipb G p)).
      generalize (msum G (ip_g G pp) (BigIntVectorScalar s (ipa G p))) (msum G (ip_h G pp) (BigIntVectorScalar (BigIntVectorModInverse s q) (ipb G p))).
      clear. intros A B C D E. apply eq_true_iff_eq. rewrite !peqb_true.
      assert (T : forall X Y X' Y' Z : pt G, X' = X +p Z -> Y' = Y +p Z -> (X = Y <-> X' = Y')).
      { clear. intros X Y X' Y' Z -> ->. split; [intros ->; reflexivity|apply padd_cancel_r]. }
      apply (T _ _ _ _ (C +p D)); clear T; logs G; gring.
    + unfold sqs. rewrite !map_length. lia.
    + unfold sqs. rewrite !map_length. lia.
    + unfold BigIntVectorScalar, BigIntVectorModInverse. rewrite !map_length. lia.
    + unfold BigIntVectorScalar. rewrite !map_length. lia.
  - unfold sqs, BigIntVectorScalar, BigIntVectorModInverse. rewrite !app_length, !map_length. cbn [length]. lia.
Qed.

Lemma sqs_cong : forall x, Forall2 (cong q) (sqs x) (map (fun c => c * c) x).
Proof. intros x. unfold sqs. apply Forall2_maps. induction x; constructor; [apply square_cong|assumption]. Qed.

Lemma ip_eq_iff : forall g h u P L R x a b, nonzero x ->
  (ip_lhs g h u x a b = ip_rhs L R x P <-> ip_eq g h u P L R x a b).
Proof.
  intros g h u P L R x a b NZ. unfold ip_lhs, ip_rhs, ip_eq, BigIntVectorScalar.
  rewrite (msum_cong G _ _ _ (maps_cong a _ _ (SS_svec x))), (msum_cong G _ _ _ (maps_cong b _ _ (si_svec x NZ))), !msum_scale.
  rewrite (msum_cong G _ _ _ (sqs_cong x)), (msum_cong G _ _ _ (sqs_cong (invs x))). reflexivity.
Qed.

(** the honest argument *)
Lemma IP_core : forall k pp P a b tr, ip_len G pp = (2 ^ k)%nat -> (k < 64)%nat ->
  length (ip_g G pp) = (2 ^ k)%nat -> length (ip_h G pp) = (2 ^ k)%nat -> length a = (2 ^ k)%nat -> length b = (2 ^ k)%nat ->
  exists p tr', IP_Prove G H pp P a b tr = Some (p, tr') /\ ip_sizes G pp p = true /\
    snd (IP_challenges G H tr (ipL G p) (ipR G p)) = tr' /\
    let x := fst (IP_challenges G H tr (ipL G p) (ipR G p)) in
    (nonzero x -> (ip_lhs (ip_g G pp) (ip_h G pp) (ip_u G pp) x (ipa G p) (ipb G p) = ip_rhs (ipL G p) (ipR G p) x P
                   <-> opens (ip_g G pp) (ip_h G pp) (ip_u G pp) P a b)).
Proof.
  intros k pp P a b tr Ek Hk Lg Lh La Lb.
  destruct (rounds_spec k (ip_g G pp) (ip_h G pp) (ip_u G pp) P a b tr Lg Lh La Lb) as [p [tr' [E [LL [LR [ET [LX I]]]]]]].
  exists p, tr'. unfold IP_Prove, same_size. rewrite Lg, Lh, La, Lb, Ek, !Nat.eqb_refl, is_pow2_ok, Nat.log2_pow2 by lia.
  cbn [andb]. split; [exact E|]. split.
  - unfold ip_sizes. rewrite Lg, Lh, Ek, Nat.log2_pow2, LL, LR, !Nat.eqb_refl by lia. reflexivity.
  - split; [exact ET|]. cbv zeta in I |- *. intros NZ. rewrite ip_eq_iff by exact NZ. exact (I NZ).
Qed.
End Rounds.
End Mod.

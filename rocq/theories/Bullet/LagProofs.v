From Coq Require Import NArith ZArith List Lia Bool Arith Setoid Morphisms Znumtheory.
From Coq Require Import ZifyBool ZifyNat ZifyN.
From Verif.Base Require Import Words ListX.
From Verif.Crypto Require Import BigIntModel BigIntSpec BigIntProofs.
From Verif.Group Require Import ECModel ECProofs.
From Verif.Bullet Require Import LagSpec.
Import ListNotations.
Local Open Scope Z_scope.

(** ** sums *)
Lemma sum_ext : forall n f g, (forall i, (i < n)%nat -> f i = g i) -> sum n f = sum n g.
Proof. intros n f g E. unfold sum. f_equal. apply map_ext_in. intros i Hi. apply in_seq in Hi. apply E. lia. Qed.

Lemma sum_S : forall n f, sum (S n) f = sum n f + f n.
Proof. intros n f. unfold sum. rewrite seq_S, map_app, zsum_app. cbn [map zsum Nat.add]. ring. Qed.

Lemma sum_0 : forall f, sum 0 f = 0. Proof. reflexivity. Qed.

Lemma sum_cong : forall q n f g, (forall i, (i < n)%nat -> cong q (f i) (g i)) -> cong q (sum n f) (sum n g).
Proof.
  intros q n f g. induction n as [|n IH]; intros E; [reflexivity|]. rewrite !sum_S, IH, (E n) by (try lia; intros; apply E; lia).
  reflexivity.
Qed.

Lemma sum_add : forall n f g, sum n (fun i => f i + g i) = sum n f + sum n g.
Proof. intros n f g. induction n as [|n IH]; [reflexivity|]. rewrite !sum_S, IH. ring. Qed.
Lemma sum_sub : forall n f g, sum n (fun i => f i - g i) = sum n f - sum n g.
Proof. intros n f g. induction n as [|n IH]; [reflexivity|]. rewrite !sum_S, IH. ring. Qed.
Lemma sum_mul_l : forall n c f, sum n (fun i => c * f i) = c * sum n f.
Proof. intros n c f. induction n as [|n IH]; [rewrite !sum_0; ring|]. rewrite !sum_S, IH. ring. Qed.
Lemma sum_mul_r : forall n c f, sum n (fun i => f i * c) = sum n f * c.
Proof. intros n c f. induction n as [|n IH]; [rewrite !sum_0; ring|]. rewrite !sum_S, IH. ring. Qed.
Lemma sum_zero : forall n, sum n (fun _ => 0) = 0.
Proof. induction n as [|n IH]; [reflexivity|]. rewrite sum_S, IH. ring. Qed.
Lemma sum_opp : forall n f, sum n (fun i => - f i) = - sum n f.
Proof. intros n f. induction n as [|n IH]; [reflexivity|]. rewrite !sum_S, IH. ring. Qed.

Lemma sum_swap : forall n m f, sum n (fun i => sum m (fun j => f i j)) = sum m (fun j => sum n (fun i => f i j)).
Proof.
  intros n m f. induction n as [|n IH].
  - rewrite sum_0, (sum_ext m _ (fun _ => 0)) by (intros; apply sum_0). rewrite sum_zero. reflexivity.
  - rewrite sum_S, IH, <- sum_add. apply sum_ext. intros i Hi. rewrite sum_S. reflexivity.
Qed.

Lemma sum_split : forall n m f, sum (n + m) f = sum n f + sum m (fun i => f (n + i)%nat).
Proof.
  intros n m f. induction m as [|m IH].
  - rewrite Nat.add_0_r, sum_0. ring.
  - rewrite Nat.add_succ_r, !sum_S, IH. ring.
Qed.

Lemma sum_single : forall n k f, (k < n)%nat -> (forall i, (i < n)%nat -> i <> k -> f i = 0) -> sum n f = f k.
Proof.
  intros n k f. induction n as [|n IH]; intros Hk Z0; [lia|]. rewrite sum_S.
  destruct (Nat.eq_dec k n) as [->|N].
  - rewrite (sum_ext n f (fun _ => 0)) by (intros; apply Z0; lia). rewrite sum_zero. ring.
  - rewrite IH by (try lia; intros; apply Z0; lia). rewrite (Z0 n) by lia. ring.
Qed.

Lemma peval_sum : forall p x, peval p x = sum (length p) (fun k => nth k p 0 * x ^ Z.of_nat k).
Proof.
  induction p as [|c p IH]; intros x; [reflexivity|]. cbn [peval length].
  change (S (length p)) with (1 + length p)%nat. rewrite sum_split, IH, <- sum_mul_l.
  unfold sum at 2. cbn [seq map zsum nth]. rewrite Z.pow_0_r. f_equal; [ring|].
  apply sum_ext. intros i Hi. rewrite Nat.add_1_l, Nat2Z.inj_succ, Z.pow_succ_r by lia. ring.
Qed.

Lemma peval_tab : forall n f x, peval (map f (seq 0 n)) x = sum n (fun k => f k * x ^ Z.of_nat k).
Proof.
  intros n f x. rewrite peval_sum, map_length, seq_length. apply sum_ext. intros k Hk.
  rewrite nth_map' with (d := 0%nat) by (rewrite seq_length; exact Hk). rewrite seq_nth by exact Hk. reflexivity.
Qed.

(** ** products of linear factors *)
Lemma mul_root_length : forall p r, length (mul_root p r) = S (length p).
Proof. intros. unfold mul_root. rewrite map_length, seq_length. reflexivity. Qed.

Lemma mul_root_eval : forall p r x, peval (mul_root p r) x = peval p x * (x - r).
Proof.
  intros p r x. unfold mul_root. rewrite peval_tab.
  rewrite (sum_ext _ _ (fun k => nth k (0 :: p) 0 * x ^ Z.of_nat k - r * (nth k p 0 * x ^ Z.of_nat k))) by (intros; ring).
  rewrite sum_sub, sum_mul_l. change (S (length p)) with (length (0 :: p)) at 1. rewrite <- peval_sum.
  rewrite sum_S, <- peval_sum. rewrite (nth_overflow p) by lia. cbn [peval]. ring.
Qed.

Lemma of_roots_length : forall rs, length (of_roots rs) = S (length rs).
Proof. induction rs as [|r rs IH]; [reflexivity|]. cbn [of_roots length]. rewrite mul_root_length, IH. reflexivity. Qed.

Lemma of_roots_eval : forall rs x, peval (of_roots rs) x = zprod (map (fun r => x - r) rs).
Proof.
  induction rs as [|r rs IH]; intros x; cbn [of_roots map zprod]; [cbn [peval]; ring|].
  rewrite mul_root_eval, IH. ring.
Qed.

Section Prime.
Variable q : Z.
Hypothesis Pq : prime q.
Local Notation "a == b" := (cong q a b) (at level 70).

Lemma q_pos : 0 < q. Proof. pose proof (prime_ge_2 _ Pq). lia. Qed.

Lemma cong0_mod : forall a, a == 0 <-> a mod q = 0.
Proof.
  intros a. pose proof q_pos. split; intros E.
  - apply cong_mod in E; [|assumption]. rewrite E. apply Z.mod_0_l. lia.
  - apply cong_mod; [assumption|]. rewrite E, Z.mod_0_l by lia. reflexivity.
Qed.

Lemma inv_q : forall a, ~ a == 0 -> a * ModInverse a q == 1.
Proof.
  intros a N. rewrite cong0_mod in N. destruct (ModInverse_prime a q Pq N) as [_ I]. pose proof (prime_ge_2 _ Pq).
  apply cong_mod; [lia|]. rewrite I, Z.mod_1_l by lia. reflexivity.
Qed.

Lemma cancel_q : forall a b, ~ a == 0 -> a * b == 0 -> b == 0.
Proof.
  intros a b N E. pose proof (inv_q a N) as I. transitivity (a * ModInverse a q * b); [rewrite I; apply cong_eq; ring|].
  transitivity (ModInverse a q * (a * b)); [apply cong_eq; ring|]. rewrite E. apply cong_eq. ring.
Qed.

Lemma sub_cong0 : forall a b, a - b == 0 <-> a == b.
Proof.
  intros a b. split; intros E.
  - transitivity (a - b + b); [apply cong_eq; ring|]. rewrite E. apply cong_eq. ring.
  - rewrite E. apply cong_eq. ring.
Qed.

Lemma one_nz : ~ 1 == 0.
Proof. rewrite cong0_mod. pose proof (prime_ge_2 _ Pq). rewrite Z.mod_1_l by lia. lia. Qed.

Lemma prod_nz : forall l, Forall (fun a => ~ a == 0) l -> ~ zprod l == 0.
Proof.
  induction 1 as [|a l Na F IH]; cbn [zprod]; [apply one_nz|]. intros E. apply IH. apply (cancel_q a); assumption.
Qed.

Lemma prod_z : forall l a, In a l -> a == 0 -> zprod l == 0.
Proof.
  induction l as [|b l IH]; intros a I E; [destruct I|]. cbn [zprod]. destruct I as [->|I]; [rewrite E; apply cong_eq; ring|].
  rewrite (IH a I E). apply cong_eq. ring.
Qed.

(** ** a polynomial with more roots than its degree is zero *)
Fixpoint quot (p : list Z) (y : Z) : list Z :=
  match p with [] => [] | c :: p' => match p' with [] => [] | _ => peval p' y :: quot p' y end end.

Lemma quot_length : forall p y, length (quot p y) = pred (length p).
Proof.
  induction p as [|c p IH]; intros y; [reflexivity|]. cbn [quot]. destruct p as [|d p]; [reflexivity|].
  cbn [length]. rewrite IH. reflexivity.
Qed.

Lemma quot_eval : forall p y x, peval p x = peval p y + (x - y) * peval (quot p y) x.
Proof.
  induction p as [|c p IH]; intros y x; cbn [peval quot]; [ring|].
  destruct p as [|d p]; [cbn [peval]; ring|]. cbn [peval] in *. specialize (IH y x). rewrite IH. ring.
Qed.

Lemma quot_zero : forall p y, Forall (fun c => c == 0) (quot p y) -> peval p y == 0 -> Forall (fun c => c == 0) p.
Proof.
  induction p as [|c p IH]; intros y F E; [constructor|]. cbn [quot] in F. destruct p as [|d p].
  - cbn [peval] in E. constructor; [|constructor]. rewrite <- E. apply cong_eq. ring.
  - inversion F as [|? ? F0 F1]; subst. pose proof (IH y F1 F0) as IHp. constructor; [|exact IHp].
    cbn [peval] in E, F0. transitivity (c + y * (d + y * peval p y)); [|exact E].
    rewrite F0. apply cong_eq. ring.
Qed.

Lemma roots_zero : forall n y p, distinct q n y -> (length p <= n)%nat ->
  (forall i, (i < n)%nat -> peval p (y i) == 0) -> Forall (fun c => c == 0) p.
Proof.
  induction n as [|n IH]; intros y p D L E.
  - destruct p; [constructor|cbn [length] in L; lia].
  - apply (quot_zero p (y n)); [|apply E; lia]. apply (IH y).
    + intros i j Hi Hj. apply D; lia.
    + rewrite quot_length. lia.
    + intros i Hi. apply (cancel_q (y i - y n)).
      * rewrite sub_cong0. apply D; lia.
      * transitivity (peval p (y i) - peval p (y n)); [apply cong_eq; rewrite (quot_eval p (y n) (y i)); ring|].
        rewrite !E by lia. reflexivity.
Qed.

Lemma poly_zero : forall n y (c : nat -> Z), distinct q n y ->
  (forall i, (i < n)%nat -> sum n (fun k => c k * y i ^ Z.of_nat k) == 0) ->
  forall k, (k < n)%nat -> c k == 0.
Proof.
  intros n y c D E k Hk.
  assert (F : Forall (fun c => c == 0) (map c (seq 0 n))).
  { apply (roots_zero n y); [exact D|rewrite map_length, seq_length; lia|]. intros i Hi. rewrite peval_tab. apply E. exact Hi. }
  rewrite Forall_forall in F. apply F. apply in_map. apply in_seq. lia.
Qed.

(** ** the basis polynomials *)
Definition delta (i j : nat) : Z := if (i =? j)%nat then 1 else 0.

Lemma others_length : forall n y i, (i < n)%nat -> length (others n y i) = pred n.
Proof.
  intros n y i Hi. unfold others. rewrite map_length.
  assert (X : forall m s, length (filter (fun j => negb (j =? i)%nat) (seq s m)) =
    if ((s <=? i) && (i <? s + m))%nat then pred m else m).
  { induction m as [|m IH]; intros s; cbn [seq filter].
    - destruct ((s <=? i) && (i <? s + 0))%nat; reflexivity.
    - destruct (Nat.eqb_spec s i) as [->|N]; cbn [negb length]; rewrite IH.
      + replace ((S i <=? i) && (i <? S i + m))%nat with false by lia. replace ((i <=? i) && (i <? i + S m))%nat with true by lia. reflexivity.
      + destruct ((S s <=? i) && (i <? S s + m))%nat eqn:B.
        * replace ((s <=? i) && (i <? s + S m))%nat with true by lia. lia.
        * replace ((s <=? i) && (i <? s + S m))%nat with false by lia. reflexivity. }
  rewrite X. replace ((0 <=? i) && (i <? 0 + n))%nat with true by lia. reflexivity.
Qed.

Lemma lag_eval : forall n y i j, distinct q n y -> (i < n)%nat -> (j < n)%nat ->
  sum n (fun k => lag q n y i k * y j ^ Z.of_nat k) == delta i j.
Proof.
  intros n y i j D Hi Hj. unfold lag. set (w := ModInverse _ q).
  rewrite (sum_ext n _ (fun k => w * (nth k (of_roots (others n y i)) 0 * y j ^ Z.of_nat k))) by (intros; ring).
  rewrite sum_mul_l.
  assert (E : n = length (of_roots (others n y i))) by (rewrite of_roots_length, others_length by exact Hi; lia).
  rewrite E at 1. rewrite <- peval_sum, of_roots_eval. unfold delta. destruct (Nat.eqb_spec i j) as [<-|N].
  - rewrite Z.mul_comm. unfold w. apply inv_q. apply prod_nz. apply Forall_forall. intros a A. apply in_map_iff in A.
    destruct A as [r [<- R]]. unfold others in R. apply in_map_iff in R. destruct R as [k [<- K]]. apply filter_In in K.
    destruct K as [K1 K2]. apply in_seq in K1. rewrite sub_cong0. apply D; lia.
  - rewrite (prod_z _ (y j - y j)).
    + apply cong_eq. ring.
    + apply (in_map (fun r => y j - r)). unfold others. apply in_map. apply filter_In. split; [apply in_seq; lia|]. lia.
    + apply cong_eq. ring.
Qed.

Lemma delta_eq : forall i j, i = j -> delta i j = 1.
Proof. intros i j ->. unfold delta. rewrite Nat.eqb_refl. reflexivity. Qed.
Lemma delta_ne : forall i j, i <> j -> delta i j = 0.
Proof. intros i j N. unfold delta. destruct (Nat.eqb_spec i j); [contradiction|reflexivity]. Qed.

Lemma sum_delta : forall n k f, (k < n)%nat -> sum n (fun i => delta i k * f i) = f k.
Proof.
  intros n k f Hk. rewrite (sum_single n k); [rewrite delta_eq by reflexivity; ring|exact Hk|].
  intros i Hi N. rewrite delta_ne by exact N. ring.
Qed.
Lemma sum_delta' : forall n k f, (k < n)%nat -> sum n (fun i => f i * delta k i) = f k.
Proof.
  intros n k f Hk. rewrite (sum_single n k); [rewrite delta_eq by reflexivity; ring|exact Hk|].
  intros i Hi N. rewrite delta_ne by lia. ring.
Qed.

(** the inverse of the Vandermonde matrix *)
Lemma lag_inverse : forall n y j k, distinct q n y -> (j < n)%nat -> (k < n)%nat ->
  sum n (fun i => lag q n y i k * y i ^ Z.of_nat j) == delta j k.
Proof.
  intros n y j k D Hj Hk. apply sub_cong0.
  apply (poly_zero n y (fun k => sum n (fun i => lag q n y i k * y i ^ Z.of_nat j) - delta j k) D); [|exact Hk].
  intros a Ha.
  rewrite (sum_ext n _ (fun k => sum n (fun i => y i ^ Z.of_nat j * (lag q n y i k * y a ^ Z.of_nat k)) - delta j k * y a ^ Z.of_nat k)).
  - rewrite sum_sub, sum_swap.
    rewrite (sum_cong q n (fun i => sum n (fun k0 => y i ^ Z.of_nat j * (lag q n y i k0 * y a ^ Z.of_nat k0))) (fun i => y i ^ Z.of_nat j * delta i a)).
    + rewrite (sum_ext n (fun k0 => delta j k0 * y a ^ Z.of_nat k0) (fun k0 => y a ^ Z.of_nat k0 * delta j k0)) by (intros; ring).
      rewrite sum_delta' by exact Hj.
      rewrite (sum_ext n _ (fun i => delta i a * y i ^ Z.of_nat j)) by (intros; ring). rewrite sum_delta by exact Ha. apply cong_eq. ring.
    + intros i Hi. rewrite sum_mul_l, lag_eval by assumption. reflexivity.
  - intros i Hi. rewrite Z.mul_sub_distr_r, <- sum_mul_r. f_equal. apply sum_ext. intros m Hm. ring.
Qed.

(** interpolation returns the coefficients *)
Lemma coef_spec : forall n y v c k, distinct q n y -> (k < n)%nat ->
  (forall i, (i < n)%nat -> v i == sum n (fun j => c j * y i ^ Z.of_nat j)) -> coef q n y v k == c k.
Proof.
  intros n y v c k D Hk E. unfold coef.
  transitivity (sum n (fun i => sum n (fun j => c j * (lag q n y i k * y i ^ Z.of_nat j)))).
  - apply sum_cong. intros i Hi. rewrite (E i Hi), <- sum_mul_l. apply cong_eq. apply sum_ext. intros. ring.
  - rewrite sum_swap. transitivity (sum n (fun j => c j * delta j k)).
    + apply sum_cong. intros j Hj. rewrite sum_mul_l, lag_inverse by assumption. reflexivity.
    + rewrite (sum_ext n _ (fun j => delta j k * c j)) by (intros; ring). rewrite sum_delta by exact Hk. reflexivity.
Qed.

(** the interpolated polynomial has the values *)
Lemma coef_eval : forall n y v i, distinct q n y -> (i < n)%nat ->
  sum n (fun k => coef q n y v k * y i ^ Z.of_nat k) == v i.
Proof.
  intros n y v i D Hi. unfold coef.
  transitivity (sum n (fun j => v j * delta j i)).
  - rewrite (sum_ext n _ (fun k => sum n (fun j => v j * (lag q n y j k * y i ^ Z.of_nat k)))).
    + rewrite sum_swap. apply sum_cong. intros j Hj. rewrite sum_mul_l, lag_eval by assumption. reflexivity.
    + intros k Hk. rewrite <- sum_mul_r. apply sum_ext. intros. ring.
  - rewrite (sum_ext n _ (fun j => delta j i * v j)) by (intros; ring). rewrite sum_delta by exact Hi. reflexivity.
Qed.

Lemma coef_cong : forall n y v w k, (forall i, (i < n)%nat -> v i == w i) -> coef q n y v k == coef q n y w k.
Proof. intros n y v w k E. unfold coef. apply sum_cong. intros i Hi. rewrite (E i Hi). reflexivity. Qed.

(** coefficients of a linear combination *)
Lemma coef_lin : forall n m y (l : nat -> Z) (v : nat -> nat -> Z) k,
  coef q n y (fun i => sum m (fun p => l p * v i p)) k = sum m (fun p => l p * coef q n y (fun i => v i p) k).
Proof.
  intros n m y l v k. unfold coef. rewrite (sum_ext n _ (fun i => sum m (fun p => lag q n y i k * (l p * v i p)))) by (intros; rewrite sum_mul_l; reflexivity).
  rewrite sum_swap. apply sum_ext. intros p Hp. rewrite <- sum_mul_l. apply sum_ext. intros. ring.
Qed.
End Prime.

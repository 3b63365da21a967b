(** Property C118: random generators, coprime numbers, safe primes and the vectors of the tests. *)
From Coq Require Import NArith ZArith Znumtheory List Lia Bool Arith.
From Coq Require Import ZifyBool ZifyNat ZifyN.
From Verif.Crypto Require Import BigIntModel BigIntProofs.
From Verif.Group Require Import ECModel ECProofs ZqGroup RandomModel.
Import ListNotations.
Local Open Scope Z_scope.

(** ** a number between two bounds: every value of the range from exactly one draw *)
Lemma less_range : forall d m, 0 < m -> GenRandomBigIntLessThan d m = d mod m.
Proof. intros d m P. unfold GenRandomBigIntLessThan, BN_rand_range. destruct (Z.ltb_spec 0 m); [reflexivity|lia]. Qed.
Theorem C118_between : forall a b, a < b ->
  (forall d, a <= GenRandomBigIntBetween d a b < b) /\
  (forall x, a <= x < b -> exists! d, 0 <= d < b - a /\ GenRandomBigIntBetween d a b = x).
Proof.
  intros a b L. unfold GenRandomBigIntBetween. split.
  - intros d. rewrite less_range by lia. pose proof (Z.mod_pos_bound d (b - a)). lia.
  - intros x R. exists (x - a). split.
    + split; [lia|]. rewrite less_range, Z.mod_small by lia. lia.
    + intros d [D E]. rewrite less_range, Z.mod_small in E by lia. lia.
Qed.
(** an empty range is not refused: the result is its excluded end *)
Theorem C118_empty_range_refuted : forall a b, b <= a -> forall d, GenRandomBigIntBetween d a b = a /\ ~ (a <= GenRandomBigIntBetween d a b < b).
Proof.
  intros a b L d. assert (E : GenRandomBigIntBetween d a b = a); [|split; [exact E|rewrite E; lia]].
  unfold GenRandomBigIntBetween, GenRandomBigIntLessThan, BN_rand_range. destruct (Z.ltb_spec 0 (b - a)); [lia|reflexivity].
Qed.

(** ** a random generator generates the whole group, and is any point but infinity, each from exactly one draw *)
Section Group.
Variable G : ECGroup.
Theorem C118_generator : forall d,
  GenRandomGenerator G d <> inf G /\ (forall Q, exists k, Q = pmul G (GenRandomGenerator G d) k).
Proof.
  intros d. assert (R : 1 <= GenRandomBigIntBetween d 1 (order G) < order G) by (apply C118_between, order_gt1).
  assert (N : GenRandomGenerator G d <> inf G).
  { intros E. unfold GenRandomGenerator in E. rewrite (g_inf G) in E. apply gmul_inj in E. exact (range_not_0 G _ R E). }
  split; [exact N|]. intros Q. exact (point_log G _ Q N).
Qed.
Theorem C118_generator_uniform : forall P, P <> inf G ->
  exists! d, 0 <= d < order G - 1 /\ GenRandomGenerator G d = P.
Proof.
  intros P N. destruct (pgen_all G P) as [k E].
  assert (M : 0 <= k mod order G < order G) by (apply Z.mod_pos_bound, order_pos).
  assert (C : cong (order G) (k mod order G) k) by (rewrite <- modq_mod; apply modq_cong).
  assert (NZ : k mod order G <> 0).
  { intros Z0. apply N. rewrite E, (g_inf G). symmetry. apply gmul_cong. rewrite <- Z0. exact C. }
  destruct (proj2 (C118_between 1 (order G) (order_gt1 G)) (k mod order G)) as [d [[D ED] U]]; [clear - M NZ; lia|].
  exists d. split.
  - split; [exact D|]. unfold GenRandomGenerator. rewrite ED, E. apply gmul_cong. exact C.
  - intros d' [D' E']. apply U. split; [exact D'|].
    assert (R : 1 <= GenRandomBigIntBetween d' 1 (order G) < order G) by (apply C118_between, order_gt1).
    apply (cong_canon G); [clear - R; lia|exact M|]. apply gmul_inj.
    change (GenRandomGenerator G d' = pmul G (pgen G) (k mod order G)). rewrite E', E. symmetry. apply gmul_cong. exact C.
Qed.
Theorem C118_vector : forall LEN ds, length (GenRandomECPointVector G LEN ds) = LEN /\
  Forall (fun P => forall Q, exists k, Q = pmul G P k) (GenRandomECPointVector G LEN ds).
Proof.
  intros LEN ds. unfold GenRandomECPointVector. split; [rewrite map_length; apply seq_length|].
  apply Forall_forall. intros P I. apply in_map_iff in I. destruct I as [i [<- _]]. apply C118_generator.
Qed.
End Group.

(** ** a number below num that has no divisor in common with it *)
Lemma coprime_inv : forall num, 1 < num -> forall fuel ds i r0 r, 0 <= r0 < num -> coprime_loop fuel ds i num r0 = Some r ->
  0 <= r < num /\ Z.gcd r num <= 1.
Proof.
  intros num N. induction fuel as [|fuel IH]; intros ds i r0 r R E; cbn [coprime_loop] in E;
    destruct (Z.ltb_spec 1 (BigInt_GCD r0 num)) as [L|L]; try discriminate.
  - assert (r = r0) by congruence. subst r0. split; [exact R|exact L].
  - apply IH in E; [exact E|]. rewrite less_range by lia. apply Z.mod_pos_bound. lia.
  - assert (r = r0) by congruence. subst r0. split; [exact R|exact L].
Qed.
Theorem C118_coprime : forall num fuel ds r, 1 < num -> GenCoPrimeLessThan fuel ds num = Some r ->
  1 <= r < num /\ rel_prime r num.
Proof.
  intros num fuel ds r N E. apply (coprime_inv num N) in E; [|rewrite less_range by lia; apply Z.mod_pos_bound; lia].
  destruct E as [R L]. pose proof (Z.gcd_nonneg r num) as P.
  assert (Z.gcd r num <> 0) by (intros Z0; apply Z.gcd_eq_0_r in Z0; lia). assert (E : Z.gcd r num = 1) by lia.
  split; [|apply Zgcd_1_rel_prime; exact E]. destruct (Z.eq_dec r 0) as [->|]; [|lia]. rewrite Z.gcd_0_l in E. lia.
Qed.
(** it ends with the first draw that has no divisor in common with num, and so can give every such number *)
Lemma coprime_ends : forall num, 0 < num -> forall fuel ds i r0 k, (k <= fuel)%nat ->
  rel_prime (match k with O => r0 | S k' => ds (i + k')%nat mod num end) num -> exists r, coprime_loop fuel ds i num r0 = Some r.
Proof.
  intros num N. induction fuel as [|fuel IH]; intros ds i r0 k K C; cbn [coprime_loop];
    destruct (Z.ltb_spec 1 (BigInt_GCD r0 num)) as [L|L]; try (eexists; reflexivity).
  - destruct k; [|lia]. apply Zgcd_1_rel_prime in C. change (BigInt_GCD r0 num) with (Z.gcd r0 num) in L. lia.
  - destruct k as [|k]; [apply Zgcd_1_rel_prime in C; change (BigInt_GCD r0 num) with (Z.gcd r0 num) in L; lia|].
    apply (IH _ _ _ k); [lia|]. destruct k as [|k]; [rewrite less_range by exact N; rewrite Nat.add_0_r in C; exact C|].
    replace (S i + k)%nat with (i + S k)%nat by lia. exact C.
Qed.
Theorem C118_coprime_ends : forall num fuel ds k, 0 < num -> (k <= fuel)%nat -> rel_prime (ds k mod num) num ->
  exists r, GenCoPrimeLessThan fuel ds num = Some r.
Proof.
  intros num fuel ds k N K C. unfold GenCoPrimeLessThan. rewrite less_range by exact N.
  apply (coprime_ends num N fuel ds 1 _ k K). destruct k; exact C.
Qed.
Theorem C118_coprime_all : forall num r, 0 <= r < num -> rel_prime r num -> GenCoPrimeLessThan 0 (fun _ => r) num = Some r.
Proof.
  intros num r R C. unfold GenCoPrimeLessThan. rewrite less_range, Z.mod_small by lia. cbn [coprime_loop].
  apply Zgcd_1_rel_prime in C. unfold BigInt_GCD, BN_gcd, checked. rewrite C. reflexivity.
Qed.
(** of zero it returns zero, which is not less; of a negative number below -1 it never returns *)
Lemma coprime_never : forall num, num < -1 -> forall fuel ds i, coprime_loop fuel ds i num 0 = None.
Proof.
  intros num N. assert (X : forall d, GenRandomBigIntLessThan d num = 0).
  { intros d. unfold GenRandomBigIntLessThan, BN_rand_range. destruct (Z.ltb_spec 0 num); [lia|reflexivity]. }
  induction fuel as [|fuel IH]; intros ds i; cbn [coprime_loop]; unfold BigInt_GCD, BN_gcd, checked; rewrite Z.gcd_0_l;
    (destruct (Z.ltb_spec 1 (Z.abs num)); [|lia]); [reflexivity|]. rewrite X. apply IH.
Qed.
Theorem C118_coprime_refuted : (forall fuel ds, GenCoPrimeLessThan fuel ds 0 = Some 0) /\
  (forall num, num < -1 -> forall fuel ds, GenCoPrimeLessThan fuel ds num = None).
Proof.
  split; [intros [|fuel] ds; reflexivity|]. intros num N fuel ds. unfold GenCoPrimeLessThan.
  replace (GenRandomBigIntLessThan (ds O) num) with 0; [apply coprime_never; exact N|].
  unfold GenRandomBigIntLessThan, BN_rand_range. destruct (Z.ltb_spec 0 num); [lia|reflexivity].
Qed.

(** ** safe primes, if the test is right *)
Theorem C118_safe_prime : forall test, (forall a, test a = true <-> prime a) ->
  forall a, IsSafePrime test a = true <-> prime a /\ exists p, prime p /\ a = 2 * p + 1.
Proof.
  intros test T a. unfold IsSafePrime. rewrite andb_true_iff, !T.
  assert (D : forall b, BigInt_Div b 2 = Z.quot b 2) by reflexivity. rewrite D. split.
  - intros [A B]. split; [exact A|]. exists (Z.quot (a - 1) 2). split; [exact B|].
    pose proof (prime_ge_2 _ A) as A2. pose proof (prime_ge_2 _ B) as B2. rewrite Z.quot_div_nonneg in * by lia.
    pose proof (Z.div_mod (a - 1) 2 ltac:(lia)) as DM. pose proof (Z.mod_pos_bound (a - 1) 2 ltac:(lia)) as MB.
    destruct (Z.eq_dec ((a - 1) mod 2) 0) as [E|E]; [lia|exfalso].
    set (h := (a - 1) / 2) in *. assert (EV : a = 2 * (h + 1)) by lia.
    destruct (prime_divisors _ A 2) as [X|[X|[X|X]]]; [exists (h + 1); lia|lia|lia|lia|lia].
  - intros [A [p [P E]]]. split; [exact A|]. pose proof (prime_ge_2 _ P). replace (a - 1) with (p * 2) by lia.
    rewrite Z.quot_mul by lia. exact P.
Qed.

(** ** the vectors of the tests *)
Section Vectors.
Variable rand : Z -> nat -> Z.
Hypothesis RAND : forall s i, 0 <= rand s i < 2 ^ 31.
Lemma natural : forall now LEN MAX, 0 < MAX ->
  GenRandomNaturalIntegerVectorLessThan rand now LEN MAX = Some (map (fun i => rand now i mod MAX) (seq 0 LEN)).
Proof.
  intros now LEN MAX P. unfold GenRandomNaturalIntegerVectorLessThan. replace (MAX =? 0) with false by (clear - P; lia). cbn [andb]. f_equal.
  apply map_ext. intros i. apply Z.rem_mod_nonneg; [apply RAND|exact P].
Qed.
Theorem C118_natural : forall now LEN MAX, 0 < MAX -> exists v, GenRandomNaturalIntegerVectorLessThan rand now LEN MAX = Some v /\
  length v = LEN /\ Forall (fun r => 0 <= r < MAX) v.
Proof.
  intros now LEN MAX P. eexists. split; [apply natural; exact P|]. split; [rewrite map_length; apply seq_length|].
  apply Forall_forall. intros r I. apply in_map_iff in I. destruct I as [i [<- _]]. apply Z.mod_pos_bound. exact P.
Qed.
Lemma absolute : forall now LEN MAX, 0 < MAX < 2 ^ 62 ->
  GenRandomIntegerVectorAbsoluteLessThan rand now LEN MAX = Some (map (fun i => rand now i mod (2 * MAX) - MAX) (seq 0 LEN)).
Proof.
  intros now LEN MAX P. unfold GenRandomIntegerVectorAbsoluteLessThan, int64_ok.
  replace ((- 2 ^ 63 <=? 2 * MAX) && (2 * MAX <? 2 ^ 63)) with true by (clear - P; lia). rewrite natural by (clear - P; lia).
  rewrite (proj2 (forallb_forall _ _)); [rewrite map_map; reflexivity|].
  intros r I. apply in_map_iff in I. destruct I as [i [<- _]]. pose proof (Z.mod_pos_bound (rand now i) (2 * MAX)) as B. clear - P B. lia.
Qed.
(** between -MAX, included, and MAX *)
Theorem C118_absolute_partial : forall now LEN MAX, 0 < MAX < 2 ^ 62 -> exists v, GenRandomIntegerVectorAbsoluteLessThan rand now LEN MAX = Some v /\
  length v = LEN /\ Forall (fun r => - MAX <= r < MAX) v.
Proof.
  intros now LEN MAX P. eexists. split; [apply absolute; exact P|]. split; [rewrite map_length; apply seq_length|].
  apply Forall_forall. intros r I. apply in_map_iff in I. destruct I as [i [<- _]].
  pose proof (Z.mod_pos_bound (rand now i) (2 * MAX)) as B. clear - P B. lia.
Qed.
(** -MAX itself appears wherever rand() gives a multiple of 2*MAX *)
Theorem C118_absolute_refuted : forall now LEN MAX i k, 0 < MAX < 2 ^ 62 -> (i < LEN)%nat -> rand now i = k * (2 * MAX) ->
  exists v, GenRandomIntegerVectorAbsoluteLessThan rand now LEN MAX = Some v /\ In (- MAX) v.
Proof.
  intros now LEN MAX i k P I E. eexists. split; [apply absolute; exact P|]. apply in_map_iff. exists i.
  split; [rewrite E, Z.mod_mul by (clear - P; lia); clear; lia|apply in_seq; clear - I; lia].
Qed.
(** with a large bound the second half of the range never appears *)
Theorem C118_half_refuted : forall now LEN MAX, 2 ^ 31 <= MAX < 2 ^ 62 ->
  exists v, GenRandomIntegerVectorAbsoluteLessThan rand now LEN MAX = Some v /\ Forall (fun r => r < 0) v.
Proof.
  intros now LEN MAX P. eexists. split; [apply absolute; clear - P; lia|].
  apply Forall_forall. intros r I. apply in_map_iff in I. destruct I as [i [<- _]]. pose proof (RAND now i) as B.
  rewrite Z.mod_small; clear - P B; lia.
Qed.
(** two vectors made within the same second are not independent: the shorter is the beginning of the longer *)
Theorem C118_same_second_refuted : forall now LEN LEN' MAX v w, (LEN <= LEN')%nat ->
  GenRandomNaturalIntegerVectorLessThan rand now LEN MAX = Some v -> GenRandomNaturalIntegerVectorLessThan rand now LEN' MAX = Some w ->
  v = firstn LEN w.
Proof.
  intros now LEN LEN' MAX v w L V W. unfold GenRandomNaturalIntegerVectorLessThan in V, W.
  destruct ((MAX =? 0) && negb (LEN =? 0)%nat); [discriminate|]. destruct ((MAX =? 0) && negb (LEN' =? 0)%nat); [discriminate|].
  injection V as <-. injection W as <-. rewrite firstn_map. f_equal.
  replace LEN' with (LEN + (LEN' - LEN))%nat by (clear - L; lia). rewrite seq_app, firstn_app, seq_length, Nat.sub_diag, firstn_O, app_nil_r.
  rewrite firstn_all2; [reflexivity|]. rewrite seq_length. apply le_n.
Qed.
End Vectors.

(** ** instances *)
Example C118_coprime_run : GenCoPrimeLessThan 5 (fun i => nth i [4; 9; 7]%Z 0) 12 = Some 7.
Proof. reflexivity. Qed.
Example C118_between_run : map (fun d => GenRandomBigIntBetween d 3 6) [0; 1; 2; 5] = [3; 4; 5; 5].
Proof. reflexivity. Qed.
Definition trial (a : Z) : bool := (1 <? a) && forallb (fun d => negb (a mod Z.of_nat d =? 0)) (seq 2 (Z.to_nat a - 2)).
Lemma trial_prime : forall a, trial a = true <-> prime a.
Proof.
  intros a. unfold trial. rewrite andb_true_iff, forallb_forall, <- prime_alt. unfold prime'. split.
  - intros [A D]. split; [lia|]. intros n N DV. specialize (D (Z.to_nat n)). rewrite in_seq in D. specialize (D ltac:(lia)).
    rewrite Z2Nat.id in D by lia. apply Z.mod_divide in DV; lia.
  - intros [A D]. split; [lia|]. intros n N. apply in_seq in N. specialize (D (Z.of_nat n) ltac:(lia)).
    destruct (Z.eqb_spec (a mod Z.of_nat n) 0) as [E|E]; [|reflexivity]. exfalso. apply D. apply Z.mod_divide; lia.
Qed.
Example C118_safe_run : filter (IsSafePrime trial) (map Z.of_nat (seq 0 60)) = [5; 7; 11; 23; 47; 59].
Proof. vm_compute. reflexivity. Qed.
Example C118_safe_59 : prime 59 /\ exists p, prime p /\ 59 = 2 * p + 1.
Proof. apply (C118_safe_prime trial trial_prime). vm_compute. reflexivity. Qed.
Example C118_vector_run : GenRandomIntegerVectorAbsoluteLessThan (fun s i => Z.of_nat i * 3) 0 5 6 = Some [-6; -3; 0; 3; -6].
Proof. reflexivity. Qed.
Definition counter (s : Z) (i : nat) : Z := (s + 6 * Z.of_nat i) mod 2 ^ 31.
Example C118_counter : forall s i, 0 <= counter s i < 2 ^ 31.
Proof. intros s i. apply Z.mod_pos_bound. lia. Qed.
Example C118_minus_max : exists v, GenRandomIntegerVectorAbsoluteLessThan counter 0 10 9 = Some v /\ In (-9) v.
Proof. exact (C118_absolute_refuted counter C118_counter 0 10 9 6 2 ltac:(lia) ltac:(lia) eq_refl). Qed.
(** the number of rounds for the default error of 1e-40: the smallest r with 4^r >= 10^40 *)
Example C118_rounds : 4 ^ 66 < 10 ^ 40 <= 4 ^ 67.
Proof. lia. Qed.

Print Assumptions C118_between.
Print Assumptions C118_empty_range_refuted.
Print Assumptions C118_generator.
Print Assumptions C118_generator_uniform.
Print Assumptions C118_vector.
Print Assumptions C118_coprime.
Print Assumptions C118_coprime_ends.
Print Assumptions C118_coprime_all.
Print Assumptions C118_coprime_refuted.
Print Assumptions C118_safe_prime.
Print Assumptions C118_natural.
Print Assumptions C118_absolute_partial.
Print Assumptions C118_absolute_refuted.
Print Assumptions C118_half_refuted.
Print Assumptions C118_same_second_refuted.

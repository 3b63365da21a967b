From Coq Require Import NArith ZArith List Lia Bool Arith Setoid Morphisms.
From Coq Require Import ZifyBool ZifyNat ZifyN.
From Verif.Base Require Import Words ListX.
From Verif.Crypto Require Import BigIntModel BigIntSpec BigIntProofs.
From Verif.Group Require Import ECModel ECProofs.
From Verif.Sigma Require Import SigmaModel SigmaProofs.
From Verif.Ring Require Import RingProofs.
From Verif.Bullet Require Import IPModel IPProofs BPModel LagSpec.
Import ListNotations.
Local Open Scope Z_scope.

(** ** sums over an index range *)

Lemma sum_ext : forall n f g, (forall i, (i < n)%nat -> f i = g i) -> sum n f = sum n g.
Proof. intros n f g E. unfold sum. f_equal. apply map_ext_in. intros i Hi. apply in_seq in Hi. apply E. lia. Qed.

Lemma zsum_lin : forall (l : list nat) f g c d, zsum (map (fun i => c * f i + d * g i) l) = c * zsum (map f l) + d * zsum (map g l).
Proof. induction l as [|x l IH]; intros; cbn [map zsum]; [ring|]. rewrite IH. ring. Qed.

Lemma sum_lin : forall n f g c d, sum n (fun i => c * f i + d * g i) = c * sum n f + d * sum n g.
Proof. intros. apply zsum_lin. Qed.

Lemma sum_scale : forall n f c, sum n (fun i => c * f i) = c * sum n f.
Proof. intros n f c. unfold sum. generalize (seq 0 n). induction l as [|x l IH]; cbn [map zsum]; [ring|]. rewrite IH. ring. Qed.

Lemma sum_S : forall n f, sum (S n) f = sum n f + f n.
Proof. intros n f. unfold sum. rewrite seq_S, map_app, zsum_app. cbn [map zsum Nat.add]. ring. Qed.

Lemma sum_block : forall R n f, (0 < R)%nat ->
  sum (R * n) (fun p => f (p / R)%nat (p mod R)%nat) = sum n (fun j => sum R (f j)).
Proof.
  intros R n f HR. induction n as [|n IH].
  - rewrite Nat.mul_0_r. reflexivity.
  - rewrite sum_S, <- IH. unfold sum. rewrite Nat.mul_succ_r, seq_app, map_app, zsum_app, Nat.add_0_l. f_equal. f_equal.
    assert (X : forall k o, map (fun p => f (p / R)%nat (p mod R)%nat) (seq (R * n + o) k) = map (fun i => f ((R * n + i) / R)%nat ((R * n + i) mod R)%nat) (seq o k)).
    { clear. induction k as [|k IH]; intros o; cbn [seq map]; [reflexivity|]. f_equal. rewrite <- IH. f_equal. f_equal. lia. }
    rewrite <- (Nat.add_0_r (R * n)) at 1. rewrite X. apply map_ext_in. intros i Hi. apply in_seq in Hi.
    rewrite (Nat.mul_comm R n), Nat.div_add_l, (Nat.div_small i), (Nat.add_comm (n * R) i), Nat.mod_add, Nat.mod_small by lia.
    f_equal. lia.
Qed.

Lemma dot_sum : forall n f g, dot (map f (seq 0 n)) (map g (seq 0 n)) = sum n (fun i => f i * g i).
Proof.
  intros n f g. unfold sum. generalize (seq 0 n). induction l as [|x l IH]; [reflexivity|].
  cbn [map]. rewrite dot_cons, IH. reflexivity.
Qed.

Ltac bpgen :=
  repeat match goal with
  | |- context [bp_g ?G ?p] => generalize (bp_g G p)
  | |- context [bp_h ?G ?p] => generalize (bp_h G p)
  | |- context [bp_u ?G ?p] => generalize (bp_u G p)
  | |- context [bpA ?G ?p] => generalize (bpA G p)
  | |- context [bpS ?G ?p] => generalize (bpS G p)
  | |- context [bpT1 ?G ?p] => generalize (bpT1 G p)
  | |- context [bpT2 ?G ?p] => generalize (bpT2 G p)
  end.

Section BP.
Variable G : ECGroup.
Local Notation q := (order G).
Local Infix "+p" := (padd G) (at level 50, left associativity).
Local Infix "-p" := (psub G) (at level 50, left associativity).
Local Notation "P *p k" := (pmul G P k%Z) (at level 40, left associativity).
Local Notation "a == b" := (cong q a b) (at level 70).

(** ** lists that represent a family modulo the order *)
Definition rep (n : nat) (l : list Z) (f : nat -> Z) : Prop :=
  length l = n /\ forall i, (i < n)%nat -> nth i l 0 == f i.

Lemma rep_self : forall l, rep (length l) l (fun i => nth i l 0).
Proof. intros l. split; [reflexivity|]. intros. reflexivity. Qed.

Lemma rep_repeat : forall n c, rep n (repeat c n) (fun _ => c).
Proof. intros n c. split; [apply repeat_length|]. intros i Hi. rewrite (nth_indep _ 0 c), nth_repeat by (rewrite repeat_length; exact Hi). reflexivity. Qed.

Lemma rep_forall2 : forall n l f, rep n l f -> Forall2 (cong q) l (map f (seq 0 n)).
Proof.
  intros n l f [L E]. subst n.
  assert (X : forall (a b : list Z), length a = length b -> (forall i, (i < length a)%nat -> nth i a 0 == nth i b 0) -> Forall2 (cong q) a b).
  { induction a as [|u a IH]; intros [|v b] L F; cbn [length] in L; try discriminate; constructor.
    - apply (F 0%nat). cbn [length]. lia.
    - apply IH; [lia|]. intros i Hi. apply (F (S i)). cbn [length]. lia. }
  apply X; [rewrite map_length, seq_length; reflexivity|]. intros i Hi.
  rewrite nth_map' with (d := 0%nat) by (rewrite seq_length; exact Hi). rewrite seq_nth by exact Hi. apply E. exact Hi.
Qed.

Lemma rep_map2 : forall n a b f g (op op' : Z -> Z -> Z), rep n a f -> rep n b g ->
  (forall x y x' y', x == x' -> y == y' -> op x y == op' x' y') -> rep n (map2 op a b) (fun i => op' (f i) (g i)).
Proof.
  intros n a b f g op op' [La Ea] [Lb Eb] C. split; [rewrite map2_length; lia|]. intros i Hi.
  rewrite (map2_nth op a b i 0 0 0) by lia. apply C; auto.
Qed.

Lemma rep_map : forall n a f (op op' : Z -> Z), rep n a f -> (forall x x', x == x' -> op x == op' x') ->
  rep n (map op a) (fun i => op' (f i)).
Proof.
  intros n a f op op' [La Ea] C. split; [rewrite map_length; exact La|]. intros i Hi.
  rewrite nth_map' with (d := 0) by lia. apply C. auto.
Qed.

Lemma rep_ext : forall n a f g, rep n a f -> (forall i, (i < n)%nat -> f i == g i) -> rep n a g.
Proof. intros n a f g [L E] F. split; [exact L|]. intros i Hi. rewrite E by exact Hi. auto. Qed.

Lemma rep_add : forall n a b f g, rep n a f -> rep n b g ->
  exists c, BigIntVectorModAdd a b q = Some c /\ rep n c (fun i => f i + g i).
Proof.
  intros n a b f g A B. unfold BigIntVectorModAdd, same_size. rewrite (proj1 A), (proj1 B), Nat.eqb_refl.
  eexists. split; [reflexivity|]. apply (rep_map2 n a b f g _ Z.add A B). intros x y x' y' C D. rewrite modq_cong', C, D. reflexivity.
Qed.
Lemma rep_sub : forall n a b f g, rep n a f -> rep n b g ->
  exists c, BigIntVectorModSub a b q = Some c /\ rep n c (fun i => f i - g i).
Proof.
  intros n a b f g A B. unfold BigIntVectorModSub, same_size. rewrite (proj1 A), (proj1 B), Nat.eqb_refl.
  eexists. split; [reflexivity|]. apply (rep_map2 n a b f g _ Z.sub A B). intros x y x' y' C D. rewrite modq_cong', C, D. reflexivity.
Qed.
Lemma rep_prod : forall n a b f g, rep n a f -> rep n b g ->
  exists c, BigIntVectorModProduct a b q = Some c /\ rep n c (fun i => f i * g i).
Proof.
  intros n a b f g A B. unfold BigIntVectorModProduct, same_size. rewrite (proj1 A), (proj1 B), Nat.eqb_refl.
  eexists. split; [reflexivity|]. apply (rep_map2 n a b f g _ Z.mul A B). intros x y x' y' C D. rewrite modq_cong', C, D. reflexivity.
Qed.
Lemma rep_scalar : forall n a f c, rep n a f -> rep n (BigIntVectorModScalar a c q) (fun i => f i * c).
Proof.
  intros n a f c A. unfold BigIntVectorModScalar. apply (rep_map n a f _ (fun x => x * c) A). intros x y C. rewrite modq_cong', C. reflexivity.
Qed.
Lemma rep_inner : forall n a b f g, rep n a f -> rep n b g ->
  exists d, BigIntVectorModInnerProduct a b q = Some d /\ d == sum n (fun i => f i * g i).
Proof.
  intros n a b f g A B. exists (BigInt_Mod (dot a b) q). split; [apply ModInner_some; rewrite (proj1 A), (proj1 B); reflexivity|].
  rewrite modq_cong', <- dot_sum. apply dot_cong; apply rep_forall2; assumption.
Qed.
Lemma rep_msum : forall n A a f, rep n a f -> msum G A a = msum G A (map f (seq 0 n)).
Proof. intros n A a f R. apply msum_cong. apply rep_forall2. exact R. Qed.

Lemma msum_ext : forall n A f g, (forall i, (i < n)%nat -> f i == g i) -> msum G A (map f (seq 0 n)) = msum G A (map g (seq 0 n)).
Proof.
  intros n A f g E. apply msum_cong. apply Forall2_maps.
  assert (X : forall l, (forall i, In i l -> f i == g i) -> Forall2 (fun x y => f x == g y) l l).
  { induction l as [|x l IH]; intros F; constructor; [apply F; left; reflexivity|]. apply IH. intros i Hi. apply F. right. exact Hi. }
  apply X. intros i Hi. apply in_seq in Hi. apply E. lia.
Qed.

Lemma msum_flin : forall n A f g c d,
  msum G A (map (fun i => c * f i + d * g i) (seq 0 n)) = msum G A (map f (seq 0 n)) *p c +p msum G A (map g (seq 0 n)) *p d.
Proof.
  intros n A f g c d. rewrite <- msum_lin by (rewrite !map_length; reflexivity). f_equal. unfold lin. rewrite map2_map.
  generalize (seq 0 n). induction l as [|x l IH]; cbn [map map2]; [reflexivity|]. rewrite IH. f_equal. ring.
Qed.

Lemma rep_pow : forall n y, (0 < n)%nat ->
  exists l, GenBigIntPowerVector n y q = Some l /\ rep n l (fun i => y ^ Z.of_nat i).
Proof.
  intros [|n] y Hn; [lia|]. cbn [GenBigIntPowerVector]. eexists. split; [reflexivity|].
  assert (X : forall k prev e, prev == y ^ Z.of_nat e ->
    length (power_loop k prev y q) = k /\ forall i, (i < k)%nat -> nth i (power_loop k prev y q) 0 == y ^ Z.of_nat (e + S i)).
  { induction k as [|k IH]; intros prev e C; cbn [power_loop]; [split; [reflexivity|intros; lia]|].
    assert (C' : BigInt_Mod (prev * y) q == y ^ Z.of_nat (S e)).
    { rewrite modq_cong', C, Nat2Z.inj_succ, Z.pow_succ_r by lia. apply cong_eq. ring. }
    destruct (IH _ (S e) C') as [L E]. cbn [length]. split; [lia|]. intros [|i] Hi; cbn [nth].
    - replace (e + 1)%nat with (S e) by lia. exact C'.
    - rewrite E by lia. replace (S e + S i)%nat with (e + S (S i))%nat by lia. reflexivity. }
  destruct (X n 1 0%nat) as [L E]; [rewrite Z.pow_0_r; reflexivity|]. split; [cbn [length]; lia|].
  intros [|i] Hi; cbn [nth]; [rewrite Z.pow_0_r; reflexivity|]. rewrite E by lia. reflexivity.
Qed.

Lemma adjust_rep : forall n z, rep (S n) (adjust_z n z q) (fun j => z ^ Z.of_nat (S j)).
Proof.
  intros n z. unfold adjust_z.
  assert (X : forall k prev e, prev == z ^ Z.of_nat e ->
    length (adjust_loop k prev z q) = k /\ forall i, (i < k)%nat -> nth i (adjust_loop k prev z q) 0 == z ^ Z.of_nat (e + S i)).
  { induction k as [|k IH]; intros prev e C; cbn [adjust_loop]; [split; [reflexivity|intros; lia]|].
    assert (C' : BigInt_Mod (z * prev) q == z ^ Z.of_nat (S e)).
    { rewrite modq_cong', C, Nat2Z.inj_succ, Z.pow_succ_r by lia. reflexivity. }
    destruct (IH _ (S e) C') as [L E]. cbn [length]. split; [lia|]. intros [|i] Hi; cbn [nth].
    - replace (e + 1)%nat with (S e) by lia. exact C'.
    - rewrite E by lia. replace (S e + S i)%nat with (e + S (S i))%nat by lia. reflexivity. }
  destruct (X n z 1%nat) as [L E]; [rewrite Z.pow_1_r; reflexivity|]. split; [cbn [length]; lia|].
  intros [|i] Hi; cbn [nth]; [rewrite Z.pow_1_r; reflexivity|]. rewrite E by lia. reflexivity.
Qed.

Lemma adjust_tail : forall n z, rep n (skipn 1 (adjust_z n z q)) (fun j => z ^ Z.of_nat (S (S j))).
Proof.
  intros n z. destruct (adjust_rep n z) as [L E]. split; [rewrite skipn_length, L; lia|].
  intros i Hi. rewrite nth_skipn. apply E. lia.
Qed.

(** ** the block vector  Z_p = z^{j+2} 2^k  for p = j R + k *)
Definition zblock (R : nat) (z : Z) (p : nat) : Z := z ^ Z.of_nat (S (S (p / R))) * 2 ^ Z.of_nat (p mod R).

Lemma div_block : forall R j p, (0 < R)%nat -> (1 <= j)%nat ->
  (p / R = j - 1 <-> (j - 1) * R <= p < j * R)%nat.
Proof.
  intros R j p HR Hj. pose proof (Nat.div_mod p R ltac:(lia)) as D. pose proof (Nat.mod_upper_bound p R ltac:(lia)) as B.
  split; [intros E; rewrite E in D; nia|]. intros [A C]. symmetry. apply (Nat.div_unique p R (j - 1) (p - (j - 1) * R)); nia.
Qed.

Lemma two_block_nth : forall R n j two p, (0 < R)%nat -> (1 <= j <= n)%nat -> length two = R -> (p < R * n)%nat ->
  nth p (two_block R n j two) 0 = if (p / R =? j - 1)%nat then nth (p mod R) two 0 else 0.
Proof.
  intros R n j two p HR Hj L Hp. unfold two_block. destruct (Nat.eqb_spec (p / R) (j - 1)) as [E|NE].
  - pose proof (Nat.div_mod p R ltac:(lia)) as D. pose proof (Nat.mod_upper_bound p R ltac:(lia)) as B. rewrite E in D.
    rewrite app_nth2; rewrite repeat_length; [|lia]. rewrite app_nth1 by lia. f_equal. lia.
  - destruct (Nat.lt_ge_cases p ((j - 1) * R)) as [C|C].
    + rewrite app_nth1 by (rewrite repeat_length; exact C). apply nth_repeat.
    + rewrite app_nth2; rewrite repeat_length; [|lia]. rewrite app_nth2; [apply nth_repeat|].
      destruct (Nat.lt_ge_cases p (j * R)) as [C'|C']; [|nia]. exfalso. apply NE. apply div_block; lia.
Qed.

Lemma rr0_loop_rep : forall R n two z, (0 < R)%nat -> rep R two (fun i => 2 ^ Z.of_nat i) ->
  forall k a rr f, (a + k = S n)%nat -> (1 <= a)%nat -> rep (R * n) rr f ->
  exists rr', rr0_loop (seq a k) R n two (adjust_z n z q) rr q = Some rr' /\
    rep (R * n) rr' (fun p => f p + if (a - 1 <=? p / R)%nat then zblock R z p else 0).
Proof.
  intros R n two z HR RT. destruct (adjust_rep n z) as [LZ EZ].
  induction k as [|k IH]; intros a rr f Hk Ha RR; cbn [seq rr0_loop].
  - exists rr. split; [reflexivity|]. apply (rep_ext _ _ _ _ RR). intros p Hp.
    assert (p / R < n)%nat by (apply Nat.div_lt_upper_bound; lia).
    destruct (Nat.leb_spec (a - 1) (p / R)); [lia|]. apply cong_eq. ring.
  - assert (LB : length (two_block R n a two) = (R * n)%nat).
    { unfold two_block. rewrite !app_length, !repeat_length, (proj1 RT). nia. }
    assert (RB : rep (R * n) (two_block R n a two) (fun p => if (p / R =? a - 1)%nat then 2 ^ Z.of_nat (p mod R) else 0)).
    { split; [exact LB|]. intros p Hp. rewrite two_block_nth by (try lia; apply (proj1 RT)).
      destruct (p / R =? a - 1)%nat; [|reflexivity]. apply (proj2 RT). apply Nat.mod_upper_bound. lia. }
    destruct (rep_add _ _ _ _ _ RR (rep_scalar _ _ _ (nth a (adjust_z n z q) 0) RB)) as [c [E RC]].
    rewrite E. cbn [obind]. destruct (IH (S a) c _ ltac:(lia) ltac:(lia) RC) as [rr' [E' R']].
    exists rr'. split; [exact E'|]. apply (rep_ext _ _ _ _ R'). intros p Hp. cbn beta.
    destruct (Nat.eqb_spec (p / R) (a - 1)) as [Q|NQ].
    + destruct (Nat.leb_spec (S a - 1) (p / R)); [lia|]. destruct (Nat.leb_spec (a - 1) (p / R)); [|lia].
      rewrite EZ by lia. unfold zblock. rewrite Q. replace (S (a - 1)) with a by lia. apply cong_eq. ring.
    + destruct (Nat.leb_spec (S a - 1) (p / R)); destruct (Nat.leb_spec (a - 1) (p / R)); try lia; apply cong_eq; ring.
Qed.

Lemma rr_inner_rep : forall R n j temp, (0 < R)%nat -> (1 <= j <= n)%nat ->
  forall k rr f, (k <= R)%nat -> rep (R * n) rr f ->
  rep (R * n) (fold_left (fun rr i => upd rr ((j - 1) * R + i) (BigInt_Mod (nth ((j - 1) * R + i) rr 0 + nth i temp 0) q)) (seq 0 k) rr)
     (fun p => f p + if ((p / R =? j - 1) && (p mod R <? k))%nat then nth (p mod R) temp 0 else 0).
Proof.
  intros R n j temp HR Hj. induction k as [|k IH]; intros rr f Hk RR.
  - cbn [seq fold_left]. apply (rep_ext _ _ _ _ RR). intros p Hp.
    destruct (Nat.ltb_spec (p mod R) 0); [lia|]. rewrite andb_false_r. apply cong_eq. ring.
  - rewrite seq_S, fold_left_app. cbn [fold_left]. specialize (IH rr f ltac:(lia) RR).
    set (rr1 := fold_left _ (seq 0 k) rr) in *. clearbody rr1. cbn [Nat.add]. destruct IH as [L E]. split; [rewrite upd_length; exact L|].
    intros p Hp. assert (K : ((j - 1) * R + k < R * n)%nat) by nia. pose proof (Nat.mod_upper_bound p R ltac:(lia)) as B.
    destruct (Nat.eq_dec ((j - 1) * R + k) p) as [Q|NQ].
    + rewrite <- Q at 1. rewrite nth_upd_same by lia. rewrite modq_cong', E, Q by lia.
      assert (D : (p / R = j - 1)%nat) by (apply div_block; nia).
      assert (M : (p mod R = k)%nat).
      { pose proof (Nat.div_mod p R ltac:(lia)) as DM. rewrite D in DM. lia. }
      rewrite D, M, Nat.eqb_refl. cbn [andb]. destruct (Nat.ltb_spec k k); [lia|]. destruct (Nat.ltb_spec k (S k)); [|lia]. apply cong_eq. ring.
    + rewrite nth_upd_other by lia. rewrite E by exact Hp. destruct (Nat.eqb_spec (p / R) (j - 1)) as [D|D]; cbn [andb]; [|reflexivity].
      assert ((p mod R)%nat <> k).
      { intros M. apply NQ. pose proof (Nat.div_mod p R ltac:(lia)) as DM. rewrite D, M in DM. lia. }
      destruct (Nat.ltb_spec (p mod R) k), (Nat.ltb_spec (p mod R) (S k)); try lia; reflexivity.
Qed.

Lemma rr_loop_rep : forall R n two z rr f, (0 < R)%nat -> rep (R * n) two (fun i => 2 ^ Z.of_nat i) -> rep (R * n) rr f ->
  rep (R * n) (rr_loop R n two (adjust_z n z q) rr q) (fun p => f p + zblock R z p).
Proof.
  intros R n two z rr f HR RT RR. unfold rr_loop, rr_inner. destruct (adjust_rep n z) as [LZ EZ].
  assert (X : forall k a rr f, (a + k = S n)%nat -> (1 <= a)%nat -> rep (R * n) rr f ->
    rep (R * n) (fold_left (fun rr j => fold_left (fun rr i => upd rr ((j - 1) * R + i)
        (BigInt_Mod (nth ((j - 1) * R + i) rr 0 + nth i (BigIntVectorModScalar two (nth j (adjust_z n z q) 0) q) 0) q)) (seq 0 R) rr) (seq a k) rr)
      (fun p => f p + if (a - 1 <=? p / R)%nat then zblock R z p else 0)).
  { clear rr f RR. induction k as [|k IH]; intros a rr f Hk Ha RR; cbn [seq fold_left].
    - apply (rep_ext _ _ _ _ RR). intros p Hp. assert (p / R < n)%nat by (apply Nat.div_lt_upper_bound; lia).
      destruct (Nat.leb_spec (a - 1) (p / R)); [lia|]. apply cong_eq. ring.
    - pose proof (rr_inner_rep R n a (BigIntVectorModScalar two (nth a (adjust_z n z q) 0) q) HR ltac:(lia) R rr f ltac:(lia) RR) as R1.
      specialize (IH (S a) _ _ ltac:(lia) ltac:(lia) R1). apply (rep_ext _ _ _ _ IH). intros p Hp. cbn beta.
      pose proof (Nat.mod_upper_bound p R ltac:(lia)) as B.
      destruct (Nat.eqb_spec (p / R) (a - 1)) as [Q|NQ]; cbn [andb].
      + destruct (Nat.ltb_spec (p mod R) R); [|lia]. destruct (Nat.leb_spec (S a - 1) (p / R)); [lia|]. destruct (Nat.leb_spec (a - 1) (p / R)); [|lia].
        rewrite (proj2 (rep_scalar _ _ _ (nth a (adjust_z n z q) 0) RT)) by nia. rewrite EZ by lia.
        unfold zblock. rewrite Q. replace (S (a - 1)) with a by lia. apply cong_eq. ring.
      + destruct (Nat.leb_spec (S a - 1) (p / R)); destruct (Nat.leb_spec (a - 1) (p / R)); try lia; apply cong_eq; ring. }
  specialize (X n 1%nat rr f ltac:(lia) ltac:(lia) RR). apply (rep_ext _ _ _ _ X). intros p Hp. reflexivity.
Qed.

(** ** the generators of the inner-product part *)
Lemma msum_product : forall A w a, length A = length w ->
  msum G (map2 (pmul G) A w) a = msum G A (map2 Z.mul w a).
Proof.
  induction A as [|P A IH]; intros [|x w] a E; cbn [length] in E; try discriminate; cbn [map2 msum]; [reflexivity|].
  destruct a as [|y a]; cbn [map2 msum]; [reflexivity|]. rewrite IH, pmul_mul by lia. reflexivity.
Qed.

Lemma map2_rep : forall n w a f g, rep n w f -> rep n a g -> rep n (map2 Z.mul w a) (fun i => f i * g i).
Proof. intros n w a f g A B. apply (rep_map2 n w a f g Z.mul Z.mul A B). intros x y x' y' C D. rewrite C, D. reflexivity. Qed.

Lemma firstn_len : forall (A : Type) (l : list A) n, (n <= length l)%nat -> length (firstn n l) = n.
Proof. intros. apply firstn_length_le. assumption. Qed.

(** the powers of z the verifier combines the commitments with *)
Definition zpow (n : nat) (z : Z) : list Z := map (fun j => z ^ Z.of_nat (S (S j))) (seq 0 n).

(** values of delta and of vec_rr *)
Definition delta_val (R n : nat) (y z : Z) : Z :=
  (z - z * z) * sum (R * n) (fun i => y ^ Z.of_nat i) -
  (sum n (fun j => z ^ Z.of_nat (S (S j))) * z) * sum R (fun i => 2 ^ Z.of_nat i).

Lemma fold_add : forall (f : nat -> Z) l s, fold_left (fun s j => s + f j) l s = s + zsum (map f l).
Proof. induction l as [|x l IH]; intros s; cbn [fold_left map zsum]; [ring|]. rewrite IH. ring. Qed.

Lemma delta_some : forall R n y z, (0 < R)%nat -> (0 < n)%nat ->
  exists d, delta_yz G R n y z = Some d /\ d == delta_val R n y z.
Proof.
  intros R n y z HR Hn. unfold delta_yz. assert (HL : (0 < R * n)%nat) by nia.
  destruct (rep_pow (R * n) y HL) as [yp [E1 R1]]. rewrite E1. cbn [obind].
  destruct (rep_pow R 2 HR) as [two [E2 R2]]. rewrite E2. cbn [obind].
  destruct (rep_inner _ _ _ _ _ (rep_repeat (R * n) 1) R1) as [b1 [E3 R3]]. rewrite E3. cbn [obind].
  destruct (rep_inner _ _ _ _ _ (rep_repeat R 1) R2) as [b2 [E4 R4]]. rewrite E4. cbn [obind].
  eexists. split; [reflexivity|]. unfold ModSub. fold (BigInt_Mod (z - ModSquare z q) q).
  match goal with |- checked (BN_nnmod ?a q) == _ => change (BigInt_Mod a q == delta_val R n y z) end.
  rewrite modq_cong', !modq_cong', R3, R4, square_cong. unfold delta_val.
  rewrite (sum_ext (R * n) _ (fun i => y ^ Z.of_nat i)) by (intros; ring).
  rewrite (sum_ext R (fun i => 1 * 2 ^ Z.of_nat i) (fun i => 2 ^ Z.of_nat i)) by (intros; ring).
  assert (S0 : fold_left (fun s j => s + nth j (adjust_z n z q) 0) (seq 1 n) 0 == sum n (fun j => z ^ Z.of_nat (S (S j)))).
  { rewrite fold_add, Z.add_0_l. unfold sum. rewrite <- seq_shift, map_map. destruct (adjust_rep n z) as [_ EZ].
    assert (X : forall l, (forall j, In j l -> (j < n)%nat) -> zsum (map (fun j => nth (S j) (adjust_z n z q) 0) l) == zsum (map (fun j => z ^ Z.of_nat (S (S j))) l)).
    { induction l as [|j l IH]; intros I; cbn [map zsum]; [reflexivity|]. rewrite EZ, IH; [reflexivity| |].
      - intros k K. apply I. right. exact K.
      - specialize (I j (or_introl eq_refl)). lia. }
    apply X. intros j J. apply in_seq in J. lia. }
  rewrite S0. reflexivity.
Qed.

Lemma rr_some : forall R n y z, (0 < R)%nat -> (0 < n)%nat ->
  exists rr, bp_rr G R n y z = Some rr /\ rep (R * n) rr (fun p => y ^ Z.of_nat p * z + zblock R z p).
Proof.
  intros R n y z HR Hn. unfold bp_rr. assert (HL : (0 < R * n)%nat) by nia.
  destruct (rep_pow (R * n) y HL) as [yp [E1 R1]]. rewrite E1. cbn [obind].
  destruct (rep_pow (R * n) 2 HL) as [two [E2 R2]]. rewrite E2. cbn [obind].
  eexists. split; [reflexivity|]. apply rr_loop_rep; [exact HR|exact R2|]. apply rep_scalar. exact R1.
Qed.

(** ** the two verifiers on an arbitrary proof *)
Section Hash.
Variable H : list N -> Z.

(** the challenges *)
Definition tr1 (tr : list N) (p : BPProof G) := tr ++ ToByteString G (bpA G p).
Definition tr2 (tr : list N) (p : BPProof G) := tr1 tr p ++ ToByteString G (bpS G p).
Definition tr3 (tr : list N) (p : BPProof G) := tr2 tr p ++ ToByteString G (bpT1 G p) ++ ToByteString G (bpT2 G p).
Definition tr4 (tr : list N) (p : BPProof G) := tr3 tr p ++ BigInt_ToByteString (H (tr3 tr p)).
Definition chy tr p := H (tr1 tr p).
Definition chz tr p := H (tr2 tr p).
Definition chx tr p := H (tr3 tr p).
Definition che tr p := H (tr4 tr p).
Definition chip tr p := fst (IP_challenges G H (tr4 tr p) (ipL G (bpip G p)) (ipR G (bpip G p))).
Definition trend tr p := snd (IP_challenges G H (tr4 tr p) (ipL G (bpip G p)) (ipR G (bpip G p))).

(** generators after scaling *)
Definition hsc (pp : BPPP G) (LEN : nat) (y : Z) : list (pt G) :=
  map2 (pmul G) (firstn LEN (bp_vh G pp)) (map (fun i => ModInverse y q ^ Z.of_nat i) (seq 0 LEN)).

(** first equation: right side minus left side *)
Definition E1 (pp : BPPP G) (C : list (pt G)) (tr : list N) (p : BPProof G) : pt G :=
  let y := chy tr p in let z := chz tr p in let x := chx tr p in
  msum G C (zpow (length C) z) +p bp_h G pp *p delta_val (bp_range G pp) (length C) y z +p bpT1 G p *p x +p bpT2 G p *p (x * x)
  -p (bp_g G pp *p bptaux G p +p bp_h G pp *p bptx G p).

(** the point the inner-product argument is about *)
Definition PV (pp : BPPP G) (C : list (pt G)) (tr : list N) (p : BPProof G) : pt G :=
  let R := bp_range G pp in let LEN := (R * length C)%nat in
  let y := chy tr p in let z := chz tr p in let x := chx tr p in
  msum G (firstn LEN (bp_vg G pp)) (map (fun _ => - z) (seq 0 LEN)) +p
  msum G (hsc pp LEN y) (map (fun i => y ^ Z.of_nat i * z + zblock R z i) (seq 0 LEN)) +p
  bpA G p +p bpS G p *p x -p bp_h G pp *p bpmu G p +p bp_u G pp *p che tr p *p bptx G p.

(** second equation: left side minus right side *)
Definition E2 (pp : BPPP G) (C : list (pt G)) (tr : list N) (p : BPProof G) : pt G :=
  let LEN := (bp_range G pp * length C)%nat in
  ip_lhs G (firstn LEN (bp_vg G pp)) (hsc pp LEN (chy tr p)) (bp_u G pp *p che tr p) (chip tr p) (ipa G (bpip G p)) (ipb G (bpip G p))
  -p ip_rhs G (ipL G (bpip G p)) (ipR G (bpip G p)) (chip tr p) (PV pp C tr p).

(** sizes for which nothing is read outside a vector *)
Definition bp_dims (pp : BPPP G) (n : nat) (p : BPProof G) : Prop :=
  exists k, (bp_range G pp * n = 2 ^ k)%nat /\ (k < 64)%nat /\
  (2 ^ k <= length (bp_vg G pp))%nat /\ (2 ^ k <= length (bp_vh G pp))%nat /\
  length (ipL G (bpip G p)) = k /\ length (ipR G (bpip G p)) = k.

Lemma dims_pos : forall R n k, (R * n = 2 ^ k)%nat -> (0 < R)%nat /\ (0 < n)%nat.
Proof. intros R n k E. pose proof (pow2_pos k). split; nia. Qed.

(** the scaled generators computed by the code agree with [hsc] in every product *)
Lemma hsc_msum : forall pp LEN y yip a f, (LEN <= length (bp_vh G pp))%nat ->
  rep LEN yip (fun i => ModInverse y q ^ Z.of_nat i) -> rep LEN a f ->
  msum G (map2 (pmul G) (firstn LEN (bp_vh G pp)) yip) a = msum G (hsc pp LEN y) (map f (seq 0 LEN)).
Proof.
  intros pp LEN y yip a f L RY RA. unfold hsc. pose proof (firstn_len _ (bp_vh G pp) LEN L) as LF.
  rewrite !msum_product by (rewrite ?map_length, ?seq_length, ?(proj1 RY); exact LF).
  rewrite (rep_msum _ _ _ _ (map2_rep _ _ _ _ _ RY RA)). f_equal. rewrite map2_map.
  generalize (seq 0 LEN). induction l as [|i l IH]; cbn [map map2]; [reflexivity|]. rewrite IH. reflexivity.
Qed.

Lemma negate_cong : forall z, ModNegate z q == - z.
Proof.
  intros z. unfold ModNegate. destruct (Z.eqb_spec z 0) as [->|N]; [reflexivity|]. rewrite modq_cong'. exists 1. ring.
Qed.

Lemma ip_lhs_ext : forall g h h' u x a b, (forall v, length v = (2 ^ length x)%nat -> msum G h v = msum G h' v) ->
  ip_lhs G g h u x a b = ip_lhs G g h' u x a b.
Proof.
  intros g h h' u x a b E. unfold ip_lhs. rewrite E; [reflexivity|].
  unfold BigIntVectorScalar, BigIntVectorModInverse. rewrite !map_length, SS_length. reflexivity.
Qed.

Lemma hsc_any : forall pp LEN y yip, (LEN <= length (bp_vh G pp))%nat ->
  rep LEN yip (fun i => ModInverse y q ^ Z.of_nat i) ->
  forall v, length v = LEN -> msum G (map2 (pmul G) (firstn LEN (bp_vh G pp)) yip) v = msum G (hsc pp LEN y) v.
Proof.
  intros pp LEN y yip L RY v <-. rewrite (hsc_msum pp _ y yip v _ L RY (rep_self v)), map_nth_seq. reflexivity.
Qed.

Lemma bool_psub : forall P Q : pt G, peqb G P Q = peqb G (P -p Q) (inf G).
Proof.
  intros P Q. apply eq_true_iff_eq. rewrite !peqb_true. split; [intros ->|intros E].
  - apply padd_neg.
  - transitivity ((P -p Q) +p Q); [clear; logs G; gring|]. rewrite E, padd_inf_l. reflexivity.
Qed.

Lemma BP_Verify_spec : forall pp C tr p, bp_dims pp (length C) p ->
  BP_Verify G H pp C tr p = Some (peqb G (E1 pp C tr p) (inf G) && peqb G (E2 pp C tr p) (inf G), trend tr p).
Proof.
  intros pp C tr p [k [EL [Hk [Lg [Lh [LL LR]]]]]]. destruct (dims_pos _ _ _ EL) as [HR Hn].
  unfold BP_Verify. fold (tr1 tr p). fold (tr2 tr p). fold (tr3 tr p). fold (tr4 tr p).
  fold (chy tr p). fold (chz tr p). fold (chx tr p). fold (che tr p).
  rewrite EL. rewrite (proj2 (Nat.leb_le _ _) Lg), (proj2 (Nat.leb_le _ _) Lh). cbn [andb].
  destruct (delta_some (bp_range G pp) (length C) (chy tr p) (chz tr p) HR Hn) as [d [ED CD]]. rewrite ED. cbn [obind].
  pose proof (adjust_tail (length C) (chz tr p)) as RT. set (zt := skipn 1 _) in *.
  rewrite VectorMul_some by (rewrite !app_length, (proj1 RT); reflexivity). cbn [obind].
  unfold bp_ip. rewrite (is_pow2_ok k Hk).
  destruct (rep_pow (2 ^ k) (ModInverse (chy tr p) q) (pow2_pos k)) as [yip [EY RY]]. rewrite EY. cbn [obind].
  unfold ECPointVectorProduct, same_size. rewrite (firstn_len _ _ _ Lh), (proj1 RY), Nat.eqb_refl. cbn [obind ip_g ip_h ip_u].
  destruct (rr_some (bp_range G pp) (length C) (chy tr p) (chz tr p) HR Hn) as [rr [ER RR]]. rewrite EL in RR. rewrite ER. cbn [obind].
  rewrite VectorMul_some by (rewrite !app_length, map2_length, !firstn_len, repeat_length, (proj1 RY), (proj1 RR) by assumption; cbn [length]; lia). cbn [obind].
  set (h' := map2 (pmul G) (firstn (2 ^ k) (bp_vh G pp)) yip).
  assert (Lh' : length h' = (2 ^ k)%nat) by (unfold h'; rewrite map2_length, firstn_len, (proj1 RY) by assumption; lia).
  match goal with |- context [IP_FastVerify G H ?ip ?P _ _] =>
    pose proof (FastVerify_spec G H k ip P (tr4 tr p) (bpip G p) eq_refl Hk) as FV end.
  cbv zeta in FV. rewrite FV; clear FV.
  2:{ unfold ip_sizes; cbn [ip_len ip_g ip_h]; rewrite firstn_len, Lh', Nat.log2_pow2, LL, LR, !Nat.eqb_refl by (assumption || lia); reflexivity. }
  cbn [obind fst snd ip_g ip_h ip_u]. fold (chip tr p). fold (trend tr p).
  f_equal. f_equal. f_equal.
  - rewrite msum_app by (rewrite (proj1 RT); reflexivity). cbn [msum].
    rewrite (rep_msum _ _ _ _ RT). fold (zpow (length C) (chz tr p)).
    rewrite (pmul_cong G (bp_h G pp) _ _ CD), (pmul_cong G (bpT2 G p) _ _ (square_cong G _)).
    rewrite bool_psub. unfold E1.
    match goal with |- peqb G ?a _ = peqb G ?b _ => replace b with (pneg G a) end.
    + generalize (bp_g G pp *p bptaux G p +p bp_h G pp *p bptx G p -p (msum G C (zpow (length C) (chz tr p)) +p (bp_h G pp *p delta_val (bp_range G pp) (length C) (chy tr p) (chz tr p) +p (bpT1 G p *p chx tr p +p (bpT2 G p *p (chx tr p * chx tr p) +p inf G))))).
      clear. intros P. apply eq_true_iff_eq. rewrite !peqb_true. split; [intros ->; apply pneg_inf|apply pneg_eq_inf].
    + rewrite padd_inf. bpgen. generalize (msum G C (zpow (length C) (chz tr p))). clear. intros. logs G. gring.
  - rewrite bool_psub. unfold E2. rewrite EL. f_equal. f_equal.
    + apply ip_lhs_ext. intros v Lv. apply hsc_any; [exact Lh|exact RY|]. rewrite Lv. f_equal. unfold chip.
      rewrite challenges_length; lia.
    + unfold ip_rhs. f_equal. unfold PV. rewrite EL.
      rewrite !msum_app by (rewrite ?firstn_len, ?repeat_length, ?Lh', ?(proj1 RR) by assumption; reflexivity). cbn [msum].
      unfold h'. rewrite (hsc_msum pp _ _ _ _ _ Lh RY RR).
      assert (RN : rep (2 ^ k) (repeat (ModNegate (chz tr p) q) (2 ^ k)) (fun _ => - chz tr p)).
      { apply (rep_ext _ _ _ _ (rep_repeat _ _)). intros. apply negate_cong. }
      rewrite (rep_msum _ _ _ _ RN).
      generalize (msum G (firstn (2 ^ k) (bp_vg G pp)) (map (fun _ => - chz tr p) (seq 0 (2 ^ k)))).
      generalize (msum G (hsc pp (2 ^ k) (chy tr p)) (map (fun i => chy tr p ^ Z.of_nat i * chz tr p + zblock (bp_range G pp) (chz tr p) i) (seq 0 (2 ^ k)))).
      rewrite padd_inf. generalize (bp_u G pp *p che tr p). bpgen. clear. intros. logs G. gring.
Qed.

Lemma BP_FastVerify_spec : forall pp C tr p c, bp_dims pp (length C) p ->
  BP_FastVerify G H pp C tr p c = Some (peqb G (E1 pp C tr p *p c +p E2 pp C tr p) (inf G), trend tr p).
Proof.
  intros pp C tr p c [k [EL [Hk [Lg [Lh [LL LR]]]]]]. destruct (dims_pos _ _ _ EL) as [HR Hn].
  unfold BP_FastVerify. fold (tr1 tr p). fold (tr2 tr p). fold (tr3 tr p). fold (tr4 tr p).
  fold (chy tr p). fold (chz tr p). fold (chx tr p). fold (che tr p). fold (chip tr p). fold (trend tr p).
  rewrite EL. rewrite (proj2 (Nat.leb_le _ _) Lg), (proj2 (Nat.leb_le _ _) Lh), (is_pow2_ok k Hk), Nat.log2_pow2, LL, LR, Nat.eqb_refl by lia. cbn [andb].
  destruct (delta_some (bp_range G pp) (length C) (chy tr p) (chz tr p) HR Hn) as [d [ED CD]]. rewrite ED. cbn [obind].
  pose proof (adjust_tail (length C) (chz tr p)) as RT. set (zt := skipn 1 _) in *.
  destruct (rep_pow (2 ^ k) (ModInverse (chy tr p) q) (pow2_pos k)) as [yip [EY RY]]. rewrite EY. cbn [obind].
  unfold ECPointVectorProduct, same_size. rewrite (firstn_len _ _ _ Lh), (proj1 RY), Nat.eqb_refl. cbn [obind].
  destruct (rr_some (bp_range G pp) (length C) (chy tr p) (chz tr p) HR Hn) as [rr [ER RR]]. rewrite EL in RR. rewrite ER. cbn [obind].
  assert (LX : length (chip tr p) = k) by (unfold chip; rewrite challenges_length; lia).
  set (xs := chip tr p) in *.
  fold (invs G xs). fold (sqs G xs). fold (sqs G (invs G xs)). rewrite (FastSS_eq G).
  set (s := ComputeVectorSS (2 ^ length xs) xs (invs G xs) q). assert (Ls : length s = (2 ^ k)%nat) by (unfold s; rewrite SS_length, LX; reflexivity).
  set (sa := BigIntVectorScalar s (ipa G (bpip G p))).
  set (sb := BigIntVectorScalar (BigIntVectorModInverse s q) (ipb G (bpip G p))).
  assert (Lsa : length sa = (2 ^ k)%nat) by (unfold sa, BigIntVectorScalar; rewrite map_length; exact Ls).
  assert (Lsb : length sb = (2 ^ k)%nat) by (unfold sb, BigIntVectorScalar, BigIntVectorModInverse; rewrite !map_length; exact Ls).
  set (h' := map2 (pmul G) (firstn (2 ^ k) (bp_vh G pp)) yip).
  assert (Lh' : length h' = (2 ^ k)%nat) by (unfold h'; rewrite map2_length, firstn_len, (proj1 RY) by assumption; lia).
  assert (Lq : length (sqs G xs) = k) by (unfold sqs; rewrite map_length; exact LX).
  assert (Lqi : length (sqs G (invs G xs)) = k) by (unfold sqs, invs; rewrite !map_length; exact LX).
  rewrite map_app. cbn [map].
  rewrite VectorMul_some
    by (rewrite !app_length, !map_length, !map2_length, Lsa, Lsb, !firstn_len, repeat_length, (proj1 RT), (proj1 RR), Lh', LL, LR, Lq, Lqi by assumption; cbn [length]; lia).
  cbn [obind]. do 3 f_equal.
  rewrite <- app_assoc.
  rewrite msum_app by (rewrite map_length, (proj1 RT); reflexivity).
  rewrite (msum_app G [_; _; _; _]) by reflexivity.
  rewrite msum_app by (rewrite map2_length, Lsa, repeat_length, firstn_len by assumption; lia).
  rewrite msum_app by (rewrite map2_length, Lsb, Lh', (proj1 RR); lia).
  rewrite (msum_app G [_; _; _; _]) by reflexivity.
  rewrite msum_app by (rewrite map_length, Lq; exact LL).
  rewrite !(msum_opp G), (msum_scale G), <- (msum_add G), (msum_sub G) by (rewrite ?repeat_length, ?Lsa, ?Lsb, ?(proj1 RR); reflexivity).
  cbn [msum]. rewrite (rep_msum _ _ _ _ RT). fold (zpow (length C) (chz tr p)).
  rewrite (pmul_cong G (bpT2 G p) _ (chx tr p * chx tr p * c)) by (rewrite square_cong; reflexivity).
  rewrite (pmul_cong G (bp_h G pp) _ ((delta_val (bp_range G pp) (length C) (chy tr p) (chz tr p) - bptx G p) * c)) by (rewrite CD; reflexivity).
  unfold h' at 2. rewrite (hsc_msum pp _ _ _ _ _ Lh RY RR).
  unfold h'. rewrite (hsc_any pp _ _ _ Lh RY) by exact Lsb.
  assert (RN : msum G (firstn (2 ^ k) (bp_vg G pp)) (repeat (chz tr p) (2 ^ k)) = pneg G (msum G (firstn (2 ^ k) (bp_vg G pp)) (map (fun _ => - chz tr p) (seq 0 (2 ^ k))))).
  { rewrite <- (msum_opp G), map_map. apply (rep_msum (2 ^ k)). apply (rep_ext _ _ _ _ (rep_repeat _ _)). intros. rewrite Z.opp_involutive. reflexivity. }
  rewrite RN. unfold E1, E2, PV, ip_lhs, ip_rhs. rewrite EL. fold xs. fold s. fold sa. fold sb.
  generalize (msum G (firstn (2 ^ k) (bp_vg G pp)) (map (fun _ => - chz tr p) (seq 0 (2 ^ k)))).
  generalize (msum G (hsc pp (2 ^ k) (chy tr p)) (map (fun i => chy tr p ^ Z.of_nat i * chz tr p + zblock (bp_range G pp) (chz tr p) i) (seq 0 (2 ^ k)))).
  generalize (msum G (hsc pp (2 ^ k) (chy tr p)) sb) (msum G (firstn (2 ^ k) (bp_vg G pp)) sa).
  generalize (msum G (ipL G (bpip G p)) (sqs G xs)) (msum G (ipR G (bpip G p)) (sqs G (invs G xs))).
  generalize (msum G C (zpow (length C) (chz tr p))).
  rewrite !padd_inf. bpgen. clear. intros. logs G. gring.
Qed.

(** ** fast = naive *)
Lemma BP_fast_naive : forall pp C tr p, bp_dims pp (length C) p ->
  (forall c, BP_Verify G H pp C tr p = Some (true, trend tr p) -> BP_FastVerify G H pp C tr p c = Some (true, trend tr p)) /\
  (forall c c', ~ c == c' -> BP_FastVerify G H pp C tr p c = Some (true, trend tr p) ->
     BP_FastVerify G H pp C tr p c' = Some (true, trend tr p) -> BP_Verify G H pp C tr p = Some (true, trend tr p)).
Proof.
  intros pp C tr p D. rewrite BP_Verify_spec by exact D. split.
  - intros c E. rewrite BP_FastVerify_spec by exact D. injection E as E. apply andb_prop in E. rewrite !peqb_true in E. destruct E as [-> ->].
    rewrite inf_mul, padd_inf, (proj2 (peqb_true G _ _) eq_refl). reflexivity.
  - intros c c' NE. rewrite !BP_FastVerify_spec by exact D. intros A B. injection A as A. injection B as B. apply peqb_true in A, B.
    assert (Z1 : E1 pp C tr p = inf G).
    { assert (E1 pp C tr p *p (c - c') = inf G).
      { transitivity ((E1 pp C tr p *p c +p E2 pp C tr p) -p (E1 pp C tr p *p c' +p E2 pp C tr p)).
        - generalize (E1 pp C tr p) (E2 pp C tr p). clear. intros. logs G. gring.
        - rewrite A, B. apply padd_neg. }
      destruct (peqb_spec G (E1 pp C tr p) (inf G)) as [E|E]; [exact E|exfalso]. apply NE.
      rewrite <- (pmul_0 G (E1 pp C tr p)) in H0. apply (pmul_inj G _ _ _ E) in H0. clear -H0. destruct H0 as [m X]. exists m. lia. }
    rewrite Z1, inf_mul, padd_inf_l in A. rewrite Z1, A, (proj2 (peqb_true G _ _) eq_refl). reflexivity.
Qed.

(** ** the honest prover *)
Definition bitf (a : Z) (j : nat) : Z := if (GetTheNthBit a (N.of_nat j) =? 1)%N then 1 else 0.
Definition low (R : nat) (a : Z) : Z := sum R (fun j => bitf a j * 2 ^ Z.of_nat j).

Lemma nth_flat_map_seq : forall R (f : nat -> nat -> Z) n s p, (p < R * n)%nat ->
  nth p (flat_map (fun i => map (f i) (seq 0 R)) (seq s n)) 0 = f (s + p / R)%nat (p mod R)%nat.
Proof.
  intros R f. induction n as [|n IH]; intros s p Hp; [lia|]. cbn [seq flat_map]. assert (HR : (R <> 0)%nat) by lia.
  destruct (Nat.lt_ge_cases p R) as [L|L].
  - rewrite app_nth1 by (rewrite map_length, seq_length; exact L).
    rewrite (nth_map' _ _ _ 0%nat) by (rewrite seq_length; exact L). rewrite seq_nth by exact L.
    rewrite Nat.div_small, Nat.mod_small by exact L. f_equal; lia.
  - rewrite app_nth2 by (rewrite map_length, seq_length; exact L). rewrite map_length, seq_length, IH by lia.
    replace p with ((p - R) + 1 * R)%nat at 3 4 by lia. rewrite Nat.div_add, Nat.mod_add by exact HR. f_equal. lia.
Qed.

Lemma flat_map_seq_length : forall R (f : nat -> nat -> Z) l, length (flat_map (fun i => map (f i) (seq 0 R)) l) = (R * length l)%nat.
Proof.
  intros R f. induction l as [|x l IH]; cbn [flat_map length]; [lia|]. rewrite app_length, IH, map_length, seq_length. lia.
Qed.

Lemma bits_rep : forall R n v, rep (R * n) (bits_of R n v) (fun p => bitf (nth (p / R) v 0) (p mod R)).
Proof.
  intros R n v. unfold bits_of. change (fun i => map (fun j => if (GetTheNthBit (nth i v 0%Z) (N.of_nat j) =? 1)%N then 1 else 0) (seq 0 R))
    with (fun i => map ((fun i j => bitf (nth i v 0) j) i) (seq 0 R)). split.
  - rewrite flat_map_seq_length, seq_length. reflexivity.
  - intros p Hp. rewrite (nth_flat_map_seq R (fun i j => bitf (nth i v 0) j)) by exact Hp. reflexivity.
Qed.

Lemma bitf_01 : forall a j, bitf a j = 0 \/ bitf a j = 1.
Proof. intros. unfold bitf. destruct (_ =? _)%N; auto. Qed.

Lemma bitf_spec : forall a j, 0 <= a -> bitf a j = Z.b2z (Z.testbit a (Z.of_nat j)).
Proof.
  intros a j A. unfold bitf. rewrite GetTheNthBit_spec by exact A. rewrite nat_N_Z. destruct (Z.testbit a (Z.of_nat j)); reflexivity.
Qed.

Lemma low_mod : forall R a, 0 <= a -> low R a = a mod 2 ^ Z.of_nat R.
Proof.
  intros R a A. induction R as [|R IH].
  - unfold low, sum. cbn [seq map zsum]. change (2 ^ Z.of_nat 0) with 1. rewrite Z.mod_1_r. reflexivity.
  - unfold low in *. rewrite sum_S, IH, (bitf_spec a R A). rewrite Nat2Z.inj_succ, Z.pow_succ_r by lia.
    rewrite (Z.mul_comm 2), Z.rem_mul_r by (try apply Z.pow_nonzero; lia). rewrite <- Z.testbit_spec' by lia. ring.
Qed.

Lemma low_small : forall R a, 0 <= a < 2 ^ Z.of_nat R -> low R a = a.
Proof. intros R a A. rewrite low_mod by lia. apply Z.mod_small. exact A. Qed.

Lemma pow_inv : forall y i, ~ y == 0 -> ModInverse y q ^ Z.of_nat i * y ^ Z.of_nat i == 1.
Proof.
  intros y i N. rewrite <- Z.pow_mul_l. pose proof (inv_cong G y N) as C. rewrite Z.mul_comm in C. revert C. generalize (ModInverse y q * y). intros w C.
  induction i as [|i IH]; [reflexivity|]. rewrite Nat2Z.inj_succ, Z.pow_succ_r, IH, Z.mul_1_r by lia. exact C.
Qed.

Lemma hsc_unscale : forall pp LEN y f, (LEN <= length (bp_vh G pp))%nat -> ~ y == 0 ->
  msum G (firstn LEN (bp_vh G pp)) (map f (seq 0 LEN)) = msum G (hsc pp LEN y) (map (fun i => y ^ Z.of_nat i * f i) (seq 0 LEN)).
Proof.
  intros pp LEN y f L N. unfold hsc. rewrite msum_product by (rewrite map_length, seq_length; apply firstn_len; exact L).
  rewrite map2_map. assert (X : forall (g h : nat -> Z) l, map2 (fun a b : nat => g a * h b) l l = map (fun i => g i * h i) l).
  { induction l as [|i l IH]; cbn [map2 map]; [reflexivity|]. rewrite IH. reflexivity. }
  rewrite (X (fun i => ModInverse y q ^ Z.of_nat i) (fun i => y ^ Z.of_nat i * f i)).
  apply msum_ext. intros i _. rewrite Z.mul_assoc, (pow_inv y i N). rewrite Z.mul_1_l. reflexivity.
Qed.

Lemma taux_fold : forall (f : nat -> Z) l s, fold_left (fun t j => BigInt_Mod (t + f j) q) l s == s + zsum (map f l).
Proof.
  induction l as [|j l IH]; intros s; cbn [fold_left map zsum]; [apply cong_eq; ring|]. rewrite IH, modq_cong'. apply cong_eq. ring.
Qed.

(** the polynomial identity behind t0 *)
Lemma t0_eq : forall R n y z v, (0 < R)%nat ->
  sum (R * n) (fun i => (bitf (nth (i / R) v 0) (i mod R) - z) * (y ^ Z.of_nat i * (z + (bitf (nth (i / R) v 0) (i mod R) - 1)) + zblock R z i))
  = delta_val R n y z + sum n (fun j => z ^ Z.of_nat (S (S j)) * low R (nth j v 0)).
Proof.
  intros R n y z v HR. unfold delta_val.
  rewrite (sum_ext (R * n) _ (fun i => 1 * ((z - z * z) * y ^ Z.of_nat i) + 1 * (z ^ Z.of_nat (S (S (i / R))) * ((bitf (nth (i / R) v 0) (i mod R) - z) * 2 ^ Z.of_nat (i mod R))))).
  2:{ intros i _. unfold zblock. destruct (bitf_01 (nth (i / R) v 0) (i mod R)) as [-> | ->]; ring. }
  rewrite sum_lin, sum_scale.
  rewrite (sum_block R n (fun j k => z ^ Z.of_nat (S (S j)) * ((bitf (nth j v 0) k - z) * 2 ^ Z.of_nat k))) by exact HR.
  match goal with |- 1 * ?a + 1 * ?b = ?a - ?c + ?d => enough (b = d - c) by lia end.
  rewrite (sum_ext n _ (fun j => 1 * (z ^ Z.of_nat (S (S j)) * low R (nth j v 0)) + (- z * sum R (fun i => 2 ^ Z.of_nat i)) * z ^ Z.of_nat (S (S j)))).
  - rewrite sum_lin. ring.
  - intros j _. unfold low.
    rewrite (sum_ext R _ (fun k => z ^ Z.of_nat (S (S j)) * (bitf (nth j v 0) k * 2 ^ Z.of_nat k) + (- z * z ^ Z.of_nat (S (S j))) * 2 ^ Z.of_nat k)).
    + rewrite sum_lin. ring.
    + intros k Hk. ring.
Qed.

Lemma BP_honest : forall pp C r v tr rn k,
  (bp_range G pp * length C = 2 ^ k)%nat -> (k < 64)%nat ->
  (2 ^ k <= length (bp_vg G pp))%nat -> (2 ^ k <= length (bp_vh G pp))%nat ->
  (length C <= length r)%nat -> (length C <= length v)%nat ->
  length (rd_sL rn) = (2 ^ k)%nat -> length (rd_sR rn) = (2 ^ k)%nat ->
  exists p, BP_Prove G H pp C r v tr rn = Some (p, trend tr p) /\ bp_dims pp (length C) p /\
   (E1 pp C tr p = msum G C (zpow (length C) (chz tr p))
      -p (bp_g G pp *p sum (length C) (fun j => (chz tr p) ^ Z.of_nat (S (S j)) * nth j r 0)
          +p bp_h G pp *p sum (length C) (fun j => (chz tr p) ^ Z.of_nat (S (S j)) * low (bp_range G pp) (nth j v 0)))) /\
   (~ chy tr p == 0 -> nonzero G (chip tr p) -> E2 pp C tr p = inf G).
Proof.
  intros pp C r v tr rn k EL Hk Lg Lh Lr Lv LsL LsR. destruct (dims_pos _ _ _ EL) as [HR Hn].
  unfold BP_Prove. rewrite EL. rewrite (proj2 (Nat.leb_le _ _) Lg), (proj2 (Nat.leb_le _ _) Lh), (proj2 (Nat.leb_le _ _) Lr), (proj2 (Nat.leb_le _ _) Lv). cbn [andb].
  pose proof (bits_rep (bp_range G pp) (length C) v) as RL. rewrite EL in RL. set (aL := bits_of _ _ v) in *.
  set (b := fun i => bitf (nth (i / bp_range G pp) v 0) (i mod bp_range G pp)) in *.
  destruct (rep_sub _ _ _ _ _ RL (rep_repeat (2 ^ k) 1)) as [aR [EA RA]]. rewrite EA. cbn [obind].
  pose proof (firstn_len _ _ _ Lg) as LG. pose proof (firstn_len _ _ _ Lh) as LH.
  rewrite VectorMul_some by (rewrite !app_length, LG, LH, (proj1 RL), (proj1 RA); reflexivity). cbn [obind].
  rewrite VectorMul_some by (rewrite !app_length, LG, LH, LsL, LsR; reflexivity). cbn [obind].
  set (A := msum G _ (aL ++ _)). set (S0 := msum G _ (rd_sL rn ++ _)).
  set (y := H (tr ++ ToByteString G A)). set (z := H ((tr ++ ToByteString G A) ++ ToByteString G S0)).
  destruct (rep_sub _ _ _ _ _ RL (rep_repeat (2 ^ k) z)) as [ll0 [EL0 RL0]]. rewrite EL0. cbn [obind].
  destruct (rep_pow (2 ^ k) y (pow2_pos k)) as [yp [EYP RYP]]. rewrite EYP. cbn [obind].
  destruct (rep_add _ _ _ _ _ (rep_repeat (2 ^ k) z) RA) as [zz [EZZ RZZ]]. rewrite EZZ. cbn [obind].
  destruct (rep_prod _ _ _ _ _ RYP RZZ) as [rr0' [ER0' RR0']]. rewrite ER0'. cbn [obind].
  destruct (rep_pow (bp_range G pp) 2 HR) as [two [E2' R2]]. rewrite E2'. cbn [obind].
  rewrite <- EL in RR0'.
  assert (XR : exists rr0, rr0_loop (seq 1 (length C)) (bp_range G pp) (length C) two (adjust_z (length C) z q) rr0' q = Some rr0 /\
    rep (bp_range G pp * length C) rr0 (fun i => y ^ Z.of_nat i * (z + (b i - 1)) + zblock (bp_range G pp) z i)).
  { destruct (rr0_loop_rep (bp_range G pp) (length C) two z HR R2 (length C) 1%nat rr0' _ eq_refl (Nat.le_refl 1) RR0') as [rr0 [X1 X2]].
    exists rr0. split; [exact X1|exact X2]. }
  destruct XR as [rr0 [ER0 RR0]]. rewrite ER0. cbn [obind].
  rewrite EL in RR0.
  pose proof (rep_self (rd_sL rn)) as RSL. rewrite LsL in RSL. pose proof (rep_self (rd_sR rn)) as RSR. rewrite LsR in RSR.
  destruct (rep_prod _ _ _ _ _ RYP RSR) as [rr1 [ER1 RR1]]. rewrite ER1. cbn [obind].
  destruct (rep_inner _ _ _ _ _ RSL RR0) as [t1a [Et1a Ct1a]]. rewrite Et1a. cbn [obind].
  destruct (rep_inner _ _ _ _ _ RL0 RR1) as [t1b [Et1b Ct1b]]. rewrite Et1b. cbn [obind].
  destruct (rep_inner _ _ _ _ _ RSL RR1) as [t2 [Et2 Ct2]]. rewrite Et2. cbn [obind].
  set (t1 := BigInt_Mod (t1a + t1b) q).
  set (T1 := msum G _ [rd_tau1 rn; t1]). set (T2 := msum G _ [rd_tau2 rn; t2]).
  set (x := H (((tr ++ ToByteString G A) ++ ToByteString G S0) ++ ToByteString G T1 ++ ToByteString G T2)).
  destruct (rep_add _ _ _ _ _ RL0 (rep_scalar _ _ _ x RSL)) as [llx [Ellx Rllx]]. rewrite Ellx. cbn [obind].
  destruct (rep_add _ _ _ _ _ RR0 (rep_scalar _ _ _ x RR1)) as [rrx [Errx Rrrx]]. rewrite Errx. cbn [obind].
  destruct (rep_inner _ _ _ _ _ Rllx Rrrx) as [tx [Etx Ctx]]. rewrite Etx. cbn [obind].
  set (taux := fold_left _ _ _). set (mu := BigInt_Mod (rd_alpha rn + _) q).
  set (tr4' := _ ++ BigInt_ToByteString x). set (e := H tr4').
  unfold bp_ip. rewrite (is_pow2_ok k Hk).
  destruct (rep_pow (2 ^ k) (ModInverse y q) (pow2_pos k)) as [yip [EY RY]]. rewrite EY. cbn [obind].
  unfold ECPointVectorProduct, same_size. rewrite LH, (proj1 RY), Nat.eqb_refl. cbn [obind ip_g ip_h ip_u].
  set (h' := map2 (pmul G) (firstn (2 ^ k) (bp_vh G pp)) yip).
  assert (Lh' : length h' = (2 ^ k)%nat) by (unfold h'; rewrite map2_length, LH, (proj1 RY); lia).
  rewrite VectorMul_some by (rewrite !app_length, LG, Lh', (proj1 Rllx), (proj1 Rrrx); reflexivity). cbn [obind].
  set (P := msum G _ (llx ++ _)).
  match goal with |- context [IP_Prove G H ?ip P llx rrx tr4'] =>
    destruct (IP_core G H k ip P llx rrx tr4' eq_refl Hk LG Lh' (proj1 Rllx) (proj1 Rrrx)) as [ipp [tr' [EI [SI [TI CI]]]]] end.
  rewrite EI. cbn [obind fst snd ip_g ip_h ip_u] in *.
  eexists. split; [|split; [|split]].
  - f_equal. f_equal. symmetry. exact TI.
  - exists k. destruct (sizes_inv _ _ _ SI) as [_ [_ [LL LR]]]. cbn [ip_len bpip] in *. rewrite Nat.log2_pow2 in LL, LR by lia. repeat split; assumption.
  - unfold E1, chz, chy, chx, tr3, tr2, tr1. cbn [bpA bpS bpT1 bpT2 bptaux bptx]. fold y. fold z. fold x.
    assert (CT : tx == delta_val (bp_range G pp) (length C) y z + sum (length C) (fun j => z ^ Z.of_nat (S (S j)) * low (bp_range G pp) (nth j v 0)) + t1 * x + t2 * (x * x)).
    { pose proof (t0_eq (bp_range G pp) (length C) y z v HR) as T0. rewrite EL in T0.
      change (sum (2 ^ k) (fun i => (b i - z) * (y ^ Z.of_nat i * (z + (b i - 1)) + zblock (bp_range G pp) z i)) =
              delta_val (bp_range G pp) (length C) y z + sum (length C) (fun j => z ^ Z.of_nat (S (S j)) * low (bp_range G pp) (nth j v 0))) in T0.
      rewrite <- T0. unfold t1. rewrite modq_cong', Ctx, Ct1a, Ct1b, Ct2. apply cong_eq. clear. clearbody b.
      match goal with |- ?l = sum _ ?f1 + (sum _ ?f2 + sum _ ?f3) * x + sum _ ?f4 * (x * x) =>
        transitivity (1 * sum (2 ^ k) (fun i => 1 * f1 i + x * f2 i) + x * sum (2 ^ k) (fun i => 1 * f3 i + x * f4 i)) end.
      - rewrite <- sum_lin. apply sum_ext. intros i _. ring.
      - rewrite !sum_lin. ring. }
    rewrite (pmul_cong G (bp_h G pp) tx _ CT).
    assert (CX : taux == rd_tau1 rn * x + rd_tau2 rn * (x * x) + sum (length C) (fun j => z ^ Z.of_nat (S (S j)) * nth j r 0)).
    { unfold taux. rewrite (taux_fold (fun j => nth j (adjust_z (length C) z q) 0 * nth (j - 1) r 0)), modq_cong', square_cong.
      assert (X : zsum (map (fun j => nth j (adjust_z (length C) z q) 0 * nth (j - 1) r 0) (seq 1 (length C))) == sum (length C) (fun j => z ^ Z.of_nat (S (S j)) * nth j r 0)).
      { unfold sum. rewrite <- seq_shift, map_map. destruct (adjust_rep (length C) z) as [_ EZ].
        assert (W : forall l, (forall j, In j l -> (j < length C)%nat) ->
           zsum (map (fun j => nth (S j) (adjust_z (length C) z q) 0 * nth (S j - 1) r 0) l) == zsum (map (fun j => z ^ Z.of_nat (S (S j)) * nth j r 0) l)).
        { induction l as [|j l IH]; intros I; cbn [map zsum]; [reflexivity|].
          rewrite EZ, IH, Nat.sub_succ, Nat.sub_0_r; [reflexivity| |].
          - intros j' J. apply I. right. exact J.
          - specialize (I j (or_introl eq_refl)). lia. }
        apply W. intros j J. apply in_seq in J. lia. }
      rewrite X. reflexivity. }
    rewrite (pmul_cong G (bp_g G pp) taux _ CX). subst T1 T2. cbn [msum].
    generalize (msum G C (zpow (length C) z)). rewrite !padd_inf. bpgen. clear. intros. logs G. gring.
  - intros NY NZ. unfold E2, chip, che, chy, tr4, chx, tr3, tr2, tr1 in *. cbn [bpA bpS bpT1 bpT2 bptx bpip] in *. rewrite EL. fold y in NY |- *. fold z. fold x. fold tr4' in NZ |- *. fold e.
    specialize (CI NZ).
    assert (PE : PV pp C tr {| bpA := A; bpS := S0; bpT1 := T1; bpT2 := T2; bptaux := taux; bpmu := mu; bptx := tx; bpip := ipp |} = P).
    { unfold PV, chy, chz, chx, che, tr4, chx, tr3, tr2, tr1. cbn [bpA bpS bpT1 bpT2 bptx bpmu]. rewrite EL. fold y. fold z. fold x. fold tr4'. fold e.
      assert (EP : P = msum G (firstn (2 ^ k) (bp_vg G pp)) llx +p msum G h' rrx +p bp_u G pp *p e *p tx).
      { unfold P. rewrite !msum_app, msum_one, padd_assoc by (rewrite ?LG, ?Lh', ?(proj1 Rllx), ?(proj1 Rrrx); reflexivity). reflexivity. }
      rewrite EP. clear EP. unfold h'. rewrite (hsc_msum pp _ _ _ _ _ Lh RY Rrrx), (rep_msum _ _ _ _ Rllx).
      assert (EA' : A = msum G (firstn (2 ^ k) (bp_vg G pp)) (map b (seq 0 (2 ^ k))) +p msum G (hsc pp (2 ^ k) y) (map (fun i => y ^ Z.of_nat i * (b i - 1)) (seq 0 (2 ^ k))) +p bp_h G pp *p rd_alpha rn).
      { unfold A. rewrite !msum_app, msum_one, padd_assoc by (rewrite ?LG, ?LH, ?(proj1 RL), ?(proj1 RA); reflexivity).
        rewrite (rep_msum _ _ _ _ RL), (rep_msum _ _ _ _ RA), (hsc_unscale pp _ y _ Lh NY). reflexivity. }
      assert (ES' : S0 = msum G (firstn (2 ^ k) (bp_vg G pp)) (map (fun i => nth i (rd_sL rn) 0) (seq 0 (2 ^ k))) +p msum G (hsc pp (2 ^ k) y) (map (fun i => y ^ Z.of_nat i * nth i (rd_sR rn) 0) (seq 0 (2 ^ k))) +p bp_h G pp *p rd_rho rn).
      { unfold S0. rewrite !msum_app, msum_one, padd_assoc by (rewrite ?LG, ?LH, ?LsL, ?LsR; reflexivity).
        rewrite (rep_msum _ _ _ _ RSL), (rep_msum _ _ _ _ RSR), (hsc_unscale pp _ y _ Lh NY). reflexivity. }
      rewrite EA', ES'.
      rewrite (pmul_cong G (bp_h G pp) mu (rd_alpha rn + rd_rho rn * x)) by (unfold mu; apply modq_cong').
      rewrite (msum_ext (2 ^ k) (firstn (2 ^ k) (bp_vg G pp)) (fun i => b i - z + nth i (rd_sL rn) 0 * x)
                 (fun i => 1 * (1 * b i + x * nth i (rd_sL rn) 0) + 1 * - z)) by (intros; apply cong_eq; ring).
      rewrite (msum_ext (2 ^ k) (hsc pp (2 ^ k) y) (fun i => y ^ Z.of_nat i * (z + (b i - 1)) + zblock (bp_range G pp) z i + y ^ Z.of_nat i * nth i (rd_sR rn) 0 * x)
                 (fun i => 1 * (y ^ Z.of_nat i * z + zblock (bp_range G pp) z i) + 1 * (1 * (y ^ Z.of_nat i * (b i - 1)) + x * (y ^ Z.of_nat i * nth i (rd_sR rn) 0)))) by (intros; apply cong_eq; ring).
      rewrite !msum_flin.
      generalize (bp_u G pp *p e). bpgen.
      repeat match goal with |- context [msum G ?a ?b] => generalize (msum G a b) end.
      clear. intros. logs G. gring. }
    rewrite PE.
    rewrite (ip_lhs_ext _ (hsc pp (2 ^ k) y) h').
    2:{ intros w Lw. symmetry. apply hsc_any; [exact Lh|exact RY|]. rewrite Lw, challenges_length.
        - destruct (sizes_inv _ _ _ SI) as [_ [_ [LL LR]]]. cbn [ip_len] in *. rewrite Nat.log2_pow2 in LL by lia. rewrite LL. reflexivity.
        - destruct (sizes_inv _ _ _ SI) as [_ [_ [LL LR]]]. congruence. }
    rewrite (proj2 CI); [apply padd_neg|].
    unfold opens, P. rewrite !msum_app, msum_one, padd_assoc by (rewrite ?LG, ?Lh', ?(proj1 Rllx), ?(proj1 Rrrx); reflexivity).
    f_equal. apply pmul_cong. rewrite Ctx, <- dot_sum. symmetry. apply dot_cong; apply rep_forall2; assumption.
Qed.
End Hash.
End BP.

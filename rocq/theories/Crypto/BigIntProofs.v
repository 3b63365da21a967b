From Coq Require Import NArith ZArith List Lia Bool Arith Znumtheory Zpow_facts.
From Coq Require Import ZifyBool ZifyNat ZifyN.
From Verif.Base Require Import Words ListX.
From Verif.Utility Require Import SerialModel SerialProofs.
From Verif.Crypto Require Import BigIntModel BigIntSpec.
Import ListNotations.
Local Open Scope Z_scope.

(** ** sizes and byte encodings *)
Lemma size_lt : forall x, (x < 2 ^ N.size x)%N.
Proof. intros x. apply N.size_gt. Qed.

Lemma num_bytes_bound : forall a, (Z.abs_N a < 256 ^ N.of_nat (BN_num_bytes a))%N.
Proof.
  intros a. unfold BN_num_bytes, BN_num_bits. rewrite N2Nat.id.
  set (x := Z.abs_N a). pose proof (size_lt x) as H.
  change 256%N with (2 ^ 8)%N. rewrite <- N.pow_mul_r.
  eapply N.lt_le_trans; [exact H|]. apply N.pow_le_mono_r; [discriminate|].
  pose proof (N.div_mod' (N.size x + 7) 8). pose proof (N.mod_lt (N.size x + 7) 8). lia.
Qed.

Lemma num_bytes_le : forall a n, (BN_num_bytes a <= n)%nat <-> (Z.abs_N a < 256 ^ N.of_nat n)%N.
Proof.
  intros a n. split; intros H.
  - eapply N.lt_le_trans; [apply num_bytes_bound|]. apply N.pow_le_mono_r; [discriminate|lia].
  - unfold BN_num_bytes, BN_num_bits. set (x := Z.abs_N a) in *.
    assert (S : (N.size x <= 8 * N.of_nat n)%N).
    { destruct (N.eq_dec x 0) as [->|Nz]; [simpl; lia|].
      rewrite N.size_log2 by exact Nz.
      change 256%N with (2 ^ 8)%N in H. rewrite <- N.pow_mul_r in H.
      apply N.log2_lt_pow2 in H; lia. }
    pose proof (N.div_mod' (N.size x + 7) 8). pose proof (N.mod_lt (N.size x + 7) 8). lia.
Qed.

Lemma bin_bn2bin : forall a, BN_bin2bn (BN_bn2bin a) = Z.abs a.
Proof.
  intros a. unfold BN_bin2bn, BN_bn2bin. rewrite be_val_bytes by apply num_bytes_bound. lia.
Qed.

Lemma binpad_some : forall a n, (Z.abs_N a < 256 ^ N.of_nat n)%N ->
  BN_bn2binpad a n = Some (be_bytes n (Z.abs_N a)).
Proof.
  intros a n H. unfold BN_bn2binpad. apply num_bytes_le in H.
  destruct (Nat.leb_spec (BN_num_bytes a) n); [reflexivity|lia].
Qed.

Lemma binpad_none : forall a n, (256 ^ N.of_nat n <= Z.abs_N a)%N -> BN_bn2binpad a n = None.
Proof.
  intros a n H. unfold BN_bn2binpad.
  destruct (Nat.leb_spec (BN_num_bytes a) n) as [L|]; [|reflexivity].
  apply num_bytes_le in L. lia.
Qed.

Lemma pow_256_32 : (256 ^ N.of_nat BN_BYTE_LEN)%N = (2 ^ 256)%N.
Proof. reflexivity. Qed.

Lemma write_bigint_small : forall g a, 0 <= a < 2 ^ 256 ->
  write_bigint g a = be_bytes BN_BYTE_LEN (Z.to_N a).
Proof.
  intros g a H. unfold write_bigint. rewrite binpad_some.
  - replace (Z.abs_N a) with (Z.to_N a) by lia. reflexivity.
  - rewrite pow_256_32. lia.
Qed.

Lemma read_write_bigint : forall g a rest, 0 <= a < 2 ^ 256 ->
  read_bigint (write_bigint g a ++ rest) = Some (a, rest).
Proof.
  intros g a rest H. rewrite write_bigint_small by exact H. unfold read_bigint.
  rewrite fin_read_app by (symmetry; apply be_bytes_length).
  unfold BN_bin2bn. rewrite be_val_bytes.
  - f_equal. f_equal. lia.
  - rewrite pow_256_32. lia.
Qed.

Lemma read_write_bigints : forall g v rest, Forall (fun a => 0 <= a < 2 ^ 256) v ->
  read_bigints (length v) (write_bigints g v ++ rest) = Some (v, rest).
Proof.
  induction v as [|a v IH]; intros rest F; cbn [length read_bigints write_bigints]; [reflexivity|].
  inversion F; subst. rewrite <- app_assoc, read_write_bigint by assumption.
  rewrite IH by assumption. reflexivity.
Qed.

(** ** Mod and ModNegate *)
Lemma Mod_pos : forall a m, 0 < m -> BigInt_Mod a m = a mod m.
Proof.
  intros a m H. unfold BigInt_Mod, BN_nnmod. destruct (Z.eqb_spec m 0); [lia|].
  cbn [checked]. f_equal. lia.
Qed.

Lemma canonical_mod : forall m v, 0 < m -> canonical m v (v mod m).
Proof.
  intros m v H. unfold canonical. split; [apply Z.mod_pos_bound; exact H|].
  rewrite Zminus_mod_idemp_l, Z.sub_diag. reflexivity.
Qed.

Lemma canonical_unique : forall m v r, canonical m v r -> r = v mod m.
Proof.
  intros m v r [R C]. assert (M : m <> 0) by lia.
  apply Z.mod_divide in C; [|exact M]. destruct C as [k Hk].
  apply Z.mod_unique_pos with (q := - k); lia.
Qed.

Lemma ModNegate_spec : forall a m, 0 < m ->
  ModNegate a m = if a =? 0 then 0 else if a mod m =? 0 then m else (- a) mod m.
Proof.
  intros a m H. unfold ModNegate. destruct (Z.eqb_spec a 0) as [E|E]; [exact E|].
  rewrite Mod_pos by exact H. destruct (Z.eqb_spec (a mod m) 0) as [F|F].
  - lia.
  - rewrite Z.mod_opp_l_nz by lia. reflexivity.
Qed.

(** ** modular exponentiation *)
Lemma modexp_pos_spec : forall e a m, 0 < m -> modexp_pos a e m = a ^ Zpos e mod m.
Proof.
  induction e as [e IH|e IH|]; intros a m H; cbn [modexp_pos].
  - rewrite IH by exact H. rewrite Pos2Z.inj_xI, Z.pow_add_r, Z.pow_1_r by lia.
    rewrite Z.pow_twice_r.
    rewrite <- Zmult_mod. rewrite Zmult_mod_idemp_l. reflexivity.
  - rewrite IH by exact H. rewrite Pos2Z.inj_xO, Z.pow_twice_r. symmetry. apply Zmult_mod.
  - rewrite Z.pow_1_r. reflexivity.
Qed.

Lemma ModExp_spec : forall a e m, 0 < m -> 0 <= e -> ModExp a e m = a ^ e mod m.
Proof.
  intros a e m H He. unfold ModExp, BN_mod_exp. destruct (Z.eqb_spec m 0); [lia|].
  rewrite !Z.abs_eq by lia. destruct e as [|p|p]; [reflexivity| |lia].
  cbn [checked]. rewrite modexp_pos_spec by exact H.
  rewrite Zpower_mod by exact H. rewrite Z.mod_mod by lia. rewrite <- Zpower_mod by exact H. reflexivity.
Qed.

(** ** modular inverse *)
Lemma egcd_spec : forall k f a b x0 x1 A M,
  0 < M -> 0 <= b -> 0 <= a -> b < 2 ^ Z.of_nat k -> (2 * k <= f)%nat ->
  (x0 * A - a) mod M = 0 -> (x1 * A - b) mod M = 0 ->
  let '(g, x) := egcd f a b x0 x1 in
  g = Z.gcd a b /\ (x * A - g) mod M = 0.
Proof.
  assert (STEP : forall a b x0 x1 A M, 0 < M -> 0 < b ->
    (x0 * A - a) mod M = 0 -> (x1 * A - b) mod M = 0 ->
    ((x0 - a / b * x1) * A - a mod b) mod M = 0).
  { intros a b x0 x1 A M HM Hb H0 H1.
    apply Z.mod_divide in H0; [|lia]. apply Z.mod_divide in H1; [|lia].
    apply Z.mod_divide; [lia|]. destruct H0 as [u Hu]. destruct H1 as [v Hv].
    exists (u - a / b * v). pose proof (Z.div_mod a b). nia. }
  assert (BASE : forall f a x0 x1 A M, 0 <= a -> (x0 * A - a) mod M = 0 ->
    let '(g, x) := egcd f a 0 x0 x1 in g = Z.gcd a 0 /\ (x * A - g) mod M = 0).
  { intros f a x0 x1 A M Ha H0. destruct f; cbn [egcd].
    - rewrite Z.gcd_0_r, Z.abs_eq by lia. auto.
    - cbn. rewrite Z.gcd_0_r, Z.abs_eq by lia. auto. }
  induction k as [|k IH]; intros f a b x0 x1 A M HM Hb Ha Lb Lf H0 H1.
  - assert (b = 0) by (cbn in Lb; lia). subst b. apply BASE; auto.
  - destruct (Z.eq_dec b 0) as [->|Nb]; [apply BASE; auto|].
    destruct f as [|[|f]]; [clear - Lf; lia|clear - Lf; lia|]. cbn [egcd].
    destruct (Z.eqb_spec b 0); [lia|].
    pose proof (Z.mod_pos_bound a b ltac:(lia)) as Br.
    pose proof (STEP a b x0 x1 A M HM ltac:(lia) H0 H1) as H2.
    assert (G1 : Z.gcd a b = Z.gcd b (a mod b)).
    { rewrite (Z.gcd_comm b), Z.gcd_mod by lia. apply Z.gcd_comm. }
    destruct (Z.eqb_spec (a mod b) 0) as [Er|Er].
    + rewrite G1, Er, Z.gcd_0_r, Z.abs_eq by lia. auto.
    + set (r := a mod b) in *.
      pose proof (Z.mod_pos_bound b r ltac:(lia)) as Br2.
      pose proof (STEP b r x1 (x0 - a / b * x1) A M HM ltac:(lia) H1 H2) as H3.
      assert (G2 : Z.gcd b r = Z.gcd r (b mod r)).
      { rewrite (Z.gcd_comm r), Z.gcd_mod by lia. apply Z.gcd_comm. }
      rewrite G1, G2. apply IH; [exact HM|lia|lia| |clear - Lf; lia|exact H2|exact H3].
      rewrite Nat2Z.inj_succ, Z.pow_succ_r in Lb by lia.
      pose proof (Z.div_mod b r ltac:(lia)).
      assert (Q : 1 <= b / r) by (apply Z.div_le_lower_bound; lia).
      assert (M2 : 2 * (b mod r) < b).
      { assert (r * 1 <= r * (b / r)) by (apply Z.mul_le_mono_nonneg_l; lia). clear - H Br2 H4. lia. }
      clear - M2 Lb. lia.
Qed.

Lemma BN_mod_inverse_spec : forall a m, 1 < m ->
  (Z.gcd a m = 1 -> exists v, BN_mod_inverse a m = Some v /\ 0 <= v < m /\ (a * v) mod m = 1) /\
  (Z.gcd a m <> 1 -> BN_mod_inverse a m = None).
Proof.
  intros a m Hm. unfold BN_mod_inverse. rewrite Z.abs_eq by lia.
  destruct (Z.leb_spec m 1); [lia|].
  pose proof (Z.mod_pos_bound a m ltac:(lia)) as Ba.
  pose proof (egcd_spec (S (N.to_nat (N.size (Z.to_N m))))
    (2 * S (N.to_nat (N.size (Z.to_N m)))) (a mod m) m 1 0 (a mod m) m) as E.
  cbv zeta in E.
  assert (X : m < 2 ^ Z.of_nat (S (N.to_nat (N.size (Z.to_N m))))).
  { pose proof (size_lt (Z.to_N m)) as S.
    rewrite Nat2Z.inj_succ, Z.pow_succ_r by lia. rewrite N_nat_Z.
    assert (Z.of_N (Z.to_N m) < Z.of_N (2 ^ N.size (Z.to_N m))) by lia.
    rewrite N2Z.inj_pow in *. change (Z.of_N 2) with 2 in *. lia. }
  specialize (E ltac:(lia) ltac:(lia) ltac:(lia) X ltac:(lia)).
  replace (1 * (a mod m) - a mod m) with 0 in E by lia.
  replace (0 * (a mod m) - m) with (-1 * m) in E by lia.
  rewrite Z.mod_0_l, Z.mod_mul in E by lia. specialize (E eq_refl eq_refl).
  set (fuel := (2 * S (N.to_nat (N.size (Z.to_N m))))%nat) in *. clearbody fuel.
  destruct (egcd fuel (a mod m) m 1 0) as [g x].
  rewrite Z.gcd_mod in E by lia. rewrite (Z.gcd_comm m a) in E. destruct E as [G C].
  split; intros Hg.
  - rewrite Hg in G. subst g. cbn. exists (x mod m). split; [reflexivity|].
    split; [apply Z.mod_pos_bound; lia|].
    rewrite Zmult_mod_idemp_r. rewrite <- Zmult_mod_idemp_l.
    apply Z.mod_divide in C; [|lia]. destruct C as [k Hk].
    replace (a mod m * x) with (1 + k * m) by lia.
    rewrite Z.mod_add by lia. apply Z.mod_1_l. lia.
  - destruct (Z.eqb_spec g 1); [congruence|reflexivity].
Qed.

Lemma ModInverse_prime : forall a q, prime q -> a mod q <> 0 ->
  0 <= ModInverse a q < q /\ (a * ModInverse a q) mod q = 1.
Proof.
  intros a q P H. pose proof (prime_ge_2 q P).
  destruct (BN_mod_inverse_spec a q ltac:(lia)) as [S _].
  destruct S as [v [E [B I]]].
  - apply Zgcd_1_rel_prime, rel_prime_sym, prime_rel_prime; auto.
    intros D. apply H. apply Z.mod_divide; [lia|exact D].
  - unfold ModInverse. rewrite E. cbn. auto.
Qed.

(** ** vectors *)
Lemma inner_acc_spec : forall a b acc, inner_acc acc a b = acc + dot a b.
Proof.
  unfold dot. induction a as [|x a IH]; intros [|y b] acc; cbn [inner_acc combine map zsum fst snd]; try lia.
  rewrite IH. lia.
Qed.

Lemma map2_pointwise : forall (A B C : Type) (f : A -> B -> C) a b da db dc i,
  length a = length b -> (i < length a)%nat -> nth i (map2 f a b) dc = f (nth i a da) (nth i b db).
Proof. intros. apply map2_nth; lia. Qed.

Lemma power_loop_spec : forall n a q k prev, 0 < q -> 0 <= k -> prev = a ^ k mod q ->
  power_loop n prev a q = map (fun i => a ^ (k + 1 + Z.of_nat i) mod q) (seq 0 n).
Proof.
  induction n as [|n IH]; intros a q k prev H Hk E; cbn [power_loop seq map]; [reflexivity|].
  assert (Hk1 : 0 <= k + 1) by (clear E; lia).
  assert (E1 : BigInt_Mod (prev * a) q = a ^ (k + 1) mod q).
  { rewrite Mod_pos by exact H. rewrite E, Zmult_mod_idemp_l.
    rewrite Z.pow_add_r, Z.pow_1_r by (clear E; lia). reflexivity. }
  rewrite (IH a q (k + 1) _ H Hk1 E1). f_equal.
  - rewrite E1. rewrite Z.add_0_r. reflexivity.
  - rewrite <- seq_shift, map_map. apply map_ext. intros i.
    rewrite Nat2Z.inj_succ, <- Z.add_1_l, Z.add_assoc. reflexivity.
Qed.

(** ** polynomials *)
Lemma peval_upd : forall C k v x, (k < length C)%nat ->
  peval (upd C k v) x = peval C x + (v - nth k C 0) * x ^ Z.of_nat k.
Proof.
  induction C as [|c C IH]; intros k v x H; cbn [length] in H; [lia|].
  destruct k as [|k]; cbn [upd peval nth].
  - change (Z.of_nat 0) with 0. rewrite Z.pow_0_r. lia.
  - rewrite IH by lia. rewrite Nat2Z.inj_succ, Z.pow_succ_r by lia. lia.
Qed.

Lemma polymul_inner_length : forall B C ij ai q, length (polymul_inner C ij ai B q) = length C.
Proof.
  induction B as [|b B IH]; intros; cbn [polymul_inner]; [reflexivity|].
  rewrite IH, upd_length. reflexivity.
Qed.

Lemma polymul_outer_length : forall A B C i q, length (polymul_outer C i A B q) = length C.
Proof.
  induction A as [|a A IH]; intros; cbn [polymul_outer]; [reflexivity|].
  rewrite IH, polymul_inner_length. reflexivity.
Qed.

(** congruence modulo q *)
Definition cong (q a b : Z) : Prop := exists k, a = b + k * q.

Lemma cong_mod : forall q a b, 0 < q -> cong q a b <-> a mod q = b mod q.
Proof.
  intros q a b H. split.
  - intros [k ->]. apply Z.mod_add. lia.
  - intros E. exists (a / q - b / q).
    pose proof (Z.div_mod a q). pose proof (Z.div_mod b q). nia.
Qed.

Lemma cong_refl : forall q a, cong q a a.
Proof. intros. exists 0. lia. Qed.
Lemma cong_sym : forall q a b, cong q a b -> cong q b a.
Proof. intros q a b [k ->]. exists (- k). lia. Qed.
Lemma cong_trans : forall q a b c, cong q a b -> cong q b c -> cong q a c.
Proof. intros q a b c [k ->] [l ->]. exists (k + l). lia. Qed.
Lemma cong_add : forall q a b c d, cong q a b -> cong q c d -> cong q (a + c) (b + d).
Proof. intros q a b c d [k ->] [l ->]. exists (k + l). lia. Qed.
Lemma cong_mul : forall q a b c d, cong q a b -> cong q c d -> cong q (a * c) (b * d).
Proof. intros q a b c d [k ->] [l ->]. exists (k * d + b * l + k * l * q). ring. Qed.
Lemma cong_modl : forall q a, 0 < q -> cong q (a mod q) a.
Proof. intros q a H. exists (- (a / q)). pose proof (Z.div_mod a q). lia. Qed.

Lemma polymul_inner_eval : forall B C ij ai q x, 0 < q -> (ij + length B <= length C)%nat ->
  cong q (peval (polymul_inner C ij ai B q) x) (peval C x + ai * x ^ Z.of_nat ij * peval B x).
Proof.
  induction B as [|b B IH]; intros C ij ai q x Hq L; cbn [polymul_inner peval length] in *.
  - replace (peval C x + ai * x ^ Z.of_nat ij * 0) with (peval C x) by lia. apply cong_refl.
  - eapply cong_trans; [apply IH; [exact Hq|rewrite upd_length; lia]|].
    rewrite peval_upd by lia. rewrite Mod_pos by exact Hq.
    destruct (cong_modl q (nth ij C 0 + ai * b) Hq) as [k Hk]. rewrite Hk.
    rewrite Nat2Z.inj_succ, Z.pow_succ_r by lia.
    exists (k * x ^ Z.of_nat ij). ring.
Qed.

Lemma polymul_outer_eval : forall A B C i q x, 0 < q ->
  (A <> [] -> i + length A + length B <= S (length C))%nat ->
  cong q (peval (polymul_outer C i A B q) x) (peval C x + x ^ Z.of_nat i * peval A x * peval B x).
Proof.
  induction A as [|a A IH]; intros B C i q x Hq L; cbn [polymul_outer peval length] in *.
  - replace (peval C x + x ^ Z.of_nat i * 0 * peval B x) with (peval C x) by lia. apply cong_refl.
  - assert (L' := L ltac:(discriminate)).
    eapply cong_trans; [apply IH; [exact Hq|rewrite polymul_inner_length; intros _; lia]|].
    destruct (polymul_inner_eval B C i a q x Hq ltac:(lia)) as [k Hk]. rewrite Hk.
    rewrite Nat2Z.inj_succ, Z.pow_succ_r by lia. exists k. ring.
Qed.

Lemma peval_repeat0 : forall n x, peval (repeat 0 n) x = 0.
Proof. induction n as [|n IH]; intros x; cbn [repeat peval]; [reflexivity|]. rewrite IH. lia. Qed.

Lemma PolyMul_some : forall A B q C, PolyMul A B q = Some C ->
  length C = (length A + length B - 1)%nat.
Proof.
  intros A B q C E. unfold PolyMul in E. destruct (length A + length B)%nat as [|n] eqn:L; [discriminate|].
  inversion E; subst. rewrite polymul_outer_length, repeat_length. lia.
Qed.

Lemma PolyMul_eval : forall A B q C x, 0 < q -> PolyMul A B q = Some C ->
  cong q (peval C x) (peval A x * peval B x).
Proof.
  intros A B q C x Hq E. unfold PolyMul in E.
  destruct (length A + length B)%nat as [|n] eqn:L; [discriminate|].
  inversion E; subst. eapply cong_trans.
  - apply polymul_outer_eval; [exact Hq|]. rewrite repeat_length. lia.
  - rewrite peval_repeat0. change (Z.of_nat 0) with 0. rewrite Z.pow_0_r. exists 0. ring.
Qed.

Lemma EvalPoly_loop_spec : forall P r c x q, 0 < q ->
  EvalPoly_loop r c P x q = (r + c * peval P x) mod q.
Proof.
  induction P as [|p P IH]; intros r c x q Hq; cbn [EvalPoly_loop peval].
  - rewrite Mod_pos by exact Hq. f_equal. lia.
  - rewrite IH by exact Hq. rewrite Mod_pos by exact Hq. apply cong_mod; [exact Hq|].
    destruct (cong_modl q (p * c) Hq) as [k ->]. exists k. ring.
Qed.

Lemma EvalPoly_spec : forall P x q, 0 < q -> EvalPoly P x q = peval P x mod q.
Proof.
  intros P x q Hq. unfold EvalPoly. rewrite EvalPoly_loop_spec by exact Hq. f_equal. lia.
Qed.

Lemma PolyMulVec_loop_eval : forall P r C q x, 0 < q -> PolyMulVec_loop r P q = Some C ->
  cong q (peval C x) (peval r x * zprod (map (fun p => peval p x) P)).
Proof.
  induction P as [|p P IH]; intros r C q x Hq E; cbn [PolyMulVec_loop map zprod] in *.
  - inversion E; subst. exists 0. lia.
  - destruct (PolyMul r p q) as [r'|] eqn:M; [|discriminate].
    eapply cong_trans; [exact (IH _ _ _ x Hq E)|].
    eapply cong_trans; [apply cong_mul; [exact (PolyMul_eval _ _ _ _ x Hq M)|apply cong_refl]|].
    exists 0. ring.
Qed.

Lemma PolyMulVec_loop_total : forall P r q, r <> [] -> Forall (fun p => p <> []) P ->
  exists C, PolyMulVec_loop r P q = Some C.
Proof.
  induction P as [|p P IH]; intros r q Hr F; cbn [PolyMulVec_loop]; [eexists; reflexivity|].
  inversion F; subst. unfold PolyMul.
  destruct r as [|r0 r]; [congruence|]. destruct p as [|p0 p]; [congruence|].
  cbn [length Nat.add]. apply IH; [|assumption].
  intros N. apply (f_equal (@length Z)) in N. rewrite polymul_outer_length, repeat_length in N.
  cbn [length] in N. lia.
Qed.

(** coefficients *)
Definition shifted (B : list Z) (i k : nat) : Z := if (i <=? k)%nat then nth (k - i) B 0 else 0.

Lemma polymul_inner_coef : forall B C ij ai q k, 0 < q -> (ij + length B <= length C)%nat ->
  cong q (nth k (polymul_inner C ij ai B q) 0) (nth k C 0 + ai * shifted B ij k).
Proof.
  induction B as [|b B IH]; intros C ij ai q k Hq L; cbn [polymul_inner length] in *.
  - unfold shifted. destruct (ij <=? k)%nat; [destruct (k - ij)%nat; cbn|]; exists 0; lia.
  - eapply cong_trans; [apply IH; [exact Hq|rewrite upd_length; lia]|].
    unfold shifted. rewrite Mod_pos by exact Hq.
    destruct (Nat.eq_dec ij k) as [->|Ne].
    + rewrite nth_upd_same by lia. rewrite Nat.leb_refl, Nat.sub_diag. cbn [nth].
      destruct (Nat.leb_spec (S k) k); [lia|].
      destruct (cong_modl q (nth k C 0 + ai * b) Hq) as [t ->]. exists t. lia.
    + rewrite nth_upd_other by exact Ne.
      destruct (Nat.leb_spec (S ij) k), (Nat.leb_spec ij k); try lia; [|exists 0; lia].
      replace (k - ij)%nat with (S (k - S ij)) by lia. cbn [nth]. exists 0; lia.
Qed.

Lemma polymul_outer_coef : forall A B C i q k, 0 < q ->
  (A <> [] -> i + length A + length B <= S (length C))%nat ->
  cong q (nth k (polymul_outer C i A B q) 0)
         (nth k C 0 + zsum (map (fun t => nth t A 0 * shifted B (i + t) k) (seq 0 (length A)))).
Proof.
  induction A as [|a A IH]; intros B C i q k Hq L; cbn [polymul_outer length seq map zsum] in *.
  - exists 0. lia.
  - assert (L' := L ltac:(discriminate)).
    eapply cong_trans; [apply IH; [exact Hq|rewrite polymul_inner_length; intros _; lia]|].
    rewrite <- seq_shift, map_map. cbn [nth].
    destruct (polymul_inner_coef B C i a q k Hq ltac:(lia)) as [t Ht]. rewrite Ht.
    rewrite Nat.add_0_r.
    rewrite (map_ext (fun x : nat => nth x A 0 * shifted B (i + S x) k)
                     (fun t0 : nat => nth t0 A 0 * shifted B (S i + t0) k)).
    + exists t. lia.
    + intros x. rewrite Nat.add_succ_r. reflexivity.
Qed.

Lemma zsum_app : forall a b, zsum (a ++ b) = zsum a + zsum b.
Proof. induction a as [|x a IH]; intros b; cbn [app zsum]; [lia|]. rewrite IH. lia. Qed.

Lemma zsum_all0 : forall l, Forall (fun a => a = 0) l -> zsum l = 0.
Proof. induction l as [|x l IH]; intros F; cbn [zsum]; [reflexivity|]. inversion F; subst. rewrite IH; auto. Qed.

Lemma conv_shifted : forall A B k,
  zsum (map (fun t => nth t A 0 * shifted B t k) (seq 0 (length A))) = conv A B k.
Proof.
  intros A B k. unfold conv.
  assert (X : forall n m (f : nat -> Z), (n <= m)%nat -> (forall t, (n <= t < m)%nat -> f t = 0) ->
    zsum (map f (seq 0 m)) = zsum (map f (seq 0 n))).
  { intros n m f H Z. replace m with (n + (m - n))%nat by lia. rewrite seq_app, map_app, zsum_app.
    rewrite (zsum_all0 (map f (seq (0 + n) (m - n)))); [lia|].
    apply Forall_forall. intros y I. apply in_map_iff in I. destruct I as [t [<- I]].
    apply in_seq in I. apply Z. lia. }
  set (m := Nat.max (length A) (S k)).
  rewrite <- (X (length A) m) by (try lia; intros t T; rewrite nth_overflow by lia; lia).
  rewrite (map_ext_in (fun i => nth i A 0 * nth (k - i) B 0) (fun t => nth t A 0 * shifted B t k) (seq 0 (S k))).
  - apply X; [lia|]. intros t T. unfold shifted. destruct (Nat.leb_spec t k); lia.
  - intros t T. apply in_seq in T. unfold shifted. destruct (Nat.leb_spec t k); [reflexivity|lia].
Qed.

Lemma polymul_inner_canon : forall B C ij ai q, 0 < q -> Forall (fun c => 0 <= c < q) C ->
  Forall (fun c => 0 <= c < q) (polymul_inner C ij ai B q).
Proof.
  induction B as [|b B IH]; intros C ij ai q Hq F; cbn [polymul_inner]; [exact F|].
  apply IH; [exact Hq|]. rewrite Mod_pos by exact Hq.
  pose proof (Z.mod_pos_bound (nth ij C 0 + ai * b) q Hq) as P. revert P.
  generalize ((nth ij C 0 + ai * b) mod q). intros v P.
  clear - F P. revert ij. induction F as [|c C Hc F IHF]; intros ij; cbn [upd]; [constructor|].
  destruct ij; constructor; auto.
Qed.

Lemma polymul_outer_canon : forall A B C i q, 0 < q -> Forall (fun c => 0 <= c < q) C ->
  Forall (fun c => 0 <= c < q) (polymul_outer C i A B q).
Proof.
  induction A as [|a A IH]; intros B C i q Hq F; cbn [polymul_outer]; [exact F|].
  apply IH; [exact Hq|]. apply polymul_inner_canon; assumption.
Qed.

Lemma PolyMul_coef : forall A B q C k, 0 < q -> PolyMul A B q = Some C -> (k < length C)%nat ->
  nth k C 0 = conv A B k mod q.
Proof.
  intros A B q C k Hq E L. unfold PolyMul in E.
  destruct (length A + length B)%nat as [|n] eqn:S; [discriminate|]. inversion E; subst C. clear E.
  assert (F : Forall (fun c => 0 <= c < q) (polymul_outer (repeat 0 n) 0 A B q)).
  { apply polymul_outer_canon; [exact Hq|]. apply Forall_forall. intros x I.
    apply repeat_spec in I. lia. }
  rewrite Forall_forall in F. specialize (F _ (nth_In _ 0 L)).
  rewrite <- (Z.mod_small _ q F). apply cong_mod; [exact Hq|].
  eapply cong_trans.
  - apply polymul_outer_coef; [exact Hq|]. rewrite repeat_length. lia.
  - rewrite nth_repeat. rewrite (map_ext _ (fun t => nth t A 0 * shifted B t k)) by reflexivity.
    rewrite conv_shifted. exists 0. lia.
Qed.

(** ** bits *)
Lemma GetTheNthBit_spec : forall a j, 0 <= a ->
  GetTheNthBit a j = if Z.testbit a (Z.of_N j) then 1%N else 0%N.
Proof.
  intros a j Ha. unfold GetTheNthBit, Rshift, GetLastNBits, BN_rshift, BN_mask_bits.
  set (b := a / 2 ^ Z.of_N j).
  assert (Hb : 0 <= b) by (apply Z.div_pos; lia).
  assert (E : Z.sgn a * (Z.abs a / 2 ^ Z.of_N j) = b).
  { rewrite Z.abs_eq by lia. destruct (Z.eq_dec a 0) as [->|Ne].
    - subst b. rewrite Z.div_0_l; [reflexivity|]. lia.
    - rewrite Z.sgn_pos by lia. lia. }
  rewrite E.
  assert (T : Z.testbit a (Z.of_N j) = Z.odd b).
  { subst b. rewrite <- Z.shiftr_div_pow2 by lia. rewrite <- Z.bit0_odd, Z.shiftr_spec by lia.
    f_equal. }
  rewrite T. change (2 ^ Z.of_N 1) with 2. unfold BN_num_bits.
  destruct (N.ltb_spec (N.size (Z.abs_N b)) 1) as [L|L].
  - assert (b = 0).
    { destruct (Z.eq_dec b 0) as [|Nz]; [assumption|]. rewrite N.size_log2 in L by lia. lia. }
    subst b. rewrite H. reflexivity.
  - assert (0 < b). { destruct (Z.eq_dec b 0) as [Z0|]; [rewrite Z0 in L; cbn in L; lia|lia]. }
    rewrite Z.sgn_pos, Z.abs_eq, Z.mul_1_l by lia. rewrite Zmod_odd. destruct (Z.odd b); reflexivity.
Qed.

Lemma PolyMulVec_eval : forall P x q, 0 < q -> Forall (fun p => p <> []) P ->
  exists C, PolyMulVec P q = Some C /\
            EvalPoly C x q = zprod (map (fun p => EvalPoly p x q) P) mod q.
Proof.
  intros P x q Hq F. destruct (PolyMulVec_loop_total P [1] q ltac:(discriminate) F) as [C E].
  exists C. split; [exact E|]. rewrite EvalPoly_spec by exact Hq. apply cong_mod; [exact Hq|].
  eapply cong_trans; [exact (PolyMulVec_loop_eval _ _ _ _ x Hq E)|].
  cbn [peval]. replace (1 + x * 0) with 1 by lia. rewrite Z.mul_1_l.
  clear E F. induction P as [|p P IH]; cbn [map zprod]; [apply cong_refl|].
  apply cong_mul; [|exact IH]. rewrite EvalPoly_spec by exact Hq.
  apply cong_sym, cong_modl. exact Hq.
Qed.

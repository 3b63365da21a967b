(** Sums over GF(2), multiples of a value by a block, and the solution of a
    linear system whose matrix has an inverse. *)
From Coq Require Import NArith List Bool Lia Arith.
From Coq Require Import ZifyBool ZifyNat ZifyN.
From Verif Require Import Base.Words Base.ListX.
From Verif Require Import OKVS.GFModel OKVS.GFProofs OKVS.MatSpec OKVS.MatProofs.
From Verif Require Import OKVS.PaxosModel.
Import ListNotations.
Local Open Scope N_scope.

Definition xs {A} (f : A -> N) (l : list A) : N := fold_right N.lxor 0 (map f l).

Lemma xs_cons {A} (f : A -> N) a l : xs f (a :: l) = N.lxor (f a) (xs f l).
Proof. reflexivity. Qed.

Lemma xs_app {A} (f : A -> N) a b : xs f (a ++ b) = N.lxor (xs f a) (xs f b).
Proof.
  induction a as [|x a IH]; [reflexivity|]. cbn [app]. rewrite !xs_cons, IH.
  rewrite N.lxor_assoc. reflexivity.
Qed.

Lemma xs_ext {A} (f g : A -> N) l : (forall x, In x l -> f x = g x) -> xs f l = xs g l.
Proof. intros H. unfold xs. f_equal. apply map_ext_in. exact H. Qed.

Lemma lxor_swap a b c : N.lxor a (N.lxor b c) = N.lxor b (N.lxor a c).
Proof. rewrite <- !N.lxor_assoc, (N.lxor_comm a b). reflexivity. Qed.

Lemma lxor_4 a b c d : N.lxor (N.lxor a b) (N.lxor c d) = N.lxor (N.lxor a c) (N.lxor b d).
Proof. rewrite !N.lxor_assoc. f_equal. apply lxor_swap. Qed.

Lemma lxor_same_l a b : N.lxor a (N.lxor a b) = b.
Proof. rewrite <- N.lxor_assoc, N.lxor_nilpotent. apply N.lxor_0_l. Qed.

Lemma xs_add {A} (f g : A -> N) l :
  xs (fun x => N.lxor (f x) (g x)) l = N.lxor (xs f l) (xs g l).
Proof.
  induction l as [|x l IH]; [reflexivity|]. rewrite !xs_cons, IH. apply lxor_4.
Qed.

Lemma xs_0 {A} (f : A -> N) l : (forall x, In x l -> f x = 0) -> xs f l = 0.
Proof.
  intros H. induction l as [|x l IH]; [reflexivity|]. rewrite xs_cons, H by (left; auto).
  rewrite IH by (intros; apply H; right; auto). reflexivity.
Qed.

Lemma xs_swap {A B} (h : A -> B -> N) a b :
  xs (fun x => xs (h x) b) a = xs (fun y => xs (fun x => h x y) a) b.
Proof.
  induction a as [|x a IH].
  - rewrite xs_0 with (l := b); [reflexivity|]. intros; reflexivity.
  - rewrite xs_cons, IH, <- xs_add. apply xs_ext. intros y _. rewrite xs_cons. reflexivity.
Qed.

Lemma xs_split {A} (f : A -> N) (b : A -> bool) l :
  xs f l = N.lxor (xs (fun x => if b x then f x else 0) l)
                  (xs (fun x => if b x then 0 else f x) l).
Proof.
  rewrite <- xs_add. apply xs_ext. intros x _.
  destruct (b x); [rewrite N.lxor_0_r|rewrite N.lxor_0_l]; reflexivity.
Qed.

Lemma xs_filter {A} (f : A -> N) (b : A -> bool) l :
  xs f (filter b l) = xs (fun x => if b x then f x else 0) l.
Proof.
  induction l as [|x l IH]; [reflexivity|]. cbn [filter]. rewrite xs_cons, <- IH.
  destruct (b x); [apply xs_cons|rewrite N.lxor_0_l; reflexivity].
Qed.

Lemma xs_map {A B} (f : B -> N) (g : A -> B) l : xs f (map g l) = xs (fun x => f (g x)) l.
Proof. unfold xs. rewrite map_map. reflexivity. Qed.

Lemma xs_xsum n f : xsum n f = xs f (seq 0 n).
Proof. reflexivity. Qed.

Lemma xs_lt {A} (f : A -> N) w l : (forall x, In x l -> f x < 2 ^ w) -> xs f l < 2 ^ w.
Proof.
  intros H. induction l as [|x l IH].
  - cbn. apply N.neq_0_lt_0, N.pow_nonzero. discriminate.
  - rewrite xs_cons. apply lxor_lt; [apply H; left; auto|].
    apply IH. intros; apply H; right; auto.
Qed.

(** The one non-zero term *)
Lemma xs_one {A} (f : A -> N) l a : NoDup l -> In a l ->
  (forall x, In x l -> x <> a -> f x = 0) -> xs f l = f a.
Proof.
  induction l as [|x l IH]; intros ND HI H; [contradiction|].
  inversion_clear ND as [|? ? N ND']. rewrite xs_cons. destruct HI as [->|HI].
  - rewrite xs_0; [apply N.lxor_0_r|]. intros y Hy. apply H; [right; exact Hy|].
    intros ->. contradiction.
  - rewrite H; [|left; auto|intros ->; contradiction]. rewrite N.lxor_0_l.
    apply IH; auto. intros y Hy. apply H. right. exact Hy.
Qed.

Lemma xs_hom {A} (h : N -> N) (f : A -> N) l :
  h 0 = 0 -> (forall a b, h (N.lxor a b) = N.lxor (h a) (h b)) ->
  h (xs f l) = xs (fun x => h (f x)) l.
Proof.
  intros H0 HA. induction l as [|x l IH]; [exact H0|]. rewrite !xs_cons, HA, IH. reflexivity.
Qed.

(** ** [vmul] *)
Definition B128 : N := 128.

Lemma div_low v : N.modulo v (2 ^ 128) = N.land v (N.ones 128).
Proof. symmetry. apply N.land_ones. Qed.

Lemma low_lxor a b : N.modulo (N.lxor a b) (2 ^ 128) =
  N.lxor (N.modulo a (2 ^ 128)) (N.modulo b (2 ^ 128)).
Proof.
  rewrite !div_low. apply N.bits_inj. intros k.
  rewrite !N.land_spec, !N.lxor_spec, !N.land_spec.
  destruct (N.testbit a k), (N.testbit b k), (N.testbit (N.ones 128) k); reflexivity.
Qed.

Lemma vmul_add_l vl : forall a b c,
  vmul vl (N.lxor a b) c = N.lxor (vmul vl a c) (vmul vl b c).
Proof.
  induction vl as [|vl IH]; intros a b c; [reflexivity|].
  cbn [vmul]. rewrite low_lxor, N.shiftr_lxor, IH, gf_add_l, N.shiftl_lxor. apply lxor_4.
Qed.

Lemma vmul_add_r vl : forall v a b,
  vmul vl v (N.lxor a b) = N.lxor (vmul vl v a) (vmul vl v b).
Proof.
  induction vl as [|vl IH]; intros v a b; [reflexivity|].
  cbn [vmul]. rewrite IH, gf_add_r, N.shiftl_lxor. apply lxor_4.
Qed.

Lemma vmul_0_l vl : forall c, vmul vl 0 c = 0.
Proof.
  induction vl as [|vl IH]; intros c; [reflexivity|].
  cbn [vmul]. rewrite N.shiftr_0_l, IH, N.shiftl_0_l, N.mod_0_l by discriminate.
  rewrite gf_0_l. reflexivity.
Qed.

Lemma vmul_0_r vl : forall v, vmul vl v 0 = 0.
Proof.
  induction vl as [|vl IH]; intros c; [reflexivity|].
  cbn [vmul]. rewrite IH, N.shiftl_0_l, gf_comm', gf_0_l. reflexivity.
Qed.

Lemma low_of a b : a < 2 ^ 128 -> N.modulo (N.lxor a (N.shiftl b 128)) (2 ^ 128) = a.
Proof.
  intros H. rewrite low_lxor, N.mod_small by exact H.
  rewrite N.shiftl_mul_pow2, N.mod_mul by discriminate. apply N.lxor_0_r.
Qed.

Lemma high_of a b : a < 2 ^ 128 -> N.shiftr (N.lxor a (N.shiftl b 128)) 128 = b.
Proof.
  intros H. rewrite N.shiftr_lxor, N.shiftr_shiftl_l by lia.
  change (128 - 128) with 0. rewrite N.shiftl_0_r.
  rewrite N.shiftr_div_pow2, N.div_small by exact H. reflexivity.
Qed.

Lemma vmul_mul vl : forall v a b,
  vmul vl (vmul vl v a) b = vmul vl v (gf128_mul b a).
Proof.
  induction vl as [|vl IH]; intros v a b; [reflexivity|].
  cbn [vmul]. rewrite low_of, high_of by apply gf128_mul_lt.
  rewrite IH. f_equal. rewrite <- gf_assoc'. f_equal. apply gf_comm'.
Qed.

Lemma split_low v : N.lxor (N.modulo v (2 ^ 128)) (N.shiftl (N.shiftr v 128) 128) = v.
Proof.
  rewrite div_low. apply N.bits_inj. intros k.
  rewrite N.lxor_spec, N.land_spec.
  destruct (N.lt_ge_cases k 128) as [H|H].
  - rewrite N.ones_spec_low, N.shiftl_spec_low by exact H.
    destruct (N.testbit v k); reflexivity.
  - rewrite N.ones_spec_high, N.shiftl_spec_high' by exact H.
    rewrite N.shiftr_spec', N.sub_add by exact H.
    destruct (N.testbit v k); reflexivity.
Qed.

Lemma vmul_1 vl : forall v, v < 2 ^ (128 * N.of_nat vl) -> vmul vl v 1 = v.
Proof.
  induction vl as [|vl IH]; intros v H.
  - change (128 * N.of_nat 0) with 0 in H. rewrite N.pow_0_r in H. cbn [vmul]. lia.
  - cbn [vmul]. rewrite gf_comm', gf_1_l by (apply N.mod_lt; discriminate).
    rewrite IH; [apply split_low|].
    rewrite N.shiftr_div_pow2. apply N.div_lt_upper_bound; [discriminate|].
    rewrite <- N.pow_add_r.
    replace (128 + 128 * N.of_nat vl) with (128 * N.of_nat (S vl)) by lia. exact H.
Qed.

(** ** Solving *)
Lemma vsum_map2 (h : N -> N -> N) r vs n : length r = n -> length vs = n ->
  vsum (map2 h r vs) = xsum n (fun j => h (nth j r 0) (nth j vs 0)).
Proof.
  intros L1 L2. unfold vsum, xsum. f_equal.
  apply list_eq_nth with 0.
  - rewrite map2_length, map_length, seq_length. lia.
  - rewrite map2_length. intros i Hi.
    rewrite map2_nth with (a := 0) (b := 0) by lia.
    rewrite nth_map' with (d := O) by (rewrite seq_length; lia).
    rewrite seq_nth by lia. reflexivity.
Qed.

Section Solve.
Variables (mul act : N -> N -> N) (w : N) (ok : N -> Prop).
Hypothesis act_add_l : forall v v' e, act (N.lxor v v') e = N.lxor (act v e) (act v' e).
Hypothesis act_add_r : forall v a b, a < 2 ^ w -> b < 2 ^ w ->
  act v (N.lxor a b) = N.lxor (act v a) (act v b).
Hypothesis act_mul : forall v a b, a < 2 ^ w -> b < 2 ^ w -> act (act v a) b = act v (mul b a).
Hypothesis act_0_l : forall e, act 0 e = 0.
Hypothesis act_0_r : forall v, act v 0 = 0.
Hypothesis act_1 : forall v, ok v -> act v 1 = v.
Hypothesis mul_lt : forall a b, a < 2 ^ w -> b < 2 ^ w -> mul a b < 2 ^ w.
Hypothesis mul_1 : forall a, a < 2 ^ w -> mul a 1 = a.
Hypothesis mul_0 : forall a, mul a 0 = 0.
Hypothesis w_pos : 0 < w.

Lemma one_lt : 1 < 2 ^ w.
Proof.
  replace w with (N.succ (w - 1)) by lia. rewrite N.pow_succ_r'.
  assert (2 ^ (w - 1) <> 0) by (apply N.pow_nonzero; discriminate). lia.
Qed.

Lemma square_lt n E i k : square (2 ^ w) n E -> (i < n)%nat -> (k < n)%nat ->
  nth k (nth i E []) 0 < 2 ^ w.
Proof.
  intros [L F] Hi Hk. rewrite Forall_forall in F.
  destruct (F (nth i E [])) as [L' F']; [apply nth_In; lia|].
  rewrite Forall_forall in F'. apply F'. apply nth_In. lia.
Qed.

Lemma unit_vector n j : vector (2 ^ w) n (map (fun k => if Nat.eqb k j then 1 else 0) (seq 0 n)).
Proof.
  split; [rewrite map_length, seq_length; reflexivity|].
  apply Forall_forall. intros x Hx. apply in_map_iff in Hx. destruct Hx as (k & <- & _).
  assert (H := one_lt). destruct (Nat.eqb k j); lia.
Qed.

Lemma nth_unit n j k : (k < n)%nat ->
  nth k (map (fun k => if Nat.eqb k j then 1 else 0) (seq 0 n)) 0 = if Nat.eqb k j then 1 else 0.
Proof.
  intros Hk. rewrite nth_map' with (d := O) by (rewrite seq_length; lia).
  rewrite seq_nth by lia. reflexivity.
Qed.

Lemma inverse_entries n E B i j :
  square (2 ^ w) n E -> inverse_of mul (2 ^ w) n E B -> (i < n)%nat -> (j < n)%nat ->
  xsum n (fun k => mul (nth k (nth i E []) 0) (nth j (nth k B []) 0))
  = if Nat.eqb i j then 1 else 0.
Proof.
  intros SE [SB H] Hi Hj. destruct (H _ (unit_vector n j)) as [_ H2].
  apply (f_equal (fun l => nth i l 0)) in H2. rewrite nth_unit in H2 by exact Hi.
  rewrite <- H2. unfold apply at 1.
  rewrite nth_map' with (d := []) by (destruct SE; lia).
  assert (L : length (apply mul B (map (fun k => if Nat.eqb k j then 1 else 0) (seq 0 n))) = n).
  { unfold apply. rewrite map_length. apply SB. }
  rewrite L. rewrite !xs_xsum. apply xs_ext. intros k Hk. apply in_seq in Hk. f_equal.
  unfold apply. rewrite nth_map' with (d := []) by (destruct SB; lia).
  rewrite map_length, seq_length, xs_xsum.
  rewrite xs_one with (a := j).
  - rewrite nth_unit by exact Hj. rewrite Nat.eqb_refl. symmetry. apply mul_1.
    apply square_lt with n; auto. lia.
  - apply seq_NoDup.
  - apply in_seq. lia.
  - intros x Hx N. apply in_seq in Hx. rewrite nth_unit by lia.
    destruct (Nat.eqb_spec x j); [contradiction|]. apply mul_0.
Qed.

Lemma solve_system n E B vs i :
  square (2 ^ w) n E -> inverse_of mul (2 ^ w) n E B -> length vs = n -> (i < n)%nat ->
  ok (nth i vs 0) ->
  xsum n (fun k => act (xsum n (fun j => act (nth j vs 0) (nth j (nth k B []) 0)))
                       (nth k (nth i E []) 0))
  = nth i vs 0.
Proof.
  intros SE IB L Hi OK. assert (SB := proj1 IB).
  transitivity (xs (fun j => act (nth j vs 0) (if Nat.eqb i j then 1 else 0)) (seq 0 n)).
  - rewrite xs_xsum.
    rewrite xs_ext with (g := fun k => xs (fun j => act (nth j vs 0)
      (mul (nth k (nth i E []) 0) (nth j (nth k B []) 0))) (seq 0 n)).
    + rewrite xs_swap. apply xs_ext. intros j Hj. apply in_seq in Hj.
      rewrite <- (inverse_entries n E B i j SE IB) by lia.
      rewrite xs_xsum. 
      assert (G : forall l, (forall k, In k l -> (k < n)%nat) ->
        xs (fun k => mul (nth k (nth i E []) 0) (nth j (nth k B []) 0)) l < 2 ^ w /\
        xs (fun k => act (nth j vs 0) (mul (nth k (nth i E []) 0) (nth j (nth k B []) 0))) l
        = act (nth j vs 0) (xs (fun k => mul (nth k (nth i E []) 0) (nth j (nth k B []) 0)) l)).
      { induction l as [|k l IH]; intros Hl.
        - split; [cbn; assert (X := one_lt); lia|]. cbn. symmetry. apply act_0_r.
        - destruct IH as [I1 I2]; [intros; apply Hl; right; auto|].
          assert (K : (k < n)%nat) by (apply Hl; left; auto).
          assert (M : mul (nth k (nth i E []) 0) (nth j (nth k B []) 0) < 2 ^ w).
          { apply mul_lt; apply square_lt with n; auto; lia. }
          rewrite !xs_cons. split; [apply lxor_lt; auto|].
          rewrite I2, act_add_r by auto. reflexivity. }
      apply G. intros k Hk. apply in_seq in Hk. lia.
    + intros k Hk. apply in_seq in Hk. rewrite xs_xsum.
      rewrite (xs_hom (fun v => act v _)) by auto.
      apply xs_ext. intros j Hj. apply in_seq in Hj. apply act_mul.
      * apply square_lt with n; auto; lia.
      * apply square_lt with n; auto; lia.
  - rewrite xs_one with (a := i).
    + rewrite Nat.eqb_refl. apply act_1. exact OK.
    + apply seq_NoDup.
    + apply in_seq. lia.
    + intros x _ N. destruct (Nat.eqb_spec i x); [congruence|]. apply act_0_r.
Qed.
End Solve.

Definition act2 (v e : N) : N := if N.eqb e 0 then 0 else v.

Lemma solve_bits n E B vs i :
  square 2 n E -> inverse_of N.land 2 n E B -> length vs = n -> (i < n)%nat ->
  xsum n (fun k => act2 (nth k (times_bits B vs) 0) (nth k (nth i E []) 0)) = nth i vs 0.
Proof.
  intros SE IB L Hi. change 2 with (2 ^ 1) in SE, IB.
  rewrite <- (solve_system N.land act2 1 (fun _ => True)) with (E := E) (B := B) (n := n) (i := i);
    auto.
  - rewrite !xs_xsum. apply xs_ext. intros k Hk. apply in_seq in Hk. f_equal.
    unfold times_bits. destruct IB as [[LB FB] _].
    rewrite nth_map' with (d := []) by lia.
    apply (vsum_map2 (fun e v => act2 v e)); [|exact L].
    rewrite Forall_forall in FB. apply FB. apply nth_In. lia.
  - intros v v' e. unfold act2. destruct (N.eqb e 0); reflexivity.
  - intros v a b Ha Hb. change (2 ^ 1) with 2 in Ha, Hb. unfold act2.
    destruct a as [|[]]; try lia; destruct b as [|[]]; try lia; cbn;
      rewrite ?N.lxor_0_r, ?N.lxor_0_l, ?N.lxor_nilpotent; reflexivity.
  - intros v a b Ha Hb. change (2 ^ 1) with 2 in Ha, Hb. unfold act2.
    destruct a as [|[]]; try lia; destruct b as [|[]]; try lia; reflexivity.
  - intros e. unfold act2. destruct (N.eqb e 0); reflexivity.
  - intros a b Ha Hb. change (2 ^ 1) with 2 in *.
    destruct a as [|[]]; try lia; destruct b as [|[]]; try lia; cbn; lia.
  - intros a Ha. change (2 ^ 1) with 2 in *. destruct a as [|[]]; try lia; reflexivity.
  - intros a. apply N.land_0_r.
  - lia.
Qed.

Lemma solve_gf_system vl n E B vs i :
  square (2 ^ 128) n E -> inverse_of gf128_mul (2 ^ 128) n E B -> length vs = n -> (i < n)%nat ->
  nth i vs 0 < 2 ^ (128 * N.of_nat vl) ->
  xsum n (fun k => vmul vl (nth k (times_gf vl B vs) 0) (nth k (nth i E []) 0)) = nth i vs 0.
Proof.
  intros SE IB L Hi OK.
  rewrite <- (solve_system gf128_mul (vmul vl) 128 (fun v => v < 2 ^ (128 * N.of_nat vl)))
    with (E := E) (B := B) (n := n) (i := i); try assumption.
  - rewrite !xs_xsum. apply xs_ext. intros k Hk. apply in_seq in Hk. f_equal.
    unfold times_gf. destruct IB as [[LB FB] _].
    rewrite nth_map' with (d := []) by lia.
    apply (vsum_map2 (fun e v => vmul vl v e)); [|exact L].
    rewrite Forall_forall in FB. apply FB. apply nth_In. lia.
  - intros. apply vmul_add_l.
  - intros. apply vmul_add_r.
  - intros. apply vmul_mul.
  - intros. apply vmul_0_l.
  - intros. apply vmul_0_r.
  - intros. apply vmul_1. assumption.
  - intros. apply gf128_mul_lt.
  - intros a Ha. rewrite gf_comm'. apply gf_1_l. exact Ha.
  - intros a. rewrite gf_comm'. apply gf_0_l.
  - lia.
Qed.

(** Instances of [ECGroup]: the additive group of integers modulo any prime below
    2^256, with explicit encodings.  They show that the laws assumed of the curve
    are consistent, and serve as the concrete case in the examples beside the
    property theorems. *)
From Coq Require Import NArith ZArith List Lia Bool Znumtheory Arith Eqdep_dec.
From Coq Require Import ZifyBool ZifyNat ZifyN.
From Verif.Base Require Import Words ListX.
From Verif.Group Require Import ECModel.
Import ListNotations.
Local Open Scope Z_scope.

Section Zq.
Variable q : Z.
Hypothesis q_prime : prime q.
Hypothesis q_256 : q < 2 ^ 256.

Definition inZ (z : Z) : bool := (0 <=? z) && (z <? q).
Definition Zq : Type := { z : Z | inZ z = true }.

Lemma qpos : 0 < q.
Proof. pose proof (prime_ge_2 _ q_prime). lia. Qed.

Lemma inZ_mod : forall z, inZ (z mod q) = true.
Proof. intros z. unfold inZ. pose proof (Z.mod_pos_bound z q qpos). lia. Qed.

Definition mk (z : Z) : Zq := exist _ (z mod q) (inZ_mod z).

Lemma Zq_ext : forall a b : Zq, proj1_sig a = proj1_sig b -> a = b.
Proof.
  intros [a Ha] [b Hb] E. cbn in E. subst b. f_equal.
  apply UIP_dec. apply bool_dec.
Qed.

Lemma Zq_range : forall a : Zq, 0 <= proj1_sig a < q.
Proof. intros [a Ha]. unfold inZ in Ha. cbn. lia. Qed.

Lemma mk_proj : forall a : Zq, mk (proj1_sig a) = a.
Proof. intros a. apply Zq_ext. cbn [mk proj1_sig]. apply Z.mod_small, Zq_range. Qed.

Definition zq_comp33 (a : Zq) : list N := 2%N :: be_bytes 32 (Z.to_N (proj1_sig a)).
Definition zq_unc65 (a : Zq) : list N := 4%N :: be_bytes 32 (Z.to_N (proj1_sig a)) ++ be_bytes 32 0.
Definition zq_oct65 (s : list N) : option Zq :=
  match s with
  | h :: r => if (h =? 0)%N then None else Some (mk (Z.of_N (be_val (firstn 32 r))))
  | [] => None
  end.

Lemma be_bytes_ok : forall n x, bytes_ok (be_bytes n x).
Proof. intros n x. unfold be_bytes, bytes_ok. apply Forall_rev. apply le_bytes_ok. Qed.

Lemma zq_bound : forall a : Zq, (Z.to_N (proj1_sig a) < 256 ^ N.of_nat 32)%N.
Proof. intros a. pose proof (Zq_range a). change (256 ^ N.of_nat 32)%N with (2 ^ 256)%N. lia. Qed.

Definition ZqG : ECGroup.
Proof.
  refine {| pt := Zq; inf := mk 0;
    padd := fun a b => mk (proj1_sig a + proj1_sig b);
    pneg := fun a => mk (- proj1_sig a);
    pmul := fun a k => mk (proj1_sig a * k);
    pgen := mk 1; order := q;
    peqb := fun a b => proj1_sig a =? proj1_sig b;
    comp33 := zq_comp33; unc65 := zq_unc65; oct65 := zq_oct65 |}; pose proof qpos as Q.
  - exact q_prime.
  - exact q_256.
  - intros a b c. apply Zq_ext. cbn [mk proj1_sig]. rewrite Zplus_mod_idemp_r, Zplus_mod_idemp_l. f_equal. lia.
  - intros a b. apply Zq_ext. cbn [mk proj1_sig]. f_equal. lia.
  - intros a. apply Zq_ext. cbn [mk proj1_sig]. rewrite Z.mod_0_l, Z.add_0_r by lia. apply Z.mod_small, Zq_range.
  - intros a. apply Zq_ext. cbn [mk proj1_sig]. rewrite Zplus_mod_idemp_r, Z.add_opp_diag_r. reflexivity.
  - intros a. apply Zq_ext. cbn [mk proj1_sig]. f_equal. lia.
  - intros a k. apply Zq_ext. cbn [mk proj1_sig]. rewrite Zplus_mod_idemp_l. f_equal. lia.
  - apply Zq_ext. cbn [mk proj1_sig]. rewrite Zmult_mod_idemp_l, Z.mul_1_l, Z.mod_same, Z.mod_0_l by lia. reflexivity.
  - intros E. apply (f_equal (@proj1_sig _ _)) in E. cbn [mk proj1_sig] in E.
    pose proof (prime_ge_2 _ q_prime). rewrite Z.mod_1_l, Z.mod_0_l in E by lia. discriminate.
  - intros a. exists (proj1_sig a). apply Zq_ext. cbn [mk proj1_sig].
    rewrite Zmult_mod_idemp_l, Z.mul_1_l. symmetry. apply Z.mod_small, Zq_range.
  - intros a b. destruct (Z.eqb_spec (proj1_sig a) (proj1_sig b)) as [E|E]; constructor.
    + apply Zq_ext. exact E.
    + intros ->. apply E. reflexivity.
  - intros a. unfold zq_comp33. cbn [length]. rewrite be_bytes_length. reflexivity.
  - intros a. constructor; [reflexivity|apply be_bytes_ok].
  - intros a _. cbn. discriminate.
  - intros a b _ _ E. unfold zq_comp33 in E. apply (f_equal (@tl N)) in E. cbn [tl] in E.
    apply (f_equal be_val) in E. rewrite !be_val_bytes in E by apply zq_bound.
    apply Zq_ext. pose proof (Zq_range a). pose proof (Zq_range b). lia.
  - intros a. unfold zq_unc65. cbn [length]. rewrite app_length, !be_bytes_length. reflexivity.
  - intros a. constructor; [reflexivity|]. apply bytes_ok_app; apply be_bytes_ok.
  - intros a _. unfold zq_oct65, zq_unc65. cbn [N.eqb].
    rewrite firstn_app_exact' by (symmetry; apply be_bytes_length).
    rewrite be_val_bytes by apply zq_bound. f_equal.
    rewrite Z2N.id by apply Zq_range. apply mk_proj.
  - intros s _ H. unfold zq_oct65. destruct s as [|h r]; [reflexivity|].
    cbn [nth] in H. subst h. reflexivity.
Defined.

End Zq.

(** Two concrete groups for the examples. *)

Lemma prime_by_trial : forall p, 1 < p ->
  forallb (fun k => Z.gcd (Z.of_nat k) p =? 1) (seq 1 (Z.to_nat p - 1)) = true -> prime p.
Proof.
  intros p H F. apply prime_intro; [exact H|]. intros n Hn.
  apply Zgcd_1_rel_prime. rewrite forallb_forall in F.
  specialize (F (Z.to_nat n)). rewrite Z2Nat.id in F by lia. apply Z.eqb_eq. apply F.
  apply in_seq. lia.
Qed.

Lemma prime_11 : prime 11.
Proof. apply prime_by_trial; [lia|vm_compute; reflexivity]. Qed.
Lemma prime_101 : prime 101.
Proof. apply prime_by_trial; [lia|vm_compute; reflexivity]. Qed.
Lemma lt_11 : 11 < 2 ^ 256. Proof. reflexivity. Qed.
Lemma lt_101 : 101 < 2 ^ 256. Proof. reflexivity. Qed.

Definition G11 : ECGroup := ZqG 11 prime_11 lt_11.
Definition G101 : ECGroup := ZqG 101 prime_101 lt_101.
(** the element k of G101 *)
Definition p101 (k : Z) : pt G101 := pmul G101 (pgen G101) k.

(** Property C97: range proofs are perfectly witness-indistinguishable. *)
From Coq Require Import NArith ZArith List Lia Bool Arith Setoid Morphisms.
From Coq Require Import ZifyBool ZifyNat ZifyN.
From Verif.Base Require Import Words ListX.
From Verif.Crypto Require Import BigIntModel BigIntSpec BigIntProofs.
From Verif.Group Require Import ECModel ECProofs ZqGroup.
From Verif.Sigma Require Import SigmaModel SigmaProofs SigmaProps.
From Verif.Ring Require Import RingProofs.
From Verif.Bullet Require Import IPModel IPProofs BPModel LagSpec BPSpec BPProofs BPProps HidingSpec.
Import ListNotations.
Local Open Scope Z_scope.

Section Hiding.
Variable G : ECGroup.
Variable H : list N -> Z.
Local Notation q := (order G).
Local Infix "+p" := (padd G) (at level 50, left associativity).
Local Infix "-p" := (psub G) (at level 50, left associativity).
Local Notation "P *p k" := (pmul G P k%Z) (at level 40, left associativity).
Local Notation "a == b" := (cong q a b) (at level 70).

(** ** Prove in closed form *)
Section Form.
Variable pp : BPPP G.
Variable n k : nat.
Variable tr : list N.
Local Notation R := (bp_range G pp).
Local Notation L := (2 ^ k)%nat.
Local Notation vg := (firstn (2 ^ k) (bp_vg G pp)).
Local Notation vh := (firstn (2 ^ k) (bp_vh G pp)).

Definition bt (v : list Z) (i : nat) : Z := bitf (nth (i / R) v 0) (i mod R).
Definition sl (rn : BPRand) (i : nat) : Z := nth i (rd_sL rn) 0.
Definition sr (rn : BPRand) (i : nat) : Z := nth i (rd_sR rn) 0.
Definition fA (v : list Z) (alpha : Z) : pt G :=
  msum G vg (map (bt v) (seq 0 L)) +p msum G vh (map (fun i => bt v i - 1) (seq 0 L)) +p bp_h G pp *p alpha.
Definition fS (rn : BPRand) : pt G :=
  msum G vg (map (sl rn) (seq 0 L)) +p msum G vh (map (sr rn) (seq 0 L)) +p bp_h G pp *p rd_rho rn.
Definition r0 (v : list Z) (y z : Z) (i : nat) : Z := y ^ Z.of_nat i * (z + (bt v i - 1)) + zblock R z i.
Definition ft1 (v : list Z) (rn : BPRand) (y z : Z) : Z :=
  modq G (sum L (fun i => sl rn i * r0 v y z i) + sum L (fun i => (bt v i - z) * (y ^ Z.of_nat i * sr rn i))).
Definition ft2 (rn : BPRand) (y : Z) : Z := modq G (sum L (fun i => sl rn i * (y ^ Z.of_nat i * sr rn i))).
Definition fT (tau t : Z) : pt G := bp_g G pp *p tau +p bp_h G pp *p t.
Definition fl (v : list Z) (rn : BPRand) (z x : Z) : list Z := map (fun i => modq G (bt v i - z + sl rn i * x)) (seq 0 L).
Definition fr (v : list Z) (rn : BPRand) (y z x : Z) : list Z :=
  map (fun i => modq G (r0 v y z i + y ^ Z.of_nat i * sr rn i * x)) (seq 0 L).
Definition ftaux (r : list Z) (rn : BPRand) (z x : Z) : Z :=
  modq G (rd_tau1 rn * x + rd_tau2 rn * (x * x) + sum n (fun j => z ^ Z.of_nat (S (S j)) * nth j r 0)).

Definition cy (A : pt G) : Z := H (tr ++ ToByteString G A).
Definition cz (A S : pt G) : Z := H ((tr ++ ToByteString G A) ++ ToByteString G S).
Definition cx (A S T1 T2 : pt G) : Z :=
  H (((tr ++ ToByteString G A) ++ ToByteString G S) ++ ToByteString G T1 ++ ToByteString G T2).

(** the last part of Prove, from the polynomials at x *)
Definition tail (A S T1 T2 : pt G) (llx rrx : list Z) (taux mu : Z) : option (BPProof G * list N) :=
  let x := cx A S T1 T2 in
  let tr := (((tr ++ ToByteString G A) ++ ToByteString G S) ++ ToByteString G T1 ++ ToByteString G T2) ++ BigInt_ToByteString x in
  do tx <- BigIntVectorModInnerProduct llx rrx q;
  let e := H tr in
  do ip <- bp_ip G pp L (ModInverse (cy A) q) e;
  do P <- ECPointVectorMul G (ip_g G ip ++ ip_h G ip ++ [ip_u G ip]) (llx ++ rrx ++ [tx]);
  do ipr <- IP_Prove G H ip P llx rrx tr;
  Some ({| bpA := A; bpS := S; bpT1 := T1; bpT2 := T2; bptaux := taux; bpmu := mu; bptx := tx; bpip := fst ipr |}, snd ipr).

(** the run as a function of the witness and the draws *)
Definition run (r v : list Z) (rn : BPRand) : option (BPProof G * list N) :=
  let A := fA v (rd_alpha rn) in let S := fS rn in
  let y := cy A in let z := cz A S in
  let T1 := fT (rd_tau1 rn) (ft1 v rn y z) in let T2 := fT (rd_tau2 rn) (ft2 rn y) in
  let x := cx A S T1 T2 in
  tail A S T1 T2 (fl v rn z x) (fr v rn y z x) (ftaux r rn z x) (modq G (rd_alpha rn + rd_rho rn * x)).

Lemma msum2 : forall A B a b, msum G [A; B] [a; b] = A *p a +p B *p b.
Proof. intros A B a b. cbn [msum]. rewrite padd_inf. reflexivity. Qed.
Lemma canon : forall l f, rep G L l f -> Forall (below G) l -> l = map (fun i => modq G (f i)) (seq 0 L).
Proof.
  intros l f [Ll E] F. apply nth_ext with (d := 0) (d' := 0); [rewrite map_length, seq_length; exact Ll|].
  intros i Hi. rewrite Ll in Hi. rewrite (nth_map' _ _ _ 0%nat) by (rewrite seq_length; exact Hi). rewrite seq_nth by exact Hi.
  change (0 + i)%nat with i. rewrite <- (cong_modq G _ _ (E i Hi)). symmetry. apply modq_small. rewrite Forall_forall in F. apply F. apply nth_In. lia.
Qed.
Lemma add_below : forall a b c, BigIntVectorModAdd a b q = Some c -> Forall (below G) c.
Proof.
  intros a b c. unfold BigIntVectorModAdd. destruct (same_size a b); [|discriminate]. intros E. injection E as <-.
  revert b. induction a as [|x a IH]; intros [|y b]; cbn [map2]; constructor; [apply modq_range|apply IH].
Qed.
Lemma inner_below : forall a b c, BigIntVectorModInnerProduct a b q = Some c -> below G c.
Proof.
  intros a b c. unfold BigIntVectorModInnerProduct. destruct (same_size a b); [|discriminate]. intros E. injection E as <-. apply modq_range.
Qed.
Lemma below_modq : forall a, below G a -> modq G a = a.
Proof. intros a B. apply modq_small. exact B. Qed.

Lemma run_eq : forall (C : list (pt G)) r v rn, length C = n -> (R * n = 2 ^ k)%nat ->
  (2 ^ k <= length (bp_vg G pp))%nat -> (2 ^ k <= length (bp_vh G pp))%nat ->
  (n <= length r)%nat -> (n <= length v)%nat ->
  length (rd_sL rn) = (2 ^ k)%nat -> length (rd_sR rn) = (2 ^ k)%nat ->
  BP_Prove G H pp C r v tr rn = run r v rn.
Proof.
  intros C r v rn EC EL Lg Lh Lr Lv LsL LsR. destruct (dims_pos _ _ _ EL) as [HR Hn].
  unfold BP_Prove. rewrite EC, EL. rewrite (proj2 (Nat.leb_le _ _) Lg), (proj2 (Nat.leb_le _ _) Lh), (proj2 (Nat.leb_le _ _) Lr), (proj2 (Nat.leb_le _ _) Lv). cbn [andb].
  pose proof (bits_rep G R n v) as RL. rewrite EL in RL. set (aL := bits_of _ _ v) in *.
  change (fun p => bitf (nth (p / R) v 0) (p mod R)) with (bt v) in RL.
  destruct (rep_sub _ _ _ _ _ _ RL (rep_repeat G (2 ^ k) 1)) as [aR [EA RA]]. rewrite EA. cbn [obind].
  pose proof (firstn_len _ _ _ Lg) as LG. pose proof (firstn_len _ _ _ Lh) as LH.
  rewrite VectorMul_some by (rewrite !app_length, LG, LH, (proj1 RL), (proj1 RA); reflexivity). cbn [obind].
  rewrite VectorMul_some by (rewrite !app_length, LG, LH, LsL, LsR; reflexivity). cbn [obind].
  pose proof (rep_self G (rd_sL rn)) as RSL. rewrite LsL in RSL. pose proof (rep_self G (rd_sR rn)) as RSR. rewrite LsR in RSR.
  assert (EA' : msum G (vg ++ vh ++ [bp_h G pp]) (aL ++ aR ++ [rd_alpha rn]) = fA v (rd_alpha rn)).
  { unfold fA. rewrite !msum_app, msum_one, padd_assoc by (rewrite ?LG, ?LH, ?(proj1 RL), ?(proj1 RA); reflexivity).
    rewrite (rep_msum _ _ _ _ _ RL), (rep_msum _ _ _ _ _ RA). reflexivity. }
  assert (ES' : msum G (vg ++ vh ++ [bp_h G pp]) (rd_sL rn ++ rd_sR rn ++ [rd_rho rn]) = fS rn).
  { unfold fS. rewrite !msum_app, msum_one, padd_assoc by (rewrite ?LG, ?LH, ?LsL, ?LsR; reflexivity).
    rewrite (rep_msum _ _ _ _ _ RSL), (rep_msum _ _ _ _ _ RSR). reflexivity. }
  rewrite EA', ES'. unfold run. set (A := fA v (rd_alpha rn)). set (S0 := fS rn).
  fold (cy A). fold (cz A S0). set (y := cy A). set (z := cz A S0).
  destruct (rep_sub _ _ _ _ _ _ RL (rep_repeat G (2 ^ k) z)) as [ll0 [EL0 RL0]]. rewrite EL0. cbn [obind].
  destruct (rep_pow G (2 ^ k) y (pow2_pos k)) as [yp [EYP RYP]]. rewrite EYP. cbn [obind].
  destruct (rep_add _ _ _ _ _ _ (rep_repeat G (2 ^ k) z) RA) as [zz [EZZ RZZ]]. rewrite EZZ. cbn [obind].
  destruct (rep_prod _ _ _ _ _ _ RYP RZZ) as [rr0' [ER0' RR0']]. rewrite ER0'. cbn [obind].
  destruct (rep_pow G R 2 HR) as [two [E2' R2]]. rewrite E2'. cbn [obind].
  rewrite <- EL in RR0'.
  assert (XR : exists rr0, rr0_loop (seq 1 n) R n two (adjust_z n z q) rr0' q = Some rr0 /\ rep G (R * n) rr0 (r0 v y z)).
  { destruct (rr0_loop_rep G R n two z HR R2 n 1%nat rr0' _ eq_refl (Nat.le_refl 1) RR0') as [rr0 [X1 X2]].
    exists rr0. split; [exact X1|exact X2]. }
  destruct XR as [rr0 [ER0 RR0]]. rewrite ER0. cbn [obind]. rewrite EL in RR0.
  destruct (rep_prod _ _ _ _ _ _ RYP RSR) as [rr1 [ER1 RR1]]. rewrite ER1. cbn [obind].
  destruct (rep_inner _ _ _ _ _ _ RSL RR0) as [t1a [Et1a Ct1a]]. rewrite Et1a. cbn [obind].
  destruct (rep_inner _ _ _ _ _ _ RL0 RR1) as [t1b [Et1b Ct1b]]. rewrite Et1b. cbn [obind].
  destruct (rep_inner _ _ _ _ _ _ RSL RR1) as [t2 [Et2 Ct2]]. rewrite Et2. cbn [obind].
  assert (Q1 : BigInt_Mod (t1a + t1b) q = ft1 v rn y z).
  { apply (cong_modq G). rewrite Ct1a, Ct1b. reflexivity. }
  assert (Q2 : t2 = ft2 rn y).
  { rewrite <- (below_modq t2 (inner_below _ _ _ Et2)). apply cong_modq. exact Ct2. }
  rewrite Q1, Q2, !msum2. fold (fT (rd_tau1 rn) (ft1 v rn y z)). fold (fT (rd_tau2 rn) (ft2 rn y)).
  set (T1 := fT (rd_tau1 rn) _). set (T2 := fT (rd_tau2 rn) _). fold (cx A S0 T1 T2). set (x := cx A S0 T1 T2).
  destruct (rep_add _ _ _ _ _ _ RL0 (rep_scalar _ _ _ _ x RSL)) as [llx [Ellx Rllx]]. rewrite Ellx. cbn [obind].
  destruct (rep_add _ _ _ _ _ _ RR0 (rep_scalar _ _ _ _ x RR1)) as [rrx [Errx Rrrx]]. rewrite Errx. cbn [obind].
  rewrite (canon llx _ Rllx (add_below _ _ _ Ellx)), (canon rrx _ Rrrx (add_below _ _ _ Errx)).
  assert (CX : fold_left (fun t j => BigInt_Mod (t + nth j (adjust_z n z q) 0 * nth (j - 1) r 0) q) (seq 1 n)
                  (BigInt_Mod (rd_tau1 rn * x + rd_tau2 rn * ModSquare x q) q) = ftaux r rn z x).
  { assert (RG : forall (f : nat -> Z) l s, 0 <= s < q -> 0 <= fold_left (fun t j => BigInt_Mod (t + f j) q) l s < q).
    { intros f. induction l as [|j l IH]; intros s Hs; cbn [fold_left]; [exact Hs|]. apply IH. apply modq_range. }
    match goal with |- ?l = _ => assert (HB : below G l) by (apply (RG (fun j => nth j (adjust_z n z q) 0 * nth (j - 1) r 0)); apply (modq_range G)); rewrite <- (modq_small G l HB); clear HB end.
    apply cong_modq.
    rewrite (taux_fold G (fun j => nth j (adjust_z n z q) 0 * nth (j - 1) r 0)), modq_cong', square_cong.
    assert (X : zsum (map (fun j => nth j (adjust_z n z q) 0 * nth (j - 1) r 0) (seq 1 n)) == sum n (fun j => z ^ Z.of_nat (S (S j)) * nth j r 0)).
    { unfold sum. rewrite <- seq_shift, map_map. destruct (adjust_rep G n z) as [_ EZ].
      assert (W : forall l, (forall j, In j l -> (j < n)%nat) ->
         zsum (map (fun j => nth (S j) (adjust_z n z q) 0 * nth (S j - 1) r 0) l) == zsum (map (fun j => z ^ Z.of_nat (S (S j)) * nth j r 0) l)).
      { induction l as [|j l IH]; intros I; cbn [map zsum]; [reflexivity|].
        rewrite EZ, IH, Nat.sub_succ, Nat.sub_0_r; [reflexivity| |].
        - intros j' J. apply I. right. exact J.
        - specialize (I j (or_introl eq_refl)). lia. }
      apply W. intros j J. apply in_seq in J. lia. }
    rewrite X. reflexivity. }
  rewrite CX. unfold tail. reflexivity.
Qed.

(** ** the correspondence between the draws *)
(** d: the difference of the commitments to the bits, w: the logarithm of h *)
Definition new_s (v v' : list Z) (s : list Z) (x : Z) : list Z :=
  map (fun i => modq G (nth i s 0 + (bt v i - bt v' i) * ModInverse x q)) (seq 0 L).
(** alpha, the vectors and rho first, then the blinding of T1 and T2 *)
Definition new1 (v v' : list Z) (d x : Z) (rn : BPRand) : BPRand :=
  {| rd_alpha := modq G (rd_alpha rn + d); rd_sL := new_s v v' (rd_sL rn) x; rd_sR := new_s v v' (rd_sR rn) x;
     rd_rho := modq G (rd_rho rn - d * ModInverse x q); rd_tau1 := rd_tau1 rn; rd_tau2 := rd_tau2 rn |}.
Definition run_x (v : list Z) (rn : BPRand) : Z :=
  let A := fA v (rd_alpha rn) in let S := fS rn in let y := cy A in let z := cz A S in
  cx A S (fT (rd_tau1 rn) (ft1 v rn y z)) (fT (rd_tau2 rn) (ft2 rn y)).
Definition new (v v' : list Z) (d w : Z) (rn : BPRand) : BPRand :=
  let A := fA v (rd_alpha rn) in let S := fS rn in let y := cy A in let z := cz A S in
  let rn1 := new1 v v' d (run_x v rn) rn in
  {| rd_alpha := rd_alpha rn1; rd_sL := rd_sL rn1; rd_sR := rd_sR rn1; rd_rho := rd_rho rn1;
     rd_tau1 := modq G (rd_tau1 rn + w * (ft1 v rn y z - ft1 v' rn1 y z));
     rd_tau2 := modq G (rd_tau2 rn + w * (ft2 rn y - ft2 rn1 y)) |}.

Lemma run_chal : forall r v rn p tr', run r v rn = Some (p, tr') -> x_of G H tr p = run_x v rn.
Proof.
  intros r v rn p tr'. unfold run, run_x, tail. cbv zeta.
  set (A := fA v _). set (S0 := fS rn). set (T1 := fT (rd_tau1 rn) _). set (T2 := fT (rd_tau2 rn) _). clearbody A S0 T1 T2.
  destruct (BigIntVectorModInnerProduct _ _ _) as [tx|]; cbn [obind]; [|discriminate].
  destruct (bp_ip _ _ _ _ _) as [ip|]; cbn [obind]; [|discriminate].
  destruct (ECPointVectorMul _ _ _) as [P|]; cbn [obind]; [|discriminate].
  destruct (IP_Prove _ _ _ _ _ _ _) as [[ipp t]|]; cbn [obind fst snd]; [|discriminate].
  intros E. injection E as <- _. unfold x_of, cx. cbn [bpA bpS bpT1 bpT2]. rewrite !app_assoc. reflexivity.
Qed.

Lemma new_s_nth : forall v v' s x i, (i < L)%nat -> nth i (new_s v v' s x) 0 == nth i s 0 + (bt v i - bt v' i) * ModInverse x q.
Proof.
  intros v v' s x i Hi. unfold new_s. rewrite (nth_map' _ _ _ 0%nat) by (rewrite seq_length; exact Hi). rewrite seq_nth by exact Hi.
  change (0 + i)%nat with i. apply modq_cong.
Qed.
Lemma new_s_len : forall v v' s x, length (new_s v v' s x) = L.
Proof. intros. unfold new_s. rewrite map_length, seq_length. reflexivity. Qed.
Lemma new_s_below : forall v v' s x, Forall (below G) (new_s v v' s x).
Proof. intros. unfold new_s. apply Forall_forall. intros a I. apply in_map_iff in I. destruct I as [i [<- _]]. apply modq_range. Qed.
Lemma new_s_back : forall v v' s x, length s = L -> Forall (below G) s -> new_s v' v (new_s v v' s x) x = s.
Proof.
  intros v v' s x Ls B. unfold new_s at 1. symmetry. apply canon; [|exact B]. split; [exact Ls|]. intros i Hi.
  rewrite (new_s_nth v v' s x i Hi). apply cong_eq. ring.
Qed.

(** what the constants have to satisfy *)
Definition bits_gap (v v' : list Z) (d : Z) : Prop :=
  msum G vg (map (fun i => 1 * bt v i + -1 * bt v' i) (seq 0 L)) +p msum G vh (map (fun i => 1 * bt v i + -1 * bt v' i) (seq 0 L)) = bp_h G pp *p d.

Lemma bits_gap_sym : forall v v' d, bits_gap v v' d -> bits_gap v' v (- d).
Proof.
  intros v v' d. unfold bits_gap. rewrite !msum_flin. bpgen.
  repeat match goal with |- context [msum G ?a ?b] => generalize (msum G a b) end. clear. intros A B C D h E.
  transitivity (pneg G (h *p d)).
  - rewrite <- E. logs G. gring.
  - logs G. gring.
Qed.

Lemma fA_new : forall v v' d x rn, bits_gap v v' d -> fA v' (rd_alpha (new1 v v' d x rn)) = fA v (rd_alpha rn).
Proof.
  intros v v' d x rn E. cbn [new1 rd_alpha]. unfold fA. rewrite (pmul_cong G _ _ _ (modq_cong G (rd_alpha rn + d))), pmul_add, (padd_comm G (_ *p rd_alpha rn)), <- E.
  rewrite (msum_ext G L vh (fun i => bt v i - 1) (fun i => 1 * bt v i + -1 * 1)) by (intros; apply cong_eq; ring).
  rewrite (msum_ext G L vh (fun i => bt v' i - 1) (fun i => 1 * bt v' i + -1 * 1)) by (intros; apply cong_eq; ring).
  rewrite !msum_flin. bpgen. generalize (rd_alpha rn).
  repeat match goal with |- context [msum G ?a ?b] => generalize (msum G a b) end. clear. intros. logs G. gring.
Qed.

Lemma fS_new : forall v v' d x rn, bits_gap v v' d -> fS (new1 v v' d x rn) = fS rn.
Proof.
  intros v v' d x rn E. unfold fS, sl, sr. cbn [new1 rd_rho rd_sL rd_sR].
  set (c := ModInverse x q).
  rewrite (pmul_cong G _ _ _ (modq_cong G _)).
  replace (bp_h G pp *p (rd_rho rn - d * c)) with (bp_h G pp *p rd_rho rn +p bp_h G pp *p d *p (- c)).
  2:{ bpgen. generalize (rd_rho rn). clearbody c. clear. intros. logs G. gring. }
  rewrite <- E.
  rewrite (msum_ext G L vg (fun i => nth i (new_s v v' (rd_sL rn) x) 0) (fun i => 1 * nth i (rd_sL rn) 0 + c * (1 * bt v i + -1 * bt v' i))).
  2:{ intros i Hi. rewrite (new_s_nth v v' _ x i Hi). apply cong_eq. fold c. ring. }
  rewrite (msum_ext G L vh (fun i => nth i (new_s v v' (rd_sR rn) x) 0) (fun i => 1 * nth i (rd_sR rn) 0 + c * (1 * bt v i + -1 * bt v' i))).
  2:{ intros i Hi. rewrite (new_s_nth v v' _ x i Hi). apply cong_eq. fold c. ring. }
  rewrite !msum_flin. bpgen. generalize (rd_rho rn). clearbody c.
  repeat match goal with |- context [msum G ?a ?b] => generalize (msum G a b) end. clear. intros. logs G. gring.
Qed.

(** left and right polynomials at x *)
Lemma left_new : forall v v' d x rn z i, ~ x == 0 -> (i < L)%nat ->
  bt v' i - z + sl (new1 v v' d x rn) i * x == bt v i - z + sl rn i * x.
Proof.
  intros v v' d x rn z i X Hi. unfold sl. cbn [new1 rd_sL]. rewrite (new_s_nth v v' _ x i Hi).
  transitivity (bt v' i - z + nth i (rd_sL rn) 0 * x + (bt v i - bt v' i) * (x * ModInverse x q)); [apply cong_eq; ring|].
  rewrite (inv_cong G x X). apply cong_eq. ring.
Qed.
Lemma right_new : forall v v' d x rn y z i, ~ x == 0 -> (i < L)%nat ->
  r0 v' y z i + y ^ Z.of_nat i * sr (new1 v v' d x rn) i * x == r0 v y z i + y ^ Z.of_nat i * sr rn i * x.
Proof.
  intros v v' d x rn y z i X Hi. unfold sr, r0. cbn [new1 rd_sR]. rewrite (new_s_nth v v' _ x i Hi).
  transitivity (y ^ Z.of_nat i * (z + (bt v' i - 1)) + zblock R z i + y ^ Z.of_nat i * nth i (rd_sR rn) 0 * x + y ^ Z.of_nat i * (bt v i - bt v' i) * (x * ModInverse x q)); [apply cong_eq; ring|].
  rewrite (inv_cong G x X). apply cong_eq. ring.
Qed.

Lemma sum_cong : forall m f g, (forall i, (i < m)%nat -> f i == g i) -> sum m f == sum m g.
Proof.
  intros m f g. unfold sum.
  assert (W : forall l, (forall i, In i l -> f i == g i) -> zsum (map f l) == zsum (map g l)).
  { induction l as [|i l IH]; intros I; cbn [map zsum]; [reflexivity|]. rewrite (I i (or_introl eq_refl)), IH; [reflexivity|]. intros j J. apply I. right. exact J. }
  intros I. apply W. intros i J. apply I. apply in_seq in J. lia.
Qed.

(** t(x) = t0 + t1 x + t2 x^2 *)
Lemma poly : forall v rn y z x, sum L (fun i => (bt v i - z + sl rn i * x) * (r0 v y z i + y ^ Z.of_nat i * sr rn i * x)) ==
  sum L (fun i => (bt v i - z) * r0 v y z i) + ft1 v rn y z * x + ft2 rn y * (x * x).
Proof.
  intros v rn y z x. unfold ft1, ft2. rewrite !modq_cong. apply cong_eq.
  match goal with |- ?l = sum _ ?f1 + (sum _ ?f2 + sum _ ?f3) * x + sum _ ?f4 * (x * x) =>
    transitivity (1 * sum L (fun i => 1 * f1 i + x * f2 i) + x * sum L (fun i => 1 * f3 i + x * f4 i)) end.
  - rewrite <- sum_lin. apply sum_ext. intros i _. ring.
  - rewrite !sum_lin. ring.
Qed.

Lemma t_new : forall v v' d x rn y z, (R * n = 2 ^ k)%nat -> ~ x == 0 ->
  (forall j, (j < n)%nat -> in_range R (nth j v 0)) -> (forall j, (j < n)%nat -> in_range R (nth j v' 0)) ->
  sum n (fun j => z ^ Z.of_nat (S (S j)) * nth j v 0) + ft1 v rn y z * x + ft2 rn y * (x * x) ==
  sum n (fun j => z ^ Z.of_nat (S (S j)) * nth j v' 0) + ft1 v' (new1 v v' d x rn) y z * x + ft2 (new1 v v' d x rn) y * (x * x).
Proof.
  intros v v' d x rn y z EL X Rv Rv'. destruct (dims_pos _ _ _ EL) as [HR Hn].
  pose proof (poly v rn y z x) as P1. pose proof (poly v' (new1 v v' d x rn) y z x) as P2.
  assert (T0 : forall u, (forall j, (j < n)%nat -> in_range R (nth j u 0)) ->
     sum L (fun i => (bt u i - z) * r0 u y z i) = delta_val R n y z + sum n (fun j => z ^ Z.of_nat (S (S j)) * nth j u 0)).
  { intros u Ru. pose proof (t0_eq R n y z u HR) as T. rewrite EL in T. unfold r0, bt. rewrite T. f_equal. apply sum_ext. intros j Hj.
    rewrite low_small by exact (Ru j Hj). reflexivity. }
  rewrite (T0 v Rv) in P1. rewrite (T0 v' Rv') in P2.
  set (s1 := sum n (fun j => z ^ Z.of_nat (S (S j)) * nth j v 0)) in *. set (s2 := sum n (fun j => z ^ Z.of_nat (S (S j)) * nth j v' 0)) in *.
  set (D := delta_val R n y z) in *.
  transitivity ((D + s1 + ft1 v rn y z * x + ft2 rn y * (x * x)) + - D); [apply cong_eq; ring|].
  rewrite <- P1.
  transitivity ((D + s2 + ft1 v' (new1 v v' d x rn) y z * x + ft2 (new1 v v' d x rn) y * (x * x)) + - D); [|apply cong_eq; ring].
  rewrite <- P2. match goal with |- ?a + _ == ?b + _ => enough (E : a == b) by (rewrite E; reflexivity) end. apply sum_cong. intros i Hi. rewrite (left_new v v' d x rn z i X Hi), (right_new v v' d x rn y z i X Hi). reflexivity.
Qed.

Lemma fT_new : forall w tau t t', bp_h G pp = bp_g G pp *p w -> fT (modq G (tau + w * (t - t'))) t' = fT tau t.
Proof.
  intros w tau t t' E. unfold fT. rewrite E, (pmul_cong G _ _ _ (modq_cong G _)). bpgen. clear. intros. logs G. gring.
Qed.

Lemma run_new : forall r v r' v' d w rn, (R * n = 2 ^ k)%nat -> bits_gap v v' d -> bp_h G pp = bp_g G pp *p w ->
  (forall j, (j < n)%nat -> nth j r 0 + w * nth j v 0 == nth j r' 0 + w * nth j v' 0) ->
  (forall j, (j < n)%nat -> in_range R (nth j v 0)) -> (forall j, (j < n)%nat -> in_range R (nth j v' 0)) ->
  ~ run_x v rn == 0 ->
  run r' v' (new v v' d w rn) = run r v rn /\ run_x v' (new v v' d w rn) = run_x v rn.
Proof.
  intros r v r' v' d w rn EL GP EW CM Rv Rv' X.
  set (x := run_x v rn) in *.
  assert (QA : fA v' (rd_alpha (new v v' d w rn)) = fA v (rd_alpha rn)) by apply (fA_new v v' d x rn GP).
  assert (QS : fS (new v v' d w rn) = fS rn) by apply (fS_new v v' d x rn GP).
  set (A := fA v (rd_alpha rn)) in *. set (S0 := fS rn) in *. set (y := cy A). set (z := cz A S0).
  assert (Q1 : fT (rd_tau1 (new v v' d w rn)) (ft1 v' (new v v' d w rn) y z) = fT (rd_tau1 rn) (ft1 v rn y z)) by apply (fT_new w _ _ _ EW).
  assert (Q2 : fT (rd_tau2 (new v v' d w rn)) (ft2 (new v v' d w rn) y) = fT (rd_tau2 rn) (ft2 rn y)) by apply (fT_new w _ _ _ EW).
  assert (QX : run_x v' (new v v' d w rn) = x).
  { unfold run_x. cbv zeta. rewrite QA, QS. fold y. fold z. rewrite Q1, Q2. reflexivity. }
  split; [|exact QX].
  unfold run. cbv zeta. rewrite QA, QS. fold A S0. fold y. fold z. rewrite Q1, Q2.
  change (cx A S0 (fT (rd_tau1 rn) (ft1 v rn y z)) (fT (rd_tau2 rn) (ft2 rn y))) with x.
  f_equal.
  - unfold fl. apply map_ext_in. intros i I. apply in_seq in I. apply cong_modq. apply (left_new v v' d x rn z i X). lia.
  - unfold fr. apply map_ext_in. intros i I. apply in_seq in I. apply cong_modq. apply (right_new v v' d x rn y z i X). lia.
  - unfold ftaux. apply cong_modq. cbn [new rd_tau1 rd_tau2]. fold A S0. fold y. fold z. fold x.
    rewrite !modq_cong. pose proof (t_new v v' d x rn y z EL X Rv Rv') as T.
    set (t1 := ft1 v rn y z) in *. set (t2 := ft2 rn y) in *. set (t1' := ft1 v' (new1 v v' d x rn) y z) in *. set (t2' := ft2 (new1 v v' d x rn) y) in *.
    assert (SM : sum n (fun j => z ^ Z.of_nat (S (S j)) * nth j r 0) + w * sum n (fun j => z ^ Z.of_nat (S (S j)) * nth j v 0) ==
                 sum n (fun j => z ^ Z.of_nat (S (S j)) * nth j r' 0) + w * sum n (fun j => z ^ Z.of_nat (S (S j)) * nth j v' 0)).
    { match goal with |- ?a + w * ?b == ?a' + w * ?b' => enough (E : 1 * a + w * b == 1 * a' + w * b') by (rewrite !Z.mul_1_l in E; exact E) end.
      rewrite <- !sum_lin. apply sum_cong. intros j Hj.
      transitivity (z ^ Z.of_nat (S (S j)) * (nth j r 0 + w * nth j v 0)); [apply cong_eq; ring|]. rewrite (CM j Hj). apply cong_eq. ring. }
    set (sr1 := sum n (fun j => z ^ Z.of_nat (S (S j)) * nth j r 0)) in *. set (sr2 := sum n (fun j => z ^ Z.of_nat (S (S j)) * nth j r' 0)) in *.
    set (sv1 := sum n (fun j => z ^ Z.of_nat (S (S j)) * nth j v 0)) in *. set (sv2 := sum n (fun j => z ^ Z.of_nat (S (S j)) * nth j v' 0)) in *.
    transitivity (rd_tau1 rn * x + rd_tau2 rn * (x * x) + w * (sv1 + t1 * x + t2 * (x * x)) - w * (sv2 + t1' * x + t2' * (x * x)) + (sr2 + w * sv2) - w * sv1); [apply cong_eq; ring|].
    rewrite T, <- SM. apply cong_eq. ring.
  - apply cong_modq. cbn [new rd_alpha rd_rho]. fold A S0. fold y. fold z. fold x. cbn [new1 rd_alpha rd_rho]. rewrite !modq_cong.
    transitivity (rd_alpha rn + d + rd_rho rn * x - d * (x * ModInverse x q)); [apply cong_eq; ring|]. rewrite (inv_cong G x X). apply cong_eq. ring.
Qed.

Lemma run_back : forall v v' d w rn, (R * n = 2 ^ k)%nat -> draws G pp n rn ->
  fA v' (rd_alpha (new v v' d w rn)) = fA v (rd_alpha rn) -> fS (new v v' d w rn) = fS rn ->
  run_x v' (new v v' d w rn) = run_x v rn -> new v' v (- d) w (new v v' d w rn) = rn.
Proof.
  intros v v' d w rn EL [Ba [Br [B1 [B2 [LL [FL [LR FR]]]]]]] QA QS QX. rewrite EL in LL, LR.
  set (x := run_x v rn) in *.
  assert (BL : new_s v' v (rd_sL (new v v' d w rn)) x = rd_sL rn) by apply (new_s_back v v' _ x LL FL).
  assert (BR : new_s v' v (rd_sR (new v v' d w rn)) x = rd_sR rn) by apply (new_s_back v v' _ x LR FR).
  unfold new at 1. cbv zeta. rewrite QA, QS, QX. set (y := cy _). set (z := cz _ _).
  cbn [new1 rd_alpha rd_sL rd_sR rd_rho rd_tau1 rd_tau2]. rewrite BL, BR.
  set (rn2 := new1 v' v (- d) x (new v v' d w rn)).
  assert (E1 : ft1 v rn2 y z = ft1 v rn y z) by (unfold ft1, sl, sr, rn2; cbn [new1 rd_sL rd_sR]; rewrite BL, BR; reflexivity).
  assert (E2 : ft2 rn2 y = ft2 rn y) by (unfold ft2, sl, sr, rn2; cbn [new1 rd_sL rd_sR]; rewrite BL, BR; reflexivity).
  rewrite E1, E2. cbn [new rd_alpha rd_rho rd_tau1 rd_tau2]. fold y z. fold x. cbn [new1 rd_alpha rd_rho].
  change (ft1 v' (new v v' d w rn) y z) with (ft1 v' (new1 v v' d x rn) y z). change (ft2 (new v v' d w rn) y) with (ft2 (new1 v v' d x rn) y).
  assert (M : forall a b c, below G a -> c == - b -> modq G (modq G (a + b) + c) = a).
  { intros a b c Ha Hc. rewrite <- (below_modq a Ha) at 2. apply cong_modq. rewrite modq_cong, Hc. apply cong_eq. ring. }
  rewrite (M (rd_alpha rn) d (- d) Ba) by reflexivity.
  unfold Z.sub at 1. unfold Z.sub at 1. rewrite (M (rd_rho rn) _ _ Br) by (apply cong_eq; ring).
  rewrite (M (rd_tau1 rn) _ _ B1) by (apply cong_eq; ring). rewrite (M (rd_tau2 rn) _ _ B2) by (apply cong_eq; ring).
  destruct rn; reflexivity.
Qed.

Lemma new_draws : forall v v' d w rn, (R * n = 2 ^ k)%nat -> draws G pp n (new v v' d w rn).
Proof.
  intros v v' d w rn EL. unfold draws. cbn [new new1 rd_alpha rd_sL rd_sR rd_rho rd_tau1 rd_tau2]. rewrite EL, !new_s_len.
  repeat split; try apply modq_range; apply new_s_below.
Qed.
End Form.

(** The parameters fit [n] commitments: a power of two bits in all, enough generators, g and h
    not the point at infinity. *)
Definition fits (pp : BPPP G) (n : nat) : Prop :=
  bp_g G pp <> inf G /\ bp_h G pp <> inf G /\
  exists k, (bp_range G pp * n = 2 ^ k)%nat /\ (2 ^ k <= length (bp_vg G pp))%nat /\ (2 ^ k <= length (bp_vh G pp))%nat.

(** Any two openings of the same commitments with all values in range give the same proofs
    equally often. *)
Theorem C97_range_proof_hides_the_values : forall pp C r v r' v' tr, fits pp (length C) ->
  commits G (bp_g G pp) (bp_h G pp) C r v -> commits G (bp_g G pp) (bp_h G pp) C r' v' ->
  Forall (in_range (bp_range G pp)) v -> Forall (in_range (bp_range G pp)) v' ->
  equally_distributed
    (fun rn => draws G pp (length C) rn /\ regular G H tr (BP_Prove G H pp C r v tr rn))
    (fun rn => draws G pp (length C) rn /\ regular G H tr (BP_Prove G H pp C r' v' tr rn))
    (BP_Prove G H pp C r v tr) (BP_Prove G H pp C r' v' tr).
Proof.
  intros pp C r v r' v' tr [Ng [Nh [k [EL [Lg Lh]]]]] [Lr [Lv CM]] [Lr' [Lv' CM']] Fv Fv'.
  destruct (point_log G (bp_g G pp) (bp_h G pp) Ng) as [w EW].
  destruct (point_log G (bp_h G pp) (msum G (firstn (2 ^ k) (bp_vg G pp)) (map (fun i => 1 * bt pp v i + -1 * bt pp v' i) (seq 0 (2 ^ k))) +p
      msum G (firstn (2 ^ k) (bp_vh G pp)) (map (fun i => 1 * bt pp v i + -1 * bt pp v' i) (seq 0 (2 ^ k)))) Nh) as [d GP].
  fold (bits_gap pp k v v' d) in GP. pose proof (bits_gap_sym _ _ _ _ _ GP) as GP'.
  assert (CW : forall j, (j < length C)%nat -> nth j r 0 + w * nth j v 0 == nth j r' 0 + w * nth j v' 0).
  { intros j Hj. apply (pmul_inj G (bp_g G pp) _ _ Ng). pose proof (CM j Hj) as E1. rewrite (CM' j Hj), EW in E1.
    rewrite !pmul_add, <- !pmul_mul. symmetry. exact E1. }
  assert (Rv : forall j, (j < length C)%nat -> in_range (bp_range G pp) (nth j v 0)) by (intros j Hj; rewrite Forall_forall in Fv; apply Fv, nth_In; lia).
  assert (Rv' : forall j, (j < length C)%nat -> in_range (bp_range G pp) (nth j v' 0)) by (intros j Hj; rewrite Forall_forall in Fv'; apply Fv', nth_In; lia).
  assert (EQ : forall a b rn, length a = length C -> length b = length C -> draws G pp (length C) rn ->
     BP_Prove G H pp C a b tr rn = run pp (length C) k tr a b rn).
  { intros a b rn La Lb [_ [_ [_ [_ [LL [_ [LR _]]]]]]]. rewrite EL in LL, LR. apply run_eq; auto; lia. }
  assert (HALF : forall a b a' b' e, length a = length C -> length b = length C -> length a' = length C -> length b' = length C ->
     bits_gap pp k b b' e ->
     (forall j, (j < length C)%nat -> nth j a 0 + w * nth j b 0 == nth j a' 0 + w * nth j b' 0) ->
     (forall j, (j < length C)%nat -> in_range (bp_range G pp) (nth j b 0)) -> (forall j, (j < length C)%nat -> in_range (bp_range G pp) (nth j b' 0)) ->
     forall rn, draws G pp (length C) rn -> regular G H tr (BP_Prove G H pp C a b tr rn) ->
       (draws G pp (length C) (new pp k tr b b' e w rn) /\ regular G H tr (BP_Prove G H pp C a' b' tr (new pp k tr b b' e w rn))) /\
       BP_Prove G H pp C a' b' tr (new pp k tr b b' e w rn) = BP_Prove G H pp C a b tr rn /\
       new pp k tr b' b (- e) w (new pp k tr b b' e w rn) = rn).
  { intros a b a' b' e La Lb La' Lb' GE CE Rb Rb' rn D RG.
    pose proof (new_draws pp (length C) k tr b b' e w rn EL) as D'.
    rewrite (EQ a b rn La Lb D) in *. rewrite (EQ a' b' _ La' Lb' D') in *.
    pose proof RG as [p [t [EP X]]]. rewrite (run_chal _ _ _ _ _ _ _ _ _ EP) in X.
    destruct (run_new pp (length C) k tr a b a' b' e w rn EL GE EW CE Rb Rb' X) as [Q QX].
    rewrite Q. split; [split; [exact D'|exact RG]|]. split; [reflexivity|].
    apply (run_back pp (length C)); [exact EL|exact D| | |exact QX].
    - apply (fA_new pp k b b' e (run_x pp k tr b rn) rn GE).
    - apply (fS_new pp k b b' e (run_x pp k tr b rn) rn GE). }
  exists (new pp k tr v v' d w), (new pp k tr v' v (- d) w). split; intros rn [D RG].
  - apply (HALF r v r' v' d); auto; lia.
  - pose proof (HALF r' v' r v (- d) Lr' Lv' Lr Lv GP' ltac:(intros j Hj; symmetry; apply CW; exact Hj) Rv' Rv rn D RG) as X. rewrite Z.opp_involutive in X. exact X.
Qed.
End Hiding.

(** The hypotheses hold for two different openings of the same two commitments (h = 9 g), and
    the draws of C41's example are among those counted. *)
Example C97_hypotheses : fits G101 bp101 (length C101) /\
  commits G101 (bp_g G101 bp101) (bp_h G101 bp101) C101 [21; 22] [3; 2] /\
  commits G101 (bp_g G101 bp101) (bp_h G101 bp101) C101 [39; 40] [1; 0] /\
  Forall (in_range (bp_range G101 bp101)) [3; 2] /\ Forall (in_range (bp_range G101 bp101)) [1; 0].
Proof.
  split; [split; [discriminate|split; [discriminate|exists 2%nat; cbn; lia]]|].
  split; [exact (proj1 (proj2 C41_hypotheses))|]. split; [|split; [exact (proj2 (proj2 C41_hypotheses))|]].
  - split; [reflexivity|]. split; [reflexivity|]. intros j Hj. destruct j as [|[|j]]; [vm_compute; reflexivity|vm_compute; reflexivity|].
    exfalso. change (length C101) with 2%nat in Hj. lia.
  - repeat constructor; cbn; lia.
Qed.
Example C97_draws : draws G101 bp101 (length C101) rn101 /\
  (** [proof101] is [BP_Prove G101 toyH bp101 C101 [21; 22] [3; 2] [7] rn101] *)
  regular G101 toyH [7%N] proof101.
Proof.
  split.
  - unfold draws, below, rn101. change (order G101) with 101. cbn. repeat split; try lia; repeat constructor; lia.
  - assert (T : match proof101 with Some (p, _) => (x_of G101 toyH [7%N] p mod 101 =? 0) = false | None => False end) by (vm_compute; reflexivity).
    destruct proof101 as [[p tr']|]; [|contradiction]. exists p, tr'. split; [reflexivity|]. apply unit101. exact T.
Qed.

Print Assumptions C97_range_proof_hides_the_values.

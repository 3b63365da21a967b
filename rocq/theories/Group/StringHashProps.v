(** Property C110: hashing a string to a curve point. *)
From Coq Require Import NArith ZArith List Lia Bool.
From Verif.Base Require Import Words.
From Verif.Crypto Require Import BigIntModel BigIntSpec BigIntProofs.
From Verif.Group Require Import StringHashModel.
Import ListNotations.
Local Open Scope Z_scope.

(** ** Specification *)
(** an affine point of the curve y^2 = x^3 + a x + b modulo p *)
Definition affine (p a b : Z) (P : Z * Z) : Prop :=
  let '(x, y) := P in 0 <= x < p /\ 0 <= y < p /\ (y * y) mod p = (x * x * x + a * x + b) mod p.
(** the candidates: the digest of the input modulo p, then the digest of the candidate before *)
Inductive candidate (p : Z) (H : list N -> list N) (input : list N) : nat -> Z -> Prop :=
| c_first : candidate p H input 0 (BN_bin2bn (H input) mod p)
| c_next : forall i x, candidate p H input i x -> candidate p H input (S i) (BN_bin2bn (H (BN_bn2bin x))).
(** Euler's criterion for the right side at x *)
Definition accepted (p a b x : Z) : Prop := ((x ^ 3 + a * x + b) mod p) ^ ((p - 1) / 2) mod p = 1.

Section Props.
Variables p a b : Z.
Variable H : list N -> list N.
Hypothesis p3 : p mod 4 = 3.
Hypothesis p_pos : 0 < p.

Lemma q_val : curve_params_q p = (p - 1) / 2.
Proof.
  unfold curve_params_q, BN_rshift. rewrite Z.sgn_pos, Z.abs_eq by lia. change (2 ^ Z.of_N 1) with 2.
  pose proof (Z.div_mod p 4). rewrite Z.mul_1_l.
  assert (E : p = 4 * (p / 4) + 3) by lia. rewrite E.
  replace (4 * (p / 4) + 3) with (1 + (2 * (p / 4) + 1) * 2) by lia.
  rewrite Z.div_add by lia. replace (1 + (2 * (p / 4) + 1) * 2 - 1) with (0 + (2 * (p / 4) + 1) * 2) by lia.
  rewrite Z.div_add by lia. reflexivity.
Qed.
Lemma mod_pos : forall v, BigInt_Mod v p = v mod p.
Proof. intros v. unfold BigInt_Mod, BN_nnmod, checked. destruct (Z.eqb_spec p 0); [lia|]. rewrite Z.abs_eq by lia. reflexivity. Qed.
Lemma isq_spec : forall x, IsSquare p (y_square p a b x) = true <-> accepted p a b x.
Proof.
  intros x. unfold IsSquare, accepted, y_square. rewrite mod_pos, q_val.
  rewrite ModExp_spec; [apply Z.eqb_eq|lia|]. apply Z.div_pos; lia.
Qed.

(** the power (p+1)/4 of an accepted value is a root of it *)
Lemma root_exists : forall v, 0 <= v < p -> v ^ ((p - 1) / 2) mod p = 1 ->
  ModSquareRoot p v = Some (v ^ ((p + 1) / 4) mod p) /\ ((v ^ ((p + 1) / 4) mod p) * (v ^ ((p + 1) / 4) mod p)) mod p = v.
Proof.
  intros v B E. unfold ModSquareRoot.
  assert (P0 : 0 <= (p + 1) / 4) by (apply Z.div_pos; lia).
  assert (P1 : 0 <= (p - 1) / 2) by (apply Z.div_pos; lia).
  assert (EX : (p + 1) / 4 + (p + 1) / 4 = (p - 1) / 2 + 1).
  { pose proof (Z.div_mod p 4). assert (Ep : p = 4 * (p / 4) + 3) by lia. set (k := p / 4) in *.
    replace (p + 1) with (0 + (k + 1) * 4) by lia. replace (p - 1) with (0 + (2 * k + 1) * 2) by lia.
    rewrite !Z.div_add by lia. change (0 / 4) with 0. change (0 / 2) with 0. lia. }
  assert (S : ((v ^ ((p + 1) / 4) mod p) * (v ^ ((p + 1) / 4) mod p)) mod p = v).
  { rewrite <- Z.mul_mod by lia. rewrite <- Z.pow_add_r by lia. rewrite EX, Z.pow_add_r, Z.pow_1_r by lia.
    rewrite Z.mul_mod, E by lia. rewrite Z.mul_1_l, Z.mod_mod, Z.mod_small by lia. reflexivity. }
  rewrite ModExp_spec by lia. split; [|exact S].
  unfold ModSquare, BN_nnmod, checked. destruct (Z.eqb_spec p 0); [lia|]. rewrite Z.abs_eq by lia.
  rewrite S, mod_pos, Z.mod_small by lia. rewrite Z.eqb_refl. reflexivity.
Qed.

Definition root (x : Z) : Z := ((x ^ 3 + a * x + b) mod p) ^ ((p + 1) / 4) mod p.

Lemma create_ok : forall x y, (y * y) mod p = (x ^ 3 + a * x + b) mod p -> CreateECPoint p a b x y = Some (x mod p, y mod p).
Proof.
  intros x y E. unfold CreateECPoint. cbv zeta. rewrite !mod_pos.
  assert (E1 : ((y mod p) * (y mod p)) mod p = (y * y) mod p) by (rewrite <- Z.mul_mod by lia; reflexivity).
  assert (E2 : (x mod p * (x mod p) * (x mod p) + a * (x mod p) + b) mod p = (x ^ 3 + a * x + b) mod p).
  { replace (x ^ 3) with (x * x * x) by ring.
    assert (C : forall u, cong p (u mod p) u) by (intros u; exists (- (u / p)); pose proof (Z.div_mod u p); lia).
    assert (X : cong p (x mod p * (x mod p) * (x mod p) + a * (x mod p) + b) (x * x * x + a * x + b)).
    { destruct (C x) as [k K]. rewrite K. exists (3 * x * x * k + 3 * x * k * k * p + k * k * k * p * p + a * k). ring. }
    destruct X as [k ->]. apply Z.mod_add. lia. }
  rewrite E1, E2, E, Z.eqb_refl. reflexivity.
Qed.

Lemma loop_step : forall f x,
  (accepted p a b x -> hash_loop p a b H (S f) x = Point (x mod p, root x)) /\
  (~ accepted p a b x -> hash_loop p a b H (S f) x = hash_loop p a b H f (BN_bin2bn (H (BN_bn2bin x)))).
Proof.
  intros f x. cbn [hash_loop]. split; intros A.
  - rewrite (proj2 (isq_spec x) A). unfold accepted in A. unfold y_square. rewrite mod_pos.
    destruct (root_exists ((x ^ 3 + a * x + b) mod p) (Z.mod_pos_bound _ _ p_pos) A) as [-> S]. fold (root x) in *.
    assert (B : 0 <= root x < p) by apply Z.mod_pos_bound, p_pos.
    rewrite (create_ok x (root x) S), (Z.mod_small (root x)) by exact B.
    destruct (Z.odd (root x)) eqn:O; [|reflexivity].
    assert (N : ModNegate (root x) p = p - root x).
    { unfold ModNegate. destruct (Z.eqb_spec (root x) 0) as [Z0|]; [rewrite Z0 in O; discriminate|].
      rewrite mod_pos, Z.mod_small by exact B. reflexivity. }
    rewrite create_ok; [reflexivity|]. rewrite N, <- S.
    replace ((p - root x) * (p - root x)) with (root x * root x + (p - 2 * root x) * p) by ring.
    apply Z.mod_add. lia.
  - destruct (IsSquare p (y_square p a b x)) eqn:E; [destruct (A (proj1 (isq_spec x) E))|]. reflexivity.
Qed.

Lemma accepted_dec : forall x, {accepted p a b x} + {~ accepted p a b x}.
Proof. intros x. apply Z.eq_dec. Qed.

Lemma loop_result : forall input f i x, candidate p H input i x ->
  (forall j y, (j < i)%nat -> candidate p H input j y -> ~ accepted p a b y) ->
  (hash_loop p a b H f x = Running /\ (forall j y, (j < i + f)%nat -> candidate p H input j y -> ~ accepted p a b y)) \/
  (exists j y, (i <= j < i + f)%nat /\ candidate p H input j y /\ accepted p a b y /\
     (forall j' y', (j' < j)%nat -> candidate p H input j' y' -> ~ accepted p a b y') /\
     hash_loop p a b H f x = Point (y mod p, root y)).
Proof.
  assert (U : forall input i x y, candidate p H input i x -> candidate p H input i y -> x = y).
  { intros input i x y C. revert y. induction C; intros y D; inversion D; subst; [reflexivity|].
    rewrite (IHC _ ltac:(eassumption)). reflexivity. }
  intros input f. induction f as [|f IH]; intros i x C N.
  - left. split; [reflexivity|]. intros j y L. apply N. lia.
  - destruct (loop_step f x) as [S1 S2]. destruct (accepted_dec x) as [A|A].
    + right. exists i, x. split; [lia|]. split; [exact C|]. split; [exact A|]. split; [exact N|]. apply S1, A.
    + rewrite (S2 A). destruct (IH (S i) _ (c_next p H input i x C)) as [[R M]|(j & y & L & C' & A' & M & R)].
      * intros j y L D. destruct (Nat.eq_dec j i) as [->|]; [rewrite (U _ _ _ _ D C); exact A|apply (N j y); [lia|exact D]].
      * left. split; [exact R|]. intros j y L. apply M. lia.
      * right. exists j, y. split; [lia|]. split; [exact C'|]. split; [exact A'|]. split; [exact M|exact R].
Qed.

(** The hash of a string never exits.  If it returns, the point is on the curve, is not a point of
    order two, and its x coordinate is the first candidate with a square right side (modulo p). *)
Theorem C110_on_curve : forall input fuel,
  StringToECPoint p a b H fuel input <> Exit /\
  (forall P, StringToECPoint p a b H fuel input = Point P ->
     affine p a b P /\ snd P <> 0 /\
     exists i x, candidate p H input i x /\ (i < fuel)%nat /\ accepted p a b x /\ fst P = x mod p /\
       (forall j y, (j < i)%nat -> candidate p H input j y -> ~ accepted p a b y)).
Proof.
  intros input fuel. unfold StringToECPoint, StringToBigInt. rewrite mod_pos.
  destruct (loop_result input fuel 0 _ (c_first p H input)) as [[-> _]|(j & y & L & C & A & N & ->)].
  - intros j y L. lia.
  - split; [discriminate|intros P E; discriminate E].
  - split; [discriminate|]. intros P E. assert (P = (y mod p, root y)) by congruence. subst P. cbn [fst snd].
    destruct (root_exists ((y ^ 3 + a * y + b) mod p) (Z.mod_pos_bound _ _ p_pos) A) as [_ S]. fold (root y) in S.
    pose proof (create_ok y (root y) S) as K. unfold CreateECPoint in K. cbv zeta in K. rewrite !mod_pos in K.
    assert (B : 0 <= root y < p) by apply Z.mod_pos_bound, p_pos.
    rewrite (Z.mod_small (root y)) in K by exact B.
    destruct (Z.eqb_spec ((root y * root y) mod p) ((y mod p * (y mod p) * (y mod p) + a * (y mod p) + b) mod p)) as [E1|]; [|discriminate].
    split; [|split].
    + cbn [affine]. split; [apply Z.mod_pos_bound, p_pos|]. split; [exact B|exact E1].
    + intros Z0. rewrite Z0 in S. change (0 * 0) with 0 in S. unfold accepted in A. rewrite <- S in A.
      rewrite Z.mod_0_l in A by lia. rewrite Z.pow_0_l in A; [rewrite Z.mod_0_l in A; lia|].
      pose proof (Z.div_mod p 4). apply Z.div_str_pos. lia.
    + exists j, y. split; [exact C|]. split; [lia|]. split; [exact A|]. split; [reflexivity|exact N].
Qed.

(** More rounds do not change a result: the point is a function of the string. *)
Theorem C110_function : forall input fuel fuel' P P',
  StringToECPoint p a b H fuel input = Point P -> StringToECPoint p a b H fuel' input = Point P' -> P = P'.
Proof.
  intros input fuel fuel' P P'. unfold StringToECPoint. generalize (BigInt_Mod (StringToBigInt H input) p).
  revert fuel'. induction fuel as [|f IH]; intros f' x E E'; [discriminate|]. destruct f' as [|f']; [discriminate|].
  destruct (loop_step f x) as [S1 S2]. destruct (loop_step f' x) as [S1' S2'].
  destruct (accepted_dec x) as [A|A].
  - rewrite (S1 A) in E. rewrite (S1' A) in E'. congruence.
  - rewrite (S2 A) in E. rewrite (S2' A) in E'. exact (IH _ _ E E').
Qed.

(** The choice of the even y coordinate (lines 117-119) has no effect: for a string whose first
    candidate is accepted and whose root is odd, the point that is returned has this odd
    coordinate, although the curve has a point with that x and an even y. *)
Theorem C110_even_refuted : forall input fuel x, x = BN_bin2bn (H input) mod p ->
  accepted p a b x -> Z.odd (root x) = true ->
  StringToECPoint p a b H (S fuel) input = Point (x, root x) /\
  affine p a b (x, p - root x) /\ Z.odd (p - root x) = false.
Proof.
  intros input fuel x E A O. subst x. set (x := BN_bin2bn (H input) mod p) in *.
  assert (Bx : 0 <= x < p) by apply Z.mod_pos_bound, p_pos.
  assert (B : 0 <= root x < p) by apply Z.mod_pos_bound, p_pos.
  destruct (root_exists ((x ^ 3 + a * x + b) mod p) (Z.mod_pos_bound _ _ p_pos) A) as [_ S]. fold (root x) in S.
  split; [|split].
  - unfold StringToECPoint, StringToBigInt. rewrite mod_pos. fold x. rewrite (proj1 (loop_step fuel x) A), Z.mod_small by exact Bx. reflexivity.
  - cbn [affine]. assert (root x <> 0) by (intros Z0; rewrite Z0 in O; discriminate).
    split; [exact Bx|]. split; [lia|].
    replace (x * x * x) with (x ^ 3) by ring. rewrite <- S.
    replace ((p - root x) * (p - root x)) with (root x * root x + (p - 2 * root x) * p) by ring.
    apply Z.mod_add. lia.
  - rewrite Z.odd_sub, O. assert (Op : Z.odd p = true).
    { pose proof (Z.div_mod p 4). replace p with (1 + 2 * (2 * (p / 4) + 1)) by lia. rewrite Z.odd_add_mul_2. reflexivity. }
    rewrite Op. reflexivity.
Qed.
End Props.
Print Assumptions C110_on_curve.
Print Assumptions C110_function.
Print Assumptions C110_even_refuted.

(** The hypotheses are met, on the curve y^2 = x^3 + x + 1 modulo 23: the digest 3 is accepted at
    once and its root is odd; the empty string has the digest 2, refused, and then 9. *)
Definition digest23 (s : list N) : list N := match s with [] => [2%N] | [2%N] => [9%N] | _ => [3%N] end.
Example C110_hypotheses :
  23 mod 4 = 3 /\ (exists P, StringToECPoint 23 1 1 digest23 5 [] = Point P) /\
  (exists x, x = BN_bin2bn (digest23 [7%N]) mod 23 /\ accepted 23 1 1 x /\ Z.odd (root 23 1 1 x) = true).
Proof.
  split; [reflexivity|]. split; [eexists; vm_compute; reflexivity|].
  eexists. split; [reflexivity|]. split; vm_compute; reflexivity.
Qed.

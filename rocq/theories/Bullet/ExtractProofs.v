From Coq Require Import NArith ZArith List Lia Bool Arith Setoid Morphisms Znumtheory.
From Coq Require Import ZifyBool ZifyNat ZifyN.
From Verif.Base Require Import Words ListX.
From Verif.Crypto Require Import BigIntModel BigIntSpec BigIntProofs.
From Verif.Group Require Import ECModel ECProofs.
From Verif.Sigma Require Import SigmaModel SigmaProofs.
From Verif.Bullet Require Import IPModel BPModel BPSpec LagSpec LagProofs IPProofs ExtractSpec.
Import ListNotations.
Local Open Scope Z_scope.

Lemma tab_length : forall n f, length (tab n f) = n.
Proof. intros. unfold tab. rewrite map_length, seq_length. reflexivity. Qed.
Lemma el_tab : forall n f p, (p < n)%nat -> el (tab n f) p = f p.
Proof.
  intros n f p Hp. unfold el, tab. rewrite nth_map' with (d := 0%nat) by (rewrite seq_length; exact Hp).
  rewrite seq_nth by exact Hp. reflexivity.
Qed.

Lemma dot_el : forall a b, length a = length b -> dot a b = sum (length a) (fun p => el a p * el b p).
Proof.
  unfold el. induction a as [|x a IH]; intros [|y b] E; cbn [length] in E; try discriminate; [reflexivity|].
  rewrite dot_cons, IH by lia. cbn [length]. change (S (length a)) with (1 + length a)%nat. rewrite sum_split.
  unfold sum at 2. cbn [seq map zsum nth]. rewrite Z.add_0_r. reflexivity.
Qed.

Lemma sum_three : forall f, sum 3 f = f 0%nat + f 1%nat + f 2%nat.
Proof. intros f. unfold sum. cbn [seq map zsum]. ring. Qed.
Lemma sum_four : forall f, sum 4 f = f 0%nat + f 1%nat + f 2%nat + f 3%nat.
Proof. intros f. unfold sum. cbn [seq map zsum]. ring. Qed.

Section Prime.
Variable q : Z.
Hypothesis Pq : prime q.
Local Notation "a == b" := (cong q a b) (at level 70).

Lemma zeros_spec : forall v, zeros q v = true <-> forall p, (p < length v)%nat -> el v p == 0.
Proof.
  intros v. unfold zeros, el. rewrite forallb_forall. split; intros F.
  - intros p Hp. apply (cong0_mod q Pq). apply Z.eqb_eq. apply F. apply nth_In. exact Hp.
  - intros c I. apply Z.eqb_eq. apply (cong0_mod q Pq). destruct (In_nth v c 0 I) as [p [Hp <-]]. apply F. exact Hp.
Qed.

Lemma zeros_tab : forall n f, zeros q (tab n f) = true <-> forall p, (p < n)%nat -> f p == 0.
Proof.
  intros n f. rewrite zeros_spec, tab_length. split; intros F p Hp; specialize (F p Hp); rewrite el_tab in * by exact Hp; exact F.
Qed.

Lemma zeros_app : forall a b, zeros q (a ++ b) = zeros q a && zeros q b.
Proof. intros. apply forallb_app. Qed.

Lemma zeros_one : forall c, zeros q [c] = true <-> c == 0.
Proof. intros c. unfold zeros. cbn [forallb]. rewrite andb_true_r, Z.eqb_eq, (cong0_mod q Pq). reflexivity. Qed.

(** *** interpolation through three points, tested at the fourth *)
Lemma coef_add : forall n y v w k, coef q n y (fun i => v i + w i) k = coef q n y v k + coef q n y w k.
Proof. intros. unfold coef. rewrite <- sum_add. apply sum_ext. intros. ring. Qed.
Lemma coef_scale : forall n y c v k, coef q n y (fun i => c * v i) k = c * coef q n y v k.
Proof. intros. unfold coef. rewrite <- sum_mul_l. apply sum_ext. intros. ring. Qed.

Lemma distinct_sub : forall n m y, (m <= n)%nat -> distinct q n y -> distinct q m y.
Proof. intros n m y L D i j Hi Hj. apply D; lia. Qed.

Lemma fit : forall y v, distinct q 4 y -> misfit q y v == 0 -> forall i, (i < 4)%nat ->
  v i == sum 3 (fun k => coef q 3 y v k * y i ^ Z.of_nat k).
Proof.
  intros y v D M i Hi. destruct (Nat.eq_dec i 3) as [->|N].
  - apply (sub_cong0 q). exact M.
  - symmetry. apply (coef_eval q Pq 3 y v i); [apply (distinct_sub 4); [lia|exact D]|lia].
Qed.

(** *** one round, in exponents *)
Section Node.
Variables (n : nat) (gm et : nat -> Z) (up lP lL lR : Z) (x : nat -> Z) (a b : nat -> list Z).
Let y := fun i => x i * x i.
Let A := fun p i => unfold_g n (x i) (x i) (a i) p.
Let B := fun p i => unfold_h n (x i) (x i) (b i) p.
Let C := fun i => y i * sum n (fun p => el (a i) p * el (b i) p).
Hypothesis D : distinct q 4 y.

(** the opening of the folded statement, multiplied by x^2 *)
Hypothesis Open : forall i, (i < 4)%nat ->
  sum (2 * n) (fun p => gm p * A p i) + sum (2 * n) (fun p => et p * B p i) + up * C i
  == lR + y i * lP + y i * y i * lL.

Definition cf (k : nat) : Z := match k with 0%nat => lR | 1%nat => lP | _ => lL end.

Lemma D3 : distinct q 3 y.
Proof. apply (distinct_sub 4); [lia|exact D]. Qed.

Lemma coef_open : forall k, (k < 3)%nat ->
  sum (2 * n) (fun p => gm p * coef q 3 y (A p) k) + sum (2 * n) (fun p => et p * coef q 3 y (B p) k) + up * coef q 3 y C k == cf k.
Proof.
  intros k Hk. rewrite <- (coef_lin q 3 (2 * n) y gm (fun i p => A p i)), <- (coef_lin q 3 (2 * n) y et (fun i p => B p i)), <- coef_scale, <- !coef_add.
  apply (coef_spec q Pq 3 y); [exact D3|exact Hk|]. intros i Hi. rewrite Open by lia. rewrite sum_three. cbn [cf].
  change (Z.of_nat 0) with 0. change (Z.of_nat 1) with 1. change (Z.of_nat 2) with 2. apply cong_eq. ring.
Qed.

Lemma node_relation :
  sum (2 * n) (fun p => gm p * misfit q y (A p)) + sum (2 * n) (fun p => et p * misfit q y (B p)) + up * misfit q y C == 0.
Proof.
  unfold misfit.
  assert (X : forall (l : nat -> Z) (V : nat -> nat -> Z),
    sum (2 * n) (fun p => l p * (V p 3%nat - sum 3 (fun k => coef q 3 y (V p) k * y 3%nat ^ Z.of_nat k)))
    = sum (2 * n) (fun p => l p * V p 3%nat) - sum 3 (fun k => y 3%nat ^ Z.of_nat k * sum (2 * n) (fun p => l p * coef q 3 y (V p) k))).
  { intros l V. rewrite (sum_ext 3 _ (fun k => sum (2 * n) (fun p => l p * (coef q 3 y (V p) k * y 3%nat ^ Z.of_nat k)))).
    - rewrite sum_swap, <- sum_sub. apply sum_ext. intros p Hp. rewrite sum_mul_l. ring.
    - intros k Hk. rewrite <- sum_mul_l. apply sum_ext. intros. ring. }
  rewrite !X.
  transitivity (sum (2 * n) (fun p => gm p * A p 3%nat) + sum (2 * n) (fun p => et p * B p 3%nat) + up * C 3%nat
    - sum 3 (fun k => y 3%nat ^ Z.of_nat k * (sum (2 * n) (fun p => gm p * coef q 3 y (A p) k) + sum (2 * n) (fun p => et p * coef q 3 y (B p) k) + up * coef q 3 y C k))).
  - rewrite !sum_three. apply cong_eq. ring.
  - rewrite (Open 3) by lia. rewrite (sum_cong q 3 _ (fun k => y 3%nat ^ Z.of_nat k * cf k)).
    + rewrite sum_three. cbn [cf]. change (Z.of_nat 0) with 0. change (Z.of_nat 1) with 1. change (Z.of_nat 2) with 2. apply cong_eq. ring.
    + intros k Hk. rewrite coef_open by exact Hk. reflexivity.
Qed.

(** two quadratics, one the other times the variable, at four points *)
Lemma shift_coefs : forall (c d : nat -> Z),
  (forall i, (i < 4)%nat -> y i * sum 3 (fun k => c k * y i ^ Z.of_nat k) == sum 3 (fun k => d k * y i ^ Z.of_nat k)) ->
  c 0%nat == d 1%nat /\ c 2%nat == 0.
Proof.
  intros c d E.
  set (e := fun k => match k with 0%nat => - d 0%nat | 1%nat => c 0%nat - d 1%nat | 2%nat => c 1%nat - d 2%nat | _ => c 2%nat end).
  assert (Z4 : forall k, (k < 4)%nat -> e k == 0).
  { apply (poly_zero q Pq 4 y e D). intros i Hi. specialize (E i Hi). apply (sub_cong0 q) in E. rewrite <- E.
    rewrite sum_four, !sum_three. cbn [e]. change (Z.of_nat 0) with 0. change (Z.of_nat 1) with 1. change (Z.of_nat 2) with 2. change (Z.of_nat 3) with 3.
    apply cong_eq. ring. }
  split.
  - apply (sub_cong0 q). apply (Z4 1%nat). lia.
  - apply (Z4 3%nat). lia.
Qed.

Hypothesis FA : forall p, (p < 2 * n)%nat -> misfit q y (A p) == 0.
Hypothesis FB : forall p, (p < 2 * n)%nat -> misfit q y (B p) == 0.

Lemma A_left : forall p i, (p < n)%nat -> A p i = x i * el (a i) p.
Proof. intros p i Hp. unfold A, unfold_g. rewrite (proj2 (Nat.ltb_lt p n) Hp). reflexivity. Qed.
Lemma A_right : forall p i, A (n + p)%nat i = x i * (x i * x i) * el (a i) p.
Proof.
  intros p i. unfold A, unfold_g. rewrite (proj2 (Nat.ltb_ge (n + p) n)) by lia. rewrite Nat.add_comm, Nat.add_sub. reflexivity.
Qed.
Lemma B_left : forall p i, (p < n)%nat -> B p i = x i * (x i * x i) * el (b i) p.
Proof. intros p i Hp. unfold B, unfold_h. rewrite (proj2 (Nat.ltb_lt p n) Hp). reflexivity. Qed.
Lemma B_right : forall p i, B (n + p)%nat i = x i * el (b i) p.
Proof.
  intros p i. unfold B, unfold_h. rewrite (proj2 (Nat.ltb_ge (n + p) n)) by lia. rewrite Nat.add_comm, Nat.add_sub. reflexivity.
Qed.

Lemma a_shape : forall p i, (p < n)%nat -> (i < 4)%nat ->
  x i * el (a i) p == coef q 3 y (A (n + p)%nat) 1 + y i * coef q 3 y (A p) 1.
Proof.
  intros p i Hp Hi.
  destruct (shift_coefs (coef q 3 y (A p)) (coef q 3 y (A (n + p)%nat))) as [E0 E2].
  { intros j Hj. rewrite <- (fit y (A p) D (FA p ltac:(lia)) j Hj), <- (fit y (A (n + p)%nat) D (FA (n + p)%nat ltac:(lia)) j Hj).
    rewrite (A_left p j Hp), A_right. unfold y. apply cong_eq. ring. }
  rewrite <- (A_left p i Hp), (fit y (A p) D (FA p ltac:(lia)) i Hi), sum_three, E0, E2.
  change (Z.of_nat 0) with 0. change (Z.of_nat 1) with 1. apply cong_eq. ring.
Qed.

Lemma b_shape : forall p i, (p < n)%nat -> (i < 4)%nat ->
  x i * el (b i) p == coef q 3 y (B p) 1 + y i * coef q 3 y (B (n + p)%nat) 1.
Proof.
  intros p i Hp Hi.
  destruct (shift_coefs (coef q 3 y (B (n + p)%nat)) (coef q 3 y (B p))) as [E0 E2].
  { intros j Hj. rewrite <- (fit y (B p) D (FB p ltac:(lia)) j Hj), <- (fit y (B (n + p)%nat) D (FB (n + p)%nat ltac:(lia)) j Hj).
    rewrite (B_left p j Hp), B_right. unfold y. apply cong_eq. ring. }
  rewrite <- (B_right p i), (fit y (B (n + p)%nat) D (FB (n + p)%nat ltac:(lia)) i Hi), sum_three, E0, E2.
  change (Z.of_nat 0) with 0. change (Z.of_nat 1) with 1. apply cong_eq. ring.
Qed.

Lemma node_witness :
  lP == sum (2 * n) (fun p => gm p * coef q 3 y (A p) 1) + sum (2 * n) (fun p => et p * coef q 3 y (B p) 1)
        + up * sum (2 * n) (fun p => coef q 3 y (A p) 1 * coef q 3 y (B p) 1).
Proof.
  rewrite <- (coef_open 1) by lia. apply cong_add_proper; [reflexivity|]. apply cong_mul_proper; [reflexivity|].
  replace (2 * n)%nat with (n + n)%nat by lia. rewrite sum_split.
  set (c := fun k => match k with
    | 0%nat => sum n (fun p => coef q 3 y (A (n + p)%nat) 1 * coef q 3 y (B p) 1)
    | 1%nat => sum n (fun p => coef q 3 y (A p) 1 * coef q 3 y (B p) 1) + sum n (fun p => coef q 3 y (A (n + p)%nat) 1 * coef q 3 y (B (n + p)%nat) 1)
    | _ => sum n (fun p => coef q 3 y (A p) 1 * coef q 3 y (B (n + p)%nat) 1) end).
  change (coef q 3 y C 1 == c 1%nat). apply (coef_spec q Pq 3 y C c); [exact D3|lia|]. intros i Hi.
  unfold C. rewrite <- sum_mul_l.
  transitivity (sum n (fun p => (x i * el (a i) p) * (x i * el (b i) p))); [apply cong_eq; apply sum_ext; intros; unfold y; ring|].
  transitivity (sum n (fun p => (coef q 3 y (A (n + p)%nat) 1 + y i * coef q 3 y (A p) 1) * (coef q 3 y (B p) 1 + y i * coef q 3 y (B (n + p)%nat) 1))).
  { apply sum_cong. intros p Hp. rewrite a_shape, b_shape by lia. reflexivity. }
  rewrite sum_three. cbn [c]. change (Z.of_nat 0) with 0. change (Z.of_nat 1) with 1. change (Z.of_nat 2) with 2.
  rewrite Z.pow_0_r, Z.pow_1_r, !Z.mul_1_r, Z.mul_add_distr_r, <- !sum_mul_r, <- !sum_add. apply cong_eq. apply sum_ext. intros p Hp. ring.
Qed.
End Node.
End Prime.

Section Group.
Variable G : ECGroup.
Local Notation q := (order G).
Local Notation gen := (pgen G).
Local Infix "+p" := (padd G) (at level 50, left associativity).
Local Notation "P *p k" := (pmul G P k%Z) (at level 40, left associativity).
Local Notation "a == b" := (cong q a b) (at level 70).

(** the generators and the statement after one round with challenge x *)
Definition fold_g (x : Z) (g : list (pt G)) : list (pt G) :=
  map2 (padd G) (map (fun P => P *p ModInverse x q) (left_half g)) (map (fun P => P *p x) (right_half g)).
Definition fold_h (x : Z) (h : list (pt G)) : list (pt G) :=
  map2 (padd G) (map (fun P => P *p x) (left_half h)) (map (fun P => P *p ModInverse x q) (right_half h)).
Definition fold_P (x : Z) (L P R : pt G) : pt G := L *p (x * x) +p P +p R *p (ModInverse x q * ModInverse x q).

Lemma ip_eq_fold : forall k g h u P L R Ls Rs x xs a b,
  length g = (2 * 2 ^ k)%nat -> length h = (2 * 2 ^ k)%nat -> length xs = k ->
  (ip_eq G g h u P (L :: Ls) (R :: Rs) (x :: xs) a b <->
   ip_eq G (fold_g x g) (fold_h x h) u (fold_P x L P R) Ls Rs xs a b).
Proof.
  intros k g h u P L R Ls Rs x xs a b Lg Lh LX.
  destruct (halves _ g _ Lg) as [Eg [LgL LgR]]. destruct (halves _ h _ Lh) as [Eh [LhL LhR]].
  unfold fold_g, fold_h, fold_P.
  set (gL := left_half g) in *. set (gR := right_half g) in *. set (hL := left_half h) in *. set (hR := right_half h) in *.
  clearbody gL gR hL hR. subst g h.
  unfold ip_eq. cbn [invs map svec msum]. fold (invs G xs). set (xi := ModInverse x q).
  assert (Ls' : length (svec xs (invs G xs)) = (2 ^ k)%nat) by (rewrite svec_length; [congruence|unfold invs; rewrite map_length; reflexivity]).
  assert (Ls'' : length (svec (invs G xs) xs) = (2 ^ k)%nat) by (rewrite svec_length; unfold invs; rewrite map_length; [congruence|reflexivity]).
  rewrite !msum_app by (rewrite map_length; lia). rewrite !msum_maps. rewrite !msum_plin by lia.
  generalize (msum G gL (svec xs (invs G xs))) (msum G gR (svec xs (invs G xs))) (msum G hL (svec (invs G xs) xs)) (msum G hR (svec (invs G xs) xs)).
  generalize (msum G Ls (map (fun c => c * c) xs)) (msum G Rs (map (fun c => c * c) (invs G xs))).
  clearbody xi. clear. intros ML MR m1 m2 m3 m4.
  assert (T : forall X Y X' Y' : pt G, X = X' -> Y = Y' -> (X = Y <-> X' = Y')) by (intros; subst; reflexivity).
  apply T; logs G; gring.
Qed.

Lemma fold_length : forall x g k, length g = (2 * 2 ^ k)%nat ->
  length (fold_g x g) = (2 ^ k)%nat /\ length (fold_h x g) = (2 ^ k)%nat.
Proof.
  intros x g k Lg. destruct (halves _ g _ Lg) as [_ [LL LR]]. unfold fold_g, fold_h.
  rewrite !map2_length, !map_length, LL, LR. lia.
Qed.

(** products with the folded generators, in exponents *)
Definition gl (lg : list Z) : list (pt G) := map (pmul G gen) lg.

Lemma msum_el : forall lg v, length lg = length v -> msum G (gl lg) v = gen *p sum (length lg) (fun p => el lg p * el v p).
Proof. intros lg v E. unfold gl. rewrite msum_log, dot_el by exact E. reflexivity. Qed.

Lemma half_logs : forall lg k, length lg = (2 * 2 ^ k)%nat ->
  left_half (gl lg) = gl (left_half lg) /\ right_half (gl lg) = gl (right_half lg) /\
  (forall p, (p < 2 ^ k)%nat -> el (left_half lg) p = el lg p) /\
  (forall p, (p < 2 ^ k)%nat -> el (right_half lg) p = el lg (2 ^ k + p)).
Proof.
  intros lg k L. unfold left_half, right_half, gl. rewrite map_length, (half_length _ lg _ L), !firstn_map, skipn_map, firstn_map.
  split; [reflexivity|]. split; [reflexivity|]. unfold el. split; intros p Hp.
  - rewrite nth_firstn_lt by exact Hp. reflexivity.
  - rewrite nth_firstn_lt by exact Hp. rewrite nth_skipn. reflexivity.
Qed.

Lemma msum_fold : forall lg k c d v, length lg = (2 * 2 ^ k)%nat -> length v = (2 ^ k)%nat ->
  msum G (map2 (padd G) (map (fun P => P *p c) (left_half (gl lg))) (map (fun P => P *p d) (right_half (gl lg)))) v
  = gen *p (c * sum (2 ^ k) (fun p => el lg p * el v p) + d * sum (2 ^ k) (fun p => el lg (2 ^ k + p) * el v p)).
Proof.
  intros lg k c d v L Lv. destruct (half_logs lg k L) as [EL [ER [HL HR]]].
  destruct (halves _ lg _ L) as [_ [LL LR]]. rewrite EL, ER.
  rewrite msum_plin by (unfold gl; rewrite !map_length; lia). rewrite !msum_el by lia. rewrite LL, LR, !pmul_mul, g_add. f_equal.
  rewrite (sum_ext _ (fun p => el (left_half lg) p * el v p) (fun p => el lg p * el v p)) by (intros; rewrite HL by assumption; reflexivity).
  rewrite (sum_ext _ (fun p => el (right_half lg) p * el v p) (fun p => el lg (2 ^ k + p) * el v p)) by (intros; rewrite HR by assumption; reflexivity).
  ring.
Qed.

Lemma sum_unfold_g : forall n (l : nat -> Z) s x a,
  sum (2 * n) (fun p => l p * unfold_g n s x a p) =
  s * sum n (fun p => l p * el a p) + s * (x * x) * sum n (fun p => l (n + p)%nat * el a p).
Proof.
  intros n l s x a. replace (2 * n)%nat with (n + n)%nat by lia. rewrite sum_split, <- !sum_mul_l. f_equal; apply sum_ext; intros p Hp; unfold unfold_g.
  - rewrite (proj2 (Nat.ltb_lt p n) Hp). ring.
  - rewrite (proj2 (Nat.ltb_ge (n + p) n)) by lia. rewrite (Nat.add_comm n p), Nat.add_sub. ring.
Qed.
Lemma sum_unfold_h : forall n (l : nat -> Z) s x a,
  sum (2 * n) (fun p => l p * unfold_h n s x a p) =
  s * (x * x) * sum n (fun p => l p * el a p) + s * sum n (fun p => l (n + p)%nat * el a p).
Proof.
  intros n l s x a. replace (2 * n)%nat with (n + n)%nat by lia. rewrite sum_split, <- !sum_mul_l. f_equal; apply sum_ext; intros p Hp; unfold unfold_h.
  - rewrite (proj2 (Nat.ltb_lt p n) Hp). ring.
  - rewrite (proj2 (Nat.ltb_ge (n + p) n)) by lia. rewrite (Nat.add_comm n p), Nat.add_sub. ring.
Qed.

(** all branches of the tree satisfy the verification equation *)
Definition eq_accepted (g h : list (pt G)) (u P : pt G) (k : nat) (t : ip_tree G k) : Prop :=
  forall w, is_branch k w ->
    let p := fst (branch G k t w) in
    ip_eq G g h u P (ipL G p) (ipR G p) (snd (branch G k t w)) (ipa G p) (ipb G p).

Lemma branch_length : forall k t w, length (snd (branch G k t w)) = k /\ length (ipL G (fst (branch G k t w))) = k /\ length (ipR G (fst (branch G k t w))) = k.
Proof.
  induction k as [|k IH]; intros t w; cbn [branch snd fst length ipL ipR]; [auto|].
  destruct (IH (nt G t (nth 0 w 0%nat)) (skipn 1 w)) as [E1 [E2 E3]]. rewrite E1, E2, E3. auto.
Qed.

Lemma accepted_child : forall k g h u P (t : ip_tree G (S k)) i,
  length g = (2 * 2 ^ k)%nat -> length h = (2 * 2 ^ k)%nat -> (i < 4)%nat ->
  eq_accepted g h u P (S k) t ->
  eq_accepted (fold_g (nx G t i) g) (fold_h (nx G t i) h) u (fold_P (nx G t i) (nL G t) P (nR G t)) k (nt G t i).
Proof.
  intros k g h u P t i Lg Lh Hi Acc w [Lw Fw]. cbv zeta.
  assert (B : is_branch (S k) (i :: w)) by (split; [cbn [length]; lia|constructor; assumption]).
  specialize (Acc (i :: w) B). cbv zeta in Acc. cbn [branch fst snd nth skipn ipL ipR ipa ipb] in Acc.
  apply (ip_eq_fold k) in Acc; [exact Acc|exact Lg|exact Lh|]. apply branch_length.
Qed.

(** what is claimed of a result *)
Definition found_ok := ip_found_ok G.

Lemma relation_split : forall g h u a b c, length a = length g -> length b = length h ->
  relation G (g ++ h ++ [u]) (a ++ b ++ [c]) <->
  (msum G g a +p msum G h b +p u *p c = inf G /\ zeros q (a ++ b ++ [c]) = false).
Proof.
  intros g h u a b c La Lb. unfold relation. rewrite !msum_app, msum_one by lia. rewrite !app_length. cbn [length].
  rewrite padd_assoc. split; [intros [_ [E Z]]; auto|]. intros [E Z]. split; [lia|]. auto.
Qed.

Lemma tree_sound : forall k g h u P t, length g = (2 ^ k)%nat -> length h = (2 ^ k)%nat ->
  good_tree G k t -> eq_accepted g h u P k t ->
  ip_found_ok G g h u P (ip_extract G k t) /\
  length (fst_of (ip_extract G k t)) = (2 ^ k)%nat /\ length (snd_of (ip_extract G k t)) = (2 ^ k)%nat.
Proof.
  induction k as [|k IH]; intros g h u P t Lg Lh Gt Acc.
  - split; [|split; reflexivity]. cbn [ip_extract ip_found_ok]. rewrite Lg, Lh. split; [reflexivity|]. split; [reflexivity|].
    assert (B : is_branch 0 []) by (split; [reflexivity|constructor]). specialize (Acc [] B). cbv zeta in Acc.
    cbn [branch fst snd ipL ipR ipa ipb] in Acc. unfold ip_eq in Acc. cbn [svec invs map msum] in Acc.
    destruct g as [|g0 [|? ?]]; cbn [length Nat.pow] in Lg; try lia. destruct h as [|h0 [|? ?]]; cbn [length Nat.pow] in Lh; try lia.
    cbn [msum] in Acc. rewrite !padd_inf, padd_inf_l, !pmul_1 in Acc. unfold ip_statement. cbn [msum]. unfold dot. cbn [combine map zsum fst snd].
    rewrite !padd_inf, Z.add_0_r. symmetry. exact Acc.
  - rewrite pow2_len in Lg, Lh |- *. cbn [good_tree] in Gt. destruct Gt as [Un [Di Gc]].
    assert (Ch : forall i, (i < 4)%nat ->
      ip_found_ok G (fold_g (nx G t i) g) (fold_h (nx G t i) h) u (fold_P (nx G t i) (nL G t) P (nR G t)) (ip_extract G k (nt G t i)) /\
      length (fst_of (ip_extract G k (nt G t i))) = (2 ^ k)%nat /\ length (snd_of (ip_extract G k (nt G t i))) = (2 ^ k)%nat).
    { intros i Hi. apply IH.
      - apply fold_length. exact Lg.
      - apply fold_length. exact Lh.
      - apply Gc. exact Hi.
      - apply accepted_child; assumption. }
    cbn [ip_extract]. set (n := (2 ^ k)%nat) in *. set (x := nx G t) in *.
    set (ch := fun i => ip_extract G k (nt G t i)) in *.
    change (forall i, (i < 4)%nat -> ip_found_ok G (fold_g (x i) g) (fold_h (x i) h) u (fold_P (x i) (nL G t) P (nR G t)) (ch i) /\
      length (fst_of (ch i)) = n /\ length (snd_of (ch i)) = n) in Ch.
    destruct (vec_log G g) as [lg Eg]. destruct (vec_log G h) as [lh Eh]. change (g = gl lg) in Eg. change (h = gl lh) in Eh.
    assert (Llg : length lg = (2 * n)%nat) by (rewrite <- Lg, Eg; unfold gl; rewrite map_length; reflexivity).
    assert (Llh : length lh = (2 * n)%nat) by (rewrite <- Lh, Eh; unfold gl; rewrite map_length; reflexivity).
    destruct (pgen_all G u) as [lu Eu]. destruct (pgen_all G P) as [lP EP].
    destruct (pgen_all G (nL G t)) as [lL EL]. destruct (pgen_all G (nR G t)) as [lR ER].
    pose proof (order_prime G) as Pq.
    unfold extract_node. destruct (find (fun i => is_relation (ch i)) (seq 0 4)) as [i|] eqn:F.
    + apply find_some in F. destruct F as [I Ri]. apply in_seq in I. assert (Hi : (i < 4)%nat) by lia.
      destruct (Ch i Hi) as [Ok [La Lb]]. cbv zeta. cbn [fst_of snd_of]. rewrite !tab_length. split; [|split; reflexivity].
      destruct (ch i) as [|a b c] eqn:Ei; [discriminate|]. cbn [fst_of snd_of exp_of ip_found_ok] in *.
      rewrite relation_split in Ok |- * by (rewrite ?tab_length, ?(proj1 (fold_length _ _ k Lg)), ?(proj2 (fold_length _ _ k Lh)); assumption || lia).
      destruct Ok as [S0 NZ]. pose proof (Un i Hi) as Ux. fold x in Ux.
      assert (IX : x i * ModInverse (x i) q == 1) by (apply (inv_cong G); exact Ux).
      split.
      * rewrite Eg, Eh, Eu in S0 |- *. unfold fold_g, fold_h in S0.
        rewrite (msum_fold lg k), (msum_fold lh k) in S0 by assumption.
        rewrite !msum_el by (rewrite tab_length; assumption). rewrite Llg, Llh.
        rewrite (sum_ext (2 * n) (fun p => el lg p * el (tab (2 * n) _) p) (fun p => el lg p * unfold_g n 1 (x i) a p)) by (intros; rewrite el_tab by assumption; reflexivity).
        rewrite (sum_ext (2 * n) (fun p => el lh p * el (tab (2 * n) _) p) (fun p => el lh p * unfold_h n 1 (x i) b p)) by (intros; rewrite el_tab by assumption; reflexivity).
        rewrite sum_unfold_g, sum_unfold_h. fold n in S0. clear - S0 IX.
        revert S0. generalize (sum n (fun p => el lg p * el a p)) (sum n (fun p => el lg (n + p) * el a p)) (sum n (fun p => el lh p * el b p)) (sum n (fun p => el lh (n + p) * el b p)).
        intros s1 s2 s3 s4 S0. rewrite (g_inf G) in S0 |- *. rewrite !pmul_mul, !g_add in S0 |- *. apply gmul_inj in S0. apply gmul_cong.
        set (xi := ModInverse (x i) q) in *. clearbody xi.
        transitivity (x i * (xi * s1 + x i * s2 + (x i * s3 + xi * s4) + lu * c) + (1 - x i * xi) * (s1 + s4)); [apply cong_eq; ring|].
        rewrite S0, IX. apply cong_eq. ring.
      * rewrite <- not_true_iff_false in NZ |- *. intros Z0. apply NZ. rewrite !zeros_app, !andb_true_iff in Z0 |- *.
        rewrite !(zeros_tab q Pq), !(zeros_one q Pq) in Z0. rewrite (zeros_one q Pq), !(zeros_spec q Pq), La, Lb.
        destruct Z0 as [Za [Zb Zc]]. split; [|split].
        -- intros p Hp. specialize (Za p ltac:(lia)). unfold unfold_g in Za. rewrite (proj2 (Nat.ltb_lt p n) Hp), Z.mul_1_l in Za. exact Za.
        -- intros p Hp. specialize (Zb (n + p)%nat ltac:(lia)). unfold unfold_h in Zb.
           rewrite (proj2 (Nat.ltb_ge (n + p) n)), (Nat.add_comm n p), Nat.add_sub, Z.mul_1_l in Zb by lia. exact Zb.
        -- apply (cancel_q q Pq (x i)); [exact Ux|exact Zc].
    + assert (W : forall i, (i < 4)%nat -> exists a b, ch i = IpWitness a b).
      { intros i Hi. destruct (ch i) as [a b|a b c] eqn:Ei; [eauto|]. pose proof (find_none _ _ F i ltac:(apply in_seq; lia)) as N. cbv beta in N. rewrite Ei in N. discriminate. }
      set (a := fun i => fst_of (ch i)). set (b := fun i => snd_of (ch i)).
      set (y := fun i => x i * x i) in *.
      assert (Open : forall i, (i < 4)%nat ->
        sum (2 * n) (fun p => el lg p * unfold_g n (x i) (x i) (a i) p) + sum (2 * n) (fun p => el lh p * unfold_h n (x i) (x i) (b i) p)
        + lu * (y i * sum n (fun p => el (a i) p * el (b i) p)) == lR + y i * lP + y i * y i * lL).
      { intros i Hi. destruct (W i Hi) as [a' [b' Ei]]. destruct (Ch i Hi) as [Ok [La Lb]]. unfold a, b. rewrite Ei in Ok, La, Lb |- *.
        cbn [fst_of snd_of ip_found_ok] in *. destruct Ok as [_ [_ S0]]. unfold ip_statement, fold_P, fold_g, fold_h in S0.
        rewrite Eg, Eh, Eu, EP, EL, ER in S0. rewrite (msum_fold lg k), (msum_fold lh k) in S0 by assumption. fold n in S0.
        rewrite dot_el, La in S0 by lia. rewrite !pmul_mul, !g_add in S0. apply gmul_inj in S0.
        pose proof (Un i Hi) as Ux. fold x in Ux. assert (IX : x i * ModInverse (x i) q == 1) by (apply (inv_cong G); exact Ux).
        rewrite sum_unfold_g, sum_unfold_h. unfold y. clear - S0 IX. revert S0.
        generalize (sum n (fun p => el lg p * el a' p)) (sum n (fun p => el lg (n + p) * el a' p)) (sum n (fun p => el lh p * el b' p)) (sum n (fun p => el lh (n + p) * el b' p)).
        generalize (sum n (fun p => el a' p * el b' p)). intros s0 s1 s2 s3 s4 S0.
        set (xi := ModInverse (x i) q) in *. clearbody xi.
        transitivity (x i * x i * (xi * s1 + x i * s2 + (x i * s3 + xi * s4) + lu * s0) + (1 - x i * xi) * (x i * (s1 + s4))); [apply cong_eq; ring|].
        rewrite <- S0, IX.
        transitivity (x i * x i * (lL * (x i * x i) + lP) + (x i * xi) * (x i * xi) * lR); [apply cong_eq; ring|]. rewrite IX. apply cong_eq. ring. }
      assert (Ux : forall i, (i < 4)%nat -> ~ x i == 0) by (intros i Hi; exact (Un i Hi)).
      change (distinct q 4 y) in Di. cbv zeta.
      assert (ED : forall i, (i < 4)%nat -> dot (fst_of (ch i)) (snd_of (ch i)) = sum n (fun p => el (a i) p * el (b i) p)).
      { intros i Hi. destruct (Ch i Hi) as [_ [La Lb]]. rewrite dot_el by lia. rewrite La. reflexivity. }
      set (A := fun p i => unfold_g n (x i) (x i) (fst_of (ch i)) p) in *. set (B := fun p i => unfold_h n (x i) (x i) (snd_of (ch i)) p) in *.
      set (C := fun i => y i * dot (fst_of (ch i)) (snd_of (ch i))) in *.
      set (C' := fun i => y i * sum n (fun p => el (a i) p * el (b i) p)) in *.
      assert (EC : misfit q y C == misfit q y C').
      { unfold misfit. rewrite (sum_cong q 3 _ (fun k => coef q 3 y C' k * y 3%nat ^ Z.of_nat k)).
        - unfold C, C'. rewrite ED by lia. reflexivity.
        - intros j Hj. rewrite (coef_cong q 3 y C C' j); [reflexivity|]. intros i Hi. unfold C, C'. rewrite ED by lia. reflexivity. }
      match goal with |- context [if zeros q ?v then _ else _] =>
        change v with (tab (2 * n) (fun p => misfit q y (A p)) ++ tab (2 * n) (fun p => misfit q y (B p)) ++ [misfit q y C]) end.
      destruct (zeros q (tab (2 * n) (fun p => misfit q y (A p)) ++ tab (2 * n) (fun p => misfit q y (B p)) ++ [misfit q y C])) eqn:Z0;
        cbn [fst_of snd_of ip_found_ok]; rewrite !tab_length; (split; [|split; reflexivity]).
      * rewrite !zeros_app, !andb_true_iff, !(zeros_tab q Pq) in Z0. destruct Z0 as [Za [Zb _]].
        split; [lia|]. split; [lia|]. unfold ip_statement.
        pose proof (node_witness q Pq n (el lg) (el lh) lu lP lL lR x a b Di Open Za Zb) as NW.
        rewrite Eg, Eh, Eu, EP. rewrite !msum_el by (rewrite tab_length; assumption). rewrite Llg, Llh.
        rewrite dot_el by (rewrite !tab_length; reflexivity). rewrite tab_length.
        rewrite !pmul_mul, !g_add. apply gmul_cong.
        rewrite (sum_ext (2 * n) (fun p => el lg p * el (tab (2 * n) _) p) (fun p => el lg p * coef q 3 y (A p) 1)) by (intros; rewrite el_tab by assumption; reflexivity).
        rewrite (sum_ext (2 * n) (fun p => el lh p * el (tab (2 * n) _) p) (fun p => el lh p * coef q 3 y (B p) 1)) by (intros; rewrite el_tab by assumption; reflexivity).
        rewrite (sum_ext (2 * n) (fun p => el (tab (2 * n) _) p * el (tab (2 * n) _) p) (fun p => coef q 3 y (A p) 1 * coef q 3 y (B p) 1)) by (intros; rewrite !el_tab by assumption; reflexivity).
        exact NW.
      * rewrite relation_split by (rewrite tab_length; lia). split; [|exact Z0].
        pose proof (node_relation q Pq n (el lg) (el lh) lu lP lL lR x a b Di Open) as NR.
        rewrite Eg, Eh, Eu. rewrite !msum_el by (rewrite tab_length; assumption). rewrite Llg, Llh.
        rewrite (g_inf G), !pmul_mul, !g_add. apply gmul_cong.
        rewrite (sum_ext (2 * n) (fun p => el lg p * el (tab (2 * n) _) p) (fun p => el lg p * misfit q y (A p))) by (intros; rewrite el_tab by assumption; reflexivity).
        rewrite (sum_ext (2 * n) (fun p => el lh p * el (tab (2 * n) _) p) (fun p => el lh p * misfit q y (B p))) by (intros; rewrite el_tab by assumption; reflexivity).
        match goal with |- context [lu * ?m] => change m with (misfit q y C) end. rewrite EC. exact NR.
Qed.
End Group.

(** Properties C100 and C101: special soundness of the one-out-of-many proof and of the
    accountable ring signature. *)
From Coq Require Import NArith ZArith List Lia Bool Arith Setoid Morphisms Znumtheory.
From Coq Require Import ZifyBool ZifyNat ZifyN.
From Verif.Base Require Import Words ListX.
From Verif.Crypto Require Import BigIntModel BigIntSpec BigIntProofs.
From Verif.Group Require Import ECModel ECProofs ZqGroup.
From Verif.PKE Require Import ElGamalModel ElGamalProofs.
From Verif.Sigma Require Import SigmaModel SigmaSpec SigmaProofs SigmaProps.
From Verif.Bullet Require Import LagSpec LagProofs ExtractSpec ExtractProofs.
From Verif.Ring Require Import RingModel RingSpec RingProofs RingProps RingExtractSpec.
Import ListNotations.
Local Open Scope Z_scope.

(** ** numbers *)
(** a product of linear factors as a polynomial *)
Fixpoint lcoef (l : list (Z * Z)) (t : nat) : Z :=
  match l with
  | [] => match t with O => 1 | _ => 0 end
  | (a, b) :: r => a * lcoef r t + match t with O => 0 | S t' => b * lcoef r t' end
  end.
Lemma lcoef_high : forall l t, (length l < t)%nat -> lcoef l t = 0.
Proof.
  induction l as [|[a b] l IH]; intros [|t] Ht; cbn [length] in Ht; cbn [lcoef]; try lia. rewrite !IH by lia. ring.
Qed.
Lemma lcoef_top : forall l, lcoef l (length l) = zprod (map snd l).
Proof.
  induction l as [|[a b] l IH]; [reflexivity|]. cbn [length lcoef map zprod snd]. rewrite (lcoef_high l (S (length l))) by lia. rewrite IH. ring.
Qed.
Lemma lcoef_eval : forall l x, zprod (map (fun ab => snd ab * x + fst ab) l) = sum (S (length l)) (fun t => lcoef l t * x ^ Z.of_nat t).
Proof.
  induction l as [|[a b] l IH]; intros x; [reflexivity|]. cbn [length map zprod snd fst lcoef]. rewrite IH.
  rewrite (LagProofs.sum_ext (S (S (length l))) _ (fun t => a * (lcoef l t * x ^ Z.of_nat t) + (match t with O => 0 | S t' => b * lcoef l t' end) * x ^ Z.of_nat t)) by (intros; ring).
  rewrite sum_add, sum_mul_l.
  assert (E1 : sum (S (S (length l))) (fun t => lcoef l t * x ^ Z.of_nat t) = sum (S (length l)) (fun t => lcoef l t * x ^ Z.of_nat t))
    by (rewrite (LagProofs.sum_S (S (length l))), (lcoef_high l (S (length l))) by lia; ring).
  rewrite E1. clear E1.
  change (S (S (length l))) with (1 + S (length l))%nat. rewrite (sum_split 1 (S (length l))). unfold sum at 3. cbn [seq map zsum Nat.add].
  rewrite (LagProofs.sum_ext (S (length l)) (fun i => b * lcoef l i * x ^ Z.of_nat (S i)) (fun i => (b * x) * (lcoef l i * x ^ Z.of_nat i))).
  - rewrite sum_mul_l. ring.
  - intros i _. rewrite Nat2Z.inj_succ, Z.pow_succ_r by lia. ring.
Qed.

Lemma compose_lt : forall n ds, Forall (fun d => (d < n)%nat) ds -> (compose n ds < n ^ length ds)%nat.
Proof.
  intros n ds F. induction F as [|d ds Hd F IH]; cbn [compose length Nat.pow]; [lia|]. nia.
Qed.
Lemma compose_digits : forall n ds, Forall (fun d => (d < n)%nat) ds -> Decompose (compose n ds) n (length ds) = ds.
Proof.
  intros n ds F. induction F as [|d ds Hd F IH]; cbn [compose length Decompose]; [reflexivity|].
  rewrite (Nat.mul_comm n), Nat.mod_add, Nat.div_add, Nat.mod_small, (Nat.div_small d n) by lia. rewrite Nat.add_0_l, IH. reflexivity.
Qed.

(** 0/1 values that sum to 1 are an indicator *)
Lemma one_hot : forall n (f : nat -> Z), (forall i, (i < n)%nat -> f i = 0 \/ f i = 1) -> sum n f = 1 ->
  exists d, find (fun i => f i =? 1) (seq 0 n) = Some d /\ (d < n)%nat /\ forall i, (i < n)%nat -> f i = if (d =? i)%nat then 1 else 0.
Proof.
  intros n f B S1.
  assert (POS : forall k g, (forall i, (i < k)%nat -> g i = 0 \/ g i = 1) -> 0 <= sum k g /\ (forall i, (i < k)%nat -> g i = 1 -> 1 <= sum k g)).
  { clear. induction k as [|k IH]; intros g B; [rewrite sum_0; split; [lia|intros; lia]|]. rewrite LagProofs.sum_S.
    destruct (IH g ltac:(intros; apply B; lia)) as [P Q]. pose proof (B k ltac:(lia)) as Bk. split; [lia|]. intros i Hi E.
    destruct (Nat.eq_dec i k) as [->|N]; [lia|]. specialize (Q i ltac:(lia) E). lia. }
  destruct (find (fun i => f i =? 1) (seq 0 n)) as [d|] eqn:F.
  - apply find_some in F. destruct F as [I E]. apply in_seq in I. apply Z.eqb_eq in E. exists d. split; [reflexivity|]. split; [lia|].
    intros i Hi. destruct (Nat.eqb_spec d i) as [<-|N]; [exact E|].
    destruct (B i Hi) as [?|E2]; [assumption|]. exfalso.
    pose proof (POS n (fun t => if (t =? i)%nat then 0 else f t)) as X. destruct X as [_ Q].
    { intros t Ht. destruct (t =? i)%nat; [auto|apply B; exact Ht]. }
    specialize (Q d ltac:(lia)). cbv beta in Q. destruct (Nat.eqb_spec d i); [contradiction|]. specialize (Q E).
    assert (D : sum n f = sum n (fun t => if (t =? i)%nat then 0 else f t) + sum n (fun t => delta t i * f t)).
    { rewrite <- sum_add. apply LagProofs.sum_ext. intros t Ht. unfold delta. destruct (t =? i)%nat; ring. }
    rewrite sum_delta in D by exact Hi. lia.
  - exfalso. assert (Z0 : sum n f = sum n (fun _ => 0)).
    { apply LagProofs.sum_ext. intros i Hi. destruct (B i Hi) as [?|E]; [assumption|].
      pose proof (find_none _ _ F i ltac:(apply in_seq; lia)) as X. cbv beta in X. rewrite E in X. discriminate. }
    rewrite sum_zero in Z0. lia.
Qed.

Section Extract.
Variable G : ECGroup.
Local Notation q := (order G).
Local Infix "+p" := (padd G) (at level 50, left associativity).
Local Infix "-p" := (psub G) (at level 50, left associativity).
Local Notation "P *p k" := (pmul G P k%Z) (at level 40, left associativity).
Local Notation "a == b" := (cong q a b) (at level 70).
Local Notation Pq := (order_prime G).

Lemma off_line_zero : forall y v a b k, distinct q 2 y -> (forall i, (i < 2)%nat \/ i = k -> v i == b * y i + a) -> off_line q y v k == 0.
Proof.
  intros y v a b k D E. unfold off_line.
  assert (C : forall t, (t < 2)%nat -> coef q 2 y v t == (fun t => match t with O => a | _ => b end) t).
  { intros t Ht. apply (coef_spec q Pq 2 y v (fun t => match t with O => a | _ => b end) t D Ht). intros i Hi. rewrite (E i ltac:(left; exact Hi)). unfold sum. cbn [seq map zsum].
    apply cong_eq. change (Z.of_nat 0) with 0. change (Z.of_nat 1) with 1. ring. }
  rewrite (C 1%nat), (C 0%nat), (E k) by (try lia; right; reflexivity). apply cong_eq. ring.
Qed.
Lemma off_line_lin : forall y (l : nat -> Z) (v : nat -> nat -> Z) L k,
  off_line q y (fun k => sum L (fun i => l i * v k i)) k = sum L (fun i => l i * off_line q y (fun k => v k i) k).
Proof.
  intros y l v L k. unfold off_line. rewrite !(coef_lin q 2 L y l v).
  rewrite (LagProofs.sum_ext L (fun i => l i * (v k i - _)) (fun i => l i * v k i - (l i * coef q 2 y (fun k => v k i) 1 * y k + l i * coef q 2 y (fun k => v k i) 0))) by (intros; ring).
  rewrite sum_sub, sum_add, sum_mul_r. reflexivity.
Qed.

Lemma msum_tab : forall bs L f, length bs = L -> msum G (map (pmul G (pgen G)) bs) (tab L f) = pgen G *p sum L (fun i => el bs i * f i).
Proof.
  intros bs L f E. rewrite msum_log. apply f_equal. rewrite dot_el by (rewrite tab_length; exact E). rewrite E. apply LagProofs.sum_ext.
  intros i Hi. rewrite el_tab by exact Hi. reflexivity.
Qed.

(** values on a line in the group: the gaps are relations *)
Lemma gap_relation : forall bases P Q y e k L, length bases = L -> distinct q 2 y ->
  (forall i, (i < 2)%nat \/ i = k -> P *p y i +p Q = msum G bases (tab L (e i))) ->
  msum G bases (tab L (fun i => off_line q y (fun k => e k i) k)) = inf G.
Proof.
  intros bases P Q y e k L LB D E. destruct (vec_log G bases) as [bs ->]. rewrite map_length in LB.
  destruct (pgen_all G P) as [b ->]. destruct (pgen_all G Q) as [a ->].
  rewrite msum_tab by exact LB. rewrite <- (off_line_lin y (el bs) e L k). rewrite <- (pmul_0 G (pgen G)). apply pmul_cong.
  apply (off_line_zero y _ a b k D). intros i Hi. specialize (E i Hi). rewrite msum_tab in E by exact LB.
  apply gmul_inj. rewrite <- E. clear. logs G. gring.
Qed.

Lemma msum_pad : forall hs f, (length f <= length hs)%nat -> msum G hs f = msum G hs (tab (length hs) (fun i => nth i f 0)).
Proof.
  induction hs as [|h hs IH]; intros f L.
  - destruct f; reflexivity.
  - unfold tab in *. cbn [length seq map] in *. rewrite <- seq_shift, map_map. cbn [msum]. destruct f as [|c f]; cbn [nth length] in *.
    + symmetry. rewrite pmul_0, padd_inf_l. pose proof (IH [] ltac:(cbn [length]; lia)) as X.
      rewrite (map_ext _ (fun i => nth i (@nil Z) 0)) by (intros i; destruct i; reflexivity). rewrite <- X. destruct hs; reflexivity.
    + f_equal. apply IH. lia.
Qed.
Lemma msum_base : forall g hs z f L, length hs = L ->
  msum G (g :: hs) (tab (S L) (fun i => match i with O => z | S i => f i end)) = g *p z +p msum G hs (tab L f).
Proof. intros g hs z f L E. unfold tab. cbn [seq map msum]. rewrite <- seq_shift, map_map. reflexivity. Qed.

(** the last equation of the verifier, one component of the ciphertexts *)
Lemma fold_chain : forall (K : nat -> Z) x m L,
  fold_left (fun acc t => acc -p pgen G *p K t *p x ^ Z.of_nat t) (seq 0 m) (pgen G *p L)
  = pgen G *p (L - sum m (fun t => K t * x ^ Z.of_nat t)).
Proof.
  intros K x m L. induction m as [|m IH]; [cbn [seq fold_left]; rewrite sum_0; f_equal; ring|].
  rewrite seq_S, fold_left_app, IH. cbn [fold_left Nat.add]. rewrite LagProofs.sum_S. generalize (sum m (fun t => K t * x ^ Z.of_nat t)). intros s. logs G. gring.
Qed.

Lemma component : forall Xs E (Kf : nat -> pt G) (prods : nat -> nat -> Z) (z : nat -> Z) (c : nat -> nat -> Z) y K m l,
  distinct q K y -> (m < K)%nat -> (l < length Xs)%nat ->
  (forall i k, (i < length Xs)%nat -> (k < K)%nat -> prods k i == sum (S m) (fun t => c i t * y k ^ Z.of_nat t)) ->
  (forall i, (i < length Xs)%nat -> c i m == if (l =? i)%nat then 1 else 0) ->
  (forall k, (k < K)%nat -> fold_left (fun acc t => acc -p Kf t *p y k ^ Z.of_nat t) (seq 0 m) (msum G Xs (map (prods k) (seq 0 (length Xs)))) = E *p z k) ->
  nth l Xs (inf G) = E *p coef q K y z m.
Proof.
  intros Xs E Kf prods z c y K m l D Hm Hl PR TOP EQ.
  destruct (vec_log G Xs) as [xs ->]. rewrite map_length in *. destruct (pgen_all G E) as [e ->].
  destruct (vec_log G (map Kf (seq 0 m))) as [ks EK].
  assert (KF : forall t, (t < m)%nat -> Kf t = pgen G *p el ks t).
  { intros t Ht. apply (f_equal (fun l => nth t l (inf G))) in EK. rewrite nth_map' with (d := 0%nat) in EK by (rewrite seq_length; exact Ht).
    rewrite seq_nth in EK by exact Ht. cbn [Nat.add] in EK. rewrite EK. unfold el.
    destruct (Nat.ltb_spec t (length ks)) as [Lt|Ge]; [rewrite nth_map' with (d := 0) by exact Lt; reflexivity|].
    rewrite !nth_overflow by (rewrite ?map_length; exact Ge). rewrite pmul_0. reflexivity. }
  set (N := length xs) in *.
  set (C := fun t => (if (t <=? m)%nat then sum N (fun i => el xs i * c i t) else 0) - (if (t <? m)%nat then el ks t else 0)).
  assert (V : forall k, (k < K)%nat -> e * z k == sum K (fun t => C t * y k ^ Z.of_nat t)).
  { intros k Hk. specialize (EQ k Hk).
    rewrite (fold_left_ext_in _ _ _ (fun acc t => acc -p pgen G *p el ks t *p y k ^ Z.of_nat t)) in EQ
      by (intros acc t I; apply in_seq in I; rewrite KF by lia; reflexivity).
    change (map (prods k) (seq 0 N)) with (tab N (prods k)) in EQ.
    rewrite msum_tab in EQ by reflexivity. rewrite fold_chain in EQ. rewrite pmul_mul in EQ. apply gmul_inj in EQ. rewrite <- EQ. clear EQ.
    transitivity (sum N (fun i => el xs i * sum (S m) (fun t => c i t * y k ^ Z.of_nat t)) - sum m (fun t => el ks t * y k ^ Z.of_nat t)).
    { apply cong_sub_proper; [|reflexivity]. apply LagProofs.sum_cong. intros i Hi. rewrite (PR i k Hi Hk). reflexivity. }
    apply cong_eq. replace K with (S m + (K - S m))%nat by lia. rewrite (sum_split (S m)).
    rewrite (LagProofs.sum_ext (K - S m) _ (fun _ => 0)).
    2:{ intros i Hi. unfold C. replace (S m + i <=? m)%nat with false by lia. replace (S m + i <? m)%nat with false by lia. ring. }
    rewrite sum_zero, Z.add_0_r.
    rewrite (LagProofs.sum_ext (S m) (fun t => C t * y k ^ Z.of_nat t) (fun t => sum N (fun i => el xs i * (c i t * y k ^ Z.of_nat t)) - (if (t <? m)%nat then el ks t else 0) * y k ^ Z.of_nat t)).
    2:{ intros t Ht. unfold C. replace (t <=? m)%nat with true by lia. rewrite Z.mul_sub_distr_r, <- sum_mul_r. f_equal. apply LagProofs.sum_ext. intros. ring. }
    rewrite sum_sub. f_equal.
    - rewrite sum_swap. apply LagProofs.sum_ext. intros i Hi. rewrite sum_mul_l. reflexivity.
    - rewrite LagProofs.sum_S, Nat.ltb_irrefl. rewrite Z.mul_0_l, Z.add_0_r. apply LagProofs.sum_ext. intros t Ht.
      replace (t <? m)%nat with true by lia. reflexivity. }
  pose proof (coef_spec q Pq K y (fun k => e * z k) C m D Hm V) as X. rewrite coef_scale in X.
  rewrite nth_map' with (d := 0) by exact Hl. rewrite pmul_mul. apply pmul_cong. rewrite X. unfold C. rewrite Nat.leb_refl, Nat.ltb_irrefl, Z.sub_0_r.
  transitivity (sum N (fun i => delta i l * el xs i)); [rewrite sum_delta by exact Hl; reflexivity|].
  apply LagProofs.sum_cong. intros i Hi. rewrite (TOP i Hi). unfold delta. rewrite Nat.eqb_sym. apply cong_eq. ring.
Qed.

(** ** what acceptance says *)
Lemma column_sum : forall n (f : nat -> Z) x, (0 < n)%nat -> f 0%nat = fold_left (fun s i => s + - f i) (seq 1 (n - 1)) x -> sum n f = x.
Proof.
  intros n f x Hn E.
  rewrite (fold_seq_shift f (map (fun i => f (1 + i)%nat) (seq 0 (n - 1)))) in E; [|intros i Hi; rewrite nth_map' with (d := 0%nat) by (rewrite seq_length; exact Hi); rewrite seq_nth by exact Hi; reflexivity|rewrite map_length, seq_length; reflexivity].
  replace n with (1 + (n - 1))%nat at 1 by lia. rewrite sum_split. unfold sum at 1. cbn [seq map zsum]. unfold sum. lia.
Qed.

Lemma Some_inj : forall (A : Type) (a c : A), Some a = Some c -> a = c.
Proof. intros A a c E. inversion E. reflexivity. Qed.

Record facts (pp : ERPP G) (m : nat) (cts : list (TCT G)) (ek : pt G) (x : Z) (p : ERProof G) : Prop := {
  fc_len : (m * er_n G pp <= length (er_h G pp))%nat;
  fc_col : forall j, (j < m)%nat -> sum (er_n G pp) (fun i => nth (j * er_n G pp + i) (erf G p) 0) = x;
  fc_B : erB G p *p x +p erA G p = er_g G pp *p erzA G p +p msum G (er_h G pp) (tab (length (er_h G pp)) (fun i => nth i (erf G p) 0));
  fc_C : erC G p *p x +p erD G p = er_g G pp *p erzC G p +p msum G (er_h G pp) (tab (length (er_h G pp))
           (fun i => if (i <? m * er_n G pp)%nat then nth i (erf G p) 0 * (x - nth i (erf G p) 0) else 0));
  fc_X : fold_left (fun acc t => acc -p tX G (nth t (erG G p) (ct_inf G)) *p x ^ Z.of_nat t) (seq 0 m)
           (msum G (map (tX G) cts) (map (er_product G (er_n G pp) m (erf G p)) (seq 0 (length cts)))) = ek *p erz G p;
  fc_Y : fold_left (fun acc t => acc -p tY G (nth t (erG G p) (ct_inf G)) *p x ^ Z.of_nat t) (seq 0 m)
           (msum G (map (tY G) cts) (map (er_product G (er_n G pp) m (erf G p)) (seq 0 (length cts)))) = t_g G (er_enc G pp) *p erz G p }.

Lemma accepted_facts : forall pp m cts ek x p, (0 < er_n G pp)%nat -> er_accepted G pp m cts ek x p -> facts pp m cts ek x p.
Proof.
  intros pp m cts ek x p Hn [H [tr [tr' [V Ex]]]]. unfold ER_Verify in V. set (n := er_n G pp) in *.
  destruct ((1 <=? m) && (m * n <=? length (erf G p)) && (m <=? length (erG G p)))%nat eqn:B; [|discriminate].
  set (f := erf G p) in *. set (T := er_transcript G tr (erB G p) (erA G p) (erC G p) (erD G p)) in *.
  destruct (Commit G (er_g G pp) (er_h G pp) f (erzA G p)) as [R1|] eqn:C1; [|discriminate].
  destruct (Commit G (er_g G pp) (er_h G pp) _ (erzC G p)) as [R2|] eqn:C2; [|discriminate].
  inversion V as [[V1 V2]]. subst tr'. rewrite Ex in *. clear V.
  apply andb_true_iff in V1. destruct V1 as [V1 V4]. apply andb_true_iff in V1. destruct V1 as [V1 V3]. apply andb_true_iff in V1. destruct V1 as [V1 V2].
  apply peqb_true in V2. apply peqb_true in V3. apply T_eqb_true in V4. destruct V4 as [VX VY].
  rewrite left_X in VX. rewrite left_Y in VY. rewrite ct_lincomb_X, padd_inf_l in VX. rewrite ct_lincomb_Y, padd_inf_l in VY.
  cbn [T_EncPoint tX tY] in VX, VY. rewrite padd_inf in VY.
  assert (L1 : (length f <= length (er_h G pp))%nat) by (unfold Commit in C1; destruct (Nat.leb_spec (length f) (length (er_h G pp))); [assumption|discriminate]).
  rewrite Commit_some in C1 by exact L1. rewrite Commit_some in C2 by (rewrite map_length, seq_length; lia).
  apply Some_inj in C1. apply Some_inj in C2. rewrite <- C1 in V2. rewrite <- C2 in V3. clear C1 C2.
  assert (P : forall (F : nat -> pt G) acc,
    fold_left (fun acc k => acc -p F k *p nth k (powers m 1 x) 0) (seq 0 m) acc = fold_left (fun acc t => acc -p F t *p x ^ Z.of_nat t) (seq 0 m) acc).
  { intros F acc. apply fold_left_ext_in. intros a t I. apply in_seq in I. rewrite powers_nth by lia. rewrite Z.mul_1_l. reflexivity. }
  rewrite (P (fun k => tX G (nth k (erG G p) (ct_inf G)))) in VX. rewrite (P (fun k => tY G (nth k (erG G p) (ct_inf G)))) in VY.
  constructor; fold n f; try assumption.
  - lia.
  - intros j Hj. unfold er_condition0 in V1. rewrite forallb_forall in V1. specialize (V1 j ltac:(apply in_seq; lia)). apply Z.eqb_eq in V1.
    apply (column_sum n (fun i => nth (j * n + i) f 0) x Hn). rewrite Nat.add_0_r. exact V1.
  - rewrite V2. f_equal. apply msum_pad. exact L1.
  - rewrite V3. f_equal. rewrite msum_pad by (rewrite map_length, seq_length; lia). f_equal. unfold tab. apply map_ext_in. intros i I. apply in_seq in I.
    destruct (Nat.ltb_spec i (m * n)) as [Lt|Ge].
    + rewrite nth_map' with (d := 0%nat) by (rewrite seq_length; exact Lt). rewrite seq_nth by exact Lt. reflexivity.
    + apply nth_overflow. rewrite map_length, seq_length. exact Ge.
Qed.

(** ** the extractor *)
Section Main.
Variables (pp : ERPP G) (m : nat) (cts : list (TCT G)) (ek : pt G) (y : nat -> Z) (p : nat -> ERProof G).
Local Notation n := (er_n G pp).
Local Notation M := (length (er_h G pp)).
Local Notation K := (answers m).
Hypothesis Hn : (0 < n)%nat.
Hypothesis Hnq : Z.of_nat n <= q.
Hypothesis Hm : (1 <= m)%nat.
Hypothesis LC : length cts = (n ^ m)%nat.
Hypothesis D : distinct q K y.
Hypothesis SF : forall k, (k < K)%nat -> same_first G (p k) (p 0%nat).
Hypothesis AC : forall k, (k < K)%nat -> er_accepted G pp m cts ek (y k) (p k).

Lemma K3 : (3 <= K)%nat. Proof. unfold answers. lia. Qed.
Lemma Km : (m < K)%nat. Proof. unfold answers. lia. Qed.
Lemma D2 : distinct q 2 y. Proof. apply (distinct_sub q K); [pose proof K3; lia|exact D]. Qed.
Lemma FA : forall k, (k < K)%nat -> facts pp m cts ek (y k) (p k).
Proof. intros k Hk. apply accepted_facts; [exact Hn|]. apply AC. exact Hk. Qed.

Lemma gap1 : forall k, (k < K)%nat -> msum G (er_g G pp :: er_h G pp) (gap G pp y (exps1 G p) k) = inf G.
Proof.
  intros k Hk. unfold gap.
  apply (gap_relation (er_g G pp :: er_h G pp) (erB G (p 0%nat)) (erA G (p 0%nat)) y (exps1 G p) k (S M)); [reflexivity|exact D2|].
  intros i Hi. assert (Hi' : (i < K)%nat) by (pose proof K3; lia).
  destruct (SF i Hi') as [<- [<- _]]. rewrite (fc_B _ _ _ _ _ _ (FA i Hi')). symmetry.
  exact (msum_base (er_g G pp) (er_h G pp) (erzA G (p i)) (fun j => nth j (erf G (p i)) 0) M eq_refl).
Qed.
Lemma gap2 : forall k, (k < K)%nat -> msum G (er_g G pp :: er_h G pp) (gap G pp y (exps2 G pp m y p) k) = inf G.
Proof.
  intros k Hk. unfold gap.
  apply (gap_relation (er_g G pp :: er_h G pp) (erC G (p 0%nat)) (erD G (p 0%nat)) y (exps2 G pp m y p) k (S M)); [reflexivity|exact D2|].
  intros i Hi. assert (Hi' : (i < K)%nat) by (pose proof K3; lia).
  destruct (SF i Hi') as [_ [_ [<- [<- _]]]]. rewrite (fc_C _ _ _ _ _ _ (FA i Hi')). symmetry.
  exact (msum_base (er_g G pp) (er_h G pp) (erzC G (p i)) (fun j => if (j <? m * n)%nat then nth j (erf G (p i)) 0 * (y i - nth j (erf G (p i)) 0) else 0) M eq_refl).
Qed.

(** no gaps: the answers lie on lines *)
Section NoGap.
Hypothesis N1 : forall k i, (k < K)%nat -> (i < S M)%nat -> off_line q y (fun k => exps1 G p k i) k == 0.
Hypothesis N2 : forall k i, (k < K)%nat -> (i < S M)%nat -> off_line q y (fun k => exps2 G pp m y p k i) k == 0.
Let f k i := nth i (erf G (p k)) 0.
Let b i := coef q 2 y (fun k => f k i) 1.
Let a i := coef q 2 y (fun k => f k i) 0.

Lemma f_line : forall k i, (k < K)%nat -> (i < m * n)%nat -> f k i == b i * y k + a i.
Proof.
  intros k i Hk Hi. pose proof (fc_len _ _ _ _ _ _ (FA 0%nat ltac:(pose proof K3; lia))) as LM.
  pose proof (N1 k (S i) Hk ltac:(lia)) as X. unfold off_line in X. cbn [exps1] in X. apply (sub_cong0 q). exact X.
Qed.

Lemma bit_square : forall i, (i < m * n)%nat -> b i * (1 - b i) == 0.
Proof.
  intros i Hi. pose proof (fc_len _ _ _ _ _ _ (FA 0%nat ltac:(pose proof K3; lia))) as LM.
  set (c := coef q 2 y (fun k => exps2 G pp m y p k (S i)) 1). set (d := coef q 2 y (fun k => exps2 G pp m y p k (S i)) 0).
  assert (E : forall k, (k < 3)%nat -> sum 3 (fun t => (match t with O => - a i * a i - d | 1%nat => a i - 2 * a i * b i - c | _ => b i * (1 - b i) end) * y k ^ Z.of_nat t) == 0).
  { intros k Hk. assert (Hk' : (k < K)%nat) by (pose proof K3; lia).
    pose proof (N2 k (S i) Hk' ltac:(lia)) as X. unfold off_line in X. fold c d in X.
    cbn [exps2] in X. rewrite (proj2 (Nat.ltb_lt i (m * n)) Hi) in X. fold (f k i) in X. rewrite (f_line k i Hk' Hi) in X.
    rewrite <- X. apply cong_eq. rewrite sum_three. change (Z.of_nat 0) with 0. change (Z.of_nat 1) with 1. change (Z.of_nat 2) with 2.
    generalize (a i) (b i) (y k). clear. intros u v w. ring. }
  exact (poly_zero q Pq 3 y _ (distinct_sub q K 3 y K3 D) E 2 ltac:(lia)).
Qed.

Lemma bit_sum : forall j, (j < m)%nat -> sum n (fun i => b (j * n + i)%nat) == 1.
Proof.
  intros j Hj.
  assert (E : forall k, (k < 2)%nat -> sum n (fun i => 1 * f k (j * n + i)%nat) == sum 2 (fun t => match t with O => 0 | _ => 1 end * y k ^ Z.of_nat t)).
  { intros k Hk. rewrite (LagProofs.sum_ext n _ (fun i => f k (j * n + i)%nat)) by (intros; ring).
    unfold f. rewrite (fc_col _ _ _ _ _ _ (FA k ltac:(pose proof K3; lia)) j Hj). apply cong_eq. unfold sum. cbn [seq map zsum].
    change (Z.of_nat 1) with 1. ring. }
  pose proof (coef_spec q Pq 2 y _ (fun t => match t with O => 0 | _ => 1 end) 1 D2 ltac:(lia) E) as X.
  rewrite (coef_lin q 2 n y (fun _ => 1) (fun k i => f k (j * n + i)%nat)) in X.
  rewrite (LagProofs.sum_ext n _ (fun i => b (j * n + i)%nat)) in X by (intros; unfold b; ring). exact X.
Qed.

Lemma digit_ok : forall j, (j < m)%nat -> (edigit G pp y p j < n)%nat /\
  forall i, (i < n)%nat -> b (j * n + i)%nat == if (edigit G pp y p j =? i)%nat then 1 else 0.
Proof.
  intros j Hj. pose proof (prime_ge_2 _ Pq) as Q2.
  assert (BB : forall i, (i < n)%nat -> b (j * n + i)%nat mod q = 0 \/ b (j * n + i)%nat mod q = 1).
  { intros i Hi. pose proof (bit_square (j * n + i)%nat ltac:(nia)) as X.
    destruct (Z.eq_dec (b (j * n + i)%nat mod q) 0) as [E|E]; [left; exact E|right].
    assert (NZ : ~ b (j * n + i)%nat == 0) by (rewrite (cong0_mod q Pq); exact E).
    pose proof (cancel_q q Pq _ _ NZ X) as Y.
    assert (Z1 : b (j * n + i)%nat == 1). { transitivity (1 - (1 - b (j * n + i)%nat)); [apply cong_eq; ring|]. rewrite Y. apply cong_eq. ring. }
    apply cong_mod in Z1; [|lia]. rewrite Z1. apply Z.mod_1_l. lia. }
  assert (SS : sum n (fun i => b (j * n + i)%nat mod q) = 1).
  { assert (X : sum n (fun i => b (j * n + i)%nat mod q) == 1).
    { rewrite <- (bit_sum j Hj). apply LagProofs.sum_cong. intros i Hi. apply cong_modl. lia. }
    assert (R : forall k (g : nat -> Z), (forall i, (i < k)%nat -> g i = 0 \/ g i = 1) -> 0 <= sum k g <= Z.of_nat k).
    { clear. induction k as [|k IH]; intros g B; [rewrite sum_0; lia|]. rewrite LagProofs.sum_S. specialize (IH g ltac:(intros; apply B; lia)). specialize (B k ltac:(lia)). lia. }
    specialize (R n (fun i => b (j * n + i)%nat mod q) BB). destruct X as [k X].
    set (s := sum n (fun i => b (j * n + i)%nat mod q)) in *. clearbody s.
    assert (K0 : k = 0) by (clear - X R Hnq Q2; revert X R Hnq Q2; generalize (order G) (Z.of_nat n); intros; destruct (Z_lt_le_dec k 0); [|destruct (Z_lt_le_dec 0 k)]; nia).
    rewrite X, K0. ring. }
  destruct (one_hot n (fun i => b (j * n + i)%nat mod q) BB SS) as [d [F [Hd I]]].
  assert (E : edigit G pp y p j = d).
  { unfold edigit. change (fun i => ebit G pp y p j i mod q =? 1) with (fun i => b (j * n + i)%nat mod q =? 1). rewrite F. reflexivity. }
  rewrite E. split; [exact Hd|]. intros i Hi. rewrite <- (I i Hi). symmetry. apply cong_modl. lia.
Qed.

Local Notation dig := (map (edigit G pp y p) (seq 0 m)).
Local Notation l := (compose n dig).
Lemma dig_lt : Forall (fun d => (d < n)%nat) dig.
Proof. apply Forall_forall. intros d I. apply in_map_iff in I. destruct I as [j [<- J]]. apply in_seq in J. apply digit_ok. lia. Qed.
Lemma dig_length : length dig = m. Proof. rewrite map_length, seq_length. reflexivity. Qed.
Lemma l_lt : (l < length cts)%nat.
Proof. rewrite LC. pose proof (compose_lt n dig dig_lt) as X. rewrite dig_length in X. exact X. Qed.

(** the polynomial of ciphertext i *)
Definition cf (i : nat) : nat -> Z :=
  lcoef (map (fun j => (a (j * n + nth j (Decompose i n m) 0%nat)%nat, b (j * n + nth j (Decompose i n m) 0%nat)%nat)) (seq 0 m)).

Lemma digit_in : forall i j, (j < m)%nat -> (nth j (Decompose i n m) 0 < n)%nat.
Proof. intros i j Hj. pose proof (Decompose_lt m i n Hn) as F. rewrite Forall_forall in F. apply F, nth_In. rewrite Decompose_length. exact Hj. Qed.

Lemma zprod_cong : forall (g h : nat -> Z) ls, (forall j, In j ls -> g j == h j) -> zprod (map g ls) == zprod (map h ls).
Proof.
  intros g h ls. induction ls as [|j ls IH]; intros E; cbn [map zprod]; [reflexivity|].
  rewrite (E j) by (left; reflexivity). rewrite IH by (intros; apply E; right; assumption). reflexivity.
Qed.

Lemma product_poly : forall i k, (k < K)%nat -> er_product G n m (erf G (p k)) i == sum (S m) (fun t => cf i t * y k ^ Z.of_nat t).
Proof.
  intros i k Hk. rewrite product_cong.
  pose proof (lcoef_eval (map (fun j => (a (j * n + nth j (Decompose i n m) 0%nat)%nat, b (j * n + nth j (Decompose i n m) 0%nat)%nat)) (seq 0 m)) (y k)) as X.
  rewrite map_length, seq_length in X. unfold cf. rewrite <- X, map_map. cbn [fst snd].
  apply zprod_cong. intros j J. apply in_seq in J. apply f_line; [exact Hk|]. pose proof (digit_in i j ltac:(lia)). nia.
Qed.

Lemma top_coef : forall i, (i < length cts)%nat -> cf i m == if (l =? i)%nat then 1 else 0.
Proof.
  intros i Hi. unfold cf.
  pose proof (lcoef_top (map (fun j => (a (j * n + nth j (Decompose i n m) 0%nat)%nat, b (j * n + nth j (Decompose i n m) 0%nat)%nat)) (seq 0 m))) as X.
  rewrite map_length, seq_length in X. rewrite X, map_map. cbn [snd].
  transitivity (zprod (map (fun j => if (nth j dig 0 =? nth j (Decompose i n m) 0)%nat then 1 else 0) (seq 0 m))).
  - apply zprod_cong. intros j J. apply in_seq in J. rewrite nth_map' with (d := 0%nat) by (rewrite seq_length; lia). rewrite seq_nth by lia. cbn [Nat.add].
    apply digit_ok; [lia|]. apply digit_in. lia.
  - rewrite zprod_digits by (rewrite ?dig_length, ?Decompose_length; reflexivity). apply cong_eq.
    pose proof (compose_digits n dig dig_lt) as CD. rewrite dig_length in CD.
    pose proof l_lt as LL. rewrite LC in Hi, LL.
    destruct (list_eq_dec Nat.eq_dec dig (Decompose i n m)) as [e|ne]; destruct (Nat.eqb_spec l i) as [E|E]; try reflexivity.
    + rewrite e in CD at 2. apply Decompose_eq in CD; [|exact Hn|exact Hi]. rename CD into e'. rewrite Nat.mod_small in e' by exact LL. congruence.
    + rewrite E in CD. congruence.
Qed.

Lemma found : encrypts_with G (t_g G (er_enc G pp)) ek (inf G) (coef q K y (fun k => erz G (p k)) m) (nth l cts (ct_inf G)).
Proof.
  pose proof l_lt as LL. unfold encrypts_with. rewrite padd_inf. split.
  - rewrite <- (nth_map' (tX G) cts l (ct_inf G) (inf G)) by exact LL.
    apply (component (map (tX G) cts) ek (fun t => tX G (nth t (erG G (p 0%nat)) (ct_inf G))) (fun k => er_product G n m (erf G (p k))) (fun k => erz G (p k)) cf y K m l); rewrite ?map_length.
    + exact D.
    + exact Km.
    + exact LL.
    + intros i k _ Hk. apply product_poly. exact Hk.
    + exact top_coef.
    + intros k Hk. pose proof (fc_X _ _ _ _ _ _ (FA k Hk)) as X. destruct (SF k Hk) as [_ [_ [_ [_ EG]]]]. rewrite EG in X. exact X.
  - rewrite <- (nth_map' (tY G) cts l (ct_inf G) (inf G)) by exact LL.
    apply (component (map (tY G) cts) (t_g G (er_enc G pp)) (fun t => tY G (nth t (erG G (p 0%nat)) (ct_inf G))) (fun k => er_product G n m (erf G (p k))) (fun k => erz G (p k)) cf y K m l); rewrite ?map_length.
    + exact D.
    + exact Km.
    + exact LL.
    + intros i k _ Hk. apply product_poly. exact Hk.
    + exact top_coef.
    + intros k Hk. pose proof (fc_Y _ _ _ _ _ _ (FA k Hk)) as X. destruct (SF k Hk) as [_ [_ [_ [_ EG]]]]. rewrite EG in X. exact X.
Qed.
End NoGap.

Lemma extract_good : er_good G pp cts ek (er_extract G pp m y p).
Proof.
  unfold er_extract.
  destruct (find _ _) as [v|] eqn:F.
  - apply find_some in F. destruct F as [I Z0]. apply negb_true_iff in Z0. cbn [er_good]. unfold relation.
    apply in_app_or in I. destruct I as [I|I]; apply in_map_iff in I; destruct I as [k [<- J]]; apply in_seq in J;
      (split; [unfold gap; rewrite tab_length; reflexivity|]; split; [|exact Z0]); [apply gap1|apply gap2]; lia.
  - assert (ZZ : forall e k i, (e = exps1 G p \/ e = exps2 G pp m y p) -> (k < K)%nat -> (i < S M)%nat -> off_line q y (fun k => e k i) k == 0).
    { intros e k i He Hk Hi.
      assert (X : zeros q (gap G pp y e k) = true).
      { apply negb_false_iff. apply (find_none _ _ F). apply in_or_app. destruct He as [-> | ->]; [left|right]; apply in_map; apply in_seq; lia. }
      unfold gap in X. rewrite (zeros_tab q Pq) in X. apply X. exact Hi. }
    cbn [er_good]. split; [apply l_lt|apply found]; intros k i Hk Hi; apply ZZ; auto.
Qed.
End Main.

(** ** C100 *)
Theorem C100_member_extracted : forall pp m cts ek y (p : nat -> ERProof G),
  (1 <= er_n G pp)%nat -> Z.of_nat (er_n G pp) <= q -> (1 <= m)%nat -> length cts = (er_n G pp ^ m)%nat ->
  distinct q (answers m) y ->
  (forall k, (k < answers m)%nat -> same_first G (p k) (p 0%nat)) ->
  (forall k, (k < answers m)%nat -> er_accepted G pp m cts ek (y k) (p k)) ->
  match er_extract G pp m y p with
  | ErIndex l r => (l < length cts)%nat /\ encrypts_with G (t_g G (er_enc G pp)) ek (inf G) r (nth l cts (ct_inf G))
  | ErRelation v => relation G (er_g G pp :: er_h G pp) v
  end.
Proof. intros pp m cts ek y p Hn Hq Hm LC D SF AC. exact (extract_good pp m cts ek y p Hn Hq Hm LC D SF AC). Qed.

(** An honest prover can answer every challenge after the same first message. *)
Definition honest (pp : ERPP G) (m : nat) (cts : list (TCT G)) (ek : pt G) (l : nat) (r : Z) (tr : list N) (rn : ERRand) (x : Z) : ERProof G :=
  match ER_Prove G (fun _ => x) pp m cts ek l r tr rn with
  | Some (p, _) => p
  | None => {| erB := inf G; erz := 0; erG := []; erA := inf G; erC := inf G; erD := inf G; erf := []; erzA := 0; erzC := 0 |}
  end.
Theorem C100_honest_answers : forall pp m cts ek l r tr rn x x',
  dims_ok G pp m cts rn -> (l < length cts)%nat ->
  encrypts_with G (t_g G (er_enc G pp)) ek (inf G) r (nth l cts (ct_inf G)) ->
  same_first G (honest pp m cts ek l r tr rn x) (honest pp m cts ek l r tr rn x') /\
  er_accepted G pp m cts ek x (honest pp m cts ek l r tr rn x).
Proof.
  intros pp m cts ek l r tr rn x x' DO Hl EW. split.
  - destruct (C36_complete G (fun _ => x) pp m cts ek l r tr rn DO Hl EW) as [p1 [t1 [E1 _]]].
    destruct (C36_complete G (fun _ => x') pp m cts ek l r tr rn DO Hl EW) as [p2 [t2 [E2 _]]].
    unfold honest. rewrite E1, E2. unfold ER_Prove in E1, E2.
    destruct (Commit G (er_g G pp) (er_h G pp) (vec_delta_of _ _) _) as [B|]; [|discriminate].
    destruct (Commit G (er_g G pp) (er_h G pp) (vec_a_of _) _) as [A|]; [|discriminate].
    destruct (Commit G (er_g G pp) (er_h G pp) (vec_c_of _ _) _) as [C|]; [|discriminate].
    destruct (Commit G (er_g G pp) (er_h G pp) (vec_d_of _) _) as [D|]; [|discriminate].
    destruct (polys _ _ _ _ _ _) as [P|]; [|discriminate].
    apply Some_inj in E1. apply Some_inj in E2. apply (f_equal fst) in E1. apply (f_equal fst) in E2. cbn [fst] in E1, E2. subst p1 p2.
    unfold same_first. cbn [erB erA erC erD erG]. auto.
  - destruct (C36_complete G (fun _ => x) pp m cts ek l r tr rn DO Hl EW) as [p1 [t1 [E1 V1]]].
    unfold honest. rewrite E1. exists (fun _ => x), tr, t1. split; [exact V1|reflexivity].
Qed.

(** ** C101: the ring signature *)
Lemma two_points : forall P Q E (z : nat -> Z) y, distinct q 2 y -> (forall k, (k < 2)%nat -> P *p y k +p Q = E *p z k) -> P = E *p coef q 2 y z 1.
Proof.
  intros P Q E z y D EQ. destruct (pgen_all G P) as [b ->]. destruct (pgen_all G Q) as [a ->]. destruct (pgen_all G E) as [e ->].
  assert (V : forall k, (k < 2)%nat -> e * z k == sum 2 (fun t => match t with O => a | _ => b end * y k ^ Z.of_nat t)).
  { intros k Hk. specialize (EQ k Hk). rewrite !pmul_mul, <- pmul_add in EQ. apply gmul_inj in EQ. rewrite <- EQ. apply cong_eq. unfold sum. cbn [seq map zsum].
    change (Z.of_nat 0) with 0. change (Z.of_nat 1) with 1. ring. }
  pose proof (coef_spec q Pq 2 y _ (fun t => match t with O => a | _ => b end) 1 D ltac:(lia) V) as X. rewrite coef_scale in X.
  rewrite pmul_mul. apply pmul_cong. symmetry. exact X.
Qed.

Theorem C101_signer_extracted : forall pp m R y (s : nat -> ARSSig G),
  (1 <= m)%nat -> length R = (2 ^ m)%nat -> ar_ek G pp <> inf G ->
  distinct q (answers m) y ->
  (forall k, (k < answers m)%nat -> same_start G (s k) (s 0%nat)) ->
  (forall k, (k < answers m)%nat -> ars_accepted G pp m R (y k) (s k)) ->
  match er_extract G (ars_er G pp) m y (fun k => as_proof G (s k)) with
  | ErIndex l _ =>
      (l < length R)%nat /\
      nth l R (inf G) = t_g G (ar_enc G pp) *p ars_key G y s /\
      forall (H : list N -> Z) dk a, ar_ek G pp = t_g G (ar_enc G pp) *p dk ->
        fst (ARS_Open G H pp dk (s 0%nat) a) = nth l R (inf G)
  | ErRelation v => relation G (ar_g G pp :: ar_h G pp) v
  end.
Proof.
  intros pp m R y s Hm LR NE D SS AC.
  set (cts := ring_cts G pp R (as_vk G (s 0%nat))).
  assert (LC : length cts = (2 ^ m)%nat) by (unfold cts, ring_cts; rewrite map_length; exact LR).
  assert (FACT : forall k, (k < answers m)%nat ->
    er_accepted G (ars_er G pp) m cts (ar_ek G pp) (y k) (as_proof G (s k)) /\
    tX G (as_vk G (s 0%nat)) *p y k +p tX G (as_s G (s 0%nat)) = ar_ek G pp *p as_zt G (s k) /\
    tY G (as_vk G (s 0%nat)) *p y k +p tY G (as_s G (s 0%nat)) = t_g G (ar_enc G pp) *p (as_zt G (s k) + as_zs G (s k))).
  { intros k Hk. destruct (AC k Hk) as [H [msg [V Ex]]]. destruct (SS k Hk) as [_ [EV ES]]. unfold cts. rewrite <- EV, <- ES.
    unfold ARS_Verify in V. destruct (ER_Verify G H (ars_er G pp) m (ring_cts G pp R (as_vk G (s k))) (ar_ek G pp) msg (as_proof G (s k))) as [[c tr']|] eqn:EVF; [|discriminate].
    apply Some_inj in V. apply andb_true_iff in V. destruct V as [-> V]. apply T_eqb_true in V.
    assert (ET : tr' = er_transcript G msg (erB G (as_proof G (s k))) (erA G (as_proof G (s k))) (erC G (as_proof G (s k))) (erD G (as_proof G (s k)))).
    { unfold ER_Verify in EVF. destruct (_ && _)%bool; [|discriminate]. destruct (Commit _ _ _ _ _); [|discriminate]. destruct (Commit _ _ _ _ _); [|discriminate].
      apply Some_inj in EVF. apply (f_equal snd) in EVF. cbn [snd] in EVF. symmetry. exact EVF. }
    rewrite <- ET in Ex. rewrite Ex in V. cbn [T_HomoAdd T_ScalarMul T_EncPoint tX tY] in V. destruct V as [VX VY].
    split; [exists H, msg, tr'; split; assumption|]. split; [exact VX|]. rewrite VY, pmul_add. reflexivity. }
  assert (D2' : distinct q 2 y) by (apply (distinct_sub q (answers m)); [unfold answers; lia|exact D]).
  pose proof (C100_member_extracted (ars_er G pp) m cts (ar_ek G pp) y (fun k => as_proof G (s k))
    ltac:(cbn [ars_er er_n]; lia) ltac:(cbn [ars_er er_n]; pose proof (prime_ge_2 _ Pq); lia) Hm LC D
    (fun k Hk => proj1 (SS k Hk)) (fun k Hk => proj1 (FACT k Hk))) as X.
  destruct (er_extract G (ars_er G pp) m y (fun k => as_proof G (s k))) as [l r|v]; [|exact X].
  cbn [ars_er er_enc] in X. destruct X as [Hl [WX WY]]. rewrite LC, <- LR in Hl.
  assert (E1 : tX G (as_vk G (s 0%nat)) = ar_ek G pp *p coef q 2 y (fun k => as_zt G (s k)) 1).
  { apply (two_points _ (tX G (as_s G (s 0%nat))) _ (fun k => as_zt G (s k)) y D2'). intros k Hk. apply FACT. unfold answers. lia. }
  assert (E2 : tY G (as_vk G (s 0%nat)) = t_g G (ar_enc G pp) *p coef q 2 y (fun k => as_zt G (s k) + as_zs G (s k)) 1).
  { apply (two_points _ (tY G (as_s G (s 0%nat))) _ (fun k => as_zt G (s k) + as_zs G (s k)) y D2'). intros k Hk. apply FACT. unfold answers. lia. }
  rewrite coef_add in E2. fold (ars_key G y s) in E2.
  unfold cts, ring_cts in WX, WY. rewrite nth_map' with (d := inf G) in WX, WY by exact Hl.
  cbn [T_HomoSub T_EncPoint tX tY] in WX, WY. rewrite pmul_0 in WX, WY. rewrite padd_inf, padd_inf_l in WY.
  set (P := nth l R (inf G)) in *. clearbody P. set (vX := tX G (as_vk G (s 0%nat))) in *. set (vY := tY G (as_vk G (s 0%nat))) in *.
  set (t := coef q 2 y (fun k => as_zt G (s k)) 1) in *.
  assert (TR : t == r).
  { apply (pmul_inj G (ar_ek G pp)); [exact NE|]. rewrite <- E1, <- WX. clear. clearbody vX. unfold psub. rewrite pneg_inf, padd_inf. reflexivity. }
  assert (PK : P = t_g G (ar_enc G pp) *p ars_key G y s).
  { transitivity (vY -p (vY -p P)); [clear; clearbody vY; logs G; gring|]. rewrite WY, E2, <- (pmul_cong G _ _ _ TR). generalize (ars_key G y s) (t_g G (ar_enc G pp)). clearbody t. clear. intros. logs G. gring. }
  split; [exact Hl|]. split; [exact PK|].
  intros H dk a EK. unfold ARS_Open. cbn [fst]. unfold T_DecECPoint. fold vX vY. rewrite E1, E2, PK, EK.
  assert (NK : ~ dk == 0). { intros Z0. apply NE. rewrite EK, (pmul_cong G _ _ _ Z0). apply pmul_0. }
  pose proof (inv_cong G dk NK) as IV. rewrite !pmul_mul.
  rewrite (pmul_cong G _ (dk * (t * ModInverse dk q)) t).
  - generalize (ars_key G y s) (t_g G (ar_enc G pp)). clearbody t. clear. intros. logs G. gring.
  - transitivity (dk * ModInverse dk q * t); [apply cong_eq; ring|]. rewrite IV. apply cong_eq. ring.
Qed.
End Extract.

(** ** concrete cases over the 101-element group: four ciphertexts, the third encrypts zero *)
Definition ch101 (k : nat) : Z := nth k [3; 8; 20] 0.
Definition cts101 : list (TCT G101) :=
  map (fun k => T_EncPoint G101 ex_enc (p101 23) (p101 (fst k)) (snd k)) [(5, 4); (6, 30); (0, 17); (9, 2)].
Definition ans101 (k : nat) : ERProof G101 := honest G101 (ars_er G101 ex_pp) 2 cts101 (p101 23) 2 17 [9%N] ex_rn (ch101 k).
Lemma ch101_distinct : distinct (order G101) (answers 2) ch101.
Proof.
  assert (P : prime (order G101)) by apply order_prime.
  intros i j Hi Hj N E. change (answers 2) with 3%nat in *. apply (sub_cong0 (order G101)) in E. apply (cong0_mod _ P) in E.
  change (order G101) with 101 in E.
  destruct i as [|[|[|i]]]; try lia; destruct j as [|[|[|j]]]; try lia; vm_compute in E; discriminate E.
Qed.
Example C100_case :
  distinct (order G101) (answers 2) ch101 /\
  (forall k, (k < answers 2)%nat -> same_first G101 (ans101 k) (ans101 0)) /\
  (forall k, (k < answers 2)%nat -> er_accepted G101 (ars_er G101 ex_pp) 2 cts101 (p101 23) (ch101 k) (ans101 k)) /\
  match er_extract G101 (ars_er G101 ex_pp) 2 ch101 ans101 with ErIndex l r => l = 2%nat /\ r mod 101 = 17 | _ => False end.
Proof.
  assert (DO : dims_ok G101 (ars_er G101 ex_pp) 2 cts101 ex_rn) by (unfold dims_ok, rand_shape; cbn; repeat split; try lia; repeat constructor).
  assert (EW : encrypts_with G101 (t_g G101 (er_enc G101 (ars_er G101 ex_pp))) (p101 23) (inf G101) 17 (nth 2 cts101 (ct_inf G101))).
  { split; apply Zq_ext; vm_compute; reflexivity. }
  split; [exact ch101_distinct|]. split; [|split].
  - intros k Hk. apply (C100_honest_answers G101 (ars_er G101 ex_pp) 2 cts101 (p101 23) 2 17 [9%N] ex_rn _ _ DO ltac:(cbn; lia) EW).
  - intros k Hk. apply (C100_honest_answers G101 (ars_er G101 ex_pp) 2 cts101 (p101 23) 2 17 [9%N] ex_rn (ch101 k) (ch101 k) DO ltac:(cbn; lia) EW).
  - vm_compute. split; reflexivity.
Qed.

(** The other outcome: the fifth base is the point at infinity, so a prover may append any
    value to vec_f, also one that is not linear in the challenge; the extractor finds the relation. *)
Definition loose_pp : ERPP G101 :=
  {| er_g := pgen G101; er_h := map p101 [3; 5; 7; 11; 0]; er_enc := ex_enc; er_n := 2 |}.
Definition loose101 (k : nat) : ERProof G101 :=
  let p := honest G101 loose_pp 2 cts101 (p101 23) 2 17 [9%N] ex_rn (ch101 k) in
  {| erB := erB G101 p; erz := erz G101 p; erG := erG G101 p; erA := erA G101 p; erC := erC G101 p; erD := erD G101 p;
     erf := erf G101 p ++ [Z.of_nat (k * k)]; erzA := erzA G101 p; erzC := erzC G101 p |}.
Example C100_case_relation :
  (forall k, (k < answers 2)%nat ->
     option_map fst (ER_Verify G101 (fun _ => ch101 k) loose_pp 2 cts101 (p101 23) [9%N] (loose101 k)) = Some true) /\
  match er_extract G101 loose_pp 2 ch101 loose101 with ErRelation v => length v = 6%nat | _ => False end.
Proof.
  split; [|vm_compute; reflexivity]. intros k Hk. change (answers 2) with 3%nat in Hk.
  destruct k as [|[|[|k]]]; try lia; vm_compute; reflexivity.
Qed.

(** three signatures of the member with key 42 of a ring of four *)
Definition sig101 (k : nat) : ARSSig G101 :=
  match ARS_Sign G101 (fun _ => ch101 k) ex_pp 2 42 ex_ring [1%N; 2%N] 17 18 19 ex_rn with
  | Some s => s
  | None => {| as_proof := ans101 0; as_zs := 0; as_zt := 0; as_vk := ct_inf G101; as_s := ct_inf G101 |}
  end.
Lemma sig101_accepted : forall k, (k < 3)%nat -> ARS_Verify G101 (fun _ => ch101 k) ex_pp 2 ex_ring [1%N; 2%N] (sig101 k) = Some true.
Proof. intros k Hk. destruct k as [|[|[|k]]]; try lia; vm_compute; reflexivity. Qed.
Example C101_case :
  ar_ek G101 ex_pp <> inf G101 /\ distinct (order G101) (answers 2) ch101 /\
  (forall k, (k < answers 2)%nat -> same_start G101 (sig101 k) (sig101 0)) /\
  (forall k, (k < answers 2)%nat -> ars_accepted G101 ex_pp 2 ex_ring (ch101 k) (sig101 k)) /\
  match er_extract G101 (ars_er G101 ex_pp) 2 ch101 (fun k => as_proof G101 (sig101 k)) with
  | ErIndex l _ => l = 2%nat | _ => False end /\
  ars_key G101 ch101 sig101 mod 101 = 42.
Proof.
  split; [intros C; apply (f_equal (fun p => proj1_sig p)) in C; vm_compute in C; discriminate C|].
  split; [exact ch101_distinct|]. split; [|split; [|split]].
  - intros k Hk. change (answers 2) with 3%nat in Hk. unfold same_start, same_first, sig101.
    destruct k as [|[|[|k]]]; try lia; repeat split; reflexivity.
  - intros k Hk. change (answers 2) with 3%nat in Hk. exists (fun _ => ch101 k), [1%N; 2%N]. split; [|reflexivity].
    apply sig101_accepted. exact Hk.
  - vm_compute. reflexivity.
  - vm_compute. reflexivity.
Qed.

Print Assumptions C100_member_extracted.
Print Assumptions C100_honest_answers.
Print Assumptions C101_signer_extracted.

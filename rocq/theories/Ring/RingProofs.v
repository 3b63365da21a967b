From Coq Require Import NArith ZArith List Lia Bool Arith Setoid.
From Coq Require Import ZifyBool ZifyNat ZifyN.
From Verif.Base Require Import Words ListX.
From Verif.Utility Require Import SerialModel SerialProofs.
From Verif.Crypto Require Import BigIntModel BigIntSpec BigIntProofs.
From Verif.Group Require Import ECModel ECProofs.
From Verif.PKE Require Import ElGamalModel ElGamalProofs.
From Verif.Sigma Require Import SigmaModel SigmaSpec SigmaProofs.
From Verif.Ring Require Import RingModel.
Import ListNotations.
Local Open Scope Z_scope.

(** ** digits *)
Lemma Decompose_length : forall m l n, length (Decompose l n m) = m.
Proof. induction m as [|m IH]; intros; cbn [Decompose length]; [reflexivity|]. rewrite IH. reflexivity. Qed.

Lemma Decompose_lt : forall m l n, (0 < n)%nat -> Forall (fun d => (d < n)%nat) (Decompose l n m).
Proof.
  induction m as [|m IH]; intros l n Hn; cbn [Decompose]; constructor; [|apply IH; exact Hn].
  apply Nat.mod_upper_bound. lia.
Qed.

Lemma Decompose_eq : forall m l i n, (0 < n)%nat -> (i < n ^ m)%nat ->
  (Decompose l n m = Decompose i n m <-> i = (l mod n ^ m)%nat).
Proof.
  induction m as [|m IH]; intros l i n Hn Hi; cbn [Decompose].
  - cbn [Nat.pow] in *. rewrite Nat.mod_1_r. split; [lia|reflexivity].
  - rewrite Nat.pow_succ_r' in *.
    assert (P : (n ^ m <> 0)%nat) by (apply Nat.pow_nonzero; lia).
    rewrite Nat.mod_mul_r by lia.
    assert (Hi' : (i / n < n ^ m)%nat) by (apply Nat.div_lt_upper_bound; [lia|exact Hi]).
    pose proof (Nat.div_mod i n ltac:(lia)) as D. split.
    + intros E. injection E as E1 E2. apply IH in E2; [|exact Hn|exact Hi'].
      rewrite E1, <- E2. lia.
    + intros E.
      assert (M : (i mod n = l mod n)%nat).
      { rewrite E, (Nat.mul_comm n), Nat.mod_add, Nat.mod_mod by lia. reflexivity. }
      f_equal; [symmetry; exact M|]. apply IH; [exact Hn|exact Hi'|].
      assert (n * (i / n) = n * ((l / n) mod n ^ m))%nat by lia.
      apply (Nat.mul_cancel_l _ _ n); lia.
Qed.

(** ** concatenated columns *)
Lemma nth_concat : forall (cols : list (list Z)) n j i, Forall (fun c => length c = n) cols ->
  (i < n)%nat -> (j < length cols)%nat -> nth (j * n + i) (concat cols) 0 = nth i (nth j cols []) 0.
Proof.
  induction cols as [|c cols IH]; intros n j i F Hi Hj; cbn [length] in Hj; [lia|].
  inversion F; subst. cbn [concat]. destruct j as [|j]; cbn [nth].
  - rewrite Nat.mul_0_l, Nat.add_0_l, app_nth1 by lia. reflexivity.
  - rewrite app_nth2 by lia. replace (S j * length c + i - length c)%nat with (j * length c + i)%nat by lia.
    apply IH; [assumption|exact Hi|lia].
Qed.

Lemma concat_length : forall (cols : list (list Z)) n, Forall (fun c => length c = n) cols ->
  length (concat cols) = (length cols * n)%nat.
Proof.
  induction cols as [|c cols IH]; intros n F; cbn [concat length]; [reflexivity|]. inversion F; subst.
  rewrite app_length, (IH (length c)) by assumption. lia.
Qed.

Lemma map2_concat : forall (f : Z -> Z -> Z) (A B : list (list Z)) n,
  Forall (fun c => length c = n) A -> Forall (fun c => length c = n) B -> length A = length B ->
  map2 f (concat A) (concat B) = concat (map2 (map2 f) A B).
Proof.
  induction A as [|a A IH]; intros [|b B] n FA FB L; cbn [length] in L; try lia; [reflexivity|].
  inversion FA; subst. inversion FB; subst. cbn [concat map2]. rewrite map2_app by lia.
  f_equal. apply (IH B (length a)); auto.
Qed.

Lemma unit_column_length : forall n k, length (unit_column n k) = n.
Proof. intros. unfold unit_column. rewrite upd_length, repeat_length. reflexivity. Qed.
Lemma unit_columns : forall n l, Forall (fun c => length c = n) (map (unit_column n) l).
Proof. intros n l. apply Forall_forall. intros c I. apply in_map_iff in I. destruct I as [k [<- _]]. apply unit_column_length. Qed.
Lemma column_a_length : forall c, length (column_a c) = length c.
Proof. intros [|x c]; reflexivity. Qed.
Lemma a_columns : forall n cols, Forall (fun c => length c = n) cols ->
  Forall (fun c => length c = n) (map column_a cols).
Proof.
  intros n cols F. rewrite Forall_forall in *. intros c I. apply in_map_iff in I.
  destruct I as [d [<- I]]. rewrite column_a_length. apply F. exact I.
Qed.
Lemma delta_length : forall n idx, length (vec_delta_of n idx) = (length idx * n)%nat.
Proof. intros. unfold vec_delta_of. rewrite (concat_length _ n), map_length by apply unit_columns. reflexivity. Qed.
Lemma veca_length : forall n cols, Forall (fun c => length c = n) cols ->
  length (vec_a_of cols) = (length cols * n)%nat.
Proof. intros. unfold vec_a_of. rewrite (concat_length _ n), map_length by (apply a_columns; assumption). reflexivity. Qed.

Lemma zsum_upd : forall l k v, (k < length l)%nat -> zsum (upd l k v) = zsum l + v - nth k l 0.
Proof.
  induction l as [|x l IH]; intros [|k] v L; cbn [length] in L; try lia; cbn [upd zsum nth]; [lia|].
  rewrite IH by lia. lia.
Qed.
Lemma zsum_repeat0 : forall n, zsum (repeat 0 n) = 0.
Proof. induction n; cbn [repeat zsum]; lia. Qed.
Lemma zsum_unit : forall n k, (k < n)%nat -> zsum (unit_column n k) = 1.
Proof.
  intros n k L. unfold unit_column. rewrite zsum_upd by (rewrite repeat_length; exact L).
  rewrite zsum_repeat0, nth_repeat. reflexivity.
Qed.
Lemma fold_neg : forall l s, fold_left (fun s a => s + - a) l s = s - zsum l.
Proof. induction l as [|x l IH]; intros s; cbn [fold_left zsum]; [lia|]. rewrite IH. lia. Qed.
Lemma zsum_column_a : forall c, zsum (column_a c) = 0.
Proof. intros [|x c]; cbn [column_a zsum]; [reflexivity|]. rewrite fold_neg. lia. Qed.
Lemma zsum_map2 : forall d a x, length d = length a ->
  zsum (map2 (fun d y => d * x + y) d a) = zsum d * x + zsum a.
Proof.
  induction d as [|u d IH]; intros [|y a] x L; cbn [length] in L; try lia; cbn [map2 zsum]; [lia|].
  rewrite IH by lia. lia.
Qed.
Lemma nth_unit : forall n k i, (k < n)%nat -> (i < n)%nat -> nth i (unit_column n k) 0 = if (k =? i)%nat then 1 else 0.
Proof.
  intros n k i Hk Hi. unfold unit_column. destruct (Nat.eqb_spec k i) as [->|N].
  - apply nth_upd_same. rewrite repeat_length. exact Hi.
  - rewrite nth_upd_other by exact N. apply nth_repeat.
Qed.

(** the value f at digit i of column j *)
Lemma f_at : forall n star cols x j i, (0 < n)%nat -> Forall (fun d => (d < n)%nat) star ->
  Forall (fun c => length c = n) cols -> length cols = length star -> (j < length star)%nat -> (i < n)%nat ->
  nth (j * n + i) (vec_f_of (vec_delta_of n star) (vec_a_of cols) x) 0
  = (if (nth j star 0 =? i)%nat then 1 else 0) * x + nth (j * n + i) (vec_a_of cols) 0.
Proof.
  intros n star cols x j i Hn Fs Fc L Hj Hi. unfold vec_f_of.
  pose proof (delta_length n star) as Ld. pose proof (veca_length n cols Fc) as La.
  assert (B : (j * n + i < length star * n)%nat) by nia.
  rewrite (map2_pointwise _ _ _ _ _ _ 0 0 0) by lia.
  f_equal. f_equal. unfold vec_delta_of.
  rewrite nth_concat by (try apply unit_columns; rewrite ?map_length; lia).
  rewrite nth_map' with (d := 0%nat) by exact Hj. apply nth_unit; [|exact Hi].
  rewrite Forall_forall in Fs. apply Fs, nth_In. exact Hj.
Qed.

Lemma fold_seq_shift : forall f l k s o,
  (forall i, (i < k)%nat -> nth i l 0 = f (o + i)%nat) -> length l = k ->
  fold_left (fun s i => s + - f i) (seq o k) s = s - zsum l.
Proof.
  intros f l k s o E L. revert k s o E L. induction l as [|x l IH]; intros k s o E L; cbn [length] in L; subst k; cbn [seq fold_left zsum]; [lia|].
  rewrite (IH (length l)); [|intros i Hi; specialize (E (S i) ltac:(lia)); cbn [nth] in E; rewrite E; f_equal; lia|reflexivity].
  specialize (E 0%nat ltac:(lia)). cbn [nth] in E. rewrite Nat.add_0_r in E. rewrite E. lia.
Qed.

Lemma condition0_ok : forall n m star cols x, (0 < n)%nat -> length star = m -> Forall (fun d => (d < n)%nat) star ->
  Forall (fun c => length c = n) cols -> length cols = m ->
  er_condition0 n m (vec_f_of (vec_delta_of n star) (vec_a_of cols) x) x = true.
Proof.
  intros n m star cols x Hn Ls Fs Fc Lc. unfold er_condition0. apply forallb_forall. intros j Hj.
  apply in_seq in Hj. apply Z.eqb_eq.
  set (fc := map2 (map2 (fun d y => d * x + y)) (map (unit_column n) star) (map column_a cols)).
  assert (E : vec_f_of (vec_delta_of n star) (vec_a_of cols) x = concat fc).
  { unfold vec_f_of, vec_delta_of, vec_a_of, fc. apply (map2_concat _ _ _ n);
      [apply unit_columns|apply a_columns; exact Fc|rewrite !map_length; lia]. }
  rewrite E.
  assert (Ffc : Forall (fun c => length c = n) fc).
  { unfold fc. apply Forall_forall. intros c I. apply (In_nth _ _ []) in I. destruct I as [k [Hk <-]].
    rewrite map2_length, !map_length in Hk.
    rewrite (map2_pointwise _ _ _ _ _ _ [] [] []) by (rewrite !map_length; lia).
    rewrite map2_length, nth_map' with (d := 0%nat) by lia. rewrite nth_map' with (d := []) by lia.
    rewrite unit_column_length, column_a_length. rewrite Forall_forall in Fc.
    rewrite (Fc (nth k cols [])) by (apply nth_In; lia). lia. }
  assert (Lfc : length fc = m) by (unfold fc; rewrite map2_length, !map_length; lia).
  set (c := nth j fc []).
  assert (Lc' : length c = n). { rewrite Forall_forall in Ffc. apply Ffc. apply nth_In. lia. }
  assert (Sc : zsum c = x).
  { unfold c, fc. rewrite (map2_pointwise _ _ _ _ _ _ [] [] []) by (rewrite !map_length; lia).
    rewrite nth_map' with (d := 0%nat) by lia. rewrite nth_map' with (d := []) by lia.
    rewrite zsum_map2.
    - rewrite zsum_unit, zsum_column_a; [lia|]. rewrite Forall_forall in Fs. apply Fs, nth_In. lia.
    - rewrite unit_column_length, column_a_length. rewrite Forall_forall in Fc. symmetry. apply Fc, nth_In. lia. }
  assert (N : forall i, (i < n)%nat -> nth (j * n + i) (concat fc) 0 = nth i c 0).
  { intros i Hi. apply nth_concat; [exact Ffc|exact Hi|lia]. }
  destruct c as [|c0 c']; cbn [length] in Lc'; [lia|]. cbn [zsum] in Sc.
  rewrite (fold_seq_shift (fun i => nth (j * n + i) (concat fc) 0) c').
  - specialize (N 0%nat Hn). rewrite Nat.add_0_r in N. rewrite N. cbn [nth]. lia.
  - intros i Hi. rewrite N by lia. reflexivity.
  - lia.
Qed.

(** ** polynomials with linear factors *)
Lemma conv_top : forall r a b, r <> [] -> conv r [a; b] (length r) = nth (length r - 1) r 0 * b.
Proof.
  intros r a b Nr. unfold conv. destruct (length r) as [|L] eqn:E; [destruct r; [congruence|discriminate]|].
  rewrite !seq_S, !map_app, !zsum_app. cbn [map zsum Nat.add].
  rewrite zsum_all0.
  - replace (S L - S L)%nat with 0%nat by lia. replace (S L - L)%nat with 1%nat by lia.
    replace (S L - 1)%nat with L by lia. cbn [nth]. rewrite (@nth_overflow _ r (S L)) by lia. lia.
  - apply Forall_forall. intros z I. apply in_map_iff in I. destruct I as [i [<- I]]. apply in_seq in I.
    rewrite (nth_overflow [a; b]) by (cbn [length]; lia). lia.
Qed.

Lemma PolyMulVec_linear : forall ab r q, 0 < q -> r <> [] ->
  exists C, PolyMulVec_loop r (map (fun p => [fst p; snd p]) ab) q = Some C /\
    length C = (length r + length ab)%nat /\
    cong q (nth (length C - 1) C 0) (nth (length r - 1) r 0 * zprod (map snd ab)).
Proof.
  induction ab as [|[a b] ab IH]; intros r q Hq Nr; cbn [map PolyMulVec_loop fst snd].
  - exists r. split; [reflexivity|]. split; [cbn [length]; lia|]. cbn [map zprod]. rewrite Z.mul_1_r. reflexivity.
  - destruct (PolyMul r [a; b] q) as [r'|] eqn:M.
    + pose proof (PolyMul_some _ _ _ _ M) as L. cbn [length] in L.
      destruct (IH r' q Hq) as [C [E [LC T]]].
      { intros ->. cbn [length] in L. lia. }
      exists C. split; [exact E|]. split; [cbn [length]; lia|].
      etransitivity; [exact T|]. cbn [map zprod]. rewrite Z.mul_assoc. apply cong_mul; [|reflexivity].
      pose proof (PolyMul_coef _ _ _ _ (length r) Hq M ltac:(lia)) as K.
      replace (length r' - 1)%nat with (length r) by lia. rewrite K, conv_top by exact Nr.
      apply cong_modl. exact Hq.
    + exfalso. unfold PolyMul in M. destruct r; [congruence|]. cbn in M. discriminate.
Qed.

Lemma zprod_digits : forall k (s t : list nat), length s = k -> length t = k ->
  zprod (map (fun j => if (nth j s 0 =? nth j t 0)%nat then 1 else 0) (seq 0 k))
  = if list_eq_dec Nat.eq_dec s t then 1 else 0.
Proof.
  induction k as [|k IH]; intros s t Ls Lt.
  - destruct s; [|discriminate]. destruct t; [|discriminate]. reflexivity.
  - destruct s as [|a s]; [discriminate|]. destruct t as [|b t]; [discriminate|].
    cbn [seq map zprod nth]. rewrite <- seq_shift, map_map. cbn [nth].
    rewrite IH by (cbn in *; lia).
    destruct (Nat.eqb_spec a b) as [->|N]; destruct (list_eq_dec Nat.eq_dec s t) as [->|N'];
      destruct (list_eq_dec Nat.eq_dec (_ :: _) (_ :: _)) as [E|E]; try congruence; reflexivity.
Qed.

Lemma powers_nth : forall k cur x i, (i < k)%nat -> nth i (powers k cur x) 0 = cur * x ^ Z.of_nat i.
Proof.
  induction k as [|k IH]; intros cur x i Hi; [lia|]. cbn [powers]. destruct i as [|i]; cbn [nth].
  - change (Z.of_nat 0) with 0. rewrite Z.pow_0_r. lia.
  - rewrite IH by lia. rewrite Nat2Z.inj_succ, Z.pow_succ_r by lia. ring.
Qed.

(** the polynomial value split into low part and top coefficient *)
Definition low (x : Z) (m : nat) (p : list Z) : Z := zsum (map (fun k => nth k p 0 * x ^ Z.of_nat k) (seq 0 m)).

Lemma low_succ : forall x m p, low x (S m) p = low x m p + nth m p 0 * x ^ Z.of_nat m.
Proof. intros. unfold low. rewrite seq_S, map_app, zsum_app. cbn [map zsum Nat.add]. lia. Qed.

Lemma peval_low : forall p x, peval p x = low x (length p) p.
Proof.
  intros p x. unfold low.
  assert (X : forall p o, x ^ Z.of_nat o * peval p x = zsum (map (fun k => nth k p 0 * x ^ Z.of_nat (o + k)) (seq 0 (length p)))).
  { clear. induction p as [|c p IH]; intros o; cbn [peval length seq map zsum]; [lia|].
    rewrite <- seq_shift, map_map. cbn [nth]. rewrite Nat.add_0_r.
    specialize (IH (S o)). rewrite Nat2Z.inj_succ, Z.pow_succ_r in IH by lia.
    replace (x ^ Z.of_nat o * (c + x * peval p x)) with (c * x ^ Z.of_nat o + x * x ^ Z.of_nat o * peval p x) by ring.
    rewrite IH. f_equal. f_equal. apply map_ext. intros k. f_equal. f_equal. lia. }
  specialize (X p 0%nat). change (Z.of_nat 0) with 0 in X. rewrite Z.pow_0_r, Z.mul_1_l in X. exact X.
Qed.

Section P.
Variable G : ECGroup.
Local Notation q := (order G).
Local Infix "+p" := (padd G) (at level 50, left associativity).
Local Infix "-p" := (psub G) (at level 50, left associativity).
Local Notation "P *p k" := (pmul G P k%Z) (at level 40, left associativity).

Lemma product_cong : forall n m f i, cong q (er_product G n m f i)
  (zprod (map (fun j => nth (j * n + nth j (Decompose i n m) 0%nat) f 0) (seq 0 m))).
Proof.
  intros n m f i. unfold er_product. generalize (Decompose i n m). intros idx.
  assert (X : forall l s, cong q (fold_left (fun s j => modq G (s * nth (j * n + nth j idx 0%nat) f 0)) l s)
                           (s * zprod (map (fun j => nth (j * n + nth j idx 0%nat) f 0) l))).
  { induction l as [|j l IH]; intros s; cbn [fold_left map zprod]; [rewrite Z.mul_1_r; reflexivity|].
    etransitivity; [apply IH|]. rewrite modq_cong. apply cong_eq. ring. }
  etransitivity; [apply X|]. rewrite Z.mul_1_l. reflexivity.
Qed.

(** the polynomial of ciphertext i: product of f's = low part + [i is the index] x^m *)
Lemma poly_value : forall n m l i cols x, (0 < n)%nat -> Forall (fun c => length c = n) cols -> length cols = m ->
  (i < n ^ m)%nat ->
  let star := Decompose l n m in
  let a := vec_a_of cols in
  exists p, PolyMulVec (factors n a star (Decompose i n m)) q = Some p /\
    cong q (er_product G n m (vec_f_of (vec_delta_of n star) a x) i)
           (low x m p + (if (i =? l mod n ^ m)%nat then 1 else 0) * x ^ Z.of_nat m).
Proof.
  intros n m l i cols x Hn Fc Lc Hi star a.
  pose proof (Decompose_length m i n) as Li. pose proof (Decompose_length m l n) as Ll.
  set (idx := Decompose i n m) in *.
  set (ab := map (fun j => (nth (j * n + nth j idx 0%nat) a 0, if (nth j star 0 =? nth j idx 0)%nat then 1 else 0)) (seq 0 m)).
  assert (Ef : factors n a star idx = map (fun p => [fst p; snd p]) ab).
  { unfold factors, ab. rewrite Li, map_map. reflexivity. }
  destruct (PolyMulVec_linear ab [1] q (order_pos G) ltac:(discriminate)) as [p [E [L T]]].
  exists p. split; [rewrite Ef; exact E|].
  pose proof (PolyMulVec_loop_eval _ _ _ _ x (order_pos G) E) as V.
  assert (Lab : length ab = m) by (unfold ab; rewrite map_length, seq_length; reflexivity).
  cbn [length Nat.add] in L. rewrite Lab in L. cbn [length Nat.sub nth] in T.
  replace (length p - 1)%nat with m in T by lia. rewrite Z.mul_1_l in T.
  assert (D : zprod (map snd ab) = if (i =? l mod n ^ m)%nat then 1 else 0).
  { unfold ab. rewrite map_map. cbn [snd]. rewrite zprod_digits by assumption.
    unfold star, idx. destruct (list_eq_dec Nat.eq_dec (Decompose l n m) (Decompose i n m)) as [e|ne].
    - apply Decompose_eq in e; [|assumption|assumption]. rewrite <- e, Nat.eqb_refl. reflexivity.
    - destruct (Nat.eqb_spec i (l mod n ^ m)); [|reflexivity]. exfalso. apply ne.
      apply Decompose_eq; assumption. }
  rewrite D in T. etransitivity; [apply product_cong|]. fold idx.
  rewrite peval_low, L, low_succ in V. rewrite T in V. rewrite V. cbn [peval].
  apply cong_eq. rewrite Z.mul_0_r, Z.add_0_r, Z.mul_1_l. f_equal. unfold ab. rewrite !map_map. cbn [fst snd].
  apply map_ext_in. intros j Hj. apply in_seq in Hj.
  unfold a. rewrite f_at; try assumption; try (apply Decompose_lt; assumption); try (unfold star; lia).
  - cbn [peval]. rewrite Z.mul_0_r, Z.add_0_r. ring.
  - pose proof (Decompose_lt m i n Hn) as F. rewrite Forall_forall in F. apply F, nth_In. fold idx. lia.
Qed.

Lemma polys_some : forall n m l cols x, (0 < n)%nat -> Forall (fun c => length c = n) cols -> length cols = m ->
  forall is_, Forall (fun i => (i < n ^ m)%nat) is_ ->
  let star := Decompose l n m in
  let a := vec_a_of cols in
  exists P, polys G n m a star is_ = Some P /\
   Forall2 (fun i p => cong q (er_product G n m (vec_f_of (vec_delta_of n star) a x) i - low x m p)
     ((if (i =? l mod n ^ m)%nat then 1 else 0) * x ^ Z.of_nat m)) is_ P.
Proof.
  intros n m l cols x Hn Fc Lc is_ F star a. induction F as [|i is_ Hi F [P [E R]]]; cbn [polys].
  - exists []. split; [reflexivity|constructor].
  - destruct (poly_value n m l i cols x Hn Fc Lc Hi) as [p [Ep V]]. fold star a in Ep, V.
    rewrite Ep, E. exists (p :: P). split; [reflexivity|]. constructor; [|exact R].
    rewrite V. apply cong_eq. ring.
Qed.

(** ** multi-exponentiations *)
Lemma lincomb_X : forall cts c acc,
  tX G (fold_left (fun acc p => T_HomoAdd G acc (T_ScalarMul G (fst p) (snd p))) (combine cts c) acc)
  = tX G acc +p msum G (map (tX G) cts) c.
Proof.
  induction cts as [|ct cts IH]; intros [|k c] acc; cbn [combine fold_left map msum]; try (rewrite padd_inf; reflexivity).
  rewrite IH. cbn [T_HomoAdd T_ScalarMul tX fst snd]. rewrite padd_assoc. reflexivity.
Qed.
Lemma lincomb_Y : forall cts c acc,
  tY G (fold_left (fun acc p => T_HomoAdd G acc (T_ScalarMul G (fst p) (snd p))) (combine cts c) acc)
  = tY G acc +p msum G (map (tY G) cts) c.
Proof.
  induction cts as [|ct cts IH]; intros [|k c] acc; cbn [combine fold_left map msum]; try (rewrite padd_inf; reflexivity).
  rewrite IH. cbn [T_HomoAdd T_ScalarMul tY fst snd]. rewrite padd_assoc. reflexivity.
Qed.

Lemma ct_lincomb_X : forall cts c, tX G (ct_lincomb G cts c) = inf G +p msum G (map (tX G) cts) c.
Proof. intros. apply lincomb_X. Qed.
Lemma ct_lincomb_Y : forall cts c, tY G (ct_lincomb G cts c) = inf G +p msum G (map (tY G) cts) c.
Proof. intros. apply lincomb_Y. Qed.

Lemma msum_cong : forall Xs a b, Forall2 (cong q) a b -> msum G Xs a = msum G Xs b.
Proof.
  induction Xs as [|X Xs IH]; intros a b F; destruct F as [|x y a b C F]; cbn [msum]; try reflexivity.
  rewrite (IH a b F), (pmul_cong G X x y C). reflexivity.
Qed.

Lemma msum_map_lin : forall (A : Type) (f h : A -> Z) c Xs l,
  msum G Xs (map (fun p => f p + h p * c) l) = msum G Xs (map f l) +p msum G Xs (map h l) *p c.
Proof.
  induction Xs as [|X Xs IH]; intros [|p l]; cbn [map msum]; try (rewrite inf_mul, padd_inf; reflexivity).
  rewrite IH. generalize (msum G Xs (map f l)) (msum G Xs (map h l)). intros P Q. clear. logs G. gring.
Qed.

Lemma msum_single : forall Xs l c o, (l < length Xs)%nat ->
  msum G Xs (map (fun i => (if (i =? o + l)%nat then 1 else 0) * c) (seq o (length Xs))) = nth l Xs (inf G) *p c.
Proof.
  induction Xs as [|X Xs IH]; intros l c o L; cbn [length] in *; [lia|]. cbn [seq map msum].
  destruct l as [|l]; cbn [nth].
  - rewrite Nat.add_0_r, Nat.eqb_refl, Z.mul_1_l.
    assert (Z0 : msum G Xs (map (fun i => (if (i =? o)%nat then 1 else 0) * c) (seq (S o) (length Xs))) = inf G).
    { rewrite <- (msum_zeros G Xs (length Xs)). f_equal.
      apply (list_eq_nth _ _ 0); [rewrite map_length, repeat_length, seq_length; reflexivity|].
      intros i Hi. rewrite map_length, seq_length in Hi. rewrite nth_repeat.
      rewrite nth_map' with (d := 0%nat) by (rewrite seq_length; exact Hi). rewrite nth_seq' by exact Hi.
      destruct (Nat.eqb_spec (S o + i) o); [lia|]. lia. }
    rewrite Z0. apply padd_inf.
  - destruct (Nat.eqb_spec o (o + S l)); [lia|]. rewrite Z.mul_0_l, pmul_0, padd_inf_l.
    rewrite <- (IH l c (S o)) by lia. f_equal. apply map_ext. intros i. f_equal.
    replace (S o + l)%nat with (o + S l)%nat by lia. reflexivity.
Qed.

(** the chain of subtractions of the verifier against honest vec_G *)
Lemma chain : forall Xs P (K : nat -> pt G) (E : pt G) rho x m L,
  (forall k, (k < m)%nat -> K k = msum G Xs (map (fun p => nth k p 0) P) +p E *p nth k rho 0) ->
  fold_left (fun acc k => acc -p K k *p x ^ Z.of_nat k) (seq 0 m) L
  = L -p msum G Xs (map (low x m) P) -p E *p low x m rho.
Proof.
  intros Xs P K E rho x m L HK. induction m as [|m IH].
  - cbn [seq fold_left]. unfold low. cbn [seq map zsum].
    assert (Z0 : msum G Xs (map (fun _ => 0) P) = inf G).
    { rewrite <- (msum_zeros G Xs (length P)). f_equal. clear. induction P as [|p0 P IHP]; cbn [map repeat length]; [reflexivity|]. f_equal. exact IHP. }
    rewrite Z0, pmul_0. clear. unfold psub. rewrite pneg_inf, !padd_inf. reflexivity.
  - rewrite seq_S, fold_left_app. cbn [fold_left Nat.add]. rewrite IH by (intros k Hk; apply HK; lia).
    rewrite (HK m) by lia.
    rewrite (map_ext (low x (S m)) (fun p => low x m p + nth m p 0 * x ^ Z.of_nat m)) by (intros; apply low_succ).
    rewrite msum_map_lin, low_succ.
    generalize (msum G Xs (map (low x m) P)) (msum G Xs (map (fun p => nth m p 0) P)) (low x m rho) (x ^ Z.of_nat m) (nth m rho 0).
    intros A B u v w. clear. logs G. gring.
Qed.

Lemma msum_scale : forall hs v x, msum G hs (map (fun c => c * x) v) = msum G hs v *p x.
Proof.
  induction hs as [|h hs IH]; intros [|c v] x; cbn [map msum]; try (symmetry; apply inf_mul).
  rewrite IH. generalize (msum G hs v). intros P. clear. logs G. gring.
Qed.

Lemma commit_lin : forall g hs u v ru rv x w z U V,
  length u = length v -> Commit G g hs u ru = Some U -> Commit G g hs v rv = Some V ->
  w = map2 (fun a b => a * x + b) u v -> z = modq G (ru * x + rv) ->
  Commit G g hs w z = Some (U *p x +p V).
Proof.
  intros g hs u v ru rv x w z U V L EU EV -> ->.
  assert (B : (length u <= length hs)%nat).
  { unfold Commit in EU. destruct (Nat.leb_spec (length u) (length hs)); [assumption|discriminate]. }
  rewrite Commit_some in EU by exact B. rewrite Commit_some in EV by lia.
  rewrite Commit_some by (rewrite map2_length; lia). inversion EU; subst U. inversion EV; subst V. f_equal.
  assert (W : map2 (fun a b => a * x + b) u v = map2 Z.add (map (fun c => c * x) u) v).
  { clear - L. revert v L. induction u as [|a u IH]; intros [|b v] L; cbn [length] in L; try lia; cbn [map2 map]; [reflexivity|].
    f_equal. apply IH. lia. }
  rewrite W, <- msum_add by (rewrite map_length; exact L). rewrite msum_scale.
  generalize (msum G hs u) (msum G hs v). intros P Q. clear. logs G. gring.
Qed.

Definition bits (d : list Z) : Prop := Forall (fun b => b = 0 \/ b = 1) d.

Lemma delta_bits : forall n star, bits (vec_delta_of n star).
Proof.
  intros n star. unfold bits, vec_delta_of. apply Forall_concat. apply Forall_forall. intros c I.
  apply in_map_iff in I. destruct I as [k [<- _]]. unfold unit_column. apply Forall_upd; [|auto].
  apply Forall_forall. intros x J. apply repeat_spec in J. auto.
Qed.

Lemma square_split : forall d a x, bits d -> length d = length a ->
  map (fun v => v * (x - v)) (vec_f_of d a x) = map2 (fun u w => u * x + w) (vec_c_of a d) (vec_d_of a).
Proof.
  intros d a x B. revert a. induction B as [|b d Hb B IH]; intros [|y a] L; cbn [length] in L; try lia; [reflexivity|].
  unfold vec_f_of, vec_c_of, vec_d_of in *. cbn [map2 map]. rewrite IH by lia. f_equal.
  destruct Hb as [-> | ->]; ring.
Qed.

Lemma map_nth_all : forall (f : Z -> Z) l k, length l = k -> map (fun i => f (nth i l 0)) (seq 0 k) = map f l.
Proof.
  intros f l k <-. rewrite <- (map_nth_seq l 0) at 2. rewrite map_map. reflexivity.
Qed.

Lemma fold_z : forall rho ex l s, fold_left (fun s k => s - nth k rho 0 * nth k ex 0) l s
  = s - zsum (map (fun k => nth k rho 0 * nth k ex 0) l).
Proof.
  intros rho ex l. induction l as [|k l IH]; intros s; cbn [fold_left map zsum]; [lia|]. rewrite IH. lia.
Qed.

Lemma T_eqb_true : forall a b, T_eqb G a b = true <-> tX G a = tX G b /\ tY G a = tY G b.
Proof. intros a b. unfold T_eqb. rewrite andb_true_iff, !peqb_true. reflexivity. Qed.

(** components of the verifier's accumulated ciphertext *)
Lemma left_X : forall vG ex l acc,
  tX G (fold_left (fun acc k => T_HomoSub G acc (T_ScalarMul G (nth k vG (ct_inf G)) (nth k ex 0))) l acc)
  = fold_left (fun acc k => acc -p tX G (nth k vG (ct_inf G)) *p nth k ex 0) l (tX G acc).
Proof. intros vG ex l. induction l as [|k l IH]; intros acc; cbn [fold_left]; [reflexivity|]. rewrite IH. reflexivity. Qed.
Lemma left_Y : forall vG ex l acc,
  tY G (fold_left (fun acc k => T_HomoSub G acc (T_ScalarMul G (nth k vG (ct_inf G)) (nth k ex 0))) l acc)
  = fold_left (fun acc k => acc -p tY G (nth k vG (ct_inf G)) *p nth k ex 0) l (tY G acc).
Proof. intros vG ex l. induction l as [|k l IH]; intros acc; cbn [fold_left]; [reflexivity|]. rewrite IH. reflexivity. Qed.

Lemma fold_left_ext_in : forall (A B : Type) (f h : A -> B -> A) l s,
  (forall a b, In b l -> f a b = h a b) -> fold_left f l s = fold_left h l s.
Proof.
  intros A B f h l. induction l as [|b l IH]; intros s E; cbn [fold_left]; [reflexivity|].
  rewrite E by (left; reflexivity). apply IH. intros. apply E. right. assumption.
Qed.

Lemma eq_iff_cancel : forall P Q R S : pt G, (P = Q <-> R = S) -> forall P', P' = P -> (P' = Q <-> R = S).
Proof. intros. subst. assumption. Qed.

(** the final equation for one component *)
Lemma final_component : forall Xs P prods E rho x r m l N K,
  length Xs = N -> (l < N)%nat -> length rho = m ->
  Forall2 (fun i p => cong q (prods i - low x m p) ((if (i =? l)%nat then 1 else 0) * x ^ Z.of_nat m)) (seq 0 N) P ->
  (forall k, (k < m)%nat -> K k = msum G Xs (map (fun p => nth k p 0) P) +p E *p nth k rho 0) ->
  (fold_left (fun acc k => acc -p K k *p nth k (powers m 1 x) 0) (seq 0 m) (inf G +p msum G Xs (map prods (seq 0 N)))
   = E *p (fold_left (fun s k => s - nth k rho 0 * nth k (powers (S m) 1 x) 0) (seq 0 m) (r * nth m (powers (S m) 1 x) 0))
   <-> nth l Xs (inf G) *p x ^ Z.of_nat m = E *p r *p x ^ Z.of_nat m).
Proof.
  intros Xs P prods E rho x r m l N K LX Hl Lr F2 HK.
  rewrite fold_z, powers_nth, Z.mul_1_l by lia.
  assert (Z1 : zsum (map (fun k => nth k rho 0 * nth k (powers (S m) 1 x) 0) (seq 0 m)) = low x m rho).
  { unfold low. f_equal. apply map_ext_in. intros k Hk. apply in_seq in Hk. rewrite powers_nth by lia. f_equal. lia. }
  rewrite Z1.
  rewrite (fold_left_ext_in _ _ _ (fun acc k => acc -p K k *p x ^ Z.of_nat k)).
  2:{ intros a b Hb. apply in_seq in Hb. rewrite powers_nth, Z.mul_1_l by lia. reflexivity. }
  rewrite (chain Xs P K E rho x m _ HK), padd_inf_l.
  assert (D : msum G Xs (map prods (seq 0 N)) -p msum G Xs (map (low x m) P) = nth l Xs (inf G) *p x ^ Z.of_nat m).
  { rewrite <- (msum_single Xs l (x ^ Z.of_nat m) 0) by lia. rewrite LX.
    assert (LF : N = length P) by (rewrite <- (seq_length N 0); clear - F2; induction F2; cbn [length]; congruence).
    rewrite <- msum_sub by (rewrite !map_length, seq_length; exact LF).
    apply msum_cong. clear - F2. cbn [Nat.add]. induction F2 as [|i p is_ P C F2 IH]; cbn [map map2]; constructor; assumption. }
  rewrite D. set (A := nth l Xs (inf G) *p x ^ Z.of_nat m). clearbody A. generalize (low x m rho) (x ^ Z.of_nat m). clear. intros u v.
  split; intros Q.
  - transitivity ((A -p E *p u) +p E *p u); [clear; logs G; gring|]. rewrite Q. clear. logs G. gring.
  - rewrite Q. clear. logs G. gring.
Qed.
End P.

Section Core.
Variable G : ECGroup.
Variable H : list N -> Z.
Local Notation q := (order G).
Local Infix "+p" := (padd G) (at level 50, left associativity).
Local Infix "-p" := (psub G) (at level 50, left associativity).
Local Notation "P *p k" := (pmul G P k%Z) (at level 40, left associativity).

(** What Verify says about the output of Prove, whatever the prover's witness is. *)
Lemma ER_core : forall pp m cts ek l r tr rn, (1 <= er_n G pp)%nat -> (1 <= m)%nat ->
  length cts = (er_n G pp ^ m)%nat -> (m * er_n G pp <= length (er_h G pp))%nat -> rand_shape (er_n G pp) m rn ->
  exists p tr' b,
    ER_Prove G H pp m cts ek l r tr rn = Some (p, tr') /\
    ER_Verify G H pp m cts ek tr p = Some (b, tr') /\
    tr' = er_transcript G tr (erB G p) (erA G p) (erC G p) (erD G p) /\
    (b = true <->
      let ct := nth (l mod length cts) cts (ct_inf G) in
      let xm := H tr' ^ Z.of_nat m in
      tX G ct *p xm = ek *p r *p xm /\ tY G ct *p xm = t_g G (er_enc G pp) *p r *p xm).
Proof.
  intros pp m cts ek l r tr rn Hn Hm LN LH [Lc [Fc Lr]]. set (n := er_n G pp) in *.
  set (star := Decompose l n m). set (delta := vec_delta_of n star). set (a := vec_a_of (rn_cols rn)).
  assert (Ls : length star = m) by apply Decompose_length.
  assert (Fs : Forall (fun d => (d < n)%nat) star) by (apply Decompose_lt; exact Hn).
  assert (Ld : length delta = (m * n)%nat) by (unfold delta; rewrite delta_length, Ls; reflexivity).
  assert (La : length a = (m * n)%nat) by (unfold a; rewrite (veca_length n), Lc; [reflexivity|exact Fc]).
  assert (Lcc : length (vec_c_of a delta) = (m * n)%nat) by (unfold vec_c_of; rewrite map2_length; lia).
  assert (Ldd : length (vec_d_of a) = (m * n)%nat) by (unfold vec_d_of; rewrite map_length; exact La).
  pose proof (Commit_some G (er_g G pp) (er_h G pp) delta (rn_B rn) ltac:(lia)) as EB.
  pose proof (Commit_some G (er_g G pp) (er_h G pp) a (rn_A rn) ltac:(lia)) as EA.
  pose proof (Commit_some G (er_g G pp) (er_h G pp) (vec_c_of a delta) (rn_C rn) ltac:(lia)) as EC.
  pose proof (Commit_some G (er_g G pp) (er_h G pp) (vec_d_of a) (rn_D rn) ltac:(lia)) as ED.
  set (B := er_g G pp *p rn_B rn +p msum G (er_h G pp) delta) in *.
  set (A := er_g G pp *p rn_A rn +p msum G (er_h G pp) a) in *.
  set (C := er_g G pp *p rn_C rn +p msum G (er_h G pp) (vec_c_of a delta)) in *.
  set (D := er_g G pp *p rn_D rn +p msum G (er_h G pp) (vec_d_of a)) in *.
  set (tr' := er_transcript G tr B A C D). set (x := H tr').
  assert (Fi : Forall (fun i => (i < n ^ m)%nat) (seq 0 (length cts))).
  { apply Forall_forall. intros i Hi. apply in_seq in Hi. lia. }
  destruct (polys_some G n m l (rn_cols rn) x Hn Fc Lc _ Fi) as [P [EP F2]].
  fold star a in EP, F2. fold delta in F2.
  unfold ER_Prove. fold n star delta a. rewrite EB, EA, EC, ED, EP. fold tr' x.
  eexists. exists tr'. eexists. split; [reflexivity|]. split; [|split].
  2:{ reflexivity. }
  - unfold ER_Verify. fold n. cbn [erB erA erC erD erf erzA erzC erG erz]. fold tr' x.
    assert (Lf : length (vec_f_of delta a x) = (m * n)%nat) by (unfold vec_f_of; rewrite map2_length; lia).
    rewrite Lf, map_length, seq_length, !Nat.leb_refl.
    assert (E1 : (1 <=? m)%nat = true) by (apply Nat.leb_le; exact Hm). rewrite E1. cbn [andb].
    rewrite (map_nth_all (fun v => v * (x - v)) _ _ Lf).
    rewrite (commit_lin G (er_g G pp) (er_h G pp) delta a (rn_B rn) (rn_A rn) x (vec_f_of delta a x) _ B A ltac:(lia) EB EA eq_refl eq_refl).
    rewrite (square_split delta a x (delta_bits n star) ltac:(lia)).
    rewrite (commit_lin G (er_g G pp) (er_h G pp) (vec_c_of a delta) (vec_d_of a) (rn_C rn) (rn_D rn) x _ _ C D ltac:(lia) EC ED eq_refl eq_refl).
    rewrite !peqb_refl. unfold delta at 1, a at 1. rewrite condition0_ok by assumption. cbn [andb]. reflexivity.
  - cbv zeta. rewrite T_eqb_true. unfold T_EncPoint at 2 4. cbn [tX tY].
    rewrite left_X, left_Y. rewrite ct_lincomb_X, ct_lincomb_Y.
    rewrite padd_inf.
    assert (Lpos : (0 < length cts)%nat). { rewrite LN. apply Nat.neq_0_lt_0, Nat.pow_nonzero. lia. }
    assert (Lm : (l mod length cts < length cts)%nat) by (apply Nat.mod_upper_bound; lia).
    rewrite <- LN in F2.
    rewrite (final_component G (map (tX G) cts) P (er_product G n m (vec_f_of delta a x)) ek (rn_rho rn) x r m (l mod length cts) (length cts)
      (fun k => tX G (nth k (map (fun k => T_HomoAdd G (ct_lincomb G cts (map (fun p => nth k p 0) P)) (T_EncPoint G (er_enc G pp) ek (inf G) (nth k (rn_rho rn) 0))) (seq 0 m)) (ct_inf G))));
      [|apply map_length|exact Lm|exact Lr|exact F2|].
    2:{ intros k Hk. rewrite nth_map' with (d := 0%nat) by (rewrite seq_length; exact Hk). rewrite nth_seq' by exact Hk.
        cbn [T_HomoAdd T_EncPoint tX Nat.add]. rewrite ct_lincomb_X, padd_inf_l. reflexivity. }
    rewrite (final_component G (map (tY G) cts) P (er_product G n m (vec_f_of delta a x)) (t_g G (er_enc G pp)) (rn_rho rn) x r m (l mod length cts) (length cts)
      (fun k => tY G (nth k (map (fun k => T_HomoAdd G (ct_lincomb G cts (map (fun p => nth k p 0) P)) (T_EncPoint G (er_enc G pp) ek (inf G) (nth k (rn_rho rn) 0))) (seq 0 m)) (ct_inf G))));
      [|apply map_length|exact Lm|exact Lr|exact F2|].
    2:{ intros k Hk. rewrite nth_map' with (d := 0%nat) by (rewrite seq_length; exact Hk). rewrite nth_seq' by exact Hk.
        cbn [T_HomoAdd T_EncPoint tY Nat.add]. rewrite ct_lincomb_Y, padd_inf_l, padd_inf. reflexivity. }
    rewrite (nth_map' (tX G) cts _ (ct_inf G)) by exact Lm. rewrite (nth_map' (tY G) cts _ (ct_inf G)) by exact Lm.
    reflexivity.
Qed.
End Core.

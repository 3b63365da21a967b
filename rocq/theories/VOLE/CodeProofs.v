From Coq Require Import NArith ZArith List Bool Arith Lia.
From Coq Require Import ZifyBool ZifyNat ZifyN.
From Verif.Base Require Import Words ListX.
From Verif.Crypto Require Import BlockModel BlockProofs AESModel AESProofs AESKeyProofs PRGModel PRGProofs.
From Verif.OT Require Import OTSpec OTProofs.
From Verif.VOLE Require Import CodeModel.
Import ListNotations.

Lemma map2_upd : forall (op : N -> N -> N) x y j u v, length x = length y ->
  upd (map2 op x y) j (op u v) = map2 op (upd x j u) (upd y j v).
Proof.
  intros op. induction x as [|a x IH]; intros [|b y] j u v L; try discriminate; [reflexivity|].
  cbn [length] in L. destruct j as [|j]; cbn [upd map2]; [reflexivity|]. rewrite IH by lia. reflexivity.
Qed.

(** ** the loops do the same thing to all vectors of one length *)
Section Hom.
Variable op : N -> N -> N.
Hypothesis op_add : forall a b a' b', op (N.lxor a a') (N.lxor b b') = N.lxor (op a b) (op a' b').

Lemma op_0 : op 0 0 = 0%N.
Proof.
  assert (H := op_add 0 0 0 0). rewrite N.lxor_0_l in H. rewrite N.lxor_nilpotent in H. exact H.
Qed.

Lemma zip_nth : forall x y i, length x = length y -> nth i (map2 op x y) 0%N = op (nth i x 0%N) (nth i y 0%N).
Proof.
  intros x y i L. destruct (Nat.lt_ge_cases i (length x)) as [H|H].
  - apply map2_nth; lia.
  - rewrite !nth_overflow by (rewrite ?map2_length; lia). symmetry. apply op_0.
Qed.

Lemma row_hom : forall n i j x y rnd, length x = length y ->
  match acc_row n i j x rnd with
  | Some (x', j', r') => length x' = length x /\ exists y', length y' = length y /\
      acc_row n i j y rnd = Some (y', j', r') /\ acc_row n i j (map2 op x y) rnd = Some (map2 op x' y', j', r')
  | None => acc_row n i j y rnd = None /\ acc_row n i j (map2 op x y) rnd = None
  end.
Proof.
  induction n as [|n IH]; intros i j x y rnd L; cbn [acc_row].
  - split; [reflexivity|]. exists y. auto.
  - destruct rnd as [|b rnd]; [auto|]. destruct (b =? 1)%N; [|apply IH, L].
    rewrite map2_length, <- L, Nat.min_id.
    destruct ((i <? length x) && (j <? length x))%nat; [|auto].
    set (x1 := upd x j (N.lxor (nth j x 0%N) (nth i x 0%N))).
    set (y1 := upd y j (N.lxor (nth j y 0%N) (nth i y 0%N))).
    assert (L1 : length x1 = length y1) by (unfold x1, y1; rewrite !upd_length; exact L).
    assert (LX : length x1 = length x) by apply upd_length.
    assert (LY : length y1 = length y) by apply upd_length.
    assert (E : upd (map2 op x y) j (N.lxor (nth j (map2 op x y) 0%N) (nth i (map2 op x y) 0%N)) = map2 op x1 y1).
    { rewrite !zip_nth by exact L. rewrite <- op_add. apply map2_upd, L. }
    rewrite E. specialize (IH i (S j) x1 y1 rnd L1).
    destruct (acc_row n i (S j) x1 rnd) as [[[x' j'] r']|].
    + destruct IH as (A & y' & B & C & D). split; [congruence|]. exists y'. split; [congruence|]. auto.
    + exact IH.
Qed.

Lemma main_hom : forall n a i x y rnd, length x = length y ->
  match acc_main n a i x rnd with
  | Some (i', x', r') => length x' = length x /\ exists y', length y' = length y /\
      acc_main n a i y rnd = Some (i', y', r') /\ acc_main n a i (map2 op x y) rnd = Some (i', map2 op x' y', r')
  | None => acc_main n a i y rnd = None /\ acc_main n a i (map2 op x y) rnd = None
  end.
Proof.
  induction n as [|n IH]; intros a i x y rnd L; cbn [acc_main].
  - split; [reflexivity|]. exists y. auto.
  - generalize (N.to_nat (wrap32 (N.of_nat a + 2 ^ 32 - 1))). intros m.
    pose proof (row_hom m i (S i) x y rnd L) as H.
    destruct (acc_row m i (S i) x rnd) as [[[x0 j] r0]|].
    2:{ destruct H as [-> ->]. auto. }
    destruct H as (LX & y0 & LY & -> & ->).
    assert (L0 : length x0 = length y0) by congruence.
    rewrite map2_length, <- L0, Nat.min_id.
    destruct ((i <? length x0) && (j <? length x0))%nat; [|auto].
    set (x1 := upd x0 j (N.lxor (nth j x0 0%N) (nth i x0 0%N))).
    set (y1 := upd y0 j (N.lxor (nth j y0 0%N) (nth i y0 0%N))).
    assert (L1 : length x1 = length y1) by (unfold x1, y1; rewrite !upd_length; exact L0).
    assert (LX1 : length x1 = length x0) by apply upd_length.
    assert (LY1 : length y1 = length y0) by apply upd_length.
    assert (E : upd (map2 op x0 y0) j (N.lxor (nth j (map2 op x0 y0) 0%N) (nth i (map2 op x0 y0) 0%N)) = map2 op x1 y1).
    { rewrite !zip_nth by exact L0. rewrite <- op_add. apply map2_upd, L0. }
    rewrite E. specialize (IH a (S i) x1 y1 r0 L1).
    destruct (acc_main n a (S i) x1 r0) as [[[i' x'] r']|].
    + destruct IH as (A & y' & B & C & D). split; [congruence|]. exists y'. split; [congruence|]. auto.
    + exact IH.
Qed.

Lemma tail_hom : forall n size i x y rnd, length x = length y ->
  match acc_tail n size i x rnd with
  | Some x' => length x' = length x /\ exists y', length y' = length y /\
      acc_tail n size i y rnd = Some y' /\ acc_tail n size i (map2 op x y) rnd = Some (map2 op x' y')
  | None => acc_tail n size i y rnd = None /\ acc_tail n size i (map2 op x y) rnd = None
  end.
Proof.
  induction n as [|n IH]; intros size i x y rnd L; cbn [acc_tail].
  - split; [reflexivity|]. exists y. auto.
  - generalize (size - S i)%nat. intros m.
    pose proof (row_hom m i (S i) x y rnd L) as H.
    destruct (acc_row m i (S i) x rnd) as [[[x0 j] r0]|].
    2:{ destruct H as [-> ->]. auto. }
    destruct H as (LX & y0 & LY & -> & ->).
    assert (L0 : length x0 = length y0) by congruence.
    specialize (IH size (S i) x0 y0 r0 L0).
    destruct (acc_tail n size (S i) x0 r0) as [x'|].
    + destruct IH as (A & y' & B & C & D). split; [congruence|]. exists y'. split; [congruence|]. auto.
    + exact IH.
Qed.

Lemma accumulate_hom : forall c s x y, length x = length y ->
  match accumulate c s x with
  | Some (x', s') => length x' = length x /\ exists y', length y' = length y /\
      accumulate c s y = Some (y', s') /\ accumulate c s (map2 op x y) = Some (map2 op x' y', s')
  | None => accumulate c s y = None /\ accumulate c s (map2 op x y) = None
  end.
Proof.
  intros c s x y L. unfold accumulate. rewrite map2_length, <- L, Nat.min_id.
  destruct (GenRandomBits s (mul32 (length x) (acc c))) as [rnd s'].
  pose proof (main_hom (main_int32 (length x) (acc c)) (acc c) 0 x y rnd L) as H.
  destruct (acc_main _ (acc c) 0 x rnd) as [[[i x0] r0]|].
  2:{ destruct H as [-> ->]. auto. }
  destruct H as (LX & y0 & LY & -> & ->).
  assert (L0 : length x0 = length y0) by congruence.
  pose proof (tail_hom (length x - i) (length x) i x0 y0 r0 L0) as H.
  destruct (acc_tail _ _ i x0 r0) as [x'|].
  - destruct H as (A & y' & B & -> & ->). split; [congruence|]. exists y'. split; [congruence|]. auto.
  - destruct H as [-> ->]. auto.
Qed.

Lemma more_hom : forall n x y u v rnd, length x = length y ->
  match exp_more n x u rnd with
  | Some (u', r') => exists v', exp_more n y v rnd = Some (v', r') /\ exp_more n (map2 op x y) (op u v) rnd = Some (op u' v', r')
  | None => exp_more n y v rnd = None /\ exp_more n (map2 op x y) (op u v) rnd = None
  end.
Proof.
  induction n as [|n IH]; intros x y u v rnd L; cbn [exp_more]; [exists v; auto|].
  destruct rnd as [|p rnd]; [auto|]. rewrite map2_length, <- L, Nat.min_id.
  destruct (p <? length x)%nat; [|auto]. rewrite zip_nth by exact L. rewrite <- op_add. apply IH, L.
Qed.

Lemma row_exp_hom : forall w x y rnd, length x = length y ->
  match exp_row w x rnd with
  | Some (u', r') => exists v', exp_row w y rnd = Some (v', r') /\ exp_row w (map2 op x y) rnd = Some (op u' v', r')
  | None => exp_row w y rnd = None /\ exp_row w (map2 op x y) rnd = None
  end.
Proof.
  intros w x y rnd L. unfold exp_row. destruct rnd as [|p rnd]; [auto|].
  rewrite map2_length, <- L, Nat.min_id. destruct (p <? length x)%nat; [|auto].
  rewrite zip_nth by exact L. apply more_hom, L.
Qed.

Lemma rows_hom : forall n w x y rnd, length x = length y ->
  match exp_rows n w x rnd with
  | Some u => length u = n /\ exists v, length v = n /\ exp_rows n w y rnd = Some v /\ exp_rows n w (map2 op x y) rnd = Some (map2 op u v)
  | None => exp_rows n w y rnd = None /\ exp_rows n w (map2 op x y) rnd = None
  end.
Proof.
  induction n as [|n IH]; intros w x y rnd L; cbn [exp_rows].
  - split; [reflexivity|]. exists []. auto.
  - pose proof (row_exp_hom w x y rnd L) as H. destruct (exp_row w x rnd) as [[u1 r1]|].
    2:{ destruct H as [-> ->]. auto. }
    destruct H as (v1 & -> & ->). specialize (IH w x y r1 L).
    destruct (exp_rows n w x r1) as [u|].
    + destruct IH as (A & v & B & -> & ->). cbn [length map2]. split; [congruence|].
      exists (v1 :: v). cbn [length map2]. split; [congruence|]. auto.
    + destruct IH as [-> ->]. auto.
Qed.

Lemma code_hom : forall c s x y, length x = length y ->
  match dualEncode c s x with
  | Some u => length u = (length x / R c)%nat /\ exists v, length v = length u /\ dualEncode c s y = Some v /\
      dualEncode c s (map2 op x y) = Some (map2 op u v)
  | None => dualEncode c s y = None /\ dualEncode c s (map2 op x y) = None
  end.
Proof.
  intros c s x y L. unfold dualEncode. rewrite map2_length, <- L, Nat.min_id.
  destruct (_ || _); [auto|]. pose proof (accumulate_hom c s x y L) as H.
  destruct (accumulate c s x) as [[x0 s0]|].
  2:{ destruct H as [-> ->]. auto. }
  destruct H as (LX & y0 & LY & -> & ->). assert (L0 : length x0 = length y0) by congruence.
  unfold expand. destruct (GenRandomMod _ _ s0) as [rnd|]; [|auto].
  pose proof (rows_hom (length x / R c) (weight c) x0 y0 rnd L0) as H.
  destruct (exp_rows _ _ x0 rnd) as [u|].
  - destruct H as (A & v & B & -> & ->). split; [exact A|]. exists v. split; [congruence|]. auto.
  - exact H.
Qed.
End Hom.

(** ** two vectors at once *)
Lemma row_pair : forall n i j x y rnd, length x = length y ->
  match acc_row n i j x rnd with
  | Some (x', j', r') => length x' = length x /\ exists y', length y' = length y /\
      acc_row n i j y rnd = Some (y', j', r') /\ acc_row2 n i j x y rnd = Some (x', y', j', r')
  | None => acc_row2 n i j x y rnd = None
  end.
Proof.
  induction n as [|n IH]; intros i j x y rnd L; cbn [acc_row acc_row2].
  - split; [reflexivity|]. exists y. auto.
  - destruct rnd as [|b rnd]; [auto|]. destruct (b =? 1)%N; [|apply IH, L].
    rewrite <- L.
    destruct (i <? length x)%nat; destruct (j <? length x)%nat; cbn [andb]; try reflexivity.
    set (x1 := upd x j (N.lxor (nth j x 0%N) (nth i x 0%N))).
    set (y1 := upd y j (N.lxor (nth j y 0%N) (nth i y 0%N))).
    assert (LX : length x1 = length x) by apply upd_length.
    assert (LY : length y1 = length y) by apply upd_length.
    specialize (IH i (S j) x1 y1 rnd ltac:(congruence)).
    destruct (acc_row n i (S j) x1 rnd) as [[[x' j'] r']|]; [|exact IH].
    destruct IH as (A & y' & B & C & D). split; [congruence|]. exists y'. split; [congruence|]. auto.
Qed.

Lemma main_pair : forall n a i x y rnd, length x = length y ->
  match acc_main n a i x rnd with
  | Some (i', x', r') => length x' = length x /\ exists y', length y' = length y /\
      acc_main n a i y rnd = Some (i', y', r') /\ acc_main2 n a i x y rnd = Some (i', x', y', r')
  | None => acc_main2 n a i x y rnd = None
  end.
Proof.
  induction n as [|n IH]; intros a i x y rnd L; cbn [acc_main acc_main2].
  - split; [reflexivity|]. exists y. auto.
  - generalize (N.to_nat (wrap32 (N.of_nat a + 2 ^ 32 - 1))). intros m.
    pose proof (row_pair m i (S i) x y rnd L) as H.
    destruct (acc_row m i (S i) x rnd) as [[[x0 j] r0]|].
    2:{ rewrite H. reflexivity. }
    destruct H as (LX & y0 & LY & -> & ->).
    assert (L0 : length x0 = length y0) by congruence. rewrite <- L0.
    destruct (i <? length x0)%nat; destruct (j <? length x0)%nat; cbn [andb]; try reflexivity.
    set (x1 := upd x0 j (N.lxor (nth j x0 0%N) (nth i x0 0%N))).
    set (y1 := upd y0 j (N.lxor (nth j y0 0%N) (nth i y0 0%N))).
    assert (LX1 : length x1 = length x0) by apply upd_length.
    assert (LY1 : length y1 = length y0) by apply upd_length.
    specialize (IH a (S i) x1 y1 r0 ltac:(congruence)).
    destruct (acc_main n a (S i) x1 r0) as [[[i' x'] r']|]; [|exact IH].
    destruct IH as (A & y' & B & C & D). split; [congruence|]. exists y'. split; [congruence|]. auto.
Qed.

Lemma tail_pair : forall n size i x y rnd, length x = length y ->
  match acc_tail n size i x rnd with
  | Some x' => length x' = length x /\ exists y', length y' = length y /\
      acc_tail n size i y rnd = Some y' /\ acc_tail2 n size i x y rnd = Some (x', y')
  | None => acc_tail2 n size i x y rnd = None
  end.
Proof.
  induction n as [|n IH]; intros size i x y rnd L; cbn [acc_tail acc_tail2].
  - split; [reflexivity|]. exists y. auto.
  - generalize (size - S i)%nat. intros m.
    pose proof (row_pair m i (S i) x y rnd L) as H.
    destruct (acc_row m i (S i) x rnd) as [[[x0 j] r0]|].
    2:{ rewrite H. reflexivity. }
    destruct H as (LX & y0 & LY & -> & ->).
    specialize (IH size (S i) x0 y0 r0 ltac:(congruence)).
    destruct (acc_tail n size (S i) x0 r0) as [x'|]; [|exact IH].
    destruct IH as (A & y' & B & C & D). split; [congruence|]. exists y'. split; [congruence|]. auto.
Qed.

Lemma more_pair : forall n x y u v rnd, length x = length y ->
  match exp_more n x u rnd with
  | Some (u', r') => exists v', exp_more n y v rnd = Some (v', r') /\ exp_more2 n x y u v rnd = Some (u', v', r')
  | None => exp_more2 n x y u v rnd = None
  end.
Proof.
  induction n as [|n IH]; intros x y u v rnd L; cbn [exp_more exp_more2]; [exists v; auto|].
  destruct rnd as [|p rnd]; [auto|]. rewrite <- L.
  destruct (p <? length x)%nat; cbn [andb]; [|reflexivity]. apply IH, L.
Qed.

Lemma rows_pair : forall n w x y rnd, length x = length y ->
  match exp_rows n w x rnd with
  | Some u => exists v, exp_rows n w y rnd = Some v /\ exp_rows2 n w x y rnd = Some (u, v)
  | None => exp_rows2 n w x y rnd = None
  end.
Proof.
  induction n as [|n IH]; intros w x y rnd L; cbn [exp_rows exp_rows2].
  - exists []. auto.
  - assert (H : match exp_row w x rnd with
                | Some (u', r') => exists v', exp_row w y rnd = Some (v', r') /\ exp_row2 w x y rnd = Some (u', v', r')
                | None => exp_row2 w x y rnd = None
                end).
    { unfold exp_row, exp_row2. destruct rnd as [|p rnd]; [reflexivity|]. rewrite <- L.
      destruct (p <? length x)%nat; cbn [andb]; [|reflexivity]. apply more_pair, L. }
    destruct (exp_row w x rnd) as [[u1 r1]|].
    2:{ rewrite H. reflexivity. }
    destruct H as (v1 & -> & ->). specialize (IH w x y r1 L).
    destruct (exp_rows n w x r1) as [u|]; [|rewrite IH; reflexivity].
    destruct IH as (v & -> & ->). exists (v1 :: v). auto.
Qed.

(** ** sizes for which nothing overflows *)
Definition sizes_ok (c : config) (n : nat) : Prop :=
  (1 <= R c)%nat /\ (1 <= weight c)%nat /\ (1 <= acc c)%nat /\ (N.of_nat (acc c) <= 2 ^ 31)%N /\ (N.of_nat n < 2 ^ 31)%N /\
  (N.of_nat n * N.of_nat (acc c) < 2 ^ 32)%N /\ (N.of_nat (n / R c) * N.of_nat (weight c) < 2 ^ 32)%N.

Lemma main32 : forall n a, (N.of_nat n < 2 ^ 31)%N -> (N.of_nat a <= 2 ^ 31)%N -> main_int32 n a = (n - a)%nat.
Proof.
  intros n a Hn Ha. unfold main_int32, wrap32, wrap.
  destruct (Nat.lt_ge_cases n a) as [L|L].
  - rewrite N.mod_small by lia. destruct (N.ltb_spec (N.of_nat n + 2 ^ 32 - N.of_nat a) (2 ^ 31)); lia.
  - assert (E : ((N.of_nat n + 2 ^ 32 - N.of_nat a) mod 2 ^ 32 = N.of_nat (n - a))%N).
    { symmetry. apply N.mod_unique with (q := 1%N); lia. }
    rewrite E. replace (N.of_nat (n - a) <? 2 ^ 31)%N with true by lia. lia.
Qed.
Lemma main64 : forall n a, (N.of_nat n < 2 ^ 31)%N -> (a <= n)%nat -> main_int64 n a = (n - a)%nat.
Proof.
  intros n a Hn L. unfold main_int64, wrap32, wrap.
  assert (E : ((N.of_nat n + 2 ^ 32 - N.of_nat a) mod 2 ^ 32 = N.of_nat (n - a))%N).
  { symmetry. apply N.mod_unique with (q := 1%N); lia. }
  rewrite E. lia.
Qed.

Lemma row_total : forall n i j x rnd, (i < length x)%nat -> (j + n <= length x)%nat -> (n <= length rnd)%nat ->
  exists x', acc_row n i j x rnd = Some (x', (j + n)%nat, skipn n rnd) /\ length x' = length x.
Proof.
  induction n as [|n IH]; intros i j x rnd Hi Hj Hr; cbn [acc_row].
  - exists x. rewrite Nat.add_0_r. auto.
  - destruct rnd as [|b rnd]; [cbn in Hr; lia|]. cbn [length] in Hr. cbn [skipn].
    replace (j + S n)%nat with (S j + n)%nat by lia.
    destruct (b =? 1)%N; [|apply IH; lia].
    replace ((i <? length x) && (j <? length x))%nat with true by lia.
    destruct (IH i (S j) (upd x j (N.lxor (nth j x 0%N) (nth i x 0%N))) rnd) as (x' & E & L).
    + rewrite upd_length. exact Hi.
    + rewrite upd_length. lia.
    + lia.
    + exists x'. rewrite upd_length in L. auto.
Qed.

Lemma acc_pred : forall a, (1 <= a)%nat -> (N.of_nat a < 2 ^ 32)%N ->
  N.to_nat (wrap32 (N.of_nat a + 2 ^ 32 - 1)) = (a - 1)%nat.
Proof.
  intros a H1 H2. unfold wrap32, wrap.
  assert (E : ((N.of_nat a + 2 ^ 32 - 1) mod 2 ^ 32 = N.of_nat (a - 1))%N).
  { symmetry. apply N.mod_unique with (q := 1%N); lia. }
  rewrite E. lia.
Qed.

Lemma main_total : forall n a i x rnd, (1 <= a)%nat -> (N.of_nat a < 2 ^ 32)%N ->
  (i + n + a <= length x)%nat \/ n = 0%nat -> (n * (a - 1) <= length rnd)%nat ->
  exists x' r', acc_main n a i x rnd = Some ((i + n)%nat, x', r') /\ length x' = length x /\
    length r' = (length rnd - n * (a - 1))%nat.
Proof.
  induction n as [|n IH]; intros a i x rnd Ha1 Ha2 Hs Hr; cbn [acc_main].
  - exists x, rnd. rewrite Nat.add_0_r. split; [reflexivity|]. split; [reflexivity|lia].
  - destruct Hs as [Hs|]; [|lia]. rewrite acc_pred by assumption.
    cbn [Nat.mul] in Hr.
    destruct (row_total (a - 1) i (S i) x rnd) as (x0 & -> & L0); [lia|lia|apply (Nat.le_trans _ _ _ (Nat.le_add_r _ _) Hr)|].
    rewrite L0. replace ((i <? length x) && (S i + (a - 1) <? length x))%nat with true by lia.
    set (x1 := upd x0 (S i + (a - 1)) _).
    assert (L1 : length x1 = length x) by (unfold x1; rewrite upd_length; exact L0).
    destruct (IH a (S i) x1 (skipn (a - 1) rnd)) as (x' & r' & E & L & LR); [exact Ha1|exact Ha2|lia| |].
    + rewrite skipn_length. apply Nat.le_add_le_sub_l, Hr.
    + exists x', r'. replace (i + S n)%nat with (S i + n)%nat by lia. split; [exact E|]. split; [congruence|].
      rewrite LR, skipn_length. cbn [Nat.mul]. symmetry; apply Nat.sub_add_distr.
Qed.

Lemma tail_total : forall n a size i x rnd, length x = size -> (i + n = size)%nat -> (n <= a)%nat ->
  (n * (a - 1) <= length rnd)%nat -> exists x', acc_tail n size i x rnd = Some x' /\ length x' = size.
Proof.
  induction n as [|n IH]; intros a size i x rnd L Hi Ha Hr; cbn [acc_tail].
  - exists x. auto.
  - cbn [Nat.mul] in Hr.
    assert (Q : (n * (a - 1) + (size - S i) <= length rnd)%nat).
    { apply (Nat.le_trans _ _ _) with (2 := Hr). rewrite Nat.add_comm. apply Nat.add_le_mono_r. lia. }
    destruct (row_total (size - S i) i (S i) x rnd) as (x0 & -> & L0); [lia|lia|apply (Nat.le_trans _ _ _ (Nat.le_add_l _ _) Q)|].
    apply (IH a); [congruence|lia|lia|]. rewrite skipn_length. apply Nat.le_add_le_sub_r, Q.
Qed.

Lemma accumulate_total : forall c s x, (counter s < 2 ^ 64)%N -> sizes_ok c (length x) ->
  exists x', accumulate c s x = Some (x', snd (GenRandomBits s (length x * acc c))) /\ length x' = length x.
Proof.
  intros c s x Hs (H1 & H2 & H3 & H4 & H5 & H6 & H7). unfold accumulate.
  assert (M : mul32 (length x) (acc c) = (length x * acc c)%nat).
  { unfold mul32, wrap32, wrap. rewrite N.mod_small by exact H6. lia. }
  rewrite M. pose proof (random_bits s (length x * acc c) Hs) as [LR _].
  destruct (GenRandomBits s (length x * acc c)) as [rnd s']. cbn [fst snd] in *.
  rewrite main32 by assumption.
  assert (H4' : (N.of_nat (acc c) < 2 ^ 32)%N) by lia.
  assert (P1 : ((length x - acc c) * (acc c - 1) + (length x - (length x - acc c)) * (acc c - 1) <= length x * acc c)%nat).
  { rewrite <- Nat.mul_add_distr_r. replace (length x - acc c + (length x - (length x - acc c)))%nat with (length x) by lia.
    apply Nat.mul_le_mono_l. lia. }
  destruct (main_total (length x - acc c) (acc c) 0 x rnd H3 H4') as (x1 & r1 & E & L1 & LR1); [lia|lia|].
  rewrite E. cbn [Nat.add].
  destruct (tail_total (length x - (length x - acc c)) (acc c) (length x) (length x - acc c) x1 r1 L1)
    as (x2 & E2 & L2); [lia|lia|lia|].
  rewrite E2. exists x2. auto.
Qed.

Lemma mod_total : forall m len s, (m <> 0 \/ len = 0)%nat -> exists rnd, GenRandomMod m len s = Some rnd /\ length rnd = len /\ Forall (fun p => (p < m)%nat) rnd.
Proof.
  intros m len s H. unfold GenRandomMod.
  replace ((m =? 0)%nat && negb (len =? 0)%nat) with false by lia.
  eexists. split; [reflexivity|]. split; [rewrite map_length, seq_length; reflexivity|].
  apply Forall_map, Forall_forall. intros i Hi. apply in_seq in Hi.
  generalize (le_val (firstn 4 (skipn (4 * i) (flat_map (le_bytes 16) (fst (GenRandomBlocks s (len / 4 + 1))))))). intros v.
  pose proof (N.mod_lt v (N.of_nat m)). lia.
Qed.

Lemma more_total : forall n e wv rnd, (n <= length rnd)%nat -> Forall (fun p => (p < length e)%nat) rnd ->
  exists v, exp_more n e wv rnd = Some (v, skipn n rnd).
Proof.
  induction n as [|n IH]; intros e wv rnd Hr F; cbn [exp_more]; [exists wv; reflexivity|].
  destruct rnd as [|p rnd]; [cbn in Hr; lia|]. inversion F; subst.
  replace (p <? length e)%nat with true by lia. cbn [skipn]. apply IH; [cbn [length] in Hr; lia|assumption].
Qed.
Lemma rows_total : forall n w e rnd, (1 <= w)%nat -> (n * w <= length rnd)%nat -> Forall (fun p => (p < length e)%nat) rnd ->
  exists r, exp_rows n w e rnd = Some r /\ length r = n.
Proof.
  induction n as [|n IH]; intros w e rnd Hw Hr F; cbn [exp_rows]; [exists []; auto|]. cbn [Nat.mul] in Hr.
  destruct rnd as [|p rnd]; [cbn [length] in Hr; lia|]. cbn [length] in Hr. cbn [exp_row]. inversion F; subst.
  replace (p <? length e)%nat with true by lia.
  destruct (more_total (w - 1) e (nth p e 0%N) rnd) as (v & ->); [lia|assumption|].
  destruct (IH w e (skipn (w - 1) rnd) Hw) as (r & -> & L).
  - rewrite skipn_length. lia.
  - apply Forall_skipn. assumption.
  - exists (v :: r). split; [reflexivity|]. cbn [length]. congruence.
Qed.

Lemma code_total : forall c s x, (counter s < 2 ^ 64)%N -> sizes_ok c (length x) ->
  exists u, dualEncode c s x = Some u /\ length u = (length x / R c)%nat.
Proof.
  intros c s x Hs HO. pose proof HO as (H1 & H2 & H3 & H4 & H5 & H6 & H7). unfold dualEncode.
  replace ((R c =? 0)%nat || (2 ^ 32 <=? N.of_nat (length x))%N) with false by lia.
  destruct (accumulate_total c s x Hs HO) as (d & -> & L). unfold expand.
  assert (M : mul32 (length x / R c) (weight c) = (length x / R c * weight c)%nat).
  { unfold mul32, wrap32, wrap. rewrite N.mod_small by exact H7. lia. }
  rewrite M.
  destruct (mod_total (length x) (length x / R c * weight c) (snd (GenRandomBits s (length x * acc c)))) as (rnd & -> & LR & F).
  { destruct (length x) as [|n]; [right; rewrite Nat.div_0_l by lia; reflexivity|left; discriminate]. }
  apply rows_total; [exact H2|rewrite LR; apply Nat.le_refl|rewrite L; exact F].
Qed.

Lemma code_pair : forall c s x y, length x = length y -> (acc c <= length x)%nat -> (N.of_nat (length x) < 2 ^ 31)%N ->
  match dualEncode c s x with
  | Some u => exists v, dualEncode c s y = Some v /\ dualEncode2 c s x y = Some (u, v)
  | None => dualEncode2 c s x y = None
  end.
Proof.
  intros c s x y L Ha Hn. unfold dualEncode, dualEncode2. rewrite <- L, Nat.eqb_refl. cbn [negb]. rewrite orb_false_r.
  destruct (_ || _); [reflexivity|]. unfold accumulate, accumulate2. rewrite <- L.
  rewrite main64, main32 by lia.
  destruct (GenRandomBits s (mul32 (length x) (acc c))) as [rnd s'].
  pose proof (main_pair (length x - acc c) (acc c) 0 x y rnd L) as H.
  destruct (acc_main _ (acc c) 0 x rnd) as [[[i x0] r0]|].
  2:{ rewrite H. reflexivity. }
  destruct H as (LX & y0 & LY & -> & ->).
  pose proof (tail_pair (length x - i) (length x) i x0 y0 r0 ltac:(congruence)) as H.
  destruct (acc_tail _ _ i x0 r0) as [x'|].
  2:{ rewrite H. reflexivity. }
  destruct H as (A & y' & B & -> & ->). unfold expand, expand2.
  destruct (GenRandomMod _ _ s') as [rnd'|]; [|reflexivity].
  exact (rows_pair (length x / R c) (weight c) x' y' rnd' ltac:(congruence)).
Qed.

(** vectors shorter than the accumulator *)
Lemma row2_small : forall n i j x y rnd x' y' j' r', acc_row2 n i j x y rnd = Some (x', y', j', r') ->
  j' = (j + n)%nat /\ length x' = length x.
Proof.
  induction n as [|n IH]; intros i j x y rnd x' y' j' r' E; cbn [acc_row2] in E.
  - injection E as <- <- <- <-. split; [lia|reflexivity].
  - destruct rnd as [|b rnd]; [discriminate|]. destruct (b =? 1)%N.
    + destruct (_ && _); [|discriminate]. apply IH in E. rewrite upd_length in E. lia.
    + apply IH in E. lia.
Qed.
Lemma code2_small : forall c s x y, (length x < acc c)%nat -> (N.of_nat (acc c) < 2 ^ 32)%N ->
  dualEncode2 c s x y = None.
Proof.
  intros c s x y H1 H2. unfold dualEncode2. destruct (_ || _); [reflexivity|]. unfold accumulate2.
  destruct (GenRandomBits s (mul32 (length x) (acc c))) as [rnd s'].
  assert (M : exists m, main_int64 (length x) (acc c) = S m).
  { unfold main_int64, wrap32, wrap. rewrite N.mod_small by lia.
    exists (N.to_nat (N.of_nat (length x) + 2 ^ 32 - N.of_nat (acc c) - 1)). lia. }
  destruct M as [m ->]. cbn [acc_main2]. rewrite acc_pred by lia.
  destruct (acc_row2 (acc c - 1) 0 1 x y rnd) as [[[[x0 y0] j] r0]|] eqn:E; [|reflexivity].
  apply row2_small in E as [-> ->].
  replace (1 + (acc c - 1) <? length x)%nat with false by lia.
  rewrite andb_false_r. reflexivity.
Qed.

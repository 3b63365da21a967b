From Coq Require Import NArith ZArith List Bool Lia Arith Sorting.Sorted.
From Coq Require Import ZifyBool ZifyNat ZifyN.
From Verif Require Import Base.Words Base.ListX OKVS.DivModel OKVS.DivProofs OKVS.DivProps OKVS.GFModel.
From Verif Require Import OKVS.SparseModel OKVS.SparseSpec.
Import ListNotations.
Local Open Scope N_scope.

Lemma width_64 : forall b, int_width b -> 2 ^ b <= 2 ^ 64 /\ 256 <= 2 ^ b.
Proof. intros b [-> | [-> | [-> | ->]]]; split; (discriminate || (cbv; discriminate)). Qed.

Lemma word64_lt : forall d i, word64 d i < 2 ^ 64.
Proof. intros. unfold word64. apply N.mod_lt. discriminate. Qed.

Lemma mod_div_ok : forall m i, i < m -> m < 2 ^ 64 ->
  exists d, mod_div m i = Some d /\
    forall n, n < 2 ^ 64 ->
      divide_u64_do divide_mullhi_u64 n d = n / (m - i) /\ divide_lane n d = n / (m - i).
Proof.
  intros m i Hi Hm. unfold mod_div. replace (m <=? i) with false by lia.
  apply C65_division; lia.
Qed.

(** The scalar remainder, in spite of the truncated quotient *)
Lemma mod_sub : forall B q m r, 0 < B -> r < m -> m <= B ->
  (q * m + r + B * m - (q mod B) * m) mod B = r mod B.
Proof.
  intros B q m r HB Hr Hm.
  pose proof (N.div_mod q B ltac:(lia)) as E. pose proof (N.mod_lt q B ltac:(lia)) as L.
  replace (q * m + r + B * m - (q mod B) * m) with (r + (q / B * m + m) * B) by nia.
  rewrite N.mod_add by lia. reflexivity.
Qed.

Lemma remainder_ok : forall b m d i,
  int_width b -> m < 2 ^ b -> i < m -> (b = 16 -> m - i <= 2 ^ 15) ->
  remainder b m d i = Some (word64 d i mod (m - i)).
Proof.
  intros b m d i W Hm Hi H16. unfold remainder.
  destruct (width_64 b W) as [W1 W2].
  destruct (mod_div_ok m i Hi ltac:(lia)) as (dv & -> & D).
  set (rr := word64 d i). assert (Hr : rr < 2 ^ 64) by apply word64_lt.
  rewrite (proj1 (D rr Hr)). clear D.
  assert (MV : mod_val b m i = m - i) by (unfold mod_val, idx; apply N.mod_small; lia).
  rewrite MV. set (k := m - i) in *. assert (Hk : 0 < k) by lia.
  assert (Hkb : k <= 2 ^ b) by lia.
  pose proof (N.div_mod rr k ltac:(lia)) as E. pose proof (N.mod_lt rr k ltac:(lia)) as L.
  set (q := rr / k) in *. set (r := rr mod k) in *.
  assert (Hq : q * k <= rr) by lia.
  pose proof (N.mod_lt q (2 ^ b) ltac:(lia)) as Lq.
  assert (FIN : forall p t, (p + t * 2 ^ b = (q mod 2 ^ b) * k) -> p <= 2 ^ 64 ->
            idx b (sub64 rr p) = r).
  { intros p t Ep Hp. unfold idx, sub64, two64.
    assert (D64 : exists c, 2 ^ 64 = 2 ^ b * c /\ 0 < c).
    { exists (2 ^ (64 - b)). rewrite <- N.pow_add_r. split.
      - f_equal. destruct W as [-> | [-> | [-> | ->]]]; reflexivity.
      - apply N.neq_0_lt_0. apply N.pow_nonzero. discriminate. }
    destruct D64 as (c & Ec & Hc).
    assert (MM : forall x, (x mod 2 ^ 64) mod 2 ^ b = x mod 2 ^ b).
    { intros x. pose proof (N.div_mod x (2 ^ 64) ltac:(discriminate)) as X.
      replace (x mod 2 ^ b) with ((x mod 2 ^ 64 + (c * (x / 2 ^ 64)) * 2 ^ b) mod 2 ^ b).
      - rewrite N.mod_add by lia. reflexivity.
      - f_equal. rewrite X at 3. rewrite Ec. lia. }
    rewrite MM. transitivity (r mod 2 ^ b); [|apply N.mod_small; lia].
    assert (Lr : r < k) by (unfold r; exact L).
    rewrite <- (mod_sub (2 ^ b) q k r ltac:(lia) Lr Hkb).
    assert (X : exists u, rr + 2 ^ 64 - p + 2 ^ b * k = (q * k + r + 2 ^ b * k - q mod 2 ^ b * k) + u * 2 ^ b).
    { exists (c + t).
      assert (M1 : q mod 2 ^ b * k <= 2 ^ b * k) by (apply N.mul_le_mono_r; lia).
      assert (M2 : rr = q * k + r) by lia.
      replace ((c + t) * 2 ^ b) with (2 ^ 64 + t * 2 ^ b) by (rewrite Ec; lia).
      clear - M1 M2 Ep Hp. generalize dependent (2 ^ b * k). generalize dependent (q mod 2 ^ b * k).
      generalize dependent (t * 2 ^ b). generalize dependent (q * k). intros. lia. }
    destruct X as (u & X).
    rewrite <- (N.mod_add (rr + 2 ^ 64 - p) k (2 ^ b)) by lia.
    rewrite (N.mul_comm k). rewrite X. rewrite N.mod_add by lia. reflexivity. }
  unfold idx_mul. fold (idx b q). destruct (N.ltb_spec b 32) as [Hb|Hb].
  - assert (S31 : (q mod 2 ^ b) * k < 2 ^ 31).
    { destruct W as [-> | [-> | [-> | ->]]]; try lia.
      - change (2 ^ 8) with 256 in *. nia.
      - specialize (H16 eq_refl). change (2 ^ 16) with 65536 in *. change (2 ^ 15) with 32768 in *.
        change (2 ^ 31) with 2147483648. nia. }
    unfold idx at 1 2. replace (q mod 2 ^ b * k <? 2 ^ 31) with true by lia.
    f_equal. apply (FIN _ 0); lia.
  - f_equal. unfold idx at 2.
    assert (Nz : 2 ^ b <> 0) by (apply N.pow_nonzero; discriminate).
    apply (FIN _ (q mod 2 ^ b * k / 2 ^ b)).
    + rewrite (N.div_mod (q mod 2 ^ b * k) (2 ^ b) Nz) at 3.
      rewrite N.add_comm, (N.mul_comm _ (2 ^ b)). reflexivity.
    + apply N.le_trans with (2 ^ b); [|exact W1]. apply N.lt_le_incl, N.mod_lt, Nz.
Qed.

(** ** Three columns *)

(** The three columns as plain arithmetic *)
Definition triple (r0 r1 r2 : N) : list N :=
  let c1 := if r0 <=? r1 then r1 + 1 else r1 in
  let mn := N.min r0 r1 in
  let mx := if r0 <=? r1 then r1 + 1 else r0 in
  let c2 := if mn <=? r2 then r2 + 1 else r2 in
  let c2 := if mx <=? c2 then c2 + 1 else c2 in
  [r0; c1; c2].

Lemma spread_ok : forall b m r0 r1 r2,
  int_width b -> m < 2 ^ b -> 3 <= m -> r0 < m -> r1 < m - 1 -> r2 < m - 2 ->
  spread b r0 r1 r2 = triple r0 r1 r2.
Proof.
  intros b m r0 r1 r2 W Hm H3 H0 H1 H2. destruct (width_64 b W) as [_ Hb].
  assert (ID : forall x, x <= m -> idx b x = x) by (intros x Hx; apply N.mod_small; lia).
  unfold spread, triple.
  assert (MX : (if b <? 32 then r0 + r1 - N.min r0 r1
                else idx b (idx b (r0 + r1) + 2 ^ b - N.min r0 r1)) = N.max r0 r1).
  { destruct (b <? 32); [lia|]. unfold idx.
    destruct (N.ltb_spec (r0 + r1) (2 ^ b)) as [S|S].
    - rewrite (N.mod_small (r0 + r1)) by lia.
      replace (r0 + r1 + 2 ^ b - N.min r0 r1) with (N.max r0 r1 + 1 * 2 ^ b) by lia.
      rewrite N.mod_add by lia. apply N.mod_small. lia.
    - rewrite <- (N.mod_unique (r0 + r1) (2 ^ b) 1 (r0 + r1 - 2 ^ b)) by lia.
      rewrite N.mod_small by lia. lia. }
  rewrite MX. clear MX.
  replace (N.max r0 r1 =? r1) with (r0 <=? r1) by lia.
  destruct (N.leb_spec r0 r1) as [C|C].
  - rewrite (N.max_r r0 r1) by lia. rewrite (ID (r1 + 1)) by lia.
    replace (if b <? 32 then r1 + 1 else r1 + 1) with (r1 + 1) by (destruct (b <? 32); reflexivity).
    f_equal. f_equal. f_equal.
    destruct (N.min r0 r1 <=? r2).
    + rewrite (ID (r2 + 1)) by lia. destruct (r1 + 1 <=? r2 + 1); [apply ID; lia|reflexivity].
    + destruct (r1 + 1 <=? r2); [apply ID; lia|reflexivity].
  - rewrite (N.max_l r0 r1) by lia. f_equal. f_equal. f_equal.
    destruct (N.min r0 r1 <=? r2).
    + rewrite (ID (r2 + 1)) by lia. destruct (r0 <=? r2 + 1); [apply ID; lia|reflexivity].
    + destruct (r0 <=? r2); [apply ID; lia|reflexivity].
Qed.

Lemma triple_row : forall m r0 r1 r2,
  3 <= m -> r0 < m -> r1 < m - 1 -> r2 < m - 2 -> is_row 3 m (triple r0 r1 r2).
Proof.
  intros m r0 r1 r2 Hm H0 H1 H2. unfold triple. split; [reflexivity|].
  set (c1 := if r0 <=? r1 then r1 + 1 else r1).
  set (mx := if r0 <=? r1 then r1 + 1 else r0).
  set (c2 := if N.min r0 r1 <=? r2 then r2 + 1 else r2).
  set (c3 := if mx <=? c2 then c2 + 1 else c2).
  assert (D : r0 <> c1 /\ r0 <> c3 /\ c1 <> c3 /\ c1 < m /\ c3 < m).
  { unfold c3, c2, mx, c1.
    destruct (N.leb_spec r0 r1), (N.leb_spec (N.min r0 r1) r2);
    match goal with |- context [?x <=? ?y] => destruct (N.leb_spec x y) end; lia. }
  destruct D as (D1 & D2 & D3 & D4 & D5). split.
  - repeat constructor; cbn [In]; intuition congruence.
  - repeat constructor; assumption.
Qed.

(** The vector lane *)
Lemma signed_small : forall x, x < 2 ^ 63 -> signed64 x = Z.of_N x.
Proof. intros x H. unfold signed64. replace (x <? 2 ^ 63) with true by lia. reflexivity. Qed.

Lemma cmpgt_ok : forall x y, x < 2 ^ 63 -> y < 2 ^ 63 ->
  cmpgt x y = if y <? x then ones64 else 0.
Proof.
  intros x y Hx Hy. unfold cmpgt. rewrite !signed_small by assumption.
  replace (Z.of_N y <? Z.of_N x)%Z with (y <? x) by lia. reflexivity.
Qed.

Lemma land_ones64 : forall x, x < 2 ^ 64 -> N.land x ones64 = x.
Proof.
  intros x H. change ones64 with (N.ones 64). rewrite N.land_ones. apply N.mod_small. exact H.
Qed.

Lemma sub_ones : forall x, x < 2 ^ 63 -> sub64 x ones64 = x + 1.
Proof.
  intros x H. unfold sub64, ones64, two64. change (2 ^ 64) with 18446744073709551616 in *.
  change (2 ^ 63) with 9223372036854775808 in *.
  rewrite N.mod_small by lia. lia.
Qed.

Lemma sub_zero : forall x, x < 2 ^ 63 -> sub64 x 0 = x.
Proof.
  intros x H. unfold sub64, two64.
  replace (x + 2 ^ 64 - 0) with (x + 1 * 2 ^ 64) by lia.
  rewrite N.mod_add by discriminate. apply N.mod_small. lia.
Qed.

Lemma lane_ok : forall r0 r1 r2,
  r0 + 2 < 2 ^ 63 -> r1 + 2 < 2 ^ 63 -> r2 + 2 < 2 ^ 63 ->
  (let '(x, y, z) := lane r0 r1 r2 in [x; y; z]) = triple r0 r1 r2.
Proof.
  intros r0 r1 r2 H0 H1 H2. unfold lane, triple.
  rewrite (cmpgt_ok r0 r1) by lia.
  set (mask := if r1 <? r0 then ones64 else 0).
  assert (MX : N.lxor (N.land (N.lxor r0 r1) mask) r1 = N.max r0 r1).
  { unfold mask. destruct (N.ltb_spec r1 r0).
    - rewrite land_ones64.
      + rewrite N.lxor_assoc, N.lxor_nilpotent, N.lxor_0_r. lia.
      + apply lxor_lt; lia.
    - rewrite N.land_0_r, N.lxor_0_l. lia. }
  rewrite MX. clear MX mask.
  assert (MN : N.lxor (N.lxor r0 r1) (N.max r0 r1) = N.min r0 r1).
  { destruct (N.le_gt_cases r0 r1).
    - rewrite N.max_r, N.min_l by lia. rewrite N.lxor_assoc, N.lxor_nilpotent, N.lxor_0_r. reflexivity.
    - rewrite N.max_l, N.min_r by lia. rewrite (N.lxor_comm r0 r1).
      rewrite N.lxor_assoc, N.lxor_nilpotent, N.lxor_0_r. reflexivity. }
  rewrite MN. clear MN. unfold cmpeq.
  replace (N.max r0 r1 =? r1) with (r0 <=? r1) by lia.
  assert (XO : forall c : bool, N.lxor (if c then ones64 else 0) ones64 = if c then 0 else ones64)
    by (intros []; reflexivity).
  rewrite (cmpgt_ok (N.min r0 r1) r2) by lia. rewrite XO.
  replace (r2 <? N.min r0 r1) with (negb (N.min r0 r1 <=? r2)) by lia.
  assert (C1 : sub64 r1 (if r0 <=? r1 then ones64 else 0) = if r0 <=? r1 then r1 + 1 else r1).
  { destruct (r0 <=? r1); [apply sub_ones|apply sub_zero]; lia. }
  assert (C2 : sub64 (N.max r0 r1) (if r0 <=? r1 then ones64 else 0)
               = if r0 <=? r1 then r1 + 1 else r0).
  { destruct (N.leb_spec r0 r1).
    - rewrite N.max_r by lia. apply sub_ones. lia.
    - rewrite N.max_l by lia. apply sub_zero. lia. }
  assert (C3 : sub64 r2 (if negb (N.min r0 r1 <=? r2) then 0 else ones64)
               = if N.min r0 r1 <=? r2 then r2 + 1 else r2).
  { destruct (N.min r0 r1 <=? r2); cbn [negb]; [apply sub_ones|apply sub_zero]; lia. }
  rewrite C1, C2, C3. clear C1 C2 C3.
  set (mx := if r0 <=? r1 then r1 + 1 else r0). set (c2 := if N.min r0 r1 <=? r2 then r2 + 1 else r2).
  assert (Bm : mx < 2 ^ 63) by (unfold mx; destruct (r0 <=? r1); lia).
  assert (Bc : c2 + 1 < 2 ^ 63) by (unfold c2; destruct (N.min r0 r1 <=? r2); lia).
  f_equal. f_equal. f_equal.
  rewrite (cmpgt_ok mx c2) by lia. rewrite XO.
  replace (c2 <? mx) with (negb (mx <=? c2)) by lia.
  destruct (mx <=? c2); cbn [negb]; [apply sub_ones|apply sub_zero]; lia.
Qed.

(** ** Any number of columns *)

Lemma insert_row : forall b m sparse col,
  m <= 2 ^ b -> StronglySorted N.lt sparse -> Forall (fun c => c < m) sparse ->
  col + N.of_nat (length sparse) < m ->
  let r := insert_col b sparse col in
  length r = S (length sparse) /\ StronglySorted N.lt r /\ Forall (fun c => c < m) r /\
  (forall l, l <= col -> Forall (fun c => l <= c) sparse -> Forall (fun c => l <= c) r).
Proof.
  intros b m sparse. induction sparse as [|s rest IH]; intros col Hb Ss Fs Hc; cbn [insert_col].
  - cbn [length] in Hc. unfold idx. rewrite N.mod_small by lia. repeat split.
    + repeat constructor.
    + repeat constructor. lia.
    + intros l Hl _. repeat constructor. exact Hl.
  - inversion Ss as [|? ? Sr Hs]. subst. inversion Fs as [|? ? Fm Fr]. subst.
    cbn [length] in Hc. destruct (N.leb_spec s col) as [C|C].
    + destruct (IH (col + 1) Hb Sr Fr ltac:(lia)) as (L & S' & F' & B').
      repeat split.
      * cbn [length]. rewrite L. reflexivity.
      * constructor; [exact S'|].
        assert (X := B' (s + 1) ltac:(lia)).
        eapply Forall_impl; [|apply X].
        -- intros a Ha. cbn in Ha. lia.
        -- eapply Forall_impl; [|exact Hs]. intros a Ha. cbn in Ha. lia.
      * constructor; assumption.
      * intros l Hl F0. inversion F0. subst. constructor; [assumption|].
        apply B'; [lia|assumption].
    + unfold idx. rewrite N.mod_small by lia. repeat split.
      * constructor; [constructor; assumption|]. constructor; [exact C|].
        eapply Forall_impl; [|exact Hs]. intros a Ha. cbn in Ha. lia.
      * constructor; [lia|constructor; assumption].
      * intros l Hl F0. constructor; assumption.
Qed.

Definition sorted_row (m : N) (k : nat) (r : list N) : Prop :=
  length r = k /\ StronglySorted N.lt r /\ Forall (fun c => c < m) r.

Lemma next_cols_ok : forall b m dense k word iter sparse,
  m <= 2 ^ b -> (N.of_nat (iter + k) <= m) -> sorted_row m iter sparse ->
  exists r, next_cols b m dense k word iter sparse = Some r /\ sorted_row m (iter + k) r.
Proof.
  intros b m dense k. induction k as [|k IH]; intros word iter sparse Hb Hm R; cbn [next_cols].
  - exists sparse. rewrite Nat.add_0_r. auto.
  - unfold next_col. replace (m <=? N.of_nat iter) with false by lia. cbn [bind].
    destruct R as (L & Ss & F).
    pose proof (N.mod_lt (word64 dense (N.of_nat word)) (m - N.of_nat iter) ltac:(lia)) as ML.
    destruct (insert_row b m sparse (word64 dense (N.of_nat word) mod (m - N.of_nat iter))
      Hb Ss F) as (L' & S' & F' & _).
    { rewrite L. lia. }
    destruct (IH (S word) (S iter) (insert_col b sparse (word64 dense (N.of_nat word) mod (m - N.of_nat iter)))
      Hb ltac:(lia)) as (r & E & R').
    { split; [lia|]. split; assumption. }
    exists r. split; [exact E|]. replace (iter + S k)%nat with (S iter + k)%nat by lia. exact R'.
Qed.

Lemma sparse_loop_ok : forall fuel b m dense w j sparse,
  m <= 2 ^ b -> (N.of_nat w <= m) -> (j <= w)%nat -> (w < fuel + j)%nat ->
  sorted_row m j sparse ->
  exists r, sparse_loop fuel b m dense w j sparse = Some r /\ sorted_row m w r.
Proof.
  induction fuel as [|fuel IH]; intros b m dense w j sparse Hb Hm Hj Hf R; [lia|].
  cbn [sparse_loop]. destruct (Nat.ltb_spec (j + 3) w) as [C|C].
  - destruct (next_cols_ok b m dense 3 0 j sparse Hb ltac:(lia) R) as (r & -> & R').
    cbn [bind]. apply IH; [exact Hb|exact Hm|lia|lia|exact R'].
  - destruct (next_cols_ok b m dense (w - j) (Nat.modulo j 3) j sparse Hb ltac:(lia) R)
      as (r & -> & R').
    exists r. split; [reflexivity|]. replace w with (j + (w - j))%nat by lia. exact R'.
Qed.

Lemma sorted_NoDup : forall l, StronglySorted N.lt l -> NoDup l.
Proof.
  induction l as [|a l IH]; intros H; constructor; inversion H; subst.
  - intros I. rewrite Forall_forall in H3. specialize (H3 a I). lia.
  - apply IH. assumption.
Qed.

(** ** Both paths *)

(** Width and size of the index type, with the limit of the int product *)
Definition idx_ok (b : N) (w : nat) (m : N) : Prop :=
  int_width b /\ m < 2 ^ b /\ N.of_nat w <= m /\ (w = 3%nat -> b = 16 -> m <= 2 ^ 15).

Lemma sparse_1_three : forall b m dense, idx_ok b 3 m ->
  set_sparse_1 b 3 m dense =
  Some (triple (word64 dense 0 mod m) (word64 dense 1 mod (m - 1)) (word64 dense 2 mod (m - 2))).
Proof.
  intros b m dense (W & Hm & Hw & H16). unfold set_sparse_1. cbn [Nat.eqb].
  change (N.of_nat 3) with 3 in Hw. specialize (H16 eq_refl).
  rewrite !remainder_ok by (assumption || lia). cbn [bind].
  rewrite N.sub_0_r. f_equal. apply spread_ok with (m := m); try assumption; apply N.mod_lt; lia.
Qed.

Lemma sparse_1_ok : forall b w m dense, idx_ok b w m ->
  exists row, set_sparse_1 b w m dense = Some row /\ is_row w m row.
Proof.
  intros b w m dense H. destruct (Nat.eq_dec w 3) as [->|C].
  - rewrite sparse_1_three by exact H. eexists. split; [reflexivity|].
    destruct H as (W & Hm & Hw & H16). change (N.of_nat 3) with 3 in Hw.
    apply triple_row; try exact Hw; apply N.mod_lt; lia.
  - destruct H as (W & Hm & Hw & H16). unfold set_sparse_1.
    replace (Nat.eqb w 3) with false by lia.
    destruct (sparse_loop_ok (S w) b m dense w 0 [] ltac:(lia) Hw ltac:(lia) ltac:(lia))
      as (r & E & L & Ss & F).
    { repeat split; constructor. }
    exists r. split; [exact E|]. split; [exact L|]. split; [apply sorted_NoDup; exact Ss|exact F].
Qed.

Lemma reduced_ok : forall b m dense i,
  int_width b -> m < 2 ^ b -> i < m -> length dense = 32%nat ->
  reduced b m dense i = Some (map (fun x => word64 x i mod (m - i)) dense).
Proof.
  intros b m dense i W Hm Hi L. unfold reduced.
  destruct (width_64 b W) as [W1 W2].
  unfold mod_div. replace (m <=? i) with false by lia.
  destruct (C65_mod32 (m - i) (map (fun x => word64 x i) dense) ltac:(lia) ltac:(lia))
    as (d & -> & E).
  { rewrite map_length. lia. }
  { intros v Hv. apply in_map_iff in Hv. destruct Hv as (x & <- & _). apply word64_lt. }
  cbn [bind]. replace (mod_val b m i) with (m - i).
  2:{ unfold mod_val, idx. rewrite N.mod_small; lia. }
  rewrite E. f_equal. rewrite firstn_all2, skipn_all2 by (rewrite map_length; lia).
  rewrite app_nil_r, map_map. reflexivity.
Qed.

Lemma map3_map : forall f g0 g1 g2 (l : list N),
  map3 f (map g0 l) (map g1 l) (map g2 l) = map (fun x => f (g0 x) (g1 x) (g2 x)) l.
Proof. induction l as [|a l IH]; [reflexivity|]. cbn. rewrite IH. reflexivity. Qed.

Lemma all_some_map : forall A (f : A -> option (list N)) g l,
  (forall x, In x l -> f x = Some (g x)) -> all_some (map f l) = Some (map g l).
Proof.
  induction l as [|a l IH]; intros H; [reflexivity|]. cbn [map all_some].
  rewrite (H a (or_introl eq_refl)). cbn [bind].
  rewrite IH by (intros; apply H; right; assumption). reflexivity.
Qed.

Definition the_row (b : N) (w : nat) (m dense : N) : list N :=
  match set_sparse_1 b w m dense with Some r => r | None => [] end.

(** The 32-way path needs no product, so no restriction for 16 bits *)
Lemma sparse_32_three : forall b m dense,
  int_width b -> m < 2 ^ b -> 3 <= m -> m + 2 < 2 ^ 63 -> length dense = 32%nat ->
  set_sparse_32 b 3 m dense =
  Some (map (fun d => triple (word64 d 0 mod m) (word64 d 1 mod (m - 1)) (word64 d 2 mod (m - 2))) dense).
Proof.
  intros b m dense W Hm H3 H63 L. unfold set_sparse_32. cbn [Nat.eqb].
  rewrite !reduced_ok by (assumption || lia). cbn [bind]. f_equal.
  rewrite map3_map. apply map_ext. intros d. rewrite N.sub_0_r.
  pose proof (N.mod_lt (word64 d 0) m ltac:(lia)) as B0.
  pose proof (N.mod_lt (word64 d 1) (m - 1) ltac:(lia)) as B1.
  pose proof (N.mod_lt (word64 d 2) (m - 2) ltac:(lia)) as B2.
  set (r0 := word64 d 0 mod m) in *. set (r1 := word64 d 1 mod (m - 1)) in *.
  set (r2 := word64 d 2 mod (m - 2)) in *. clearbody r0 r1 r2.
  pose proof (lane_ok r0 r1 r2 ltac:(lia) ltac:(lia) ltac:(lia)) as E.
  destruct (triple_row m r0 r1 r2 H3 B0 B1 B2) as (_ & _ & F). rewrite <- E in *.
  destruct (lane r0 r1 r2) as [[x y] z]. 
  inversion F as [|? ? F0 F']. inversion F' as [|? ? F1 F'']. inversion F'' as [|? ? F2 _]. subst.
  unfold idx. rewrite !N.mod_small by lia. reflexivity.
Qed.

Lemma sparse_32_ok : forall b w m dense,
  idx_ok b w m -> m + 2 < 2 ^ 63 -> length dense = 32%nat ->
  set_sparse_32 b w m dense = Some (map (the_row b w m) dense).
Proof.
  intros b w m dense H H63 L. destruct (Nat.eq_dec w 3) as [->|C].
  - pose proof H as (W & Hm & Hw & H16). change (N.of_nat 3) with 3 in Hw.
    rewrite sparse_32_three by (assumption || lia). f_equal. apply map_ext. intros d.
    unfold the_row. rewrite sparse_1_three by exact H. reflexivity.
  - unfold set_sparse_32. replace (Nat.eqb w 3) with false by lia.
    apply all_some_map. intros d _. unfold the_row.
    destruct (sparse_1_ok b w m d H) as (r & -> & _). reflexivity.
Qed.

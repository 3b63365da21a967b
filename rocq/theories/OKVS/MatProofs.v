From Coq Require Import NArith Arith List Bool Lia ZifyBool ZifyNat ZifyN.
From Verif Require Import Base.Words Base.ListX OKVS.GFModel OKVS.GFProofs
  OKVS.GFInverse OKVS.MatModel OKVS.MatSpec.
Import ListNotations.
Local Open Scope N_scope.

(** ** Sums *)

Lemma fold_lxor_app : forall l a,
  fold_right N.lxor 0 (l ++ [a]) = N.lxor (fold_right N.lxor 0 l) a.
Proof.
  induction l as [|b l IH]; intros a; cbn [app fold_right].
  - rewrite N.lxor_0_r, N.lxor_0_l. reflexivity.
  - rewrite IH, N.lxor_assoc. reflexivity.
Qed.

Lemma xsum_S : forall n f, xsum (S n) f = N.lxor (xsum n f) (f n).
Proof.
  intros. unfold xsum. rewrite seq_S, map_app. cbn [map]. apply fold_lxor_app.
Qed.

Lemma xsum_ext : forall n f g, (forall k, (k < n)%nat -> f k = g k) -> xsum n f = xsum n g.
Proof.
  induction n as [|n IH]; intros f g H; [reflexivity|].
  rewrite !xsum_S, (IH f g) by (intros; apply H; lia). rewrite H by lia. reflexivity.
Qed.

Lemma xsum_add : forall n f g,
  xsum n (fun k => N.lxor (f k) (g k)) = N.lxor (xsum n f) (xsum n g).
Proof.
  induction n as [|n IH]; intros f g; [reflexivity|].
  rewrite !xsum_S, IH. apply lxor4.
Qed.

Lemma xsum_0 : forall n, xsum n (fun _ => 0) = 0.
Proof.
  induction n as [|n IH]; [reflexivity|]. rewrite xsum_S, IH. reflexivity.
Qed.

Lemma xsum_single : forall n f i, (i < n)%nat ->
  (forall k, (k < n)%nat -> k <> i -> f k = 0) -> xsum n f = f i.
Proof.
  induction n as [|n IH]; intros f i Hi H; [lia|]. rewrite xsum_S.
  destruct (Nat.eq_dec i n) as [->|Hne].
  - rewrite (xsum_ext n f (fun _ => 0)) by (intros; apply H; lia).
    rewrite xsum_0. apply N.lxor_0_l.
  - rewrite (IH f i) by (try lia; intros; apply H; lia).
    rewrite (H n) by lia. apply N.lxor_0_r.
Qed.

Lemma xsum_shrink : forall m n f, (n <= m)%nat ->
  (forall k, (n <= k < m)%nat -> f k = 0) -> xsum m f = xsum n f.
Proof.
  induction m as [|m IH]; intros n f Hle H.
  - replace n with 0%nat by lia. reflexivity.
  - destruct (Nat.eq_dec n (S m)) as [->|Hne]; [reflexivity|].
    rewrite xsum_S, (H m) by lia. rewrite N.lxor_0_r. apply IH; [lia|].
    intros; apply H; lia.
Qed.

Lemma xsum_lt : forall w n f, (forall k, (k < n)%nat -> f k < 2 ^ w) -> xsum n f < 2 ^ w.
Proof.
  intros w. induction n as [|n IH]; intros f H.
  - apply N.neq_0_lt_0, N.pow_nonzero. discriminate.
  - rewrite xsum_S. apply lxor_lt; [apply IH; intros; apply H; lia|apply H; lia].
Qed.

Lemma lxor_move : forall a b c, N.lxor a b = c <-> a = N.lxor c b.
Proof.
  intros. split; intros H.
  - rewrite <- H, N.lxor_assoc, N.lxor_nilpotent, N.lxor_0_r. reflexivity.
  - rewrite H, N.lxor_assoc, N.lxor_nilpotent, N.lxor_0_r. reflexivity.
Qed.

(** ** Linear systems *)

Section Systems.
Variable mul : N -> N -> N.
Variable w : N.
Hypothesis mul_comm : forall x y, mul x y = mul y x.
Hypothesis mul_assoc : forall x y z, mul x (mul y z) = mul (mul x y) z.
Hypothesis mul_add : forall x y z, mul x (N.lxor y z) = N.lxor (mul x y) (mul x z).
Hypothesis mul_1 : forall x, x < 2 ^ w -> mul 1 x = x.
Hypothesis mul_lt : forall x y, x < 2 ^ w -> y < 2 ^ w -> mul x y < 2 ^ w.
Hypothesis one_lt : 1 < 2 ^ w.

Lemma mul_0_r : forall x, mul x 0 = 0.
Proof.
  intros x. rewrite <- (N.lxor_nilpotent 0) at 1. rewrite mul_add. apply N.lxor_nilpotent.
Qed.

Lemma mul_0_l : forall x, mul 0 x = 0.
Proof. intros x. rewrite mul_comm. apply mul_0_r. Qed.

Lemma mul_add_l : forall x y z, mul (N.lxor x y) z = N.lxor (mul x z) (mul y z).
Proof.
  intros. rewrite mul_comm, mul_add, !(mul_comm z). reflexivity.
Qed.

Lemma xsum_mul : forall n c f, xsum n (fun k => mul c (f k)) = mul c (xsum n f).
Proof.
  induction n as [|n IH]; intros c f.
  - symmetry. apply mul_0_r.
  - rewrite !xsum_S, IH, mul_add. reflexivity.
Qed.

Variable n : nat.

Definition line (A : list (list N)) (r : nat) (v : nat -> N) : N :=
  xsum n (fun k => mul (entry A r k) (v k)).

(** (v, y) solves the first m equations A v = B y *)
Definition sat (m : nat) (A B : list (list N)) (v y : nat -> N) : Prop :=
  forall r, (r < m)%nat -> line A r v = line B r y.

(** B' row j is row j of B plus c times row i *)
Definition added (A A' : list (list N)) (j i : nat) (c : N) : Prop :=
  forall k, (k < n)%nat ->
    entry A' j k = N.lxor (entry A j k) (mul c (entry A i k)).

Definition scaled (A A' : list (list N)) (i : nat) (c : N) : Prop :=
  forall k, (k < n)%nat -> entry A' i k = mul c (entry A i k).

Lemma line_added : forall A A' j i c v, added A A' j i c ->
  line A' j v = N.lxor (line A j v) (mul c (line A i v)).
Proof.
  intros A A' j i c v H. unfold line.
  rewrite <- xsum_mul, <- xsum_add. apply xsum_ext. intros k Hk.
  rewrite (H k Hk), mul_add_l, mul_assoc. reflexivity.
Qed.

Lemma line_scaled : forall A A' i c v, scaled A A' i c ->
  line A' i v = mul c (line A i v).
Proof.
  intros A A' i c v H. unfold line.
  rewrite <- xsum_mul. apply xsum_ext. intros k Hk.
  rewrite (H k Hk), mul_assoc. reflexivity.
Qed.

Lemma line_lt : forall A r v, (forall k, (k < n)%nat -> entry A r k < 2 ^ w) ->
  (forall k, (k < n)%nat -> v k < 2 ^ w) -> line A r v < 2 ^ w.
Proof.
  intros A r v H1 H2. unfold line. apply xsum_lt. intros k Hk. auto.
Qed.

(** One round of Gauss-Jordan elimination *)
Record round_of (i : nat) (c : N) (A A' B B' : list (list N)) : Prop := {
  ro_row_A : scaled A A' i c;
  ro_row_B : scaled B B' i c;
  ro_A : forall j k, (j < n)%nat -> j <> i -> (k < n)%nat ->
    entry A' j k = N.lxor (entry A j k) (mul (entry A j i) (entry A' i k));
  ro_B : forall j k, (j < n)%nat -> j <> i -> (k < n)%nat ->
    entry B' j k = N.lxor (entry B j k) (mul (entry A j i) (entry B' i k)) }.

Definition small (A : list (list N)) : Prop :=
  forall j k, (j < n)%nat -> (k < n)%nat -> entry A j k < 2 ^ w.
Definition smallv (v : nat -> N) : Prop := forall k, (k < n)%nat -> v k < 2 ^ w.

Lemma round_sat : forall i c A A' B B' m v y,
  round_of i c A A' B B' -> small A -> small B -> smallv v -> smallv y ->
  (i < m)%nat -> (m <= n)%nat -> mul (entry A i i) c = 1 ->
  sat m A' B' v y <-> sat m A B v y.
Proof.
  intros i c A A' B B' m v y [RA RB EA EB] SA SB Sv Sy Him Hmn Hc.
  assert (Ri : line A' i v = line B' i y <-> line A i v = line B i y).
  { rewrite (line_scaled A A' i c v RA), (line_scaled B B' i c y RB).
    split; [|intros ->; reflexivity]. intros E.
    apply (f_equal (mul (entry A i i))) in E. rewrite !mul_assoc, Hc in E.
    rewrite !mul_1 in E by (apply line_lt; intros; auto; (apply SA || apply SB); lia).
    exact E. }
  assert (Rj : forall j, (j < m)%nat -> j <> i ->
    line A' j v = N.lxor (line A j v) (mul (entry A j i) (line A' i v)) /\
    line B' j y = N.lxor (line B j y) (mul (entry A j i) (line B' i y))).
  { intros j Hj Hne. unfold line. rewrite <- !xsum_mul, <- !xsum_add.
    split; apply xsum_ext; intros k Hk.
    - rewrite EA by lia. rewrite mul_add_l, mul_assoc. reflexivity.
    - rewrite EB by lia. rewrite mul_add_l, mul_assoc. reflexivity. }
  split; intros S r Hr.
  - pose proof (S i Him) as Si.
    destruct (Nat.eq_dec r i) as [->|Hne]; [apply Ri; exact Si|].
    specialize (S r Hr). destruct (Rj r Hr Hne) as (E1 & E2).
    rewrite E1, E2, Si in S. apply lxor_move in S.
    rewrite N.lxor_assoc, N.lxor_nilpotent, N.lxor_0_r in S. exact S.
  - pose proof (S i Him) as Si. apply Ri in Si.
    destruct (Nat.eq_dec r i) as [->|Hne]; [exact Si|].
    destruct (Rj r Hr Hne) as (E1 & E2). rewrite E1, E2, Si, (S r Hr). reflexivity.
Qed.

(** The first i columns are unit vectors *)
Definition unit_cols (i : nat) (A : list (list N)) : Prop :=
  forall j k, (j < n)%nat -> (k < i)%nat -> entry A j k = if Nat.eqb j k then 1 else 0.

Lemma round_cols : forall i c A A' B B',
  round_of i c A A' B B' -> small A -> (i < n)%nat -> mul (entry A i i) c = 1 ->
  unit_cols i A -> unit_cols (S i) A'.
Proof.
  intros i c A A' B B' [RA RB EA EB] SA Hi Hc U j k Hj Hk.
  assert (Rk : entry A' i k = if Nat.eqb i k then 1 else 0).
  { rewrite (RA k) by lia. destruct (Nat.eqb_spec i k) as [<-|Hne].
    - rewrite mul_comm. exact Hc.
    - rewrite U by lia. replace (Nat.eqb i k) with false by lia. apply mul_0_r. }
  destruct (Nat.eq_dec j i) as [->|Hne]; [exact Rk|].
  rewrite EA, Rk by lia. destruct (Nat.eqb_spec i k) as [<-|Hik].
  - replace (Nat.eqb j i) with false by lia.
    rewrite mul_comm, mul_1 by (apply SA; lia). apply N.lxor_nilpotent.
  - rewrite mul_0_r, N.lxor_0_r. apply U; lia.
Qed.

Lemma round_small : forall i c A A' B B',
  round_of i c A A' B B' -> small A -> small B -> (i < n)%nat -> c < 2 ^ w ->
  small A' /\ small B'.
Proof.
  intros i c A A' B B' [RA RB EA EB] SA SB Hi Hc.
  assert (Ri : forall k, (k < n)%nat -> entry A' i k < 2 ^ w /\ entry B' i k < 2 ^ w).
  { intros k Hk. rewrite (RA k Hk), (RB k Hk). split; apply mul_lt; auto. }
  split; intros j k Hj Hk; (destruct (Nat.eq_dec j i) as [->|Hne]; [apply Ri; exact Hk|]).
  - rewrite EA by assumption. apply lxor_lt; [auto|]. apply mul_lt; auto. apply Ri, Hk.
  - rewrite EB by assumption. apply lxor_lt; [auto|]. apply mul_lt; auto. apply Ri, Hk.
Qed.

(** A vector annihilated when column i has no pivot *)
Definition kernel_vector (i : nat) (A : list (list N)) : nat -> N :=
  fun k => if Nat.ltb k i then entry A k i else if Nat.eqb k i then 1 else 0.

Lemma kernel_line : forall i A r, small A -> unit_cols i A -> (i < n)%nat -> (r < n)%nat ->
  line A r (kernel_vector i A) = if Nat.ltb r i then 0 else entry A r i.
Proof.
  intros i A r SA U Hi Hr. unfold line.
  assert (T : forall k, (k < n)%nat -> mul (entry A r k) (kernel_vector i A k) =
    N.lxor (if Nat.ltb k i then if Nat.eqb k r then entry A k i else 0 else 0)
           (if Nat.eqb k i then entry A r i else 0)).
  { intros k Hk. unfold kernel_vector. destruct (Nat.ltb_spec k i) as [L|L].
    - rewrite U by lia. replace (Nat.eqb k i) with false by lia.
      rewrite N.lxor_0_r, Nat.eqb_sym.
      destruct (Nat.eqb k r); [apply mul_1; apply SA; lia|apply mul_0_l].
    - rewrite N.lxor_0_l. destruct (Nat.eqb_spec k i) as [->|].
      + rewrite mul_comm. apply mul_1. apply SA; lia.
      + apply mul_0_r. }
  rewrite (xsum_ext _ _ _ T), xsum_add.
  rewrite (xsum_single n (fun k => if Nat.eqb k i then _ else _) i) by
    (try lia; intros; replace (Nat.eqb k i) with false by lia; reflexivity).
  rewrite Nat.eqb_refl.
  destruct (Nat.ltb_spec r i) as [L|L].
  - rewrite (xsum_single n _ r) by
      (try lia; intros k _ Hne; replace (Nat.eqb k r) with false by lia;
       destruct (Nat.ltb k i); reflexivity).
    replace (Nat.ltb r i) with true by lia. rewrite Nat.eqb_refl. apply N.lxor_nilpotent.
  - rewrite (xsum_ext n _ (fun _ => 0)).
    + rewrite xsum_0. apply N.lxor_0_l.
    + intros k _. destruct (Nat.ltb_spec k i); [|reflexivity].
      replace (Nat.eqb k r) with false by lia. reflexivity.
Qed.

Lemma kernel_small : forall i A, small A -> (i < n)%nat -> smallv (kernel_vector i A).
Proof.
  intros i A SA Hi k Hk. unfold kernel_vector.
  destruct (Nat.ltb k i); [apply SA; lia|].
  destruct (Nat.eqb k i); [exact one_lt|]. lia.
Qed.

Lemma line_0 : forall B r, line B r (fun _ => 0) = 0.
Proof.
  intros. unfold line.
  rewrite (xsum_ext _ _ (fun _ => 0)) by (intros; apply mul_0_r). apply xsum_0.
Qed.

Lemma line_unit : forall A r v, unit_cols n A -> (r < n)%nat -> smallv v -> line A r v = v r.
Proof.
  intros A r v U Hr Sv. unfold line.
  rewrite (xsum_single n _ r Hr).
  - rewrite U by lia. rewrite Nat.eqb_refl. apply mul_1, Sv, Hr.
  - intros k Hk Hne. rewrite U by lia. replace (Nat.eqb r k) with false by lia.
    apply mul_0_l.
Qed.

Lemma entry_unit : forall j k, (j < n)%nat -> (k < n)%nat ->
  entry (unit_matrix n) j k = if Nat.eqb j k then 1 else 0.
Proof.
  clear. intros j k Hj Hk. unfold entry, row, unit_matrix.
  rewrite (nth_map' _ _ _ 0%nat) by (rewrite seq_length; lia).
  rewrite nth_seq' by lia. unfold unit_row.
  rewrite (nth_map' _ _ _ 0%nat) by (rewrite seq_length; lia).
  rewrite nth_seq' by lia. reflexivity.
Qed.

(** ** Conclusions about the matrices themselves *)

Lemma vector_small : forall v, vector (2 ^ w) n v -> smallv (fun k => nth k v 0).
Proof.
  clear. intros v [L F] k Hk. rewrite Forall_forall in F. apply F, nth_In. lia.
Qed.

Lemma square_small : forall A, square (2 ^ w) n A -> small A.
Proof.
  clear. intros A [L F] j k Hj Hk. rewrite Forall_forall in F.
  destruct (F (row A j)) as [L2 F2]; [apply nth_In; lia|].
  rewrite Forall_forall in F2. apply F2, nth_In. lia.
Qed.

Lemma apply_nth : forall A v r, length A = n -> length v = n -> (r < n)%nat ->
  nth r (apply mul A v) 0 = line A r (fun k => nth k v 0).
Proof.
  clear. intros A v r HA Hv Hr. unfold apply.
  rewrite (nth_map' _ _ _ []) by lia. rewrite Hv. reflexivity.
Qed.

Lemma apply_vector : forall A v, square (2 ^ w) n A -> vector (2 ^ w) n v ->
  vector (2 ^ w) n (apply mul A v).
Proof.
  intros A v SA Sv. pose proof SA as [LA _]. pose proof Sv as [Lv _].
  split; [unfold apply; rewrite map_length; exact LA|].
  apply Forall_forall. intros x Hx.
  apply (In_nth _ _ 0) in Hx as (r & Hr & <-).
  unfold apply in Hr. rewrite map_length in Hr.
  rewrite apply_nth by lia. apply line_lt.
  - intros k Hk. apply square_small; [exact SA|lia|exact Hk].
  - apply vector_small, Sv.
Qed.

Lemma apply_eq : forall A v y, length A = n -> length v = n -> length y = n ->
  (apply mul A v = y <-> forall r, (r < n)%nat ->
     line A r (fun k => nth k v 0) = nth r y 0).
Proof.
  clear. intros A v y HA Hv Hy. split.
  - intros <- r Hr. symmetry. apply apply_nth; assumption.
  - intros H. apply (list_eq_nth _ _ 0).
    + unfold apply. rewrite map_length. lia.
    + unfold apply. rewrite map_length. intros r Hr.
      change (map _ A) with (apply mul A v). rewrite apply_nth by lia. apply H. lia.
Qed.

Lemma solved_inverse : forall M A B, square (2 ^ w) n M -> square (2 ^ w) n B ->
  unit_cols n A ->
  (forall v y, smallv v -> smallv y -> sat n A B v y <-> sat n M (unit_matrix n) v y) ->
  inverse_of mul (2 ^ w) n M B.
Proof.
  intros M A B SM SB U Eq. split; [exact SB|].
  pose proof SM as [LM _]. pose proof SB as [LB _].
  assert (UU : unit_cols n (unit_matrix n)).
  { intros j k Hj Hk. apply entry_unit; lia. }
  assert (Key : forall v y, vector (2 ^ w) n v -> vector (2 ^ w) n y ->
    apply mul M v = y <-> apply mul B y = v).
  { intros v y Hv Hy. pose proof (proj1 Hv) as Lv. pose proof (proj1 Hy) as Ly.
    rewrite !apply_eq by assumption.
    pose proof (vector_small v Hv) as Sv. pose proof (vector_small y Hy) as Sy.
    specialize (Eq _ _ Sv Sy). unfold sat in Eq.
    assert (E1 : (forall r, (r < n)%nat ->
       line A r (fun k => nth k v 0) = line B r (fun k => nth k y 0)) <->
       (forall r, (r < n)%nat -> line B r (fun k => nth k y 0) = nth r v 0)).
    { split; intros H r Hr; specialize (H r Hr).
      - rewrite (line_unit A r _ U Hr Sv) in H. congruence.
      - rewrite (line_unit A r _ U Hr Sv). congruence. }
    assert (E2 : (forall r, (r < n)%nat ->
       line M r (fun k => nth k v 0) = line (unit_matrix n) r (fun k => nth k y 0)) <->
       (forall r, (r < n)%nat -> line M r (fun k => nth k v 0) = nth r y 0)).
    { split; intros H r Hr; specialize (H r Hr).
      - rewrite (line_unit (unit_matrix n) r _ UU Hr Sy) in H. congruence.
      - rewrite (line_unit (unit_matrix n) r _ UU Hr Sy). congruence. }
    tauto. }
  intros v Hv. split.
  - apply Key; [exact Hv| |reflexivity]. apply apply_vector; assumption.
  - apply Key; [|exact Hv|reflexivity]. apply apply_vector; assumption.
Qed.

Lemma kernel_not_invertible : forall M v, square (2 ^ w) n M -> smallv v ->
  (exists i, (i < n)%nat /\ v i <> 0) ->
  (forall r, (r < n)%nat -> line M r v = 0) ->
  ~ invertible mul (2 ^ w) n M.
Proof.
  intros M v SM Sv (i & Hi & Hv) HK (B & SB & HB).
  pose (vl := map v (seq 0 n)).
  assert (Lv : length vl = n) by (unfold vl; rewrite map_length, seq_length; reflexivity).
  assert (Nv : forall k, (k < n)%nat -> nth k vl 0 = v k).
  { intros k Hk. unfold vl. rewrite (nth_map' _ _ _ 0%nat) by (rewrite seq_length; lia).
    rewrite nth_seq' by lia. reflexivity. }
  assert (Vv : vector (2 ^ w) n vl).
  { split; [exact Lv|]. apply Forall_forall. intros x Hx.
    apply (In_nth _ _ 0) in Hx as (k & Hk & <-). rewrite Nv by lia. apply Sv. lia. }
  destruct (HB vl Vv) as (E & _).
  pose proof (proj1 SM) as LM. pose proof (proj1 SB) as LB.
  apply Hv. rewrite <- (Nv i Hi), <- E.
  rewrite apply_nth; [|exact LB|unfold apply; rewrite map_length; exact LM|exact Hi].
  transitivity (line B i (fun _ => 0)); [|apply line_0].
  unfold line. apply xsum_ext. intros k Hk. f_equal.
  rewrite apply_nth by assumption. transitivity (line M k v); [|apply HK, Hk].
  unfold line. apply xsum_ext. intros c Hc. rewrite (Nv c Hc). reflexivity.
Qed.

(** Swapping two rows keeps the solutions of the whole system *)
Lemma entry_swap : forall A i j r k, (i < length A)%nat -> (j < length A)%nat ->
  entry (swap_rows A i j) r k
  = entry A (if Nat.eqb r j then i else if Nat.eqb r i then j else r) k.
Proof.
  clear. intros A i j r k Hi Hj. unfold entry, row, swap_rows, row.
  destruct (Nat.eqb_spec r j) as [->|Hrj].
  - rewrite nth_upd_same by (rewrite upd_length; exact Hj). reflexivity.
  - rewrite nth_upd_other by lia. destruct (Nat.eqb_spec r i) as [->|Hri].
    + rewrite nth_upd_same by exact Hi. reflexivity.
    + rewrite nth_upd_other by lia. reflexivity.
Qed.

Lemma line_swap : forall A i j r v, (i < length A)%nat -> (j < length A)%nat ->
  line (swap_rows A i j) r v
  = line A (if Nat.eqb r j then i else if Nat.eqb r i then j else r) v.
Proof.
  clear. intros. unfold line. apply xsum_ext. intros k Hk.
  rewrite entry_swap by assumption. reflexivity.
Qed.

Lemma swap_sat : forall A B i j v y, length A = n -> length B = n ->
  (i < n)%nat -> (j < n)%nat ->
  sat n (swap_rows A i j) (swap_rows B i j) v y <-> sat n A B v y.
Proof.
  clear. intros A B i j v y LA LB Hi Hj. unfold sat. split; intros H r Hr.
  - assert (H' : forall q, (q < n)%nat ->
      line A (if Nat.eqb q j then i else if Nat.eqb q i then j else q) v
      = line B (if Nat.eqb q j then i else if Nat.eqb q i then j else q) y).
    { intros q Hq. rewrite <- !line_swap by lia. apply H, Hq. }
    destruct (Nat.eqb_spec r j) as [->|].
    + specialize (H' i Hi). rewrite Nat.eqb_refl in H'.
      destruct (Nat.eqb_spec i j) as [->|]; exact H'.
    + destruct (Nat.eqb_spec r i) as [->|].
      * specialize (H' j Hj). rewrite Nat.eqb_refl in H'. exact H'.
      * specialize (H' r Hr). replace (Nat.eqb r j) with false in H' by lia.
        replace (Nat.eqb r i) with false in H' by lia. exact H'.
  - rewrite !line_swap by lia. apply H.
    destruct (Nat.eqb r j); [exact Hi|]. destruct (Nat.eqb r i); [exact Hj|exact Hr].
Qed.

Lemma swap_square : forall A i j, square (2 ^ w) n A -> (i < n)%nat -> (j < n)%nat ->
  square (2 ^ w) n (swap_rows A i j).
Proof.
  clear. intros A i j [L F] Hi Hj. split.
  - unfold swap_rows. rewrite !upd_length. exact L.
  - pose proof F as F'. rewrite Forall_forall in F'.
    apply Forall_upd; [apply Forall_upd; [exact F|]|]; apply F', nth_In; lia.
Qed.

Lemma swap_cols : forall A i j, length A = n -> unit_cols i A -> (i < j < n)%nat ->
  unit_cols i (swap_rows A i j).
Proof.
  clear. intros A i j L U Hj r k Hr Hk. rewrite entry_swap by lia.
  destruct (Nat.eqb_spec r j) as [->|].
  - rewrite U by lia. replace (Nat.eqb i k) with false by lia.
    replace (Nat.eqb j k) with false by lia. reflexivity.
  - destruct (Nat.eqb_spec r i) as [->|].
    + rewrite U by lia. replace (Nat.eqb i k) with false by lia.
      replace (Nat.eqb j k) with false by lia. reflexivity.
    + apply U; lia.
Qed.

(** ** The loop, for any round that performs an elimination *)

(** What is known when the loop stands at round i; [clean]: no two rows have
    been swapped so far. *)
Record stage (M : list (list N)) (i : nat) (A B : list (list N)) (clean : bool) : Prop := {
  st_A : square (2 ^ w) n A;
  st_B : square (2 ^ w) n B;
  st_cols : unit_cols i A;
  st_sat : forall v y, smallv v -> smallv y ->
    sat n A B v y <-> sat n M (unit_matrix n) v y;
  st_prefix : clean = true -> forall m v y, smallv v -> smallv y -> (i <= m <= n)%nat ->
    sat m A B v y <-> sat m M (unit_matrix n) v y }.

Lemma stage_0 : forall M, square (2 ^ w) n M -> stage M 0 M (unit_matrix n) true.
Proof.
  intros M SM. constructor; try tauto.
  - split; [unfold unit_matrix; rewrite map_length, seq_length; reflexivity|].
    apply Forall_forall. intros r Hr. apply in_map_iff in Hr as (j & <- & _).
    split; [unfold unit_row; rewrite map_length, seq_length; reflexivity|].
    apply Forall_forall. intros x Hx. apply in_map_iff in Hx as (k & <- & _).
    destruct (Nat.eqb j k); [exact one_lt|]. lia.
  - intros j k _ Hk. lia.
Qed.

(** The elimination step itself *)
Lemma stage_round : forall M i A B clean c A' B', stage M i A B clean -> (i < n)%nat ->
  square (2 ^ w) n A' -> square (2 ^ w) n B' ->
  round_of i c A A' B B' -> mul (entry A i i) c = 1 ->
  stage M (S i) A' B' clean.
Proof.
  intros M i A B clean c A' B' [SA SB U Q P] Hi SA' SB' R Hc.
  pose proof (square_small A SA) as sA. pose proof (square_small B SB) as sB.
  constructor; try assumption.
  - eapply round_cols; eassumption.
  - intros v y Sv Sy. rewrite <- Q by assumption.
    apply (round_sat i c A A' B B' n v y R sA sB Sv Sy Hi (le_n n) Hc).
  - intros C m v y Sv Sy Hm. rewrite <- P by (assumption || lia).
    apply (round_sat i c A A' B B' m v y R sA sB Sv Sy); (lia || exact Hc).
Qed.

Lemma stage_swap : forall M i A B clean j, stage M i A B clean -> (i < j < n)%nat ->
  stage M i (swap_rows A i j) (swap_rows B i j) false.
Proof.
  clear. intros M i A B clean j [SA SB U Q P] Hj.
  constructor.
  - apply swap_square; [exact SA|lia|lia].
  - apply swap_square; [exact SB|lia|lia].
  - apply swap_cols; [apply SA|exact U|exact Hj].
  - intros v y Sv Sy. rewrite <- Q by assumption.
    apply swap_sat; [apply SA|apply SB|lia|lia].
  - discriminate.
Qed.

Lemma stage_kernel : forall M i A B clean, stage M i A B clean -> (i < n)%nat ->
  (forall r, (i <= r < n)%nat -> entry A r i = 0) -> square (2 ^ w) n M ->
  ~ invertible mul (2 ^ w) n M.
Proof.
  intros M i A B clean [SA SB U Q P] Hi Z SM.
  pose proof (square_small A SA) as sA.
  assert (Sz : smallv (fun _ => 0)) by (intros k Hk; lia).
  pose proof (kernel_small i A sA Hi) as Sk.
  apply (kernel_not_invertible M (kernel_vector i A) SM Sk).
  - exists i. split; [exact Hi|]. unfold kernel_vector.
    replace (Nat.ltb i i) with false by lia. rewrite Nat.eqb_refl. discriminate.
  - intros r Hr.
    assert (S : sat n M (unit_matrix n) (kernel_vector i A) (fun _ => 0)).
    { apply Q; try assumption. intros j Hj. rewrite line_0.
      rewrite kernel_line by assumption.
      destruct (Nat.ltb_spec j i); [reflexivity|]. apply Z. lia. }
    rewrite (S r Hr). apply line_0.
Qed.

Lemma stage_block : forall M i A B, stage M i A B true -> (i < n)%nat ->
  entry A i i = 0 -> singular_block mul (2 ^ w) i M.
Proof.
  intros M i A B [SA SB U Q P] Hi Z.
  pose proof (square_small A SA) as sA.
  assert (Sz : smallv (fun _ => 0)) by (intros k Hk; lia).
  pose proof (kernel_small i A sA Hi) as Sk.
  exists (map (kernel_vector i A) (seq 0 (S i))).
  assert (Nk : forall k, (k < S i)%nat ->
     nth k (map (kernel_vector i A) (seq 0 (S i))) 0 = kernel_vector i A k).
  { intros k Hk. rewrite (nth_map' _ _ _ 0%nat) by (rewrite seq_length; lia).
    rewrite nth_seq' by lia. reflexivity. }
  split; [|split].
  - split; [rewrite map_length, seq_length; reflexivity|].
    apply Forall_forall. intros x Hx. apply in_map_iff in Hx as (k & <- & Hk).
    apply in_seq in Hk. apply Sk. lia.
  - exists i. rewrite Nk by lia. unfold kernel_vector.
    replace (Nat.ltb i i) with false by lia. rewrite Nat.eqb_refl. discriminate.
  - intros r Hr.
    assert (St : sat (S i) M (unit_matrix n) (kernel_vector i A) (fun _ => 0)).
    { apply (P eq_refl); try assumption; [lia|]. intros j Hj. rewrite line_0.
      rewrite kernel_line by (assumption || lia).
      destruct (Nat.ltb_spec j i); [reflexivity|].
      replace j with i by lia. exact Z. }
    specialize (St r ltac:(lia)). rewrite line_0 in St.
    etransitivity; [|exact St]. symmetry. unfold line. rewrite (xsum_shrink n (S i)).
    + apply xsum_ext. intros k Hk. rewrite Nk by exact Hk. reflexivity.
    + lia.
    + intros k Hk. unfold kernel_vector. replace (Nat.ltb k i) with false by lia.
      replace (Nat.eqb k i) with false by lia. apply mul_0_r.
Qed.

Lemma stage_done : forall M A B clean, square (2 ^ w) n M -> stage M n A B clean ->
  inverse_of mul (2 ^ w) n M B.
Proof.
  intros M A B clean SM [SA SB U Q P].
  exact (solved_inverse M A B SM SB U Q).
Qed.

End Systems.

(** ** The binary instance *)

Lemma land_lt : forall w x y, x < 2 ^ w -> y < 2 ^ w -> N.land x y < 2 ^ w.
Proof.
  intros w x y Hx Hy. apply bounded_by_bits. intros i Hi.
  rewrite N.land_spec, (testbit_bounded w x i Hx Hi). reflexivity.
Qed.

Lemma land_lxor_r : forall x y z, N.land x (N.lxor y z) = N.lxor (N.land x y) (N.land x z).
Proof.
  intros. apply N.bits_inj. intros i.
  rewrite !N.land_spec, !N.lxor_spec, !N.land_spec.
  destruct (N.testbit x i), (N.testbit y i), (N.testbit z i); reflexivity.
Qed.

Lemma land_1_l : forall x, x < 2 ^ 1 -> N.land 1 x = x.
Proof.
  intros x H. assert (x = 0 \/ x = 1) as [-> | ->] by (change (2 ^ 1) with 2 in H; lia);
  reflexivity.
Qed.

Lemma map2_entry : forall (f : N -> N -> N) l m k, length l = length m ->
  (k < length l)%nat -> nth k (map2 f l m) 0 = f (nth k l 0) (nth k m 0).
Proof. intros f l m k L Hk. apply map2_nth; [exact Hk|]. lia. Qed.

Lemma row_length : forall s n A j, square s n A -> (j < n)%nat -> length (row A j) = n.
Proof.
  intros s n A j [L F] Hj. rewrite Forall_forall in F. apply F. apply nth_In. lia.
Qed.

Lemma seq_row : forall n (f : nat -> list N) j, (j < n)%nat ->
  row (map f (seq 0 n)) j = f j.
Proof.
  intros n f j Hj. unfold row.
  rewrite (nth_map' f (seq 0 n) j 0%nat) by (rewrite seq_length; lia).
  rewrite nth_seq' by lia. reflexivity.
Qed.

Lemma xor_vector : forall w n a b, vector (2 ^ w) n a -> vector (2 ^ w) n b ->
  vector (2 ^ w) n (map2 N.lxor a b).
Proof.
  intros w n a b [La Fa] [Lb Fb]. split.
  - rewrite map2_length. lia.
  - apply Forall_forall. intros x Hx. apply (In_nth _ _ 0) in Hx as (k & Hk & <-).
    rewrite map2_length in Hk. rewrite map2_entry by lia.
    rewrite Forall_forall in Fa, Fb. apply lxor_lt; [apply Fa|apply Fb]; apply nth_In; lia.
Qed.

Lemma row_vector : forall s n A j, square s n A -> (j < n)%nat -> vector s n (row A j).
Proof. intros s n A j [L F] Hj. rewrite Forall_forall in F. apply F, nth_In. lia. Qed.

Lemma seq_square : forall s n f, (forall j, (j < n)%nat -> vector s n (f j)) ->
  square s n (map f (seq 0 n)).
Proof.
  intros s n f H. split; [rewrite map_length, seq_length; reflexivity|].
  apply Forall_forall. intros r Hr. apply in_map_iff in Hr as (j & <- & Hj).
  apply in_seq in Hj. apply H. lia.
Qed.

Lemma eliminate_square : forall n i A O, square 2 n A -> square 2 n O -> (i < n)%nat ->
  square 2 n (eliminate n i A O).
Proof.
  intros n i A O SA SO Hi. apply seq_square. intros j Hj.
  destruct (_ && _); [|apply (row_vector _ n); assumption].
  apply (xor_vector 1); apply (row_vector _ n); assumption.
Qed.

Lemma eliminate_entry : forall n i A O j k, square 2 n A -> square 2 n O ->
  (i < n)%nat -> (j < n)%nat -> (k < n)%nat ->
  entry (eliminate n i A O) j k =
  if Nat.eqb j i then entry O i k
  else N.lxor (entry O j k) (N.land (entry A j i) (entry O i k)).
Proof.
  intros n i A O j k SA SO Hi Hj Hk. unfold entry at 1, eliminate.
  rewrite seq_row by exact Hj.
  destruct (Nat.eqb_spec j i) as [->|Hne]; [reflexivity|]. cbn [negb andb].
  pose proof (square_small 1 n A SA j i Hj Hi) as B. change (2 ^ 1) with 2 in B.
  pose proof (square_small 1 n O SO i k Hi Hk) as B2.
  destruct (N.eqb_spec (entry A j i) 0) as [Z|Z]; cbn [negb].
  - rewrite Z, N.land_0_l, N.lxor_0_r. reflexivity.
  - replace (entry A j i) with 1 by lia. rewrite land_1_l by exact B2.
    apply map2_entry; rewrite !(row_length 2 n) by assumption; [reflexivity|exact Hk].
Qed.

(** The pivot search *)
Lemma pivot_cases : forall n i A B A1 B1, with_pivot n i A B = (A1, B1) -> (i < n)%nat ->
  (A1 = A /\ B1 = B /\
    (entry A i i = 0 -> forall j, (i < j < n)%nat -> entry A j i <> 1)) \/
  (entry A i i = 0 /\ exists j, (i < j < n)%nat /\ entry A j i = 1 /\
     A1 = swap_rows A i j /\ B1 = swap_rows B i j).
Proof.
  intros n i A B A1 B1 H Hi. unfold with_pivot in H.
  destruct (N.eqb_spec (entry A i i) 0) as [Z|Z].
  - destruct (find _ _) as [j|] eqn:F.
    + right. apply find_some in F as (Hj & E). apply in_seq in Hj. apply N.eqb_eq in E.
      injection H as <- <-. split; [exact Z|]. exists j. repeat split; auto; lia.
    + left. injection H as <- <-. repeat split; auto. intros _ j Hj E.
      pose proof (List.find_none _ _ F j ltac:(apply in_seq; lia)) as X.
      cbv beta in X. rewrite E in X. discriminate.
  - left. injection H as <- <-. split; [reflexivity|]. split; [reflexivity|].
    intros; contradiction.
Qed.

Section Binary.
Variable n : nat.
Notation bstage := (stage N.land 1 n).

Lemma bround_stage : forall M i A B clean A' B', bstage M i A B clean -> (i < n)%nat ->
  invert_round n i A B = Some (A', B') -> exists clean', bstage M (S i) A' B' clean'.
Proof.
  intros M i A B clean A' B' St Hi R. unfold invert_round in R.
  destruct (with_pivot n i A B) as [A1 B1] eqn:W.
  assert (St1 : exists c1, bstage M i A1 B1 c1).
  { destruct (pivot_cases n i A B A1 B1 W Hi)
      as [(-> & -> & _) | (Z & j & Hj & E & -> & ->)].
    - exists clean. exact St.
    - exists false. apply (stage_swap N.land 1 n M i A B clean j St). lia. }
  destruct St1 as (c1 & St1). exists c1.
  destruct (N.eqb_spec (entry A1 i i) 0) as [Z|Z]; [discriminate|].
  injection R as <- <-.
  pose proof (st_A _ _ _ _ _ _ _ _ St1) as SA. pose proof (st_B _ _ _ _ _ _ _ _ St1) as SB.
  pose proof (square_small 1 n A1 SA i i Hi Hi) as Bi. change (2 ^ 1) with 2 in Bi.
  assert (P1 : entry A1 i i = 1) by lia.
  apply (stage_round N.land 1 N.land_comm N.land_assoc land_lxor_r land_1_l (land_lt 1) eq_refl
           n M i A1 B1 c1 1); try assumption.
  - apply eliminate_square; assumption.
  - apply eliminate_square; assumption.
  - assert (Row : forall O k, square 2 n O -> (k < n)%nat ->
      entry (eliminate n i A1 O) i k = entry O i k).
    { intros O k SO Hk. rewrite eliminate_entry by assumption.
      rewrite Nat.eqb_refl. reflexivity. }
    constructor.
    + intros k Hk. rewrite Row by assumption. symmetry. apply land_1_l.
      apply (square_small 1 n A1 SA); assumption.
    + intros k Hk. rewrite Row by assumption. symmetry. apply land_1_l.
      apply (square_small 1 n B1 SB); assumption.
    + intros j k Hj Hne Hk. rewrite (Row A1 k) by assumption.
      rewrite eliminate_entry by assumption.
      replace (Nat.eqb j i) with false by lia. reflexivity.
    + intros j k Hj Hne Hk. rewrite (Row B1 k) by assumption.
      rewrite eliminate_entry by assumption.
      replace (Nat.eqb j i) with false by lia. reflexivity.
  - rewrite P1. reflexivity.
Qed.

Lemma bround_none : forall M i A B clean, square 2 n M -> bstage M i A B clean ->
  (i < n)%nat -> invert_round n i A B = None -> ~ invertible N.land 2 n M.
Proof.
  intros M i A B clean SM St Hi R. unfold invert_round in R.
  destruct (with_pivot n i A B) as [A1 B1] eqn:W.
  pose proof (st_A _ _ _ _ _ _ _ _ St) as SA.
  destruct (N.eqb_spec (entry A1 i i) 0) as [Z|Z]; [|discriminate].
  destruct (pivot_cases n i A B A1 B1 W Hi)
    as [(-> & -> & NP) | (Z0 & j & Hj & E & -> & ->)].
  - apply (stage_kernel N.land 1 N.land_comm N.land_assoc land_lxor_r land_1_l
             (land_lt 1) eq_refl n M i A B clean St Hi); [|exact SM].
    intros r Hr. destruct (Nat.eq_dec r i) as [->|Hne]; [exact Z|].
    pose proof (square_small 1 n A SA r i ltac:(lia) Hi) as Br. change (2 ^ 1) with 2 in Br.
    pose proof (NP Z r ltac:(lia)). lia.
  - rewrite entry_swap in Z by (rewrite (proj1 SA); lia).
    replace (Nat.eqb i j) with false in Z by lia. rewrite Nat.eqb_refl in Z. lia.
Qed.

Lemma brounds : forall M, square 2 n M -> forall k i A B clean, (i + k)%nat = n ->
  bstage M i A B clean ->
  match rounds (invert_round n) k i A B with
  | Some R => inverse_of N.land 2 n M R
  | None => ~ invertible N.land 2 n M
  end.
Proof.
  intros M SM. induction k as [|k IH]; intros i A B clean E St; cbn [rounds].
  - replace i with n in St by lia.
    apply (stage_done N.land 1 N.land_comm N.land_assoc land_lxor_r land_1_l (land_lt 1) eq_refl
             n M A B clean SM St).
  - destruct (invert_round n i A B) as [[A' B']|] eqn:R.
    + destruct (bround_stage M i A B clean A' B' St ltac:(lia) R) as (c' & St').
      apply (IH (S i) A' B' c'); [lia|exact St'].
    + apply (bround_none M i A B clean SM St ltac:(lia) R).
Qed.

End Binary.

(** ** The instance over GF(2^128) *)

Section GF.
Variable n : nat.
Notation gstage := (stage gf128_mul 128 n).
Notation F := (2 ^ 128).

Lemma gf_mul_in : forall x y, x < F -> y < F -> gf128_mul x y < F.
Proof. intros. apply gf128_mul_lt. Qed.

Lemma scale_vector : forall c a, vector F n a ->
  vector F n (map (fun b => gf128_mul b c) a).
Proof.
  intros c a [L Fa]. split; [rewrite map_length; exact L|].
  apply Forall_forall. intros x Hx. apply in_map_iff in Hx as (b & <- & _).
  apply gf128_mul_lt.
Qed.

Lemma elim_square : forall i A O, square F n A -> square F n O -> (i < n)%nat ->
  square F n (eliminate_gf128 n i A O).
Proof.
  intros i A O SA SO Hi. apply seq_square. intros j Hj.
  destruct (Nat.eqb j i); [apply (row_vector _ n); assumption|].
  apply (xor_vector 128); [apply (row_vector _ n); assumption|].
  apply scale_vector, (row_vector _ n); assumption.
Qed.

Lemma elim_entry : forall i A O j k, square F n A -> square F n O ->
  (i < n)%nat -> (j < n)%nat -> (k < n)%nat ->
  entry (eliminate_gf128 n i A O) j k =
  if Nat.eqb j i then entry O i k
  else N.lxor (entry O j k) (gf128_mul (entry A j i) (entry O i k)).
Proof.
  intros i A O j k SA SO Hi Hj Hk. unfold entry at 1, eliminate_gf128.
  rewrite seq_row by exact Hj.
  destruct (Nat.eqb_spec j i) as [->|Hne]; [reflexivity|].
  rewrite map2_entry; rewrite ?map_length, ?(row_length F n) by assumption;
    [|reflexivity|exact Hk].
  f_equal. rewrite (nth_map' _ _ _ 0) by (rewrite (row_length F n) by assumption; exact Hk).
  apply gf_comm'.
Qed.

Lemma scaled_square : forall i r A, square F n A -> vector F n r ->
  square F n (upd A i r).
Proof.
  intros i r A [L Fa] Hr. split; [rewrite upd_length; exact L|].
  apply Forall_upd; assumption.
Qed.

Lemma seq_vector : forall f, (forall k, (k < n)%nat -> f k < F) ->
  vector F n (map f (seq 0 n)).
Proof.
  intros f H. split; [rewrite map_length, seq_length; reflexivity|].
  apply Forall_forall. intros x Hx. apply in_map_iff in Hx as (k & <- & Hk).
  apply in_seq in Hk. apply H. lia.
Qed.

Lemma upd_entry : forall i f A j k, length A = n -> (i < n)%nat -> (k < n)%nat ->
  entry (upd A i (map f (seq 0 n))) j k = if Nat.eqb j i then f k else entry A j k.
Proof.
  intros i f A j k L Hi Hk. unfold entry, row.
  destruct (Nat.eqb_spec j i) as [->|Hne].
  - rewrite nth_upd_same by lia.
    rewrite (nth_map' _ _ _ 0%nat) by (rewrite seq_length; lia).
    rewrite nth_seq' by lia. reflexivity.
  - rewrite nth_upd_other by lia. reflexivity.
Qed.

Lemma ground_stage : forall M i A B clean A' B', gstage M i A B clean -> (i < n)%nat ->
  invert_round_gf128 n i A B = Some (A', B') ->
  exists clean', gstage M (S i) A' B' clean' /\
    (clean = true -> clean' = false -> singular_block gf128_mul F i M).
Proof.
  intros M i A B clean A' B' St Hi R. unfold invert_round_gf128 in R.
  destruct (with_pivot n i A B) as [A1 B1] eqn:W.
  assert (St1 : exists c1, gstage M i A1 B1 c1 /\
    (clean = true -> c1 = false -> singular_block gf128_mul F i M)).
  { destruct (pivot_cases n i A B A1 B1 W Hi)
      as [(-> & -> & _) | (Z & j & Hj & E & -> & ->)].
    - exists clean. split; [exact St|]. intros -> H. discriminate.
    - exists false. split; [apply (stage_swap gf128_mul 128 n M i A B clean j St); lia|].
      intros -> _. apply (stage_block gf128_mul 128 gf_comm' gf_assoc' gf_add_r gf_1_l
        gf_mul_in eq_refl n M i A B St Hi Z). }
  destruct St1 as (c1 & St1 & Cl). exists c1. split; [|exact Cl].
  destruct (N.eqb_spec (entry A1 i i) 0) as [Z|Z]; [discriminate|].
  injection R as <- <-.
  pose proof (st_A _ _ _ _ _ _ _ _ St1) as SA. pose proof (st_B _ _ _ _ _ _ _ _ St1) as SB.
  pose proof (square_small 128 n A1 SA i i Hi Hi) as Bi.
  set (c := gf128_inv (entry A1 i i)).
  pose proof (inverse _ Bi Z) as Ic. fold c in Ic. clearbody c.
  assert (SA2 : square F n (scale_mat n i c A1)).
  { apply scaled_square; [exact SA|]. apply seq_vector. intros k Hk.
    destruct (Nat.eqb i k); [reflexivity|]. apply gf128_mul_lt. }
  assert (SB2 : square F n (scale_inv n i c B1)).
  { apply scaled_square; [exact SB|]. apply seq_vector. intros k Hk. apply gf128_mul_lt. }
  assert (EA : forall j k, (k < n)%nat -> entry (scale_mat n i c A1) j k =
    if Nat.eqb j i then gf128_mul c (entry A1 i k) else entry A1 j k).
  { intros j k Hk. unfold scale_mat. rewrite upd_entry by (apply SA || lia || assumption).
    destruct (Nat.eqb j i); [|reflexivity].
    destruct (Nat.eqb_spec i k) as [<-|]; [symmetry; exact Ic|]. apply gf_comm'. }
  assert (EB : forall j k, (k < n)%nat -> entry (scale_inv n i c B1) j k =
    if Nat.eqb j i then gf128_mul c (entry B1 i k) else entry B1 j k).
  { intros j k Hk. unfold scale_inv. rewrite upd_entry by (apply SB || lia || assumption).
    destruct (Nat.eqb j i); [|reflexivity]. apply gf_comm'. }
  apply (stage_round gf128_mul 128 gf_comm' gf_assoc' gf_add_r gf_1_l gf_mul_in eq_refl
           n M i A1 B1 c1 c); try assumption.
  - apply elim_square; assumption.
  - apply elim_square; assumption.
  - assert (Row : forall O k, square F n O -> (k < n)%nat ->
      entry (eliminate_gf128 n i (scale_mat n i c A1) O) i k = entry O i k).
    { intros O k SO Hk. rewrite elim_entry by assumption.
      rewrite Nat.eqb_refl. reflexivity. }
    constructor.
    + intros k Hk. rewrite Row, EA, Nat.eqb_refl by assumption. reflexivity.
    + intros k Hk. rewrite Row, EB, Nat.eqb_refl by assumption. reflexivity.
    + intros j k Hj Hne Hk. rewrite (Row _ k) by assumption.
      rewrite elim_entry by assumption.
      rewrite !EA by assumption. replace (Nat.eqb j i) with false by lia. reflexivity.
    + intros j k Hj Hne Hk. rewrite (Row _ k) by assumption.
      rewrite elim_entry by assumption.
      rewrite EA, !EB by assumption. replace (Nat.eqb j i) with false by lia. reflexivity.
  - rewrite gf_comm'. exact Ic.
Qed.

Lemma ground_none : forall M i A B, gstage M i A B true ->
  (i < n)%nat -> invert_round_gf128 n i A B = None -> singular_block gf128_mul F i M.
Proof.
  intros M i A B St Hi R. unfold invert_round_gf128 in R.
  destruct (with_pivot n i A B) as [A1 B1] eqn:W.
  destruct (N.eqb_spec (entry A1 i i) 0) as [Z|Z]; [|discriminate].
  assert (Z0 : entry A i i = 0).
  { destruct (pivot_cases n i A B A1 B1 W Hi)
      as [(-> & -> & NP) | (Z0 & _)]; [exact Z|exact Z0]. }
  apply (stage_block gf128_mul 128 gf_comm' gf_assoc' gf_add_r gf_1_l
        gf_mul_in eq_refl n M i A B St Hi Z0).
Qed.

Lemma grounds : forall M, square F n M -> forall k i A B clean, (i + k)%nat = n ->
  gstage M i A B clean ->
  (clean = false -> exists j, (j < n)%nat /\ singular_block gf128_mul F j M) ->
  match rounds (invert_round_gf128 n) k i A B with
  | Some R => inverse_of gf128_mul F n M R
  | None => exists j, (j < n)%nat /\ singular_block gf128_mul F j M
  end.
Proof.
  intros M SM. induction k as [|k IH]; intros i A B clean E St Cl; cbn [rounds].
  - replace i with n in St by lia.
    apply (stage_done gf128_mul 128 gf_comm' gf_assoc' gf_add_r gf_1_l gf_mul_in eq_refl
             n M A B clean SM St).
  - destruct (invert_round_gf128 n i A B) as [[A' B']|] eqn:R.
    + destruct (ground_stage M i A B clean A' B' St ltac:(lia) R) as (c' & St' & H').
      apply (IH (S i) A' B' c'); [lia|exact St'|]. intros Hc.
      destruct clean; [|apply Cl; reflexivity]. exists i. split; [lia|]. apply H'; auto.
    + destruct clean; [|apply Cl; reflexivity].
      exists i. split; [lia|]. apply (ground_none M i A B St ltac:(lia) R).
Qed.

End GF.

(** Proofs about the GGM tree. *)
From Coq Require Import NArith PArith List Bool Arith Lia.
From Coq Require Import ZifyBool ZifyNat ZifyN.
From Verif.Base Require Import Words ListX.
From Verif.OKVS Require Import GFProofs MatSpec MatProofs.
From Verif.OT Require Import OTModel OTSpec OTProofs.
From Verif.VOLE Require Import GGMModel GGMSpec.
Import ListNotations.

Lemma get_nth : forall A (l : list A) i d, i < length l -> get l i = Some (nth i l d).
Proof. intros. apply nth_error_nth'. assumption. Qed.
Lemma set_ok : forall A (l : list A) i x, i < length l -> set l i x = Some (upd l i x).
Proof. intros A l i x H. unfold set. apply Nat.ltb_lt in H. rewrite H. reflexivity. Qed.
Lemma xsum_front : forall n f, xsum (S n) f = N.lxor (f 0) (xsum n (fun j => f (S j))).
Proof.
  intros n f. unfold xsum. cbn [seq map fold_right]. rewrite <- seq_shift, map_map. reflexivity.
Qed.
Lemma xsum_pairs : forall n f, xsum (2 * n) f = N.lxor (xsum n (fun j => f (2 * j))) (xsum n (fun j => f (2 * j + 1))).
Proof.
  induction n as [|n IH]; intros f; [reflexivity|]. replace (2 * S n) with (S (S (2 * n))) by lia.
  rewrite !xsum_S, IH. replace (2 * n + 1) with (S (2 * n)) by lia.
  rewrite N.lxor_assoc. apply lxor4.
Qed.
Lemma xsum_without : forall n a f, a < n ->
  N.lxor (xsum n f) (xsum n (fun i => if i =? a then 0%N else f i)) = f a.
Proof.
  intros n a f H. rewrite <- xsum_add. rewrite (xsum_single n _ a H).
  - rewrite Nat.eqb_refl. apply N.lxor_0_r.
  - intros k Hk Hn. apply Nat.eqb_neq in Hn. rewrite Hn. apply N.lxor_nilpotent.
Qed.

Lemma punc_unfold : forall prg depth beta m ms b bits, 2 <= depth ->
  PuncEval prg depth beta (m :: ms) (b :: bits) =
      let leaf_num := (2 ^ depth)%nat in
          match set (repeat None (leaf_num - 2)) (if (b =? 0)%N then 0%nat else 1%nat) (Some m) with
          | None => None
          | Some inner =>
              match punc_levels prg (depth - 2) 1 0 inner None ms bits with
              | None => None
              | Some (parent, inner, alpha, ms, bits) =>
                  match punc_leaves prg (2 ^ (depth - 1)) 0 parent inner (repeat 0%N leaf_num) 0%N 0%N alpha with
                  | Some (leaf, ls, rs, Some a) =>
                      match ms, bits with
                      | m :: _, b :: _ =>
                          let l := if (b =? 0)%N then N.lxor m ls else N.lxor (N.lxor m ls) beta in
                          let r := if (b =? 0)%N then N.lxor (N.lxor m rs) beta else N.lxor m rs in
                          match set leaf (2 * a) l with
                          | None => None
                          | Some leaf => set leaf (2 * a + 1) r
                          end
                      | _, _ => None
                      end
                  | _ => None
                  end
              end
          end.
Proof. intros prg depth beta m ms b bits H. destruct depth as [|[|e]]; [lia|lia|]. reflexivity. Qed.
Lemma punc_one : forall prg beta m ms b bits,
  PuncEval prg 1 beta (m :: ms) (b :: bits) = Some (if (b =? 0)%N then [m; N.lxor m beta] else [N.lxor m beta; m]).
Proof. reflexivity. Qed.

Section Tree.
Variable prg : N -> N * N.
Variable k : N.
Notation heap := (heap prg k).

Lemma heap_even : forall h, 1 <= h -> heap (2 * h) = fst (prg (heap h)).
Proof.
  intros h H. unfold GGMSpec.heap. rewrite Nat2Pos.inj_mul by lia. change (Pos.of_nat 2) with 2%positive.
  reflexivity.
Qed.
Lemma heap_odd : forall h, 1 <= h -> heap (2 * h + 1) = snd (prg (heap h)).
Proof.
  intros h H. unfold GGMSpec.heap. rewrite Nat.add_1_r, Nat2Pos.inj_succ by lia. rewrite Nat2Pos.inj_mul by lia.
  change (Pos.of_nat 2) with 2%positive. reflexivity.
Qed.

Lemma fill_ok : forall n p inner, (forall q, q < 2 * p + 2 -> nth q inner 0%N = heap (q + 2)) ->
  2 * (p + n) + 2 <= length inner ->
  exists inner', fill prg n p inner = Some inner' /\ length inner' = length inner /\
    forall q, q < 2 * (p + n) + 2 -> nth q inner' 0%N = heap (q + 2).
Proof.
  induction n as [|n IH]; intros p inner H L; cbn [fill].
  - exists inner. rewrite Nat.add_0_r. auto.
  - rewrite (get_nth _ _ _ 0%N) by lia. rewrite set_ok by lia. rewrite set_ok by (rewrite upd_length; lia).
    rewrite H by lia.
    destruct (IH (S p) (upd (upd inner (2 * p + 2) (fst (prg (heap (p + 2))))) (2 * p + 3) (snd (prg (heap (p + 2)))))) as (r & E & LE & HE).
    + intros q Hq. destruct (Nat.eq_dec q (2 * p + 3)) as [->|N3].
      * rewrite nth_upd_same by (rewrite upd_length; lia). rewrite <- heap_odd by lia. f_equal. lia.
      * rewrite nth_upd_other by lia. destruct (Nat.eq_dec q (2 * p + 2)) as [->|N2].
        -- rewrite nth_upd_same by lia. rewrite <- heap_even by lia. f_equal. lia.
        -- rewrite nth_upd_other by lia. apply H. lia.
    + rewrite !upd_length. lia.
    + exists r. split; [exact E|]. rewrite !upd_length in LE. split; [exact LE|]. intros q Hq. apply HE. lia.
Qed.

Lemma leaves_from_ok : forall n p inner,
  (forall q, p <= q < p + n -> q < length inner /\ nth q inner 0%N = heap (q + 2)) ->
  leaves_from prg n p inner = Some (map heap (seq (2 * (p + 2)) (2 * n))).
Proof.
  induction n as [|n IH]; intros p inner H; cbn [leaves_from]; [reflexivity|].
  destruct (H p ltac:(lia)) as [L E]. rewrite (get_nth _ _ _ 0%N) by exact L.
  rewrite IH by (intros q Hq; apply H; lia). rewrite E.
  replace (2 * S n) with (S (S (2 * n))) by lia. cbn [seq map].
  replace (2 * (S p + 2)) with (S (S (2 * (p + 2)))) by lia.
  do 2 f_equal; [symmetry; apply heap_even; lia|]. f_equal. rewrite <- heap_odd by lia. f_equal. lia.
Qed.

Lemma pair_sums_ok : forall n left m0 m1 v f,
  (forall q, left <= q < left + 2 * n -> q < length v /\ nth q v 0%N = f q) ->
  pair_sums n left m0 m1 v =
  Some (N.lxor m0 (xsum n (fun j => f (left + 2 * j))), N.lxor m1 (xsum n (fun j => f (left + 2 * j + 1)))).
Proof.
  induction n as [|n IH]; intros left m0 m1 v f H; cbn [pair_sums].
  - rewrite !N.lxor_0_r. reflexivity.
  - destruct (H left ltac:(lia)) as [L0 E0]. destruct (H (left + 1) ltac:(lia)) as [L1 E1].
    rewrite !(get_nth _ _ _ 0%N) by assumption. rewrite (IH _ _ _ _ f) by (intros; apply H; lia).
    rewrite !xsum_front, E0, E1, !N.lxor_assoc.
    f_equal. f_equal; f_equal; (f_equal; [f_equal; lia|apply xsum_ext; intros j _; f_equal; lia]).
Qed.

(** the sums of the left and right children at level i + 1 *)
Definition sum0 (i : nat) : N := xsum (2 ^ i) (fun j => heap (2 * (2 ^ i + j))).
Definition sum1 (i : nat) : N := xsum (2 ^ i) (fun j => heap (2 * (2 ^ i + j) + 1)).

Lemma pow_pos : forall i, 1 <= 2 ^ i.
Proof. intros. apply Nat.neq_0_lt_0, Nat.pow_nonzero. discriminate. Qed.

Lemma level_sums_ok : forall n i inner m0 m1, 2 ^ (i + n + 1) - 2 <= length inner ->
  (forall q, q < 2 ^ (i + n + 1) - 2 -> nth q inner 0%N = heap (q + 2)) ->
  level_sums n i (2 * 2 ^ i - 2) inner m0 m1 = Some (m0 ++ map sum0 (seq i n), m1 ++ map sum1 (seq i n)).
Proof.
  induction n as [|n IH]; intros i inner m0 m1 L H; cbn [level_sums].
  - rewrite !app_nil_r. reflexivity.
  - assert (P := pow_pos i).
    assert (Q : 4 * 2 ^ i <= 2 ^ (i + S n + 1)).
    { replace (i + S n + 1) with (S (S i) + n) by lia. rewrite Nat.pow_add_r. cbn [Nat.pow].
      pose proof (pow_pos n). nia. }
    rewrite (pair_sums_ok _ _ _ _ _ (fun q => heap (q + 2))) by (intros; split; [lia|apply H; lia]).
    replace (2 * 2 ^ i - 2 + 2 * 2 ^ i) with (2 * 2 ^ S i - 2) by (cbn [Nat.pow]; lia).
    rewrite IH by (replace (S i + n + 1) with (i + S n + 1) by lia; assumption).
    cbn [seq map]. rewrite <- !app_assoc. cbn [app]. rewrite !N.lxor_0_l.
    f_equal. f_equal; f_equal; f_equal; apply xsum_ext; intros j Hj; f_equal; lia.
Qed.

Lemma leaves_heap : forall d, leaves prg k d = map heap (seq (2 ^ d) (2 ^ d)).
Proof.
  intros d. unfold leaves. apply list_eq_nth with 0%N; [rewrite !map_length, !seq_length; reflexivity|].
  intros i Hi. rewrite map_length, seq_length in Hi. rewrite !(nth_map' _ _ _ 0) by (rewrite seq_length; exact Hi).
  rewrite !seq_nth by exact Hi. reflexivity.
Qed.
Lemma leaves_length : forall d, length (leaves prg k d) = 2 ^ d.
Proof. intros. unfold leaves. rewrite map_length, seq_length. reflexivity. Qed.
Lemma leaves_nth : forall d j, j < 2 ^ d -> nth j (leaves prg k d) 0%N = heap (2 ^ d + j).
Proof.
  intros d j H. unfold leaves. rewrite (nth_map' _ _ _ 0) by (rewrite seq_length; exact H). rewrite seq_nth by exact H.
  reflexivity.
Qed.

Lemma sums_leaves : forall d, N.lxor (sum0 d) (sum1 d) = xors (leaves prg k (S d)).
Proof.
  intros d. unfold sum0, sum1, leaves. change (xors (map (leaf prg k (S d)) (seq 0 (2 ^ S d)))) with (xsum (2 ^ S d) (leaf prg k (S d))).
  cbn [Nat.pow]. replace (2 ^ d + (2 ^ d + 0)) with (2 * 2 ^ d) by lia. rewrite xsum_pairs.
  unfold leaf. f_equal; apply xsum_ext; intros j _; f_equal; cbn [Nat.pow]; lia.
Qed.

Lemma full_ok : forall d m0 m1,
  FullEval prg (S d) k m0 m1 =
  Some (xors (leaves prg k (S d)), leaves prg k (S d), m0 ++ map sum0 (seq 0 (S d)), m1 ++ map sum1 (seq 0 (S d))).
Proof.
  intros d m0 m1. rewrite <- sums_leaves. unfold FullEval.
  assert (H2 : heap 2 = fst (prg k)) by (apply (heap_even 1); lia).
  assert (H3 : heap 3 = snd (prg k)) by (apply (heap_odd 1); lia).
  destruct (prg k) as [l r]. cbn [fst snd] in *. destruct d as [|d].
  - unfold sum0, sum1. cbn [seq map Nat.pow]. unfold xsum, leaves, leaf. cbn [seq map fold_right Nat.pow].
    cbn [Nat.mul Nat.add seq map]. rewrite !N.lxor_0_r, H2, H3. reflexivity.
  - set (D := S (S d)). assert (P := pow_pos d).
    assert (E : 2 ^ D = 4 * 2 ^ d) by (unfold D; cbn [Nat.pow]; lia).
    set (n := 2 ^ D - 2). assert (En : n = 4 * 2 ^ d - 2) by (unfold n; lia).
    set (st := (n - 2) / 2). assert (Est : st = 2 * 2 ^ d - 2).
    { unfold st. rewrite En. replace (4 * 2 ^ d - 2 - 2) with ((2 * 2 ^ d - 2) * 2) by lia. apply Nat.div_mul. lia. }
    clearbody st. clearbody n.
    rewrite set_ok by (rewrite repeat_length; lia). rewrite set_ok by (rewrite upd_length, repeat_length; lia).
    destruct (fill_ok st 0 (upd (upd (repeat 0%N n) 0 l) 1 r)) as (inner & EF & LF & HF).
    { intros q Hq. assert (Q : q = 0 \/ q = 1) by lia. destruct Q as [-> | ->].
      - rewrite nth_upd_other by lia. rewrite nth_upd_same by (rewrite repeat_length; lia). symmetry. exact H2.
      - rewrite nth_upd_same by (rewrite upd_length, repeat_length; lia). symmetry. exact H3. }
    { rewrite !upd_length, repeat_length. lia. }
    rewrite !upd_length, repeat_length in LF. rewrite EF.
    assert (HI : forall q, q < n -> nth q inner 0%N = heap (q + 2)) by (intros q Hq; apply HF; lia).
    rewrite leaves_from_ok by (intros q Hq; split; [lia|apply HI; lia]).
    replace (2 * (st + 2)) with (2 ^ D) by lia. replace (2 * (n - st)) with (2 ^ D) by lia.
    rewrite <- leaves_heap. rewrite !(get_nth _ inner _ 0%N) by lia. rewrite !HI by lia. cbn [Nat.add].
    replace (D - 2) with d by (unfold D; lia).
    assert (LS := level_sums_ok d 1 inner (m0 ++ [heap 2]) (m1 ++ [heap 3])).
    cbn [Nat.pow Nat.mul Nat.add Nat.sub] in LS. rewrite LS.
    2:{ rewrite LF, En, Nat.add_1_r. cbn [Nat.pow]. lia. }
    2:{ intros q Hq. apply HI. rewrite En. rewrite Nat.add_1_r in Hq. cbn [Nat.pow] in Hq. lia. }
    rewrite !(get_nth _ (leaves prg k D) _ 0%N) by (rewrite leaves_length; lia).
    assert (B : n / 2 = 2 ^ S d - 1).
    { rewrite En. cbn [Nat.pow]. replace (4 * 2 ^ d - 2) with ((2 * 2 ^ d - 1) * 2) by lia. rewrite Nat.div_mul by lia. lia. }
    assert (B2 : 2 ^ S d = 2 * 2 ^ d) by (cbn [Nat.pow]; lia).
    rewrite (pair_sums_ok _ _ _ _ _ (fun q => heap (2 ^ D + q))).
    2:{ intros q Hq. assert (q < 2 ^ D) by lia.
        rewrite leaves_length. split; [assumption|]. apply leaves_nth. assumption. }
    rewrite !leaves_nth by lia. rewrite B.
    assert (S0 : N.lxor (heap (2 ^ D + 0)) (xsum (2 ^ S d - 1) (fun j => heap (2 ^ D + (2 + 2 * j)))) = sum0 (S d)).
    { unfold sum0. pose proof (pow_pos (S d)). replace (2 ^ S d) with (S (2 ^ S d - 1)) at 2 by lia. rewrite xsum_front.
      f_equal; [f_equal; unfold D; cbn [Nat.pow]; lia|]. apply xsum_ext. intros j _. f_equal. unfold D. cbn [Nat.pow]. lia. }
    assert (S1 : N.lxor (heap (2 ^ D + 1)) (xsum (2 ^ S d - 1) (fun j => heap (2 ^ D + (2 + 2 * j + 1)))) = sum1 (S d)).
    { unfold sum1. pose proof (pow_pos (S d)). replace (2 ^ S d) with (S (2 ^ S d - 1)) at 2 by lia. rewrite xsum_front.
      f_equal; [f_equal; unfold D; cbn [Nat.pow]; lia|]. apply xsum_ext. intros j _. f_equal. unfold D. cbn [Nat.pow]. lia. }
    rewrite S0, S1. replace (seq 0 D) with (0 :: seq 1 d ++ [S d]).
    2:{ unfold D. change (seq 0 (S (S d))) with (0 :: seq 1 (S d)). rewrite (seq_S d 1). reflexivity. }
    cbn [map]. rewrite !map_app. cbn [map]. rewrite <- !app_assoc. cbn [app].
    assert (T0 : sum0 0 = heap 2) by (unfold sum0, xsum; cbn [Nat.pow seq map fold_right Nat.add Nat.mul]; apply N.lxor_0_r).
    assert (T1 : sum1 0 = heap 3) by (unfold sum1, xsum; cbn [Nat.pow seq map fold_right Nat.add Nat.mul]; apply N.lxor_0_r).
    rewrite T0, T1. reflexivity.
Qed.

(** ** The punctured evaluation *)
Section Punc.
Variables d alpha : nat.
Hypothesis Ha : alpha < 2 ^ d.
(** the node of level l on the path to leaf alpha *)
Definition path (l : nat) : nat := (2 ^ d + alpha) / 2 ^ (d - l).

Lemma path_range : forall l, l <= d -> 2 ^ l <= path l < 2 ^ S l.
Proof.
  intros l H. unfold path. assert (E : 2 ^ d = 2 ^ l * 2 ^ (d - l)) by (rewrite <- Nat.pow_add_r; f_equal; lia).
  pose proof (pow_pos (d - l)). split.
  - apply Nat.div_le_lower_bound; lia.
  - apply Nat.div_lt_upper_bound; [lia|]. cbn [Nat.pow]. lia.
Qed.
Lemma path_S : forall l, l < d -> path (S l) = 2 * path l + path (S l) mod 2.
Proof.
  intros l H. assert (E : path l = path (S l) / 2).
  { unfold path. replace (d - l) with (S (d - S l)) by lia. rewrite Nat.pow_succ_r', Nat.mul_comm.
    rewrite Nat.div_div by (try apply Nat.pow_nonzero; discriminate). reflexivity. }
  rewrite E. apply Nat.div_mod. discriminate.
Qed.
Lemma path_top : path d = 2 ^ d + alpha.
Proof. unfold path. rewrite Nat.sub_diag. apply Nat.div_1_r. Qed.

Definition sel (l : nat) : N := if path (S l) mod 2 =? 1 then 0%N else 1%N.
Definition msg (l : nat) : N := if (sel l =? 0)%N then sum0 l else sum1 l.

(** level l is filled, except for the node on the path *)
Definition Lvl (l : nat) (arr : list (option N)) : Prop :=
  length arr = 2 ^ d - 2 /\
  forall h, 2 ^ l <= h < 2 ^ S l -> nth (h - 2) arr None = if h =? path l then None else Some (heap h).
(** the children of the first j nodes of level l are filled, except those of the
    node on the path *)
Definition Mid (l j : nat) (arr : list (option N)) : Prop :=
  Lvl l arr /\
  forall h, 2 ^ S l <= h ->
    nth (h - 2) arr None = if (h <? 2 * (2 ^ l + j)) && negb (h / 2 =? path l) then Some (heap h) else None.
Definition F0 (l i : nat) : N := if 2 ^ l + i =? path l then 0%N else heap (2 * (2 ^ l + i)).
Definition F1 (l i : nat) : N := if 2 ^ l + i =? path l then 0%N else heap (2 * (2 ^ l + i) + 1).

Lemma F0_sum : forall l, l <= d -> N.lxor (sum0 l) (xsum (2 ^ l) (F0 l)) = heap (2 * path l).
Proof.
  intros l H. pose proof (path_range l H). cbn [Nat.pow] in *. unfold sum0.
  assert (W := xsum_without (2 ^ l) (path l - 2 ^ l) (fun j => heap (2 * (2 ^ l + j))) ltac:(lia)).
  cbv beta in W. replace (2 ^ l + (path l - 2 ^ l)) with (path l) in W by lia.
  rewrite <- W. f_equal. apply xsum_ext. intros i Hi. unfold F0.
  destruct (Nat.eqb_spec (2 ^ l + i) (path l)); destruct (Nat.eqb_spec i (path l - 2 ^ l)); lia || reflexivity.
Qed.
Lemma F1_sum : forall l, l <= d -> N.lxor (sum1 l) (xsum (2 ^ l) (F1 l)) = heap (2 * path l + 1).
Proof.
  intros l H. pose proof (path_range l H). cbn [Nat.pow] in *. unfold sum1.
  assert (W := xsum_without (2 ^ l) (path l - 2 ^ l) (fun j => heap (2 * (2 ^ l + j) + 1)) ltac:(lia)).
  cbv beta in W. replace (2 ^ l + (path l - 2 ^ l)) with (path l) in W by lia.
  rewrite <- W. f_equal. apply xsum_ext. intros i Hi. unfold F1.
  destruct (Nat.eqb_spec (2 ^ l + i) (path l)); destruct (Nat.eqb_spec i (path l - 2 ^ l)); lia || reflexivity.
Qed.

Lemma mid_step_on : forall l j arr, 2 ^ l + j = path l -> Mid l j arr -> Mid l (S j) arr.
Proof.
  intros l j arr E [HL HM]. split; [exact HL|]. intros h Hh. rewrite HM by exact Hh.
  assert (A : h = 2 * (h / 2) + h mod 2) by (apply Nat.div_mod; discriminate).
  assert (B : h mod 2 < 2) by (apply Nat.mod_upper_bound; discriminate).
  destruct (Nat.ltb_spec h (2 * (2 ^ l + j))); destruct (Nat.ltb_spec h (2 * (2 ^ l + S j))); try lia; try reflexivity.
  assert (Q : h / 2 = path l) by lia. rewrite Q, Nat.eqb_refl. reflexivity.
Qed.

Lemma mid_step_off : forall l j arr, 1 <= l -> S l < d -> j < 2 ^ l -> 2 ^ l + j <> path l -> Mid l j arr ->
  Mid l (S j) (upd (upd arr (2 * (2 ^ l + j - 2) + 2) (Some (heap (2 * (2 ^ l + j)))))
                   (2 * (2 ^ l + j - 2) + 3) (Some (heap (2 * (2 ^ l + j) + 1)))).
Proof.
  intros l j arr H1 Hd Hj Hn [[L HL] HM].
  assert (P2 : 2 <= 2 ^ l) by (destruct l; [lia|]; pose proof (pow_pos l); cbn [Nat.pow]; lia).
  assert (PD : 4 * 2 ^ l <= 2 ^ d).
  { replace d with (S (S l) + (d - S (S l))) by lia. rewrite Nat.pow_add_r. cbn [Nat.pow]. pose proof (pow_pos (d - S (S l))). nia. }
  replace (2 * (2 ^ l + j - 2) + 2) with (2 * (2 ^ l + j) - 2) by lia.
  replace (2 * (2 ^ l + j - 2) + 3) with (2 * (2 ^ l + j) + 1 - 2) by lia.
  split.
  - split; [rewrite !upd_length; exact L|]. intros h Hh. cbn [Nat.pow] in Hh. rewrite !nth_upd_other by lia. apply HL. cbn [Nat.pow]. exact Hh.
  - intros h Hh. cbn [Nat.pow] in Hh.
    assert (A : h = 2 * (h / 2) + h mod 2) by (apply Nat.div_mod; discriminate).
    assert (B : h mod 2 < 2) by (apply Nat.mod_upper_bound; discriminate).
    destruct (Nat.eq_dec h (2 * (2 ^ l + j) + 1)) as [->|N1].
    + rewrite nth_upd_same by (rewrite upd_length; lia).
      replace ((2 * (2 ^ l + j) + 1) / 2) with (2 ^ l + j) by lia.
      apply Nat.eqb_neq in Hn. rewrite Hn. destruct (Nat.ltb_spec (2 * (2 ^ l + j) + 1) (2 * (2 ^ l + S j))); [reflexivity|lia].
    + rewrite nth_upd_other by lia. destruct (Nat.eq_dec h (2 * (2 ^ l + j))) as [->|N2].
      * rewrite nth_upd_same by lia. replace ((2 * (2 ^ l + j)) / 2) with (2 ^ l + j) by lia.
        apply Nat.eqb_neq in Hn. rewrite Hn. destruct (Nat.ltb_spec (2 * (2 ^ l + j)) (2 * (2 ^ l + S j))); [reflexivity|lia].
      * rewrite nth_upd_other by lia. rewrite HM by (cbn [Nat.pow]; exact Hh).
        destruct (Nat.ltb_spec h (2 * (2 ^ l + j))); destruct (Nat.ltb_spec h (2 * (2 ^ l + S j))); try lia; reflexivity.
Qed.

Definition al (l j : nat) (base : nat) (old : option nat) : option nat :=
  if path l <? 2 ^ l + j then Some (path l - base) else old.

Lemma row_ok : forall n l j arr old, 1 <= l -> S l < d -> n + j = 2 ^ l -> Mid l j arr ->
  exists arr', punc_row prg n (2 ^ l + j - 2) arr (xsum j (F0 l)) (xsum j (F1 l)) (al l j 2 old) =
    Some (2 ^ S l - 2, arr', xsum (2 ^ l) (F0 l), xsum (2 ^ l) (F1 l), Some (path l - 2)) /\ Mid l (2 ^ l) arr'.
Proof.
  induction n as [|n IH]; intros l j arr old H1 Hd Hn HM; cbn [punc_row].
  - exists arr. assert (j = 2 ^ l) by lia. subst j. split; [|exact HM].
    unfold al. pose proof (path_range l ltac:(lia)) as R. cbn [Nat.pow] in R.
    destruct (Nat.ltb_spec (path l) (2 ^ l + 2 ^ l)); [|lia]. cbn [Nat.pow]. do 5 f_equal. lia.
  - assert (P2 : 2 <= 2 ^ l) by (destruct l; [lia|]; pose proof (pow_pos l); cbn [Nat.pow]; lia).
    assert (PD : 4 * 2 ^ l <= 2 ^ d).
    { replace d with (S (S l) + (d - S (S l))) by lia. rewrite Nat.pow_add_r. cbn [Nat.pow]. pose proof (pow_pos (d - S (S l))). nia. }
    pose proof HM as [[L HL] _]. rewrite (get_nth _ _ _ None) by lia. rewrite HL by (cbn [Nat.pow]; lia).
    destruct (Nat.eqb_spec (2 ^ l + j) (path l)) as [E|E].
    + destruct (IH l (S j) arr old H1 Hd ltac:(lia) (mid_step_on l j arr E HM)) as (arr' & ER & HR).
      exists arr'. split; [|exact HR]. rewrite <- ER. f_equal.
      * lia.
      * rewrite xsum_S. unfold F0 at 3. rewrite E, Nat.eqb_refl. symmetry. apply N.lxor_0_r.
      * rewrite xsum_S. unfold F1 at 3. rewrite E, Nat.eqb_refl. symmetry. apply N.lxor_0_r.
      * unfold al. destruct (Nat.ltb_spec (path l) (2 ^ l + S j)); [|lia]. f_equal. lia.
    + rewrite set_ok by lia. rewrite set_ok by (rewrite upd_length; lia).
      rewrite <- heap_even, <- heap_odd by lia.
      destruct (IH l (S j) _ old H1 Hd ltac:(lia) (mid_step_off l j arr H1 Hd ltac:(lia) E HM)) as (arr' & ER & HR).
      exists arr'. split; [|exact HR]. rewrite <- ER. apply Nat.eqb_neq in E. f_equal.
      * lia.
      * rewrite xsum_S. unfold F0 at 3. rewrite E. reflexivity.
      * rewrite xsum_S. unfold F1 at 3. rewrite E. reflexivity.
      * unfold al. apply Nat.eqb_neq in E.
        destruct (Nat.ltb_spec (path l) (2 ^ l + j)); destruct (Nat.ltb_spec (path l) (2 ^ l + S j)); lia || reflexivity.
Qed.

Lemma sel_cases : forall l, l < d ->
  (sel l = 0%N /\ path (S l) = 2 * path l + 1) \/ (sel l = 1%N /\ path (S l) = 2 * path l).
Proof.
  intros l H. pose proof (path_S l H) as E. assert (B : path (S l) mod 2 < 2) by (apply Nat.mod_upper_bound; discriminate).
  unfold sel. destruct (Nat.eqb_spec (path (S l) mod 2) 1); [left|right]; split; (reflexivity || lia).
Qed.

(** filling the node next to the path *)
Lemma sibling_ok : forall l arr s, 1 <= l -> S l < d -> Mid l (2 ^ l) arr ->
  (s = 2 * path l \/ s = 2 * path l + 1) -> s <> path (S l) ->
  Mid (S l) 0 (upd arr (s - 2) (Some (heap s))).
Proof.
  intros l arr s H1 Hd [[L _] HM] Hs Hn.
  assert (P2 : 2 <= 2 ^ l) by (destruct l; [lia|]; pose proof (pow_pos l); cbn [Nat.pow]; lia).
  assert (PD : 4 * 2 ^ l <= 2 ^ d).
  { replace d with (S (S l) + (d - S (S l))) by lia. rewrite Nat.pow_add_r. cbn [Nat.pow]. pose proof (pow_pos (d - S (S l))). nia. }
  pose proof (path_range l ltac:(lia)) as R. pose proof (path_S l ltac:(lia)) as PS. cbn [Nat.pow] in R.
  assert (B0 : path (S l) mod 2 < 2) by (apply Nat.mod_upper_bound; discriminate).
  split; [split; [rewrite upd_length; exact L|]|]; intros h Hh.
  - assert (A : h = 2 * (h / 2) + h mod 2) by (apply Nat.div_mod; discriminate).
    assert (B : h mod 2 < 2) by (apply Nat.mod_upper_bound; discriminate). cbn [Nat.pow] in Hh.
    destruct (Nat.eq_dec h s) as [->|N1].
    + rewrite nth_upd_same by lia. apply Nat.eqb_neq in Hn. rewrite Hn. reflexivity.
    + rewrite nth_upd_other by lia. rewrite HM by (cbn [Nat.pow]; lia).
      destruct (Nat.ltb_spec h (2 * (2 ^ l + 2 ^ l))); [|lia]. cbn [andb].
      destruct (Nat.eqb_spec (h / 2) (path l)); destruct (Nat.eqb_spec h (path (S l))); cbn [negb]; lia || reflexivity.
  - cbn [Nat.pow] in Hh. rewrite nth_upd_other by lia. rewrite HM by (cbn [Nat.pow]; lia).
    cbn [Nat.pow]. destruct (Nat.ltb_spec h (2 * (2 ^ l + 2 ^ l))); [lia|].
    destruct (Nat.ltb_spec h (2 * (2 * 2 ^ l + 0))); [lia|]. reflexivity.
Qed.

Lemma levels_ok : forall n l arr old ms bits, 1 <= l -> l + n < d -> Mid l 0 arr ->
  exists arr' old',
    punc_levels prg n l (2 ^ l - 2) arr old (map msg (seq l n) ++ ms) (map sel (seq l n) ++ bits) =
    Some (2 ^ (l + n) - 2, arr', old', ms, bits) /\ Lvl (l + n) arr'.
Proof.
  induction n as [|n IH]; intros l arr old ms bits H1 Hd HM; cbn [punc_levels].
  - exists arr, old. rewrite Nat.add_0_r. split; [reflexivity|apply HM].
  - destruct (row_ok (2 ^ l) l 0 arr old H1 ltac:(lia) ltac:(lia) HM) as (arr1 & ER & HR).
    pose proof (path_range l ltac:(lia)) as R. cbn [Nat.pow] in R.
    assert (P2 : 2 <= 2 ^ l) by (destruct l; [lia|]; pose proof (pow_pos l); cbn [Nat.pow]; lia).
    assert (PD : 4 * 2 ^ l <= 2 ^ d).
    { replace d with (S (S l) + (d - S (S l))) by lia. rewrite Nat.pow_add_r. cbn [Nat.pow]. pose proof (pow_pos (d - S (S l))). nia. }
    assert (EA : al l 0 2 old = old) by (unfold al; destruct (Nat.ltb_spec (path l) (2 ^ l + 0)); [lia|reflexivity]).
    rewrite EA, Nat.add_0_r in ER. change (xsum 0 (F0 l)) with 0%N in ER. change (xsum 0 (F1 l)) with 0%N in ER.
    rewrite ER. cbn [seq map app].
    assert (L1 : length arr1 = 2 ^ d - 2) by apply HR.
    replace (l + S n) with (S l + n) by lia.
    assert (EM : msg l = if (sel l =? 0)%N then sum0 l else sum1 l) by reflexivity. rewrite EM. clear EM.
    destruct (sel_cases l ltac:(lia)) as [[-> ES] | [-> ES]]; cbn [N.eqb].
    + rewrite set_ok by lia. rewrite F0_sum by lia. replace (2 * (path l - 2) + 2) with (2 * path l - 2) by lia.
      apply IH; [lia|lia|]. apply sibling_ok; auto; lia.
    + rewrite set_ok by lia. rewrite F1_sum by lia. replace (2 * (path l - 2) + 3) with (2 * path l + 1 - 2) by lia.
      apply IH; [lia|lia|]. apply sibling_ok; auto; lia.
Qed.

Lemma leaves_row_ok : forall n l i arr leaf old, S l = d -> 1 <= l -> n + i = 2 ^ l -> Lvl l arr ->
  length leaf = 2 ^ d ->
  (forall q, q < 2 * i -> nth q leaf 0%N = if 2 ^ l + q / 2 =? path l then nth q leaf 0%N else heap (2 ^ d + q)) ->
  exists leaf', punc_leaves prg n i (2 ^ l + i - 2) arr leaf (xsum i (F0 l)) (xsum i (F1 l)) (al l i (2 ^ l) old) =
    Some (leaf', xsum (2 ^ l) (F0 l), xsum (2 ^ l) (F1 l), Some (path l - 2 ^ l)) /\ length leaf' = 2 ^ d /\
    forall q, q < 2 ^ d -> 2 ^ l + q / 2 <> path l -> nth q leaf' 0%N = heap (2 ^ d + q).
Proof.
  induction n as [|n IH]; intros l i arr leaf old Hd H1 Hn [L HL] LL HI; cbn [punc_leaves].
  - exists leaf. assert (i = 2 ^ l) by lia. subst i. split; [|split; [exact LL|]].
    + unfold al. pose proof (path_range l ltac:(lia)) as R. cbn [Nat.pow] in R.
      destruct (Nat.ltb_spec (path l) (2 ^ l + 2 ^ l)); [|lia]. reflexivity.
    + intros q Hq Hne. rewrite HI by (rewrite <- Hd in Hq; cbn [Nat.pow] in Hq; lia).
      apply Nat.eqb_neq in Hne. rewrite Hne. reflexivity.
  - assert (P2 : 2 <= 2 ^ l) by (destruct l; [lia|]; pose proof (pow_pos l); cbn [Nat.pow]; lia).
    assert (PD : 2 ^ d = 2 * 2 ^ l) by (rewrite <- Hd; reflexivity).
    rewrite (get_nth _ _ _ None) by lia. rewrite HL by (cbn [Nat.pow]; lia).
    destruct (Nat.eqb_spec (2 ^ l + i) (path l)) as [E|E].
    + destruct (IH l (S i) arr leaf old Hd H1 ltac:(lia) (conj L HL) LL) as (leaf' & ER & HR).
      { intros q Hq. assert (A : q = 2 * (q / 2) + q mod 2) by (apply Nat.div_mod; discriminate).
        assert (B : q mod 2 < 2) by (apply Nat.mod_upper_bound; discriminate).
        destruct (Nat.eqb_spec (2 ^ l + q / 2) (path l)); [reflexivity|].
        rewrite HI by lia. apply Nat.eqb_neq in n0. rewrite n0. reflexivity. }
      exists leaf'. split; [|exact HR]. rewrite <- ER. f_equal.
      * lia.
      * rewrite xsum_S. unfold F0 at 3. rewrite E, Nat.eqb_refl. symmetry. apply N.lxor_0_r.
      * rewrite xsum_S. unfold F1 at 3. rewrite E, Nat.eqb_refl. symmetry. apply N.lxor_0_r.
      * unfold al. destruct (Nat.ltb_spec (path l) (2 ^ l + S i)); [|lia]. f_equal. lia.
    + rewrite set_ok by lia. rewrite set_ok by (rewrite upd_length; lia).
      rewrite <- heap_even, <- heap_odd by lia.
      destruct (IH l (S i) arr (upd (upd leaf (2 * i) (heap (2 * (2 ^ l + i)))) (2 * i + 1) (heap (2 * (2 ^ l + i) + 1))) old
                  Hd H1 ltac:(lia) (conj L HL)) as (leaf' & ER & HR).
      { rewrite !upd_length. exact LL. }
      { intros q Hq. assert (A : q = 2 * (q / 2) + q mod 2) by (apply Nat.div_mod; discriminate).
        assert (B : q mod 2 < 2) by (apply Nat.mod_upper_bound; discriminate).
        destruct (Nat.eqb_spec (2 ^ l + q / 2) (path l)); [reflexivity|].
        destruct (Nat.eq_dec q (2 * i + 1)) as [->|N1].
        - rewrite nth_upd_same by (rewrite upd_length; lia). f_equal. lia.
        - rewrite nth_upd_other by lia. destruct (Nat.eq_dec q (2 * i)) as [->|N2].
          + rewrite nth_upd_same by lia. f_equal. lia.
          + rewrite nth_upd_other by lia. rewrite HI by lia. apply Nat.eqb_neq in n0. rewrite n0. reflexivity. }
      exists leaf'. split; [|exact HR]. rewrite <- ER. apply Nat.eqb_neq in E. f_equal.
      * lia.
      * rewrite xsum_S. unfold F0 at 3. rewrite E. reflexivity.
      * rewrite xsum_S. unfold F1 at 3. rewrite E. reflexivity.
      * unfold al. apply Nat.eqb_neq in E.
        destruct (Nat.ltb_spec (path l) (2 ^ l + i)); destruct (Nat.ltb_spec (path l) (2 ^ l + S i)); lia || reflexivity.
Qed.

Lemma punc_ok : forall beta ms bits, 1 <= d ->
  PuncEval prg d beta (map msg (seq 0 d) ++ ms) (map sel (seq 0 d) ++ bits) =
  Some (upd (leaves prg k d) alpha (N.lxor (nth alpha (leaves prg k d) 0%N) (N.lxor (xors (leaves prg k d)) beta))).
Proof.
  intros beta ms bits Hd.
  assert (T0 : sum0 0 = heap 2) by (unfold sum0, xsum; cbn [Nat.pow seq map fold_right Nat.add Nat.mul]; apply N.lxor_0_r).
  assert (T1 : sum1 0 = heap 3) by (unfold sum1, xsum; cbn [Nat.pow seq map fold_right Nat.add Nat.mul]; apply N.lxor_0_r).
  assert (P0 : path 0 = 1) by (pose proof (path_range 0 ltac:(lia)) as R; cbn [Nat.pow] in R; lia).
  (* the corrected pair of leaves *)
  assert (FIN : forall l leaf, S l = d -> length leaf = 2 ^ d ->
    (forall q, q < 2 ^ d -> 2 ^ l + q / 2 <> path l -> nth q leaf 0%N = heap (2 ^ d + q)) ->
    forall x y, 
      (if (sel l =? 0)%N then x = heap (2 * path l) /\ y = N.lxor (N.lxor (sum0 l) (xsum (2 ^ l) (F1 l))) beta
       else x = N.lxor (N.lxor (sum1 l) (xsum (2 ^ l) (F0 l))) beta /\ y = heap (2 * path l + 1)) ->
      upd (upd leaf (2 * (path l - 2 ^ l)) x) (2 * (path l - 2 ^ l) + 1) y =
      upd (leaves prg k d) alpha (N.lxor (nth alpha (leaves prg k d) 0%N) (N.lxor (xors (leaves prg k d)) beta))).
  { intros l leaf E LL HL x y HX. pose proof (path_range l ltac:(lia)) as R. pose proof path_top as PT.
    assert (PD : 2 ^ d = 2 * 2 ^ l) by (rewrite <- E; reflexivity). cbn [Nat.pow] in R.
    rewrite leaves_nth by exact Ha.
    assert (SL : N.lxor (sum0 l) (sum1 l) = xors (leaves prg k d)) by (rewrite sums_leaves, E; reflexivity).
    apply list_eq_nth with 0%N; [rewrite !upd_length, leaves_length; exact LL|].
    intros q Hq. rewrite !upd_length in Hq. rewrite LL in Hq.
    destruct (sel_cases l ltac:(lia)) as [[ES EP] | [ES EP]]; rewrite ES in HX; cbn [N.eqb] in HX; destruct HX as [-> ->]; rewrite E in EP.
    - assert (EA : 2 * (path l - 2 ^ l) + 1 = alpha) by lia. rewrite EA.
      destruct (Nat.eq_dec q alpha) as [->|N1].
      + rewrite !nth_upd_same by (rewrite ?upd_length, ?leaves_length; lia). rewrite <- SL.
        rewrite <- PT, EP, <- F1_sum by lia.
        rewrite <- !N.lxor_assoc. f_equal.
        rewrite (N.lxor_comm (sum1 l)), !N.lxor_assoc. rewrite (N.lxor_comm (sum0 l)). f_equal.
        rewrite (N.lxor_comm (sum1 l)), N.lxor_assoc, N.lxor_nilpotent, N.lxor_0_r. reflexivity.
      + rewrite !(nth_upd_other _ alpha) by lia. rewrite leaves_nth by exact Hq.
        destruct (Nat.eq_dec q (2 * (path l - 2 ^ l))) as [->|N2].
        * rewrite nth_upd_same by lia. f_equal. lia.
        * rewrite nth_upd_other by lia. apply HL; [exact Hq|]. lia.
    - assert (EA : 2 * (path l - 2 ^ l) = alpha) by lia. rewrite EA.
      destruct (Nat.eq_dec q alpha) as [->|N1].
      + rewrite (nth_upd_other _ (alpha + 1)) by lia. rewrite !nth_upd_same by (rewrite ?upd_length, ?leaves_length; lia). rewrite <- SL.
        rewrite <- PT, EP, <- F0_sum by lia.
        rewrite <- !N.lxor_assoc. f_equal.
        rewrite (N.lxor_comm (sum0 l)), !N.lxor_assoc. rewrite (N.lxor_comm (sum1 l)). f_equal.
        rewrite <- N.lxor_assoc, N.lxor_nilpotent, N.lxor_0_l. reflexivity.
      + rewrite (nth_upd_other (leaves prg k d) alpha) by lia. rewrite leaves_nth by exact Hq.
        destruct (Nat.eq_dec q (alpha + 1)) as [->|N2].
        * rewrite nth_upd_same by (rewrite upd_length; lia). f_equal. lia.
        * rewrite !nth_upd_other by lia. apply HL; [exact Hq|]. lia. }
  assert (D : d = 1 \/ 2 <= d) by lia. destruct D as [E1|D2].
  - (* one level *)
    assert (EL : seq 0 d = [0]) by (rewrite E1; reflexivity). rewrite EL. cbn [map app].
    assert (P2 : 2 ^ d = 2) by (rewrite E1; reflexivity).
    transitivity (PuncEval prg 1 beta (msg 0 :: ms) (sel 0 :: bits)); [f_equal; exact E1|]. rewrite punc_one. f_equal.
    assert (FX := FIN 0 [0%N; 0%N] (eq_sym E1)). rewrite P2, P0 in FX. cbn [Nat.sub Nat.pow Nat.mul Nat.add] in FX.
    assert (X1 : xsum 1 (F0 0) = 0%N).
    { unfold xsum, F0. rewrite P0. reflexivity. }
    assert (X2 : xsum 1 (F1 0) = 0%N).
    { unfold xsum, F1. rewrite P0. reflexivity. }
    rewrite X1, X2, !N.lxor_0_r in FX. unfold msg.
    destruct (sel_cases 0 ltac:(lia)) as [[ES _] | [ES _]]; rewrite ES in *; cbn [N.eqb] in *.
    + rewrite <- (FX eq_refl) with (x := heap 2) (y := N.lxor (sum0 0) beta).
      * cbn [upd]. rewrite T0. reflexivity.
      * intros q Hq Hne. destruct q as [|[|q]]; [elim Hne; reflexivity|elim Hne; reflexivity|lia].
      * split; reflexivity.
    + rewrite <- (FX eq_refl) with (x := N.lxor (sum1 0) beta) (y := heap 3).
      * cbn [upd]. rewrite T1. reflexivity.
      * intros q Hq Hne. destruct q as [|[|q]]; [elim Hne; reflexivity|elim Hne; reflexivity|lia].
      * split; reflexivity.
  - assert (ED : seq 0 d = 0 :: seq 1 (d - 2) ++ [d - 1]).
    { replace d with (S (S (d - 2))) at 1 by lia. cbn [seq]. f_equal. change (1 :: seq 2 (d - 2)) with (seq 1 (S (d - 2))).
      rewrite seq_S. f_equal. f_equal. lia. }
    rewrite ED. cbn [map app]. rewrite !map_app, <- !app_assoc. cbn [map app].
    rewrite punc_unfold by exact D2. cbv zeta.
    assert (P4 : 4 <= 2 ^ d).
    { replace d with (2 + (d - 2)) by lia. rewrite Nat.pow_add_r. pose proof (pow_pos (d - 2)). cbn [Nat.pow]. lia. }
    assert (P1 : path 1 = 2 * path 0 + path 1 mod 2) by (apply path_S; lia). rewrite P0 in P1.
    rewrite set_ok by (rewrite repeat_length; destruct (sel 0 =? 0)%N; lia).
    set (inner := upd (repeat None (2 ^ d - 2)) (if (sel 0 =? 0)%N then 0 else 1) (Some (msg 0))).
    assert (NR : forall A (x : A) q n, nth q (repeat x n) x = x).
    { intros A x q n. revert q. induction n as [|n IHn]; intros [|q]; cbn [repeat nth]; auto. }
    assert (M0 : Mid 1 0 inner).
    { unfold inner. split; [split; [rewrite upd_length, repeat_length; reflexivity|]|]; intros h Hh; cbn [Nat.pow Nat.mul Nat.add] in Hh.
      - assert (Hc : h = 2 \/ h = 3) by lia. unfold msg.
        destruct (sel_cases 0 ltac:(lia)) as [[-> ES] | [-> ES]]; cbn [N.eqb]; rewrite P0 in ES; rewrite ES; destruct Hc as [-> | ->]; cbn [Nat.sub Nat.mul Nat.add Nat.eqb].
        + rewrite nth_upd_same by (rewrite repeat_length; lia). rewrite T0. reflexivity.
        + rewrite nth_upd_other by lia. apply NR.
        + rewrite nth_upd_other by lia. apply NR.
        + rewrite nth_upd_same by (rewrite repeat_length; lia). rewrite T1. reflexivity.
      - cbn [Nat.pow Nat.mul Nat.add]. destruct (Nat.ltb_spec h 4); [lia|]. cbn [andb].
        rewrite nth_upd_other by (destruct (sel 0 =? 0)%N; lia). apply NR. }
    destruct (levels_ok (d - 2) 1 inner None (msg (d - 1) :: ms) (sel (d - 1) :: bits) ltac:(lia) ltac:(lia) M0) as (arr & old & EL & HL).
    change (2 ^ 1 - 2) with 0 in EL. rewrite EL. replace (1 + (d - 2)) with (d - 1) in * by lia.
    set (l := d - 1) in *. assert (Sl : S l = d) by lia.
    pose proof (path_range l ltac:(lia)) as R.
    destruct (leaves_row_ok (2 ^ l) l 0 arr (repeat 0%N (2 ^ d)) old Sl ltac:(lia) ltac:(lia) HL (repeat_length _ _) ltac:(lia)) as (leaf & EF & LF & HF).
    assert (EA : al l 0 (2 ^ l) old = old) by (unfold al; destruct (Nat.ltb_spec (path l) (2 ^ l + 0)); [lia|reflexivity]).
    rewrite EA, Nat.add_0_r in EF. change (xsum 0 (F0 l)) with 0%N in EF. change (xsum 0 (F1 l)) with 0%N in EF.
    rewrite EF. cbv zeta.
    assert (PD : 2 ^ d = 2 * 2 ^ l) by (rewrite <- Sl; reflexivity). cbn [Nat.pow] in R.
    rewrite set_ok by lia. rewrite set_ok by (rewrite upd_length; lia). f_equal.
    apply (FIN l leaf Sl LF HF). unfold msg. destruct (sel l =? 0)%N; split; try reflexivity; [apply F0_sum|apply F1_sum]; lia.
Qed.
End Punc.
End Tree.

(** ** Selection bits *)
Lemma trans_ok : forall n a v,
  TransToBitVec (N.of_nat a) v n = map (fun i => if (a / 2 ^ (n - 1 - i)) mod 2 =? 1 then 0%N else 1%N) (seq 0 n) ++ v.
Proof.
  induction n as [|n IH]; intros a v; cbn [TransToBitVec]; [reflexivity|].
  assert (E : N.shiftr (N.of_nat a) 1 = N.of_nat (a / 2)).
  { rewrite N.shiftr_div_pow2. change (2 ^ 1)%N with 2%N. lia. }
  rewrite E, IH. rewrite seq_S, map_app, <- app_assoc. f_equal.
  - apply map_ext_in. intros i Hi. apply in_seq in Hi. rewrite Nat.div_div by (try apply Nat.pow_nonzero; discriminate).
    replace (S n - 1 - i) with (S (n - 1 - i)) by lia. rewrite Nat.pow_succ_r'. reflexivity.
  - cbn [map app Nat.add]. replace (S n - 1 - n) with 0 by lia. change (2 ^ 0) with 1. rewrite Nat.div_1_r. f_equal.
    assert (M : (N.of_nat a mod 2 = N.of_nat (a mod 2))%N) by lia. rewrite M.
    assert (B : a mod 2 < 2) by (apply Nat.mod_upper_bound; discriminate).
    destruct (Nat.eqb_spec (a mod 2) 1) as [->|N1]; [reflexivity|].
    destruct (N.eqb_spec (N.of_nat (a mod 2)) 1); [lia|reflexivity].
Qed.
Lemma trans_sel : forall d a v, a < 2 ^ d -> TransToBitVec (N.of_nat a) v d = map (sel d a) (seq 0 d) ++ v.
Proof.
  intros d a v Ha. rewrite trans_ok. f_equal. apply map_ext_in. intros i Hi. apply in_seq in Hi.
  unfold sel, path. replace (d - S i) with (d - 1 - i) by lia.
  assert (E : 2 ^ d = 2 ^ i * 2 * 2 ^ (d - 1 - i)).
  { replace d with (S i + (d - 1 - i)) at 1 by lia. rewrite Nat.pow_add_r, Nat.pow_succ_r'. lia. }
  rewrite E, Nat.add_comm, Nat.div_add by (apply Nat.pow_nonzero; discriminate).
  rewrite Nat.mod_add by discriminate. reflexivity.
Qed.

Lemma chosen_sel : forall prg k d a,
  chosen (map (sel d a) (seq 0 d)) (map (sum0 prg k) (seq 0 d)) (map (sum1 prg k) (seq 0 d)) = map (msg prg k d a) (seq 0 d).
Proof.
  intros prg k d a. generalize (seq 0 d). induction l as [|i l IH]; cbn [map chosen]; [reflexivity|].
  rewrite IH. reflexivity.
Qed.

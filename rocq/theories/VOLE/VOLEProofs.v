(** Proofs about VOLE. *)
From Coq Require Import NArith ZArith List Bool Arith Lia.
From Coq Require Import ZifyBool ZifyNat ZifyN.
From Verif.Base Require Import Words ListX Mem.
From Verif.Utility Require Import SerialModel.
From Verif.Crypto Require Import BlockModel AESModel AESProofs AESKeyProofs PRGModel PRGProofs.
From Verif.Group Require Import ECModel.
From Verif.Net Require Import ChannelModel ChannelSpec PartyModel PartyProofs.
From Verif.OT Require Import OTModel OTSpec OTProofs OTRun.
From Verif.OKVS Require Import GFModel GFProofs MatSpec MatProofs.
From Verif.VOLE Require Import BVModel BVProofs CodeModel CodeProofs GGMModel GGMSpec GGMProofs VOLEModel.
Import ListNotations.

(** ** Lists cut into chunks *)
Section Chunks.
Context {A : Type}.
Lemma flat_map_seq_S : forall (f : nat -> list A) i n, flat_map f (seq i (S n)) = f i ++ flat_map f (seq (S i) n).
Proof. reflexivity. Qed.
Lemma flat_map_length' : forall (f : nat -> list A) n i c, (forall j, i <= j < i + n -> length (f j) = c) ->
  length (flat_map f (seq i n)) = n * c.
Proof.
  induction n as [|n IH]; intros i c H; [reflexivity|]. rewrite flat_map_seq_S, app_length, (IH (S i) c) by (intros; apply H; lia).
  rewrite H by lia. reflexivity.
Qed.
Lemma skipn_chunks : forall (f : nat -> list A) i n c, (forall j, j < i -> length (f j) = c) ->
  skipn (i * c) (flat_map f (seq 0 (i + n))) = flat_map f (seq i n).
Proof.
  intros f i n c H. rewrite seq_app, flat_map_app. cbn [Nat.add].
  rewrite <- (flat_map_length' f i 0 c) by (intros; apply H; lia).
  rewrite skipn_app, skipn_all, Nat.sub_diag. reflexivity.
Qed.
Lemma flat_map_ext' : forall (f h : nat -> list A) n i, (forall j, i <= j < i + n -> f j = h j) ->
  flat_map f (seq i n) = flat_map h (seq i n).
Proof.
  induction n as [|n IH]; intros i H; [reflexivity|]. rewrite !flat_map_seq_S, (IH (S i)) by (intros; apply H; lia).
  rewrite H by lia. reflexivity.
Qed.
Lemma Forall_flat : forall (P : A -> Prop) (f : nat -> list A) n i, (forall j, i <= j < i + n -> Forall P (f j)) ->
  Forall P (flat_map f (seq i n)).
Proof.
  induction n as [|n IH]; intros i H; [constructor|]. rewrite flat_map_seq_S. apply Forall_app.
  split; [apply H; lia|apply IH; intros; apply H; lia].
Qed.
End Chunks.
Lemma flat_length_eq : forall A B (f : nat -> list A) (h : nat -> list B) n i, (forall j, i <= j < i + n -> length (f j) = length (h j)) ->
  length (flat_map f (seq i n)) = length (flat_map h (seq i n)).
Proof.
  induction n as [|n IH]; intros i H; [reflexivity|]. rewrite !flat_map_seq_S, !app_length, (IH (S i)) by (intros; apply H; lia).
  rewrite H by lia. reflexivity.
Qed.

Lemma chosen_app : forall A b1 b2 (x1 x2 y1 y2 : list A), length b1 = length x1 -> length b1 = length y1 ->
  chosen (b1 ++ b2) (x1 ++ x2) (y1 ++ y2) = chosen b1 x1 y1 ++ chosen b2 x2 y2.
Proof.
  intros A. induction b1 as [|b b1 IH]; intros b2 [|x x1] x2 [|y y1] y2 L1 L2; try discriminate; [reflexivity|].
  cbn [app chosen]. rewrite IH by (injection L1; injection L2; auto). reflexivity.
Qed.
Lemma chosen_chunks : forall A (b : nat -> list N) (x y : nat -> list A) n i,
  (forall j, i <= j < i + n -> length (b j) = length (x j) /\ length (b j) = length (y j)) ->
  chosen (flat_map b (seq i n)) (flat_map x (seq i n)) (flat_map y (seq i n)) = flat_map (fun j => chosen (b j) (x j) (y j)) (seq i n).
Proof.
  induction n as [|n IH]; intros i H; [reflexivity|]. rewrite !flat_map_seq_S. rewrite chosen_app by (apply H; lia).
  rewrite IH by (intros; apply H; lia). reflexivity.
Qed.
Lemma map2_chunks : forall (op : N -> N -> N) (x y : nat -> list N) n i,
  (forall j, i <= j < i + n -> length (x j) = length (y j)) ->
  map2 op (flat_map x (seq i n)) (flat_map y (seq i n)) = flat_map (fun j => map2 op (x j) (y j)) (seq i n).
Proof.
  induction n as [|n IH]; intros i H; [reflexivity|]. rewrite !flat_map_seq_S. rewrite map2_app by (apply H; lia).
  rewrite IH by (intros; apply H; lia). reflexivity.
Qed.

Lemma resize_firstn : forall n l, n <= length l -> resize n l = firstn n l.
Proof. intros n l H. unfold resize. replace (n - length l) with 0 by lia. apply app_nil_r. Qed.

(** ** The dimensions *)
Record dims_ok (N_item t : nat) (D : dims) : Prop := mkDO {
  d_total : total D = 2 * N_item;
  d_sum : total D = (t - 1) * sub_len D + last_len D;
  d_sub : 2 <= sub_len D;
  d_last : sub_len D <= last_len D;
  d_level : 1 <= level D /\ sub_len D <= 2 ^ level D;
  d_level_last : 1 <= level_last D /\ last_len D <= 2 ^ level_last D;
  d_select : select_len D = level D * (t - 1) + level_last D;
  d_extend : extend_len D mod 128 = 0 /\ select_len D <= extend_len D
}.
Lemma dims_exist : forall N_item t, 1 <= t <= N_item -> exists D, dims_of N_item t = Some D /\ dims_ok N_item t D.
Proof.
  intros n t H. unfold dims_of. set (x := 2 * n / t).
  assert (X2 : 2 <= x) by (apply Nat.div_le_lower_bound; lia).
  assert (DM : 2 * n = t * x + (2 * n) mod t) by (apply Nat.div_mod; lia).
  replace ((t =? 0) || (x =? 0)) with false by lia. eexists. split; [reflexivity|].
  set (y := (2 * n) mod t + x).
  assert (LV : forall z, 2 <= z -> 1 <= Nat.log2_up z /\ z <= 2 ^ Nat.log2_up z).
  { intros z Hz. pose proof (Nat.log2_up_spec z ltac:(lia)) as [_ B]. split; [|exact B].
    apply Nat.log2_up_pos. lia. }
  constructor; cbn [total sub_len last_len level level_last select_len extend_len]; try lia.
  - fold y. assert (T : t = S (t - 1)) by lia. rewrite T in DM at 1. cbn [Nat.mul] in DM. unfold y. lia.
  - apply LV. exact X2.
  - apply LV. unfold y. lia.
  - set (s := Nat.log2_up x * (t - 1) + Nat.log2_up y).
    pose proof (Nat.div_mod s 128 ltac:(lia)) as E. pose proof (Nat.mod_upper_bound s 128 ltac:(lia)) as B.
    destruct (Nat.eqb_spec (s mod 128) 0) as [Z|Z]; [lia|]. split; [|lia].
    replace (s + (128 - s mod 128)) with ((s / 128 + 1) * 128) by lia. apply Nat.mod_mul. discriminate.
Qed.

(** ** Blocks in the tree *)
Lemma ggm_blk : forall x, (x < 2 ^ 128)%N -> (fst (GGM_PRG x) < 2 ^ 128 /\ snd (GGM_PRG x) < 2 ^ 128)%N.
Proof.
  intros x H. unfold GGM_PRG. rewrite FastECB_map. cbn [map nth fst snd].
  split; apply Enc_blk, GenEncKey_ok, H.
Qed.
Lemma node_blk : forall k, (k < 2 ^ 128)%N -> forall h, (node GGM_PRG k h < 2 ^ 128)%N.
Proof. intros k H. induction h as [h IH|h IH|]; cbn [node]; [exact (proj2 (ggm_blk _ IH))|exact (proj1 (ggm_blk _ IH))|exact H]. Qed.
Lemma sum0_blk : forall k i, (k < 2 ^ 128)%N -> (sum0 GGM_PRG k i < 2 ^ 128)%N.
Proof. intros. unfold sum0. apply xsum_lt. intros. apply node_blk. assumption. Qed.
Lemma sum1_blk : forall k i, (k < 2 ^ 128)%N -> (sum1 GGM_PRG k i < 2 ^ 128)%N.
Proof. intros. unfold sum1. apply xsum_lt. intros. apply node_blk. assumption. Qed.
Lemma xors_blk : forall l, Forall (fun x => (x < 2 ^ 128)%N) l -> (xors l < 2 ^ 128)%N.
Proof. induction 1 as [|x l H F IH]; cbn [xors fold_right]; [reflexivity|]. apply lxor_lt; assumption. Qed.
Lemma leaves_blk : forall k d, (k < 2 ^ 128)%N -> Forall (fun x => (x < 2 ^ 128)%N) (leaves GGM_PRG k d).
Proof. intros. unfold leaves. apply Forall_map, Forall_forall. intros. apply node_blk. assumption. Qed.

Section Loops.
Variables N_item t : nat.
Variable D : dims.
Hypothesis Ht : 1 <= t.
Hypothesis OK : dims_ok N_item t D.
Definition lev (i : nat) : nat := if i =? t - 1 then level_last D else level D.
Definition len (i : nat) : nat := if i =? t - 1 then last_len D else sub_len D.
Lemma lev_pos : forall i, 1 <= lev i.
Proof. intros i. unfold lev. destruct OK. destruct (i =? t - 1); lia. Qed.
Lemma len_lev : forall i, len i <= 2 ^ lev i.
Proof. intros i. unfold len, lev. destruct OK. destruct (i =? t - 1); lia. Qed.
Lemma lev_low : forall i, i < t - 1 -> lev i = level D.
Proof. intros i H. unfold lev. destruct (Nat.eqb_spec i (t - 1)); [lia|reflexivity]. Qed.
Lemma len_low : forall i, i < t - 1 -> len i = sub_len D.
Proof. intros i H. unfold len. destruct (Nat.eqb_spec i (t - 1)); [lia|reflexivity]. Qed.

Section Keys.
Variables ks vs : list N.
Hypothesis Lk : length ks = t.
Hypothesis Lv : length vs = t.
Definition key (i : nat) : N := nth i ks 0%N.
Definition tree (i : nat) : list N := leaves GGM_PRG (key i) (lev i).
Definition c0 (i : nat) : list N := map (sum0 GGM_PRG (key i)) (seq 0 (lev i)).
Definition c1 (i : nat) : list N := map (sum1 GGM_PRG (key i)) (seq 0 (lev i)).

Lemma tree_length : forall i, length (tree i) = 2 ^ lev i.
Proof. intros. apply leaves_length. Qed.

Lemma full_loop_ok : forall n i m0 m1 leaf send, i + n = t ->
  full_loop n i t D ks vs m0 m1 leaf send =
  Some (m0 ++ flat_map c0 (seq i n), m1 ++ flat_map c1 (seq i n), leaf ++ flat_map (fun j => firstn (len j) (tree j)) (seq i n),
        send ++ map (fun j => N.lxor (xors (tree j)) (nth j vs 0%N)) (seq i n)).
Proof.
  induction n as [|n IH]; intros i m0 m1 leaf send H; cbn [full_loop].
  - cbn [seq flat_map map]. rewrite !app_nil_r. reflexivity.
  - rewrite (get_nth _ ks i 0%N) by lia. rewrite (get_nth _ vs i 0%N) by lia.
    fold (lev i). fold (len i). fold (key i). pose proof (lev_pos i) as LP. pose proof (len_lev i) as LL.
    assert (E : FullEval GGM_PRG (lev i) (key i) m0 m1 = Some (xors (tree i), tree i, m0 ++ c0 i, m1 ++ c1 i)).
    { unfold tree, c0, c1. replace (lev i) with (S (lev i - 1)) by lia. apply full_ok. }
    rewrite E, IH by lia. rewrite resize_firstn by (rewrite tree_length; exact LL).
    rewrite !flat_map_seq_S. cbn [seq map]. rewrite <- !app_assoc. reflexivity.
Qed.

Variable index : list nat.
Hypothesis Li : length index = t.
Hypothesis Hi : forall i, i < t -> nth i index 0 < len i.
Definition idx (i : nat) : nat := nth i index 0.
Lemma idx_lev : forall i, i < t -> idx i < 2 ^ lev i.
Proof. intros i H. pose proof (Hi i H). pose proof (len_lev i). unfold idx. lia. Qed.
Definition cb (i : nat) : list N := map (sel (lev i) (idx i)) (seq 0 (lev i)).

Lemma trans_chunk : forall i v, i < t -> TransToBitVec (N.of_nat (idx i)) v (lev i) = cb i ++ v.
Proof. intros i v H. apply trans_sel, idx_lev, H. Qed.

(** the bits of the first n indices, inserted from the last to the first *)
Lemma bits_fold : forall n v, n <= t - 1 ->
  fold_left (fun v x => TransToBitVec (N.of_nat x) v (level D)) (rev (firstn n index)) v = flat_map cb (seq 0 n) ++ v.
Proof.
  induction n as [|n IH]; intros v H; [reflexivity|].
  assert (E : firstn (S n) index = firstn n index ++ [idx n]).
  { unfold idx. clear - H Li. assert (L : n < length index) by lia. revert L. generalize index. clear.
    induction n as [|n IH]; intros [|x l] L; cbn [length] in L; try lia; [reflexivity|].
    change (x :: firstn (S n) l = x :: (firstn n l ++ [nth n l 0])). f_equal. apply IH. lia. }
  rewrite E, rev_app_distr. cbn [rev app fold_left].
  rewrite <- (lev_low n) at 1 by lia.
  rewrite IH by lia. rewrite trans_chunk by lia. rewrite seq_S, flat_map_app. cbn [Nat.add flat_map].
  rewrite app_nil_r, <- app_assoc. reflexivity.
Qed.
Lemma bits_ok : select_bits D (firstn (t - 1) index) (idx (t - 1)) = flat_map cb (seq 0 t).
Proof.
  unfold select_bits. rewrite bits_fold by lia. 
  assert (LL : level_last D = lev (t - 1)) by (unfold lev; rewrite Nat.eqb_refl; reflexivity).
  rewrite LL, trans_chunk by lia. rewrite app_nil_r.
  replace (seq 0 t) with (seq 0 (t - 1) ++ [t - 1]).
  - rewrite flat_map_app. cbn [flat_map]. rewrite app_nil_r. reflexivity.
  - replace t with (S (t - 1)) at 3 by lia. rewrite seq_S. reflexivity.
Qed.
Lemma chunk_lengths : forall i, length (cb i) = lev i /\ length (c0 i) = lev i /\ length (c1 i) = lev i.
Proof. intros. unfold cb, c0, c1. rewrite !map_length, !seq_length. auto. Qed.
Lemma select_total : forall (f : nat -> list N), (forall i, length (f i) = lev i) -> length (flat_map f (seq 0 t)) = select_len D.
Proof.
  intros f H. replace t with ((t - 1) + 1) at 1 by lia. rewrite seq_app, flat_map_app, app_length.
  rewrite (flat_map_length' f (t - 1) 0 (level D)) by (intros j Hj; rewrite H; apply lev_low; lia).
  cbn [Nat.add seq flat_map]. rewrite app_nil_r, H. unfold lev. rewrite Nat.eqb_refl. destruct OK. lia.
Qed.

(** the messages chosen *)
Definition cm (i : nat) : list N := map (msg GGM_PRG (key i) (lev i) (idx i)) (seq 0 (lev i)).
Lemma chosen_cm : chosen (flat_map cb (seq 0 t)) (flat_map c0 (seq 0 t)) (flat_map c1 (seq 0 t)) = flat_map cm (seq 0 t).
Proof.
  rewrite chosen_chunks.
  - apply flat_map_ext'. intros j _. apply chosen_sel.
  - intros j _. pose proof (chunk_lengths j) as (A & B & C). split; congruence.
Qed.

Section Corr.
Variables us ws : list N.
Variable delta : N.
Hypothesis Lu : length us = t.
Hypothesis Lw : length ws = t.
Hypothesis C : forall i, i < t -> N.lxor (nth i vs 0%N) (nth i ws 0%N) = gf128_mul (nth i us 0%N) delta.
Definition from_S : list N := map (fun j => N.lxor (xors (tree j)) (nth j vs 0%N)) (seq 0 t).
(** the leaves that A computes *)
Definition leafA (i : nat) : list N := firstn (len i) (upd (tree i) (idx i) (N.lxor (nth (idx i) (tree i) 0%N) (gf128_mul (nth i us 0%N) delta))).

Lemma punc_loop_ok : forall n i leaf, i + n = t ->
  punc_loop n i t D from_S ws (flat_map cm (seq 0 t)) (flat_map cb (seq 0 t)) leaf =
  Some (leaf ++ flat_map leafA (seq i n)).
Proof.
  induction n as [|n IH]; intros i leaf H; cbn [punc_loop].
  - cbn [seq flat_map]. rewrite app_nil_r. reflexivity.
  - assert (LF : length from_S = t) by (unfold from_S; rewrite map_length, seq_length; reflexivity).
    rewrite (get_nth _ from_S i 0%N) by lia. rewrite (get_nth _ ws i 0%N) by lia. fold (lev i). fold (len i).
    assert (EF : nth i from_S 0%N = N.lxor (xors (tree i)) (nth i vs 0%N)).
    { unfold from_S. rewrite (nth_map' _ _ _ 0) by (rewrite seq_length; lia). rewrite seq_nth by lia. reflexivity. }
    assert (SK : forall f : nat -> list N, (forall j, length (f j) = lev j) ->
              skipn (i * level D) (flat_map f (seq 0 t)) = f i ++ flat_map f (seq (S i) n)).
    { intros f Hf. rewrite <- H. rewrite skipn_chunks by (intros j Hj; rewrite Hf; apply lev_low; lia).
      apply flat_map_seq_S. }
    rewrite (SK cm) by (intros; unfold cm; rewrite map_length, seq_length; reflexivity).
    rewrite (SK cb) by (intros; apply chunk_lengths).
    assert (E : PuncEval GGM_PRG (lev i) (N.lxor (nth i from_S 0%N) (nth i ws 0%N)) (cm i ++ flat_map cm (seq (S i) n)) (cb i ++ flat_map cb (seq (S i) n)) =
                Some (upd (tree i) (idx i) (N.lxor (nth (idx i) (tree i) 0%N) (gf128_mul (nth i us 0%N) delta)))).
    { unfold cm, cb. rewrite punc_ok by (apply lev_pos || apply idx_lev; lia). fold (tree i). f_equal. f_equal. f_equal.
      rewrite EF, <- C by lia. rewrite !N.lxor_assoc. rewrite <- N.lxor_assoc, N.lxor_nilpotent, N.lxor_0_l. reflexivity. }
    rewrite E. rewrite resize_firstn by (rewrite upd_length, tree_length; apply len_lev). fold (leafA i).
    destruct (Nat.eqb_spec i (t - 1)) as [EI|NI].
    + assert (n = 0) by lia. subst n. cbn [seq flat_map]. rewrite app_nil_r. reflexivity.
    + rewrite IH by lia. rewrite flat_map_seq_S, app_assoc. reflexivity.
Qed.

(** the vector A that A encodes *)
Definition baseA (i : nat) : list N := upd (repeat 0%N (len i)) (idx i) (nth i us 0%N).
Lemma place_ok : forall n i, i + n = t ->
  place n i D index us (flat_map baseA (seq 0 i) ++ flat_map (fun j => repeat 0%N (len j)) (seq i n)) =
  Some (flat_map baseA (seq 0 t)).
Proof.
  induction n as [|n IH]; intros i H; cbn [place].
  - cbn [seq flat_map]. rewrite app_nil_r. replace i with t by lia. reflexivity.
  - rewrite (get_nth _ index i 0) by lia. rewrite (get_nth _ us i 0%N) by lia. fold (idx i).
    assert (LB : length (flat_map baseA (seq 0 i)) = i * sub_len D).
    { apply flat_map_length'. intros j Hj. unfold baseA. rewrite upd_length, repeat_length. apply len_low. lia. }
    rewrite flat_map_seq_S. assert (HI := Hi i ltac:(lia)). fold (idx i) in HI.
    rewrite set_ok by (rewrite !app_length, LB, repeat_length; lia).
    rewrite upd_app_r by lia. replace (i * sub_len D + idx i - length (flat_map baseA (seq 0 i))) with (idx i) by lia.
    rewrite upd_app_l by (rewrite repeat_length; exact HI). fold (baseA i).
    rewrite <- (IH (S i)) by lia. f_equal. rewrite seq_S, flat_map_app. cbn [Nat.add flat_map]. rewrite app_nil_r, <- app_assoc. reflexivity.
Qed.
Lemma zeros_ok : flat_map (fun j => repeat 0%N (len j)) (seq 0 t) = repeat 0%N (total D).
Proof.
  assert (Z : forall n i, flat_map (fun j => repeat 0%N (len j)) (seq i n) = repeat 0%N (length (flat_map (fun j => repeat 0%N (len j)) (seq i n)))).
  { induction n as [|n IH]; intros i; [reflexivity|]. rewrite flat_map_seq_S, app_length, repeat_length, IH. rewrite <- repeat_app.
    rewrite repeat_length. reflexivity. }
  rewrite Z. f_equal. replace t with ((t - 1) + 1) at 1 by lia. rewrite seq_app, flat_map_app, app_length.
  rewrite (flat_map_length' _ (t - 1) 0 (sub_len D)) by (intros j Hj; rewrite repeat_length; apply len_low; lia).
  cbn [Nat.add seq flat_map]. rewrite app_nil_r, repeat_length. unfold len. rewrite Nat.eqb_refl. destruct OK. lia.
Qed.
Lemma total_length : forall (f : nat -> list N), (forall i, length (f i) = len i) -> length (flat_map f (seq 0 t)) = total D.
Proof.
  intros f H. rewrite <- (repeat_length 0%N (total D)), <- zeros_ok. apply flat_length_eq. intros j _. rewrite H, repeat_length. reflexivity.
Qed.

Definition op (c a : N) : N := N.lxor c (gf128_mul a delta).
Lemma chunk_corr : forall i, i < t -> map2 op (leafA i) (baseA i) = firstn (len i) (tree i).
Proof.
  intros i H. pose proof (len_lev i) as LL. pose proof (tree_length i) as LT. assert (HI := Hi i H). fold (idx i) in HI.
  assert (L1 : length (leafA i) = len i) by (unfold leafA; rewrite firstn_length, upd_length; lia).
  assert (L2 : length (baseA i) = len i) by (unfold baseA; rewrite upd_length, repeat_length; reflexivity).
  apply list_eq_nth with 0%N; [rewrite map2_length, firstn_length; lia|].
  intros q Hq. rewrite map2_length, L1, L2, Nat.min_id in Hq.
  rewrite (map2_nth op _ _ q 0%N 0%N) by lia. unfold leafA, baseA. rewrite !nth_firstn_lt by exact Hq.
  unfold op. destruct (Nat.eq_dec q (idx i)) as [->|NE].
  - rewrite !nth_upd_same by (rewrite ?repeat_length; lia). rewrite N.lxor_assoc, N.lxor_nilpotent. apply N.lxor_0_r.
  - rewrite !nth_upd_other by lia. rewrite nth_repeat. rewrite gf_0_l. apply N.lxor_0_r.
Qed.
Lemma corr : map2 op (flat_map leafA (seq 0 t)) (flat_map baseA (seq 0 t)) = flat_map (fun j => firstn (len j) (tree j)) (seq 0 t).
Proof.
  rewrite map2_chunks.
  - apply flat_map_ext'. intros j Hj. apply chunk_corr. lia.
  - intros j Hj. unfold leafA, baseA. rewrite firstn_length, !upd_length, repeat_length, tree_length. pose proof (len_lev j). lia.
Qed.
End Corr.
End Keys.
End Loops.

Lemma read_app : forall n l past, length l <= n -> read n l past = l ++ firstn (n - length l) past.
Proof. intros n l past H. unfold read. rewrite firstn_app, firstn_all2 by exact H. reflexivity. Qed.
Lemma to32_small : forall n, (N.of_nat n < 2 ^ 32)%N -> to32 n = n.
Proof. intros n H. unfold to32, wrap32, wrap. rewrite N.mod_small by exact H. apply Nat2N.id. Qed.

(** the code keeps 128-bit blocks: the low 128 bits are an additive map *)
Lemma code_blk : forall c s x u, Forall (fun v => (v < 2 ^ 128)%N) x -> dualEncode c s x = Some u -> Forall (fun v => (v < 2 ^ 128)%N) u.
Proof.
  intros c s x u F E. set (lo := fun a _ : N => N.land a (N.ones 128)).
  assert (A : forall a b a' b', lo (N.lxor a a') (N.lxor b b') = N.lxor (lo a b) (lo a' b')).
  { intros a b a' b'. unfold lo. apply N.bits_inj. intros i. rewrite N.land_spec, !N.lxor_spec, !N.land_spec.
    destruct (N.testbit a i), (N.testbit a' i), (N.testbit (N.ones 128) i); reflexivity. }
  pose proof (code_hom lo A c s x x eq_refl) as H. rewrite E in H. destruct H as (_ & v & _ & EV & EM). injection EV as <-.
  assert (X : map2 lo x x = x).
  { clear - F. induction F as [|a x H F IH]; [reflexivity|]. cbn [map2]. rewrite IH. f_equal. unfold lo. rewrite N.land_ones. apply N.mod_small, H. }
  rewrite X, E in EM. injection EM as EM. rewrite EM. clear. induction u as [|a u IH]; cbn [map2]; constructor; [|exact IH].
  unfold lo. rewrite N.land_ones. apply N.mod_lt. discriminate.
Qed.

Section Run.
Variable G : ECGroup.
Variable hash : list N -> list N.
Hypothesis hash_ok : forall s, length (hash s) = 32%nat /\ bytes_ok (hash s).
Variable g : pt G.

Lemma tmp_run : forall o eK e1 e2 p0 p1 pb n t D us ws vs delta,
  ot_ok o -> (eK < 2 ^ 128)%N -> (e1 < 2 ^ 128)%N -> (e2 < 2 ^ 128)%N -> 1 <= t <= n -> 12 <= n -> (48 * N.of_nat n < 2 ^ 32)%N ->
  dims_of n t = Some D -> dims_ok n t D ->
  Forall (fun x => (x < 2 ^ 128)%N) p0 -> Forall (fun x => (x < 2 ^ 128)%N) p1 ->
  extend_len D - select_len D <= length p0 -> extend_len D - select_len D <= length p1 -> extend_len D - select_len D <= length pb ->
  blocks t us -> blocks t ws -> blocks t vs ->
  (forall i, i < t -> N.lxor (nth i vs 0%N) (nth i ws 0%N) = gf128_mul (nth i us 0%N) delta) ->
  exists A C B,
    ends (tmpVOLE_A G hash g o e1 e2 pb n t us ws) (tmpVOLE_B G hash g o eK p0 p1 n t vs) (A, C) B /\
    blocks n A /\ blocks n C /\ B = map2 (op delta) C A.
Proof.
  intros o eK e1 e2 p0 p1 pb n t D us ws vs delta HO HK H1 H2 Ht Hn Hs ED OK F0 F1 L0 L1 Lb Bu Bw Bv CO.
  assert (DOK := OK). destruct DOK as [dt ds dsub dl dlev dll dsel dext].
  destruct (set_seed_ok eK None HK ltac:(discriminate)) as [C1 K1].
  destruct (draw_spec _ t C1 K1) as (ks & s1 & Ek & Bk & C2 & K2).
  destruct (draw_spec _ 1 C2 K2) as (ek & s2 & Ee & Be & _). 
  set (ec := nth 0 ek 0%N). assert (HEC : (ec < 2 ^ 128)%N) by (apply (nth_blk ek 0), Be).
  assert (T32 : (N.of_nat t < 2 ^ 32)%N) by lia.
  assert (P64 : (2 ^ 32 <= 2 ^ 64)%N) by (apply N.leb_le; reflexivity).
  destruct (mod_total (sub_len D) (t - 1) (SetSeed e1 None 0) ltac:(lia)) as (index & EI & LI & FI).
  destruct (mod_total (last_len D) 1 (SetSeed e2 None 0) ltac:(lia)) as (il & EL & LL & FL).
  destruct il as [|x [|y il]]; try discriminate. inversion FL as [|? ? Hx _]. subst.
  set (ix := index ++ [x]).
  assert (Lix : length ix = t) by (unfold ix; rewrite app_length; cbn [length]; lia).
  assert (E1 : firstn (t - 1) ix = index) by (unfold ix; rewrite <- LI; rewrite firstn_app, firstn_all, Nat.sub_diag; apply app_nil_r).
  assert (E2 : nth (t - 1) ix 0 = x) by (unfold ix; rewrite <- LI; rewrite app_nth2, Nat.sub_diag by lia; reflexivity).
  assert (HI : forall i, i < t -> nth i ix 0 < len t D i).
  { intros i Hi. unfold len. destruct (Nat.eqb_spec i (t - 1)) as [->|NE]; [rewrite E2; exact Hx|].
    unfold ix. rewrite app_nth1 by lia. rewrite Forall_forall in FI. apply FI. apply nth_In. lia. }
  assert (Lk := proj1 Bk). assert (Lu := proj1 Bu). assert (Lw := proj1 Bw). assert (Lv := proj1 Bv).
  assert (Ht1 : 1 <= t) by lia.
  assert (KB : forall i, (key ks i < 2 ^ 128)%N) by (intros i; apply (nth_blk ks i), Bk).
  set (M0 := flat_map (c0 t D ks) (seq 0 t)). set (M1 := flat_map (c1 t D ks) (seq 0 t)).
  set (SB := flat_map (cb t D ix) (seq 0 t)). set (CM := flat_map (cm t D ks ix) (seq 0 t)).
  assert (LM0 : length M0 = select_len D) by (apply (select_total n t D Ht1 OK ks vs Lk Lv ix Lix HI); intros; apply (chunk_lengths t D ks ix)).
  assert (LM1 : length M1 = select_len D) by (apply (select_total n t D Ht1 OK ks vs Lk Lv ix Lix HI); intros; apply (chunk_lengths t D ks ix)).
  assert (LSB : length SB = select_len D) by (apply (select_total n t D Ht1 OK ks vs Lk Lv ix Lix HI); intros; apply (chunk_lengths t D ks ix)).
  assert (LCM : length CM = select_len D).
  { apply (select_total n t D Ht1 OK ks vs Lk Lv ix Lix HI). intros. unfold cm. rewrite map_length, seq_length. reflexivity. }
  set (LA := flat_map (leafA t D ks ix us delta) (seq 0 t)). set (BA := flat_map (baseA t D ix us) (seq 0 t)).
  set (LB := flat_map (fun j => firstn (len t D j) (tree t D ks j)) (seq 0 t)).
  assert (LLA : length LA = 2 * n).
  { rewrite <- dt. apply (total_length n t D Ht1 OK ks vs Lk Lv ix Lix HI us ws delta Lu Lw CO). intros i. unfold leafA. rewrite firstn_length, upd_length.
    rewrite tree_length. pose proof (len_lev n t D Ht1 OK i). lia. }
  assert (LBA : length BA = 2 * n).
  { rewrite <- dt. apply (total_length n t D Ht1 OK ks vs Lk Lv ix Lix HI us ws delta Lu Lw CO). intros i. unfold baseA. rewrite upd_length, repeat_length. reflexivity. }
  assert (COR : map2 (op delta) LA BA = LB) by (apply (corr n t D Ht1 OK ks vs Lk Lv ix Lix HI us ws delta Lu Lw CO)).
  (* the encoding *)
  set (sd := mkSeed 0 (GenEncKey ec)).
  assert (HC : (counter sd < 2 ^ 64)%N) by reflexivity.
  assert (SO : sizes_ok default_config (length LA)).
  { unfold sizes_ok. cbn [R weight acc default_config]. rewrite LLA.
    replace (2 * n / 2) with n by (rewrite Nat.mul_comm, Nat.div_mul; lia). lia. }
  destruct (code_total default_config sd LA HC SO) as (CC & EC & LC). cbn [R default_config] in LC.
  assert (OA : forall a b a' b', op delta (N.lxor a a') (N.lxor b b') = N.lxor (op delta a b) (op delta a' b')).
  { intros a b a' b'. unfold op. rewrite gf_add_l. apply lxor4. }
  pose proof (code_hom (op delta) OA default_config sd LA BA ltac:(lia)) as CH. rewrite EC in CH.
  destruct CH as (_ & AA & LAA & EA & EB). rewrite COR in EB.
  pose proof (code_pair default_config sd LA BA ltac:(lia)) as CP. rewrite EC in CP. cbn [acc default_config] in CP.
  destruct (CP ltac:(lia) ltac:(lia)) as (AA' & EA' & EP). rewrite EA in EA'. injection EA' as <-.
  replace (length LA / 2) with n in LC by (rewrite LLA, Nat.mul_comm, Nat.div_mul; lia).
  assert (FLA : Forall (fun v => (v < 2 ^ 128)%N) LA).
  { apply Forall_flat. intros j _. unfold leafA. apply Forall_firstn, Forall_upd; [apply leaves_blk, KB|].
    apply lxor_lt; [apply nth_blk, leaves_blk, KB|apply gf128_mul_lt; apply nth_blk, Bu]. }
  assert (FBA : Forall (fun v => (v < 2 ^ 128)%N) BA).
  { apply Forall_flat. intros j _. unfold baseA. apply Forall_upd; [|apply nth_blk, Bu].
    apply Forall_forall. intros v I. apply repeat_spec in I. subst v. reflexivity. }
  exists AA, CC, (map2 (op delta) CC AA).
  split; [|split; [split; [congruence|exact (code_blk _ _ _ _ FBA EA)]|split; [split; [exact LC|exact (code_blk _ _ _ _ FLA EC)]|reflexivity]]].
  apply ends_sym. unfold tmpVOLE_B, tmpVOLE_A. rewrite ED. cbn [local].
  rewrite Ek. rewrite (full_loop_ok n t D Ht1 OK ks vs Lk Lv t 0 [] [] [] [] eq_refl). cbn [local app].
  fold M0 M1 LB.
  rewrite (to32_small (sub_len D)) by nia. rewrite (to32_small (t - 1)) by lia. rewrite (to32_small (last_len D)) by nia.
  rewrite EI, EL. cbn [local nth].
  assert (PL : place t 0 D (index ++ [x]) us (repeat 0%N (total D)) = Some BA).
  { fold ix. rewrite <- (zeros_ok n t D Ht1 OK ks vs Lk Lv ix Lix HI us ws delta Lu Lw CO). apply (place_ok t D Ht1 ks vs Lk Lv ix Lix HI us ws delta Lu Lw CO t 0 eq_refl). }
  rewrite PL. cbn [local].
  assert (SBE : select_bits D index x = SB).
  { unfold SB. rewrite <- (bits_ok n t D Ht1 OK ks vs Lk Lv ix Lix HI). unfold idx. rewrite E1, E2. reflexivity. }
  rewrite SBE.
  apply ab_blocks; [rewrite map_length, seq_length; reflexivity| |].
  { apply Forall_map, Forall_forall. intros j _. apply lxor_lt; [apply xors_blk, leaves_blk, KB|apply nth_blk, Bv]. }
  rewrite !read_app by lia. rewrite LM0, LM1, LSB.
  set (z := extend_len D - select_len D).
  eapply ends_bind.
  { apply alsz_run; [exact hash_ok|exact HO|apply dext| | |].
    - split; [rewrite app_length, firstn_length; lia|]. apply Forall_app. split; [|apply Forall_firstn, F0].
      apply Forall_flat. intros j _. unfold c0. apply Forall_map, Forall_forall. intros. apply sum0_blk, KB.
    - split; [rewrite app_length, firstn_length; lia|]. apply Forall_app. split; [|apply Forall_firstn, F1].
      apply Forall_flat. intros j _. unfold c1. apply Forall_map, Forall_forall. intros. apply sum1_blk, KB.
    - rewrite app_length, firstn_length. lia. }
  rewrite chosen_app by congruence. unfold M0, M1, SB at 1. rewrite chosen_cm. fold CM.
  rewrite resize_firstn by (rewrite app_length; lia).
  rewrite firstn_app, LCM, Nat.sub_diag, <- LCM at 1. rewrite firstn_all. cbn [firstn]. rewrite app_nil_r.
  change (map (fun j => N.lxor (xors (tree t D ks j)) (nth j vs 0%N)) (seq 0 t)) with (from_S t D ks vs).
  unfold CM, SB. rewrite (punc_loop_ok n t D Ht1 OK ks vs Lk Lv ix Lix HI us ws delta Lu Lw CO t 0 [] eq_refl). cbn [local app].
  fold LA. rewrite Ee. cbn [fst]. fold ec.
  apply ab_blocks; [reflexivity|constructor; [exact HEC|constructor]|]. cbn [nth]. fold sd.
  rewrite EB, EP. cbn [local]. apply ends_ret.
Qed.

Lemma tmp_crash : forall o eK e1 e2 p0 p1 n t D us ws vs delta,
  (eK < 2 ^ 128)%N -> (e1 < 2 ^ 128)%N -> (e2 < 2 ^ 128)%N -> 1 <= t <= n -> (48 * N.of_nat n < 2 ^ 32)%N ->
  dims_of n t = Some D -> dims_ok n t D -> select_len D < extend_len D ->
  blocks t us -> blocks t ws -> blocks t vs ->
  (forall i, i < t -> N.lxor (nth i vs 0%N) (nth i ws 0%N) = gf128_mul (nth i us 0%N) delta) ->
  crashes (tmpVOLE_A G hash g o e1 e2 [] n t us ws) (tmpVOLE_B G hash g o eK p0 p1 n t vs).
Proof.
  intros o eK e1 e2 p0 p1 n t D us ws vs delta HK H1 H2 Ht Hs ED OK SP Bu Bw Bv CO.
  assert (DOK := OK). destruct DOK as [dt ds dsub dl dlev dll dsel dext].
  destruct (set_seed_ok eK None HK ltac:(discriminate)) as [C1 K1].
  destruct (draw_spec _ t C1 K1) as (ks & s1 & Ek & Bk & C2 & K2).
  destruct (draw_spec _ 1 C2 K2) as (ek & s2 & Ee & Be & _). 
  set (ec := nth 0 ek 0%N). assert (HEC : (ec < 2 ^ 128)%N) by (apply (nth_blk ek 0), Be).
  assert (T32 : (N.of_nat t < 2 ^ 32)%N) by lia.
  assert (P64 : (2 ^ 32 <= 2 ^ 64)%N) by (apply N.leb_le; reflexivity).
  destruct (mod_total (sub_len D) (t - 1) (SetSeed e1 None 0) ltac:(lia)) as (index & EI & LI & FI).
  destruct (mod_total (last_len D) 1 (SetSeed e2 None 0) ltac:(lia)) as (il & EL & LL & FL).
  destruct il as [|x [|y il]]; try discriminate. inversion FL as [|? ? Hx _]. subst.
  set (ix := index ++ [x]).
  assert (Lix : length ix = t) by (unfold ix; rewrite app_length; cbn [length]; lia).
  assert (E1 : firstn (t - 1) ix = index) by (unfold ix; rewrite <- LI; rewrite firstn_app, firstn_all, Nat.sub_diag; apply app_nil_r).
  assert (E2 : nth (t - 1) ix 0 = x) by (unfold ix; rewrite <- LI; rewrite app_nth2, Nat.sub_diag by lia; reflexivity).
  assert (HI : forall i, i < t -> nth i ix 0 < len t D i).
  { intros i Hi. unfold len. destruct (Nat.eqb_spec i (t - 1)) as [->|NE]; [rewrite E2; exact Hx|].
    unfold ix. rewrite app_nth1 by lia. rewrite Forall_forall in FI. apply FI. apply nth_In. lia. }
  assert (Lk := proj1 Bk). assert (Lu := proj1 Bu). assert (Lw := proj1 Bw). assert (Lv := proj1 Bv).
  assert (Ht1 : 1 <= t) by lia.
  assert (KB : forall i, (key ks i < 2 ^ 128)%N) by (intros i; apply (nth_blk ks i), Bk).
  set (SB := flat_map (cb t D ix) (seq 0 t)). set (BA := flat_map (baseA t D ix us) (seq 0 t)).
  assert (LSB : length SB = select_len D) by (apply (select_total n t D Ht1 OK ks vs Lk Lv ix Lix HI); intros; apply (chunk_lengths t D ks ix)).
  apply crashes_sym. unfold tmpVOLE_B, tmpVOLE_A. rewrite ED. cbn [local].
  rewrite Ek. rewrite (full_loop_ok n t D Ht1 OK ks vs Lk Lv t 0 [] [] [] [] eq_refl). cbn [local app].
  rewrite (to32_small (sub_len D)) by nia. rewrite (to32_small (t - 1)) by lia. rewrite (to32_small (last_len D)) by nia.
  rewrite EI, EL. cbn [local nth].
  assert (PL : place t 0 D (index ++ [x]) us (repeat 0%N (total D)) = Some BA).
  { fold ix. rewrite <- (zeros_ok n t D Ht1 OK ks vs Lk Lv ix Lix HI us ws delta Lu Lw CO). apply (place_ok t D Ht1 ks vs Lk Lv ix Lix HI us ws delta Lu Lw CO t 0 eq_refl). }
  rewrite PL. cbn [local].
  assert (SBE : select_bits D index x = SB).
  { unfold SB. rewrite <- (bits_ok n t D Ht1 OK ks vs Lk Lv ix Lix HI). unfold idx. rewrite E1, E2. reflexivity. }
  rewrite SBE.
  apply crashes_ab.
  { cbn [fits]. split; [rewrite map_length, seq_length; reflexivity|].
    apply Forall_map, Forall_forall. intros j _. apply lxor_lt; [apply xors_blk, leaves_blk, KB|apply nth_blk, Bv]. }
  apply crashes_sym. rewrite read_app by lia. rewrite firstn_nil, app_nil_r.
  unfold alsz_Receive, OTE_Receive, ALSZ_RandomReceive, admitted, has.
  destruct dext as [EM _]. rewrite EM. cbn [Nat.eqb andb]. change (128 mod 128 =? 0) with true. cbn [andb].
  rewrite LSB. replace (extend_len D <=? select_len D) with false by lia. cbn [pbind]. apply crashes_now.
Qed.
End Run.

From Coq Require Import Arith NArith List Bool Lia.
From Coq Require Import ZifyBool ZifyNat ZifyN.
From Verif.Base Require Import Words ListX.
From Verif.Crypto Require Import BlockModel BlockProofs AESModel AESProofs AESKeyProofs PRGModel.
Import ListNotations.
Local Open Scope N_scope.

Lemma MakeBlock_0 : forall c, MakeBlock 0 c = c.
Proof. intros. unfold MakeBlock, of_lanes. rewrite N.shiftl_0_l. apply N.lor_0_l. Qed.

Definition stream (k : Key) (c : N) (n : nat) : list N := map (fun i => Enc k (wrap64 (c + N.of_nat i))) (seq 0 n).

Lemma wrap64_add : forall a b, wrap64 (wrap64 a + b) = wrap64 (a + b).
Proof. intros. unfold wrap64, wrap. apply N.add_mod_idemp_l. intro; discriminate. Qed.

Lemma counter_blocks_spec : forall n c, c < 2 ^ 64 ->
  counter_blocks c n = (map (fun i => wrap64 (c + N.of_nat i)) (seq 0 n), wrap64 (c + N.of_nat n)).
Proof.
  induction n; intros c Hc.
  - cbn [counter_blocks seq map]. rewrite N.add_0_r. unfold wrap64. rewrite wrap_small by auto. auto.
  - cbn [counter_blocks]. rewrite IHn by (apply wrap_lt). cbn [seq map].
    f_equal.
    + f_equal; [rewrite MakeBlock_0, N.add_0_r; symmetry; apply wrap_small; auto|].
      rewrite <- seq_shift, map_map. apply map_ext. intros i. rewrite wrap64_add. f_equal. lia.
    + rewrite wrap64_add. f_equal. lia.
Qed.

Lemma stream_app : forall k c n m, stream k c (n + m) = stream k c n ++ stream k (wrap64 (c + N.of_nat n)) m.
Proof.
  intros. unfold stream. rewrite seq_app, map_app. f_equal. cbn [Nat.add].
  rewrite <- (Nat.add_0_r n) at 1.
  assert (S : forall m a, seq (n + a) m = map (fun i => (n + i)%nat) (seq a m)).
  { induction m0; intros a; [reflexivity|]. cbn [seq map]. f_equal. rewrite <- IHm0. f_equal. lia. }
  rewrite S, map_map. apply map_ext. intros i. rewrite wrap64_add. do 2 f_equal. lia.
Qed.

Lemma full_batches_spec : forall k n c, c < 2 ^ 64 ->
  full_batches k c n = (stream k c (8 * n), wrap64 (c + N.of_nat (8 * n))).
Proof.
  induction n; intros c Hc.
  - cbn [full_batches Nat.mul]. rewrite N.add_0_r. unfold wrap64. rewrite wrap_small by auto. reflexivity.
  - cbn [full_batches]. rewrite counter_blocks_spec by auto. rewrite IHn by apply wrap_lt.
    rewrite FastECB_map, map_map.
    replace (8 * S n)%nat with (8 + 8 * n)%nat by lia. rewrite stream_app. f_equal.
    rewrite wrap64_add. f_equal. lia.
Qed.

Lemma GenRandomBlocks_spec : forall s n, counter s < 2 ^ 64 ->
  GenRandomBlocks s n = (stream (aes_key s) (counter s) n, mkSeed (wrap64 (counter s + N.of_nat n)) (aes_key s)).
Proof.
  intros s n Hc. unfold GenRandomBlocks. rewrite full_batches_spec by auto.
  rewrite counter_blocks_spec by apply wrap_lt. rewrite FastECB_map, map_map.
  assert (D : n = (8 * (n / 8) + n mod 8)%nat) by (apply Nat.div_mod; lia).
  f_equal.
  - rewrite D at 3. rewrite stream_app. reflexivity.
  - f_equal. rewrite wrap64_add. f_equal. lia.
Qed.

Lemma stream_length : forall k c n, length (stream k c n) = n.
Proof. intros. unfold stream. rewrite map_length, seq_length. auto. Qed.

Lemma stream_NoDup : forall k c n, key_ok k -> N.of_nat n <= 2 ^ 64 -> NoDup (stream k c n).
Proof.
  intros k c n K Hn. unfold stream.
  assert (G : forall l, NoDup l -> (forall i, In i l -> (i < n)%nat) ->
     NoDup (map (fun i => Enc k (wrap64 (c + N.of_nat i))) l)).
  { induction l as [|a l IH]; intros ND HL; [constructor|]. inversion ND; subst. cbn [map]. constructor.
    - intros H. apply in_map_iff in H. destruct H as (b & E & Hb).
      assert (B : forall x, blk (wrap64 x)).
      { intros x. unfold blk. eapply N.lt_le_trans; [apply wrap_lt|]. apply N.pow_le_mono_r; lia. }
      apply Enc_inj in E; auto.
      assert (a <> b) by (intros ->; auto).
      pose proof (HL a (or_introl eq_refl)). pose proof (HL b (or_intror Hb)).
      unfold wrap64, wrap in E. change (2 ^ 64) with 18446744073709551616 in *.
      pose proof (N.div_mod (c + N.of_nat a) 18446744073709551616).
      pose proof (N.div_mod (c + N.of_nat b) 18446744073709551616). lia.
    - apply IH; auto. intros; apply HL; right; auto. }
  apply G; [apply seq_NoDup|]. intros i Hi. apply in_seq in Hi. lia.
Qed.

Lemma stream_byte_ok : forall k c n, Forall is_byte (flat_map (le_bytes 16) (stream k c n)).
Proof.
  intros. apply Forall_forall. intros x Hx. apply in_flat_map in Hx. destruct Hx as (b & _ & Hx).
  pose proof (le_bytes_ok 16 b) as F. unfold bytes_ok in F. rewrite Forall_forall in F. auto.
Qed.

Lemma flat_bytes_length : forall l, length (flat_map (le_bytes 16) l) = (16 * length l)%nat.
Proof. induction l as [|b l IH]; [reflexivity|]. cbn [flat_map]. rewrite app_length, le_bytes_length, IH. cbn [length]. lia. Qed.

Lemma GenRandomBytes_length : forall s n, counter s < 2 ^ 64 -> length (fst (GenRandomBytes s n)) = n.
Proof.
  intros s n Hc. unfold GenRandomBytes. rewrite GenRandomBlocks_spec by auto. cbn [fst].
  rewrite firstn_length, flat_bytes_length, stream_length.
  pose proof (Nat.div_mod (n + 15) 16). pose proof (Nat.mod_upper_bound (n + 15) 16). lia.
Qed.

Lemma firstn_flat_prefix : forall k c n m L, (L <= 16 * n)%nat -> (n <= m)%nat ->
  firstn L (flat_map (le_bytes 16) (stream k c n)) = firstn L (flat_map (le_bytes 16) (stream k c m)).
Proof.
  intros k c n m L HL Hnm. replace m with (n + (m - n))%nat by lia. rewrite stream_app, flat_map_app.
  rewrite firstn_app, flat_bytes_length, stream_length.
  replace (L - 16 * n)%nat with 0%nat by lia. cbn [firstn]. rewrite app_nil_r. auto.
Qed.

(** xor with a pad *)
Lemma map2_xor_cancel : forall pad p, length pad = length p -> map2 N.lxor pad (map2 N.lxor pad p) = p.
Proof.
  induction pad as [|x pad IH]; intros [|y p] L; try discriminate L; [reflexivity|].
  cbn [map2]. rewrite IH by (cbn in L; lia). f_equal.
  rewrite <- N.lxor_assoc, N.lxor_nilpotent, N.lxor_0_l. auto.
Qed.

(** ** CBC hash *)
Lemma load_blocks_length : forall n mem r, load_blocks n mem = Some r -> length r = n.
Proof.
  induction n; intros mem r E; cbn [load_blocks] in E; [injection E as <-; auto|].
  destruct (Nat.leb 16 (length mem)); [|discriminate].
  destruct (load_blocks n (skipn 16 mem)) eqn:E1; [|discriminate]. injection E as <-. cbn. f_equal. eauto.
Qed.
Lemma load_blocks_blk : forall n mem r, Forall is_byte mem -> load_blocks n mem = Some r -> Forall blk r.
Proof.
  induction n; intros mem r F E; cbn [load_blocks] in E; [injection E as <-; auto|].
  destruct (Nat.leb_spec 16 (length mem)); [|discriminate].
  destruct (load_blocks n (skipn 16 mem)) eqn:E1; [|discriminate].
  apply (f_equal (fun o => match o with Some x => x | None => r end)) in E. cbv beta iota in E. subst r. constructor.
  - apply le_val_blk. split; [rewrite firstn_length; lia|].
    rewrite <- (firstn_skipn 16 mem) in F. apply Forall_app in F. apply F.
  - eapply IHn; [|eauto]. rewrite <- (firstn_skipn 16 mem) in F. apply Forall_app in F. apply F.
Qed.
Lemma load_blocks_snoc : forall n mem, (16 * (n + 1) <= length mem)%nat ->
  exists r, load_blocks n mem = Some r /\
    load_blocks (n + 1) mem = Some (r ++ [le_val (firstn 16 (skipn (16 * n) mem))]).
Proof.
  induction n; intros mem L.
  - exists []. cbn [Nat.add load_blocks Nat.mul skipn app].
    replace (Nat.leb 16 (length mem)) with true by (symmetry; apply Nat.leb_le; lia). auto.
  - cbn [Nat.add load_blocks].
    replace (Nat.leb 16 (length mem)) with true by (symmetry; apply Nat.leb_le; lia).
    destruct (IHn (skipn 16 mem)) as (r & E1 & E2); [rewrite skipn_length; lia|].
    exists (le_val (firstn 16 mem) :: r). rewrite E1, E2. split; auto. cbn [app].
    rewrite skipn_skipn'. replace (16 + 16 * n)%nat with (16 * S n)%nat by lia. reflexivity.
Qed.
Lemma load_blocks_prefix : forall n mem mem', (16 * n <= length mem)%nat -> (16 * n <= length mem')%nat ->
  firstn (16 * n) mem = firstn (16 * n) mem' -> load_blocks n mem = load_blocks n mem'.
Proof.
  induction n; intros mem mem' L L' E; [reflexivity|]. cbn [load_blocks].
  replace (Nat.leb 16 (length mem)) with true by (symmetry; apply Nat.leb_le; lia).
  replace (Nat.leb 16 (length mem')) with true by (symmetry; apply Nat.leb_le; lia).
  assert (E16 : firstn 16 mem = firstn 16 mem').
  { apply (f_equal (firstn 16)) in E. rewrite !firstn_firstn in E. replace (Nat.min 16 (16 * S n)) with 16%nat in E by lia. auto. }
  rewrite E16. rewrite (IHn (skipn 16 mem) (skipn 16 mem')); auto; try (rewrite skipn_length; lia).
  apply (f_equal (skipn 16)) in E. rewrite !skipn_firstn_comm in E. replace (16 * S n - 16)%nat with (16 * n)%nat in E by lia. auto.
Qed.

Lemma fixed_ok : key_ok fixed_enc_key.
Proof. apply GenEncKey_ok. reflexivity. Qed.

Lemma CBCEnc_last : forall k v, v <> [] ->
  exists c, CBCEnc k v = Some c /\ nth (length v - 1) c 0 = last (cbc_enc_from k IV v) 0.
Proof.
  intros k v Hv. destruct v as [|x v]; [congruence|]. eexists. split; [reflexivity|].
  rewrite <- (cbc_enc_length k (x :: v) IV).
  assert (G : forall l, l <> [] -> nth (length l - 1) l 0 = last l 0).
  { induction l as [|a [|b l] IH]; intros H; [congruence|reflexivity|].
    change (last (a :: b :: l) 0) with (last (b :: l) 0). rewrite <- IH by discriminate.
    cbn [length]. replace (S (S (length l)) - 1)%nat with (S (S (length l) - 1)) by lia. reflexivity. }
  apply G. discriminate.
Qed.

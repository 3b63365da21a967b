From Coq Require Import NArith ZArith List Bool Arith Lia.
From Coq Require Import ZifyBool ZifyNat ZifyN.
From Verif.Base Require Import Words ListX Mem.
From Verif.Utility Require Import SerialModel.
From Verif.Crypto Require Import BlockModel BlockProofs AESModel AESProofs AESKeyProofs PRGModel PRGProofs.
From Verif.Group Require Import ECModel ECProofs.
From Verif.Net Require Import ChannelModel ChannelSpec PartyModel PartyProofs.
From Verif.OT Require Import OTModel OTSpec OTProofs OTRun OTProps.
From Verif.OKVS Require Import GFModel GFProofs GFInverse MatSpec MatProofs.
From Verif.PKE Require Import ElGamalModel.
From Verif.VOLE Require Import BVModel.
Import ListNotations.
Local Open Scope N_scope.
Local Notation Blk := (Forall (fun x => x < 2 ^ 128)).

Lemma word_bits_length : forall n w, length (word_bits n w) = n.
Proof. induction n as [|n IH]; intros w; [reflexivity|]. cbn [word_bits length]. rewrite IH. reflexivity. Qed.

Lemma word_bits_nth : forall n w i, (i < n)%nat ->
  nth i (word_bits n w) 0 = if N.testbit w (N.of_nat i) then 1 else 0.
Proof.
  induction n as [|n IH]; intros w i Hi; [lia|]. cbn [word_bits]. destruct i as [|i]; cbn [nth].
  - rewrite <- N.bit0_mod. change (N.of_nat 0) with 0. destruct (N.testbit w 0); reflexivity.
  - rewrite IH by lia. rewrite N.shiftr_spec by lia. rewrite Nat2N.inj_succ, N.add_1_r. reflexivity.
Qed.

Lemma delta_bits_length : forall d, length (delta_bits d) = 128%nat.
Proof. intros. unfold delta_bits. rewrite app_length, !word_bits_length. reflexivity. Qed.

Lemma delta_bits_nth : forall d i, (i < 128)%nat ->
  nth i (delta_bits d) 0 = if N.testbit d (N.of_nat i) then 1 else 0.
Proof.
  intros d i Hi. unfold delta_bits. destruct (Nat.lt_ge_cases i 64) as [L|L].
  - rewrite app_nth1 by (rewrite word_bits_length; exact L). rewrite word_bits_nth by exact L.
    unfold lo64. rewrite N.mod_pow2_bits_low by lia. reflexivity.
  - rewrite app_nth2 by (rewrite word_bits_length; exact L). rewrite word_bits_length.
    rewrite word_bits_nth by lia. unfold hi64. rewrite N.mod_pow2_bits_low by lia.
    rewrite N.div_pow2_bits. replace (N.of_nat (i - 64) + 64) with (N.of_nat i) by lia. reflexivity.
Qed.

Lemma delta_bit_vector : forall d, bit_vector 128 (delta_bits d).
Proof.
  intros d. split; [apply delta_bits_length|]. apply Forall_forall. intros x Hx.
  apply (In_nth _ _ 0) in Hx as (i & Hi & <-). rewrite delta_bits_length in Hi.
  rewrite delta_bits_nth by exact Hi. destruct (N.testbit d (N.of_nat i)); auto.
Qed.

Lemma fold_xsum : forall n f, fold_left (fun x i => N.lxor x (f i)) (seq 0 n) 0 = xsum n f.
Proof.
  induction n as [|n IH]; intros f; [reflexivity|].
  rewrite seq_S, fold_left_app, IH, xsum_S. reflexivity.
Qed.

(** the gadget recombines the bits of a number *)
Lemma gadget_number : forall u x, x < 2 ^ 128 ->
  xsum 128 (fun i => gf128_mul (2 ^ N.of_nat i) (if N.testbit x (N.of_nat i) then u else 0)) = gf128_mul u x.
Proof.
  intros u x Hx. symmetry.
  apply (additive_ext (fun x => gf128_mul u x)
    (fun x => xsum 128 (fun i => gf128_mul (2 ^ N.of_nat i) (if N.testbit x (N.of_nat i) then u else 0))) 128).
  - intros a b. apply gf_add_r.
  - intros a b. rewrite <- xsum_add. apply xsum_ext. intros k Hk. rewrite <- gf_add_r. f_equal.
    rewrite N.lxor_spec.
    destruct (N.testbit a (N.of_nat k)); destruct (N.testbit b (N.of_nat k)); cbn [xorb];
      rewrite ?N.lxor_nilpotent, ?N.lxor_0_r, ?N.lxor_0_l; reflexivity.
  - intros j Hj. rewrite (xsum_single 128 _ j Hj).
    + rewrite N.pow2_bits_true. apply gf_comm'.
    + intros k Hk Hne. rewrite N.pow2_bits_false by lia. rewrite gf_comm'. apply gf_0_l.
  - exact Hx.
Qed.

Lemma gadget_some : forall v, length v = 128%nat ->
  gadget_innerProduct v = Some (xsum 128 (fun i => gf128_mul (2 ^ N.of_nat i) (nth i v 0))).
Proof. intros v L. unfold gadget_innerProduct. rewrite L. cbn [Nat.eqb]. rewrite fold_xsum. reflexivity. Qed.

(** the whole of the arithmetic *)
Lemma gadget_correlation : forall w0 vv u delta, length w0 = 128%nat -> length vv = 128%nat -> delta < 2 ^ 128 ->
  (forall i, (i < 128)%nat -> nth i vv 0 = N.lxor (nth i w0 0) (if N.testbit delta (N.of_nat i) then u else 0)) ->
  exists w v, gadget_innerProduct w0 = Some w /\ gadget_innerProduct vv = Some v /\ w < 2 ^ 128 /\ v < 2 ^ 128 /\
    N.lxor v w = gf128_mul u delta.
Proof.
  intros w0 vv u delta L0 LV Hd E. rewrite !gadget_some by assumption. eexists. eexists.
  split; [reflexivity|]. split; [reflexivity|].
  split; [apply xsum_lt; intros; apply gf128_mul_lt|]. split; [apply xsum_lt; intros; apply gf128_mul_lt|].
  rewrite <- xsum_add. rewrite <- gadget_number by exact Hd. apply xsum_ext. intros i Hi.
  rewrite E by exact Hi. rewrite <- gf_add_r. f_equal.
  rewrite (N.lxor_comm (N.lxor _ _)), <- N.lxor_assoc, N.lxor_nilpotent. apply N.lxor_0_l.
Qed.

Lemma set_seed_ok : forall e s, e < 2 ^ 128 -> (forall x, s = Some x -> x < 2 ^ 128) ->
  counter (SetSeed e s 0) < 2 ^ 64 /\ key_ok (aes_key (SetSeed e s 0)).
Proof.
  intros e s He Hs. unfold SetSeed. destruct s as [x|]; (split; [reflexivity|apply reseed_key]); auto; reflexivity.
Qed.

Lemma enc_nth : forall k v i, (i < length v)%nat -> nth i (FastECBEnc k v) 0 = Enc k (nth i v 0).
Proof. intros k v i Hi. rewrite FastECB_map. apply nth_map' with (d := 0). exact Hi. Qed.
Lemma enc_length : forall k v, length (FastECBEnc k v) = length v.
Proof. intros. rewrite FastECB_map. apply map_length. Qed.

Lemma expand_ok : key_ok expand_key.
Proof. unfold expand_key. apply set_seed_ok; [reflexivity|]. intros x E. injection E as <-. reflexivity. Qed.

Lemma nth_chunks : forall (A : Type) (f : nat -> list A) t j i d, (forall k, length (f k) = 128%nat) ->
  (j < t)%nat -> (i < 128)%nat -> nth (j * 128 + i) (flat_map f (seq 0 t)) d = nth i (f j) d.
Proof.
  intros A f t j i d L Hj Hi.
  assert (X : forall n a j, (j < n)%nat -> nth (j * 128 + i) (flat_map f (seq a n)) d = nth i (f (a + j)%nat) d).
  { induction n as [|n IH]; intros a k Hk; [lia|]. cbn [seq flat_map]. destruct k as [|k].
    - rewrite app_nth1 by (rewrite L; lia). rewrite Nat.add_0_r. reflexivity.
    - rewrite app_nth2 by (rewrite L; lia). rewrite L.
      replace (S k * 128 + i - 128)%nat with (k * 128 + i)%nat by lia. rewrite IH by lia.
      replace (S a + k)%nat with (a + S k)%nat by lia. reflexivity. }
  apply X, Hj.
Qed.
Lemma length_chunks : forall (A : Type) (f : nat -> list A) t, (forall k, length (f k) = 128%nat) ->
  length (flat_map f (seq 0 t)) = (t * 128)%nat.
Proof.
  intros A f t L. assert (X : forall n a, length (flat_map f (seq a n)) = (n * 128)%nat); [|apply X].
  induction n as [|n IH]; intros a; [reflexivity|].
  cbn [seq flat_map]. rewrite app_length, L, IH. reflexivity.
Qed.

Lemma all_some_map : forall (A B : Type) (f : A -> option B) (h : A -> B) l,
  (forall a, In a l -> f a = Some (h a)) -> all_some f l = Some (map h l).
Proof.
  intros A B f h. induction l as [|a l IH]; intros H; [reflexivity|]. cbn [all_some map].
  rewrite (H a) by (left; reflexivity). rewrite IH by (intros; apply H; right; assumption). reflexivity.
Qed.

Section Run.
Variable G : ECGroup.
Variable hash : list N -> list N.
Hypothesis hash_ok : forall s, length (hash s) = 32%nat /\ bytes_ok (hash s).
Variable g : pt G.

Lemma base_run : forall eA eB d r sk u delta, eA < 2 ^ 128 -> eB < 2 ^ 128 ->
  (forall x, u = Some x -> x < 2 ^ 128) -> (forall x, delta = Some x -> x < 2 ^ 128) ->
  exists u' w delta' v,
    ends (baseVOLE_A G hash g eA d r u) (baseVOLE_B G hash g eB sk delta) (u', w) (delta', v) /\
    u' < 2 ^ 128 /\ w < 2 ^ 128 /\ delta' < 2 ^ 128 /\ v < 2 ^ 128 /\
    N.lxor v w = gf128_mul u' delta' /\
    (forall x, u = Some x -> u' = x) /\ (forall x, delta = Some x -> delta' = x).
Proof.
  intros eA eB d r sk u delta HA HB Hu Hd. unfold baseVOLE_A, baseVOLE_B.
  destruct (set_seed_ok eA None HA ltac:(discriminate)) as [C1 K1].
  destruct (draw_spec _ 128 C1 K1) as (k0 & s1 & E1 & B0 & C2 & K2). rewrite E1.
  destruct (draw_spec _ 128 C2 K2) as (k1 & s2 & E2 & B1 & C3 & K3). rewrite E2.
  destruct (draw_spec _ 1 C3 K3) as (ru & s3 & E3 & Bu & _). rewrite E3. cbn [fst].
  destruct (set_seed_ok eB None HB ltac:(discriminate)) as [C4 K4].
  destruct (draw_spec _ 1 C4 K4) as (rd & s4 & E4 & Bd & _). rewrite E4. cbn [fst].
  set (u' := match u with Some x => x | None => nth 0 ru 0 end).
  set (d' := match delta with Some x => x | None => nth 0 rd 0 end).
  assert (Lu : u' < 2 ^ 128).
  { unfold u'. destruct u as [x|]; [apply Hu; reflexivity|apply nth_blk, Bu]. }
  assert (Ld : d' < 2 ^ 128).
  { unfold d'. destruct delta as [x|]; [apply Hd; reflexivity|apply nth_blk, Bd]. }
  set (bits := delta_bits d').
  pose proof (delta_bit_vector d') as DB. fold bits in DB.
  set (w0 := FastECBEnc expand_key k0). set (w1 := FastECBEnc expand_key k1).
  set (gama := map (fun i => N.lxor (N.lxor (nth i w0 0) (nth i w1 0)) u') (seq 0 128)).
  set (w := FastECBEnc expand_key (chosen bits k0 k1)).
  set (vv := map (fun i => if nth i bits 0 =? 1 then N.lxor (nth i w 0) (nth i gama 0) else nth i w 0) (seq 0 128)).
  assert (Lk0 := proj1 B0). assert (Lk1 := proj1 B1).
  destruct (gadget_correlation w0 vv u' d') as (rw & rv & G1 & G2 & G3 & G4 & G5).
  { unfold w0. rewrite enc_length. exact Lk0. }
  { unfold vv. rewrite map_length, seq_length. reflexivity. }
  { exact Ld. }
  { intros i Hi. unfold vv. rewrite nth_map_seq by exact Hi. unfold w.
    assert (LB := proj1 DB).
    rewrite enc_nth by (rewrite (chosen_length _ _ _ _ 128) by assumption; exact Hi).
    rewrite chosen_nth by (rewrite LB; try assumption; congruence).
    unfold bits. rewrite delta_bits_nth by exact Hi.
    destruct (N.testbit d' (N.of_nat i)); cbn [N.eqb Pos.eqb].
    - unfold gama. rewrite nth_map_seq by exact Hi. unfold w0, w1. rewrite !enc_nth by (rewrite ?Lk0, ?Lk1; exact Hi).
      rewrite (N.lxor_comm (Enc expand_key (nth i k0 0)) (Enc expand_key (nth i k1 0))).
      rewrite <- !N.lxor_assoc, N.lxor_nilpotent, N.lxor_0_l. reflexivity.
    - unfold w0. rewrite enc_nth by (rewrite Lk0; exact Hi). rewrite N.lxor_0_r. reflexivity. }
  exists u', rw, d', rv. split.
  - eapply ends_bind.
    + apply (C53_naor_pinkas G hash hash_ok g d r sk k0 k1 bits 128 B0 B1 DB).
    + fold w. apply ab_blocks.
      * unfold gama. rewrite map_length, seq_length. reflexivity.
      * unfold gama. apply map_seq_blk. intros i Hi. repeat (apply lxor_lt; [|]); try exact Lu;
          apply nth_blk; unfold w0, w1; rewrite FastECB_map; apply Forall_map, Forall_forall; intros; apply Enc_blk, expand_ok.
      * fold vv. rewrite G1, G2. cbn [local]. apply ends_ret.
  - split; [exact Lu|]. split; [exact G3|]. split; [exact Ld|]. split; [exact G4|]. split; [exact G5|].
    split; intros x E; subst; reflexivity.
Qed.

(** what the OT extension needs from its randomness *)
Definition ot_ok (o : ot_random) : Prop :=
  eS o < 2 ^ 128 /\ eR o < 2 ^ 128 /\ Forall is_byte (stS o) /\ Forall is_byte (stR o).

Lemma alsz_run : forall o m0 m1 bits LEN, ot_ok o -> (LEN mod 128 = 0)%nat ->
  blocks LEN m0 -> blocks LEN m1 -> length bits = LEN ->
  ends (alsz_Send G hash g o m0 m1 LEN) (alsz_Receive G hash g o bits LEN) tt (chosen bits m0 m1).
Proof.
  intros o m0 m1 bits LEN (H1 & H2 & H3 & H4) HM B0 B1 LB. unfold alsz_Send, alsz_Receive.
  apply C55_alsz_standard; auto. split; [exact HM|]. split; [reflexivity|lia].
Qed.

Lemma base_t_run : forall o eA t delta, ot_ok o -> eA < 2 ^ 128 -> delta < 2 ^ 128 ->
  exists us ws vs,
    ends (baseVOLE_tA G hash g o eA t) (baseVOLE_tB G hash g o t delta) (us, ws) vs /\
    blocks t us /\ blocks t ws /\ blocks t vs /\
    forall i, (i < t)%nat -> N.lxor (nth i vs 0) (nth i ws 0) = gf128_mul (nth i us 0) delta.
Proof.
  intros o eA t delta HO HA Ld. unfold baseVOLE_tA, baseVOLE_tB.
  destruct (set_seed_ok eA None HA ltac:(discriminate)) as [C1 K1].
  set (LEN := (t * 128)%nat).
  destruct (draw_spec _ LEN C1 K1) as (k0 & s1 & E1 & B0 & C2 & K2). rewrite E1.
  destruct (draw_spec _ LEN C2 K2) as (k1 & s2 & E2 & B1 & C3 & K3). rewrite E2.
  destruct (draw_spec _ t C3 K3) as (us & s3 & E3 & Bu & _). rewrite E3. cbn [fst].
  set (bits := delta_bits delta). set (select := flat_map (fun _ : nat => bits) (seq 0 t)).
  assert (LS : length select = LEN) by (apply length_chunks; intros; apply delta_bits_length).
  set (w0 := FastECBEnc expand_key k0). set (w1 := FastECBEnc expand_key k1).
  set (gama := flat_map _ (seq 0 t)).
  set (w := FastECBEnc expand_key (chosen select k0 k1)).
  assert (Lk0 := proj1 B0). assert (Lk1 := proj1 B1).
  assert (Lg : length gama = LEN).
  { apply length_chunks. intros. rewrite map_length, seq_length. reflexivity. }
  set (vv := fun j : nat => map (fun i => if nth i bits 0 =? 1 then N.lxor (nth (i + j * 128) w 0) (nth (i + j * 128) gama 0)
                                    else nth (i + j * 128) w 0) (seq 0 128)).
  assert (COR : forall j, (j < t)%nat -> exists rw rv,
    gadget_innerProduct (firstn 128 (skipn (j * 128) w0)) = Some rw /\ gadget_innerProduct (vv j) = Some rv /\
    rw < 2 ^ 128 /\ rv < 2 ^ 128 /\ N.lxor rv rw = gf128_mul (nth j us 0) delta).
  { intros j Hj. apply gadget_correlation.
    - rewrite firstn_length, skipn_length. unfold w0. rewrite enc_length, Lk0. unfold LEN. lia.
    - unfold vv. rewrite map_length, seq_length. reflexivity.
    - exact Ld.
    - intros i Hi. rewrite nth_firstn_lt by exact Hi. rewrite nth_skipn. unfold vv. rewrite nth_map_seq by exact Hi.
      rewrite (Nat.add_comm i (j * 128)). assert (HL : (j * 128 + i < LEN)%nat) by (unfold LEN; lia).
      unfold w. rewrite enc_nth by (rewrite (chosen_length _ _ _ _ LEN) by assumption; exact HL).
      rewrite chosen_nth by congruence.
      assert (XS : nth (j * 128 + i) select 0 = nth i bits 0).
      { apply nth_chunks; auto using delta_bits_length. }
      rewrite XS. unfold bits. rewrite delta_bits_nth by exact Hi.
      destruct (N.testbit delta (N.of_nat i)); cbn [N.eqb Pos.eqb].
      + unfold gama. rewrite nth_chunks by (auto; intros; rewrite map_length, seq_length; reflexivity).
        rewrite nth_map_seq by exact Hi. unfold w0, w1. rewrite !enc_nth by (rewrite ?Lk0, ?Lk1; exact HL).
        rewrite (N.lxor_comm (Enc expand_key (nth _ k0 0)) (Enc expand_key (nth _ k1 0))).
        rewrite <- !N.lxor_assoc, N.lxor_nilpotent, N.lxor_0_l. reflexivity.
      + unfold w0. rewrite enc_nth by (rewrite Lk0; exact HL). rewrite N.lxor_0_r. reflexivity. }
  set (hw := fun j : nat => match gadget_innerProduct (firstn 128 (skipn (j * 128) w0)) with Some x => x | None => 0 end).
  set (hv := fun j : nat => match gadget_innerProduct (vv j) with Some x => x | None => 0 end).
  exists us, (map hw (seq 0 t)), (map hv (seq 0 t)). split; [|split; [exact Bu|split; [|split]]].
  - eapply ends_bind.
    + apply alsz_run; [exact HO| |exact B0|exact B1|exact LS]. unfold LEN. apply Nat.mod_mul. discriminate.
    + fold w. apply ab_blocks; [exact Lg| |].
      * apply Forall_forall. intros x Hx. apply in_flat_map in Hx as (j & _ & Hx).
        apply in_map_iff in Hx as (i & <- & _). repeat (apply lxor_lt; [|]); try (apply nth_blk, Bu);
          apply nth_blk; unfold w0, w1; rewrite FastECB_map; apply Forall_map, Forall_forall; intros; apply Enc_blk, expand_ok.
      * rewrite (all_some_map _ _ _ hw).
        2:{ intros j Hj. apply in_seq in Hj. unfold hw. destruct (COR j ltac:(lia)) as (rw & rv & E & _). rewrite E. reflexivity. }
        cbn [local]. fold vv.
        rewrite (all_some_map _ _ (fun j : nat => gadget_innerProduct (vv j)) hv).
        2:{ intros j Hj. apply in_seq in Hj. unfold hv. destruct (COR j ltac:(lia)) as (rw & rv & _ & E & _). rewrite E. reflexivity. }
        cbn [local]. apply ends_ret.
  - split; [rewrite map_length, seq_length; reflexivity|]. apply Forall_map, Forall_forall. intros j Hj. apply in_seq in Hj.
    unfold hw. destruct (COR j ltac:(lia)) as (rw & rv & E & _ & B & _). rewrite E. exact B.
  - split; [rewrite map_length, seq_length; reflexivity|]. apply Forall_map, Forall_forall. intros j Hj. apply in_seq in Hj.
    unfold hv. destruct (COR j ltac:(lia)) as (rw & rv & _ & E & _ & B & _). rewrite E. exact B.
  - intros j Hj. rewrite !nth_map_seq by exact Hj. unfold hw, hv. destruct (COR j Hj) as (rw & rv & E1' & E2' & _ & _ & E).
    rewrite E1', E2'. exact E.
Qed.
End Run.

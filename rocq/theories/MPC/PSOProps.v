(** C60: PSI, PSI-cardinality, PSU; C61: PSI-card-sum; C62: private-ID. *)
From Coq Require Import NArith ZArith List Bool Arith Lia Permutation.
From Coq Require Import ZifyBool ZifyNat ZifyN.
From Verif.Base Require Import Words ListX Mem.
From Verif.Filter Require Import MurmurModel BloomModel BloomSpec BloomProps.
From Verif.Crypto Require Import BigIntModel BigIntProofs BigIntProps PRGModel PRGProofs AESProps.
From Verif.Group Require Import ECModel ECProofs ZqGroup.
From Verif.PKE Require Import DlogProps ElGamalModel ElGamalProps.
From Verif.Net Require Import ChannelModel ChannelSpec PartyModel PartyProofs.
From Verif.OT Require Import OTModel OTSpec OTProofs OTRun OTProps.
From Verif.MPC Require Import CwModel CwSpec CwProps PSOModel PSOSpec PSOProofs.
Import ListNotations.

(** any draws: 128-bit seeds, any exponents, any stale bytes *)
Definition draws_ok (D : Draws) : Prop :=
  (d_eS D < 2 ^ 128)%N /\ (d_eR D < 2 ^ 128)%N /\ Forall is_byte (d_stS D) /\ Forall is_byte (d_stR D).
Local Notation isblock x := (x < 2 ^ 128)%N.

Section Props.
Variable G : ECGroup.
Variable hash : list N -> list N.
Hypothesis hash_ok : forall s, length (hash s) = 32%nat /\ bytes_ok (hash s).
Variable g : pt G.
Variable D : Draws.
Hypothesis DOK : draws_ok D.
Variable mqServer : list N -> party G (list N).
Variable mqClient : list N -> party G unit.

Lemma ot_onesided : forall ROW m bits, (ROW mod 128 = 0)%nat -> blocks ROW m -> length bits = ROW ->
  ends (OTE_OnesidedSend G (ot_send G hash g D ROW) BASE m ROW) (OTE_OnesidedReceive G (ot_recv G hash g D ROW) BASE bits ROW) tt (picked bits m).
Proof.
  intros ROW m bits AD BM LB. destruct DOK as [B1 [B2 [F1 F2]]].
  exact (C55_alsz_onesided G hash hash_ok g BASE ROW (d_eS D) (d_eR D) (d_sk D) (d_d D) (d_r D) (d_stS D) (d_stR D) bits
    ltac:(split; [exact AD|split; [reflexivity|unfold BASE; lia]]) B1 B2 F1 F2 m BM LB).
Qed.
Lemma ot_bytes_onesided : forall ROW m l bits, (ROW mod 128 = 0)%nat -> (0 < ROW)%nat -> byte_items ROW l m -> length bits = ROW ->
  (N.of_nat ROW < 2 ^ 64 /\ N.of_nat l < 2 ^ 64 /\ N.of_nat l * N.of_nat ROW < 2 ^ 64)%N ->
  ends (OTE_OnesidedSendByteVector G (ot_send G hash g D ROW) m ROW) (OTE_OnesidedReceiveByteVector G (ot_recv G hash g D ROW) bits ROW) tt (picked bits m).
Proof.
  intros ROW m l bits AD HP BM LB SZ. destruct DOK as [B1 [B2 [F1 F2]]].
  exact (C55_alsz_bytes_onesided G hash hash_ok g BASE ROW (d_eS D) (d_eR D) (d_sk D) (d_d D) (d_r D) (d_stS D) (d_stR D) bits
    ltac:(split; [exact AD|split; [reflexivity|unfold BASE; lia]]) B1 B2 F1 F2 m l HP BM LB SZ).
Qed.
Lemma ot_bytes : forall ROW m0 m1 l bits, (ROW mod 128 = 0)%nat -> (0 < ROW)%nat -> byte_items ROW l m0 -> byte_items ROW l m1 -> bit_vector ROW bits ->
  (N.of_nat ROW < 2 ^ 64 /\ N.of_nat l < 2 ^ 64 /\ N.of_nat l * N.of_nat ROW < 2 ^ 64)%N ->
  ends (OTE_SendByteVector G (ot_send G hash g D ROW) m0 m1 ROW) (OTE_ReceiveByteVector G (ot_recv G hash g D ROW) bits ROW) tt (chosen bits m0 m1).
Proof.
  intros ROW m0 m1 l bits AD HP B0 B1' LB SZ. destruct DOK as [B1 [B2 [F1 F2]]].
  exact (C55_alsz_bytes G hash hash_ok g BASE ROW (d_eS D) (d_eR D) (d_sk D) (d_d D) (d_r D) (d_stS D) (d_stR D) bits
    ltac:(split; [exact AD|split; [reflexivity|unfold BASE; lia]]) B1 B2 F1 F2 m0 m1 l l HP B0 B1' LB ltac:(tauto)).
Qed.

(** ** C60 *)
(** what the protocols compute from the indication bits, whatever these are *)
Lemma psi_run : forall X Y bits, ends (mqServer Y) (mqClient X) bits tt -> length bits = length X -> Forall (fun x => isblock x) X -> (length X mod 128 = 0)%nat ->
  ends (PSI_Send G hash g D mqClient (length X) X) (PSI_Receive G hash g D mqServer (length Y) Y) tt (picked bits X).
Proof.
  intros X Y bits E L B AD. unfold PSI_Send, PSI_Receive. rewrite !Nat.eqb_refl. eapply ends_bind; [apply ends_sym; exact E|].
  rewrite L. apply ot_onesided; [exact AD|split; [reflexivity|exact B]|exact L].
Qed.
Lemma psu_run : forall X Y bits, ends (mqServer Y) (mqClient X) bits tt -> length bits = length X -> Forall (fun x => isblock x) X -> (length X mod 128 = 0)%nat ->
  ends (PSU_Send G hash g D mqClient (length X) X) (PSU_Receive G hash g D mqServer (length Y) Y) tt (Y ++ picked (flip_bits bits) X).
Proof.
  intros X Y bits E L B AD. unfold PSU_Send, PSU_Receive. rewrite !Nat.eqb_refl. eapply ends_bind; [apply ends_sym; exact E|].
  cbv zeta. rewrite flip_length, L. apply ends_sym. eapply ends_then_ret; [apply ends_sym, ot_onesided; [exact AD|split; [reflexivity|exact B]|rewrite flip_length; exact L]|reflexivity].
Qed.
Lemma padded_mod : forall n, (padded n mod 128 = 0)%nat /\ (n <= padded n)%nat /\ (0 < n -> 0 < padded n)%nat /\ (padded n <= n + 127)%nat.
Proof.
  intros n. unfold padded. split; [apply Nat.mod_mul; lia|]. pose proof (Nat.div_mod (n + 127) 128 ltac:(lia)). pose proof (Nat.mod_upper_bound (n + 127) 128 ltac:(lia)). lia.
Qed.
Lemma psu_bytes_run : forall X Y l bits, ends (mqServer (map (StringToBlock hash) Y)) (mqClient (map (StringToBlock hash) X)) bits tt -> length bits = length X ->
  Forall (fun x => length x = l) X -> (0 < length X)%nat -> (N.of_nat (length X) < 2 ^ 63 /\ N.of_nat l < 2 ^ 64 /\ N.of_nat l * (N.of_nat (length X) + 127) < 2 ^ 64)%N ->
  ends (PSU_Send_bytes G hash g D mqClient (length X) X l) (PSU_Receive_bytes G hash g D mqServer (length Y) Y l) tt (Y ++ picked (flip_bits bits) X).
Proof.
  intros X Y l bits E L B HP SZ. unfold PSU_Send_bytes, PSU_Receive_bytes. rewrite !Nat.eqb_refl. eapply ends_bind; [apply ends_sym; exact E|].
  cbv zeta. rewrite flip_length, L. destruct (padded_mod (length X)) as [P1 [P2 [P3 P4]]].
  assert (LP : length (X ++ repeat (repeat 0%N l) (padded (length X) - length X)) = padded (length X)) by (rewrite app_length, repeat_length; lia).
  rewrite LP. apply ends_sym. eapply ends_then_ret.
  - apply ends_sym. apply ot_bytes_onesided with (l := l); [exact P1|exact (P3 HP)| | |nia].
    + split; [exact LP|]. apply Forall_app. split; [exact B|]. apply Forall_forall. intros d I. apply repeat_spec in I. subst d. apply repeat_length.
    + rewrite app_length, repeat_length, flip_length. lia.
  - cbv beta. rewrite picked_pad by (rewrite flip_length; exact L). reflexivity.
Qed.

(** C60.  With correct indication bits, for all sets whose size is a multiple of 128, every schedule of the parties, all
    randomness: the receiver ends with exactly the items of X that are in Y, ... *)
Theorem C60_psi : forall X Y bits, ends (mqServer Y) (mqClient X) bits tt -> correct_bits X Y bits ->
  Forall (fun x => isblock x) X -> (length X mod 128 = 0)%nat ->
  ends (PSI_Send G hash g D mqClient (length X) X) (PSI_Receive G hash g D mqServer (length Y) Y) tt (common N.eq_dec X Y).
Proof. intros X Y bits E C B AD. rewrite <- (picked_correct X Y bits C). apply psi_run; [exact E|apply C|exact B|exact AD]. Qed.
(** ... with their number (any size), ... *)
Theorem C60_psi_card : forall X Y bits, ends (mqServer Y) (mqClient X) bits tt -> correct_bits X Y bits -> (N.of_nat (length X) < 2 ^ 64)%N ->
  ends (Card_Send G mqClient (length X) X) (Card_Receive G mqServer (length Y) Y) tt (N.of_nat (length (common N.eq_dec X Y))).
Proof.
  intros X Y bits E C B. unfold Card_Send, Card_Receive. rewrite !Nat.eqb_refl. apply ends_sym. eapply ends_then_ret; [exact E|].
  rewrite (cardinality_sum bits (length X)); [|apply (up_to_bits (fun _ => False)) with (Y := Y), correct_up_to, C|exact B].
  rewrite <- (picked_correct X Y bits C). rewrite (picked_length _ _ bits bits X) by apply C. reflexivity.
Qed.
(** ... with its own items followed by the items of X that are not among them, ... *)
Theorem C60_psu : forall X Y bits, ends (mqServer Y) (mqClient X) bits tt -> correct_bits X Y bits ->
  Forall (fun x => isblock x) X -> (length X mod 128 = 0)%nat ->
  ends (PSU_Send G hash g D mqClient (length X) X) (PSU_Receive G hash g D mqServer (length Y) Y) tt (Y ++ only N.eq_dec X Y).
Proof.
  intros X Y bits E C B AD. rewrite <- (flipped_correct N N.eq_dec (fun x => x) X Y bits); [|intros x y _ _ Q; exact Q|rewrite !map_id; exact C].
  apply psu_run; [exact E|apply C|exact B|exact AD].
Qed.
(** ... and likewise for byte strings of any number and of any equal length, if no two different items have the same
    128-bit hash. *)
Theorem C60_psu_bytes : forall X Y l bits, ends (mqServer (map (StringToBlock hash) Y)) (mqClient (map (StringToBlock hash) X)) bits tt ->
  correct_bits (map (StringToBlock hash) X) (map (StringToBlock hash) Y) bits ->
  (forall x y, In x X -> In y Y -> StringToBlock hash x = StringToBlock hash y -> x = y) ->
  Forall (fun x => length x = l) X -> (0 < length X)%nat -> (N.of_nat (length X) < 2 ^ 63 /\ N.of_nat l < 2 ^ 64 /\ N.of_nat l * (N.of_nat (length X) + 127) < 2 ^ 64)%N ->
  ends (PSU_Send_bytes G hash g D mqClient (length X) X l) (PSU_Receive_bytes G hash g D mqServer (length Y) Y l) tt (Y ++ only (list_eq_dec N.eq_dec) X Y).
Proof.
  intros X Y l bits E C INJ B HP SZ. rewrite <- (flipped_correct _ (list_eq_dec N.eq_dec) (StringToBlock hash) X Y bits INJ C).
  apply psu_bytes_run; [exact E| |exact B|exact HP|exact SZ]. destruct C as [L _]. rewrite map_length in L. exact L.
Qed.
(** what common and only are *)
Theorem C60_sets : forall (A : Type) (dec : @eq_dec A) X Y z,
  (In z (common dec X Y) <-> In z X /\ In z Y) /\ (In z (Y ++ only dec X Y) <-> In z X \/ In z Y) /\
  (NoDup X -> NoDup (common dec X Y)) /\ (NoDup X -> NoDup Y -> NoDup (Y ++ only dec X Y)).
Proof.
  intros A dec X Y z.
  assert (O : forall w, In w (only dec X Y) <-> In w X /\ ~ In w Y).
  { intros w. unfold only. rewrite filter_In. destruct (in_dec dec w Y); intuition; discriminate. }
  split; [|split; [|split]].
  - unfold common. rewrite filter_In. destruct (in_dec dec z Y); intuition; discriminate.
  - rewrite in_app_iff, O. destruct (in_dec dec z Y); tauto.
  - apply NoDup_filter.
  - intros NX NY. assert (NO : NoDup (only dec X Y)) by (apply NoDup_filter, NX). revert NO O. generalize (only dec X Y). intros l NO O.
    clear NX. induction Y as [|y Y' IH]; [exact NO|]. inversion NY as [|? ? NI NY']; subst. cbn [app].
    assert (Dj : forall w, In w l -> ~ In w (y :: Y')) by (intros w I; apply O in I; apply I).
    clear O IH. constructor.
    + rewrite in_app_iff. intros [I|I]; [contradiction|]. apply (Dj y I). left. reflexivity.
    + assert (Dj' : forall w, In w l -> ~ In w Y') by (intros w I J; apply (Dj w I); right; exact J).
      clear Dj NI NY. revert Dj' NY'. induction Y' as [|y' Y'' IH]; intros Dj NY'; [exact NO|]. inversion NY' as [|? ? NI NY2]; subst. cbn [app]. constructor.
      * rewrite in_app_iff. intros [I|I]; [contradiction|]. apply (Dj y' I). left. reflexivity.
      * apply IH; [|exact NY2]. intros w I J. apply (Dj w I). right. exact J.
Qed.
(** C60 fails for the block versions when the sender's size is not a multiple of 128, in particular for all powers of two
    below 128: the OT extension does not admit it. *)
Theorem C60_small_sets_refuted : forall X Y bits, ends (mqServer Y) (mqClient X) bits tt -> (length X mod 128 <> 0)%nat ->
  crashes (PSI_Send G hash g D mqClient (length X) X) (PSI_Receive G hash g D mqServer (length Y) Y) /\
  crashes (PSU_Send G hash g D mqClient (length X) X) (PSU_Receive G hash g D mqServer (length Y) Y).
Proof.
  intros X Y bits E AD. assert (NA : admitted (length X) BASE = false) by (unfold admitted; destruct (Nat.eqb_spec (length X mod 128) 0); [contradiction|reflexivity]).
  split; [unfold PSI_Send, PSI_Receive|unfold PSU_Send, PSU_Receive]; rewrite !Nat.eqb_refl; (eapply crashes_bind; [apply ends_sym; exact E|]); unfold OTE_OnesidedSend; rewrite NA; apply crashes_now.
Qed.

(** ** C61 *)
Lemma byte_back : forall a L, (0 <= a < 256 ^ Z.of_nat L)%Z -> FromByteVector (ToByteVector a L) = a.
Proof. intros a L [H1 H2]. destruct (C17_bytes_round_trip_partial a H1) as [_ R]. apply R, H2. Qed.
Lemma byte_length : forall a L, length (ToByteVector a L) = L.
Proof. intros a L. unfold ToByteVector, BN_bn2binpad. destruct (BN_num_bytes a <=? L)%nat; [apply be_bytes_length|apply repeat_length]. Qed.
Lemma skipn_nth : forall A (l : list A) k d, (k < length l)%nat -> skipn k l = nth k l d :: skipn (S k) l.
Proof. intros A. induction l as [|a l IH]; intros [|k] d H; cbn [length] in H; try lia; [reflexivity|]. cbn [skipn nth]. apply IH. lia. Qed.
Lemma filter_length_le : forall A (f : A -> bool) l, (length (filter f l) <= length l)%nat.
Proof. intros A f. induction l as [|a l IH]; [reflexivity|]. cbn [filter length]. destruct (f a); cbn [length]; lia. Qed.
Lemma two_to_some : forall e, (e < 64)%nat -> two_to e = Some (2 ^ Z.of_nat e)%Z.
Proof. intros e H. unfold two_to. destruct (Nat.ltb_spec e 64); [reflexivity|lia]. Qed.
Lemma sum_result : forall X Y bits (r : nat -> Z) v LOG n, correct_bits X Y bits -> length X = n -> (n <= length v)%nat -> (LOG mod 8 = 0)%nat ->
  (forall i, (i < n)%nat -> 0 <= r i < 2 ^ Z.of_nat LOG)%Z ->
  forall R, (R <= n)%nat ->
  (zsum (fun i => FromByteVector (nth i (chosen bits (map (fun i => ToByteVector (r i) (LOG / 8)) (seq 0 n))
     (map (fun i => ToByteVector (nth i (map (fun i => BigInt_Mod (nth i v 0 + r i) (2 ^ Z.of_nat LOG)) (seq 0 n) ++ skipn n v) 0) (LOG / 8)) (seq 0 n))) [])) R mod 2 ^ Z.of_nat LOG)%Z
  = ((sum_common (firstn R X) v Y + zsum r R) mod 2 ^ Z.of_nat LOG)%Z.
Proof.
  intros X Y bits r v LOG n C LX LV L8 RB R HR.
  assert (P : (256 ^ Z.of_nat (LOG / 8) = 2 ^ Z.of_nat LOG)%Z).
  { change 256%Z with (2 ^ 8)%Z. rewrite <- Z.pow_mul_r by lia. f_equal. pose proof (Nat.div_mod LOG 8 ltac:(lia)). lia. }
  set (B := (2 ^ Z.of_nat LOG)%Z) in *. assert (HB : (0 < B)%Z) by (apply Z.pow_pos_nonneg; lia).
  rewrite sum_common_zsum by (rewrite firstn_length; lia). rewrite firstn_length, LX, Nat.min_l by exact HR. rewrite zsum_add.
  apply zsum_cong; [exact HB|]. intros i Hi. destruct C as [LB CB].
  rewrite chosen_nth by (try (rewrite map_length, seq_length); lia).
  rewrite !nth_map_seq by lia. rewrite app_nth1 by (rewrite map_length, seq_length; lia). rewrite nth_map_seq by lia.
  specialize (CB i ltac:(lia)). rewrite (nth_indep bits 0%N 2%N) by lia. rewrite nth_firstn_lt by exact Hi.
  destruct CB as [[-> I]|[-> I]]; cbn [N.eqb]; destruct (in_dec N.eq_dec (nth i X 0%N) Y) as [J|J]; try contradiction.
  - unfold BigInt_Mod, checked, BN_nnmod. destruct (Z.eqb_spec B 0); [lia|]. rewrite Z.abs_eq by lia.
    rewrite byte_back by (rewrite P; apply Z.mod_pos_bound, HB). rewrite Z.mod_mod by lia. reflexivity.
  - specialize (RB i ltac:(lia)). rewrite byte_back by (rewrite P; exact RB). reflexivity.
Qed.
Lemma sum_run : forall X Y bits r v LOG LOGV R, ends (mqServer Y) (mqClient X) bits tt -> correct_bits X Y bits -> length Y = R -> (R <= length X)%nat ->
  (length X <= length v)%nat -> (length X mod 128 = 0 /\ 0 < length X)%nat -> (LOG mod 8 = 0 /\ LOG < 64 /\ LOGV < 64)%nat -> (N.of_nat (length X) < 2 ^ 61)%N ->
  (forall i, (i < length X)%nat -> 0 <= r i < 2 ^ Z.of_nat LOG)%Z ->
  ends (Sum_Send G hash g D mqClient (length X) LOG LOGV r X v) (Sum_Receive G hash g D mqServer R LOG Y)
    ((N.of_nat (length (common N.eq_dec X Y)), (sum_common (firstn R X) v Y + zsum r R - zsum r (length X)) mod 2 ^ Z.of_nat LOG)%Z,
     masked v r (2 ^ Z.of_nat LOG) (length X))
    (N.of_nat (length (common N.eq_dec X Y))).
Proof.
  intros X Y bits r v LOG LOGV R E C LY LR LV [AD HP] [L8 [L64 LV64]] SZ RB.
  unfold Sum_Send, Sum_Receive. rewrite LY, !Nat.eqb_refl, !two_to_some by assumption. cbn [local].
  assert (BV : bit_vector (length X) bits) by (apply (up_to_bits (fun _ => False)) with (Y := Y), correct_up_to, C).
  assert (CARD : cardinality bits = N.of_nat (length (common N.eq_dec X Y))).
  { rewrite (cardinality_sum bits (length X)); [|exact BV|lia]. rewrite <- (picked_correct X Y bits C). rewrite (picked_length _ _ bits bits X) by apply C. reflexivity. }
  assert (LB : length bits = length X) by apply C.
  eapply ends_bind; [apply ends_sym; exact E|]. cbv beta zeta. replace (has (length X) v) with true by (symmetry; apply Nat.leb_le; exact LV).
  set (m0 := map (fun i => ToByteVector (r i) (LOG / 8)) (seq 0 (length X))). set (v' := map _ _ ++ skipn (length X) v).
  set (m1 := map (fun i => ToByteVector (nth i v' 0%Z) (LOG / 8)) (seq 0 (length X))). rewrite LB.
  assert (LOG8 : (LOG / 8 <= 8)%nat) by (apply Nat.div_le_upper_bound; lia).
  eapply ends_bind.
  - apply ot_bytes with (l := (LOG / 8)%nat); [exact AD|exact HP| | |exact BV|nia].
    + split; [unfold m0; rewrite map_length, seq_length; reflexivity|]. apply Forall_map, Forall_forall. intros i _. apply byte_length.
    + split; [unfold m1; rewrite map_length, seq_length; reflexivity|]. apply Forall_map, Forall_forall. intros i _. apply byte_length.
  - cbv beta. replace (has R (chosen bits m0 m1)) with true.
    2:{ symmetry. apply Nat.leb_le. rewrite (chosen_length _ _ _ _ (length X)); [exact LR|exact LB|unfold m0|unfold m1]; rewrite map_length, seq_length; reflexivity. }
    rewrite fold_zsum, Z.add_0_l, fold_map_zsum. rewrite CARD.
    assert (HB : (0 < 2 ^ Z.of_nat LOG)%Z) by (apply Z.pow_pos_nonneg; lia).
    assert (BM : forall a, BigInt_Mod a (2 ^ Z.of_nat LOG) = (a mod 2 ^ Z.of_nat LOG)%Z).
    { intros a. unfold BigInt_Mod, checked, BN_nnmod. destruct (Z.eqb_spec (2 ^ Z.of_nat LOG) 0); [lia|]. rewrite Z.abs_eq by lia. reflexivity. }
    assert (P : (256 ^ Z.of_nat (LOG / 8) = 2 ^ Z.of_nat LOG)%Z).
    { change 256%Z with (2 ^ 8)%Z. rewrite <- Z.pow_mul_r by lia. f_equal. pose proof (Nat.div_mod LOG 8 ltac:(lia)). lia. }
    rewrite (BM (zsum _ R)). unfold m0, m1, v'. rewrite (sum_result X Y bits r v LOG (length X) C eq_refl LV L8 RB R LR). fold v' m0 m1.
    flip. apply ab_int.
    { change (256 ^ N.of_nat 8)%N with (2 ^ 64)%N. unfold common. pose proof (filter_length_le _ (fun x => if in_dec N.eq_dec x Y then true else false) X). lia. }
    apply ab_bigint; [rewrite P; apply Z.mod_pos_bound, HB|]. rewrite BM, Zminus_mod_idemp_l.
    replace v' with (masked v r (2 ^ Z.of_nat LOG) (length X)); [apply ends_ret|].
    unfold masked, v'. f_equal. apply map_ext. intros i. symmetry. apply BM.
Qed.
(** C61.  With correct indication bits and sets of one size, a multiple of 128; values of any size and sign: the sender ends
    with the number of common items and the sum of their values modulo the bound, the receiver with their number. *)
Theorem C61_equal_sizes_partial : forall X Y bits r v LOG LOGV, ends (mqServer Y) (mqClient X) bits tt -> correct_bits X Y bits -> length Y = length X ->
  (length X <= length v)%nat -> (length X mod 128 = 0 /\ 0 < length X)%nat -> (LOG mod 8 = 0 /\ LOG < 64 /\ LOGV < 64)%nat -> (N.of_nat (length X) < 2 ^ 61)%N ->
  (forall i, (i < length X)%nat -> 0 <= r i < 2 ^ Z.of_nat LOG)%Z ->
  ends (Sum_Send G hash g D mqClient (length X) LOG LOGV r X v) (Sum_Receive G hash g D mqServer (length X) LOG Y)
    ((N.of_nat (length (common N.eq_dec X Y)), sum_common X v Y mod 2 ^ Z.of_nat LOG)%Z, masked v r (2 ^ Z.of_nat LOG) (length X)) (N.of_nat (length (common N.eq_dec X Y))).
Proof.
  intros X Y bits r v LOG LOGV E C LY LV AD LL SZ RB.
  pose proof (sum_run X Y bits r v LOG LOGV (length X) E C LY (Nat.le_refl _) LV AD LL SZ RB) as R.
  rewrite firstn_all in R. replace (sum_common X v Y + zsum r (length X) - zsum r (length X))%Z with (sum_common X v Y) in R by lia. exact R.
Qed.
(** C103.  Send leaves the masked values in the caller's vector: a second run with the same vectors returns the sum with the
    masks of the first run added for every common item. *)
Theorem C103_second_run_refuted : forall X Y bits r r2 v LOG LOGV, ends (mqServer Y) (mqClient X) bits tt -> correct_bits X Y bits -> length Y = length X ->
  (length X <= length v)%nat -> (length X mod 128 = 0 /\ 0 < length X)%nat -> (LOG mod 8 = 0 /\ LOG < 64 /\ LOGV < 64)%nat -> (N.of_nat (length X) < 2 ^ 61)%N ->
  (forall i, (i < length X)%nat -> 0 <= r i < 2 ^ Z.of_nat LOG)%Z -> (forall i, (i < length X)%nat -> 0 <= r2 i < 2 ^ Z.of_nat LOG)%Z ->
  exists v1 v2,
    ends (Sum_Send G hash g D mqClient (length X) LOG LOGV r X v) (Sum_Receive G hash g D mqServer (length X) LOG Y)
      ((N.of_nat (length (common N.eq_dec X Y)), sum_common X v Y mod 2 ^ Z.of_nat LOG)%Z, v1) (N.of_nat (length (common N.eq_dec X Y))) /\
    ends (Sum_Send G hash g D mqClient (length X) LOG LOGV r2 X v1) (Sum_Receive G hash g D mqServer (length X) LOG Y)
      ((N.of_nat (length (common N.eq_dec X Y)), (sum_common X v Y + sum_common X (map r (seq 0 (length X))) Y) mod 2 ^ Z.of_nat LOG)%Z, v2)
      (N.of_nat (length (common N.eq_dec X Y))).
Proof.
  intros X Y bits r r2 v LOG LOGV E C LY LV AD LL SZ RB RB2. exists (masked v r (2 ^ Z.of_nat LOG) (length X)). eexists. split.
  - exact (C61_equal_sizes_partial X Y bits r v LOG LOGV E C LY LV AD LL SZ RB).
  - assert (LM : (length X <= length (masked v r (2 ^ Z.of_nat LOG) (length X)))%nat) by (unfold masked; rewrite app_length, map_length, seq_length; lia).
    pose proof (C61_equal_sizes_partial X Y bits r2 (masked v r (2 ^ Z.of_nat LOG) (length X)) LOG LOGV E C LY LM AD LL SZ RB2) as R.
    assert (HB : (0 < 2 ^ Z.of_nat LOG)%Z) by (apply Z.pow_pos_nonneg; lia).
    assert (EQ : (sum_common X (masked v r (2 ^ Z.of_nat LOG) (length X)) Y mod 2 ^ Z.of_nat LOG
                 = (sum_common X v Y + sum_common X (map r (seq 0 (length X))) Y) mod 2 ^ Z.of_nat LOG)%Z).
    { rewrite !sum_common_zsum by (rewrite ?map_length, ?seq_length; lia). rewrite zsum_add. apply zsum_cong; [exact HB|]. intros i Hi.
      unfold masked. rewrite app_nth1 by (rewrite map_length, seq_length; lia). rewrite !nth_map_seq by lia.
      destruct (in_dec N.eq_dec (nth i X 0%N) Y); [apply Z.mod_mod; lia|reflexivity]. }
    rewrite EQ in R. exact R.
Qed.
(** C61 is false when the sender has more items: the values of the items beyond the receiver's size are not added, and the
    masks of these items are subtracted all the same. *)
Theorem C61_more_sender_items_refuted : forall X Y bits r v LOG LOGV, ends (mqServer Y) (mqClient X) bits tt -> correct_bits X Y bits -> (length Y <= length X)%nat ->
  (length X <= length v)%nat -> (length X mod 128 = 0 /\ 0 < length X)%nat -> (LOG mod 8 = 0 /\ LOG < 64 /\ LOGV < 64)%nat -> (N.of_nat (length X) < 2 ^ 61)%N ->
  (forall i, (i < length X)%nat -> 0 <= r i < 2 ^ Z.of_nat LOG)%Z ->
  ends (Sum_Send G hash g D mqClient (length X) LOG LOGV r X v) (Sum_Receive G hash g D mqServer (length Y) LOG Y)
    ((N.of_nat (length (common N.eq_dec X Y)), (sum_common (firstn (length Y) X) v Y - zsum (fun i => r (length Y + i)%nat) (length X - length Y)) mod 2 ^ Z.of_nat LOG)%Z, masked v r (2 ^ Z.of_nat LOG) (length X))
    (N.of_nat (length (common N.eq_dec X Y))).
Proof.
  intros X Y bits r v LOG LOGV E C LY LV AD LL SZ RB.
  pose proof (sum_run X Y bits r v LOG LOGV (length Y) E C eq_refl LY LV AD LL SZ RB) as R.
  assert (S : forall k n, zsum r (n + k) = (zsum r n + zsum (fun i => r (n + i)%nat) k)%Z).
  { induction k as [|k IH]; intros n; [rewrite Nat.add_0_r; cbn [zsum]; lia|]. rewrite Nat.add_succ_r. cbn [zsum]. rewrite IH. lia. }
  assert (SX : zsum r (length X) = (zsum r (length Y) + zsum (fun i => r (length Y + i)%nat) (length X - length Y))%Z) by (rewrite <- S; f_equal; lia). rewrite SX in R.
  replace (sum_common (firstn (length Y) X) v Y + zsum r (length Y) - (zsum r (length Y) + zsum (fun i => r (length Y + i)%nat) (length X - length Y)))%Z
    with (sum_common (firstn (length Y) X) v Y - zsum (fun i => r (length Y + i)%nat) (length X - length Y))%Z in R by lia. exact R.
Qed.
(** C61 is false when the receiver has more items: it reads past the end of the results. *)
Theorem C61_more_receiver_items_refuted : forall X Y bits r v LOG LOGV, ends (mqServer Y) (mqClient X) bits tt -> correct_bits X Y bits -> (length X < length Y)%nat ->
  (length X <= length v)%nat -> (length X mod 128 = 0 /\ 0 < length X)%nat -> (LOG mod 8 = 0 /\ LOG < 64 /\ LOGV < 64)%nat -> (N.of_nat (length X) < 2 ^ 61)%N ->
  crashes (Sum_Send G hash g D mqClient (length X) LOG LOGV r X v) (Sum_Receive G hash g D mqServer (length Y) LOG Y).
Proof.
  intros X Y bits r v LOG LOGV E C LY LV [AD HP] [L8 [L64 LV64]] SZ.
  unfold Sum_Send, Sum_Receive. rewrite !Nat.eqb_refl, !two_to_some by assumption. cbn [local].
  assert (BV : bit_vector (length X) bits) by (apply (up_to_bits (fun _ => False)) with (Y := Y), correct_up_to, C).
  assert (LB : length bits = length X) by apply C.
  eapply crashes_bind; [apply ends_sym; exact E|]. cbv beta zeta. replace (has (length X) v) with true by (symmetry; apply Nat.leb_le; exact LV).
  set (m0 := map (fun i => ToByteVector (r i) (LOG / 8)) (seq 0 (length X))). set (v' := map _ _ ++ skipn (length X) v).
  set (m1 := map (fun i => ToByteVector (nth i v' 0%Z) (LOG / 8)) (seq 0 (length X))). rewrite LB.
  assert (LOG8 : (LOG / 8 <= 8)%nat) by (apply Nat.div_le_upper_bound; lia).
  eapply crashes_bind.
  - apply ot_bytes with (l := (LOG / 8)%nat); [exact AD|exact HP| | |exact BV|nia].
    + split; [unfold m0; rewrite map_length, seq_length; reflexivity|]. apply Forall_map, Forall_forall. intros i _. apply byte_length.
    + split; [unfold m1; rewrite map_length, seq_length; reflexivity|]. apply Forall_map, Forall_forall. intros i _. apply byte_length.
  - cbv beta. replace (has (length Y) (chosen bits m0 m1)) with false; [apply crashes_sym, crashes_now|].
    symmetry. apply Nat.leb_gt. rewrite (chosen_length _ _ _ _ (length X)); [exact LY|exact LB|unfold m0|unfold m1]; rewrite map_length, seq_length; reflexivity.
Qed.

(** ** C62 *)
Section PrivateID.
Variable Key : Type.
Variable oprf_Server1 oprf_Server2 : party G Key.
Variable oprf_Client1 oprf_Client2 : list N -> nat -> party G (list (list N)).
Variable oprf_Evaluate1 oprf_Evaluate2 : Key -> list N -> nat -> option (list (list N)).
Variable shuffle : list (list N) -> list (list N).
Hypothesis SH : forall l, Permutation (shuffle l) l.

Lemma xor_ids_map : forall (F1 F2 : N -> list N) l Z, (forall z, length (F1 z) = l /\ length (F2 z) = l) ->
  xor_ids (length Z) (map F1 Z) (map F2 Z) = Some (map (fun z => map2 N.lxor (F1 z) (F2 z)) Z).
Proof.
  intros F1 F2 l Z H. unfold xor_ids, has. rewrite !map_length, Nat.leb_refl. cbn [andb].
  assert (X : forall k n, (k + n <= length Z)%nat -> all_some (fun i => XORbytes (nth i (map F1 Z) []) (nth i (map F2 Z) [])) (seq k n) = Some (map (fun z => map2 N.lxor (F1 z) (F2 z)) (firstn n (skipn k Z)))).
  { intros k n. revert k. induction n as [|n IH]; intros k Hk; [reflexivity|]. cbn [seq all_some].
    rewrite (nth_indep _ [] (F1 0%N)), (nth_indep (map F2 Z) [] (F2 0%N)) by (rewrite map_length; lia). rewrite !map_nth.
    unfold XORbytes at 1, BlockModel.blocks_map2. rewrite (proj1 (H _)), (proj2 (H _)), Nat.leb_refl. rewrite IH by lia.
    rewrite (skipn_nth _ Z k 0%N) by lia. cbn [firstn map]. reflexivity. }
  rewrite (X 0%nat (length Z)) by lia. cbn [skipn]. rewrite firstn_all. reflexivity.
Qed.

(** C62.  If the two OPRF executions give each client the function its server evaluates (F1 under k1, F2 under k2, outputs of
    ITEM_LEN bytes), the indication bits are correct and no two different identifiers have the same 128-bit hash, then each
    party ends with the identifiers of its own items under one common function, and both with the same vector of
    exactly the identifiers of both parties. *)
Theorem C62_private_id : forall (F1 F2 : N -> list N) k1 k2 X Y l bits,
  let id z := map2 N.lxor (F1 z) (F2 z) in
  ends oprf_Server1 (oprf_Client1 Y (length Y)) k1 (map F1 Y) -> oprf_Evaluate1 k1 X (length X) = Some (map F1 X) ->
  ends oprf_Server2 (oprf_Client2 X (length X)) k2 (map F2 X) -> oprf_Evaluate2 k2 Y (length Y) = Some (map F2 Y) ->
  (forall z, length (F1 z) = l /\ length (F2 z) = l) ->
  ends (mqServer (map (StringToBlock hash) (map id Y))) (mqClient (map (StringToBlock hash) (map id X))) bits tt ->
  correct_bits (map (StringToBlock hash) (map id X)) (map (StringToBlock hash) (map id Y)) bits ->
  (forall x y, In x (map id X) -> In y (map id Y) -> StringToBlock hash x = StringToBlock hash y -> x = y) ->
  (0 < length X)%nat -> (N.of_nat (length X) < 2 ^ 62 /\ N.of_nat (length Y) < 2 ^ 62 /\ N.of_nat l * (N.of_nat (length X) + N.of_nat (length Y) + 127) < 2 ^ 64 /\ N.of_nat l < 2 ^ 64)%N ->
  exists U, ends (ID_Send G hash g D mqClient Key oprf_Server1 oprf_Client2 oprf_Evaluate1 (length X) X l)
                 (ID_Receive G hash g D mqServer Key oprf_Server2 oprf_Client1 oprf_Evaluate2 shuffle (length Y) Y l) (U, map id X) (U, map id Y) /\
  (forall u, In u U <-> (exists x, In x X /\ u = id x) \/ (exists y, In y Y /\ u = id y)) /\
  (NoDup (map id X) -> NoDup (map id Y) -> NoDup U).
Proof.
  intros F1 F2 k1 k2 X Y l bits id E1 V1 E2 V2 LF EM C INJ HP SZ.
  assert (LID : forall z, length (id z) = l) by (intros z; unfold id; rewrite map2_length; destruct (LF z); lia).
  set (U0 := map id Y ++ only (list_eq_dec N.eq_dec) (map id X) (map id Y)).
  exists (shuffle U0). split; [|split].
  - unfold ID_Send, ID_Receive. rewrite !Nat.eqb_refl. eapply ends_bind; [exact E1|]. cbv beta. rewrite V1. cbn [local].
    eapply ends_bind; [apply ends_sym; exact E2|]. cbv beta. rewrite V2. cbn [local].
    rewrite !(xor_ids_map F1 F2 l) by exact LF. cbn [local]. fold id.
    eapply ends_bind.
    + replace (length X) with (length (map id X)) by apply map_length. replace (length Y) with (length (map id Y)) by apply map_length.
      apply C60_psu_bytes with (bits := bits); [exact EM|exact C|exact INJ| | |].
      * apply Forall_map, Forall_forall. intros z _. apply LID.
      * rewrite map_length. exact HP.
      * rewrite map_length. nia.
    + cbv beta. fold U0. apply ends_sym. apply ab_bytesvec; [|apply ends_ret].
      assert (PU := SH U0).
      assert (LU : (length U0 <= length Y + length X)%nat).
      { unfold U0, only. rewrite app_length, map_length. match goal with |- context [filter ?f ?l] => pose proof (filter_length_le _ f l) as FL end. rewrite map_length in FL. lia. }
      assert (NU : (0 < length U0)%nat).
      { destruct X as [|x X0]; [cbn [length] in HP; lia|]. destruct (C60_sets _ (list_eq_dec N.eq_dec) (map id (x :: X0)) (map id Y) (id x)) as [_ [[_ I] _]].
        assert (J : In (id x) U0) by (apply I; left; left; reflexivity). destruct U0; [destruct J|cbn [length]; lia]. }
      cbn [fits]. split; [intros Q; apply Permutation_length in PU; rewrite Q in PU; cbn [length] in PU; lia|]. exists l. split.
      * apply (Permutation_Forall (Permutation_sym PU)). unfold U0. apply Forall_app. split; [apply Forall_map, Forall_forall; intros z _; apply LID|].
        apply Forall_forall. intros u I. unfold only in I. apply filter_In in I. destruct I as [I _]. apply in_map_iff in I. destruct I as [z [<- _]]. apply LID.
      * rewrite (Permutation_length PU). nia.
  - intros u. assert (Q : In u (shuffle U0) <-> In u U0) by (split; apply Permutation_in; [apply SH|apply Permutation_sym, SH]). rewrite Q.
    destruct (C60_sets _ (list_eq_dec N.eq_dec) (map id X) (map id Y) u) as [_ [I _]]. unfold U0. rewrite I, !in_map_iff.
    split; (intros [[z [A1 A2]]|[z [A1 A2]]]; [left|right]; exists z; auto).
  - intros NX NY. apply (Permutation_NoDup (Permutation_sym (SH U0))). apply (C60_sets _ (list_eq_dec N.eq_dec) (map id X) (map id Y) []); assumption.
Qed.
End PrivateID.
End Props.

(** ** end to end with the mqRPMT of the default build *)
Section EndToEnd.
Variable G : ECGroup.
Variable hash : list N -> list N.
Hypothesis hash_ok : forall s, length (hash s) = 32%nat /\ bytes_ok (hash s).
Variable g : pt G.
Variable D : Draws.
Hypothesis DOK : draws_ok D.
Variable C : X25519.
Variable FK : N -> list N -> N.
Variable big_salt : N -> N -> list N.
Variable raw_bits : N -> N -> N.
Variable order_of : list insert_step -> list insert_step.
Variable contain : BloomFilter -> nat -> list N -> bool.
Hypothesis ORD : any_order order_of.
Hypothesis SALT : salts_total big_salt.
Hypothesis ANS : any_answer FK contain.
Variables (e1 e2 ssp : N).
(** the tag of z is the tag of another item of Y, or a false positive of the Bloom filter *)
Definition mistaken (Y : list N) (z : N) : Prop :=
  (exists y, In y Y /\ y <> z /\ xtag C e1 e2 y = xtag C e1 e2 z) \/
  false_positive FK (bloom_new big_salt (N.of_nat (length Y)) ssp (raw_bits (N.of_nat (length Y)) ssp)) (map (xtag C e1 e2) Y) (xtag C e1 e2 z).
Let mqServer (n : nat) (Y : list N) := X_Server G big_salt contain C e1 (length Y) n Y.
Let mqClient (m : nat) (X : list N) := X_Client G FK big_salt raw_bits order_of C e2 m (length X) ssp X.

Lemma mq_up_to : forall X Y, (1 <= raw_bits (N.of_nat (length Y)) ssp <= 2 ^ 32 - 8)%N -> (N.of_nat (length Y) < 2 ^ 64)%N ->
  exists bits, ends (mqServer (length X) Y) (mqClient (length Y) X) bits tt /\ bits_up_to (mistaken Y) X Y bits.
Proof.
  intros X Y R M. destruct (C59_x25519_bloom G C FK big_salt raw_bits order_of contain ORD SALT ANS e1 e2 ssp X Y _ _ eq_refl eq_refl R M) as [bits [E [L B]]].
  exists bits. split; [exact E|]. split; [exact L|]. intros i Hi. destruct (B i Hi) as [B1 [B2 B3]]. split; [exact B1|]. split; [exact B2|]. exact B3.
Qed.
Theorem C60_psi_end_to_end : forall X Y, Forall (fun x => isblock x) X -> (length X mod 128 = 0)%nat ->
  (1 <= raw_bits (N.of_nat (length Y)) ssp <= 2 ^ 32 - 8)%N -> (N.of_nat (length Y) < 2 ^ 64)%N ->
  exists out, ends (PSI_Send G hash g D (mqClient (length Y)) (length X) X) (PSI_Receive G hash g D (mqServer (length X)) (length Y) Y) tt out /\
  forall z, (In z X -> In z Y -> In z out) /\ (In z out -> In z X /\ (In z Y \/ mistaken Y z)).
Proof.
  intros X Y B AD R M. destruct (mq_up_to X Y R M) as [bits [E U]]. exists (picked bits X). split; [|apply picked_up_to, U].
  apply psi_run; [exact hash_ok|exact DOK|exact E|apply U|exact B|exact AD].
Qed.
Theorem C60_psu_end_to_end : forall X Y, Forall (fun x => isblock x) X -> (length X mod 128 = 0)%nat ->
  (1 <= raw_bits (N.of_nat (length Y)) ssp <= 2 ^ 32 - 8)%N -> (N.of_nat (length Y) < 2 ^ 64)%N ->
  exists out, ends (PSU_Send G hash g D (mqClient (length Y)) (length X) X) (PSU_Receive G hash g D (mqServer (length X)) (length Y) Y) tt out /\
  forall z, (In z out -> In z X \/ In z Y) /\ (In z Y -> In z out) /\ (In z X -> In z out \/ mistaken Y z).
Proof.
  intros X Y B AD R M. destruct (mq_up_to X Y R M) as [bits [E U]]. exists (Y ++ picked (flip_bits bits) X). split.
  - apply psu_run; [exact hash_ok|exact DOK|exact E|apply U|exact B|exact AD].
  - intros z. destruct (flipped_up_to N (fun x => x) (mistaken Y) X Y bits ltac:(rewrite !map_id; exact U) z) as [A1 A2]. rewrite map_id in A1, A2. rewrite in_app_iff. split; [|split].
    + intros [I|I]; [right; exact I|left; apply A1, I].
    + intros I. left. exact I.
    + intros I. destruct (in_dec N.eq_dec z Y) as [J|J]; [left; left; exact J|]. destruct (A2 I J) as [K|K]; [left; right; exact K|right; exact K].
Qed.
(** the cardinality never is below the right one, and is above it only by mistaken items *)
Theorem C60_card_end_to_end : forall X Y, (N.of_nat (length X) < 2 ^ 64)%N ->
  (1 <= raw_bits (N.of_nat (length Y)) ssp <= 2 ^ 32 - 8)%N -> (N.of_nat (length Y) < 2 ^ 64)%N ->
  exists out, ends (Card_Send G (mqClient (length Y)) (length X) X) (Card_Receive G (mqServer (length X)) (length Y) Y) tt (N.of_nat (length out)) /\
  forall z, (In z X -> In z Y -> In z out) /\ (In z out -> In z X /\ (In z Y \/ mistaken Y z)).
Proof.
  intros X Y B R M. destruct (mq_up_to X Y R M) as [bits [E U]]. exists (picked bits X). split; [|apply picked_up_to, U].
  unfold Card_Send, Card_Receive. rewrite !Nat.eqb_refl. apply ends_sym. eapply ends_then_ret; [exact E|].
  rewrite (cardinality_sum bits (length X)); [|exact (up_to_bits _ _ _ _ U)|exact B]. rewrite (picked_length _ _ bits bits X) by apply U. reflexivity.
Qed.
End EndToEnd.

(** ** the hypotheses are satisfiable *)
(** an ideal mqRPMT: the client reveals its items *)
Definition ideal_client (X : list N) : party G4099 unit := Put (MBlocks G4099 X) (Ret tt).
Definition ideal_server (n : nat) (Y : list N) : party G4099 (list N) :=
  get_blocks n (fun X => Ret (map (fun x => if in_dec N.eq_dec x Y then 1%N else 0%N) X)).
Lemma ideal_ok : forall X Y, Forall (fun x => isblock x) X -> exists bits, ends (ideal_server (length X) Y) (ideal_client X) bits tt /\ correct_bits X Y bits.
Proof.
  intros X Y B. eexists. split; [apply ends_sym; unfold ideal_server, ideal_client; apply ab_blocks; [reflexivity|exact B|apply ends_ret]|].
  split; [apply map_length|]. intros i Hi. rewrite nth_map' with (d := 0%N) by exact Hi. destruct (in_dec N.eq_dec (nth i X 0%N) Y) as [I|I]; auto.
Qed.
Definition toy_draws : Draws := mkDraws 5 6 (fun i => Z.of_nat i) 7 (fun i => Z.of_nat i) [] [].
Definition toy_X : list N := map N.of_nat (seq 0 128).
Definition toy_Y : list N := [5; 300; 7]%N.
Lemma toy_X_blocks : Forall (fun x => isblock x) toy_X.
Proof. apply Forall_map, Forall_forall. intros i H. apply in_seq in H. apply N.lt_trans with 128%N; [lia|reflexivity]. Qed.
Lemma toy_draws_ok : draws_ok toy_draws.
Proof. split; [reflexivity|]. split; [reflexivity|]. split; constructor. Qed.
Example C60_psi_run : ends (PSI_Send G4099 toy_hash (pgen G4099) toy_draws ideal_client 128 toy_X)
  (PSI_Receive G4099 toy_hash (pgen G4099) toy_draws (ideal_server 128) 3 toy_Y) tt [5; 7]%N.
Proof.
  destruct (ideal_ok toy_X toy_Y toy_X_blocks) as [bits [E C]].
  exact (C60_psi G4099 toy_hash toy_hash_ok (pgen G4099) toy_draws toy_draws_ok (ideal_server 128) ideal_client toy_X toy_Y bits E C toy_X_blocks eq_refl).
Qed.
Example C61_run : exists v', ends (Sum_Send G4099 toy_hash (pgen G4099) toy_draws ideal_client 128 32 8 (fun i => 1000 + Z.of_nat i)%Z toy_X (map Z.of_nat (seq 10 128)))
  (Sum_Receive G4099 toy_hash (pgen G4099) toy_draws (ideal_server 128) 128 32 (toy_Y ++ repeat 300%N 125)) ((2%N, 32%Z), v') 2%N.
Proof.
  destruct (ideal_ok toy_X (toy_Y ++ repeat 300%N 125) toy_X_blocks) as [bits [E C]].
  eexists. apply (C61_equal_sizes_partial G4099 toy_hash toy_hash_ok (pgen G4099) toy_draws toy_draws_ok (ideal_server 128) ideal_client toy_X (toy_Y ++ repeat 300%N 125) bits
    (fun i => 1000 + Z.of_nat i)%Z (map Z.of_nat (seq 10 128)) 32 8 E C eq_refl).
  - rewrite map_length, seq_length. unfold toy_X. rewrite map_length, seq_length. lia.
  - split; [reflexivity|]. unfold toy_X. rewrite map_length, seq_length. lia.
  - split; [reflexivity|]. lia.
  - reflexivity.
  - intros i Hi. unfold toy_X in Hi. rewrite map_length, seq_length in Hi. change (2 ^ Z.of_nat 32)%Z with 4294967296%Z. lia.
Qed.
(** the same sets and values: the first run returns 32 and the second 2044 *)
Example C103_run : exists v1 v2,
  ends (Sum_Send G4099 toy_hash (pgen G4099) toy_draws ideal_client 128 32 8 (fun i => 1000 + Z.of_nat i)%Z toy_X (map Z.of_nat (seq 10 128)))
    (Sum_Receive G4099 toy_hash (pgen G4099) toy_draws (ideal_server 128) 128 32 (toy_Y ++ repeat 300%N 125)) ((2%N, 32%Z), v1) 2%N /\
  ends (Sum_Send G4099 toy_hash (pgen G4099) toy_draws ideal_client 128 32 8 (fun i => 5 + Z.of_nat i)%Z toy_X v1)
    (Sum_Receive G4099 toy_hash (pgen G4099) toy_draws (ideal_server 128) 128 32 (toy_Y ++ repeat 300%N 125)) ((2%N, 2044%Z), v2) 2%N.
Proof.
  destruct (ideal_ok toy_X (toy_Y ++ repeat 300%N 125) toy_X_blocks) as [bits [E C]].
  apply (C103_second_run_refuted G4099 toy_hash toy_hash_ok (pgen G4099) toy_draws toy_draws_ok (ideal_server 128) ideal_client toy_X (toy_Y ++ repeat 300%N 125) bits
    (fun i => 1000 + Z.of_nat i)%Z (fun i => 5 + Z.of_nat i)%Z (map Z.of_nat (seq 10 128)) 32 8 E C eq_refl).
  - rewrite map_length, seq_length. unfold toy_X. rewrite map_length, seq_length. lia.
  - split; [reflexivity|]. unfold toy_X. rewrite map_length, seq_length. lia.
  - split; [reflexivity|]. lia.
  - reflexivity.
  - intros i Hi. unfold toy_X in Hi. rewrite map_length, seq_length in Hi. change (2 ^ Z.of_nat 32)%Z with 4294967296%Z. lia.
  - intros i Hi. unfold toy_X in Hi. rewrite map_length, seq_length in Hi. change (2 ^ Z.of_nat 32)%Z with 4294967296%Z. lia.
Qed.
(** an ideal OPRF with one key: the client reveals its items and gets back a 16-byte function of each *)
Definition toy_F (x : N) : list N := le_bytes 16 (x * 77 + 13)%N.
Definition oprf_server (n : nat) : party G4099 unit := get_blocks n (fun X => Put (MBytesVec G4099 (map toy_F X)) (Ret tt)).
Definition oprf_client (X : list N) (n : nat) : party G4099 (list (list N)) := Put (MBlocks G4099 X) (get_bytesvec (fun v => Ret v)).
Example C62_oprf_hypotheses : ends (oprf_server 3) (oprf_client toy_Y 3) tt (map toy_F toy_Y) /\ (forall z, length (toy_F z) = 16%nat).
Proof.
  split; [|intros z; apply le_bytes_length]. apply ends_sym. unfold oprf_server, oprf_client. apply ab_blocks; [reflexivity|repeat constructor|].
  apply ends_sym. apply ab_bytesvec; [|apply ends_ret]. cbn [fits]. split; [discriminate|]. exists 16%nat. split; [repeat constructor|]. repeat split.
Qed.
Print Assumptions C60_psi.
Print Assumptions C60_psi_card.
Print Assumptions C60_psu.
Print Assumptions C60_psu_bytes.
Print Assumptions C60_sets.
Print Assumptions C60_small_sets_refuted.
Print Assumptions C60_psi_end_to_end.
Print Assumptions C60_psu_end_to_end.
Print Assumptions C60_card_end_to_end.
Print Assumptions C61_equal_sizes_partial.
Print Assumptions C61_more_sender_items_refuted.
Print Assumptions C61_more_receiver_items_refuted.
Print Assumptions C103_second_run_refuted.
Print Assumptions C62_private_id.

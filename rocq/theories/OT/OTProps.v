(** Properties C53 - C55: oblivious transfer. *)
From Coq Require Import NArith ZArith List Bool Arith Lia.
From Coq Require Import ZifyBool ZifyNat ZifyN.
From Verif.Base Require Import Words ListX Mem.
From Verif.Utility Require Import SerialModel SerialProofs.
From Verif.Crypto Require Import BigIntModel BlockModel BlockProofs AESModel AESProofs AESKeyProofs AESProps PRGModel PRGProofs.
From Verif.Group Require Import ECModel ECProofs ZqGroup.
From Verif.Net Require Import ChannelModel ChannelSpec PartyModel PartyProofs.
From Verif.OT Require Import OTModel OTSpec OTProofs OTRun.
Import ListNotations.

Section Props.
Variable G : ECGroup.
Variable hash : list N -> list N.
Hypothesis hash_ok : forall s, length (hash s) = 32%nat /\ bytes_ok (hash s).

(** ** C53 *)
(** For every group, every generator, all random exponents, every length, all messages and
    bits: the receiver ends with the chosen messages. *)
Theorem C53_naor_pinkas : forall g d r sk m0 m1 bits LEN, blocks LEN m0 -> blocks LEN m1 -> bit_vector LEN bits ->
  ends (NP_Send G hash g d r m0 m1 LEN) (NP_Receive G hash g sk bits LEN) tt (chosen bits m0 m1).
Proof. intros. apply np_correct; assumption. Qed.
(** A selection byte that is neither 0 nor 1 gives neither message but m1 under the two
    different pads. *)
Theorem C53_other_byte : forall g d r sk m0 m1 bits LEN i v, blocks LEN m0 -> blocks LEN m1 -> length bits = LEN ->
  ends (NP_Send G hash g d r m0 m1 LEN) (NP_Receive G hash g sk bits LEN) tt v -> (i < LEN)%nat -> (1 < nth i bits 0)%N ->
  nth i v 0%N = N.lxor (nth i m1 0%N) (N.lxor (ECPointToBlock G hash (pmul G g ((d - sk i) * r i))) (ECPointToBlock G hash (pmul G g (sk i * r i)))).
Proof.
  intros g d r sk m0 m1 bits LEN i v B0 B1 LB E Hi Hb.
  destruct (ends_unique G _ _ _ _ _ _ _ _ E (np_general G hash hash_ok g d r sk m0 m1 bits LEN B0 B1 LB)) as [_ ->].
  rewrite nth_map_seq by exact Hi. cbv zeta.
  destruct (N.eqb_spec (nth i bits 0%N) 0); [lia|]. destruct (N.eqb_spec (nth i bits 0%N) 1); [lia|].
  assert (X : psub G (pmul G g (d * r i)) (pmul G g (sk i * r i)) = pmul G g ((d - sk i) * r i)).
  { unfold psub. generalize (r i) (sk i). clear. intros. logs G. gring. }
  rewrite X. rewrite (N.lxor_comm _ (nth i m1 0%N)), N.lxor_assoc. reflexivity.
Qed.

(** ** C54 *)
Section Ext.
Variables (g : pt G) (COL ROW : nat) (eS eR : N) (sk : nat -> Z) (d : Z) (r : nat -> Z) (stS stR : list N) (bits : list N).
(** the lengths the parameter check admits, a non-empty base OT, any randomness and any
    contents of the staging buffers *)
Hypothesis AD : (ROW mod 128 = 0 /\ COL mod 128 = 0 /\ 0 < COL)%nat.
Hypothesis BS : (eS < 2 ^ 128)%N.
Hypothesis BR : (eR < 2 ^ 128)%N.
Hypothesis FS : Forall is_byte stS.
Hypothesis FR : Forall is_byte stR.

Lemma AD' : admitted ROW COL = true.
Proof. unfold admitted. destruct AD as [H1 [H2 _]]. rewrite H1, H2. reflexivity. Qed.
Let isend := IKNP_RandomSend G hash g COL eS sk stS ROW.
Let irecv := fun b => IKNP_RandomReceive G hash g COL eR d r stR b ROW.
Let asend := ALSZ_RandomSend G hash g COL eS sk stS ROW.
Let arecv := fun b => ALSZ_RandomReceive G hash g COL eR d r stR b ROW.

Theorem C54_iknp_random : length bits = ROW -> exists K0 K1, blocks ROW K0 /\ blocks ROW K1 /\
  ends isend (irecv bits) (K0, K1) (chosen bits K0 K1).
Proof. intros LB. apply iknp_random; auto using AD'; apply AD. Qed.
Theorem C54_iknp_standard : forall m0 m1, blocks ROW m0 -> blocks ROW m1 -> length bits = ROW ->
  ends (OTE_Send G isend COL m0 m1 ROW) (OTE_Receive G irecv COL bits ROW) tt (chosen bits m0 m1).
Proof. intros m0 m1 B0 B1 LB. apply standard_ends; auto using AD'. apply C54_iknp_random, LB. Qed.
Theorem C54_iknp_onesided : forall m, blocks ROW m -> length bits = ROW ->
  ends (OTE_OnesidedSend G isend COL m ROW) (OTE_OnesidedReceive G irecv COL bits ROW) tt (picked bits m).
Proof. intros m B LB. apply onesided_ends; auto using AD'. apply C54_iknp_random, LB. Qed.

(** ** C55 *)
Theorem C55_alsz_random : length bits = ROW -> exists K0 K1, blocks ROW K0 /\ blocks ROW K1 /\
  ends asend (arecv bits) (K0, K1) (chosen bits K0 K1).
Proof. intros LB. apply alsz_random; auto using AD'; apply AD. Qed.
Theorem C55_alsz_standard : forall m0 m1, blocks ROW m0 -> blocks ROW m1 -> length bits = ROW ->
  ends (OTE_Send G asend COL m0 m1 ROW) (OTE_Receive G arecv COL bits ROW) tt (chosen bits m0 m1).
Proof. intros m0 m1 B0 B1 LB. apply standard_ends; auto using AD'. apply C55_alsz_random, LB. Qed.
Theorem C55_alsz_onesided : forall m, blocks ROW m -> length bits = ROW ->
  ends (OTE_OnesidedSend G asend COL m ROW) (OTE_OnesidedReceive G arecv COL bits ROW) tt (picked bits m).
Proof. intros m B LB. apply onesided_ends; auto using AD'. apply C55_alsz_random, LB. Qed.
(** byte strings: the lengths of the two vectors' items may differ *)
Theorem C55_alsz_bytes : forall m0 m1 l0 l1, (0 < ROW)%nat -> byte_items ROW l0 m0 -> byte_items ROW l1 m1 -> bit_vector ROW bits ->
  (N.of_nat ROW < 2 ^ 64 /\ N.of_nat l0 < 2 ^ 64 /\ N.of_nat l0 * N.of_nat ROW < 2 ^ 64 /\ N.of_nat l1 < 2 ^ 64 /\ N.of_nat l1 * N.of_nat ROW < 2 ^ 64)%N ->
  ends (OTE_SendByteVector G asend m0 m1 ROW) (OTE_ReceiveByteVector G arecv bits ROW) tt (chosen bits m0 m1).
Proof. intros m0 m1 l0 l1 HP I0 I1 BB [S0 [S1 S2]]. apply bytes_ends with (hash := hash) (l0 := l0) (l1 := l1); auto; [apply C55_alsz_random|]; apply BB. Qed.
Theorem C55_alsz_bytes_onesided : forall m l, (0 < ROW)%nat -> byte_items ROW l m -> length bits = ROW ->
  (N.of_nat ROW < 2 ^ 64 /\ N.of_nat l < 2 ^ 64 /\ N.of_nat l * N.of_nat ROW < 2 ^ 64)%N ->
  ends (OTE_OnesidedSendByteVector G asend m ROW) (OTE_OnesidedReceiveByteVector G arecv bits ROW) tt (picked bits m).
Proof. intros m l HP I0 LB [S0 S1]. apply bytes_onesided_ends with (hash := hash) (l := l); auto. apply C55_alsz_random, LB. Qed.
End Ext.

(** What is false: the parameter check admits a base length of 0, and then hashing the
    empty row is undefined: the sender does not survive. *)
Theorem C54_empty_base_refuted : forall g eS eR sk d r stS stR bits ROW, (0 < ROW)%nat -> (ROW mod 128 = 0)%nat -> length bits = ROW ->
  admitted ROW 0 = true /\ forall a b, ~ ends (IKNP_RandomSend G hash g 0 eS sk stS ROW) (IKNP_RandomReceive G hash g 0 eR d r stR bits ROW) a b.
Proof.
  intros g eS eR sk d r stS stR bits ROW HP HM LB. assert (AD : admitted ROW 0 = true) by (unfold admitted; rewrite HM; reflexivity).
  split; [exact AD|]. intros a b. apply crashes_not_ends. unfold IKNP_RandomSend, IKNP_RandomReceive. rewrite AD, has_true by exact LB. cbn [andb].
  assert (B0 : bit_vector 0 []) by (split; constructor). assert (M0 : blocks 0 []) by (split; constructor).
  assert (E : GenRandomBits (SetSeed eS None 0) 0 = ([], snd (GenRandomBits (SetSeed eS None 0) 0))) by reflexivity.
  assert (EM : GenRandomBitMatrix (SetSeed eR None 0) ROW 0 = Some (GenRandomBlocks (SetSeed eR None 0) 0)).
  { unfold GenRandomBitMatrix. rewrite HM. cbn [Nat.eqb]. rewrite Nat.mul_0_r. reflexivity. }
  rewrite EM. cbn [local].
  replace (fst (GenRandomBits (SetSeed eS None 0) 0)) with (@nil N) by reflexivity.
  apply crashes_bind with (a := []) (b := tt).
  - apply ends_sym. exact (np_correct G hash hash_ok g d r sk [] [] [] 0 M0 M0 B0).
  - cbn [combine IKNP_columns IKNP_send_columns pbind].
    assert (T0 : forall st, transpose st [] 0 ROW = Some [] \/ transpose st [] 0 ROW = None).
    { intros st. unfold transpose. destruct (BitMatrixTranspose _ _ _ _ _); [left|right]; reflexivity. }
    destruct (T0 stS) as [-> | ->]; cbn [local]; [|apply crashes_now].
    replace (keys0 [] 0 ROW) with (@None (list N)); [cbn [local]; apply crashes_now|].
    unfold keys0. destruct ROW as [|n]; [lia|]. reflexivity.
Qed.
(** The byte-vector functions with an extension length of 0, which the check admits too:
    SendBytesVector of an empty vector. *)
Theorem C55_empty_bytes_refuted : forall g COL eS eR sk d r stS stR, (COL mod 128 = 0 /\ 0 < COL)%nat -> (eS < 2 ^ 128)%N -> (eR < 2 ^ 128)%N ->
  Forall is_byte stS -> Forall is_byte stR -> admitted 0 COL = true /\ forall a b,
  ~ ends (OTE_SendByteVector G (ALSZ_RandomSend G hash g COL eS sk stS 0) [] [] 0)
         (OTE_ReceiveByteVector G (fun b => ALSZ_RandomReceive G hash g COL eR d r stR b 0) [] 0) a b.
Proof.
  intros g COL eS eR sk d r stS stR [HC HP] BS BR FS FR. split; [unfold admitted; rewrite HC; reflexivity|]. intros a b. apply crashes_not_ends.
  destruct (C55_alsz_random g COL 0 eS eR sk d r stS stR [] ltac:(auto) BS BR FS FR eq_refl) as [K0 [K1 [_ [_ E]]]].
  eapply crashes_bind; [exact E|]. cbn. apply crashes_now.
Qed.
(** Only the value 1 selects the second ciphertext of the byte-vector receiver, while every
    non-zero value selects the second key: for such a value the result is the first message
    under the two different keys. *)
Theorem C55_other_byte_refuted : forall g COL eS eR sk d r stS stR bits ROW m0 m1 l, (ROW mod 128 = 0 /\ COL mod 128 = 0 /\ 0 < COL)%nat ->
  (eS < 2 ^ 128)%N -> (eR < 2 ^ 128)%N -> Forall is_byte stS -> Forall is_byte stR -> length bits = ROW -> (0 < ROW)%nat ->
  byte_items ROW l m0 -> byte_items ROW l m1 -> (N.of_nat ROW < 2 ^ 64 /\ N.of_nat l < 2 ^ 64 /\ N.of_nat l * N.of_nat ROW < 2 ^ 64)%N ->
  exists K0 K1 v,
  ends (ALSZ_RandomSend G hash g COL eS sk stS ROW) (ALSZ_RandomReceive G hash g COL eR d r stR bits ROW) (K0, K1) (chosen bits K0 K1) /\
  ends (OTE_SendByteVector G (ALSZ_RandomSend G hash g COL eS sk stS ROW) m0 m1 ROW)
       (OTE_ReceiveByteVector G (fun b => ALSZ_RandomReceive G hash g COL eR d r stR b ROW) bits ROW) tt v /\
  forall i, (i < ROW)%nat -> (1 < nth i bits 0)%N ->
    exists c, OTP_Enc (nth i K0 0%N) (nth i m0 []) = Some c /\ OTP_Dec (nth i K1 0%N) c = Some (nth i v []).
Proof.
  intros g COL eS eR sk d r stS stR bits ROW m0 m1 l AD BS BR FS FR LB HP I0 I1 [S0 [S1 S2]].
  destruct (C55_alsz_random g COL ROW eS eR sk d r stS stR bits AD BS BR FS FR LB) as [K0 [K1 [BK0 [BK1 E]]]].
  destruct (otp_all ROW K0 m0 l I0) as [C0 [L0 [E0 H0]]]. destruct (otp_all ROW K1 m1 l I1) as [C1 [L1 [E1 H1]]].
  set (K := chosen bits K0 K1) in *.
  destruct (all_some_ex _ _ (fun i => if (i <? length (if (nth i bits 0 =? 1)%N then C1 else C0))%nat
       then OTP_Dec (nth i K 0%N) (nth i (if (nth i bits 0 =? 1)%N then C1 else C0) []) else None)
     (fun i v => OTP_Dec (nth i K 0%N) (nth i (if (nth i bits 0 =? 1)%N then C1 else C0) []) = Some v) (seq 0 ROW)) as [v [EV FV]].
  { intros i Hi. apply in_seq in Hi. destruct (Nat.ltb_spec i (length (if (nth i bits 0 =? 1)%N then C1 else C0))); [|destruct (nth i bits 0 =? 1)%N; lia].
    destruct (C15_otp_round_trip (nth i K 0%N) (nth i (if (nth i bits 0 =? 1)%N then C1 else C0) [])) as [c [X1 _]].
    exists c. assert (Y : forall k p, OTP_Dec k p = OTP_Enc k p) by reflexivity. rewrite Y. auto. }
  exists K0, K1, v. split; [exact E|]. split.
  - unfold OTE_SendByteVector, OTE_ReceiveByteVector. eapply ends_bind; [exact E|].
    rewrite !has_true by (apply I0 || apply I1). cbn [andb]. rewrite E0. cbn [local]. rewrite E1. cbn [local].
    assert (X : forall (A : Type) (a b : A), (match C0, C1 with | _ :: _, _ :: _ => a | _, _ => b end) = a).
    { intros A a b. destruct C0; [cbn in L0; lia|]. destruct C1; [cbn in L1; lia|]. reflexivity. }
    rewrite X. apply ab_bytesvec; [apply (items_fit G ROW C0 l L0 HP); [auto|intros i Hi; apply H0, Hi]|].
    apply ab_bytesvec; [apply (items_fit G ROW C1 l L1 HP); [auto|intros i Hi; apply H1, Hi]|].
    fold K. rewrite EV. cbn [local]. apply ends_ret.
  - intros i Hi Hb. destruct (Forall2_seq_nth _ _ _ _ [] FV) as [LV HV]. specialize (HV i Hi).
    destruct (N.eqb_spec (nth i bits 0%N) 1); [lia|]. exists (nth i C0 []). split.
    + assert (X : forall n (f : nat -> option (list N)) C, all_some f (seq 0 n) = Some C -> (i < n)%nat -> f i = Some (nth i C [])).
      { clear. intros n f C Y. assert (Z : Forall2 (fun j c => f j = Some c) (seq 0 n) C).
        { revert C Y. generalize (seq 0 n). intros L. induction L as [|a L IH]; intros C Y; cbn [all_some] in Y.
          - assert (C = []) by congruence. subst C. constructor.
          - destruct (f a) eqn:EA; [|discriminate]. destruct (all_some f L) eqn:EL; [|discriminate].
            assert (C = l :: l0) by congruence. subst C. constructor; [exact EA|apply IH; reflexivity]. }
        intros Hi. destruct (Forall2_seq_nth _ _ _ _ [] Z) as [_ W]. exact (W i Hi). }
      exact (X _ _ _ E0 Hi).
    + replace (nth i K1 0%N) with (nth i K 0%N); [exact HV|]. unfold K.
      rewrite chosen_nth by (rewrite LB; try apply BK0; try apply BK1; exact Hi).
      destruct (N.eqb_spec (nth i bits 0%N) 0); [lia|reflexivity].
Qed.
End Props.
Print Assumptions C53_naor_pinkas.
Print Assumptions C53_other_byte.
Print Assumptions C54_iknp_random.
Print Assumptions C54_iknp_standard.
Print Assumptions C54_iknp_onesided.
Print Assumptions C54_empty_base_refuted.
Print Assumptions C55_alsz_random.
Print Assumptions C55_alsz_standard.
Print Assumptions C55_alsz_onesided.
Print Assumptions C55_alsz_bytes.
Print Assumptions C55_alsz_bytes_onesided.
Print Assumptions C55_empty_bytes_refuted.
Print Assumptions C55_other_byte_refuted.

(** ** the hypotheses are met *)
(** a stand-in for the hash function: 32 bytes that depend on the input *)
Definition toy_hash (s : list N) : list N := le_bytes 32 (fold_left (fun a b => (a * 257 + b) mod 2 ^ 256)%N s 7%N).
Lemma toy_hash_ok : forall s, length (toy_hash s) = 32%nat /\ bytes_ok (toy_hash s).
Proof. intros s. unfold toy_hash. split; [apply le_bytes_length|apply le_bytes_ok]. Qed.
(** three transfers, with different messages and bits *)
Example np_three : ends (NP_Send G101 toy_hash (p101 1) 5 (fun i => 3 + Z.of_nat i)%Z [10; 20; 30]%N [11; 21; 31]%N 3)
                        (NP_Receive G101 toy_hash (p101 1) (fun i => 7 * Z.of_nat i)%Z [0; 1; 1]%N 3) tt [10; 21; 31]%N.
Proof.
  apply (C53_naor_pinkas G101 toy_hash toy_hash_ok).
  - split; [reflexivity|]. repeat (constructor; [reflexivity|]). constructor.
  - split; [reflexivity|]. repeat (constructor; [reflexivity|]). constructor.
  - split; [reflexivity|]. constructor; [left; reflexivity|]. constructor; [right; reflexivity|]. constructor; [right; reflexivity|]. constructor.
Qed.
(** 128 transfers with alternating bits *)
Example ote_hypotheses : exists bits m0 m1 b0 b1, (128 mod 128 = 0 /\ 256 mod 128 = 0 /\ 0 < 256)%nat /\
  bit_vector 128 bits /\ blocks 128 m0 /\ blocks 128 m1 /\ byte_items 128 5 b0 /\ byte_items 128 20 b1 /\
  nth 3 (chosen bits m0 m1) 0%N = 1003%N /\ nth 4 (chosen bits m0 m1) 0%N = 4%N /\ length (picked bits b0) = 64%nat.
Proof.
  exists (map (fun i => N.of_nat i mod 2)%N (seq 0 128)), (map N.of_nat (seq 0 128)), (map (fun i => 1000 + N.of_nat i)%N (seq 0 128)),
         (repeat (repeat 9%N 5) 128), (repeat (repeat 9%N 20) 128).
  split; [split; [|split]; vm_compute; reflexivity || (apply Nat.ltb_lt; reflexivity)|].
  split; [split; [reflexivity|]; apply Forall_map, Forall_forall; intros i _; assert (X := N.mod_upper_bound (N.of_nat i) 2 ltac:(lia)); lia|].
  split; [split; [reflexivity|]; apply Forall_map, Forall_forall; intros i Hi; apply in_seq in Hi; assert (N.of_nat i < 128)%N by lia; clear Hi; apply N.lt_trans with 128%N; [assumption|reflexivity]|].
  split; [split; [reflexivity|]; apply Forall_map, Forall_forall; intros i Hi; apply in_seq in Hi; assert (1000 + N.of_nat i < 1128)%N by lia; clear Hi; apply N.lt_trans with 1128%N; [assumption|reflexivity]|].
  split; [split; [reflexivity|]; apply Forall_forall; intros x Hx; apply repeat_spec in Hx; subst x; reflexivity|].
  split; [split; [reflexivity|]; apply Forall_forall; intros x Hx; apply repeat_spec in Hx; subst x; reflexivity|].
  split; [|split]; vm_compute; reflexivity.
Qed.

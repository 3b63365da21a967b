(** The protocols run to the end and give the chosen messages. *)
From Coq Require Import NArith ZArith List Bool Arith Lia.
From Coq Require Import ZifyBool ZifyNat ZifyN.
From Verif.Base Require Import Words ListX Mem.
From Verif.Utility Require Import SerialModel SerialProofs.
From Verif.Crypto Require Import BigIntModel BlockModel BlockProofs AESModel AESProofs AESKeyProofs AESProps PRGModel PRGProofs.
From Verif.Group Require Import ECModel ECProofs.
From Verif.Net Require Import ChannelModel ChannelSpec PartyModel PartyProofs.
From Verif.OT Require Import OTModel OTSpec OTProofs.
Import ListNotations.

(** one-time pad encryption of a vector of items *)
Lemma otp_all : forall ROW K (m : list (list N)) LEN, byte_items ROW LEN m -> exists C, length C = ROW /\
  all_some (fun i => OTP_Enc (nth i K 0%N) (nth i m [])) (seq 0 ROW) = Some C /\
  forall i, (i < ROW)%nat -> length (nth i C []) = LEN /\ OTP_Dec (nth i K 0%N) (nth i C []) = Some (nth i m []).
Proof.
  intros ROW K m LEN [L F].
  destruct (all_some_ex _ _ (fun i => OTP_Enc (nth i K 0%N) (nth i m [])) (fun i c => length c = length (nth i m []) /\ OTP_Dec (nth i K 0%N) c = Some (nth i m [])) (seq 0 ROW)) as [C [E FC]].
  { intros i _. destruct (C15_otp_round_trip (nth i K 0%N) (nth i m [])) as [c [E1 [E2 [E3 _]]]]. exists c. auto. }
  destruct (Forall2_seq_nth _ _ _ _ [] FC) as [LC HC]. exists C. split; [exact LC|]. split; [exact E|].
  intros i Hi. destruct (HC i Hi) as [H1 H2]. split; [|exact H2]. rewrite H1. rewrite Forall_forall in F. apply F, nth_In. lia.
Qed.
Lemma items_fit : forall (G : ECGroup) ROW (C : list (list N)) LEN, length C = ROW -> (0 < ROW)%nat -> (N.of_nat ROW < 2 ^ 64 /\ N.of_nat LEN < 2 ^ 64 /\ N.of_nat LEN * N.of_nat ROW < 2 ^ 64)%N ->
  (forall i, (i < ROW)%nat -> length (nth i C []) = LEN) -> fits G (MBytesVec G C) (TBytesVec G).
Proof.
  intros G ROW C LEN L HP B H. cbn [fits]. split; [destruct C; [cbn in L; lia|discriminate]|]. exists LEN. split.
  - apply Forall_nth. intros i d Hi. rewrite (nth_indep _ d [] Hi). apply H. lia.
  - rewrite L. exact B.
Qed.

Section Run.
Variable G : ECGroup.
Variable hash : list N -> list N.
Hypothesis hash_ok : forall s, length (hash s) = 32%nat /\ bytes_ok (hash s).
Local Notation Blk := (Forall (fun x => (x < 2 ^ 128)%N)).

Lemma point_hash_lt : forall P, (ECPointToBlock G hash P < 2 ^ 128)%N.
Proof.
  intros P. unfold ECPointToBlock, StringToBlock. destruct (hash_ok (ToByteString G P)) as [L B].
  assert (B1 := Forall_firstn _ _ 16 _ B). assert (X := le_val_lt _ B1). rewrite firstn_length, L in X. exact X.
Qed.
Lemma map_seq_blk : forall n (f : nat -> N), (forall i, (i < n)%nat -> (f i < 2 ^ 128)%N) -> Blk (map f (seq 0 n)).
Proof. intros n f H. apply Forall_map, Forall_forall. intros i Hi. apply in_seq in Hi. apply H. lia. Qed.
Lemma nth_map_seq : forall A n (f : nat -> A) i d, (i < n)%nat -> nth i (map f (seq 0 n)) d = f i.
Proof. intros A n f i d H. rewrite nth_map' with (d := 0%nat) by (rewrite seq_length; exact H). rewrite seq_nth by exact H. reflexivity. Qed.
Lemma has_true : forall A n (v : list A), length v = n -> has n v = true.
Proof. intros A n v L. unfold has. apply Nat.leb_le. lia. Qed.
Lemma bit01 : forall n bits i, bit_vector n bits -> nth i bits 0%N = 0%N \/ nth i bits 0%N = 1%N.
Proof.
  intros n bits i [L F]. destruct (Nat.lt_ge_cases i (length bits)); [|rewrite nth_overflow by lia; auto].
  rewrite Forall_forall in F. apply F, nth_In. assumption.
Qed.

(** ** Naor-Pinkas; what it gives for arbitrary selection bytes *)
Lemma lxor_cancel : forall a b, N.lxor (N.lxor a b) a = b.
Proof. intros a b. rewrite N.lxor_comm, <- N.lxor_assoc, N.lxor_nilpotent. apply N.lxor_0_l. Qed.
Lemma np_general : forall g d r sk m0 m1 bits LEN, blocks LEN m0 -> blocks LEN m1 -> length bits = LEN ->
  ends (NP_Send G hash g d r m0 m1 LEN) (NP_Receive G hash g sk bits LEN) tt
   (map (fun i => let A := pmul G g (sk i * r i) in let B := psub G (pmul G g (d * r i)) A in
      if (nth i bits 0 =? 0)%N then nth i m0 0%N
      else if (nth i bits 0 =? 1)%N then nth i m1 0%N
      else N.lxor (N.lxor (ECPointToBlock G hash B) (nth i m1 0%N)) (ECPointToBlock G hash A)) (seq 0 LEN)).
Proof.
  intros g d r sk m0 m1 bits LEN [L0 F0] [L1 F1] LB. unfold NP_Send, NP_Receive.
  apply ab_points; [reflexivity|]. apply ab_points; [rewrite map_length, seq_length; reflexivity|].
  rewrite !has_true by assumption. cbn [andb].
  flip. apply ab_points; [rewrite map_length, seq_length; reflexivity|]. flip. cbn [nth].
  apply ab_blocks; [rewrite map_length, seq_length; reflexivity| |].
  { apply map_seq_blk. intros i Hi. apply (lxor_lt 128); [apply point_hash_lt|]. apply nth_blk, F0. }
  apply ab_blocks; [rewrite map_length, seq_length; reflexivity| |].
  { apply map_seq_blk. intros i Hi. apply (lxor_lt 128); [apply point_hash_lt|]. apply nth_blk, F1. }
  match goal with |- ends _ _ _ (map ?f _) => assert (E : forall v w, v = w -> @ends G unit (list N) (Ret tt) (Ret v) tt w) by (intros v w ->; apply ends_ret) end.
  apply E. apply map_ext_in. intros i Hi. apply in_seq in Hi. rewrite !nth_map_seq by lia.
  assert (Q1 : pmul G (pmul G g (r i)) (sk i) = pmul G g (sk i * r i)) by (clear; revert g; generalize (r i), (sk i); intros; logs G; gring).
  assert (Q2 : pmul G (pmul G g d) (r i) = pmul G g (d * r i)) by (clear; revert g; generalize (r i); intros; logs G; gring).
  assert (Q3 : pmul G (pmul G g (sk i)) (r i) = pmul G g (sk i * r i)) by (clear; revert g; generalize (r i), (sk i); intros; logs G; gring).
  assert (Q4 : psub G (pmul G g (d * r i)) (pmul G (psub G (pmul G g d) (pmul G g (sk i))) (r i)) = pmul G g (sk i * r i)).
  { clear. revert g. generalize (r i), (sk i). intros. unfold psub. logs G. gring. }
  cbv zeta. rewrite Q1, Q2. destruct (N.eqb_spec (nth i bits 0%N) 0) as [Z|Z].
  - rewrite Z. cbn [N.eqb]. rewrite Q3. apply lxor_cancel.
  - destruct (N.eqb_spec (nth i bits 0%N) 1) as [Z1|Z1].
    + rewrite Q4. apply lxor_cancel.
    + rewrite Q3. reflexivity.
Qed.
Lemma np_correct : forall g d r sk m0 m1 bits LEN, blocks LEN m0 -> blocks LEN m1 -> bit_vector LEN bits ->
  ends (NP_Send G hash g d r m0 m1 LEN) (NP_Receive G hash g sk bits LEN) tt (chosen bits m0 m1).
Proof.
  intros g d r sk m0 m1 bits LEN B0 B1 BB. assert (X := np_general g d r sk m0 m1 bits LEN B0 B1 (proj1 BB)).
  rewrite (map_seq_chosen _ bits m0 m1 0%N) in X; [exact X|apply BB|apply B0|apply B1|].
  intros i Hi. cbv zeta. destruct (bit01 _ _ i BB) as [->| ->]; reflexivity.
Qed.

(** ** IKNP columns *)
Lemma xor_some : forall a b n, length a = n -> length b = n -> XOR a b = Some (map2 N.lxor a b).
Proof. intros a b n L1 L2. unfold XOR, blocks_map2. rewrite L1, L2, Nat.leb_refl. reflexivity. Qed.
Lemma map2_xor_cancel_r : forall a b, length a = length b -> map2 N.lxor (map2 N.lxor a b) b = a.
Proof.
  induction a as [|x a IH]; intros b L; destruct b as [|y b]; cbn [length map2] in *; try lia; [reflexivity|].
  rewrite IH by lia. f_equal. rewrite N.lxor_assoc, N.lxor_nilpotent. apply N.lxor_0_r.
Qed.
Lemma columns_end : forall ROW rblock, length rblock = (ROW / 128)%nat -> Blk rblock ->
  forall bits k0 k1 T n, bit_vector n bits -> blocks n k0 -> blocks n k1 -> length T = (n * (ROW / 128))%nat -> Blk T ->
  ends (IKNP_columns G ROW (combine bits (chosen bits k0 k1))) (IKNP_send_columns G ROW rblock T (combine k0 k1)) (shared bits rblock T (ROW / 128)) tt.
Proof.
  intros ROW rblock LR FR. induction bits as [|b bits IH]; intros k0 k1 T n [LB FB] [L0 F0] [L1 F1] LT FT; cbn [length] in LB; subst n.
  - destruct k0; cbn [length] in L0; [|lia]. cbn [combine IKNP_columns IKNP_send_columns shared]. apply ends_ret.
  - destruct k0 as [|x k0]; cbn [length] in L0; [lia|]. destruct k1 as [|y k1]; cbn [length] in L1; [lia|].
    cbn [chosen combine IKNP_columns IKNP_send_columns shared].
    set (m := (ROW / 128)%nat) in *.
    assert (LF : length (firstn m T) = m) by (rewrite firstn_length; lia).
    assert (Hx := Forall_inv F0). assert (Hy := Forall_inv F1).
    rewrite (xor_some (firstn m T) rblock m LF LR). cbn [local].
    rewrite (xor_some (firstn m T) (pad x m) m LF (pad_length _ _)). cbn [local].
    assert (LM : length (map2 N.lxor (firstn m T) rblock) = m) by (rewrite map2_length; lia).
    rewrite (xor_some _ (pad y m) m LM (pad_length _ _)). cbn [local].
    assert (FF : Blk (firstn m T)) by (apply Forall_firstn, FT).
    flip. apply ab_blocks; [rewrite map2_length, LF, pad_length; lia|apply map2_xor_blk; [exact FF|apply pad_blk, Hx]|].
    apply ab_blocks; [rewrite map2_length, LM, pad_length; lia|apply map2_xor_blk; [apply map2_xor_blk; assumption|apply pad_blk, Hy]|].
    flip.
    assert (E : XOR (if (b =? 0)%N then map2 N.lxor (firstn m T) (pad x m) else map2 N.lxor (map2 N.lxor (firstn m T) rblock) (pad y m)) (pad (if (b =? 0)%N then x else y) m)
      = Some (if (b =? 0)%N then firstn m T else map2 N.lxor (firstn m T) rblock)).
    { destruct (b =? 0)%N.
      - rewrite (xor_some _ _ m) by (rewrite ?map2_length, ?LF, ?pad_length; lia). rewrite map2_xor_cancel_r by (rewrite pad_length; exact LF). reflexivity.
      - rewrite (xor_some _ _ m) by (rewrite ?map2_length, ?LF, ?pad_length; lia). rewrite map2_xor_cancel_r by (rewrite pad_length; exact LM). reflexivity. }
    rewrite E. cbn [local]. eapply ends_then_ret; [|reflexivity].
    apply (IH k0 k1 (skipn m T) (length bits)); [split; [reflexivity|exact (Forall_inv_tail FB)]|split; [lia|exact (Forall_inv_tail F0)]|split; [lia|exact (Forall_inv_tail F1)]|rewrite skipn_length; lia|apply Forall_skipn, FT].
Qed.

(** the transposed matrix does not depend on the staging buffer *)
Lemma transpose_same : forall stR stS T COL ROW TT TT2, Forall is_byte stR -> Forall is_byte stS -> (ROW mod 128 = 0)%nat -> (COL mod 128 = 0)%nat -> (0 < COL)%nat ->
  length T = (COL * (ROW / 128))%nat -> Blk T -> transpose stR T COL ROW = Some TT -> transpose stS T COL ROW = Some TT2 -> TT = TT2.
Proof.
  intros stR stS T COL ROW TT TT2 FR FS HR HC HP LT' FT ET ET2.
  destruct (transpose_blocks stR T COL ROW FR HR HC HP LT' FT) as [A [EA [LA [FA VA]]]]. destruct (transpose_blocks stS T COL ROW FS HR HC HP LT' FT) as [B [EB [LBB [FBB VBB]]]].
  assert (A = TT) by congruence. assert (B = TT2) by congruence. subst A B. apply vbit_ext; [congruence|assumption|assumption|].
  intros p Hp. assert (X := Nat.div_mod p COL ltac:(lia)). assert (M := Nat.mod_upper_bound p COL ltac:(lia)).
  assert (EC : COL = (128 * (COL / 128))%nat) by (assert (Y := Nat.div_mod COL 128 ltac:(lia)); lia).
  assert (ER : ROW = (128 * (ROW / 128))%nat) by (assert (Y := Nat.div_mod ROW 128 ltac:(lia)); lia).
  assert (D : (p / COL < ROW)%nat) by (apply Nat.div_lt_upper_bound; [lia|]; nia).
  replace p with (p / COL * COL + p mod COL)%nat by lia. rewrite VA, VBB by assumption. reflexivity.
Qed.

(** what the random OTs guarantee *)
Definition random_ot (rs : party G (list N * list N)) (rr : list N -> party G (list N)) (bits : list N) (ROW : nat) : Prop :=
  exists K0 K1, blocks ROW K0 /\ blocks ROW K1 /\ ends rs (rr bits) (K0, K1) (chosen bits K0 K1).

Lemma mod_ok : forall ROW COL, admitted ROW COL = true -> (ROW mod 128 = 0 /\ COL mod 128 = 0)%nat.
Proof. intros ROW COL H. unfold admitted in H. lia. Qed.

Theorem iknp_random : forall g COL eS eR sk d r stS stR bits ROW,
  admitted ROW COL = true -> (0 < COL)%nat -> (eS < 2 ^ 128)%N -> (eR < 2 ^ 128)%N -> Forall is_byte stS -> Forall is_byte stR -> length bits = ROW ->
  random_ot (IKNP_RandomSend G hash g COL eS sk stS ROW) (fun b => IKNP_RandomReceive G hash g COL eR d r stR b ROW) bits ROW.
Proof.
  intros g COL eS eR sk d r stS stR bits ROW AD HP BS BR FS FR LB. destruct (mod_ok _ _ AD) as [HR HC].
  unfold random_ot, IKNP_RandomSend, IKNP_RandomReceive. rewrite AD, (has_true _ _ _ LB). cbn [andb].
  set (sbits := fst (GenRandomBits (SetSeed eS None 0) COL)).
  assert (SB : bit_vector COL sbits) by (apply random_bits; reflexivity).
  assert (EM : GenRandomBitMatrix (SetSeed eR None 0) ROW COL = Some (GenRandomBlocks (SetSeed eR None 0) (ROW / 128 * COL)%nat)).
  { unfold GenRandomBitMatrix. rewrite HR. cbn [Nat.eqb andb].
    assert (X := Nat.div_mod COL 128 ltac:(lia)). replace COL with (COL / 128 * 16 * 8)%nat at 1 by lia. rewrite Nat.mod_mul by lia. reflexivity. }
  rewrite EM. cbn [local].
  destruct (draw_spec (SetSeed eR None 0) (ROW / 128 * COL) eq_refl (reseed_key eR 0 BR eq_refl)) as [T [s1 [E1 [[LT FT] [C1 O1]]]]]. rewrite E1.
  destruct (draw_spec s1 COL C1 O1) as [K0 [s2 [E2 [B0 [C2 O2]]]]]. rewrite E2.
  destruct (draw_spec s2 COL C2 O2) as [K1 [s3 [E3 [B1 _]]]]. rewrite E3.
  set (rb := FromSparseBytes (ROW / 128) (firstn ROW bits)).
  assert (FB : firstn ROW bits = bits) by (rewrite <- LB; apply firstn_all).
  assert (LT' : length T = (COL * (ROW / 128))%nat) by lia.
  assert (LRB : length rb = (ROW / 128)%nat) by apply FromSparseBytes_length. assert (FRB : Blk rb) by apply sparse_blk.
  set (Q := shared sbits rb T (ROW / 128)).
  assert (LQ : length Q = (COL * (ROW / 128))%nat) by (unfold Q; rewrite shared_length; [rewrite (proj1 SB); reflexivity|exact LRB|rewrite (proj1 SB); exact LT']).
  assert (FQ : Blk Q) by (apply shared_blk; assumption).
  assert (VB : forall i j, (i < ROW)%nat -> (j < COL)%nat -> vbit Q (j * ROW + i) = xorb (vbit T (j * ROW + i)) (negb (nth j sbits 0 =? 0)%N && negb (nth i bits 0 =? 0)%N)).
  { unfold Q, rb. rewrite FB. apply shared_bits; [exact (proj1 SB)|exact HR|exact LT'|exact LB]. }
  destruct (random_keys stR T Q sbits bits COL ROW FR HR HC HP LT' FT LQ FQ (proj1 SB) VB) as [TT [QT0 [K [K0' [K1' [ET [_ [EK _]]]]]]]].
  destruct (random_keys stS T Q sbits bits COL ROW FS HR HC HP LT' FT LQ FQ (proj1 SB) VB) as [TT2 [QT [Ka [KK0 [KK1 [ET2 [EQ [EKa [EK0 [EK1 [BKa [BK0 [BK1 HK]]]]]]]]]]]]].
  assert (TTE : TT = TT2) by exact (transpose_same stR stS T COL ROW TT TT2 FR FS HR HC HP LT' FT ET ET2).
  assert (KE : K = Ka) by (subst TT2; congruence).
  exists KK0, KK1. split; [exact BK0|]. split; [exact BK1|].
  eapply ends_bind; [apply ends_sym, np_correct; [exact B0|exact B1|exact SB]|].
  eapply ends_bind; [apply (columns_end ROW rb LRB FRB sbits K0 K1 T COL SB B0 B1 LT' FT)|].
  fold Q. rewrite EQ. cbn [local]. rewrite EK0. cbn [local]. rewrite EK1. cbn [local]. rewrite ET. cbn [local]. rewrite EK. cbn [local].
  assert (KC : K = chosen bits KK0 KK1).
  { rewrite KE. apply list_eq_nth with (d := 0%N); [rewrite (chosen_length _ _ _ _ ROW LB (proj1 BK0) (proj1 BK1)); apply BKa|].
    intros i Hi. rewrite (proj1 BKa) in Hi. rewrite chosen_nth by (rewrite LB; try apply BK0; try apply BK1; exact Hi). apply HK, Hi. }
  rewrite KC. apply ends_ret.
Qed.

(** ** ALSZ *)
Lemma matrix_length : forall seeds ROW, length (ALSZ_matrix seeds ROW) = (length seeds * (ROW / 128))%nat.
Proof. intros seeds ROW. unfold ALSZ_matrix. induction seeds as [|k seeds IH]; [reflexivity|]. cbn [flat_map length]. rewrite app_length, pad_length, IH. lia. Qed.
Lemma matrix_blk : forall seeds ROW, Blk seeds -> Blk (ALSZ_matrix seeds ROW).
Proof. intros seeds ROW F. unfold ALSZ_matrix. induction F as [|k seeds H F IH]; [constructor|]. cbn [flat_map]. apply Forall_app. split; [apply pad_blk, H|exact IH]. Qed.
Lemma matrix_nth : forall seeds ROW j i, (j < length seeds)%nat -> (i < ROW / 128)%nat ->
  nth (j * (ROW / 128) + i) (ALSZ_matrix seeds ROW) 0%N = nth i (pad (nth j seeds 0%N) (ROW / 128)) 0%N.
Proof.
  intros seeds ROW. unfold ALSZ_matrix. induction seeds as [|k seeds IH]; intros j i Hj Hi; cbn [length] in Hj; [lia|].
  cbn [flat_map]. destruct j as [|j]; cbn [nth].
  - rewrite app_nth1 by (rewrite pad_length; lia). reflexivity.
  - rewrite app_nth2 by (rewrite pad_length; lia). rewrite pad_length. replace (S j * (ROW / 128) + i - ROW / 128)%nat with (j * (ROW / 128) + i)%nat by lia. apply IH; lia.
Qed.
Lemma adjust_some : forall TS US rblock ROW, length TS = length US -> length rblock = (ROW / 128)%nat ->
  ALSZ_adjust (combine TS US) rblock ROW =
  Some (map (fun '(t, u) => map2 N.lxor (map2 N.lxor (pad t (ROW / 128)) (pad u (ROW / 128))) rblock) (combine TS US)).
Proof.
  intros TS US rblock ROW L LR. unfold ALSZ_adjust. apply all_some_nth. intros [t u] _.
  rewrite (xor_some _ _ (ROW / 128)) by apply pad_length. apply (xor_some _ _ (ROW / 128)); [rewrite map2_length, !pad_length; lia|exact LR].
Qed.
Lemma adjust_nth : forall TS US rblock ROW j i, length TS = length US -> length rblock = (ROW / 128)%nat -> (j < length TS)%nat -> (i < ROW / 128)%nat ->
  nth (j * (ROW / 128) + i) (concat (map (fun '(t, u) => map2 N.lxor (map2 N.lxor (pad t (ROW / 128)) (pad u (ROW / 128))) rblock) (combine TS US))) 0%N =
  N.lxor (N.lxor (nth i (pad (nth j TS 0%N) (ROW / 128)) 0%N) (nth i (pad (nth j US 0%N) (ROW / 128)) 0%N)) (nth i rblock 0%N).
Proof.
  intros TS US rblock ROW j i L LR. set (n := (ROW / 128)%nat) in *. revert US j L. induction TS as [|t TS IH]; intros US j L Hj Hi; cbn [length] in *; [lia|].
  destruct US as [|u US]; cbn [length] in L; [lia|]. cbn [combine map concat].
  assert (LX : length (map2 N.lxor (map2 N.lxor (pad t n) (pad u n)) rblock) = n) by (rewrite !map2_length, !pad_length; lia).
  destruct j as [|j]; cbn [nth].
  - rewrite app_nth1 by (rewrite LX; lia). cbn [Nat.mul Nat.add].
    rewrite map2_nth with (a := 0%N) (b := 0%N) by (rewrite ?map2_length, ?pad_length; lia).
    rewrite map2_nth with (a := 0%N) (b := 0%N) by (rewrite ?pad_length; lia). reflexivity.
  - rewrite app_nth2 by (rewrite LX; lia). rewrite LX. replace (S j * n + i - n)%nat with (j * n + i)%nat by lia. apply IH; lia.
Qed.
Lemma adjust_length : forall TS US rblock ROW, length TS = length US -> length rblock = (ROW / 128)%nat ->
  length (concat (map (fun '(t, u) => map2 N.lxor (map2 N.lxor (pad t (ROW / 128)) (pad u (ROW / 128))) rblock) (combine TS US))) = (length TS * (ROW / 128))%nat.
Proof.
  intros TS US rblock ROW L LR. revert US L. induction TS as [|t TS IH]; intros US L; destruct US as [|u US]; cbn [length] in L; try lia; [reflexivity|].
  cbn [combine map concat length]. rewrite app_length, IH by lia. rewrite !map2_length, !pad_length. lia.
Qed.
Lemma adjust_blk : forall TS US rblock ROW, Blk TS -> Blk US -> Blk rblock ->
  Blk (concat (map (fun '(t, u) => map2 N.lxor (map2 N.lxor (pad t (ROW / 128)) (pad u (ROW / 128))) rblock) (combine TS US))).
Proof.
  intros TS US rblock ROW FT. revert US. induction FT as [|t TS Ht FT IH]; intros US FU FR; [constructor|]. destruct FU as [|u US Hu FU]; [constructor|].
  cbn [combine map concat]. apply Forall_app. split; [|apply IH; assumption]. apply map2_xor_blk; [|exact FR]. apply map2_xor_blk; apply pad_blk; assumption.
Qed.
Lemma correct_shared : forall bits TS US rblock ROW n, bit_vector n bits -> length TS = n -> length US = n -> length rblock = (ROW / 128)%nat ->
  ALSZ_correct bits (ALSZ_matrix (chosen bits TS US) ROW)
    (concat (map (fun '(t, u) => map2 N.lxor (map2 N.lxor (pad t (ROW / 128)) (pad u (ROW / 128))) rblock) (combine TS US))) ROW
  = shared bits rblock (ALSZ_matrix TS ROW) (ROW / 128).
Proof.
  intros bits TS US rblock ROW n BB LT LU LR. assert (LB := proj1 BB). assert (LC := chosen_length _ bits TS US n LB LT LU). unfold ALSZ_correct.
  assert (LS : length (shared bits rblock (ALSZ_matrix TS ROW) (ROW / 128)) = (length bits * (ROW / 128))%nat).
  { apply shared_length; [exact LR|rewrite matrix_length; congruence]. }
  apply list_eq_nth with (d := 0%N); [rewrite map_length, seq_length, LS, matrix_length; congruence|].
  intros p Hp. rewrite map_length, seq_length in Hp. rewrite nth_map_seq by exact Hp. rewrite matrix_length, LC in Hp.
  set (m := (ROW / 128)%nat) in *. assert (Hm : (0 < m)%nat) by nia.
  assert (X := Nat.div_mod p m ltac:(lia)). assert (M := Nat.mod_upper_bound p m ltac:(lia)).
  assert (D : (p / m < n)%nat) by (apply Nat.div_lt_upper_bound; [lia|]; nia).
  set (j := (p / m)%nat) in *. set (i := (p mod m)%nat) in *. replace p with (j * m + i)%nat by lia.
  rewrite shared_nth; [|exact LR|rewrite matrix_length; fold m; congruence|lia|exact M].
  rewrite !(matrix_nth _ ROW) by (fold m; lia). rewrite (adjust_nth TS US rblock ROW) by (fold m; lia). fold m.
  rewrite (chosen_nth _ bits TS US) by lia.
  destruct (bit01 _ _ j BB) as [->| ->]; cbn [N.eqb]; [reflexivity|].
  rewrite (N.lxor_comm (nth i (pad (nth j TS 0%N) m) 0%N)). rewrite <- !N.lxor_assoc, N.lxor_nilpotent, N.lxor_0_l. reflexivity.
Qed.
Theorem alsz_random : forall g COL eS eR sk d r stS stR bits ROW,
  admitted ROW COL = true -> (0 < COL)%nat -> (eS < 2 ^ 128)%N -> (eR < 2 ^ 128)%N -> Forall is_byte stS -> Forall is_byte stR -> length bits = ROW ->
  random_ot (ALSZ_RandomSend G hash g COL eS sk stS ROW) (fun b => ALSZ_RandomReceive G hash g COL eR d r stR b ROW) bits ROW.
Proof.
  intros g COL eS eR sk d r stS stR bits ROW AD HP BS BR FS FR LB. destruct (mod_ok _ _ AD) as [HR HC].
  unfold random_ot, ALSZ_RandomSend, ALSZ_RandomReceive. rewrite AD, (has_true _ _ _ LB). cbn [andb].
  set (sbits := fst (GenRandomBits (SetSeed eS None 0) COL)).
  assert (SB : bit_vector COL sbits) by (apply random_bits; reflexivity).
  destruct (draw_spec (SetSeed eR None 0) COL eq_refl (reseed_key eR 0 BR eq_refl)) as [TS [s1 [E1 [BT [C1 O1]]]]]. rewrite E1.
  destruct (draw_spec s1 COL C1 O1) as [US [s2 [E2 [BU [C2 O2]]]]]. rewrite E2.
  set (rb := FromSparseBytes (ROW / 128) (firstn ROW bits)).
  assert (FB : firstn ROW bits = bits) by (rewrite <- LB; apply firstn_all).
  assert (LRB : length rb = (ROW / 128)%nat) by apply FromSparseBytes_length. assert (FRB : Blk rb) by apply sparse_blk.
  set (T := ALSZ_matrix TS ROW). assert (LT' : length T = (COL * (ROW / 128))%nat) by (unfold T; rewrite matrix_length, (proj1 BT); reflexivity).
  assert (FT : Blk T) by (apply matrix_blk, BT).
  rewrite (adjust_some TS US rb ROW) by (rewrite ?(proj1 BT), ?(proj1 BU); auto).
  set (P := map (fun '(t, u) => map2 N.lxor (map2 N.lxor (pad t (ROW / 128)) (pad u (ROW / 128))) rb) (combine TS US)).
  assert (LTU : length TS = length US) by (rewrite (proj1 BT), (proj1 BU); reflexivity).
  assert (LP : length (concat P) = (ROW / 128 * COL)%nat) by (unfold P; rewrite (adjust_length TS US rb ROW LTU LRB), (proj1 BT); lia).
  assert (FP : Blk (concat P)) by (apply adjust_blk; [apply BT|apply BU|exact FRB]).
  assert (EC := correct_shared sbits TS US rb ROW COL SB (proj1 BT) (proj1 BU) LRB). fold P T in EC.
  set (Q := shared sbits rb T (ROW / 128)) in *.
  assert (LQ : length Q = (COL * (ROW / 128))%nat) by (unfold Q; rewrite shared_length; [rewrite (proj1 SB); reflexivity|exact LRB|rewrite (proj1 SB); exact LT']).
  assert (FQ : Blk Q) by (apply shared_blk; assumption).
  assert (VB : forall i j, (i < ROW)%nat -> (j < COL)%nat -> vbit Q (j * ROW + i) = xorb (vbit T (j * ROW + i)) (negb (nth j sbits 0 =? 0)%N && negb (nth i bits 0 =? 0)%N)).
  { unfold Q, rb. rewrite FB. apply shared_bits; [exact (proj1 SB)|exact HR|exact LT'|exact LB]. }
  destruct (random_keys stR T Q sbits bits COL ROW FR HR HC HP LT' FT LQ FQ (proj1 SB) VB) as [TT [QT0 [K [K0' [K1' [ET [_ [EK _]]]]]]]].
  destruct (random_keys stS T Q sbits bits COL ROW FS HR HC HP LT' FT LQ FQ (proj1 SB) VB) as [TT2 [QT [Ka [KK0 [KK1 [ET2 [EQ [EKa [EK0 [EK1 [BKa [BK0 [BK1 HK]]]]]]]]]]]]].
  assert (KE : K = Ka).
  { assert (TTE : TT = TT2) by exact (transpose_same stR stS T COL ROW TT TT2 FR FS HR HC HP LT' FT ET ET2). subst TT2. congruence. }
  exists KK0, KK1. split; [exact BK0|]. split; [exact BK1|].
  eapply ends_bind; [apply ends_sym, np_correct; [exact BT|exact BU|exact SB]|].
  cbn [local]. flip. apply ab_blocks; [exact LP|exact FP|]. flip. rewrite EC.
  rewrite EQ. cbn [local]. rewrite EK0. cbn [local]. rewrite EK1. cbn [local]. fold T. rewrite ET. cbn [local]. rewrite EK. cbn [local].
  assert (KC : K = chosen bits KK0 KK1).
  { rewrite KE. apply list_eq_nth with (d := 0%N); [rewrite (chosen_length _ _ _ _ ROW LB (proj1 BK0) (proj1 BK1)); apply BKa|].
    intros i Hi. rewrite (proj1 BKa) in Hi. rewrite chosen_nth by (rewrite LB; try apply BK0; try apply BK1; exact Hi). apply HK, Hi. }
  rewrite KC. apply ends_ret.
Qed.

(** ** the outer layers, from any random OT *)
Section Layers.
Variables (rs : party G (list N * list N)) (rr : list N -> party G (list N)) (BASE_LEN ROW : nat) (bits : list N).
Hypothesis RO : random_ot rs rr bits ROW.
Hypothesis LB : length bits = ROW.

Lemma standard_ends : forall m0 m1, admitted ROW BASE_LEN = true -> blocks ROW m0 -> blocks ROW m1 ->
  ends (OTE_Send G rs BASE_LEN m0 m1 ROW) (OTE_Receive G rr BASE_LEN bits ROW) tt (chosen bits m0 m1).
Proof.
  intros m0 m1 AD [L0 F0] [L1 F1]. destruct RO as [K0 [K1 [BK0 [BK1 E]]]]. unfold OTE_Send, OTE_Receive. rewrite AD.
  eapply ends_bind; [exact E|]. rewrite !has_true by assumption. cbn [andb].
  apply ab_blocks; [rewrite map_length, seq_length; reflexivity|apply map_seq_blk; intros; apply (lxor_lt 128); apply nth_blk; [exact F0|apply BK0]|].
  apply ab_blocks; [rewrite map_length, seq_length; reflexivity|apply map_seq_blk; intros; apply (lxor_lt 128); apply nth_blk; [exact F1|apply BK1]|].
  assert (X : map (fun i => if (nth i bits 0 =? 0)%N
      then N.lxor (nth i (map (fun i0 => N.lxor (nth i0 m0 0%N) (nth i0 K0 0%N)) (seq 0 ROW)) 0%N) (nth i (chosen bits K0 K1) 0%N)
      else N.lxor (nth i (map (fun i0 => N.lxor (nth i0 m1 0%N) (nth i0 K1 0%N)) (seq 0 ROW)) 0%N) (nth i (chosen bits K0 K1) 0%N)) (seq 0 ROW) = chosen bits m0 m1).
  { apply map_seq_chosen with (d := 0%N); [exact LB|exact L0|exact L1|]. intros i Hi. rewrite !nth_map_seq by exact Hi.
    rewrite chosen_nth by (rewrite LB; try apply BK0; try apply BK1; exact Hi).
    destruct (nth i bits 0 =? 0)%N; rewrite N.lxor_assoc, N.lxor_nilpotent; apply N.lxor_0_r. }
  rewrite X. apply ends_ret.
Qed.
Lemma onesided_ends : forall m, admitted ROW BASE_LEN = true -> blocks ROW m ->
  ends (OTE_OnesidedSend G rs BASE_LEN m ROW) (OTE_OnesidedReceive G rr BASE_LEN bits ROW) tt (picked bits m).
Proof.
  intros m AD [L0 F0]. destruct RO as [K0 [K1 [BK0 [BK1 E]]]]. unfold OTE_OnesidedSend, OTE_OnesidedReceive. rewrite AD.
  eapply ends_bind; [exact E|]. rewrite has_true by assumption.
  apply ab_blocks; [rewrite map_length, seq_length; reflexivity|apply map_seq_blk; intros; apply (lxor_lt 128); apply nth_blk; [exact F0|apply BK1]|].
  match goal with |- ends _ (Ret ?v) _ _ => assert (X : v = picked bits m) end.
  { apply picked_map with (d := 0%N); [exact LB|exact L0|]. intros i Hi Z. rewrite nth_map_seq by exact Hi.
    rewrite chosen_nth by (rewrite LB; try apply BK0; try apply BK1; exact Hi). rewrite Z. cbn [N.eqb].
    rewrite N.lxor_assoc, N.lxor_nilpotent. apply N.lxor_0_r. }
  rewrite X. apply ends_ret.
Qed.

Lemma bytes_ends : forall m0 m1 l0 l1, (0 < ROW)%nat -> (N.of_nat ROW < 2 ^ 64)%N -> byte_items ROW l0 m0 -> byte_items ROW l1 m1 ->
  (N.of_nat l0 < 2 ^ 64 /\ N.of_nat l0 * N.of_nat ROW < 2 ^ 64 /\ N.of_nat l1 < 2 ^ 64 /\ N.of_nat l1 * N.of_nat ROW < 2 ^ 64)%N ->
  bit_vector ROW bits ->
  ends (OTE_SendByteVector G rs m0 m1 ROW) (OTE_ReceiveByteVector G rr bits ROW) tt (chosen bits m0 m1).
Proof.
  intros m0 m1 l0 l1 HP BR I0 I1 [S1 [S2 [S3 S4]]] BB. destruct RO as [K0 [K1 [BK0 [BK1 E]]]]. unfold OTE_SendByteVector, OTE_ReceiveByteVector.
  eapply ends_bind; [exact E|]. rewrite !has_true by (apply I0 || apply I1). cbn [andb].
  destruct (otp_all ROW K0 m0 l0 I0) as [C0 [L0 [E0 H0]]]. destruct (otp_all ROW K1 m1 l1 I1) as [C1 [L1 [E1 H1]]]. rewrite E0. cbn [local]. rewrite E1. cbn [local].
  assert (F0 : fits G (MBytesVec G C0) (TBytesVec G)) by (apply (items_fit G ROW C0 l0 L0 HP); [auto|intros i Hi; apply H0, Hi]).
  assert (F1 : fits G (MBytesVec G C1) (TBytesVec G)) by (apply (items_fit G ROW C1 l1 L1 HP); [auto|intros i Hi; apply H1, Hi]).
  assert (X : forall (A : Type) (a b : A), (match C0, C1 with | _ :: _, _ :: _ => a | _, _ => b end) = a).
  { intros A a b. destruct C0; [cbn in L0; lia|]. destruct C1; [cbn in L1; lia|]. reflexivity. }
  rewrite X. apply ab_bytesvec; [exact F0|]. apply ab_bytesvec; [exact F1|].
  assert (Y : all_some (fun i => if (i <? length (if (nth i bits 0 =? 1)%N then C1 else C0))%nat
       then OTP_Dec (nth i (chosen bits K0 K1) 0%N) (nth i (if (nth i bits 0 =? 1)%N then C1 else C0) []) else None) (seq 0 ROW) = Some (chosen bits m0 m1)).
  { rewrite (all_some_nth _ _ _ (fun i => if (nth i bits 0 =? 0)%N then nth i m0 [] else nth i m1 [])).
    - f_equal. apply map_seq_chosen with (d := []); [exact LB|apply I0|apply I1|reflexivity].
    - intros i Hi. apply in_seq in Hi. rewrite chosen_nth by (rewrite LB; try apply BK0; try apply BK1; lia).
      destruct (bit01 _ _ i BB) as [->| ->]; cbn [N.eqb Pos.eqb].
      + destruct (Nat.ltb_spec i (length C0)); [|lia]. apply H0. lia.
      + destruct (Nat.ltb_spec i (length C1)); [|lia]. apply H1. lia. }
  rewrite Y. cbn [local]. apply ends_ret.
Qed.
Lemma bytes_onesided_ends : forall m l, (0 < ROW)%nat -> (N.of_nat ROW < 2 ^ 64)%N -> byte_items ROW l m ->
  (N.of_nat l < 2 ^ 64 /\ N.of_nat l * N.of_nat ROW < 2 ^ 64)%N ->
  ends (OTE_OnesidedSendByteVector G rs m ROW) (OTE_OnesidedReceiveByteVector G rr bits ROW) tt (picked bits m).
Proof.
  intros m l HP BR I0 [S1 S2]. destruct RO as [K0 [K1 [BK0 [BK1 E]]]]. unfold OTE_OnesidedSendByteVector, OTE_OnesidedReceiveByteVector.
  eapply ends_bind; [exact E|]. rewrite has_true by apply I0.
  destruct (otp_all ROW K1 m l I0) as [C [LC [EC HC]]]. rewrite EC. cbn [local].
  assert (F0 : fits G (MBytesVec G C) (TBytesVec G)) by (apply (items_fit G ROW C l LC HP); [auto|intros i Hi; apply HC, Hi]).
  assert (X : forall (A : Type) (a b : A), (match C with | [] => b | _ :: _ => a end) = a) by (intros A a b; destruct C; [cbn in LC; lia|reflexivity]).
  rewrite X. apply ab_bytesvec; [exact F0|].
  assert (Y : all_some (fun i => if (i <? length C)%nat then OTP_Dec (nth i (chosen bits K0 K1) 0%N) (nth i C []) else None)
     (filter (fun i => (nth i bits 0 =? 1)%N) (seq 0 ROW)) = Some (picked bits m)).
  { rewrite (all_some_nth _ _ _ (fun i => nth i m [])).
    - f_equal. apply picked_map with (d := []); [exact LB|apply I0|reflexivity].
    - intros i Hi. apply filter_In in Hi. destruct Hi as [Hi Z]. apply in_seq in Hi. apply N.eqb_eq in Z.
      rewrite chosen_nth by (rewrite LB; try apply BK0; try apply BK1; lia). rewrite Z. cbn [N.eqb].
      destruct (Nat.ltb_spec i (length C)); [|lia]. apply HC. lia. }
  rewrite Y. cbn [local]. apply ends_ret.
Qed.
End Layers.
End Run.

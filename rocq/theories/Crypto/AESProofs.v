From Coq Require Import Arith NArith List Bool Lia Btauto.
From Coq Require Import ZifyBool ZifyNat ZifyN.
From Verif.Base Require Import Words ListX.
From Verif.Crypto Require Import BlockModel BlockProofs AESModel AESSpec.
Import ListNotations.
Local Open Scope N_scope.

(** ** Exhaustive checks over bytes *)
Lemma forall_byte : forall P : N -> bool, forallb P (map N.of_nat (seq 0 256)) = true -> forall b, b < 256 -> P b = true.
Proof.
  intros P H b Hb. rewrite forallb_forall in H. apply H. apply in_map_iff. exists (N.to_nat b).
  rewrite N2Nat.id. split; auto. apply in_seq. lia.
Qed.

Lemma inv_sub_sub : forall b, b < 256 -> inv_sub (sub b) = b.
Proof. intros b Hb. apply N.eqb_eq. revert b Hb. apply forall_byte. vm_compute. reflexivity. Qed.
Lemma sub_inv_sub : forall b, b < 256 -> sub (inv_sub b) = b.
Proof. intros b Hb. apply N.eqb_eq. revert b Hb. apply forall_byte. vm_compute. reflexivity. Qed.
Lemma sub_lt : forall b, sub b < 256.
Proof.
  intros b. unfold sub. destruct (Nat.lt_ge_cases (N.to_nat b) 256).
  - assert (F : Forall (fun x => x < 256) sbox) by (apply Forall_forall; intros x Hx; apply N.ltb_lt; revert x Hx; apply forallb_forall; vm_compute; reflexivity).
    rewrite Forall_forall in F. apply F. apply nth_In. auto.
  - rewrite nth_overflow; [reflexivity|auto].
Qed.
Lemma inv_sub_lt : forall b, inv_sub b < 256.
Proof.
  intros b. unfold inv_sub. destruct (Nat.lt_ge_cases (N.to_nat b) 256).
  - assert (F : Forall (fun x => x < 256) inv_sbox) by (apply Forall_forall; intros x Hx; apply N.ltb_lt; revert x Hx; apply forallb_forall; vm_compute; reflexivity).
    rewrite Forall_forall in F. apply F. apply nth_In. auto.
  - rewrite nth_overflow; [reflexivity|auto].
Qed.

(** ** Linearity *)
Ltac xbits := apply N.bits_inj; intros ?i; rewrite ?N.lxor_spec, ?N.bits_0; try btauto.

Lemma wrap_lxor : forall w a b, wrap w (N.lxor a b) = N.lxor (wrap w a) (wrap w b).
Proof.
  intros. apply N.bits_inj. intros i. rewrite N.lxor_spec, !testbit_wrap, N.lxor_spec.
  destruct (i <? w); auto.
Qed.

Lemma xtime_lin : forall a b, xtime (N.lxor a b) = N.lxor (xtime a) (xtime b).
Proof.
  intros. unfold xtime. rewrite N.shiftl_lxor, wrap_lxor, N.lxor_spec.
  destruct (N.testbit a 7), (N.testbit b 7); cbn [xorb]; xbits.
Qed.

Lemma m_lin : forall a b,
  m2 (N.lxor a b) = N.lxor (m2 a) (m2 b) /\ m3 (N.lxor a b) = N.lxor (m3 a) (m3 b) /\
  m9 (N.lxor a b) = N.lxor (m9 a) (m9 b) /\ m11 (N.lxor a b) = N.lxor (m11 a) (m11 b) /\
  m13 (N.lxor a b) = N.lxor (m13 a) (m13 b) /\ m14 (N.lxor a b) = N.lxor (m14 a) (m14 b).
Proof.
  intros. unfold m9, m11, m13, m14, m8, m4, m3, m2. rewrite !xtime_lin. repeat split; xbits.
Qed.
Lemma m2_lin : forall a b, m2 (N.lxor a b) = N.lxor (m2 a) (m2 b). Proof. intros; apply m_lin. Qed.
Lemma m3_lin : forall a b, m3 (N.lxor a b) = N.lxor (m3 a) (m3 b). Proof. intros; apply m_lin. Qed.
Lemma m9_lin : forall a b, m9 (N.lxor a b) = N.lxor (m9 a) (m9 b). Proof. intros; apply m_lin. Qed.
Lemma m11_lin : forall a b, m11 (N.lxor a b) = N.lxor (m11 a) (m11 b). Proof. intros; apply m_lin. Qed.
Lemma m13_lin : forall a b, m13 (N.lxor a b) = N.lxor (m13 a) (m13 b). Proof. intros; apply m_lin. Qed.
Lemma m14_lin : forall a b, m14 (N.lxor a b) = N.lxor (m14 a) (m14 b). Proof. intros; apply m_lin. Qed.

Lemma xtime_lt : forall a, xtime a < 256.
Proof.
  intros. unfold xtime. change 256 with (2 ^ 8). apply lxor_lt; [apply wrap_lt|].
  destruct (N.testbit a 7); reflexivity.
Qed.
Lemma lxor8 : forall a b, a < 256 -> b < 256 -> N.lxor a b < 256.
Proof. intros. change 256 with (2 ^ 8) in *. apply lxor_lt; auto. Qed.
Lemma m_lt : forall a, a < 256 -> m2 a < 256 /\ m3 a < 256 /\ m9 a < 256 /\ m11 a < 256 /\ m13 a < 256 /\ m14 a < 256.
Proof.
  intros a Ha. unfold m9, m11, m13, m14, m8, m4, m3, m2. repeat split; repeat (first [apply xtime_lt | assumption | apply lxor8]).
Qed.
Lemma xor4_lt : forall a b c d, a < 256 -> b < 256 -> c < 256 -> d < 256 -> xor4 a b c d < 256.
Proof. intros. unfold xor4. repeat apply lxor8; auto. Qed.

(** the coefficient identities of InvMixColumns after MixColumns, and conversely *)
Definition eqs_IM (a : N) : bool :=
  (xor4 (m14 (m2 a)) (m11 a) (m13 a) (m9 (m3 a)) =? a) &&
  (xor4 (m14 (m3 a)) (m11 (m2 a)) (m13 a) (m9 a) =? 0) &&
  (xor4 (m14 a) (m11 (m3 a)) (m13 (m2 a)) (m9 a) =? 0) &&
  (xor4 (m14 a) (m11 a) (m13 (m3 a)) (m9 (m2 a)) =? 0) &&
  (xor4 (m9 (m2 a)) (m14 a) (m11 a) (m13 (m3 a)) =? 0) &&
  (xor4 (m9 (m3 a)) (m14 (m2 a)) (m11 a) (m13 a) =? a) &&
  (xor4 (m9 a) (m14 (m3 a)) (m11 (m2 a)) (m13 a) =? 0) &&
  (xor4 (m9 a) (m14 a) (m11 (m3 a)) (m13 (m2 a)) =? 0) &&
  (xor4 (m13 (m2 a)) (m9 a) (m14 a) (m11 (m3 a)) =? 0) &&
  (xor4 (m13 (m3 a)) (m9 (m2 a)) (m14 a) (m11 a) =? 0) &&
  (xor4 (m13 a) (m9 (m3 a)) (m14 (m2 a)) (m11 a) =? a) &&
  (xor4 (m13 a) (m9 a) (m14 (m3 a)) (m11 (m2 a)) =? 0) &&
  (xor4 (m11 (m2 a)) (m13 a) (m9 a) (m14 (m3 a)) =? 0) &&
  (xor4 (m11 (m3 a)) (m13 (m2 a)) (m9 a) (m14 a) =? 0) &&
  (xor4 (m11 a) (m13 (m3 a)) (m9 (m2 a)) (m14 a) =? 0) &&
  (xor4 (m11 a) (m13 a) (m9 (m3 a)) (m14 (m2 a)) =? a).
Definition eqs_MI (a : N) : bool :=
  (xor4 (m2 (m14 a)) (m3 (m9 a)) (m13 a) (m11 a) =? a) &&
  (xor4 (m2 (m11 a)) (m3 (m14 a)) (m9 a) (m13 a) =? 0) &&
  (xor4 (m2 (m13 a)) (m3 (m11 a)) (m14 a) (m9 a) =? 0) &&
  (xor4 (m2 (m9 a)) (m3 (m13 a)) (m11 a) (m14 a) =? 0) &&
  (xor4 (m14 a) (m2 (m9 a)) (m3 (m13 a)) (m11 a) =? 0) &&
  (xor4 (m11 a) (m2 (m14 a)) (m3 (m9 a)) (m13 a) =? a) &&
  (xor4 (m13 a) (m2 (m11 a)) (m3 (m14 a)) (m9 a) =? 0) &&
  (xor4 (m9 a) (m2 (m13 a)) (m3 (m11 a)) (m14 a) =? 0) &&
  (xor4 (m14 a) (m9 a) (m2 (m13 a)) (m3 (m11 a)) =? 0) &&
  (xor4 (m11 a) (m14 a) (m2 (m9 a)) (m3 (m13 a)) =? 0) &&
  (xor4 (m13 a) (m11 a) (m2 (m14 a)) (m3 (m9 a)) =? a) &&
  (xor4 (m9 a) (m13 a) (m2 (m11 a)) (m3 (m14 a)) =? 0) &&
  (xor4 (m3 (m14 a)) (m9 a) (m13 a) (m2 (m11 a)) =? 0) &&
  (xor4 (m3 (m11 a)) (m14 a) (m9 a) (m2 (m13 a)) =? 0) &&
  (xor4 (m3 (m13 a)) (m11 a) (m14 a) (m2 (m9 a)) =? 0) &&
  (xor4 (m3 (m9 a)) (m13 a) (m11 a) (m2 (m14 a)) =? a).
Lemma eqs_IM_all : forall a, a < 256 -> eqs_IM a = true.
Proof. apply forall_byte. vm_compute. reflexivity. Qed.
Lemma eqs_MI_all : forall a, a < 256 -> eqs_MI a = true.
Proof. apply forall_byte. vm_compute. reflexivity. Qed.

Lemma row_swap : forall a1 a2 a3 a4 b1 b2 b3 b4 c1 c2 c3 c4 d1 d2 d3 d4,
  xor4 (xor4 a1 b1 c1 d1) (xor4 a2 b2 c2 d2) (xor4 a3 b3 c3 d3) (xor4 a4 b4 c4 d4) =
  xor4 (xor4 a1 a2 a3 a4) (xor4 b1 b2 b3 b4) (xor4 c1 c2 c3 c4) (xor4 d1 d2 d3 d4).
Proof. intros. unfold xor4. xbits. Qed.
Lemma xor4_lin : forall f, (forall a b, f (N.lxor a b) = N.lxor (f a) (f b)) ->
  forall a b c d, f (xor4 a b c d) = xor4 (f a) (f b) (f c) (f d).
Proof. intros f H a b c d. unfold xor4. rewrite !H. auto. Qed.
Lemma xor4_0 : forall a, xor4 a 0 0 0 = a /\ xor4 0 a 0 0 = a /\ xor4 0 0 a 0 = a /\ xor4 0 0 0 a = a.
Proof. intros. unfold xor4. repeat split; xbits. Qed.

Ltac mcol L := intros a b c d Ha Hb Hc Hd; cbn [MixColumns InvMixColumns];
  apply L in Ha, Hb, Hc, Hd; unfold eqs_IM, eqs_MI in *;
  repeat match goal with H : _ && _ = true |- _ => apply andb_true_iff in H; destruct H end;
  repeat match goal with H : (_ =? _) = true |- _ => apply N.eqb_eq in H end;
  rewrite ?(xor4_lin m14 m14_lin), ?(xor4_lin m11 m11_lin), ?(xor4_lin m13 m13_lin), ?(xor4_lin m9 m9_lin),
          ?(xor4_lin m2 m2_lin), ?(xor4_lin m3 m3_lin);
  repeat match goal with |- _ :: _ = _ :: _ => f_equal end;
  rewrite row_swap;
  repeat match goal with H : xor4 _ _ _ _ = _ |- _ => rewrite H; clear H end;
  apply xor4_0.

Lemma IM_M_col : forall a b c d, a < 256 -> b < 256 -> c < 256 -> d < 256 ->
  InvMixColumns (MixColumns [a; b; c; d]) = [a; b; c; d].
Proof. mcol eqs_IM_all. Qed.
Lemma M_IM_col : forall a b c d, a < 256 -> b < 256 -> c < 256 -> d < 256 ->
  MixColumns (InvMixColumns [a; b; c; d]) = [a; b; c; d].
Proof. mcol eqs_MI_all. Qed.

(** ** States: 16 bytes *)
Definition state (s : list N) : Prop := length s = 16%nat /\ Forall is_byte s.

Ltac destr16 s := let L := fresh "L" in let F := fresh "F" in
  intros [L F]; do 16 (destruct s as [|? s]; [discriminate L|]); destruct s; [|discriminate L];
  repeat match goal with H : Forall is_byte (_ :: _) |- _ => inversion H; clear H; subst end;
  repeat match goal with H : Forall is_byte [] |- _ => clear H end; unfold is_byte in *.

Lemma IM_M : forall s, state s -> InvMixColumns (MixColumns s) = s.
Proof.
  intros s. destr16 s.
  match goal with |- InvMixColumns (MixColumns [?a;?b;?c;?d;?e;?f;?g;?h;?i;?j;?k;?l;?m;?n;?o;?p]) = _ =>
    change (InvMixColumns (MixColumns [a;b;c;d]) ++ InvMixColumns (MixColumns [e;f;g;h]) ++
            InvMixColumns (MixColumns [i;j;k;l]) ++ InvMixColumns (MixColumns [m;n;o;p]) = [a;b;c;d;e;f;g;h;i;j;k;l;m;n;o;p]) end.
  rewrite !IM_M_col by auto. reflexivity.
Qed.
Lemma M_IM : forall s, state s -> MixColumns (InvMixColumns s) = s.
Proof.
  intros s. destr16 s.
  match goal with |- MixColumns (InvMixColumns [?a;?b;?c;?d;?e;?f;?g;?h;?i;?j;?k;?l;?m;?n;?o;?p]) = _ =>
    change (MixColumns (InvMixColumns [a;b;c;d]) ++ MixColumns (InvMixColumns [e;f;g;h]) ++
            MixColumns (InvMixColumns [i;j;k;l]) ++ MixColumns (InvMixColumns [m;n;o;p]) = [a;b;c;d;e;f;g;h;i;j;k;l;m;n;o;p]) end.
  rewrite !M_IM_col by auto. reflexivity.
Qed.

Lemma MixColumns_state : forall s, state s -> state (MixColumns s).
Proof.
  intros s. destr16 s. split; [reflexivity|]. cbn [MixColumns].
  repeat constructor; apply xor4_lt; try apply m_lt; auto.
Qed.
Lemma InvMixColumns_state : forall s, state s -> state (InvMixColumns s).
Proof.
  intros s. destr16 s. split; [reflexivity|]. cbn [InvMixColumns].
  repeat constructor; apply xor4_lt; try apply m_lt; auto.
Qed.
Lemma ShiftRows_state : forall s, state s -> state (ShiftRows s).
Proof. intros s. destr16 s. split; [reflexivity|]. cbn. repeat constructor; auto. Qed.
Lemma InvShiftRows_state : forall s, state s -> state (InvShiftRows s).
Proof. intros s. destr16 s. split; [reflexivity|]. cbn. repeat constructor; auto. Qed.
Lemma SubBytes_state : forall s, state s -> state (SubBytes s).
Proof. intros s [L F]. split; [unfold SubBytes; rewrite map_length; auto|]. apply Forall_map, Forall_forall. intros; apply sub_lt. Qed.
Lemma InvSubBytes_state : forall s, state s -> state (InvSubBytes s).
Proof. intros s [L F]. split; [unfold InvSubBytes; rewrite map_length; auto|]. apply Forall_map, Forall_forall. intros; apply inv_sub_lt. Qed.

Lemma ISB_ISR_SB_SR : forall s, state s -> InvSubBytes (InvShiftRows (SubBytes (ShiftRows s))) = s.
Proof.
  intros s. destr16 s. cbn [ShiftRows permute map shift_ix nth SubBytes InvShiftRows inv_shift_ix InvSubBytes].
  rewrite !inv_sub_sub by auto. reflexivity.
Qed.
Lemma SB_SR_ISB_ISR : forall s, state s -> SubBytes (ShiftRows (InvSubBytes (InvShiftRows s))) = s.
Proof.
  intros s. destr16 s. cbn [ShiftRows permute map shift_ix nth SubBytes InvShiftRows inv_shift_ix InvSubBytes].
  rewrite !sub_inv_sub by auto. reflexivity.
Qed.

(** ** Blocks and states *)
Definition blk (x : N) : Prop := x < 2 ^ 128.

Lemma bytes16_state : forall x, state (bytes16 x).
Proof. intros. split; [apply le_bytes_length|apply le_bytes_ok]. Qed.
Lemma le_val_blk : forall s, state s -> blk (le_val s).
Proof. intros s [L F]. unfold blk. pose proof (le_val_lt s F) as H. rewrite L in H. exact H. Qed.
Lemma bytes16_val : forall s, state s -> bytes16 (le_val s) = s.
Proof. intros s [L F]. unfold bytes16. rewrite <- L. apply le_bytes_val; auto. Qed.
Lemma val_bytes16 : forall x, blk x -> le_val (bytes16 x) = x.
Proof. intros. apply le_val_bytes. auto. Qed.
Lemma lxor_blk : forall a b, blk a -> blk b -> blk (N.lxor a b).
Proof. intros. apply lxor_lt; auto. Qed.
Lemma lxor_cancel : forall a b, N.lxor (N.lxor a b) b = a.
Proof. intros. rewrite N.lxor_assoc, N.lxor_nilpotent, N.lxor_0_r. auto. Qed.

(** InvMixColumns is linear on blocks *)
Lemma le_val_lxor : forall a b, length a = length b -> Forall is_byte a -> Forall is_byte b ->
  le_val (map2 N.lxor a b) = N.lxor (le_val a) (le_val b).
Proof.
  intros a b L Fa Fb. apply N.bits_inj. intros i.
  assert (Hi : i = 8 * N.of_nat (N.to_nat (i / 8)) + i mod 8).
  { rewrite N2Nat.id. apply N.div_mod. lia. }
  assert (M : i mod 8 < 8) by (apply N.mod_lt; lia).
  assert (Fm : Forall is_byte (map2 N.lxor a b)).
  { revert b L Fb. induction Fa; intros [|y b] L Fb; try discriminate L; cbn [map2]; constructor; inversion Fb; subst.
    - apply lxor8; auto.
    - apply IHFa; auto. }
  rewrite N.lxor_spec. rewrite Hi. rewrite !le_val_bit by auto. rewrite <- N.lxor_spec. f_equal.
  destruct (Nat.lt_ge_cases (N.to_nat (i / 8)) (length a)).
  - apply map2_nth; lia.
  - rewrite !nth_overflow; auto; try lia. rewrite map2_length. lia.
Qed.

Lemma le_bytes_lxor : forall n a b, le_bytes n (N.lxor a b) = map2 N.lxor (le_bytes n a) (le_bytes n b).
Proof.
  induction n; intros a b; [reflexivity|]. cbn [le_bytes map2]. f_equal.
  - change 256 with (2 ^ 8). apply (wrap_lxor 8).
  - rewrite <- IHn. f_equal. change 256 with (2 ^ 8). rewrite <- !N.shiftr_div_pow2. apply N.shiftr_lxor.
Qed.

Lemma IM_lin : forall s t, state s -> state t ->
  InvMixColumns (map2 N.lxor s t) = map2 N.lxor (InvMixColumns s) (InvMixColumns t).
Proof.
  intros s t. destr16 s. destr16 t. cbn [map2 InvMixColumns].
  repeat match goal with |- _ :: _ = _ :: _ => f_equal end;
  unfold xor4; rewrite ?m14_lin, ?m11_lin, ?m13_lin, ?m9_lin; xbits.
Qed.

Lemma aesimc_lin : forall x y, aesimc (N.lxor x y) = N.lxor (aesimc x) (aesimc y).
Proof.
  intros. unfold aesimc. unfold bytes16 at 1. rewrite le_bytes_lxor.
  rewrite IM_lin by apply bytes16_state.
  apply le_val_lxor.
  - destruct (InvMixColumns_state _ (bytes16_state x)) as [-> _].
    destruct (InvMixColumns_state _ (bytes16_state y)) as [-> _]. auto.
  - apply InvMixColumns_state, bytes16_state.
  - apply InvMixColumns_state, bytes16_state.
Qed.

(** ** Rounds *)
(** the core of a round, without the key *)
Definition core (x : N) : N := le_val (SubBytes (ShiftRows (bytes16 x))).

Lemma core_blk : forall x, blk (core x).
Proof. intros. apply le_val_blk, SubBytes_state, ShiftRows_state, bytes16_state. Qed.
Lemma core_bytes : forall x, bytes16 (core x) = SubBytes (ShiftRows (bytes16 x)).
Proof. intros. apply bytes16_val, SubBytes_state, ShiftRows_state, bytes16_state. Qed.

Lemma aesenc_blk : forall x k, blk k -> blk (aesenc x k).
Proof.
  intros. unfold aesenc. apply lxor_blk; auto.
  apply le_val_blk, MixColumns_state, SubBytes_state, ShiftRows_state, bytes16_state.
Qed.
Lemma aesenclast_blk : forall x k, blk k -> blk (aesenclast x k).
Proof. intros. unfold aesenclast. apply lxor_blk; auto. apply core_blk. Qed.
Lemma aesdec_blk : forall x k, blk k -> blk (aesdec x k).
Proof.
  intros. unfold aesdec. apply lxor_blk; auto.
  apply le_val_blk, InvMixColumns_state, InvSubBytes_state, InvShiftRows_state, bytes16_state.
Qed.
Lemma aesdeclast_blk : forall x k, blk k -> blk (aesdeclast x k).
Proof.
  intros. unfold aesdeclast. apply lxor_blk; auto.
  apply le_val_blk, InvSubBytes_state, InvShiftRows_state, bytes16_state.
Qed.
Lemma aesimc_blk : forall x, blk (aesimc x).
Proof. intros. apply le_val_blk, InvMixColumns_state, bytes16_state. Qed.

(** decryption round on the core of a state peels one round *)
Lemma aesdec_core : forall x k', aesdec (core x) k' = N.lxor (aesimc x) k'.
Proof.
  intros. unfold aesdec. rewrite core_bytes, ISB_ISR_SB_SR by apply bytes16_state. auto.
Qed.
Lemma aesdec_round : forall y k, blk k -> aesdec (core (aesenc y k)) (aesimc k) = core y.
Proof.
  intros y k Hk. rewrite aesdec_core. unfold aesenc at 1. rewrite aesimc_lin, lxor_cancel.
  unfold aesimc. rewrite bytes16_val by (apply MixColumns_state, SubBytes_state, ShiftRows_state, bytes16_state).
  rewrite IM_M by (apply SubBytes_state, ShiftRows_state, bytes16_state). auto.
Qed.
Lemma aesdeclast_core : forall x k, blk x -> aesdeclast (core x) k = N.lxor x k.
Proof.
  intros. unfold aesdeclast. rewrite core_bytes, ISB_ISR_SB_SR by apply bytes16_state.
  rewrite val_bytes16 by auto. auto.
Qed.

Lemma aesenclast_core : forall x k, aesenclast x k = N.lxor (core x) k.
Proof. reflexivity. Qed.

(** conversely *)
Definition icore (x : N) : N := le_val (InvSubBytes (InvShiftRows (bytes16 x))).
Lemma icore_blk : forall x, blk (icore x).
Proof. intros. apply le_val_blk, InvSubBytes_state, InvShiftRows_state, bytes16_state. Qed.
Lemma aesdeclast_icore : forall x k, aesdeclast x k = N.lxor (icore x) k.
Proof. reflexivity. Qed.
Lemma core_icore : forall x, blk x -> core (icore x) = x.
Proof.
  intros x Hx. unfold core, icore.
  rewrite bytes16_val by (apply InvSubBytes_state, InvShiftRows_state, bytes16_state).
  rewrite SB_SR_ISB_ISR by apply bytes16_state. apply val_bytes16; auto.
Qed.
Lemma aesenc_icore : forall x k, blk x -> aesenc (icore x) k = N.lxor (le_val (MixColumns (bytes16 x))) k.
Proof.
  intros x k Hx. unfold aesenc, icore.
  rewrite bytes16_val by (apply InvSubBytes_state, InvShiftRows_state, bytes16_state).
  rewrite SB_SR_ISB_ISR by apply bytes16_state. auto.
Qed.
Lemma imc_inv : forall x, blk x -> le_val (MixColumns (bytes16 (aesimc x))) = x.
Proof.
  intros x Hx. unfold aesimc. rewrite bytes16_val by (apply InvMixColumns_state, bytes16_state).
  rewrite M_IM by apply bytes16_state. apply val_bytes16; auto.
Qed.
Lemma aesenc_round : forall y k, blk k -> blk y -> aesenc (icore (aesdec y (aesimc k))) k = icore y.
Proof.
  intros y k Hk Hy. rewrite aesenc_icore by (apply aesdec_blk, aesimc_blk).
  assert (E : aesdec y (aesimc k) = aesimc (N.lxor (icore y) k)).
  { rewrite aesimc_lin. unfold aesdec. f_equal. unfold aesimc, icore.
    rewrite bytes16_val by (apply InvSubBytes_state, InvShiftRows_state, bytes16_state). auto. }
  rewrite E, imc_inv by (apply lxor_blk; auto; apply icore_blk).
  apply lxor_cancel.
Qed.

(** ** Whole-block encryption *)
Definition key_ok (k : Key) : Prop := ROUND_NUM k = 10%nat /\ length (roundkey k) = 11%nat /\ Forall blk (roundkey k).

Lemma Dec_Enc_keys : forall g k d, length g = 11%nat -> key_ok k -> blk d -> Dec (DeriveDecKeyFromEncKey g k) (Enc k d) = d.
Proof.
  intros g [rks R] d Lg (HR & L & F) Hd. cbn [ROUND_NUM roundkey] in *. subst R.
  do 11 (destruct rks as [|? rks]; [discriminate L|]). destruct rks; [|discriminate L].
  do 11 (destruct g as [|? g]; [discriminate Lg|]). destruct g; [|discriminate Lg].
  repeat match goal with H : Forall blk (_ :: _) |- _ => inversion H; clear H; subst end.
  unfold Dec, Enc, DeriveDecKeyFromEncKey, rk.
  cbn [ROUND_NUM roundkey Nat.sub seq fold_left nth dec_loop upd].
  set (k0 := n) in *.
  rewrite aesenclast_core.
  rewrite lxor_cancel. rewrite !aesdec_round by auto.
  rewrite aesdeclast_core by (apply lxor_blk; auto). apply lxor_cancel.
Qed.

Lemma Enc_Dec_keys : forall g k d, length g = 11%nat -> key_ok k -> blk d -> Enc k (Dec (DeriveDecKeyFromEncKey g k) d) = d.
Proof.
  intros g [rks R] d Lg (HR & L & F) Hd. cbn [ROUND_NUM roundkey] in *. subst R.
  do 11 (destruct rks as [|? rks]; [discriminate L|]). destruct rks; [|discriminate L].
  do 11 (destruct g as [|? g]; [discriminate Lg|]). destruct g; [|discriminate Lg].
  repeat match goal with H : Forall blk (_ :: _) |- _ => inversion H; clear H; subst end.
  unfold Dec, Enc, DeriveDecKeyFromEncKey, rk.
  cbn [ROUND_NUM roundkey Nat.sub seq fold_left nth dec_loop upd].
  set (k0 := n) in *.
  rewrite aesdeclast_icore, lxor_cancel.
  rewrite !aesenc_round by (auto; repeat (apply aesdec_blk; try apply aesimc_blk); apply lxor_blk; auto).
  rewrite aesenclast_core, core_icore by (apply lxor_blk; auto). apply lxor_cancel.
Qed.

Lemma Enc_blk : forall k d, key_ok k -> blk (Enc k d).
Proof.
  intros k d (HR & L & F). unfold Enc. apply aesenclast_blk. rewrite Forall_forall in F. apply F. apply nth_In. lia.
Qed.
Lemma rk_blk : forall k j, key_ok k -> blk (rk k j).
Proof.
  intros k j (HR & L & F). unfold rk. destruct (Nat.lt_ge_cases j 11).
  - rewrite Forall_forall in F. apply F. apply nth_In. lia.
  - rewrite nth_overflow by lia. reflexivity.
Qed.
Lemma Dec_blk : forall k d, key_ok k -> blk (Dec k d).
Proof. intros k d K. unfold Dec. apply aesdeclast_blk. apply rk_blk; auto. Qed.

Lemma Enc_inj : forall k a b, key_ok k -> blk a -> blk b -> Enc k a = Enc k b -> a = b.
Proof.
  intros k a b K Ha Hb E.
  rewrite <- (Dec_Enc_keys (repeat 0 11) k a), <- (Dec_Enc_keys (repeat 0 11) k b) by auto.
  rewrite E. auto.
Qed.

(** ** Key schedule *)
Lemma dword_lt : forall x i, dword x i < 2 ^ 32.
Proof. intros. apply wrap_lt. Qed.
Lemma of_dwords_lt : forall a b c d, a < 2 ^ 32 -> b < 2 ^ 32 -> c < 2 ^ 32 -> d < 2 ^ 32 -> of_dwords a b c d < 2 ^ 128.
Proof.
  intros. unfold of_dwords. change (2 ^ 128) with (2 ^ 32 * (2 ^ 32 * (2 ^ 32 * 2 ^ 32))). nia.
Qed.
Lemma le_val_lt4 : forall l, length l = 4%nat -> Forall is_byte l -> le_val l < 2 ^ 32.
Proof. intros l L F. pose proof (le_val_lt l F) as H. rewrite L in H. exact H. Qed.
Lemma SubWord_bytes_ok : forall w, length (map sub (le_bytes 4 w)) = 4%nat /\ Forall is_byte (map sub (le_bytes 4 w)).
Proof. intros. split; [rewrite map_length; apply le_bytes_length|]. apply Forall_map, Forall_forall. intros; apply sub_lt. Qed.
Lemma SubWord_lt : forall w, SubWord w < 2 ^ 32.
Proof. intros. apply le_val_lt4; apply SubWord_bytes_ok. Qed.
Lemma RotWord_lt : forall w, RotWord w < 2 ^ 32.
Proof.
  intros. unfold RotWord. pose proof (le_bytes_length 4 w) as L. pose proof (le_bytes_ok 4 w) as F.
  destruct (le_bytes 4 w) as [|b r]; [reflexivity|]. inversion F; subst.
  apply le_val_lt4; [rewrite app_length; cbn in *; lia|]. apply Forall_app. split; auto.
Qed.

Lemma dword_of : forall a b c d, a < 2 ^ 32 -> b < 2 ^ 32 -> c < 2 ^ 32 -> d < 2 ^ 32 ->
  dword (of_dwords a b c d) 0 = a /\ dword (of_dwords a b c d) 1 = b /\
  dword (of_dwords a b c d) 2 = c /\ dword (of_dwords a b c d) 3 = d.
Proof.
  intros a b c d Ha Hb Hc Hd. unfold dword, wrap32, wrap, of_dwords. rewrite !N.shiftr_div_pow2.
  assert (D : forall x y, x < 2 ^ 32 -> (x + 2 ^ 32 * y) / 2 ^ 32 = y /\ (x + 2 ^ 32 * y) mod 2 ^ 32 = x).
  { intros x y Hx. split.
    - rewrite N.mul_comm, N.div_add by lia. rewrite N.div_small by auto. lia.
    - rewrite N.mul_comm, N.mod_add by lia. apply N.mod_small; auto. }
  change (2 ^ (32 * N.of_nat 0)) with 1. change (2 ^ (32 * N.of_nat 1)) with (2 ^ 32).
  change (2 ^ (32 * N.of_nat 2)) with (2 ^ 32 * 2 ^ 32). change (2 ^ (32 * N.of_nat 3)) with (2 ^ 32 * 2 ^ 32 * 2 ^ 32).
  rewrite <- !N.div_div by (intro; discriminate). rewrite N.div_1_r.
  repeat split; repeat (match goal with |- context [(?x + 2 ^ 32 * ?y) / 2 ^ 32] => destruct (D x y) as [-> ?]; auto end).
  - apply D; auto.
  - apply D; auto.
  - apply D; auto.
  - apply N.mod_small; auto.
Qed.

Lemma dword_lxor : forall x y i, dword (N.lxor x y) i = N.lxor (dword x i) (dword y i).
Proof. intros. unfold dword, wrap32. rewrite N.shiftr_lxor. apply wrap_lxor. Qed.

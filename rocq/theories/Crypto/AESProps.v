(** Properties C13 - C15, C19, C77, C78: AES, the PRG, the one-time pad and the AES-based hashes. *)
From Coq Require Import Arith NArith List Bool Lia.
From Coq Require Import ZifyBool ZifyNat ZifyN.
From Verif.Base Require Import Words ListX.
From Verif.Crypto Require Import BlockModel BlockProofs AESModel AESSpec AESProofs AESKeyProofs PRGModel PRGProofs.
Import ListNotations.
Local Open Scope N_scope.

(** ** C13: AES *)

(** C13.  For every key and block, decryption with the derived key inverts encryption and conversely.
    [g] is whatever the uninitialised key array held. *)
Theorem C13_aes_round_trip : forall g salt d, length g = 11%nat -> salt < 2 ^ 128 -> d < 2 ^ 128 ->
  Dec (GenDecKey g salt) (Enc (GenEncKey salt) d) = d /\
  Enc (GenEncKey salt) (Dec (GenDecKey g salt) d) = d.
Proof.
  intros g salt d Lg Bs Bd. unfold GenDecKey. split.
  - apply Dec_Enc_keys; auto. apply GenEncKey_ok; auto.
  - apply Enc_Dec_keys; auto. apply GenEncKey_ok; auto.
Qed.

(** C13.  ECB on vectors of any length; CBC on vectors of any positive length. *)
Theorem C13_aes_ecb_round_trip : forall g salt data, length g = 11%nat -> salt < 2 ^ 128 ->
  Forall (fun d => d < 2 ^ 128) data ->
  ECBDec (GenDecKey g salt) (ECBEnc (GenEncKey salt) data) = data.
Proof.
  intros g salt data Lg Bs F. unfold ECBDec, ECBEnc. rewrite map_map. rewrite <- (map_id data) at 2.
  apply map_ext_in. intros d Hd. rewrite Forall_forall in F.
  exact (proj1 (C13_aes_round_trip g salt d Lg Bs (F d Hd))).
Qed.
Theorem C13_aes_cbc_round_trip : forall g salt data, length g = 11%nat -> salt < 2 ^ 128 ->
  Forall (fun d => d < 2 ^ 128) data -> data <> [] ->
  exists c, CBCEnc (GenEncKey salt) data = Some c /\ length c = length data /\ CBCDec (GenDecKey g salt) c = Some data.
Proof.
  intros g salt data Lg Bs F NE. exists (cbc_enc_from (GenEncKey salt) IV data).
  assert (E : CBCEnc (GenEncKey salt) data = Some (cbc_enc_from (GenEncKey salt) IV data)) by (destruct data; [congruence|reflexivity]).
  split; [exact E|]. split; [apply cbc_enc_length|].
  apply (CBC_round_trip (GenEncKey salt) (GenDecKey g salt)); auto.
  - apply GenEncKey_ok; auto.
  - intros d Bd. exact (proj1 (C13_aes_round_trip g salt d Lg Bs Bd)).
Qed.
(** the empty vector is outside CBC's domain: block 0 is accessed unconditionally *)
Theorem C13_aes_cbc_empty_refuted : forall k, CBCEnc k [] = None /\ CBCDec k [] = None.
Proof. split; reflexivity. Qed.

(** C13.  The pipelined encryption equals block-by-block encryption, for every length. *)
Theorem C13_fast_ecb_agrees : forall k data, FastECBEnc k data = ECBEnc k data.
Proof. exact FastECB_map. Qed.

(** C13.  The S-box is the one of FIPS-197, and encryption is the FIPS-197 AES-128 cipher, key schedule
    included, for every key and block. *)
Definition gf_inv (b : N) : N :=   (* b^254 *)
  let sq x := gf_mul x x in
  let b2 := sq b in let b3 := gf_mul b2 b in let b6 := sq b3 in let b7 := gf_mul b6 b in
  let b14 := sq b7 in let b15 := gf_mul b14 b in let b30 := sq b15 in let b31 := gf_mul b30 b in
  let b62 := sq b31 in let b63 := gf_mul b62 b in let b126 := sq b63 in let b127 := gf_mul b126 b in sq b127.
Theorem C13_sbox_is_fips197 : forall b, b < 256 -> is_sbox_value b (sub b).
Proof.
  assert (A : forall b, b < 256 -> (gf_inv b <? 256) &&
    (((b =? 0) && (gf_inv b =? 0) || (gf_mul b (gf_inv b) =? 1)) &&
     forallb (fun i => Bool.eqb (N.testbit (sub b) i) (affine_bit (gf_inv b) i)) [0;1;2;3;4;5;6;7]) = true)
    by (apply forall_byte; vm_compute; reflexivity).
  intros b Hb. specialize (A b Hb). rewrite !andb_true_iff in A. destruct A as (A0 & E1 & E2).
  exists (gf_inv b). split; [|split].
  - apply N.ltb_lt. exact A0.
  - apply orb_true_iff in E1. destruct E1 as [E1|E1]; [|right; apply N.eqb_eq; auto].
    apply andb_true_iff in E1. rewrite !N.eqb_eq in E1. auto.
  - intros i Hi. rewrite forallb_forall in E2. apply eqb_prop. apply E2.
    assert (i = 0 \/ i = 1 \/ i = 2 \/ i = 3 \/ i = 4 \/ i = 5 \/ i = 6 \/ i = 7) as D by lia.
    cbn [In]. intuition.
Qed.
Theorem C13_aes_is_fips197 : forall salt d, salt < 2 ^ 128 -> d < 2 ^ 128 ->
  le_bytes 16 (Enc (GenEncKey salt) d) = spec_Cipher sub (le_bytes 16 salt) (le_bytes 16 d).
Proof. exact Enc_FIPS. Qed.

(** the worked example of FIPS-197, appendix B *)
Definition fips_key : list N := [43; 126; 21; 22; 40; 174; 210; 166; 171; 247; 21; 136; 9; 207; 79; 60].
Definition fips_in : list N := [50; 67; 246; 168; 136; 90; 48; 141; 49; 49; 152; 162; 224; 55; 7; 52].
Definition fips_out : list N := [57; 37; 132; 29; 2; 220; 9; 251; 220; 17; 133; 151; 25; 106; 11; 50].
Example ex_fips :
  le_bytes 16 (Enc (GenEncKey (le_val fips_key)) (le_val fips_in)) = fips_out /\
  spec_Cipher sub fips_key fips_in = fips_out /\
  Dec (GenDecKey (repeat 77 11) (le_val fips_key)) (le_val fips_out) = le_val fips_in.
Proof. split; [vm_compute; reflexivity|]. split; vm_compute; reflexivity. Qed.

Local Opaque Enc Dec GenEncKey GenDecKey.

(** ** C14: the pseudorandom generator *)

(** C14.  Drawing n blocks returns the encryptions of the next n counter values, for every n (whatever
    its residue modulo the batch size 8), and advances the counter by n. *)
Theorem C14_prg_stream : forall salt entropy id n, salt < 2 ^ 128 -> id < 2 ^ 64 ->
  let s := SetSeed entropy (Some salt) id in
  let out := fst (GenRandomBlocks s n) in
  length out = n /\ counter (snd (GenRandomBlocks s n)) = wrap64 (N.of_nat n) /\
  forall i, (i < n)%nat -> nth i out 0 = Enc (GenEncKey (N.lxor salt id)) (wrap64 (N.of_nat i)).
Proof.
  intros salt entropy id n Bs Bi s out. unfold out. rewrite GenRandomBlocks_spec by reflexivity.
  cbn [fst snd counter]. split; [apply stream_length|]. split; [reflexivity|].
  intros i Hi. unfold stream. rewrite nth_map' with (d := 0%nat) by (rewrite seq_length; auto).
  rewrite seq_nth by auto. unfold s. cbn [SetSeed ReSeed aes_key counter]. rewrite MakeBlock_0. reflexivity.
Qed.

(** C14.  Splitting a draw does not change the data, for every state reached by earlier draws. *)
Theorem C14_prg_split : forall s n m, counter s < 2 ^ 64 ->
  let '(a, s1) := GenRandomBlocks s n in
  let '(b, s2) := GenRandomBlocks s1 m in
  GenRandomBlocks s (n + m) = (a ++ b, s2).
Proof.
  intros s n m Hc. rewrite (GenRandomBlocks_spec s n Hc). rewrite GenRandomBlocks_spec by apply wrap_lt.
  rewrite GenRandomBlocks_spec by auto. cbn [counter aes_key]. rewrite stream_app. f_equal. f_equal.
  rewrite wrap64_add. f_equal. lia.
Qed.

(** C14.  No two blocks of one stream coincide within the counter period. *)
Theorem C14_prg_no_repeat : forall salt entropy id n, salt < 2 ^ 128 -> id < 2 ^ 64 -> N.of_nat n <= 2 ^ 64 ->
  NoDup (fst (GenRandomBlocks (SetSeed entropy (Some salt) id) n)).
Proof.
  intros salt entropy id n Bs Bi Hn. rewrite GenRandomBlocks_spec by reflexivity. cbn [fst].
  apply stream_NoDup; auto. cbn [SetSeed ReSeed aes_key]. rewrite MakeBlock_0. apply GenEncKey_ok.
  apply lxor_blk; auto. unfold blk. eapply N.lt_trans; [exact Bi|reflexivity].
Qed.

(** C14.  Random bytes are exactly LEN bytes, a prefix of the bytes of any long enough block draw;
    random bits are their low bits. *)
Theorem C14_prg_bytes_prefix : forall s LEN n, counter s < 2 ^ 64 -> (LEN <= 16 * n)%nat ->
  length (fst (GenRandomBytes s LEN)) = LEN /\
  Forall is_byte (fst (GenRandomBytes s LEN)) /\
  fst (GenRandomBytes s LEN) = firstn LEN (flat_map (le_bytes 16) (fst (GenRandomBlocks s n))) /\
  fst (GenRandomBits s LEN) = map (fun b => N.land b 1) (fst (GenRandomBytes s LEN)).
Proof.
  intros s LEN n Hc HL. split; [apply GenRandomBytes_length; auto|].
  unfold GenRandomBits. destruct (GenRandomBytes s LEN) as [bytes s'] eqn:E. cbn [fst].
  unfold GenRandomBytes in E. rewrite GenRandomBlocks_spec in E by auto.
  apply (f_equal fst) in E. cbn [fst] in E. subst bytes.
  rewrite GenRandomBlocks_spec by auto. cbn [fst].
  pose proof (Nat.div_mod (LEN + 15) 16). pose proof (Nat.mod_upper_bound (LEN + 15) 16).
  split; [|split; [|reflexivity]].
  - apply Forall_forall. intros x Hx. pose proof (stream_byte_ok (aes_key s) (counter s) ((LEN + 15) / 16)) as F.
    rewrite Forall_forall in F. apply F. rewrite <- (firstn_skipn LEN). apply in_or_app. auto.
  - apply firstn_flat_prefix; [lia|]. apply Nat.lt_succ_r. apply Nat.div_lt_upper_bound; lia.
Qed.

(** C14 is false of bytes when the split point is not a multiple of 16: a draw of 1 byte followed by a
    draw of 1 byte is not a draw of 2 bytes. *)
Theorem C14_prg_bytes_split_refuted : exists salt,
  let s := SetSeed 0 (Some salt) 0 in
  let '(a, s1) := GenRandomBytes s 1 in
  let '(b, _) := GenRandomBytes s1 1 in
  fst (GenRandomBytes s 2) <> a ++ b.
Proof. exists 0. vm_compute. discriminate. Qed.
(** it does hold at multiples of 16 *)
Theorem C14_prg_bytes_split_partial : forall s n m, counter s < 2 ^ 64 ->
  let '(a, s1) := GenRandomBytes s (16 * n) in
  let '(b, s2) := GenRandomBytes s1 m in
  GenRandomBytes s (16 * n + m) = (a ++ b, s2).
Proof.
  intros s n m Hc. unfold GenRandomBytes.
  assert (D0 : ((16 * n + 15) / 16 = n)%nat) by (symmetry; apply Nat.div_unique with (r := 15%nat); lia).
  assert (D1 : ((16 * n + m + 15) / 16 = n + (m + 15) / 16)%nat).
  { replace (16 * n + m + 15)%nat with ((m + 15) + n * 16)%nat by lia. rewrite Nat.div_add by lia. lia. }
  rewrite D0, D1.
  pose proof (C14_prg_split s n ((m + 15) / 16) Hc) as S.
  destruct (GenRandomBlocks s n) as [a s1] eqn:E1.
  destruct (GenRandomBlocks s1 ((m + 15) / 16)) as [b s2] eqn:E2. rewrite S. f_equal.
  assert (La : length a = n).
  { rewrite GenRandomBlocks_spec in E1 by auto. apply (f_equal fst) in E1. cbn [fst] in E1. subst a. apply stream_length. }
  rewrite flat_map_app, firstn_app, flat_bytes_length, La.
  replace (16 * n + m - 16 * n)%nat with m by lia. f_equal.
  rewrite !firstn_all2; auto; rewrite flat_bytes_length; lia.
Qed.

Example ex_prg : let s := SetSeed 0 (Some 12345) 7 in
  length (fst (GenRandomBlocks s 19)) = 19%nat /\
  nth 17 (fst (GenRandomBlocks s 19)) 0 = Enc (GenEncKey (N.lxor 12345 7)) 17 /\
  fst (GenRandomBlocks s 1) <> fst (GenRandomBlocks (snd (GenRandomBlocks s 1)) 1).
Proof. split; [vm_compute; reflexivity|]. split; [vm_compute; reflexivity|]. vm_compute. discriminate. Qed.

(** ** C15: one-time pad *)

(** C15.  Decryption with the same key recovers every plaintext of every length, for the byte-vector and
    the string interface. *)
Theorem C15_otp_round_trip : forall key p,
  exists c, OTP_Enc key p = Some c /\ length c = length p /\ OTP_Dec key c = Some p /\
            OTP_EncStr key p = Some c /\ OTP_DecStr key c = Some p.
Proof.
  intros key p.
  assert (G : forall q, OTP_Enc key q = Some (map2 N.lxor (fst (GenRandomBytes (SetSeed 0 (Some key) 0) (length q))) q)).
  { intros q. unfold OTP_Enc. pose proof (GenRandomBytes_length (SetSeed 0 (Some key) 0) (length q) eq_refl) as L.
    destruct (GenRandomBytes (SetSeed 0 (Some key) 0) (length q)) as [pad s']. cbn [fst] in *.
    unfold XORbytes, blocks_map2. rewrite L, Nat.leb_refl. auto. }
  assert (GD : forall q, OTP_Dec key q = OTP_Enc key q) by reflexivity.
  pose proof (GenRandomBytes_length (SetSeed 0 (Some key) 0) (length p) eq_refl) as L.
  set (pad := fst (GenRandomBytes (SetSeed 0 (Some key) 0) (length p))) in *.
  assert (Lc : length (map2 N.lxor pad p) = length p) by (rewrite map2_length; lia).
  assert (GC : OTP_Enc key (map2 N.lxor pad p) = Some p).
  { rewrite G, Lc. f_equal. apply map2_xor_cancel. auto. }
  exists (map2 N.lxor pad p). unfold OTP_EncStr, OTP_DecStr. split; [apply G|]. split; [exact Lc|]. split; [exact GC|]. split; [apply G|exact GC].
Qed.

Example ex_otp : exists c, OTP_Enc 99 [72; 105; 33] = Some c /\ c <> [72; 105; 33] /\ OTP_Dec 99 c = Some [72; 105; 33].
Proof. eexists. split; [vm_compute; reflexivity|]. split; [discriminate|vm_compute; reflexivity]. Qed.

(** ** C19: the CBC-AES hash *)

(** C19 is false: whenever the input length is not a multiple of 16, the digest is a function of the
    memory after the input; any change of the bytes up to the next multiple of 16 changes the digest. *)
Theorem C19_cbcaes_depends_on_memory_refuted : forall input t1 t2,
  (length input mod 16 <> 0)%nat -> Forall is_byte input -> Forall is_byte t1 -> Forall is_byte t2 ->
  (length t1 = 16 - length input mod 16)%nat -> (length t2 = 16 - length input mod 16)%nat -> t1 <> t2 ->
  exists d1 d2, CBCAES (input ++ t1) (length input) = Some d1 /\ CBCAES (input ++ t2) (length input) = Some d2 /\ d1 <> d2.
Proof.
  intros input t1 t2 Hm Fi F1 F2 L1 L2 NE.
  set (n := (length input / 16)%nat).
  assert (D : (length input = 16 * n + length input mod 16)%nat) by (apply Nat.div_mod; lia).
  assert (M : (length input mod 16 < 16)%nat) by (apply Nat.mod_upper_bound; lia).
  assert (BN : ((length input + 15) / 16 = n + 1)%nat).
  { symmetry. apply Nat.div_unique with (r := (length input mod 16 - 1)%nat); lia. }
  set (lastb := fun t => le_val (skipn (16 * n) input ++ t)).
  assert (G : forall t, Forall is_byte t -> (length t = 16 - length input mod 16)%nat ->
     exists r, Forall blk r /\ blk (lastb t) /\
       load_blocks n input = Some r /\
       CBCAES (input ++ t) (length input) = Some (last (cbc_enc_from fixed_enc_key IV (r ++ [lastb t])) 0)).
  { intros t Ft Lt. destruct (load_blocks_snoc n (input ++ t)) as (r & E1 & E2); [rewrite app_length; lia|].
    assert (El : load_blocks n input = Some r).
    { rewrite <- E1. apply load_blocks_prefix; try rewrite app_length; try lia.
      rewrite firstn_app. replace (16 * n - length input)%nat with 0%nat by lia. cbn [firstn]. rewrite app_nil_r. auto. }
    assert (Elast : le_val (firstn 16 (skipn (16 * n) (input ++ t))) = lastb t).
    { unfold lastb. f_equal. rewrite skipn_app. replace (16 * n - length input)%nat with 0%nat by lia. cbn [skipn].
      rewrite firstn_all2; auto. rewrite app_length, skipn_length. lia. }
    exists r. rewrite Elast in E2. split; [|split; [|split]].
    - exact (load_blocks_blk _ _ _ Fi El).
    - unfold lastb. apply le_val_blk. split; [rewrite app_length, skipn_length; lia|].
      apply Forall_app. split; auto. rewrite <- (firstn_skipn (16 * n) input) in Fi. apply Forall_app in Fi. apply Fi.
    - exact El.
    - unfold CBCAES. rewrite BN, E2.
      destruct (CBCEnc_last fixed_enc_key (r ++ [lastb t])) as (c & Ec & Eq); [destruct r; discriminate|].
      rewrite Ec, <- Eq. f_equal. rewrite app_length, (load_blocks_length _ _ _ E1). cbn [length]. f_equal. }
  destruct (G t1 F1 L1) as (r1 & B1 & Bl1 & Er1 & Ed1). destruct (G t2 F2 L2) as (r2 & B2 & Bl2 & Er2 & Ed2).
  rewrite Er1 in Er2. injection Er2 as <-.
  eexists; eexists. split; [exact Ed1|]. split; [exact Ed2|].
  intros E. apply cbc_last_inj in E; auto using fixed_ok; [|reflexivity].
  apply NE. unfold lastb in E.
  assert (S : skipn (16 * n) input ++ t1 = skipn (16 * n) input ++ t2).
  { assert (ST : forall t, Forall is_byte t -> (length t = 16 - length input mod 16)%nat -> state (skipn (16 * n) input ++ t)).
    { intros t Ft Lt. split; [rewrite app_length, skipn_length; lia|]. apply Forall_app. split; auto.
      rewrite <- (firstn_skipn (16 * n) input) in Fi. apply Forall_app in Fi. apply Fi. }
    rewrite <- (bytes16_val _ (ST t1 F1 L1)), <- (bytes16_val _ (ST t2 F2 L2)), E. auto. }
  apply app_inv_head in S. auto.
Qed.

(** it does depend on the input only when the length is a positive multiple of 16 *)
Theorem C19_cbcaes_input_only_partial : forall input t1 t2,
  (length input mod 16 = 0)%nat -> input <> [] ->
  exists d, CBCAES (input ++ t1) (length input) = Some d /\ CBCAES (input ++ t2) (length input) = Some d.
Proof.
  intros input t1 t2 Hm NE.
  set (n := (length input / 16)%nat).
  assert (D : (length input = 16 * n + length input mod 16)%nat) by (apply Nat.div_mod; lia).
  assert (BN : ((length input + 15) / 16 = n)%nat) by (symmetry; apply Nat.div_unique with (r := 15%nat); lia).
  assert (N0 : (0 < n)%nat) by (destruct input; [congruence|cbn [length] in *; lia]).
  assert (P : forall t, load_blocks n (input ++ t) = load_blocks n input).
  { intros t. apply load_blocks_prefix; try rewrite app_length; try lia.
    rewrite firstn_app. replace (16 * n - length input)%nat with 0%nat by lia. cbn [firstn]. rewrite app_nil_r. auto. }
  destruct (load_blocks_snoc (n - 1) input) as (r & _ & E); [lia|]. replace (n - 1 + 1)%nat with n in E by lia.
  unfold CBCAES. rewrite BN, !P, E.
  destruct (CBCEnc_last fixed_enc_key (r ++ [le_val (firstn 16 (skipn (16 * (n - 1)) input))])) as (c & Ec & _);
    [destruct r; discriminate|].
  rewrite Ec. eauto.
Qed.

Example ex_cbcaes : CBCAES ([1; 2; 3] ++ repeat 0 13) 3 <> CBCAES ([1; 2; 3] ++ repeat 9 13) 3.
Proof. vm_compute. discriminate. Qed.

(** ** C77: hashing a block to 32 bytes *)

Lemma Some_inj : forall (A : Type) (a b : A), Some a = Some b -> a = b.
Proof. congruence. Qed.

(** C77.  Distinct blocks hash to distinct 32-byte strings. *)
Theorem C77_block_to_bytes_injective : forall a b LEN x, a < 2 ^ 128 -> b < 2 ^ 128 -> 
  BlockToBytes a LEN = Some x -> BlockToBytes b LEN = Some x -> a = b /\ length x = 32%nat /\ (LEN <= 32)%nat.
Proof.
  intros a b LEN x Ba Bb Ea Eb. unfold BlockToBytes in *. destruct (Nat.ltb_spec 32 LEN); [discriminate|].
  unfold Dedicated_CBCAES in *. cbn [fst snd cbc_enc_from] in *.
  apply Some_inj in Ea. apply Some_inj in Eb. subst x.
  split; [|split; [rewrite app_length, !le_bytes_length; reflexivity|lia]].
  assert (H16 : le_bytes 16 (Enc fixed_enc_key (N.lxor b IV)) = le_bytes 16 (Enc fixed_enc_key (N.lxor a IV))).
  { apply (f_equal (firstn 16)) in Eb. rewrite !firstn_app_exact' in Eb by (symmetry; apply le_bytes_length). auto. }
  apply (f_equal le_val) in H16. rewrite !le_val_bytes in H16 by (apply Enc_blk, fixed_ok).
  apply Enc_inj in H16; auto using fixed_ok; try (apply lxor_blk; auto; reflexivity).
  rewrite <- (lxor_cancel a IV), <- H16. apply lxor_cancel.
Qed.

(** the dedicated 32-byte hash is a bijection (so in particular not one-way: [unhash] inverts it) *)
Definition unhash (y : N * N) : N * N :=
  let dk := GenDecKey (repeat 0 11) zero_block in
  (Dec dk (fst y), N.lxor (Dec dk (snd y)) (fst y)).
Theorem C77_dedicated_hash_invertible_refuted : forall x, fst x < 2 ^ 128 -> snd x < 2 ^ 128 -> unhash (Dedicated_CBCAES x) = x.
Proof.
  intros [a b] Ba Bb. cbn [fst snd] in *. unfold Dedicated_CBCAES, unhash. cbn [fst snd cbc_enc_from].
  assert (R : forall d, blk d -> Dec (GenDecKey (repeat 0 11) zero_block) (Enc fixed_enc_key d) = d)
    by (intros d Bd; exact (proj1 (C13_aes_round_trip (repeat 0 11) zero_block d eq_refl eq_refl Bd))).
  rewrite !R.
  - unfold IV, zero_block. rewrite N.lxor_0_r, lxor_cancel. auto.
  - apply lxor_blk; auto. apply Enc_blk, fixed_ok.
  - apply lxor_blk; auto. reflexivity.
Qed.

(** ** C78: hashing a vector of blocks with CBC-AES under the public fixed key *)

(** C78 is false: for every vector and every digest there is a last block that produces the digest
    (preimages), so every vector has a colliding vector with any chosen different first block. *)
Theorem C78_fast_hash_preimage_refuted : forall v target, Forall (fun x => x < 2 ^ 128) v -> target < 2 ^ 128 ->
  exists x, x < 2 ^ 128 /\ FastBlocksToBlock (v ++ [x]) = Some target.
Proof.
  intros v target F Bt.
  set (dk := GenDecKey (repeat 0 11) zero_block).
  assert (G : forall v prev, Forall blk v -> blk prev -> exists x, blk x /\ last (cbc_enc_from fixed_enc_key prev (v ++ [x])) 0 = target).
  { induction v0 as [|a v0 IH]; intros prev Fv Bp.
    - exists (N.lxor (Dec dk target) prev). split.
      + apply lxor_blk; auto. unfold dk. apply Dec_blk.
        split; [vm_compute; reflexivity|]. split; [vm_compute; reflexivity|].
        apply Forall_forall. intros z Hz. apply N.ltb_lt. revert z Hz. apply forallb_forall. vm_compute. reflexivity.
      + cbn [app cbc_enc_from last]. rewrite lxor_cancel. unfold dk, fixed_enc_key.
        exact (proj2 (C13_aes_round_trip (repeat 0 11) zero_block target eq_refl eq_refl Bt)).
    - inversion Fv; subst. destruct (IH (Enc fixed_enc_key (N.lxor a prev))) as (x & Bx & E); auto.
      { apply Enc_blk, fixed_ok. }
      exists x. split; auto. cbn [app cbc_enc_from].
      destruct (cbc_enc_from fixed_enc_key (Enc fixed_enc_key (N.lxor a prev)) (v0 ++ [x])) as [|? ?] eqn:Q.
      + destruct v0; discriminate Q.
      + exact E. }
  destruct (G v IV F eq_refl) as (x & Bx & E). exists x. split; auto.
  unfold FastBlocksToBlock. destruct (CBCEnc_last fixed_enc_key (v ++ [x])) as (c & Ec & Eq); [destruct v; discriminate|].
  rewrite Ec, Eq, E. auto.
Qed.

Theorem C78_fast_hash_collision_refuted : forall a b a', a < 2 ^ 128 -> b < 2 ^ 128 -> a' < 2 ^ 128 -> a' <> a ->
  exists b', [a'; b'] <> [a; b] /\ exists d, FastBlocksToBlock [a'; b'] = Some d /\ FastBlocksToBlock [a; b] = Some d.
Proof.
  intros a b a' Ba Bb Ba' NE.
  destruct (FastBlocksToBlock [a; b]) as [d|] eqn:E; [|discriminate].
  assert (Bd : blk d).
  { unfold FastBlocksToBlock in E. cbn [CBCEnc cbc_enc_from length Nat.sub nth] in E. injection E as <-. apply Enc_blk, fixed_ok. }
  destruct (C78_fast_hash_preimage_refuted [a'] d) as (b' & _ & E'); auto.
  exists b'. split; [congruence|]. exists d. auto.
Qed.

Example ex_fast_hash : exists d, FastBlocksToBlock [1; 2; 3] = Some d /\ d <> 0.
Proof. eexists. split; [vm_compute; reflexivity|discriminate]. Qed.

Print Assumptions C13_aes_round_trip.
Print Assumptions C13_aes_ecb_round_trip.
Print Assumptions C13_aes_cbc_round_trip.
Print Assumptions C13_aes_cbc_empty_refuted.
Print Assumptions C13_fast_ecb_agrees.
Print Assumptions C13_sbox_is_fips197.
Print Assumptions C13_aes_is_fips197.
Print Assumptions C14_prg_stream.
Print Assumptions C14_prg_split.
Print Assumptions C14_prg_no_repeat.
Print Assumptions C14_prg_bytes_prefix.
Print Assumptions C14_prg_bytes_split_refuted.
Print Assumptions C14_prg_bytes_split_partial.
Print Assumptions C15_otp_round_trip.
Print Assumptions C19_cbcaes_depends_on_memory_refuted.
Print Assumptions C19_cbcaes_input_only_partial.
Print Assumptions C77_block_to_bytes_injective.
Print Assumptions C77_dedicated_hash_invertible_refuted.
Print Assumptions C78_fast_hash_preimage_refuted.
Print Assumptions C78_fast_hash_collision_refuted.

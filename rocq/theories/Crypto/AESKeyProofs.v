From Coq Require Import Arith NArith List Bool Lia Btauto.
From Coq Require Import ZifyBool ZifyNat ZifyN.
From Verif.Base Require Import Words ListX.
From Verif.Crypto Require Import BlockModel BlockProofs AESModel AESSpec AESProofs.
Import ListNotations.
Local Open Scope N_scope.

Definition kcore (a3 rc : N) : N := N.lxor (RotWord (SubWord a3)) rc.

Lemma lxor32 : forall a b, a < 2 ^ 32 -> b < 2 ^ 32 -> N.lxor a b < 2 ^ 32.
Proof. intros. apply lxor_lt; auto. Qed.

Lemma keygenassist_3 : forall x rc, rc < 2 ^ 32 -> dword (keygenassist x rc) 3 = kcore (dword x 3) rc.
Proof.
  intros. unfold keygenassist.
  destruct (dword_of (SubWord (dword x 1)) (N.lxor (RotWord (SubWord (dword x 1))) rc)
            (SubWord (dword x 3)) (N.lxor (RotWord (SubWord (dword x 3))) rc)) as (_ & _ & _ & E);
    auto using SubWord_lt, RotWord_lt, lxor32.
Qed.

Lemma EXPAND_spec : forall v1 v3 rc x' v3', rc < 2 ^ 32 -> dword v3 0 = 0 ->
  EXPAND_ASSIST (v1, v3) rc = (x', v3') -> blk v1 ->
  let t := kcore (dword v1 3) rc in
  dword x' 0 = N.lxor (dword v1 0) t /\
  dword x' 1 = N.lxor (dword v1 1) (N.lxor (dword v1 0) t) /\
  dword x' 2 = N.lxor (dword v1 2) (N.lxor (dword v1 1) (N.lxor (dword v1 0) t)) /\
  dword x' 3 = N.lxor (dword v1 3) (N.lxor (dword v1 2) (N.lxor (dword v1 1) (N.lxor (dword v1 0) t))) /\
  dword v3' 0 = 0 /\ blk x'.
Proof.
  intros v1 v3 rc x' v3' Hrc H0 E B t.
  unfold EXPAND_ASSIST in E. injection E as <- <-.
  set (u3 := shuffle_ps v3 v1 16).
  set (w1 := N.lxor v1 u3).
  set (y3 := shuffle_ps u3 w1 140).
  assert (U : dword u3 0 = 0 /\ dword u3 1 = 0 /\ dword u3 2 = dword v1 1 /\ dword u3 3 = dword v1 0).
  { unfold u3, shuffle_ps. change (N.to_nat (N.land (N.shiftr 16 (2 * 0)) 3)) with 0%nat.
    change (N.to_nat (N.land (N.shiftr 16 (2 * 1)) 3)) with 0%nat.
    change (N.to_nat (N.land (N.shiftr 16 (2 * 2)) 3)) with 1%nat.
    change (N.to_nat (N.land (N.shiftr 16 (2 * 3)) 3)) with 0%nat.
    destruct (dword_of (dword v3 0) (dword v3 0) (dword v1 1) (dword v1 0)) as (-> & -> & -> & ->); auto using dword_lt. }
  destruct U as (U0 & U1 & U2 & U3).
  assert (Y : dword y3 0 = 0 /\ dword y3 1 = dword u3 3 /\ dword y3 2 = dword w1 0 /\ dword y3 3 = dword w1 2).
  { unfold y3, shuffle_ps. change (N.to_nat (N.land (N.shiftr 140 (2 * 0)) 3)) with 0%nat.
    change (N.to_nat (N.land (N.shiftr 140 (2 * 1)) 3)) with 3%nat.
    change (N.to_nat (N.land (N.shiftr 140 (2 * 2)) 3)) with 0%nat.
    change (N.to_nat (N.land (N.shiftr 140 (2 * 3)) 3)) with 2%nat.
    destruct (dword_of (dword u3 0) (dword u3 3) (dword w1 0) (dword w1 2)) as (-> & -> & -> & ->); auto using dword_lt. }
  destruct Y as (Y0 & Y1 & Y2 & Y3).
  assert (S : forall i, (i < 4)%nat -> dword (shuffle_epi32 (keygenassist v1 rc) 255) i = t).
  { intros i Hi. unfold shuffle_epi32.
    change (N.to_nat (N.land (N.shiftr 255 (2 * 0)) 3)) with 3%nat.
    change (N.to_nat (N.land (N.shiftr 255 (2 * 1)) 3)) with 3%nat.
    change (N.to_nat (N.land (N.shiftr 255 (2 * 2)) 3)) with 3%nat.
    change (N.to_nat (N.land (N.shiftr 255 (2 * 3)) 3)) with 3%nat.
    rewrite keygenassist_3 by auto. fold t.
    assert (T : t < 2 ^ 32) by (apply lxor32; auto using RotWord_lt).
    destruct (dword_of t t t t) as (E0 & E1 & E2 & E3); auto.
    destruct i as [|[|[|[|i]]]]; auto; lia. }
  rewrite !dword_lxor, !S by lia. unfold w1 in *. rewrite !dword_lxor, Y0, Y1, Y2, Y3, !dword_lxor, U0, U1, U2, U3.
  clearbody t. do 4 (split; [xbits|]). split; [reflexivity|].
  repeat apply lxor_blk; auto.
  - unfold u3, shuffle_ps. apply of_dwords_lt; apply dword_lt.
  - unfold y3, shuffle_ps. apply of_dwords_lt; apply dword_lt.
  - unfold shuffle_epi32. apply of_dwords_lt; apply dword_lt.
Qed.

Definition st (salt : N) (m : nat) : N * N := fold_left EXPAND_ASSIST (firstn m rcons) (salt, 0).

Lemma expand_nth : forall rcs v m, (m <= length rcs)%nat ->
  nth m (fst v :: expand v rcs) 0 = fst (fold_left EXPAND_ASSIST (firstn m rcs) v).
Proof.
  induction rcs as [|rc rcs IH]; intros v m Hm.
  - assert (m = 0)%nat by (cbn in Hm; lia). subst. reflexivity.
  - destruct m as [|m]; [reflexivity|]. cbn [firstn fold_left expand nth].
    apply (IH (EXPAND_ASSIST v rc)). cbn in Hm. lia.
Qed.

Lemma firstn_S_snoc : forall (l : list N) m, (m < length l)%nat -> firstn (S m) l = firstn m l ++ [nth m l 0].
Proof.
  induction l as [|a l IH]; intros m Hm; [cbn in Hm; lia|].
  destruct m as [|m]; [reflexivity|]. cbn [firstn app nth]. f_equal. apply IH. cbn in Hm. lia.
Qed.

Lemma st_S : forall salt m, (m < 10)%nat -> st salt (S m) = EXPAND_ASSIST (st salt m) (nth m rcons 0).
Proof. intros. unfold st. rewrite firstn_S_snoc by exact H. rewrite fold_left_app. reflexivity. Qed.

Lemma rk_st : forall salt m, (m <= 10)%nat -> rk (GenEncKey salt) m = fst (st salt m).
Proof. intros. unfold rk, GenEncKey. cbn [roundkey]. apply (expand_nth rcons (salt, 0)). auto. Qed.

Lemma rcon_lt : forall m, nth m rcons 0 < 2 ^ 32.
Proof. intros m. do 10 (destruct m as [|m]; [reflexivity|]). destruct m; reflexivity. Qed.

Lemma st_inv : forall salt m, blk salt -> (m <= 10)%nat -> blk (fst (st salt m)) /\ dword (snd (st salt m)) 0 = 0.
Proof.
  intros salt m B. induction m as [|m IH]; intros Hm; [split; auto|].
  rewrite st_S by lia. destruct IH as (I1 & I2); [lia|].
  destruct (st salt m) as [v1 v3]. cbn [fst snd] in *.
  destruct (EXPAND_ASSIST (v1, v3) (nth m rcons 0)) as [x' v3'] eqn:E.
  destruct (EXPAND_spec v1 v3 _ x' v3' (rcon_lt m) I2 E I1) as (_ & _ & _ & _ & ? & ?). auto.
Qed.

Lemma expand_length : forall rcs v, length (expand v rcs) = length rcs.
Proof. induction rcs; intros; cbn [expand length]; auto. Qed.

Lemma GenEncKey_ok : forall salt, blk salt -> key_ok (GenEncKey salt).
Proof.
  intros salt B. split; [reflexivity|].
  assert (L : length (roundkey (GenEncKey salt)) = 11%nat).
  { unfold GenEncKey. cbn [roundkey length]. rewrite expand_length. reflexivity. }
  split; [exact L|]. apply Forall_forall. intros x Hx. apply (In_nth _ _ 0) in Hx. destruct Hx as (j & Hj & <-).
  rewrite L in Hj. fold (rk (GenEncKey salt) j). rewrite rk_st by lia. apply st_inv; auto. lia.
Qed.

(** ** Agreement with FIPS-197 *)
Lemma testbit_le_bytes : forall n x i j, (i < n)%nat -> j < 8 ->
  N.testbit (nth i (le_bytes n x) 0) j = N.testbit x (8 * N.of_nat i + j).
Proof.
  induction n; intros x i j Hi Hj; [lia|]. cbn [le_bytes]. destruct i as [|i].
  - cbn [nth]. change 256 with (2 ^ 8). rewrite N.mod_pow2_bits_low by auto. f_equal.
  - cbn [nth]. rewrite IHn by (auto; lia). change 256 with (2 ^ 8). rewrite N.div_pow2_bits. f_equal. lia.
Qed.

Lemma byte_ext : forall a b, a < 256 -> b < 256 -> (forall j, j < 8 -> N.testbit a j = N.testbit b j) -> a = b.
Proof.
  intros a b Ha Hb H. apply N.bits_inj. intros j. destruct (N.lt_ge_cases j 8); [auto|].
  change 256 with (2 ^ 8) in *. rewrite !(testbit_bounded 8); auto.
Qed.
Lemma le_bytes_byte : forall n x i, nth i (le_bytes n x) 0 < 256.
Proof.
  intros. destruct (Nat.lt_ge_cases i n).
  - pose proof (le_bytes_ok n x) as F. unfold bytes_ok in F. rewrite Forall_forall in F. apply F, nth_In. rewrite le_bytes_length. auto.
  - rewrite nth_overflow by (rewrite le_bytes_length; auto). reflexivity.
Qed.

(** byte i of dword j is byte 4 j + i of the block *)
Lemma dword_bytes : forall x j i, (i < 4)%nat -> (j < 4)%nat -> nth i (le_bytes 4 (dword x j)) 0 = nth (4 * j + i) (bytes16 x) 0.
Proof.
  intros x j i Hi Hj. apply byte_ext; try apply le_bytes_byte. intros k Hk. unfold bytes16.
  rewrite !testbit_le_bytes by (auto; lia). unfold dword, wrap32. rewrite testbit_wrap, N.shiftr_spec'.
  replace (8 * N.of_nat i + k <? 32) with true by lia. f_equal. lia.
Qed.

Definition wb (x : N) (j : nat) : list N := le_bytes 4 (dword x j).
Lemma wb_explicit : forall x j, (j < 4)%nat ->
  wb x j = [nth (4 * j) (bytes16 x) 0; nth (4 * j + 1) (bytes16 x) 0; nth (4 * j + 2) (bytes16 x) 0; nth (4 * j + 3) (bytes16 x) 0].
Proof.
  intros x j Hj. unfold wb. apply list_eq_nth with (d := 0); [apply le_bytes_length|].
  intros i Hi. rewrite le_bytes_length in Hi. rewrite dword_bytes by auto.
  destruct i as [|[|[|[|i]]]]; try lia; cbn [nth]; f_equal; lia.
Qed.

Lemma xorw_map2 : forall a b, length a = 4%nat -> length b = 4%nat -> xorw a b = map2 N.lxor a b.
Proof.
  intros a b La Lb. do 4 (destruct a as [|? a]; [discriminate La|]). destruct a; [|discriminate La].
  do 4 (destruct b as [|? b]; [discriminate Lb|]). destruct b; [|discriminate Lb]. reflexivity.
Qed.
Lemma xorw_le : forall a b, xorw (le_bytes 4 a) (le_bytes 4 b) = le_bytes 4 (N.lxor a b).
Proof. intros. rewrite xorw_map2 by apply le_bytes_length. rewrite le_bytes_lxor. auto. Qed.

Lemma subrot : forall w, spec_SubWord sub (spec_RotWord (le_bytes 4 w)) = le_bytes 4 (RotWord (SubWord w)).
Proof.
  intros. unfold RotWord, SubWord.
  destruct (SubWord_bytes_ok w) as (L & F).
  assert (E : le_bytes 4 (le_val (map sub (le_bytes 4 w))) = map sub (le_bytes 4 w))
    by (rewrite <- L at 1; apply le_bytes_val; auto).
  rewrite E. pose proof (le_bytes_length 4 w) as L4.
  remember (le_bytes 4 w) as l. clear E Heql.
  do 4 (destruct l as [|? l]; [discriminate L4|]). destruct l; [|discriminate L4].
  cbn [map app spec_RotWord nth spec_SubWord].
  inversion F; subst. symmetry. apply (le_bytes_val [sub n0; sub n1; sub n2; sub n]).
  repeat constructor; apply sub_lt.
Qed.

Lemma Rcon_le : forall m, (m < 10)%nat -> Rcon (S m) = le_bytes 4 (nth m rcons 0).
Proof. intros m Hm. do 10 (destruct m as [|m]; [reflexivity|]). lia. Qed.

Lemma spec_words_length : forall S0 key n, length (spec_words S0 key n) = (4 * (n + 1))%nat.
Proof. induction n; [reflexivity|]. cbn [spec_words]. rewrite app_length, IHn. cbn [length]. lia. Qed.

Lemma spec_words_st : forall salt m, blk salt -> (m <= 10)%nat ->
  forall r i, (r <= m)%nat -> (i < 4)%nat -> nth (4 * r + i) (spec_words sub (bytes16 salt) m) [] = wb (fst (st salt r)) i.
Proof.
  intros salt m B. induction m as [|m IH]; intros Hm r i Hr Hi.
  - assert (r = 0)%nat by lia. subst r. unfold st. cbn [firstn fold_left fst].
    rewrite wb_explicit by auto.
    destruct (bytes16_state salt) as (L & _). remember (bytes16 salt) as s. clear Heqs.
    do 16 (destruct s as [|? s]; [discriminate L|]). destruct s; [|discriminate L].
    destruct i as [|[|[|[|i]]]]; try lia; reflexivity.
  - assert (Lw : length (spec_words sub (bytes16 salt) m) = (4 * (m + 1))%nat) by apply spec_words_length.
    cbn [spec_words]. destruct (Nat.eq_dec r (S m)) as [->|].
    + rewrite app_nth2 by lia. rewrite Lw. replace (4 * S m + i - 4 * (m + 1))%nat with i by lia.
      rewrite Rcon_le by lia.
      pose proof (IH ltac:(lia) m 0%nat ltac:(lia) ltac:(lia)) as P0.
      pose proof (IH ltac:(lia) m 1%nat ltac:(lia) ltac:(lia)) as P1.
      pose proof (IH ltac:(lia) m 2%nat ltac:(lia) ltac:(lia)) as P2.
      pose proof (IH ltac:(lia) m 3%nat ltac:(lia) ltac:(lia)) as P3.
      rewrite P0, P1, P2, P3. unfold wb.
      rewrite subrot. rewrite !xorw_le.
      rewrite st_S by lia. destruct (st_inv salt m B ltac:(lia)) as (I1 & I2).
      destruct (st salt m) as [v1 v3]. cbn [fst snd] in *.
      destruct (EXPAND_ASSIST (v1, v3) (nth m rcons 0)) as [x' v3'] eqn:E.
      destruct (EXPAND_spec v1 v3 _ x' v3' (rcon_lt m) I2 E I1) as (E0 & E1 & E2 & E3 & _ & _).
      cbn [fst]. unfold kcore in *.
      destruct i as [|[|[|[|i]]]]; try lia; cbn [nth]; f_equal; symmetry; auto.
    + rewrite app_nth1 by lia. apply IH; lia.
Qed.

Lemma round_key_spec : forall salt j, blk salt -> (j <= 10)%nat ->
  spec_round_key sub (bytes16 salt) j = bytes16 (rk (GenEncKey salt) j).
Proof.
  intros salt j B Hj. rewrite rk_st by auto. unfold spec_round_key.
  cbn [seq flat_map]. rewrite !spec_words_st by (auto; lia). rewrite !wb_explicit by lia.
  destruct (bytes16_state (fst (st salt j))) as (L & _). remember (bytes16 (fst (st salt j))) as s. clear Heqs.
  do 16 (destruct s as [|? s]; [discriminate L|]). destruct s; [|discriminate L]. reflexivity.
Qed.

Lemma gf23 : forall b, b < 256 -> gf_mul 2 b = m2 b /\ gf_mul 3 b = m3 b.
Proof.
  intros b Hb. assert (A : (gf_mul 2 b =? m2 b) && (gf_mul 3 b =? m3 b) = true).
  { revert b Hb. apply forall_byte. vm_compute. reflexivity. }
  apply andb_true_iff in A. rewrite !N.eqb_eq in A. auto.
Qed.

Lemma ark_spec : forall x k, state x -> state k -> spec_AddRoundKey x k = map2 N.lxor x k.
Proof. intros x k. destr16 x. destr16 k. reflexivity. Qed.

Lemma round_spec : forall s, state s ->
  spec_MixColumns (spec_ShiftRows (spec_SubBytes sub s)) = MixColumns (SubBytes (ShiftRows s)).
Proof.
  intros s. destr16 s.
  cbv [spec_SubBytes spec_ShiftRows spec_MixColumns build seq flat_map map app at_ Nat.add Nat.mul nth Nat.modulo Nat.divmod
       fst snd Nat.sub ShiftRows permute shift_ix SubBytes MixColumns].
  pose proof sub_lt as SL.
  repeat match goal with |- context [gf_mul 2 (sub ?x)] => rewrite (proj1 (gf23 (sub x) (SL x))) end.
  repeat match goal with |- context [gf_mul 3 (sub ?x)] => rewrite (proj2 (gf23 (sub x) (SL x))) end.
  unfold xor4. repeat match goal with |- _ :: _ = _ :: _ => f_equal end; xbits.
Qed.
Lemma last_spec : forall s, state s -> spec_ShiftRows (spec_SubBytes sub s) = SubBytes (ShiftRows s).
Proof. intros s. destr16 s. reflexivity. Qed.

Lemma bytes16_lxor : forall a b, bytes16 (N.lxor a b) = map2 N.lxor (bytes16 a) (bytes16 b).
Proof. intros. apply le_bytes_lxor. Qed.

Lemma Enc_FIPS : forall salt d, blk salt -> blk d ->
  bytes16 (Enc (GenEncKey salt) d) = spec_Cipher sub (bytes16 salt) (bytes16 d).
Proof.
  intros salt d B Bd. unfold spec_Cipher, Enc. change (ROUND_NUM (GenEncKey salt)) with 10%nat. cbn [Nat.sub].
  assert (G : forall js x s, (forall j, In j js -> (j <= 10)%nat) -> bytes16 x = s ->
     bytes16 (fold_left (fun d j => aesenc d (rk (GenEncKey salt) j)) js x) =
     fold_left (fun s j => spec_AddRoundKey (spec_MixColumns (spec_ShiftRows (spec_SubBytes sub s)))
        (spec_round_key sub (bytes16 salt) j)) js s).
  { induction js as [|j js IH]; intros x s HJ E; [auto|]. cbn [fold_left]. apply IH; [intros; apply HJ; right; auto|].
    subst s. unfold aesenc. rewrite bytes16_lxor.
    rewrite bytes16_val by (apply MixColumns_state, SubBytes_state, ShiftRows_state, bytes16_state).
    rewrite round_spec by apply bytes16_state.
    rewrite round_key_spec by (auto; apply HJ; left; auto).
    rewrite ark_spec; auto using bytes16_state, MixColumns_state, SubBytes_state, ShiftRows_state. }
  unfold aesenclast. rewrite bytes16_lxor.
  rewrite bytes16_val by (apply SubBytes_state, ShiftRows_state, bytes16_state).
  rewrite <- last_spec by apply bytes16_state.
  rewrite (G (seq 1 9) (N.lxor d (rk (GenEncKey salt) 0)) (spec_AddRoundKey (bytes16 d) (spec_round_key sub (bytes16 salt) 0))).
  - rewrite <- (round_key_spec salt 10) by (auto; lia). symmetry. rewrite ark_spec; auto.
    + match goal with |- state (spec_ShiftRows (spec_SubBytes sub ?z)) => assert (ST : state z) end.
      { rewrite <- (G (seq 1 9) (N.lxor d (rk (GenEncKey salt) 0))).
        - apply bytes16_state.
        - intros j Hj. apply in_seq in Hj. lia.
        - rewrite bytes16_lxor, round_key_spec by (auto; lia). rewrite ark_spec; auto using bytes16_state. }
      rewrite last_spec by auto. auto using SubBytes_state, ShiftRows_state.
    + rewrite round_key_spec by (auto; lia). apply bytes16_state.
  - intros j Hj. apply in_seq in Hj. lia.
  - rewrite bytes16_lxor, round_key_spec by (auto; lia). rewrite ark_spec; auto using bytes16_state.
Qed.

(** ** Modes *)
Lemma enc_batch_map : forall k l, enc_batch k l = map (Enc k) l.
Proof.
  intros k l. unfold enc_batch, Enc.
  assert (G : forall js l, fold_left (fun t r => map (fun b => aesenc b (rk k r)) t) js l =
                    map (fun b => fold_left (fun d j => aesenc d (rk k j)) js b) l).
  { induction js as [|j js IH]; intros l0; cbn [fold_left]; [symmetry; apply map_id|]. rewrite IH, map_map. auto. }
  rewrite G, !map_map. auto.
Qed.
Lemma FastECB_map : forall k l, FastECBEnc k l = map (Enc k) l.
Proof.
  intros k l. unfold FastECBEnc. generalize (length l / 8)%nat as n. intros n. revert l.
  induction n; intros l; cbn [enc_batches]; auto.
  rewrite enc_batch_map, IHn, <- map_app, firstn_skipn. auto.
Qed.

Section CBC.
Variables (k dk : Key).
Hypothesis Kok : key_ok k.
Hypothesis DE : forall d, blk d -> Dec dk (Enc k d) = d.

Lemma cbc_enc_length : forall data prev, length (cbc_enc_from k prev data) = length data.
Proof. induction data; intros; cbn [cbc_enc_from length]; auto. Qed.
Lemma cbc_enc_nth : forall data prev i, (i < length data)%nat ->
  nth i (cbc_enc_from k prev data) 0 =
  Enc k (N.lxor (nth i data 0) (match i with O => prev | S j => nth j (cbc_enc_from k prev data) 0 end)).
Proof.
  induction data as [|d r IH]; intros prev i Hi; [cbn in Hi; lia|]. cbn [cbc_enc_from].
  destruct i as [|i]; [reflexivity|]. cbn [nth]. rewrite IH by (cbn in Hi; lia).
  destruct i; reflexivity.
Qed.

Lemma dec_loop_spec : forall n data, (n < length data)%nat ->
  length (cbc_dec_loop dk n data) = length data /\
  forall i, (i < length data)%nat -> nth i (cbc_dec_loop dk n data) 0 =
    if Nat.leb 1 i && Nat.leb i n then N.lxor (Dec dk (nth i data 0)) (nth (i - 1) data 0) else nth i data 0.
Proof.
  induction n; intros data Hn.
  - cbn [cbc_dec_loop]. split; auto. intros i Hi.
    destruct (Nat.leb_spec 1 i), (Nat.leb_spec i 0); cbn [andb]; auto; lia.
  - cbn [cbc_dec_loop]. destruct (IHn (upd data (S n) (N.lxor (Dec dk (nth (S n) data 0)) (nth n data 0)))) as (L & V).
    { rewrite upd_length. lia. }
    rewrite upd_length in *. split; [auto|]. intros i Hi. rewrite V by auto.
    destruct (Nat.eq_dec i (S n)) as [->|Ni].
    + replace (Nat.leb (S n) n) with false by (symmetry; apply Nat.leb_gt; lia). rewrite andb_false_r.
      rewrite nth_upd_same by auto.
      replace (Nat.leb 1 (S n) && Nat.leb (S n) (S n)) with true
        by (symmetry; apply andb_true_iff; split; apply Nat.leb_le; lia).
      do 2 f_equal. lia.
    + assert (Nat.leb i n = Nat.leb i (S n)) as -> by (destruct (Nat.leb_spec i n), (Nat.leb_spec i (S n)); lia || auto).
      rewrite (nth_upd_other _ (S n)) by lia.
      destruct (Nat.leb_spec 1 i), (Nat.leb_spec i (S n)); cbn [andb]; auto.
      rewrite nth_upd_other by lia. auto.
Qed.

Lemma CBCDec_nonempty : forall c, (0 < length c)%nat ->
  CBCDec dk c = Some (upd (cbc_dec_loop dk (length c - 1) c) 0
                        (N.lxor (Dec dk (nth 0 (cbc_dec_loop dk (length c - 1) c) 0)) IV)).
Proof. intros [|x c] H; [cbn in H; lia|reflexivity]. Qed.

Lemma CBC_round_trip : forall data c, Forall blk data -> CBCEnc k data = Some c -> CBCDec dk c = Some data.
Proof.
  intros data c F E.
  assert (Ld : (0 < length data)%nat) by (destruct data; [discriminate E|cbn; lia]).
  assert (Ec : c = cbc_enc_from k IV data) by (destruct data; [discriminate E|injection E as <-; auto]).
  assert (Lc : length c = length data) by (rewrite Ec; apply cbc_enc_length).
  rewrite CBCDec_nonempty by lia.
  destruct (dec_loop_spec (length c - 1) c) as (L & V); [lia|].
  f_equal. apply list_eq_nth with (d := 0); [rewrite upd_length; lia|].
  intros i Hi. rewrite upd_length in Hi. rewrite L in Hi.
  assert (Bd : blk (nth i data 0)) by (rewrite Forall_forall in F; apply F, nth_In; lia).
  assert (Bc : forall j, blk (nth j c 0)).
  { intros j. destruct (Nat.lt_ge_cases j (length data)).
    - rewrite Ec, cbc_enc_nth by auto. apply Enc_blk; auto.
    - rewrite nth_overflow by lia. reflexivity. }
  assert (N1 : nth i c 0 = Enc k (N.lxor (nth i data 0) (match i with O => IV | S j => nth j c 0 end))).
  { rewrite Ec. apply cbc_enc_nth. lia. }
  destruct i as [|i].
  - rewrite nth_upd_same by lia.
    rewrite V by lia. cbn [Nat.leb andb].
    rewrite N1, DE by (apply lxor_blk; auto; reflexivity). apply lxor_cancel.
  - rewrite nth_upd_other by lia. rewrite V by auto.
    replace (Nat.leb 1 (S i) && Nat.leb (S i) (length c - 1)) with true
      by (symmetry; apply andb_true_iff; split; apply Nat.leb_le; lia).
    replace (S i - 1)%nat with i by lia.
    rewrite N1, DE by (apply lxor_blk; auto). apply lxor_cancel.
Qed.

(** equal ciphertexts come from equal plaintexts: CBC is injective *)
Lemma cbc_enc_inj : forall a b prev, length a = length b -> Forall blk a -> Forall blk b -> blk prev ->
  cbc_enc_from k prev a = cbc_enc_from k prev b -> a = b.
Proof.
  induction a as [|x a IH]; intros [|y b] prev L Fa Fb Bp E; try discriminate L; auto.
  inversion Fa; subst. inversion Fb; subst. cbn [cbc_enc_from] in E. injection E as E1 E2.
  apply Enc_inj in E1; auto using lxor_blk.
  assert (x = y) by (rewrite <- (lxor_cancel x prev), E1; apply lxor_cancel). subst y.
  f_equal. eapply IH; [| | | |exact E2]; auto using Enc_blk.
Qed.

(** the last ciphertext block determines the last plaintext block, given the earlier blocks *)
Lemma cbc_last_inj : forall a x y prev, Forall blk a -> blk x -> blk y -> blk prev ->
  last (cbc_enc_from k prev (a ++ [x])) 0 = last (cbc_enc_from k prev (a ++ [y])) 0 -> x = y.
Proof.
  induction a as [|p a IH]; intros x y prev Fa Bx By Bp E.
  - cbn in E. apply Enc_inj in E; auto using lxor_blk. rewrite <- (lxor_cancel x prev), E. apply lxor_cancel.
  - inversion Fa; subst. cbn [app cbc_enc_from] in E.
    assert (LC : forall (u v : N) (l : list N), l <> [] -> last (u :: l) v = last l v) by (intros u v [|? ?] H; [congruence|reflexivity]).
    assert (NE : forall z q, cbc_enc_from k q (a ++ [z]) <> []) by (intros z q; destruct a; discriminate).
    rewrite !LC in E by apply NE. eapply IH; [| | | |exact E]; auto using Enc_blk.
Qed.
End CBC.

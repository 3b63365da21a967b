From Coq Require Import NArith ZArith List Bool Arith Lia.
From Coq Require Import ZifyBool ZifyNat ZifyN.
From Verif.Base Require Import Words ListX Mem.
From Verif.Utility Require Import SerialModel SerialProofs.
From Verif.Crypto Require Import BigIntModel BlockModel BlockProofs BlockProps AESModel AESProofs AESKeyProofs PRGModel PRGProofs.
From Verif.Group Require Import ECModel ECProofs.
From Verif.Net Require Import ChannelModel ChannelSpec PartyModel PartyProofs.
From Verif.OT Require Import OTModel OTSpec.
Import ListNotations.

(** ** vectors of blocks as strings of bits *)
Definition vbit (V : list N) (i : nat) : bool := N.testbit (nth (i / 128) V 0%N) (N.of_nat (i mod 128)).
Local Notation Blk := (Forall (fun x => (x < 2 ^ 128)%N)).

Lemma Forall_firstn : forall A (P : A -> Prop) n l, Forall P l -> Forall P (firstn n l).
Proof. intros A P n l F. apply Forall_forall. intros x H. rewrite Forall_forall in F. apply F. rewrite <- (firstn_skipn n l). apply in_or_app. left. exact H. Qed.
Lemma Forall_skipn : forall A (P : A -> Prop) n l, Forall P l -> Forall P (skipn n l).
Proof. intros A P n l F. apply Forall_forall. intros x H. rewrite Forall_forall in F. apply F. rewrite <- (firstn_skipn n l). apply in_or_app. right. exact H. Qed.
Lemma div_mul_add : forall k i j, (j < k)%nat -> ((i * k + j) / k = i /\ (i * k + j) mod k = j)%nat.
Proof.
  intros k i j H. split.
  - rewrite Nat.div_add_l by lia. rewrite Nat.div_small by lia. lia.
  - rewrite Nat.add_comm, Nat.mod_add by lia. apply Nat.mod_small. lia.
Qed.

Lemma vec_bytes_nth : forall V b, (b < length V * 16)%nat ->
  nth b (vec_bytes 16 V) 0%N = nth (b mod 16) (le_bytes 16 (nth (b / 16) V 0%N)) 0%N.
Proof.
  induction V as [|x V IH]; intros b H; cbn [length] in H; [lia|]. cbn [vec_bytes].
  destruct (Nat.lt_ge_cases b 16) as [L|L].
  - rewrite app_nth1 by (rewrite le_bytes_length; exact L). rewrite Nat.div_small, Nat.mod_small by lia. reflexivity.
  - rewrite app_nth2 by (rewrite le_bytes_length; lia). rewrite le_bytes_length. rewrite IH by lia.
    replace b with (1 * 16 + (b - 16))%nat at 3 4 by lia.
    rewrite Nat.div_add_l by lia. rewrite (Nat.add_comm (1 * 16)), Nat.mod_add by lia. reflexivity.
Qed.
Lemma nth_blk : forall V i, Blk V -> (nth i V 0 < 2 ^ 128)%N.
Proof. intros V i F. destruct (Nat.lt_ge_cases i (length V)); [apply Forall_nth; assumption|]. rewrite nth_overflow by lia. reflexivity. Qed.
Lemma vec_bytes_bit : forall V b k, Blk V -> (b < length V * 16)%nat -> (k < 8)%nat ->
  N.testbit (nth b (vec_bytes 16 V) 0%N) (N.of_nat k) = vbit V (8 * b + k).
Proof.
  intros V b k F H K. rewrite vec_bytes_nth by exact H. unfold vbit.
  assert (D : ((8 * b + k) / 128 = b / 16)%nat).
  { replace 128%nat with (8 * 16)%nat by lia. rewrite <- Nat.div_div by lia. rewrite (Nat.mul_comm 8 b), Nat.div_add_l by lia. rewrite (Nat.div_small k 8) by lia. f_equal. lia. }
  assert (M : ((8 * b + k) mod 128 = 8 * (b mod 16) + k)%nat).
  { assert (X := Nat.div_mod (8 * b + k) 128 ltac:(lia)). rewrite D in X. assert (Y := Nat.div_mod b 16 ltac:(lia)). lia. }
  rewrite D, M. assert (B := nth_blk V (b / 16) F). set (x := nth (b / 16) V 0%N) in *.
  transitivity (N.testbit (le_val (le_bytes 16 x)) (N.of_nat (8 * (b mod 16) + k))).
  - replace (N.of_nat (8 * (b mod 16) + k)) with (8 * N.of_nat (b mod 16) + N.of_nat k)%N by lia.
    symmetry. apply le_val_bit; [apply le_bytes_ok|lia].
  - rewrite le_val_bytes; [reflexivity|exact B].
Qed.
Lemma vec_bytes_ok : forall V, bytes_ok (vec_bytes 16 V).
Proof. induction V as [|x V IH]; [constructor|]. cbn [vec_bytes]. apply bytes_ok_app; [apply le_bytes_ok|exact IH]. Qed.
Lemma bytes_vec_spec : forall n o, length o = (n * 16)%nat -> bytes_ok o ->
  vec_bytes 16 (bytes_vec 16 n o) = o /\ length (bytes_vec 16 n o) = n /\ Blk (bytes_vec 16 n o).
Proof.
  induction n as [|n IH]; intros o L B.
  - destruct o; [|cbn in L; lia]. repeat split. constructor.
  - cbn [bytes_vec vec_bytes length].
    assert (L1 : length (firstn 16 o) = 16%nat) by (rewrite firstn_length; lia).
    assert (B1 : bytes_ok (firstn 16 o)) by (apply Forall_firstn; exact B).
    assert (B2 : bytes_ok (skipn 16 o)) by (apply Forall_skipn; exact B).
    destruct (IH (skipn 16 o)) as [E [E2 E3]]; [rewrite skipn_length; lia|exact B2|].
    split; [|split; [rewrite E2; reflexivity|]].
    + rewrite E. rewrite <- L1 at 1. rewrite le_bytes_val by exact B1. apply firstn_skipn.
    + constructor; [|exact E3]. assert (X := le_val_lt _ B1). rewrite L1 in X. exact X.
Qed.
Lemma vbit_ext : forall V W, length V = length W -> Blk V -> Blk W -> (forall i, (i < length V * 128)%nat -> vbit V i = vbit W i) -> V = W.
Proof.
  intros V W L FV FW E. apply list_eq_nth with (d := 0%N); [exact L|]. intros p Hp.
  apply N.bits_inj. intros k. destruct (N.lt_ge_cases k 128) as [Hk|Hk].
  - specialize (E (p * 128 + N.to_nat k)%nat ltac:(lia)). unfold vbit in E.
    destruct (div_mul_add 128 p (N.to_nat k) ltac:(lia)) as [D M]. rewrite D, M, N2Nat.id in E. exact E.
  - rewrite !(testbit_bounded 128) by (try exact Hk; apply nth_blk; assumption). reflexivity.
Qed.
Lemma vbit_xor : forall A B i, length A = length B -> (i < length A * 128)%nat -> vbit (map2 N.lxor A B) i = xorb (vbit A i) (vbit B i).
Proof.
  intros A B i L H. unfold vbit. assert (i / 128 < length A)%nat by (apply Nat.div_lt_upper_bound; lia).
  rewrite map2_nth with (a := 0%N) (b := 0%N) by lia. apply N.lxor_spec.
Qed.
Lemma map2_xor_blk : forall A B, Blk A -> Blk B -> Blk (map2 N.lxor A B).
Proof.
  intros A B FA. revert B. induction FA as [|a A Ha FA IH]; intros B FB; [constructor|]. destruct FB as [|b B Hb FB]; cbn [map2]; [constructor|].
  constructor; [apply (lxor_lt 128); assumption|apply IH; exact FB].
Qed.
Lemma sparse_vbit : forall n bits j, length bits = (128 * n)%nat -> (j < 128 * n)%nat ->
  vbit (FromSparseBytes n bits) j = negb (nth j bits 0 =? 0)%N.
Proof.
  intros n bits j L H. unfold vbit. assert (j / 128 < n)%nat by (apply Nat.div_lt_upper_bound; lia).
  assert (j mod 128 < 128)%nat by (apply Nat.mod_upper_bound; lia).
  rewrite FromSparseBytes_spec by (try exact L; lia). rewrite Nat2N.id.
  assert (X := Nat.div_mod j 128 ltac:(lia)). do 3 f_equal. lia.
Qed.
Lemma sparse_blk : forall n bits, Blk (FromSparseBytes n bits).
Proof.
  assert (S : forall sp k acc, (k <= 127)%nat -> (acc < 2 ^ 128)%N -> (sparse_loop sp k acc < 2 ^ 128)%N).
  { induction sp as [|b sp IH]; intros k acc K A; [exact A|]. cbn [sparse_loop]. apply IH; [lia|]. destruct (b =? 0)%N; [exact A|].
    apply bounded_by_bits. intros i Hi. rewrite SetBit_spec by lia. rewrite (testbit_bounded 128) by assumption. cbn [orb]. lia. }
  induction n as [|n IH]; intros bits; [constructor|]. cbn [FromSparseBytes]. constructor; [|apply IH]. unfold FromSparseBlock. apply S; [lia|reflexivity].
Qed.

(** transposing block matrices *)
Lemma transpose_blocks : forall stale M COL ROW, Forall is_byte stale -> (ROW mod 128 = 0)%nat -> (COL mod 128 = 0)%nat -> (0 < COL)%nat ->
  length M = (COL * (ROW / 128))%nat -> Blk M ->
  exists MT, transpose stale M COL ROW = Some MT /\ length MT = length M /\ Blk MT /\
    forall i j, (i < ROW)%nat -> (j < COL)%nat -> vbit MT (i * COL + j) = vbit M (j * ROW + i).
Proof.
  intros stale M COL ROW FS HR HC HP L F.
  assert (ER : ROW = (128 * (ROW / 128))%nat) by (assert (X := Nat.div_mod ROW 128 ltac:(lia)); lia).
  assert (EC : COL = (128 * (COL / 128))%nat) by (assert (X := Nat.div_mod COL 128 ltac:(lia)); lia).
  set (rr := (ROW / 128)%nat) in *. set (cc := (COL / 128)%nat) in *.
  assert (R8 : (ROW / 8 = 16 * rr)%nat) by (rewrite ER; replace (128 * rr)%nat with (16 * rr * 8)%nat by lia; apply Nat.div_mul; lia).
  assert (C8 : (COL / 8 = 16 * cc)%nat) by (rewrite EC; replace (128 * cc)%nat with (16 * cc * 8)%nat by lia; apply Nat.div_mul; lia).
  destruct (C10_transpose_exact COL ROW (vec_bytes 16 M) (repeat 0%N (16 * length M)) stale) as [res [E [LR [FR B]]]].
  - unfold shape_ok. split; [|split; [|split; [lia|left]]].
    + rewrite EC. replace (128 * cc)%nat with (16 * cc * 8)%nat by lia. apply Nat.mod_mul. lia.
    + rewrite ER. replace (128 * rr)%nat with (16 * rr * 8)%nat by lia. apply Nat.mod_mul. lia.
    + rewrite EC. replace (128 * cc)%nat with (8 * cc * 16)%nat by lia. apply Nat.mod_mul. lia.
  - rewrite vec_bytes_length, L, R8. lia.
  - apply vec_bytes_ok.
  - rewrite repeat_length, L, C8. nia.
  - exact FS.
  - unfold transpose. rewrite E.
    destruct (bytes_vec_spec (length M) res) as [X1 [X2 X3]]; [rewrite LR, C8, L; nia|exact FR|].
    eexists. split; [reflexivity|]. split; [exact X2|]. split; [exact X3|].
    intros i j Hi Hj. specialize (B j i Hj Hi). unfold mat_bit in B.
    assert (Mi := Nat.div_mod i 8 ltac:(lia)). assert (Mj := Nat.div_mod j 8 ltac:(lia)).
    assert (Bi : (i mod 8 < 8)%nat) by (apply Nat.mod_upper_bound; lia). assert (Bj : (j mod 8 < 8)%nat) by (apply Nat.mod_upper_bound; lia).
    assert (Di : (i / 8 < ROW / 8)%nat) by (rewrite R8; lia). assert (Dj : (j / 8 < COL / 8)%nat) by (rewrite C8; lia).
    rewrite vec_bytes_bit in B; [|exact F| |exact Bi].
    2: { rewrite L. rewrite R8 in *. nia. }
    rewrite <- X1 in B. rewrite vec_bytes_bit in B; [|exact X3| |exact Bj].
    2: { rewrite X2, L. rewrite C8 in *. nia. }
    rewrite R8, C8 in B.
    replace (i * COL + j)%nat with (8 * (i * (16 * cc) + j / 8) + j mod 8)%nat by nia.
    replace (j * ROW + i)%nat with (8 * (j * (16 * rr) + i / 8) + i mod 8)%nat by nia. exact B.
Qed.

Lemma row_length : forall M COL ROW i, (COL mod 128 = 0)%nat -> length M = (COL * (ROW / 128))%nat -> (ROW mod 128 = 0)%nat -> (i < ROW)%nat ->
  length (row M COL i) = (COL / 128)%nat.
Proof.
  intros M COL ROW i HC L HR Hi. unfold row. rewrite firstn_length, skipn_length, L.
  assert (X := Nat.div_mod COL 128 ltac:(lia)). assert (Y := Nat.div_mod ROW 128 ltac:(lia)).
  set (c := (COL / 128)%nat) in *. set (r := (ROW / 128)%nat) in *. replace (i * COL)%nat with (i * c * 128)%nat by nia.
  rewrite Nat.div_mul by lia. rewrite Nat.min_l; [reflexivity|]. nia.
Qed.
Lemma row_bit : forall M COL i j, (COL mod 128 = 0)%nat -> (j < COL)%nat -> vbit (row M COL i) j = vbit M (i * COL + j).
Proof.
  intros M COL i j HC Hj. unfold row, vbit. assert (X := Nat.div_mod COL 128 ltac:(lia)). set (c := (COL / 128)%nat) in *.
  replace (i * COL)%nat with (i * c * 128)%nat by nia. rewrite Nat.div_mul by lia.
  rewrite nth_firstn_lt by (apply Nat.div_lt_upper_bound; lia). rewrite nth_skipn.
  rewrite Nat.div_add_l by lia. rewrite (Nat.add_comm (i * c * 128) j), Nat.mod_add by lia. reflexivity.
Qed.
Lemma row_blk : forall M COL i, Blk M -> Blk (row M COL i).
Proof. intros M COL i F. unfold row. apply Forall_firstn, Forall_skipn, F. Qed.

(** ** the AES based pieces *)
Lemma cbc_blk : forall v prev, Forall blk (cbc_enc_from fixed_enc_key prev v).
Proof. induction v as [|x v IH]; intros prev; cbn [cbc_enc_from]; constructor; [apply Enc_blk, fixed_ok|apply IH]. Qed.
Lemma cbc_length : forall v k prev, length (cbc_enc_from k prev v) = length v.
Proof. induction v as [|x v IH]; intros k prev; cbn [cbc_enc_from length]; [|rewrite IH]; reflexivity. Qed.
Lemma fast_hash_some : forall v, v <> [] -> exists h, FastBlocksToBlock v = Some h /\ (h < 2 ^ 128)%N.
Proof.
  intros v H. unfold FastBlocksToBlock, CBCEnc. destruct v as [|x v]; [congruence|]. eexists. split; [reflexivity|].
  apply Forall_nth; [exact (cbc_blk (x :: v) IV)|]. rewrite cbc_length. cbn [length]. lia.
Qed.
Lemma reseed_key : forall k id, (k < 2 ^ 128)%N -> (id < 2 ^ 64)%N -> key_ok (aes_key (ReSeed k id)).
Proof.
  intros k id H I. cbn [ReSeed aes_key]. apply GenEncKey_ok. rewrite MakeBlock_0. apply lxor_blk; [exact H|]. unfold blk. eapply N.lt_trans; [exact I|reflexivity].
Qed.
Lemma stream_blk : forall k c n, key_ok k -> Blk (stream k c n).
Proof. intros k c n K. unfold stream. apply Forall_map, Forall_forall. intros i _. apply Enc_blk, K. Qed.
Lemma pad_length : forall k n, length (pad k n) = n.
Proof. intros k n. unfold pad. rewrite GenRandomBlocks_spec by reflexivity. apply stream_length. Qed.
Lemma pad_blk : forall k n, (k < 2 ^ 128)%N -> Blk (pad k n).
Proof. intros k n H. unfold pad. rewrite GenRandomBlocks_spec by reflexivity. apply stream_blk, reseed_key; [exact H|reflexivity]. Qed.
Lemma draw_spec : forall s n, (counter s < 2 ^ 64)%N -> key_ok (aes_key s) -> exists v s', GenRandomBlocks s n = (v, s') /\ blocks n v /\
  (counter s' < 2 ^ 64)%N /\ key_ok (aes_key s').
Proof.
  intros s n C K. rewrite GenRandomBlocks_spec by exact C. do 2 eexists. split; [reflexivity|]. split; [split; [apply stream_length|apply stream_blk, K]|].
  cbn [counter aes_key]. split; [apply wrap_lt|exact K].
Qed.
Lemma random_bits : forall s n, (counter s < 2 ^ 64)%N -> bit_vector n (fst (GenRandomBits s n)).
Proof.
  intros s n C. unfold GenRandomBits. assert (L := GenRandomBytes_length s n C). destruct (GenRandomBytes s n) as [b s']. cbn [fst] in *.
  split; [rewrite map_length; exact L|]. apply Forall_map, Forall_forall. intros x _. assert (E : N.land x 1 = (x mod 2 ^ 1)%N) by exact (N.land_ones x 1). rewrite E.
  assert (B : (x mod 2 ^ 1 < 2)%N) by (apply N.mod_lt; discriminate). generalize dependent (x mod 2 ^ 1)%N. intros y _ H. lia.
Qed.

(** ** chosen and picked, index by index *)
Lemma chosen_length : forall A bits (m0 m1 : list A) n, length bits = n -> length m0 = n -> length m1 = n -> length (chosen bits m0 m1) = n.
Proof.
  intros A. induction bits as [|b bits IH]; intros m0 m1 n L L0 L1; cbn [length] in *; [subst; reflexivity|].
  destruct m0; destruct m1; cbn [length chosen] in *; try lia. rewrite (IH m0 m1 (length bits)) by lia. lia.
Qed.
Lemma chosen_nth : forall A bits (m0 m1 : list A) d i, length m0 = length bits -> length m1 = length bits -> (i < length bits)%nat ->
  nth i (chosen bits m0 m1) d = if (nth i bits 0 =? 0)%N then nth i m0 d else nth i m1 d.
Proof.
  intros A. induction bits as [|b bits IH]; intros m0 m1 d i L0 L1 H; cbn [length] in *; [lia|].
  destruct m0; destruct m1; cbn [length chosen] in *; try lia. destruct i as [|i]; cbn [nth]; [reflexivity|]. apply IH; lia.
Qed.
Lemma map_seq_chosen : forall A bits (m0 m1 : list A) d n (f : nat -> A), length bits = n -> length m0 = n -> length m1 = n ->
  (forall i, (i < n)%nat -> f i = if (nth i bits 0 =? 0)%N then nth i m0 d else nth i m1 d) -> map f (seq 0 n) = chosen bits m0 m1.
Proof.
  intros A bits m0 m1 d n f L L0 L1 E. assert (LC := chosen_length _ bits m0 m1 n L L0 L1).
  apply list_eq_nth with (d := d); [rewrite map_length, seq_length; lia|]. intros i Hi. rewrite map_length, seq_length in Hi.
  rewrite nth_map' with (d := 0%nat) by (rewrite seq_length; exact Hi). rewrite seq_nth by exact Hi. rewrite chosen_nth by lia. apply E, Hi.
Qed.
Lemma chosen_Forall : forall A (P : A -> Prop) bits m0 m1, Forall P m0 -> Forall P m1 -> Forall P (chosen bits m0 m1).
Proof.
  intros A P. induction bits as [|b bits IH]; intros m0 m1 F0 F1; cbn [chosen]; [constructor|].
  destruct F0 as [|x m0 H0 F0]; [constructor|]. destruct F1 as [|y m1 H1 F1]; [constructor|]. constructor; [destruct (b =? 0)%N; assumption|]. apply IH; assumption.
Qed.
Lemma picked_map : forall A bits (m : list A) d n (f : nat -> A), length bits = n -> length m = n ->
  (forall i, (i < n)%nat -> nth i bits 0%N = 1%N -> f i = nth i m d) ->
  map f (filter (fun i => (nth i bits 0 =? 1)%N) (seq 0 n)) = picked bits m.
Proof.
  intros A bits m d n f L LM E.
  assert (X : forall bs ms s, length bs = length ms -> (forall i, (i < length bs)%nat -> nth i bs 0%N = nth (s + i) bits 0%N) ->
    (forall i, (i < length bs)%nat -> nth (s + i) bits 0%N = 1%N -> f (s + i)%nat = nth i ms d) ->
    map f (filter (fun i => (nth i bits 0 =? 1)%N) (seq s (length bs))) = picked bs ms).
  { induction bs as [|b bs IH]; intros ms s LL E1 E2; destruct ms as [|x ms]; cbn [length] in LL; try lia; [reflexivity|].
    cbn [length seq filter picked]. assert (B := E1 0%nat ltac:(cbn; lia)). cbn [nth] in B. rewrite Nat.add_0_r in B. rewrite <- B.
    assert (R : map f (filter (fun i => (nth i bits 0 =? 1)%N) (seq (S s) (length bs))) = picked bs ms).
    { apply IH; [lia| |].
      - intros i Hi. specialize (E1 (S i) ltac:(cbn; lia)). cbn [nth] in E1. rewrite E1. f_equal. lia.
      - intros i Hi H. replace (S s + i)%nat with (s + S i)%nat in * by lia. specialize (E2 (S i) ltac:(cbn; lia) H). exact E2. }
    destruct (N.eqb_spec b 1) as [->|]; [|exact R]. cbn [map]. rewrite R. f_equal.
    specialize (E2 0%nat ltac:(cbn; lia)). rewrite Nat.add_0_r in E2. cbn [nth] in E2. apply E2. congruence. }
  rewrite <- L. apply X; [lia|intros; f_equal; lia|]. intros i Hi H. cbn [Nat.add] in *. apply E; [lia|exact H].
Qed.
Lemma all_some_nth : forall A B (f : A -> option B) (g : A -> B) l, (forall a, In a l -> f a = Some (g a)) -> all_some f l = Some (map g l).
Proof.
  intros A B f g. induction l as [|a l IH]; intros H; [reflexivity|]. cbn [all_some map]. rewrite (H a (or_introl eq_refl)).
  rewrite IH; [reflexivity|]. intros b Hb. apply H. right. exact Hb.
Qed.
Lemma all_some_ex : forall A B (f : A -> option B) (P : A -> B -> Prop) l, (forall a, In a l -> exists b, f a = Some b /\ P a b) ->
  exists v, all_some f l = Some v /\ Forall2 P l v.
Proof.
  intros A B f P. induction l as [|a l IH]; intros H; [exists []; split; [reflexivity|constructor]|].
  destruct (H a (or_introl eq_refl)) as [b [E Pb]]. destruct IH as [v [EV FV]]; [intros c Hc; apply H; right; exact Hc|].
  exists (b :: v). cbn [all_some]. rewrite E, EV. split; [reflexivity|]. constructor; assumption.
Qed.
Lemma Forall2_seq_nth : forall A (P : nat -> A -> Prop) n v d, Forall2 P (seq 0 n) v -> length v = n /\ forall i, (i < n)%nat -> P i (nth i v d).
Proof.
  intros A P n v d. assert (X : forall n s v, Forall2 P (seq s n) v -> length v = n /\ forall i, (i < n)%nat -> P (s + i)%nat (nth i v d)).
  { clear. induction n as [|n IH]; intros s v F; inversion F; subst; cbn [length nth]; [split; [reflexivity|lia]|].
    destruct (IH _ _ H3) as [L H]. split; [lia|]. intros [|i] Hi; [rewrite Nat.add_0_r; assumption|]. specialize (H i ltac:(lia)).
    replace (s + S i)%nat with (S s + i)%nat by lia. exact H. }
  intros F. destruct (X _ _ _ F) as [L H]. split; [exact L|]. intros i Hi. apply (H i Hi).
Qed.

(** ** keys from matrices that agree up to the outer product of the two bit vectors *)
Lemma random_keys : forall stale T Q s bits COL ROW, Forall is_byte stale -> (ROW mod 128 = 0)%nat -> (COL mod 128 = 0)%nat -> (0 < COL)%nat ->
  length T = (COL * (ROW / 128))%nat -> Blk T -> length Q = (COL * (ROW / 128))%nat -> Blk Q -> length s = COL ->
  (forall i j, (i < ROW)%nat -> (j < COL)%nat ->
     vbit Q (j * ROW + i) = xorb (vbit T (j * ROW + i)) (negb (nth j s 0 =? 0)%N && negb (nth i bits 0 =? 0)%N)) ->
  exists TT QT K K0 K1, transpose stale T COL ROW = Some TT /\ transpose stale Q COL ROW = Some QT /\
    keys0 TT COL ROW = Some K /\ keys0 QT COL ROW = Some K0 /\ keys1 QT (FromSparseBytes (COL / 128) s) COL ROW = Some K1 /\
    blocks ROW K /\ blocks ROW K0 /\ blocks ROW K1 /\
    forall i, (i < ROW)%nat -> nth i K 0%N = if (nth i bits 0 =? 0)%N then nth i K0 0%N else nth i K1 0%N.
Proof.
  intros stale T Q s bits COL ROW FS HR HC HP LT FT LQ FQ LS E.
  destruct (transpose_blocks stale T COL ROW FS HR HC HP LT FT) as [TT [ET [LTT [FTT BT]]]].
  destruct (transpose_blocks stale Q COL ROW FS HR HC HP LQ FQ) as [QT [EQ [LQT [FQT BQ]]]].
  assert (EC : COL = (128 * (COL / 128))%nat) by (assert (X := Nat.div_mod COL 128 ltac:(lia)); lia).
  assert (NE : forall M i, length M = (COL * (ROW / 128))%nat -> (i < ROW)%nat -> row M COL i <> []).
  { intros M i LM Hi Z. assert (X := row_length M COL ROW i HC LM HR Hi). rewrite Z in X. cbn [length] in X. lia. }
  assert (LB : length (FromSparseBytes (COL / 128) s) = (COL / 128)%nat) by apply FromSparseBytes_length.
  assert (XR : forall i, (i < ROW)%nat -> XOR (row QT COL i) (FromSparseBytes (COL / 128) s) = Some (map2 N.lxor (row QT COL i) (FromSparseBytes (COL / 128) s))).
  { intros i Hi. unfold XOR, blocks_map2. rewrite (row_length QT COL ROW i HC ltac:(lia) HR Hi), LB, Nat.leb_refl. reflexivity. }
  destruct (all_some_ex _ _ (fun i => FastBlocksToBlock (row TT COL i)) (fun i h => FastBlocksToBlock (row TT COL i) = Some h /\ (h < 2 ^ 128)%N) (seq 0 ROW)) as [K [EK FK]].
  { intros i Hi. apply in_seq in Hi. destruct (fast_hash_some (row TT COL i)) as [h [H1 H2]]; [apply NE; lia|]. exists h. auto. }
  destruct (all_some_ex _ _ (fun i => FastBlocksToBlock (row QT COL i)) (fun i h => FastBlocksToBlock (row QT COL i) = Some h /\ (h < 2 ^ 128)%N) (seq 0 ROW)) as [K0 [EK0 FK0]].
  { intros i Hi. apply in_seq in Hi. destruct (fast_hash_some (row QT COL i)) as [h [H1 H2]]; [apply NE; lia|]. exists h. auto. }
  destruct (all_some_ex _ _ (fun i => match XOR (row QT COL i) (FromSparseBytes (COL / 128) s) with Some x => FastBlocksToBlock x | None => None end)
     (fun i h => FastBlocksToBlock (map2 N.lxor (row QT COL i) (FromSparseBytes (COL / 128) s)) = Some h /\ (h < 2 ^ 128)%N) (seq 0 ROW)) as [K1 [EK1 FK1]].
  { intros i Hi. apply in_seq in Hi. rewrite XR by lia. destruct (fast_hash_some (map2 N.lxor (row QT COL i) (FromSparseBytes (COL / 128) s))) as [h [H1 H2]].
    - intros Z. assert (X := map2_length N.lxor (row QT COL i) (FromSparseBytes (COL / 128) s)). rewrite Z in X. cbn [length] in X.
      rewrite (row_length QT COL ROW i HC ltac:(lia) HR ltac:(lia)), LB in X. lia.
    - exists h. auto. }
  exists TT, QT, K, K0, K1. split; [exact ET|]. split; [exact EQ|]. split; [exact EK|]. split; [exact EK0|]. split; [exact EK1|].
  destruct (Forall2_seq_nth _ _ _ _ 0%N FK) as [LK HK]. destruct (Forall2_seq_nth _ _ _ _ 0%N FK0) as [LK0 HK0]. destruct (Forall2_seq_nth _ _ _ _ 0%N FK1) as [LK1 HK1].
  split; [split; [exact LK|apply Forall_nth; intros i d Hi; rewrite (nth_indep _ d 0%N Hi); apply HK; lia]|].
  split; [split; [exact LK0|apply Forall_nth; intros i d Hi; rewrite (nth_indep _ d 0%N Hi); apply HK0; lia]|].
  split; [split; [exact LK1|apply Forall_nth; intros i d Hi; rewrite (nth_indep _ d 0%N Hi); apply HK1; lia]|].
  intros i Hi. destruct (HK i Hi) as [A _]. destruct (HK0 i Hi) as [A0 _]. destruct (HK1 i Hi) as [A1 _].
  assert (RB : forall j, (j < COL)%nat -> vbit (row TT COL i) j = vbit T (j * ROW + i) /\ vbit (row QT COL i) j = vbit Q (j * ROW + i)).
  { intros j Hj. rewrite !row_bit by assumption. split; [apply BT|apply BQ]; assumption. }
  assert (LRT := row_length TT COL ROW i HC ltac:(lia) HR Hi). assert (LRQ := row_length QT COL ROW i HC ltac:(lia) HR Hi).
  destruct (N.eqb_spec (nth i bits 0%N) 0) as [Z|Z].
  - assert (X : row TT COL i = row QT COL i).
    { apply vbit_ext; [congruence|apply row_blk, FTT|apply row_blk, FQT|]. intros j Hj. rewrite LRT in Hj.
      destruct (RB j ltac:(lia)) as [-> ->]. rewrite E by lia. rewrite Z. cbn [N.eqb negb]. rewrite andb_false_r, xorb_false_r. reflexivity. }
    rewrite X in A. congruence.
  - assert (X : row TT COL i = map2 N.lxor (row QT COL i) (FromSparseBytes (COL / 128) s)).
    { apply vbit_ext; [rewrite map2_length; lia|apply row_blk, FTT|apply map2_xor_blk; [apply row_blk, FQT|apply sparse_blk]|].
      intros j Hj. rewrite LRT in Hj. rewrite vbit_xor by lia. rewrite sparse_vbit by lia.
      destruct (RB j ltac:(lia)) as [-> ->]. rewrite E by lia. destruct (N.eqb_spec (nth i bits 0%N) 0); [congruence|].
      cbn [negb]. rewrite andb_true_r, xorb_assoc, xorb_nilpotent, xorb_false_r. reflexivity. }
    rewrite X in A. congruence.
Qed.

(** the matrix the sender ends up with: column j of T, plus the receiver's bits where the
    sender's bit j is set *)
Fixpoint shared (bits rblock T : list N) (n : nat) : list N :=
  match bits with
  | [] => []
  | b :: bits' => (if (b =? 0)%N then firstn n T else map2 N.lxor (firstn n T) rblock) ++ shared bits' rblock (skipn n T) n
  end.
Lemma shared_col : forall (b : N) rblock T n, length rblock = n -> (n <= length T)%nat ->
  length (if (b =? 0)%N then firstn n T else map2 N.lxor (firstn n T) rblock) = n.
Proof. intros b rblock T n L LT. destruct (b =? 0)%N; [|rewrite map2_length]; rewrite firstn_length; lia. Qed.
Lemma shared_length : forall bits rblock T n, length rblock = n -> length T = (length bits * n)%nat -> length (shared bits rblock T n) = (length bits * n)%nat.
Proof.
  induction bits as [|b bits IH]; intros rblock T n L LT; [reflexivity|]. cbn [shared length] in *.
  rewrite app_length, shared_col by lia. rewrite IH; [lia|exact L|rewrite skipn_length; lia].
Qed.
Lemma shared_blk : forall bits rblock T n, Blk rblock -> Blk T -> Blk (shared bits rblock T n).
Proof.
  induction bits as [|b bits IH]; intros rblock T n FR FT; [constructor|]. cbn [shared]. apply Forall_app. split.
  - destruct (b =? 0)%N; [apply Forall_firstn, FT|]. apply map2_xor_blk; [apply Forall_firstn, FT|exact FR].
  - apply IH; [exact FR|apply Forall_skipn, FT].
Qed.
Lemma shared_nth : forall bits rblock T n j i, length rblock = n -> length T = (length bits * n)%nat -> (j < length bits)%nat -> (i < n)%nat ->
  nth (j * n + i) (shared bits rblock T n) 0%N =
  if (nth j bits 0 =? 0)%N then nth (j * n + i) T 0%N else N.lxor (nth (j * n + i) T 0%N) (nth i rblock 0%N).
Proof.
  induction bits as [|b bits IH]; intros rblock T n j i L LT Hj Hi; [cbn in Hj; lia|]. cbn [shared length] in *.
  destruct j as [|j].
  - rewrite app_nth1 by (rewrite shared_col; lia). cbn [nth Nat.mul Nat.add].
    destruct (b =? 0)%N; [rewrite nth_firstn_lt by exact Hi; reflexivity|].
    rewrite map2_nth with (a := 0%N) (b := 0%N) by (rewrite ?firstn_length; lia). rewrite nth_firstn_lt by exact Hi. reflexivity.
  - rewrite app_nth2 by (rewrite shared_col; lia). rewrite shared_col by lia.
    replace (S j * n + i - n)%nat with (j * n + i)%nat by lia. rewrite IH; [|exact L|rewrite skipn_length; lia|lia|exact Hi].
    cbn [nth]. rewrite nth_skipn. replace (n + (j * n + i))%nat with (S j * n + i)%nat by lia. reflexivity.
Qed.
Lemma shared_bits : forall s rbits T COL ROW, length s = COL -> (ROW mod 128 = 0)%nat -> length T = (COL * (ROW / 128))%nat -> length rbits = ROW ->
  forall i j, (i < ROW)%nat -> (j < COL)%nat ->
  vbit (shared s (FromSparseBytes (ROW / 128) rbits) T (ROW / 128)) (j * ROW + i) =
  xorb (vbit T (j * ROW + i)) (negb (nth j s 0 =? 0)%N && negb (nth i rbits 0 =? 0)%N).
Proof.
  intros s rbits T COL ROW LS HR LT LB i j Hi Hj.
  assert (ER : ROW = (128 * (ROW / 128))%nat) by (assert (X := Nat.div_mod ROW 128 ltac:(lia)); lia). set (n := (ROW / 128)%nat) in *.
  assert (D : ((j * ROW + i) / 128 = j * n + i / 128)%nat).
  { replace (j * ROW + i)%nat with (j * n * 128 + i)%nat by nia. apply Nat.div_add_l. lia. }
  assert (M : ((j * ROW + i) mod 128 = i mod 128)%nat).
  { replace (j * ROW + i)%nat with (i + j * n * 128)%nat by nia. apply Nat.mod_add. lia. }
  assert (Hd : (i / 128 < n)%nat) by (apply Nat.div_lt_upper_bound; lia).
  assert (SB := sparse_vbit n rbits i ltac:(lia) ltac:(lia)). unfold vbit in *. rewrite D, M.
  rewrite shared_nth; [|apply FromSparseBytes_length|lia|lia|exact Hd].
  destruct (nth j s 0 =? 0)%N; cbn [negb andb]; [rewrite xorb_false_r; reflexivity|]. rewrite N.lxor_spec, SB. reflexivity.
Qed.

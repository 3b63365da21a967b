(** Properties C10 - C12: 128-bit blocks, bit matrices, the block order. *)
From Coq Require Import Arith ZArith NArith List Bool Lia Sorted.
From Coq Require Import ZifyBool ZifyNat ZifyN.
From Verif.Base Require Import Words ListX Mem.
From Verif.Crypto Require Import BlockModel BlockProofs.
Import ListNotations.
Local Open Scope N_scope.

(** ** Specification: a bit matrix with [cols] columns, row-major, eight entries to a byte,
    entry (x, y) in bit (y mod 8) of byte (x * cols / 8 + y / 8). *)
Definition mat_bit (M : list N) (cols x y : nat) : bool :=
  N.testbit (nth (x * (cols / 8) + y / 8) M 0) (N.of_nat (y mod 8)).
(** the shapes whose loops stay inside the matrix *)
Definition shape_ok (R C : nat) : Prop :=
  (R mod 8 = 0 /\ C mod 8 = 0 /\ 16 <= R /\ (R mod 16 = 0 \/ 16 <= C))%nat.

Lemma bits_val_bit : forall l i, N.testbit (bits_val l) (N.of_nat i) = nth i l false.
Proof.
  induction l as [|b l IH]; intros i; [cbn [bits_val]; destruct i; apply N.bits_0|].
  cbn [bits_val]. destruct i as [|i].
  - cbn [nth N.of_nat]. destruct b.
    + rewrite N.add_comm. apply N.testbit_odd_0.
    + rewrite N.add_0_l. apply N.testbit_even_0.
  - cbn [nth]. rewrite <- IH, Nat2N.inj_succ. destruct b.
    + rewrite N.add_comm. apply N.testbit_odd_succ. lia.
    + rewrite N.add_0_l. apply N.testbit_even_succ. lia.
Qed.

Lemma mul8 : forall R, (R mod 8 = 0)%nat -> R = (8 * (R / 8))%nat.
Proof. intros R H. pose proof (Nat.div_mod R 8). lia. Qed.

(** C10.  Transposing an R x C matrix puts entry (x, y) at (y, x) for every entry, whatever the output
    array and the staging buffer held before, and stays inside both arrays. *)
Theorem C10_transpose_exact : forall R C input out stale,
  shape_ok R C -> (length input = R * (C / 8))%nat -> Forall is_byte input ->
  (length out = C * (R / 8))%nat -> Forall is_byte stale ->
  exists res, BitMatrixTranspose input R C stale out = Some res /\
    (length res = C * (R / 8))%nat /\ Forall is_byte res /\
    forall x y, (x < R)%nat -> (y < C)%nat -> mat_bit res R y x = mat_bit input C x y.
Proof.
  intros R C input out stale (H1 & H2 & H3 & H4) L F LO FS.
  apply mul8 in H1, H2.
  set (r8 := (R / 8)%nat) in *. set (c8 := (C / 8)%nat) in *.
  assert (E8 : (R / 8 = r8 /\ C / 8 = c8)%nat) by auto. clearbody r8 c8. subst R C.
  rewrite (transpose_ok input r8 c8) by auto.
  eexists. split; [reflexivity|]. rewrite map_length, seq_length. split; [reflexivity|].
  split.
  - apply Forall_map, Forall_forall. intros q _. unfold is_byte, Ebyte.
    pose proof (bits_val_lt (map (fun k => inbit input c8 (8 * (q mod r8) + k) (q / r8)) (seq 0 8))) as B.
    rewrite map_length, seq_length in B. exact B.
  - intros x y Hx Hy. unfold mat_bit. destruct E8 as (-> & ->).
    assert (x / 8 < r8)%nat by (apply Nat.div_lt_upper_bound; lia).
    rewrite nth_map' with (d := 0%nat) by (rewrite seq_length; nia).
    rewrite seq_nth by nia. cbn [Nat.add]. rewrite Ebyte_at by auto. rewrite bits_val_bit.
    assert (x mod 8 < 8)%nat by (apply Nat.mod_upper_bound; lia).
    rewrite nth_map' with (d := 0%nat) by (rewrite seq_length; auto). rewrite seq_nth by auto. cbn [Nat.add].
    unfold inbit. rewrite <- (Nat.div_mod x 8) by lia. reflexivity.
Qed.

Lemma mat_ext : forall R C M M', (R mod 8 = 0)%nat -> (C mod 8 = 0)%nat ->
  (length M = R * (C / 8))%nat -> (length M' = R * (C / 8))%nat -> Forall is_byte M -> Forall is_byte M' ->
  (forall x y, (x < R)%nat -> (y < C)%nat -> mat_bit M C x y = mat_bit M' C x y) -> M = M'.
Proof.
  intros R C M M' HR HC L L' F F' E. apply list_eq_nth with (d := 0); [lia|].
  intros q Hq. apply N.bits_inj. intros i.
  rewrite Forall_forall in F, F'.
  assert (B1 : is_byte (nth q M 0)) by (apply F, nth_In; lia).
  assert (B2 : is_byte (nth q M' 0)) by (apply F', nth_In; lia).
  unfold is_byte in *. change 256 with (2 ^ 8) in *.
  destruct (N.lt_ge_cases i 8) as [Hi|Hi].
  - set (c8 := (C / 8)%nat) in *. assert (EC : C = (8 * c8)%nat) by (apply mul8; auto).
    assert (c8 <> 0)%nat by nia.
    assert (D : (q = c8 * (q / c8) + q mod c8)%nat) by (apply Nat.div_mod; auto).
    assert (q mod c8 < c8)%nat by (apply Nat.mod_upper_bound; auto).
    specialize (E (q / c8)%nat (8 * (q mod c8) + N.to_nat i)%nat).
    unfold mat_bit in E. fold c8 in E.
    replace ((8 * (q mod c8) + N.to_nat i) / 8)%nat with (q mod c8)%nat in E
      by (symmetry; rewrite (Nat.mul_comm 8), Nat.add_comm, Nat.div_add by lia; rewrite Nat.div_small; lia).
    replace ((8 * (q mod c8) + N.to_nat i) mod 8)%nat with (N.to_nat i) in E
      by (symmetry; rewrite (Nat.mul_comm 8), Nat.add_comm, Nat.mod_add by lia; apply Nat.mod_small; lia).
    rewrite (Nat.mul_comm (q / c8)), <- D, N2Nat.id in E. apply E; [|lia].
    apply Nat.div_lt_upper_bound; lia.
  - rewrite (testbit_bounded 8), (testbit_bounded 8); auto.
Qed.

(** C10.  Transposing twice gives the matrix back. *)
Theorem C10_transpose_involution : forall R C input out stale out' stale' res,
  shape_ok R C -> shape_ok C R -> (length input = R * (C / 8))%nat -> Forall is_byte input ->
  (length out = C * (R / 8))%nat -> (length out' = R * (C / 8))%nat ->
  Forall is_byte stale -> Forall is_byte stale' ->
  BitMatrixTranspose input R C stale out = Some res ->
  BitMatrixTranspose res C R stale' out' = Some input.
Proof.
  intros R C input out stale out' stale' res S S' L F LO LO' FS FS' E.
  destruct (C10_transpose_exact R C input out stale) as (res0 & E0 & L0 & F0 & B0); auto.
  rewrite E0 in E. injection E as <-.
  destruct (C10_transpose_exact C R res0 out' stale') as (res1 & E1 & L1 & F1 & B1); auto.
  rewrite E1. f_equal. destruct S as (H1 & H2 & _). apply (mat_ext R C); auto.
  intros x y Hx Hy. rewrite B1 by auto. apply B0; auto.
Qed.

(** C10 is false for the small shapes the assertion lets through: with fewer than 16 rows, or an odd
    number of 8-row strips and fewer than 16 columns, an unsigned loop bound wraps below zero and the
    loop leaves the matrix. *)
Theorem C10_transpose_small_refuted : forall R C input out stale,
  (R mod 8 = 0 -> C mod 8 = 0 -> (R < 16 \/ (R mod 16 = 8 /\ C < 16)) ->
  BitMatrixTranspose input R C stale out = None)%nat.
Proof.
  intros R C input out stale HR HC H. apply mul8 in HR, HC.
  set (r8 := (R / 8)%nat) in *. set (c8 := (C / 8)%nat) in *. clearbody r8 c8. subst R C.
  apply transpose_ub. auto.
Qed.

Example ex_transpose :
  shape_ok 24 24 /\
  exists res, BitMatrixTranspose (map N.of_nat (seq 1 72)) 24 24 (repeat 0 8) (repeat 0 72) = Some res /\
    mat_bit res 24 3 17 = mat_bit (map N.of_nat (seq 1 72)) 24 17 3 /\ nth 5 res 0 <> 0.
Proof.
  split; [unfold shape_ok; cbn; lia|]. eexists. split; [vm_compute; reflexivity|].
  split; [vm_compute; reflexivity|vm_compute; discriminate].
Qed.

(** C11.  The comparator is a strict total order on blocks. *)
Theorem C11_block_order_total :
  (forall a, IsLessThan a a = false) /\
  (forall a b c, IsLessThan a b = true -> IsLessThan b c = true -> IsLessThan a c = true) /\
  (forall a b, a < 2 ^ 128 -> b < 2 ^ 128 -> a <> b -> IsLessThan a b = true \/ IsLessThan b a = true) /\
  (forall a b, IsLessThan a b = true -> IsLessThan b a = false).
Proof.
  assert (K : forall a b, IsLessThan a b = (key a <? key b)) by apply IsLessThan_key.
  repeat split; intros; rewrite !K in *; try lia.
  destruct (N.lt_trichotomy (key a) (key b)) as [|[|]]; [left; lia| |right; lia].
  exfalso. apply H1. apply key_inj; auto.
Qed.

(** the order itself: the highest differing byte decides, bytes read as signed *)
Definition signed (b : N) : Z := if b <? 128 then Z.of_N b else (Z.of_N b - 256)%Z.
Lemma sbyte_signed : forall x y, x < 256 -> y < 256 -> sbyte_lt x y = (signed x <? signed y)%Z.
Proof.
  assert (A : forallb (fun x => N.lxor (N.of_nat x) 128 =? (if N.of_nat x <? 128 then N.of_nat x + 128 else N.of_nat x - 128))
     (seq 0 256) = true) by (vm_compute; reflexivity).
  assert (B : forall x, x < 256 -> N.lxor x 128 = if x <? 128 then x + 128 else x - 128).
  { intros x Hx. rewrite forallb_forall in A. specialize (A (N.to_nat x) ltac:(apply in_seq; lia)).
    rewrite !N2Nat.id in A. apply N.eqb_eq, A. }
  intros x y Hx Hy. unfold sbyte_lt, signed. rewrite !B by assumption.
  destruct (N.ltb_spec x 128); destruct (N.ltb_spec y 128); lia.
Qed.

Lemma top_decides : forall la lb, length la = length lb -> Forall is_byte la -> Forall is_byte lb ->
  (le_val la < le_val lb <->
   exists k, (k < length la)%nat /\ nth k la 0 < nth k lb 0 /\
     forall j, (k < j < length la)%nat -> nth j la 0 = nth j lb 0).
Proof.
  induction la as [|x la IH]; intros [|y lb] L Fa Fb; try discriminate L.
  - split; [cbn [le_val]; lia|]. intros (k & K & _). cbn in K. lia.
  - inversion Fa; subst. inversion Fb; subst. unfold is_byte in *. cbn [le_val length] in *.
    specialize (IH lb). assert (EQ : le_val la = le_val lb -> la = lb).
    { intros E. assert (la = le_bytes (length la) (le_val la)) as -> by (symmetry; apply le_bytes_val; auto).
      rewrite E. replace (length la) with (length lb) by lia. apply le_bytes_val; auto. }
    split.
    + intros H. destruct (N.lt_trichotomy (le_val la) (le_val lb)) as [T|[T|T]]; [| |lia].
      * apply IH in T; auto. destruct T as (k & K1 & K2 & K3). exists (S k). cbn [nth].
        split; [lia|]. split; auto. intros [|j] J; [lia|]. apply K3. lia.
      * exists 0%nat. cbn [nth]. split; [lia|]. split; [lia|]. intros [|j] J; [lia|]. rewrite (EQ T). auto.
    + intros ([|k] & K1 & K2 & K3); cbn [nth] in *.
      * assert (la = lb).
        { apply list_eq_nth with (d := 0); [lia|]. intros j Hj. apply (K3 (S j)). lia. }
        subst. lia.
      * assert (le_val la < le_val lb); [|lia]. apply IH; auto. exists k. split; [lia|]. split; auto.
        intros j J. apply (K3 (S j)). lia.
Qed.

Theorem C11_block_order_meaning : forall a b, a < 2 ^ 128 -> b < 2 ^ 128 ->
  (IsLessThan a b = true <->
   exists k, (k < 16)%nat /\ Z.lt (signed (nth k (le_bytes 16 a) 0)) (signed (nth k (le_bytes 16 b) 0)) /\
     forall j, (k < j < 16)%nat -> nth j (le_bytes 16 a) 0 = nth j (le_bytes 16 b) 0).
Proof.
  intros a b Ha Hb. rewrite IsLessThan_key. unfold key. rewrite N.ltb_lt.
  assert (BY : forall c k, nth k (le_bytes 16 c) 0 < 256).
  { intros c k. destruct (Nat.lt_ge_cases k 16).
    - pose proof (le_bytes_ok 16 c) as F. unfold bytes_ok in F. rewrite Forall_forall in F. apply F.
      apply nth_In. rewrite le_bytes_length. auto.
    - rewrite nth_overflow by (rewrite le_bytes_length; auto). reflexivity. }
  rewrite top_decides; [|rewrite !map_length; unfold block_bytes; rewrite !le_bytes_length; auto|apply key_bytes|apply key_bytes].
  rewrite map_length. unfold block_bytes. rewrite le_bytes_length.
  assert (NM : forall c k, (k < 16)%nat -> nth k (map (fun x => N.lxor x 128) (le_bytes 16 c)) 0 = N.lxor (nth k (le_bytes 16 c) 0) 128).
  { intros c k Hk. rewrite nth_map' with (d := 0) by (rewrite le_bytes_length; auto). auto. }
  split; intros (k & K1 & K2 & K3); exists k; split; auto.
  - rewrite !NM in K2 by auto. split.
    + apply Z.ltb_lt. rewrite <- sbyte_signed by auto. unfold sbyte_lt. lia.
    + intros j J. specialize (K3 j J). rewrite !NM in K3 by lia.
      apply (f_equal (fun x => N.lxor x 128)) in K3. rewrite !N.lxor_assoc, N.lxor_nilpotent, !N.lxor_0_r in K3. auto.
  - split.
    + rewrite !NM by auto. apply Z.ltb_lt in K2. rewrite <- sbyte_signed in K2 by auto. unfold sbyte_lt in K2. lia.
    + intros j J. rewrite !NM by lia. rewrite (K3 j J). auto.
Qed.

(** C11.  The set difference contains exactly the blocks of A that are not in B, each once, in order. *)
Theorem C11_set_difference_exact : forall A B,
  Forall (fun a => a < 2 ^ 128) A -> Forall (fun b => b < 2 ^ 128) B ->
  (forall z, In z (ComputeSetDifference A B) <-> In z A /\ ~ In z B) /\
  NoDup (ComputeSetDifference A B) /\
  StronglySorted (fun a b => IsLessThan a b = true) (ComputeSetDifference A B).
Proof.
  intros A B FA FB. split; [|split].
  - intros z. apply ComputeSetDifference_spec; auto.
  - apply sorted_NoDup. apply (ComputeSetDifference_spec A B 0); auto.
  - apply (ComputeSetDifference_spec A B 0); auto.
Qed.

Example ex_set_difference : ComputeSetDifference [7; 5; 2 ^ 127; 5; 9] [9; 4] = [2 ^ 127; 5; 7].
Proof. vm_compute. reflexivity. Qed.

(** C12.  SetBit a n sets bit 127 - n (counting bit 0 as least significant) and changes no other bit. *)
Theorem C12_set_bit_exact : forall a n i, n < 128 ->
  N.testbit (SetBit a n) i = (if i =? 127 - n then true else N.testbit a i).
Proof.
  intros a n i Hn. rewrite SetBit_spec by auto. destruct (i =? 127 - n); [apply orb_true_r|apply orb_false_r].
Qed.

(** C12 is false of ClearBit: it never returns the block with one bit cleared (unless that block is
    zero), because it ands the complement of the block with the mask. *)
Theorem C12_clear_bit_refuted : forall a n, n < 128 -> a < 2 ^ 128 ->
  ClearBit a n = (if N.testbit a (127 - n) then 0 else 2 ^ (127 - n)) /\
  (ClearBit a n = N.clearbit a (127 - n) -> a = 2 ^ (127 - n)).
Proof.
  intros a n Hn Ha. rewrite ClearBit_value by auto. split; auto.
  intros E. apply N.bits_inj. intros i. rewrite N.pow2_bits_eqb.
  apply (f_equal (fun v => N.testbit v i)) in E. rewrite N.clearbit_eqb in E.
  destruct (N.testbit a (127 - n)) eqn:T.
  - rewrite N.bits_0 in E. destruct (N.eqb_spec (127 - n) i) as [<-|]; [auto|].
    cbn in E. rewrite andb_true_r in E. auto.
  - rewrite N.pow2_bits_eqb in E. destruct (N.eqb_spec (127 - n) i) as [<-|]; cbn in E; [rewrite andb_false_r in E; discriminate|].
    rewrite andb_true_r in E. auto.
Qed.

(** C12.  Packing one byte per bit keeps every entry: bit j of block i is set exactly when byte
    128 i + j is non-zero. *)
Theorem C12_sparse_bytes_exact : forall n bytes i j, (length bytes = 128 * n)%nat -> (i < n)%nat -> j < 128 ->
  N.testbit (nth i (FromSparseBytes n bytes) 0) j = negb (nth (128 * i + N.to_nat j) bytes 0 =? 0).
Proof. exact FromSparseBytes_spec. Qed.

Example ex_bits : SetBit 5 126 = 7 /\ ClearBit 5 127 = 0 /\ N.clearbit 5 0 = 4 /\
  FromSparseBytes 1 (1 :: 0 :: 3 :: repeat 0 125) = [5].
Proof. vm_compute. repeat split; reflexivity. Qed.

(** Blocks written to a file or buffer are read back unchanged. *)
Theorem C12_block_serialization_round_trip : forall v rest, Forall (fun a => a < 2 ^ 128) v ->
  read_blocks (length v) (write_blocks v ++ rest) = Some (v, rest).
Proof. exact read_write_blocks. Qed.

(** XOR of block vectors is its own inverse, entry by entry. *)
Theorem C12_blocks_xor_involution : forall x y, length x = length y ->
  exists z, XOR x y = Some z /\ XOR z y = Some x /\
    forall i, (i < length x)%nat -> nth i z 0 = N.lxor (nth i x 0) (nth i y 0).
Proof.
  intros x y L. unfold XOR, blocks_map2.
  replace (Nat.leb (length x) (length y)) with true by (symmetry; apply Nat.leb_le; lia).
  eexists. split; [reflexivity|].
  assert (LZ : length (map2 N.lxor x y) = length x) by (rewrite map2_length; lia).
  rewrite LZ. replace (Nat.leb (length x) (length y)) with true by (symmetry; apply Nat.leb_le; lia).
  assert (NZ : forall i, (i < length x)%nat -> nth i (map2 N.lxor x y) 0 = N.lxor (nth i x 0) (nth i y 0)).
  { intros i Hi. apply map2_nth; lia. }
  split; [|exact NZ]. f_equal. apply list_eq_nth with (d := 0).
  - rewrite map2_length. lia.
  - intros i Hi. rewrite map2_length in Hi.
    rewrite map2_nth with (a := 0) (b := 0) by lia. rewrite NZ by lia.
    rewrite N.lxor_assoc, N.lxor_nilpotent, N.lxor_0_r. auto.
Qed.

(** Compare answers true exactly on equal blocks. *)
Theorem C12_compare_exact : forall a b, Compare a b = true <-> a = b.
Proof. intros a b. unfold Compare. rewrite N.eqb_eq. split; [apply N.lxor_eq|intros ->; apply N.lxor_nilpotent]. Qed.

Print Assumptions C10_transpose_exact.
Print Assumptions C10_transpose_involution.
Print Assumptions C10_transpose_small_refuted.
Print Assumptions C11_block_order_total.
Print Assumptions C11_block_order_meaning.
Print Assumptions C11_set_difference_exact.
Print Assumptions C12_set_bit_exact.
Print Assumptions C12_clear_bit_refuted.
Print Assumptions C12_sparse_bytes_exact.
Print Assumptions C12_block_serialization_round_trip.
Print Assumptions C12_blocks_xor_involution.
Print Assumptions C12_compare_exact.

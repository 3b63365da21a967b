From Coq Require Import Arith NArith List Bool Lia Sorted.
From Coq Require Import ZifyBool ZifyNat ZifyN.
From Verif.Base Require Import Words ListX Mem.
From Verif.Crypto Require Import BlockModel.
Import ListNotations.
Local Open Scope N_scope.

(** ** Masks *)
Lemma GenMask_spec : forall n, n < 128 -> GenMaskBlock n = 2 ^ (127 - n).
Proof.
  assert (A : forallb (fun k => GenMaskBlock (N.of_nat k) =? 2 ^ (127 - N.of_nat k)) (seq 0 128) = true)
    by (vm_compute; reflexivity).
  intros n Hn. rewrite forallb_forall in A.
  specialize (A (N.to_nat n)). rewrite N2Nat.id in A. apply N.eqb_eq. apply A. apply in_seq. lia.
Qed.

Lemma SetBit_spec : forall a n i, n < 128 -> N.testbit (SetBit a n) i = N.testbit a i || (i =? 127 - n).
Proof.
  intros a n i Hn. unfold SetBit. rewrite N.lor_spec, GenMask_spec by auto. f_equal.
  rewrite N.pow2_bits_eqb. apply N.eqb_sym.
Qed.

Lemma ClearBit_bits : forall a n i, n < 128 -> a < 2 ^ 128 ->
  N.testbit (ClearBit a n) i = negb (N.testbit a i) && (i =? 127 - n).
Proof.
  intros a n i Hn Ha. unfold ClearBit, andnot. rewrite N.land_spec, GenMask_spec by auto.
  rewrite N.pow2_bits_eqb, (N.eqb_sym (127 - n)). destruct (N.eqb_spec i (127 - n)); [|rewrite !andb_false_r; auto].
  rewrite !andb_true_r, N.lxor_spec. change (2 ^ 128 - 1) with (N.ones 128).
  rewrite N.ones_spec_low by lia. apply xorb_true_r.
Qed.

Lemma ClearBit_value : forall a n, n < 128 -> a < 2 ^ 128 ->
  ClearBit a n = if N.testbit a (127 - n) then 0 else 2 ^ (127 - n).
Proof.
  intros a n Hn Ha. apply N.bits_inj. intros i. rewrite ClearBit_bits by auto.
  destruct (N.testbit a (127 - n)) eqn:E.
  - rewrite N.bits_0. destruct (N.eqb_spec i (127 - n)) as [->|]; [rewrite E; auto|apply andb_false_r].
  - rewrite N.pow2_bits_eqb, (N.eqb_sym (127 - n)).
    destruct (N.eqb_spec i (127 - n)) as [->|]; [rewrite E; auto|apply andb_false_r].
Qed.

Lemma sparse_loop_spec : forall sp k acc i, length sp = S k -> (k <= 127)%nat -> i < 128 ->
  N.testbit (sparse_loop sp k acc) i =
  N.testbit acc i || ((127 - N.of_nat k <=? i) && negb (nth (N.to_nat i - (127 - k)) sp 0 =? 0)).
Proof.
  induction sp as [|b r IH]; intros k acc i L K I; [discriminate|].
  cbn [sparse_loop]. cbn [length] in L.
  destruct r as [|b' r'].
  - assert (k = 0)%nat by (cbn in L; lia). subst k. cbn [sparse_loop Nat.sub].
    destruct (N.eqb_spec b 0) as [->|Hb].
    + replace (nth (N.to_nat i - 127) [0] 0) with 0; [rewrite N.eqb_refl; cbn [negb]; rewrite andb_false_r, orb_false_r; auto|].
      destruct (N.to_nat i - 127)%nat as [|[|?]]; auto.
    + rewrite SetBit_spec by lia.
      assert ((i =? 127 - N.of_nat 0) = (127 - N.of_nat 0 <=? i)) as -> by lia.
      destruct (N.leb_spec (127 - N.of_nat 0) i).
      * replace (N.to_nat i - 127)%nat with 0%nat by lia. cbn [nth].
        destruct (N.eqb_spec b 0); [congruence|]. auto.
      * auto.
  - rewrite IH by (cbn in *; lia).
    assert (E : N.testbit (if b =? 0 then acc else SetBit acc (N.of_nat k)) i =
                N.testbit acc i || ((i =? 127 - N.of_nat k) && negb (b =? 0))).
    { destruct (b =? 0); [rewrite andb_false_r, orb_false_r; auto|]. rewrite SetBit_spec by lia.
      rewrite andb_true_r. auto. }
    rewrite E, <- orb_assoc. f_equal. cbn [length] in L.
    destruct (N.eqb_spec i (127 - N.of_nat k)) as [Ei|Ei].
    + replace (127 - N.of_nat (k - 1) <=? i) with false by lia.
      replace (127 - N.of_nat k <=? i) with true by lia.
      replace (N.to_nat i - (127 - k))%nat with 0%nat by lia. cbn [nth].
      rewrite andb_false_l, orb_false_r. auto.
    + rewrite andb_false_l, orb_false_l.
      assert ((127 - N.of_nat (k - 1) <=? i) = (127 - N.of_nat k <=? i)) as -> by lia.
      destruct (N.leb_spec (127 - N.of_nat k) i); auto.
      replace (N.to_nat i - (127 - k))%nat with (S (N.to_nat i - (127 - (k - 1)))) by lia. auto.
Qed.

Lemma FromSparseBlock_spec : forall sp i, length sp = 128%nat -> i < 128 ->
  N.testbit (FromSparseBlock sp) i = negb (nth (N.to_nat i) sp 0 =? 0).
Proof.
  intros sp i L I. unfold FromSparseBlock. rewrite sparse_loop_spec by (auto; lia).
  unfold zero_block. rewrite N.bits_0, orb_false_l. replace (127 - N.of_nat 127 <=? i) with true by lia.
  rewrite andb_true_l. do 3 f_equal. lia.
Qed.

Lemma FromSparseBytes_length : forall n bytes, length (FromSparseBytes n bytes) = n.
Proof. induction n; intros; cbn; auto. Qed.

Lemma FromSparseBytes_spec : forall n bytes i j, (length bytes = 128 * n)%nat -> (i < n)%nat -> j < 128 ->
  N.testbit (nth i (FromSparseBytes n bytes) 0) j = negb (nth (128 * i + N.to_nat j) bytes 0 =? 0).
Proof.
  induction n; intros bytes i j L I J; [lia|]. cbn [FromSparseBytes].
  destruct i as [|i].
  - cbn [nth]. rewrite FromSparseBlock_spec by (auto; rewrite firstn_length; lia).
    rewrite nth_firstn_lt by lia. do 3 f_equal.
  - cbn [nth]. rewrite IHn by (auto; rewrite ?skipn_length; lia). rewrite nth_skipn. do 3 f_equal. lia.
Qed.

(** ** Comparator *)
Definition key (a : N) : N := le_val (map (fun x => N.lxor x 128) (block_bytes a)).

Lemma le_val_map2_lt : forall la lb, length la = length lb ->
  Forall is_byte la -> Forall is_byte lb ->
  (bits_val (map2 (fun x y => y <? x) la lb) <? bits_val (map2 (fun x y => x <? y) la lb)) = (le_val la <? le_val lb)
  /\ (bits_val (map2 (fun x y => y <? x) la lb) = bits_val (map2 (fun x y => x <? y) la lb) <-> le_val la = le_val lb).
Proof.
  induction la as [|x la IH]; intros [|y lb] L Fa Fb; try discriminate L; [split; [reflexivity|tauto]|].
  inversion Fa; subst. inversion Fb; subst. unfold is_byte in *.
  destruct (IH lb) as (I1 & I2); [cbn in L; lia|auto|auto|].
  cbn [map2 bits_val le_val].
  set (g := bits_val (map2 (fun x y => y <? x) la lb)) in *.
  set (l := bits_val (map2 (fun x y => x <? y) la lb)) in *.
  set (va := le_val la) in *. set (vb := le_val lb) in *.
  assert (J1 : (g < l) <-> (va < vb)) by lia.
  destruct (N.ltb_spec x y), (N.ltb_spec y x); split; lia.
Qed.

Lemma map2_map : forall (A B C D : Type) (f : C -> D -> B) (g : A -> C) (h : A -> D) (la lb : list A),
  map2 f (map g la) (map h lb) = map2 (fun x y => f (g x) (h y)) la lb.
Proof. induction la as [|a la IH]; intros [|b lb]; cbn [map map2]; auto. f_equal. auto. Qed.

Lemma key_bytes : forall a, Forall is_byte (map (fun x => N.lxor x 128) (block_bytes a)).
Proof.
  intros a. apply Forall_map. apply Forall_impl with (P := is_byte).
  - intros x Hx. unfold is_byte in *. change 256 with (2 ^ 8) in *. apply lxor_lt; auto. reflexivity.
  - apply le_bytes_ok.
Qed.

Lemma IsLessThan_key : forall a b, IsLessThan a b = (key a <? key b).
Proof.
  intros a b. unfold IsLessThan, sbyte_lt, key.
  destruct (le_val_map2_lt (map (fun x => N.lxor x 128) (block_bytes a)) (map (fun x => N.lxor x 128) (block_bytes b)))
    as (E & _); try apply key_bytes.
  { rewrite !map_length. unfold block_bytes. rewrite !le_bytes_length. auto. }
  rewrite <- E. rewrite !map2_map. auto.
Qed.

Lemma key_inj : forall a b, a < 2 ^ 128 -> b < 2 ^ 128 -> key a = key b -> a = b.
Proof.
  intros a b Ha Hb E. unfold key in E.
  apply (f_equal (le_bytes 16)) in E.
  assert (L : forall c, 16%nat = length (map (fun x => N.lxor x 128) (block_bytes c)))
    by (intros; rewrite map_length; unfold block_bytes; rewrite le_bytes_length; auto).
  rewrite (L a) in E at 1. rewrite (L b) in E at 1. rewrite !le_bytes_val in E by apply key_bytes.
  apply (f_equal (map (fun x => N.lxor x 128))) in E. rewrite !map_map in E.
  assert (Q : forall l, map (fun x => N.lxor (N.lxor x 128) 128) l = l).
  { intros l. rewrite <- (map_id l) at 2. apply map_ext. intros x. rewrite N.lxor_assoc, N.lxor_nilpotent, N.lxor_0_r. auto. }
  rewrite !Q in E. unfold block_bytes in E. apply (f_equal le_val) in E.
  rewrite !le_val_bytes in E; auto.
Qed.

(** ** std::set and std::set_difference *)
Definition blt (a b : N) : Prop := IsLessThan a b = true.
Definition block_ok (a : N) : Prop := a < 2 ^ 128.
Definition sorted := StronglySorted blt.

Lemma blt_key : forall a b, blt a b <-> key a < key b.
Proof. intros. unfold blt. rewrite IsLessThan_key. apply N.ltb_lt. Qed.

Lemma set_insert_in : forall x s z, block_ok x -> Forall block_ok s ->
  (In z (set_insert IsLessThan x s) <-> z = x \/ In z s).
Proof.
  induction s as [|y s IH]; intros z Hx Fs; cbn [set_insert].
  - cbn. intuition.
  - inversion Fs; subst. rewrite !IsLessThan_key.
    destruct (N.ltb_spec (key x) (key y)); [cbn; intuition|].
    destruct (N.ltb_spec (key y) (key x)).
    + cbn [In]. rewrite IH by auto. intuition.
    + assert (x = y) by (apply key_inj; auto; lia). subst. cbn [In]. intuition.
Qed.

Lemma set_insert_ok : forall x s, block_ok x -> Forall block_ok s -> Forall block_ok (set_insert IsLessThan x s).
Proof.
  intros x s Hx Fs. apply Forall_forall. intros z Hz. apply set_insert_in in Hz; auto.
  rewrite Forall_forall in Fs. destruct Hz; subst; auto.
Qed.

Lemma set_insert_sorted : forall x s, block_ok x -> Forall block_ok s -> sorted s -> sorted (set_insert IsLessThan x s).
Proof.
  induction s as [|y s IH]; intros Hx Fs S; cbn [set_insert].
  - constructor; auto.
  - inversion Fs; subst. inversion S; subst. rewrite !IsLessThan_key.
    destruct (N.ltb_spec (key x) (key y)).
    + constructor; auto. constructor; [apply blt_key; auto|].
      rewrite Forall_forall in *. intros z Hz. apply blt_key. specialize (H4 z Hz). apply blt_key in H4. lia.
    + destruct (N.ltb_spec (key y) (key x)); auto.
      constructor; [apply IH; auto|]. apply Forall_forall. intros z Hz. apply set_insert_in in Hz; auto.
      destruct Hz as [->|Hz]; [apply blt_key; auto|]. rewrite Forall_forall in H4. auto.
Qed.

Lemma set_of_acc : forall v s z, Forall block_ok v -> Forall block_ok s -> sorted s ->
  let r := fold_left (fun s x => set_insert IsLessThan x s) v s in
  (In z r <-> In z v \/ In z s) /\ Forall block_ok r /\ sorted r.
Proof.
  induction v as [|x v IH]; intros s z Fv Fs S; cbn [fold_left].
  - cbn. intuition.
  - inversion Fv; subst.
    destruct (IH (set_insert IsLessThan x s) z) as (I & F & SS); auto using set_insert_ok, set_insert_sorted.
    cbn zeta in *. split; [|auto]. rewrite I, set_insert_in by auto. cbn [In]. intuition.
Qed.

Lemma set_of_spec : forall v z, Forall block_ok v ->
  (In z (set_of IsLessThan v) <-> In z v) /\ Forall block_ok (set_of IsLessThan v) /\ sorted (set_of IsLessThan v).
Proof.
  intros v z F. destruct (set_of_acc v [] z F) as (I & O & S); [constructor|constructor|].
  unfold set_of. cbn zeta in *. split; [|auto]. rewrite I. cbn. tauto.
Qed.

Lemma set_difference_spec : forall a b z, Forall block_ok a -> Forall block_ok b -> sorted a -> sorted b ->
  (In z (set_difference IsLessThan a b) <-> In z a /\ ~ In z b).
Proof.
  induction a as [|x a IHa]; intros b z Fa Fb Sa Sb.
  - cbn. tauto.
  - inversion Fa; subst. inversion Sa; subst.
    induction b as [|y b IHb].
    + cbn. tauto.
    + inversion Fb; subst. inversion Sb; subst. cbn [set_difference]. rewrite !IsLessThan_key.
      rewrite Forall_forall in H4, H8.
      destruct (N.ltb_spec (key x) (key y)) as [L|L].
      * cbn [In]. rewrite IHa by auto. cbn [In].
        assert (NB : forall u, In u b -> key y < key u) by (intros u Hu; apply blt_key; auto).
        split.
        -- intros [->|(I1 & I2)]; [|tauto]. split; auto. intros [->|Hz]; [lia|]. specialize (NB _ Hz). lia.
        -- intros ([->|I1] & I2); tauto.
      * destruct (N.ltb_spec (key y) (key x)) as [L'|L'].
        -- change (In z (set_difference IsLessThan (x :: a) b) <-> In z (x :: a) /\ ~ In z (y :: b)).
           rewrite IHb by auto. cbn [In].
           assert (NA : forall u, In u a -> key x < key u) by (intros u Hu; apply blt_key; auto).
           split; [|tauto]. intros (I1 & I2). split; auto. intros [->|?]; [|tauto].
           destruct I1 as [->|I1]; [lia|]. specialize (NA _ I1). lia.
        -- assert (x = y) by (apply key_inj; auto; lia). subst y.
           rewrite IHa by auto. cbn [In].
           assert (NA : forall u, In u a -> key x < key u) by (intros u Hu; apply blt_key; auto).
           split; [|tauto]. intros (I1 & I2). split; [auto|]. intros [->|?]; [|tauto].
           specialize (NA _ I1). lia.
Qed.

Lemma ComputeSetDifference_spec : forall A B z, Forall block_ok A -> Forall block_ok B ->
  (In z (ComputeSetDifference A B) <-> In z A /\ ~ In z B) /\ sorted (ComputeSetDifference A B).
Proof.
  intros A B z FA FB. unfold ComputeSetDifference.
  destruct (set_of_spec A z FA) as (IA & OA & SA). destruct (set_of_spec B z FB) as (IB & OB & SB).
  assert (FD : Forall block_ok (set_difference IsLessThan (set_of IsLessThan A) (set_of IsLessThan B))).
  { apply Forall_forall. intros u Hu. apply set_difference_spec in Hu; auto.
    rewrite Forall_forall in OA. apply OA. tauto. }
  destruct (set_of_spec _ z FD) as (ID & _ & SD). split; [|auto].
  rewrite ID, set_difference_spec by auto. rewrite IA, IB. tauto.
Qed.

Lemma sorted_NoDup : forall l, sorted l -> NoDup l.
Proof.
  induction l; intros S; inversion S; subst; constructor; auto.
  intros I. rewrite Forall_forall in H2. specialize (H2 _ I). apply blt_key in H2. lia.
Qed.

(** ** Block serialisation *)
Lemma read_write_block : forall a rest, a < 2 ^ 128 -> read_block (write_block a ++ rest) = Some (a, rest).
Proof.
  intros a rest Ha. unfold read_block, write_block. rewrite app_length, le_bytes_length.
  replace (Nat.leb 16 (16 + length rest)) with true by (symmetry; apply Nat.leb_le; lia).
  rewrite firstn_app_exact', skipn_app_exact' by (symmetry; apply le_bytes_length).
  rewrite le_val_bytes; auto.
Qed.

Lemma read_write_blocks : forall v rest, Forall block_ok v ->
  read_blocks (length v) (write_blocks v ++ rest) = Some (v, rest).
Proof.
  induction v as [|a v IH]; intros rest F; [reflexivity|]. inversion F; subst.
  cbn [length read_blocks write_blocks flat_map]. rewrite <- app_assoc.
  rewrite read_write_block by auto. fold (write_blocks v). rewrite IH by auto. auto.
Qed.

(** ** Bit-matrix transposition *)
Lemma bits_val_app : forall a b, bits_val (a ++ b) = bits_val a + 2 ^ N.of_nat (length a) * bits_val b.
Proof.
  induction a as [|x a IH]; intros b; [cbn [app bits_val length N.of_nat]; lia|].
  cbn [app bits_val length]. rewrite IH, Nat2N.inj_succ, N.pow_succ_r'. lia.
Qed.

Lemma bits_val_lt : forall a, bits_val a < 2 ^ N.of_nat (length a).
Proof.
  induction a as [|x a IH]; [reflexivity|]. cbn [bits_val length].
  rewrite Nat2N.inj_succ, N.pow_succ_r'. destruct x; lia.
Qed.

Lemma slli1_bit : forall x j, j < 128 -> j mod 64 <> 0 -> N.testbit (slli_epi64 x 1) j = N.testbit x (j - 1).
Proof.
  intros x j Hj Hm. unfold slli_epi64, of_lanes, lane_hi, lane_lo, wrap64. rewrite N.lor_spec.
  destruct (N.lt_ge_cases j 64) as [L|L].
  - rewrite N.shiftl_spec_low by auto. rewrite orb_false_l, testbit_wrap.
    rewrite N.mod_small in Hm by auto.
    rewrite N.shiftl_spec_high' by lia. rewrite testbit_wrap.
    replace (j <? 64) with true by lia. replace (j - 1 <? 64) with true by lia. auto.
  - rewrite N.shiftl_spec_high' by auto. rewrite !testbit_wrap.
    replace (j <? 64) with false by lia. replace (j - 64 <? 64) with true by lia.
    assert (j <> 64) by (intros ->; apply Hm; reflexivity).
    rewrite N.shiftl_spec_high' by lia. rewrite testbit_wrap, N.shiftr_spec'.
    replace (j - 64 - 1 <? 64) with true by lia. cbn. rewrite orb_false_r. f_equal. lia.
Qed.

Lemma slli_iter_bit : forall t x j, j < 128 -> N.of_nat t <= j mod 64 ->
  N.testbit (Nat.iter t (fun v => slli_epi64 v 1) x) j = N.testbit x (j - N.of_nat t).
Proof.
  induction t; intros x j Hj Ht; [cbn [Nat.iter]; f_equal; lia|].
  cbn [Nat.iter nat_rect]. rewrite slli1_bit by lia.
  change (nat_rect _ x _ t) with (Nat.iter t (fun v => slli_epi64 v 1) x).
  rewrite IHt; [f_equal; lia|lia|].
  assert ((j - 1) mod 64 = j mod 64 - 1).
  { symmetry. apply N.mod_unique with (q := j / 64).
    - pose proof (N.mod_lt j 64). lia.
    - pose proof (N.div_mod j 64). lia. }
  lia.
Qed.

Lemma le_val_bit : forall bs k m, Forall is_byte bs -> m < 8 ->
  N.testbit (le_val bs) (8 * N.of_nat k + m) = N.testbit (nth k bs 0) m.
Proof.
  induction bs as [|b bs IH]; intros k m F Hm.
  - cbn [le_val]. destruct k; cbn [nth]; rewrite !N.bits_0; auto.
  - inversion F; subst. unfold is_byte in *. cbn [le_val].
    assert (D : N.testbit (b + 256 * le_val bs) (8 * N.of_nat k + m) =
                if (8 * N.of_nat k + m) <? 8 then N.testbit b (8 * N.of_nat k + m)
                else N.testbit (le_val bs) (8 * N.of_nat k + m - 8)).
    { destruct (N.ltb_spec (8 * N.of_nat k + m) 8).
      - rewrite <- (N.mod_pow2_bits_low _ 8) by lia. f_equal. change (2 ^ 8) with 256.
        rewrite N.mul_comm, N.mod_add by lia. apply N.mod_small; auto.
      - replace (8 * N.of_nat k + m) with ((8 * N.of_nat k + m - 8) + 8) at 1 by lia.
        rewrite <- N.div_pow2_bits. f_equal. change (2 ^ 8) with 256.
        rewrite N.mul_comm, N.div_add by lia. rewrite N.div_small by auto. auto. }
    rewrite D. destruct k as [|k].
    + replace (8 * N.of_nat 0 + m <? 8) with true by lia. cbn [nth]. f_equal.
    + replace (8 * N.of_nat (S k) + m <? 8) with false by lia. cbn [nth].
      rewrite <- IH by auto. f_equal. lia.
Qed.

Lemma movemask_iter : forall bs t, Forall is_byte bs -> (t < 8)%nat ->
  movemask (Nat.iter t (fun v => slli_epi64 v 1) (le_val bs)) =
  bits_val (map (fun k => N.testbit (nth k bs 0) (N.of_nat (7 - t))) (seq 0 16)).
Proof.
  intros bs t F Ht. unfold movemask. f_equal. apply map_ext_in. intros k Hk. apply in_seq in Hk.
  rewrite slli_iter_bit; [|lia|].
  - rewrite <- le_val_bit by (auto; lia). f_equal. lia.
  - assert (E : (8 * N.of_nat k + 7) mod 64 = 8 * (N.of_nat k mod 8) + 7).
    { symmetry. apply N.mod_unique with (q := N.of_nat k / 8).
      - pose proof (N.mod_lt (N.of_nat k) 8). lia.
      - pose proof (N.div_mod (N.of_nat k) 8). lia. }
    rewrite E. lia.
Qed.

Lemma bits_val_split : forall f,
  bits_val (map f (seq 0 16)) mod 256 = bits_val (map f (seq 0 8)) /\
  bits_val (map f (seq 0 16)) / 256 = bits_val (map (fun k => f (8 + k)%nat) (seq 0 8)).
Proof.
  intros f. change (seq 0 16) with (seq 0 8 ++ seq 8 8). rewrite map_app, bits_val_app.
  rewrite map_length, seq_length. change (2 ^ N.of_nat 8) with 256.
  pose proof (bits_val_lt (map f (seq 0 8))) as L. rewrite map_length, seq_length in L.
  change (2 ^ N.of_nat 8) with 256 in L.
  split.
  - rewrite N.mul_comm, N.mod_add by lia. apply N.mod_small. auto.
  - rewrite N.mul_comm, N.div_add by lia. rewrite N.div_small by auto. rewrite N.add_0_l. reflexivity.
Qed.

Section TransposeProof.
Variables (input : list N) (r8 c8 : nat).
Let R := (8 * r8)%nat.
Let C := (8 * c8)%nat.
Hypothesis Hin : length input = (R * c8)%nat.
Hypothesis Hbytes : Forall is_byte input.

(** entry (x, y) of the input matrix *)
Definition inbit (x y : nat) : bool := N.testbit (nth (x * c8 + y / 8) input 0) (N.of_nat (y mod 8)).
(** byte q of the transposed matrix *)
Definition Ebyte (q : nat) : N := bits_val (map (fun k => inbit (8 * (q mod r8) + k) (q / r8)) (seq 0 8)).
Definition good (out : list N) (q : nat) : Prop := nth q out 0 = Ebyte q.

Lemma IN_some : forall x c, (x < R)%nat -> (c < c8)%nat -> IN input C x (8 * c) = Some (nth (x * c8 + c) input 0).
Proof.
  intros x c Hx Hc. unfold IN, C.
  replace (x * (8 * c8) / 8)%nat with (x * c8)%nat
    by (replace (x * (8 * c8))%nat with (x * c8 * 8)%nat by lia; rewrite Nat.div_mul; lia).
  replace (8 * c / 8)%nat with c by (rewrite Nat.mul_comm, Nat.div_mul; lia).
  apply nth_error_nth'. rewrite Hin. unfold R in *. nia.
Qed.

Lemma read_col_ok : forall f g l, (forall k, In k l -> f k = Some (g k)) -> read_col f l = Some (map g l).
Proof.
  induction l as [|k l IH]; intros H; [reflexivity|]. cbn [read_col map].
  rewrite H by (left; auto). rewrite IH; auto. intros; apply H; right; auto.
Qed.

Lemma put_good : forall out q, (q < length out)%nat -> exists out', put out q (Ebyte q) = Some out' /\
  length out' = length out /\ good out' q /\ (forall p, good out p -> good out' p).
Proof.
  intros out q L. unfold put. replace (Nat.ltb q (length out)) with true by (symmetry; apply Nat.ltb_lt; auto).
  eexists; split; [reflexivity|]. rewrite upd_length. split; auto. unfold good. split.
  - rewrite nth_upd_same; auto.
  - intros p Hp. destruct (Nat.eq_dec p q) as [->|N]; [rewrite nth_upd_same; auto|rewrite nth_upd_other; auto].
Qed.

Lemma OUT_eq : forall w y, OUT R (8 * w) y = (y * r8 + w)%nat.
Proof.
  intros w y. unfold OUT, R. f_equal.
  - replace (y * (8 * r8))%nat with (y * r8 * 8)%nat by lia. apply Nat.div_mul. lia.
  - rewrite Nat.mul_comm. apply Nat.div_mul. lia.
Qed.

Lemma Ebyte_at : forall w y, (w < r8)%nat ->
  Ebyte (y * r8 + w) = bits_val (map (fun k => inbit (8 * w + k) y) (seq 0 8)).
Proof.
  intros w y Hw. unfold Ebyte.
  replace ((y * r8 + w) mod r8)%nat with w
    by (symmetry; rewrite Nat.add_comm, Nat.mod_add by lia; apply Nat.mod_small; auto).
  replace ((y * r8 + w) / r8)%nat with y
    by (symmetry; rewrite Nat.add_comm, Nat.div_add by lia; rewrite Nat.div_small; auto).
  reflexivity.
Qed.

Lemma inbit_at : forall x c i, (i < 8)%nat -> inbit x (8 * c + i) = N.testbit (nth (x * c8 + c) input 0) (N.of_nat i).
Proof.
  intros x c i Hi. unfold inbit.
  replace ((8 * c + i) / 8)%nat with c
    by (symmetry; rewrite (Nat.mul_comm 8), Nat.add_comm, Nat.div_add by lia; rewrite Nat.div_small; auto).
  replace ((8 * c + i) mod 8)%nat with i
    by (symmetry; rewrite (Nat.mul_comm 8), Nat.add_comm, Nat.mod_add by lia; apply Nat.mod_small; auto).
  reflexivity.
Qed.

Lemma input_byte : forall q, is_byte (nth q input 0).
Proof.
  intros q. destruct (Nat.lt_ge_cases q (length input)).
  - rewrite Forall_forall in Hbytes. apply Hbytes. apply nth_In; auto.
  - rewrite nth_overflow by auto. reflexivity.
Qed.

Lemma iter_step : forall t v, slli_epi64 (Nat.iter t (fun v => slli_epi64 v 1) v) 1 = Nat.iter (S t) (fun v => slli_epi64 v 1) v.
Proof. reflexivity. Qed.

Lemma store16_good : forall r c n bs out, (2 * r + 1 < r8)%nat -> (c < c8)%nat -> (n <= 8)%nat ->
  length out = (C * r8)%nat ->
  bs = map (fun k => nth ((16 * r + k) * c8 + c) input 0) (seq 0 16) ->
  exists out', store16 R (16 * r) (8 * c) n (Nat.iter (8 - n) (fun v => slli_epi64 v 1) (le_val bs)) out = Some out' /\
    length out' = length out /\ (forall p, good out p -> good out' p) /\
    forall i, (i < n)%nat -> good out' ((8 * c + i) * r8 + 2 * r) /\ good out' ((8 * c + i) * r8 + 2 * r + 1).
Proof.
  induction n as [|n IH]; intros bs out Hr Hc Hn L E.
  - exists out. cbn [store16]. repeat split; auto; lia.
  - cbn [store16].
    replace (16 * r)%nat with (8 * (2 * r))%nat in * by lia. rewrite !OUT_eq.
    set (q := ((8 * c + n) * r8 + 2 * r)%nat).
    assert (Fb : Forall is_byte bs).
    { rewrite E. apply Forall_map. apply Forall_forall. intros; apply input_byte. }
    rewrite movemask_iter by (auto; lia).
    replace (7 - (8 - S n))%nat with n by lia.
    assert (V : forall k, (k < 16)%nat -> nth k bs 0 = nth ((8 * (2 * r) + k) * c8 + c) input 0).
    { intros k Hk. rewrite E. rewrite nth_map' with (d := 0%nat) by (rewrite seq_length; auto).
      rewrite seq_nth by auto. reflexivity. }
    destruct (bits_val_split (fun k => N.testbit (nth k bs 0) (N.of_nat n))) as (V1 & V2).
    assert (E1 : bits_val (map (fun k => N.testbit (nth k bs 0) (N.of_nat n)) (seq 0 16)) mod 256 = Ebyte q).
    { rewrite V1. unfold q. rewrite Ebyte_at by lia. f_equal. apply map_ext_in. intros k Hk. apply in_seq in Hk.
      rewrite V by lia. rewrite inbit_at by lia. reflexivity. }
    assert (E2 : bits_val (map (fun k => N.testbit (nth k bs 0) (N.of_nat n)) (seq 0 16)) / 256 = Ebyte (q + 1)).
    { rewrite V2. unfold q. rewrite <- Nat.add_assoc, Ebyte_at by lia. f_equal. apply map_ext_in. intros k Hk. apply in_seq in Hk.
      rewrite V by lia. rewrite inbit_at by lia. do 2 f_equal. lia. }
    rewrite E1, E2.
    assert (Hq : (q + 1 < C * r8)%nat) by (unfold q, C; nia).
    destruct (put_good out q) as (o1 & P1 & L1 & G1 & M1); [lia|].
    rewrite P1. cbn [obind].
    destruct (put_good o1 (q + 1)) as (o2 & P2 & L2 & G2 & M2); [lia|].
    rewrite P2. cbn [obind].
    rewrite iter_step. replace (S (8 - S n)) with (8 - n)%nat by lia.
    destruct (IH bs o2) as (o3 & P3 & L3 & M3 & G3); auto; try lia.
    exists o3. split; [exact P3|]. split; [lia|]. split; [auto|].
    intros i Hi. destruct (Nat.eq_dec i n) as [->|]; [fold q; auto|]. apply G3. lia.
Qed.

Lemma block16_good : forall r c out, (2 * r + 1 < r8)%nat -> (c < c8)%nat -> length out = (C * r8)%nat ->
  exists out', block16 input R C (16 * r) out (8 * c) = Some out' /\
    length out' = length out /\ (forall p, good out p -> good out' p) /\
    forall i, (i < 8)%nat -> good out' ((8 * c + i) * r8 + 2 * r) /\ good out' ((8 * c + i) * r8 + 2 * r + 1).
Proof.
  intros r c out Hr Hc L. unfold block16.
  rewrite (read_col_ok _ (fun k => nth ((16 * r + k) * c8 + c) input 0)).
  2:{ intros k Hk. apply in_seq in Hk. apply IN_some; auto. unfold R. lia. }
  cbn [obind]. apply (store16_good r c 8 _ out); auto.
Qed.

(** folding a step that establishes P a and keeps what is good *)
Lemma fold_good : forall (f : list N -> nat -> option (list N)) (P : nat -> list N -> Prop) n m,
  (forall a o o', P a o -> (forall p, good o p -> good o' p) -> P a o') ->
  (forall a o, (m <= a < m + n)%nat -> length o = (C * r8)%nat -> exists o', f o a = Some o' /\ length o' = length o /\
     (forall p, good o p -> good o' p) /\ P a o') ->
  forall o, length o = (C * r8)%nat ->
  exists o', fold_opt f (seq m n) o = Some o' /\ length o' = length o /\
    (forall p, good o p -> good o' p) /\ forall a, (m <= a < m + n)%nat -> P a o'.
Proof.
  intros f P n. induction n as [|n IH]; intros m Mono Step o L.
  - exists o. cbn. repeat split; auto; lia.
  - cbn [seq fold_opt]. destruct (Step m o) as (o1 & E1 & L1 & M1 & P1); [lia|auto|].
    rewrite E1. cbn [obind].
    destruct (IH (S m) Mono) with (o := o1) as (o2 & E2 & L2 & M2 & P2); [|lia|].
    { intros. apply Step; auto; lia. }
    exists o2. split; [auto|]. split; [lia|]. split; [auto|].
    intros a Ha. destruct (Nat.eq_dec a m) as [->|]; [eapply Mono; eauto|apply P2; lia].
Qed.

Lemma main_loop_good : forall out, length out = (C * r8)%nat ->
  exists out', main_loop input R C out = Some out' /\ length out' = length out /\
    forall y w, (y < C)%nat -> (w < 2 * (R / 16))%nat -> good out' (y * r8 + w).
Proof.
  intros out L. unfold main_loop.
  assert (C8 : (C / 8 = c8)%nat) by (unfold C; rewrite Nat.mul_comm; apply Nat.div_mul; lia). rewrite C8.
  set (PR := fun r o => forall c i, (c < c8)%nat -> (i < 8)%nat ->
     good o ((8 * c + i) * r8 + 2 * r) /\ good o ((8 * c + i) * r8 + 2 * r + 1)).
  destruct (fold_good (fun o r => fold_opt (fun o c => block16 input R C (16 * r) o (8 * c)) (seq 0 c8) o)
              PR (R / 16) 0) with (o := out) as (o' & E & L' & _ & G); auto.
  - unfold PR. intros a o o' P M c i Hc Hi. destruct (P c i Hc Hi). auto.
  - intros r o Hr Lo.
    assert (HR : (2 * r + 1 < r8)%nat).
    { assert (16 * (R / 16) <= R)%nat by (apply Nat.mul_div_le; lia). unfold R in *. lia. }
    destruct (fold_good (fun o c => block16 input R C (16 * r) o (8 * c))
       (fun c o => forall i, (i < 8)%nat -> good o ((8 * c + i) * r8 + 2 * r) /\ good o ((8 * c + i) * r8 + 2 * r + 1))
       c8 0) with (o := o) as (o1 & E1 & L1 & M1 & G1); auto.
    + intros a o0 o0' P M i Hi. destruct (P i Hi). auto.
    + intros c o0 Hc L0. destruct (block16_good r c o0) as (o2 & E2 & L2 & M2 & G2); auto; try lia.
      exists o2. auto.
    + exists o1. split; [auto|]. split; [auto|]. split; [auto|]. unfold PR. intros c i Hc Hi. apply G1; lia.
  - exists o'. split; auto. split; auto. intros y w Hy Hw.
    assert (Hy8 : (y = 8 * (y / 8) + y mod 8)%nat) by (apply Nat.div_mod; lia).
    assert (y mod 8 < 8)%nat by (apply Nat.mod_upper_bound; lia).
    assert (y / 8 < c8)%nat by (unfold C in Hy; apply Nat.div_lt_upper_bound; lia).
    assert (Hw2 : (w = 2 * (w / 2) + w mod 2)%nat) by (apply Nat.div_mod; lia).
    assert (w mod 2 < 2)%nat by (apply Nat.mod_upper_bound; lia).
    destruct (G (w / 2)%nat) with (c := (y / 8)%nat) (i := (y mod 8)%nat) as (G1 & G2); auto; [lia|].
    rewrite <- Hy8 in G1, G2.
    destruct (w mod 2)%nat as [|[|?]] eqn:Em; [|  |lia].
    + replace w with (2 * (w / 2))%nat by lia. auto.
    + replace (y * r8 + w)%nat with (y * r8 + 2 * (w / 2) + 1)%nat by lia. auto.
Qed.

Lemma store8x2_good : forall w c n bs out, (w < r8)%nat -> (2 * c + 1 < c8)%nat -> (n <= 8)%nat ->
  length out = (C * r8)%nat ->
  bs = map (fun k => nth ((8 * w + k) * c8 + 2 * c) input 0) (seq 0 8) ++
       map (fun k => nth ((8 * w + k) * c8 + 2 * c + 1) input 0) (seq 0 8) ->
  exists out', store8x2 R (8 * w) (16 * c) n (Nat.iter (8 - n) (fun v => slli_epi64 v 1) (le_val bs)) out = Some out' /\
    length out' = length out /\ (forall p, good out p -> good out' p) /\
    forall i, (i < n)%nat -> good out' ((16 * c + i) * r8 + w) /\ good out' ((16 * c + i + 8) * r8 + w).
Proof.
  induction n as [|n IH]; intros bs out Hw Hc Hn L E.
  - exists out. cbn [store8x2]. repeat split; auto; lia.
  - cbn [store8x2]. rewrite !OUT_eq.
    set (q1 := ((16 * c + n) * r8 + w)%nat). set (q2 := ((16 * c + n + 8) * r8 + w)%nat).
    assert (Fb : Forall is_byte bs).
    { rewrite E. apply Forall_app. split; apply Forall_map; apply Forall_forall; intros; apply input_byte. }
    rewrite movemask_iter by (auto; lia).
    replace (7 - (8 - S n))%nat with n by lia.
    assert (V : forall k, (k < 8)%nat -> nth k bs 0 = nth ((8 * w + k) * c8 + 2 * c) input 0 /\
                nth (8 + k) bs 0 = nth ((8 * w + k) * c8 + 2 * c + 1) input 0).
    { intros k Hk. rewrite E. split.
      - rewrite app_nth1 by (rewrite map_length, seq_length; auto).
        rewrite nth_map' with (d := 0%nat) by (rewrite seq_length; auto). rewrite seq_nth by auto. reflexivity.
      - rewrite app_nth2 by (rewrite map_length, seq_length; lia). rewrite map_length, seq_length.
        replace (8 + k - 8)%nat with k by lia.
        rewrite nth_map' with (d := 0%nat) by (rewrite seq_length; auto). rewrite seq_nth by auto. reflexivity. }
    destruct (bits_val_split (fun k => N.testbit (nth k bs 0) (N.of_nat n))) as (V1 & V2).
    assert (E1 : bits_val (map (fun k => N.testbit (nth k bs 0) (N.of_nat n)) (seq 0 16)) mod 256 = Ebyte q1).
    { rewrite V1. unfold q1. rewrite Ebyte_at by lia. f_equal. apply map_ext_in. intros k Hk. apply in_seq in Hk.
      destruct (V k) as (-> & _); [lia|]. replace (16 * c + n)%nat with (8 * (2 * c) + n)%nat by lia.
      rewrite inbit_at by lia. reflexivity. }
    assert (E2 : bits_val (map (fun k => N.testbit (nth k bs 0) (N.of_nat n)) (seq 0 16)) / 256 = Ebyte q2).
    { rewrite V2. unfold q2. rewrite Ebyte_at by lia. f_equal. apply map_ext_in. intros k Hk. apply in_seq in Hk.
      destruct (V k) as (_ & ->); [lia|]. replace (16 * c + n + 8)%nat with (8 * (2 * c + 1) + n)%nat by lia.
      rewrite inbit_at by lia. do 2 f_equal. lia. }
    rewrite E1, E2.
    assert (Hq : (q1 < C * r8 /\ q2 < C * r8)%nat) by (unfold q1, q2, C; nia).
    destruct (put_good out q1) as (o1 & P1 & L1 & G1 & M1); [lia|].
    rewrite P1. cbn [obind].
    destruct (put_good o1 q2) as (o2 & P2 & L2 & G2 & M2); [lia|].
    rewrite P2. cbn [obind].
    rewrite iter_step. replace (S (8 - S n)) with (8 - n)%nat by lia.
    destruct (IH bs o2) as (o3 & P3 & L3 & M3 & G3); auto; try lia.
    exists o3. split; [exact P3|]. split; [lia|]. split; [auto|].
    intros i Hi. destruct (Nat.eq_dec i n) as [->|]; [fold q1 q2; auto|]. apply G3. lia.
Qed.

Lemma store8_good : forall w c n bs out, (w < r8)%nat -> (c < c8)%nat -> (n <= 8)%nat ->
  length out = (C * r8)%nat -> Forall is_byte bs ->
  (forall k, (k < 8)%nat -> nth k bs 0 = nth ((8 * w + k) * c8 + c) input 0) ->
  exists out', store8 R (8 * w) (8 * c) n (Nat.iter (8 - n) (fun v => slli_epi64 v 1) (le_val bs)) out = Some out' /\
    length out' = length out /\ (forall p, good out p -> good out' p) /\
    forall i, (i < n)%nat -> good out' ((8 * c + i) * r8 + w).
Proof.
  induction n as [|n IH]; intros bs out Hw Hc Hn L Fb V.
  - exists out. cbn [store8]. repeat split; auto; lia.
  - cbn [store8]. rewrite !OUT_eq.
    set (q1 := ((8 * c + n) * r8 + w)%nat).
    rewrite movemask_iter by (auto; lia).
    replace (7 - (8 - S n))%nat with n by lia.
    destruct (bits_val_split (fun k => N.testbit (nth k bs 0) (N.of_nat n))) as (V1 & _).
    assert (E1 : bits_val (map (fun k => N.testbit (nth k bs 0) (N.of_nat n)) (seq 0 16)) mod 256 = Ebyte q1).
    { rewrite V1. unfold q1. rewrite Ebyte_at by lia. f_equal. apply map_ext_in. intros k Hk. apply in_seq in Hk.
      rewrite V by lia. rewrite inbit_at by lia. reflexivity. }
    rewrite E1.
    assert (Hq : (q1 < C * r8)%nat) by (unfold q1, C; nia).
    destruct (put_good out q1) as (o1 & P1 & L1 & G1 & M1); [lia|].
    rewrite P1. cbn [obind].
    rewrite iter_step. replace (S (8 - S n)) with (8 - n)%nat by lia.
    destruct (IH bs o1) as (o3 & P3 & L3 & M3 & G3); auto; try lia.
    exists o3. split; [exact P3|]. split; [lia|]. split; [auto|].
    intros i Hi. destruct (Nat.eq_dec i n) as [->|]; [fold q1; auto|]. apply G3. lia.
Qed.

Lemma div8 : forall x, ((8 * x) / 8)%nat = x.
Proof. intros. rewrite Nat.mul_comm. apply Nat.div_mul. lia. Qed.

Lemma main_loop_keeps : forall out, length out = (C * r8)%nat -> exists o, main_loop input R C out = Some o.
Proof. intros out L. destruct (main_loop_good out L) as (o & E & _). eauto. Qed.

Lemma list_good : forall out, length out = (C * r8)%nat ->
  (forall y w, (y < C)%nat -> (w < r8)%nat -> good out (y * r8 + w)) ->
  out = map Ebyte (seq 0 (C * r8)).
Proof.
  intros out L G. apply list_eq_nth with (d := 0).
  - rewrite map_length, seq_length. auto.
  - intros q Hq. rewrite L in Hq.
    rewrite nth_map' with (d := 0%nat) by (rewrite seq_length; auto). rewrite seq_nth by auto. cbn [Nat.add].
    destruct r8 as [|r'] eqn:Er; [lia|].
    assert (D : (q = S r' * (q / S r') + q mod S r')%nat) by (apply Nat.div_mod; lia).
    assert (q mod S r' < S r')%nat by (apply Nat.mod_upper_bound; lia).
    specialize (G (q / S r')%nat (q mod S r')%nat).
    unfold good in G. rewrite (Nat.mul_comm (q / S r')), <- D in G. apply G; [|auto].
    apply Nat.div_lt_upper_bound; lia.
Qed.

Theorem transpose_ok : forall stale out, length out = (C * r8)%nat -> Forall is_byte stale ->
  (16 <= R)%nat -> (R mod 16 = 0 \/ 16 <= C)%nat ->
  BitMatrixTranspose input R C stale out = Some (map Ebyte (seq 0 (C * r8))).
Proof.
  intros stale out L Fst HR HC. unfold BitMatrixTranspose.
  replace (R mod 8)%nat with 0%nat by (unfold R; rewrite Nat.mul_comm, Nat.mod_mul; lia).
  replace (C mod 8)%nat with 0%nat by (unfold C; rewrite Nat.mul_comm, Nat.mod_mul; lia).
  cbn [Nat.eqb andb negb].
  replace (Nat.ltb R 16) with false by (symmetry; apply Nat.ltb_ge; auto).
  destruct (main_loop_good out L) as (o1 & E1 & L1 & G1). rewrite E1. cbn [obind].
  assert (DR : (R = 16 * (R / 16) + R mod 16)%nat) by (apply Nat.div_mod; lia).
  assert (MR : (R mod 16 < 16)%nat) by (apply Nat.mod_upper_bound; lia).
  destruct (Nat.eqb_spec (R mod 16) 0) as [Z|Z].
  - f_equal. apply list_good; [lia|]. intros y w Hy Hw. apply G1; auto. unfold R in *. lia.
  - destruct HC as [HC|HC]; [congruence|].
    replace (Nat.ltb C 16) with false by (symmetry; apply Nat.ltb_ge; auto).
    assert (W : exists w, (16 * (R / 16) = 8 * w /\ r8 = w + 1)%nat).
    { exists (2 * (R / 16))%nat. unfold R in *. lia. }
    destruct W as (w & W1 & W2). rewrite W1.
    assert (DC : (C = 16 * (C / 16) + C mod 16)%nat) by (apply Nat.div_mod; lia).
    assert (MC : (C mod 16 < 16)%nat) by (apply Nat.mod_upper_bound; lia).
    destruct (fold_good (fun o c => block8x16 input R C (8 * w) o (16 * c))
       (fun c o => forall i, (i < 8)%nat -> good o ((16 * c + i) * r8 + w) /\ good o ((16 * c + i + 8) * r8 + w))
       (C / 16) 0) with (o := o1) as (o2 & E2 & L2 & M2 & G2); [| |lia|].
    + intros a o o' P M i Hi. destruct (P i Hi). auto.
    + intros c o Hc Lo. unfold block8x16.
      assert (Hc8 : (2 * c + 1 < c8)%nat) by (unfold C in *; lia).
      rewrite (read_col_ok _ (fun k => nth ((8 * w + k) * c8 + 2 * c) input 0)).
      2:{ intros k Hk. apply in_seq in Hk. replace (16 * c)%nat with (8 * (2 * c))%nat by lia.
          apply IN_some; [unfold R|]; lia. }
      cbn [obind].
      rewrite (read_col_ok _ (fun k => nth ((8 * w + k) * c8 + 2 * c + 1) input 0)).
      2:{ intros k Hk. apply in_seq in Hk.
          replace (16 * c)%nat with (8 * (2 * c))%nat by lia. rewrite div8.
          replace ((8 * w + k) * C)%nat with (8 * ((8 * w + k) * c8))%nat by (unfold C; lia).
          rewrite div8. apply nth_error_nth'. rewrite Hin. unfold R. nia. }
      cbn [obind].
      destruct (store8x2_good w c 8 (map (fun k => nth ((8 * w + k) * c8 + 2 * c) input 0) (seq 0 8) ++
       map (fun k => nth ((8 * w + k) * c8 + 2 * c + 1) input 0) (seq 0 8)) o) as (o' & E' & L' & M' & G');
       auto; try lia.
      exists o'. split; [exact E'|]. auto.
    + rewrite E2. cbn [obind].
      assert (Hlo : forall y w', (y < 16 * (C / 16))%nat -> (w' < r8)%nat -> good o2 (y * r8 + w')).
      { intros y w' Hy Hw'. destruct (Nat.eq_dec w' w) as [->|].
        - assert (D : (y = 16 * (y / 16) + y mod 16)%nat) by (apply Nat.div_mod; lia).
          assert (y mod 16 < 16)%nat by (apply Nat.mod_upper_bound; lia).
          assert (y / 16 < C / 16)%nat by (apply Nat.div_lt_upper_bound; lia).
          destruct (Nat.lt_ge_cases (y mod 16) 8).
          + destruct (G2 (y / 16)%nat) with (i := (y mod 16)%nat) as (Q & _); [lia|auto|].
            rewrite <- D in Q. auto.
          + destruct (G2 (y / 16)%nat) with (i := (y mod 16 - 8)%nat) as (_ & Q); [lia|lia|].
            replace (16 * (y / 16) + (y mod 16 - 8) + 8)%nat with y in Q by lia. auto.
        - apply M2. apply G1; lia. }
      destruct (Nat.eqb_spec (C mod 16) 0) as [Y|Y].
      * f_equal. apply list_good; [lia|]. intros y w' Hy Hw'. apply Hlo; lia.
      * assert (V : exists c, (16 * (C / 16) = 8 * c /\ c8 = c + 1)%nat).
        { exists (2 * (C / 16))%nat. unfold C in *. lia. }
        destruct V as (c & V1 & V2). rewrite V1. unfold block8x8.
        rewrite (read_col_ok _ (fun k => nth ((8 * w + k) * c8 + c) input 0)).
        2:{ intros k Hk. apply in_seq in Hk. apply IN_some; [unfold R|]; lia. }
        cbn [obind].
        destruct (store8_good w c 8 (map (fun k => nth ((8 * w + k) * c8 + c) input 0) (seq 0 8) ++ stale) o2)
          as (o3 & E3 & L3 & M3 & G3); auto; try lia.
        -- apply Forall_app. split; [apply Forall_map, Forall_forall; intros; apply input_byte|auto].
        -- intros k Hk. rewrite app_nth1 by (rewrite map_length, seq_length; auto).
           rewrite nth_map' with (d := 0%nat) by (rewrite seq_length; auto). rewrite seq_nth by auto. reflexivity.
        -- cbn [Nat.sub Nat.iter nat_rect] in E3. rewrite E3. f_equal. apply list_good; [lia|].
           intros y w' Hy Hw'. destruct (Nat.lt_ge_cases y (16 * (C / 16))) as [Hy'|Hy'].
           ++ apply M3. apply Hlo; auto.
           ++ destruct (Nat.eq_dec w' w) as [->|]; [|apply M3, M2; apply G1; lia].
              specialize (G3 (y - 8 * c)%nat). replace (8 * c + (y - 8 * c))%nat with y in G3 by lia.
              apply G3. unfold C in *. lia.
Qed.

Lemma transpose_ub : forall stale out, (R < 16)%nat \/ (R mod 16 = 8 /\ C < 16)%nat ->
  BitMatrixTranspose input R C stale out = None.
Proof.
  clear Hin Hbytes. intros stale out H. unfold BitMatrixTranspose.
  destruct (negb _); auto. destruct (Nat.ltb_spec R 16); auto.
  destruct H as [H|(H1 & H2)]; [lia|].
  destruct (main_loop input R C out); auto. cbn [obind]. rewrite H1. cbn [Nat.eqb].
  replace (Nat.ltb C 16) with true by (symmetry; apply Nat.ltb_lt; auto). auto.
Qed.
End TransposeProof.

From Coq Require Import NArith List Bool Lia Permutation Arith ZArith.
From Coq Require Import ZifyBool ZifyNat ZifyN.
From Verif.Base Require Import Words ListX.
From Verif.Filter Require Import BloomModel BloomSpec.
Import ListNotations.
Local Open Scope N_scope.

(** ** Salts *)
Lemma salt_step_length : forall s v i, length (salt_step s v i) = length v.
Proof. intros. unfold salt_step. apply upd_length. Qed.

Lemma salt_fold_length : forall s l v, length (fold_left (salt_step s) l v) = length v.
Proof. induction l; simpl; intros; auto. rewrite IHl. apply salt_step_length. Qed.

Lemma predefined_salt_length : length predefined_salt = 128%nat.
Proof. reflexivity. Qed.

Lemma salt_small_length : forall h s, h <= 128 -> length (salt_small h s) = N.to_nat h.
Proof.
  intros. unfold salt_small. rewrite salt_fold_length, firstn_length, predefined_salt_length. lia.
Qed.

(** ** Bits of the table *)
Definition bit_at (t : list N) (k : N) : bool :=
  N.testbit (nth (N.to_nat (N.shiftr k 3)) t 0) (N.land k 7).

Lemma land7_lt : forall k, N.land k 7 < 8.
Proof. intros. change 7 with (N.ones 3). rewrite N.land_ones. apply N.mod_lt. discriminate. Qed.

Lemma shiftr3_div : forall k, N.shiftr k 3 = k / 8.
Proof. intros. rewrite N.shiftr_div_pow2. reflexivity. Qed.

Lemma land7_mod : forall k, N.land k 7 = k mod 8.
Proof. intros. change 7 with (N.ones 3). rewrite N.land_ones. reflexivity. Qed.

Lemma bit_mask_pow : forall j, j < 8 -> nth_error bit_mask (N.to_nat j) = Some (2 ^ j).
Proof.
  intros j H.
  assert (j = 0 \/ j = 1 \/ j = 2 \/ j = 3 \/ j = 4 \/ j = 5 \/ j = 6 \/ j = 7) as D by lia.
  repeat destruct D as [D|D]; subst; reflexivity.
Qed.

Lemma or_bit_spec : forall t idx, idx < 8 * N.of_nat (length t) -> bytes_ok t ->
  exists t', or_bit t idx = Some t' /\ length t' = length t /\ bytes_ok t' /\
    forall k, bit_at t' k = (k =? idx) || bit_at t k.
Proof.
  intros t idx H Hok. unfold or_bit.
  rewrite bit_mask_pow by apply land7_lt.
  assert (Hb : (N.to_nat (N.shiftr idx 3) < length t)%nat).
  { rewrite shiftr3_div. pose proof (N.div_lt_upper_bound idx 8 (N.of_nat (length t))). lia. }
  rewrite (nth_error_nth' t 0 Hb).
  eexists. split; [reflexivity|]. split; [apply upd_length|]. split.
  - apply Forall_upd; auto. unfold is_byte. change 256 with (2 ^ 8).
    apply lor_lt.
    + apply (proj1 (Forall_nth _ t) Hok _ 0 Hb).
    + apply N.pow_lt_mono_r; [lia|apply land7_lt].
  - intros k. unfold bit_at.
    destruct (Nat.eq_dec (N.to_nat (N.shiftr k 3)) (N.to_nat (N.shiftr idx 3))) as [E|E].
    + rewrite E, nth_upd_same by auto. rewrite N.lor_spec, N.pow2_bits_eqb.
      rewrite orb_comm. f_equal.
      rewrite !shiftr3_div in E. rewrite !land7_mod.
      destruct (N.eqb_spec (idx mod 8) (k mod 8)); destruct (N.eqb_spec k idx); auto.
      * exfalso. apply n. pose proof (N.div_mod' k 8). pose proof (N.div_mod' idx 8). lia.
      * subst. congruence.
    + rewrite nth_upd_other by auto.
      destruct (N.eqb_spec k idx); auto. subst. congruence.
Qed.

Lemma bit_at_repeat : forall n k, bit_at (repeat 0 n) k = false.
Proof.
  intros. unfold bit_at.
  assert (nth (N.to_nat (N.shiftr k 3)) (repeat 0 n) 0 = 0) as ->.
  { generalize (N.to_nat (N.shiftr k 3)). induction n; intros m; destruct m; simpl; auto. }
  apply N.bits_0.
Qed.

Lemma table_ext : forall t1 t2, bytes_ok t1 -> bytes_ok t2 -> length t1 = length t2 ->
  (forall k, bit_at t1 k = bit_at t2 k) -> t1 = t2.
Proof.
  intros t1 t2 H1 H2 HL H. apply list_eq_nth with 0; auto.
  intros i Hi. apply N.bits_inj. intros j.
  destruct (N.lt_ge_cases j 8).
  - specialize (H (8 * N.of_nat i + j)). unfold bit_at in H.
    rewrite shiftr3_div, land7_mod in H.
    replace ((8 * N.of_nat i + j) / 8) with (N.of_nat i) in H
      by (apply (N.div_unique _ 8 _ j); lia).
    replace ((8 * N.of_nat i + j) mod 8) with j in H
      by (apply (N.mod_unique _ 8 (N.of_nat i)); lia).
    rewrite Nat2N.id in H. exact H.
  - rewrite !(testbit_bounded 8); auto.
    + change (is_byte (nth i t2 0)). apply (proj1 (Forall_nth _ t2) H2). lia.
    + change (is_byte (nth i t1 0)). apply (proj1 (Forall_nth _ t1) H1). lia.
Qed.

Section H.
Variable H : N -> list N -> N.

(** Well-formed filter: what the constructor establishes. *)
Record bwf (f : BloomFilter) : Prop := {
  bwf_salt : length (bf_vec_salt f) = N.to_nat (bf_hash_num f);
  bwf_size : bf_table_size f = 8 * N.of_nat (length (bf_bit_table f));
  bwf_pos : bf_table_size f <> 0;
  bwf_bytes : bytes_ok (bf_bit_table f)
}.

Definition same_params (f g : BloomFilter) : Prop :=
  bf_random_seed f = bf_random_seed g /\ bf_hash_num f = bf_hash_num g /\
  bf_vec_salt f = bf_vec_salt g /\ bf_table_size f = bf_table_size g /\
  bf_projected_element_num f = bf_projected_element_num g.

Lemma same_params_refl : forall f, same_params f f.
Proof. repeat split. Qed.
Lemma same_params_trans : forall f g h, same_params f g -> same_params g h -> same_params f h.
Proof. unfold same_params. intuition congruence. Qed.
Lemma same_params_sym : forall f g, same_params f g -> same_params g f.
Proof. unfold same_params. intuition congruence. Qed.

(** the probe position, total version *)
Definition pos (f : BloomFilter) (x : list N) (i : nat) : N :=
  H (nth i (bf_vec_salt f) 0) x mod bf_table_size f.

Lemma pos_same : forall f g x i, same_params f g -> pos f x i = pos g x i.
Proof. unfold same_params, pos. intros. intuition. congruence. Qed.

Lemma bit_index_pos : forall f x i, bwf f -> (i < N.to_nat (bf_hash_num f))%nat ->
  bit_index H f x i = Some (pos f x i).
Proof.
  intros f x i W Hi. destruct W. unfold bit_index, pos.
  rewrite (nth_error_nth' _ 0) by lia.
  destruct (N.eqb_spec (bf_table_size f) 0); [congruence|reflexivity].
Qed.

Lemma pos_lt : forall f x i, bwf f -> pos f x i < 8 * N.of_nat (length (bf_bit_table f)).
Proof.
  intros f x i W. destruct W. unfold pos. rewrite <- bwf_size0. apply N.mod_lt. auto.
Qed.

Definition step_ok (f : BloomFilter) (s : insert_step) : Prop :=
  match s with OrBit _ i => (i < N.to_nat (bf_hash_num f))%nat | IncCount => True end.
Definition step_hits (f : BloomFilter) (k : N) (s : insert_step) : bool :=
  match s with OrBit x i => pos f x i =? k | IncCount => false end.
Definition step_inc (s : insert_step) : N := match s with IncCount => 1 | _ => 0 end.
Definition incs (l : list insert_step) : N := fold_right N.add 0 (map step_inc l).

Lemma exec_steps_spec : forall l f, bwf f -> Forall (step_ok f) l ->
  exists f', exec_insert_steps H f l = Some f' /\ bwf f' /\ same_params f f' /\
    length (bf_bit_table f') = length (bf_bit_table f) /\
    (forall k, bit_at (bf_bit_table f') k = existsb (step_hits f k) l || bit_at (bf_bit_table f) k) /\
    wrap64 (bf_inserted_element_num f') = wrap64 (bf_inserted_element_num f + incs l) /\
    (bf_inserted_element_num f < 2 ^ 64 -> bf_inserted_element_num f' < 2 ^ 64).
Proof.
  induction l as [|s l IH]; intros f W HF.
  - exists f. unfold incs; simpl. rewrite N.add_0_r.
    repeat split; auto; try apply W; apply same_params_refl.
  - inversion HF as [|s' l' Hs HF']; subst.
    destruct s as [x i|].
    + simpl in Hs. simpl exec_insert_steps. unfold exec_insert_step.
      rewrite bit_index_pos by auto.
      destruct (or_bit_spec (bf_bit_table f) (pos f x i)) as (t & E & L & B & K);
        [apply pos_lt; auto|apply W|].
      rewrite E.
      assert (W' : bwf (set_table f t)).
      { destruct W. constructor; [exact bwf_salt0| |exact bwf_pos0|exact B].
        change (bf_table_size f = 8 * N.of_nat (length t)). rewrite L. exact bwf_size0. }
      destruct (IH (set_table f t) W') as (f' & E' & W'' & S' & L' & K' & C' & C''); auto.
      exists f'. split; [exact E'|]. split; [exact W''|]. split.
      { eapply same_params_trans; [|exact S']. repeat split. }
      split; [simpl in L'; congruence|]. split.
      { intros k. rewrite K'. simpl bf_bit_table. rewrite K. simpl existsb.
        change (step_hits (set_table f t) k) with (step_hits f k).
        rewrite (N.eqb_sym k). destruct (pos f x i =? k); simpl;
          [rewrite orb_true_r; reflexivity|reflexivity]. }
      split.
      { simpl bf_inserted_element_num in C'. exact C'. }
      { exact C''. }
    + simpl exec_insert_steps.
      set (f1 := set_count f (wrap64 (bf_inserted_element_num f + 1))).
      assert (W' : bwf f1) by (destruct W; constructor; assumption).
      destruct (IH f1 W') as (f' & E' & W'' & S' & L' & K' & C' & C''); auto.
      exists f'. split; [exact E'|]. split; [exact W''|]. split.
      { eapply same_params_trans; [|exact S']. repeat split. }
      split; [exact L'|]. split; [exact K'|]. split.
      { rewrite C'. unfold f1. cbn [set_count bf_inserted_element_num].
        change (incs (IncCount :: l)) with (1 + incs l).
        unfold wrap64, wrap. rewrite N.add_mod_idemp_l by (apply N.pow_nonzero; discriminate).
        f_equal. lia. }
      { intros _. apply C''. simpl. apply wrap_lt. }
Qed.

Lemma existsb_perm : forall {A} (p : A -> bool) l l', Permutation l l' -> existsb p l = existsb p l'.
Proof.
  intros. apply eq_true_iff_eq. rewrite !existsb_exists.
  split; intros (x & I & P); exists x; split; auto.
  - eapply Permutation_in; eauto.
  - eapply Permutation_in; [apply Permutation_sym|]; eauto.
Qed.

Lemma incs_perm : forall l l', Permutation l l' -> incs l = incs l'.
Proof. induction 1; unfold incs in *; simpl in *; lia. Qed.

Lemma Insert_steps_ok : forall f xs, Forall (step_ok f) (Insert_steps f xs).
Proof.
  intros. apply Forall_forall. intros s I. unfold Insert_steps in I.
  apply in_flat_map in I. destruct I as (x & _ & I). unfold PlainInsert_steps in I.
  apply in_app_or in I. destruct I as [I|[<-|[]]]; simpl; auto.
  apply in_map_iff in I. destruct I as (i & <- & I). apply in_seq in I. simpl. lia.
Qed.

Lemma incs_app : forall a b, incs (a ++ b) = incs a + incs b.
Proof. induction a; unfold incs in *; simpl; intros; auto. rewrite IHa. lia. Qed.

Lemma incs_Insert_steps : forall f xs, incs (Insert_steps f xs) = N.of_nat (length xs).
Proof.
  intros f xs. induction xs as [|x xs IH]; auto.
  unfold Insert_steps in *. cbn [flat_map length]. rewrite incs_app, IH.
  unfold PlainInsert_steps. rewrite incs_app.
  assert (forall l, incs (map (OrBit x) l) = 0) as ->.
  { induction l; unfold incs in *; simpl; auto. }
  change (incs [IncCount]) with 1. lia.
Qed.

Lemma hits_Insert_steps : forall f xs k,
  existsb (step_hits f k) (Insert_steps f xs) = true <->
  exists x i, In x xs /\ (i < N.to_nat (bf_hash_num f))%nat /\ pos f x i = k.
Proof.
  intros. rewrite existsb_exists. split.
  - intros (s & I & P). unfold Insert_steps in I.
    apply in_flat_map in I. destruct I as (x & Ix & I). unfold PlainInsert_steps in I.
    apply in_app_or in I. destruct I as [I|[<-|[]]]; simpl in P; try discriminate.
    apply in_map_iff in I. destruct I as (i & <- & I). apply in_seq in I. simpl in P.
    exists x, i. repeat split; auto; try lia. 
  - intros (x & i & Ix & Hi & P). exists (OrBit x i). split.
    + apply in_flat_map. exists x. split; auto. apply in_or_app. left.
      apply in_map_iff. exists i. split; auto. apply in_seq. lia.
    + simpl. apply N.eqb_eq. auto.
Qed.

Lemma Insert_steps_same : forall f g xs, same_params f g -> Insert_steps f xs = Insert_steps g xs.
Proof.
  intros f g xs (_ & E & _). unfold Insert_steps, PlainInsert_steps. rewrite E. auto.
Qed.

(** A parallel insertion never fails and its outcome does not depend on the schedule. *)
Lemma insert_deterministic : forall f xs s1 s2, bwf f ->
  bf_inserted_element_num f < 2 ^ 64 ->
  Permutation s1 (Insert_steps f xs) -> Permutation s2 (Insert_steps f xs) ->
  exists f', exec_insert_steps H f s1 = Some f' /\ exec_insert_steps H f s2 = Some f'.
Proof.
  intros f xs s1 s2 W HC P1 P2.
  assert (F1 : Forall (step_ok f) s1).
  { eapply Permutation_Forall; [apply Permutation_sym; eauto|apply Insert_steps_ok]. }
  assert (F2 : Forall (step_ok f) s2).
  { eapply Permutation_Forall; [apply Permutation_sym; eauto|apply Insert_steps_ok]. }
  destruct (exec_steps_spec s1 f W F1) as (f1 & E1 & W1 & S1 & L1 & K1 & C1 & D1).
  destruct (exec_steps_spec s2 f W F2) as (f2 & E2 & W2 & S2 & L2 & K2 & C2 & D2).
  exists f1. split; auto. rewrite E2. f_equal.
  assert (P : Permutation s2 s1) by (eapply Permutation_trans; [eauto|apply Permutation_sym; auto]).
  assert (T : bf_bit_table f2 = bf_bit_table f1).
  { apply table_ext; [apply W2|apply W1|congruence|].
    intros k. rewrite K1, K2, (existsb_perm _ _ _ P). auto. }
  assert (C : bf_inserted_element_num f2 = bf_inserted_element_num f1).
  { rewrite (incs_perm _ _ P), <- C1 in C2. unfold wrap64 in C2.
    rewrite !wrap_small in C2; auto. }
  destruct S1 as (a1 & a2 & a3 & a4 & a5), S2 as (b1 & b2 & b3 & b4 & b5).
  destruct f1, f2; simpl in *. congruence.
Qed.

(** ** Contain *)
Lemma probe_spec : forall f x i, bwf f -> (i < N.to_nat (bf_hash_num f))%nat ->
  probe H f x i = Some (bit_at (bf_bit_table f) (pos f x i)).
Proof.
  intros f x i W Hi. unfold probe. rewrite bit_index_pos by auto.
  pose proof (pos_lt f x i W) as HP.
  rewrite (nth_error_nth' _ 0).
  2:{ rewrite shiftr3_div.
      pose proof (N.div_lt_upper_bound (pos f x i) 8 (N.of_nat (length (bf_bit_table f)))). lia. }
  rewrite bit_mask_pow by apply land7_lt. f_equal. unfold bit_at.
  generalize (nth (N.to_nat (N.shiftr (pos f x i) 3)) (bf_bit_table f) 0).
  intros b. generalize (N.land (pos f x i) 7). intros j.
  destruct (N.testbit b j) eqn:T.
  - apply N.eqb_eq. apply N.bits_inj. intros k. rewrite N.land_spec, N.pow2_bits_eqb.
    destruct (N.eqb_spec j k); [subst; rewrite T; auto|apply andb_false_r].
  - apply N.eqb_neq. intros E.
    assert (N.testbit (N.land b (2 ^ j)) j = true) by (rewrite E; apply N.pow2_bits_true).
    rewrite N.land_spec, T in H0. discriminate.
Qed.

Definition all_hit f x l : bool := forallb (fun i => bit_at (bf_bit_table f) (pos f x i)) l.

Lemma contain_exec_sound : forall f x w r flag b, bwf f ->
  (forall i, In i (w ++ r) -> (i < N.to_nat (bf_hash_num f))%nat) ->
  contain_exec H f x w r flag b -> b = flag && all_hit f x (w ++ r).
Proof.
  intros f x w r flag b W HI E. induction E.
  - simpl. rewrite andb_true_r. auto.
  - rewrite IHE. { auto. }
    intros j Ij. apply HI. rewrite !in_app_iff in *. simpl. intuition.
  - rewrite IHE.
    + simpl. unfold all_hit. rewrite <- app_assoc. rewrite !forallb_app. simpl.
      generalize (bit_at (bf_bit_table f) (pos f x i)). intros a.
      rewrite ?forallb_app. simpl.
      generalize (forallb (fun i0 => bit_at (bf_bit_table f) (pos f x i0)) w1).
      generalize (forallb (fun i0 => bit_at (bf_bit_table f) (pos f x i0)) w2).
      generalize (forallb (fun i0 => bit_at (bf_bit_table f) (pos f x i0)) r).
      intros; destruct a, b0, b1, b2; reflexivity.
    + intros j Ij. apply HI. rewrite !in_app_iff in *. simpl in *. intuition.
  - assert (HIi : (i < N.to_nat (bf_hash_num f))%nat).
    { apply HI. rewrite !in_app_iff. simpl. auto. }
    rewrite probe_spec in H0 by auto. inversion H0; subst hit.
    rewrite IHE.
    + unfold all_hit. rewrite !forallb_app. simpl. 
      generalize (bit_at (bf_bit_table f) (pos f x i)). intros a.
      generalize (forallb (fun i0 => bit_at (bf_bit_table f) (pos f x i0)) w).
      generalize (forallb (fun i0 => bit_at (bf_bit_table f) (pos f x i0)) r1).
      generalize (forallb (fun i0 => bit_at (bf_bit_table f) (pos f x i0)) r2).
      intros; destruct a, b0, b1, b2, flag; reflexivity.
    + intros j Ij. apply HI. rewrite !in_app_iff in *. simpl. intuition.
Qed.

Lemma contain_exec_exists : forall f x, bwf f -> forall w flag,
  (forall i, In i w -> (i < N.to_nat (bf_hash_num f))%nat) ->
  exists b, contain_exec H f x w [] flag b.
Proof.
  intros f x W. induction w as [|i w IH]; intros flag HI.
  - exists flag. constructor.
  - destruct flag.
    + destruct (IH (bit_at (bf_bit_table f) (pos f x i))) as (b & E).
      { intros j Ij. apply HI. simpl. auto. }
      exists b. apply (CE_enter H f x [] i w []). simpl.
      apply (CE_test H f x w [] i [] true (bit_at (bf_bit_table f) (pos f x i))).
      * apply probe_spec; auto. apply HI. simpl; auto.
      * simpl. destruct (bit_at (bf_bit_table f) (pos f x i)); exact E.
    + destruct (IH false) as (b & E). { intros j Ij. apply HI. simpl; auto. }
      exists b. apply (CE_skip H f x [] i w []). exact E.
Qed.

Lemma PlainContain_iff : forall f x b, bwf f ->
  (PlainContain H f x b <-> b = all_hit f x (seq 0 (N.to_nat (bf_hash_num f)))).
Proof.
  intros f x b W.
  assert (HI : forall i, In i (seq 0 (N.to_nat (bf_hash_num f))) -> (i < N.to_nat (bf_hash_num f))%nat).
  { intros i I. apply in_seq in I. lia. }
  split.
  - intros E. apply contain_exec_sound in E; auto.
    + rewrite app_nil_r in E. exact E.
    + rewrite app_nil_r. exact HI.
  - intros ->. destruct (contain_exec_exists f x W (seq 0 (N.to_nat (bf_hash_num f))) true) as (b & E); auto.
    assert (b = true && all_hit f x (seq 0 (N.to_nat (bf_hash_num f)) ++ [])) as ->.
    { apply contain_exec_sound; auto. rewrite app_nil_r. auto. }
    rewrite app_nil_r in E. exact E.
Qed.

(** ** Histories *)
Definition live_from (acc : list (list N)) (os : list bop) : list (list N) :=
  fold_left (fun acc o => match o with OpInsert xs => acc ++ xs | OpClear => [] end) os acc.

Record binv (f0 : BloomFilter) (acc : list (list N)) (f : BloomFilter) : Prop := {
  bi_wf : bwf f;
  bi_same : same_params f0 f;
  bi_len : length (bf_bit_table f) = length (bf_bit_table f0);
  bi_bits : forall k, bit_at (bf_bit_table f) k = true <->
              exists x i, In x acc /\ (i < N.to_nat (bf_hash_num f0))%nat /\ pos f0 x i = k;
  bi_count : bf_inserted_element_num f = wrap64 (N.of_nat (length acc))
}.

Lemma Clear_same : forall f, same_params f (bloom_Clear f).
Proof. repeat split. Qed.

Lemma Clear_wf : forall f, bwf f -> bwf (bloom_Clear f).
Proof.
  intros f W. destruct W. constructor; simpl; auto.
  - rewrite repeat_length. auto.
  - apply Forall_forall. intros b I. apply repeat_spec in I. subst. unfold is_byte. lia.
Qed.

Lemma bop_inv : forall f0 acc f o f', binv f0 acc f -> bop_exec H f o f' ->
  binv f0 (match o with OpInsert xs => acc ++ xs | OpClear => [] end) f'.
Proof.
  intros f0 acc f o f' I E. destruct I as [W S L B C]. inversion E; subst.
  - assert (F : Forall (step_ok f) sched).
    { eapply Permutation_Forall; [apply Permutation_sym; eauto|apply Insert_steps_ok]. }
    destruct (exec_steps_spec sched f W F) as (f1 & E1 & W1 & S1 & L1 & K1 & C1 & D1).
    rewrite E1 in H1. inversion H1; subst f1. constructor.
    + auto.
    + eapply same_params_trans; eauto.
    + congruence.
    + intros k. rewrite K1, orb_true_iff, B, (existsb_perm _ _ _ H0), hits_Insert_steps.
      assert (Eh : bf_hash_num f0 = bf_hash_num f) by apply S.
      split.
      * intros [(x & i & Ix & Hi & P)|(x & i & Ix & Hi & P)].
        -- exists x, i. rewrite Eh. split; [apply in_or_app; auto|]. split; auto.
           rewrite <- P. apply pos_same. exact S.
        -- exists x, i. split; [apply in_or_app; auto|]. auto.
      * intros (x & i & Ix & Hi & P). apply in_app_or in Ix. destruct Ix as [Ix|Ix].
        -- right. exists x, i. auto.
        -- left. exists x, i. rewrite <- Eh. split; auto. split; auto.
           rewrite <- P. symmetry. apply pos_same. exact S.
    + assert (bf_inserted_element_num f' < 2 ^ 64) as HL by (apply D1; rewrite C; apply wrap_lt).
      rewrite <- (wrap_small 64 _ HL). fold (wrap64 (bf_inserted_element_num f')).
      rewrite C1, C, (incs_perm _ _ H0), incs_Insert_steps, app_length, Nat2N.inj_add.
      unfold wrap64, wrap. rewrite N.add_mod_idemp_l by (apply N.pow_nonzero; discriminate). auto.
  - constructor.
    + apply Clear_wf. auto.
    + eapply same_params_trans; [eauto|apply Clear_same].
    + simpl. rewrite repeat_length. auto.
    + intros k. simpl. rewrite bit_at_repeat. split; [discriminate|].
      intros (x & i & [] & _).
    + reflexivity.
Qed.

Lemma bhist_inv : forall f0 os acc f f', binv f0 acc f -> bhist_exec H f os f' ->
  binv f0 (live_from acc os) f'.
Proof.
  induction os; intros acc f f' I E; inversion E; subst; simpl; auto.
  eapply IHos; [|eauto]. eapply bop_inv; eauto.
Qed.

Lemma binv_init : forall f, bwf f -> bf_inserted_element_num f = 0 ->
  (forall k, bit_at (bf_bit_table f) k = false) -> binv f [] f.
Proof.
  intros f W C B. constructor; auto.
  - apply same_params_refl.
  - intros k. rewrite B. split; [discriminate|]. intros (x & i & [] & _).
Qed.

(** every history can be executed under every schedule *)
Lemma bop_progress : forall f0 acc f xs sched, binv f0 acc f ->
  Permutation sched (Insert_steps f xs) -> exists f', exec_insert_steps H f sched = Some f'.
Proof.
  intros f0 acc f xs sched I P. destruct I as [W S L B C].
  assert (F : Forall (step_ok f) sched).
  { eapply Permutation_Forall; [apply Permutation_sym; eauto|apply Insert_steps_ok]. }
  destruct (exec_steps_spec sched f W F) as (f1 & E1 & _). eauto.
Qed.

Lemma bhist_progress : forall f0 os acc f, binv f0 acc f -> exists f', bhist_exec H f os f'.
Proof.
  induction os as [|o os IH]; intros acc f I.
  - exists f. constructor.
  - assert (exists f1, bop_exec H f o f1) as (f1 & E1).
    { destruct o.
      - destruct (bop_progress f0 acc f xs (Insert_steps f xs) I (Permutation_refl _)) as (f1 & E).
        exists f1. econstructor; eauto.
      - eexists. constructor. }
    destruct (IH _ f1 (bop_inv _ _ _ _ _ I E1)) as (f' & E').
    exists f'. econstructor; eauto.
Qed.

End H.

(** ** The constructor *)
Lemma round8_mult : forall t, round8 t = 8 * (round8 t / 8).
Proof.
  intros. unfold round8, shl32, wrap32, wrap.
  rewrite N.shiftl_mul_pow2. set (q := shr32 (add32 t 7) 3).
  change (2 ^ 32) with (2 ^ 29 * 2 ^ 3).
  rewrite N.mul_mod_distr_r by discriminate.
  change (2 ^ 3) with 8. rewrite N.div_mul by discriminate. lia.
Qed.

Lemma GenUniqueSaltVector_length : forall bs h s, salts_total bs ->
  length (GenUniqueSaltVector bs h s) = N.to_nat h.
Proof.
  intros bs h s T. unfold GenUniqueSaltVector. destruct (N.leb_spec h 128).
  - apply salt_small_length. auto.
  - apply T. auto.
Qed.

Lemma bloom_new_wf : forall bs n ssp raw, salts_total bs -> round8 raw <> 0 ->
  bwf (bloom_new bs n ssp raw).
Proof.
  intros bs n ssp raw T R. constructor; cbn -[round8 GenUniqueSaltVector wrap32].
  - apply GenUniqueSaltVector_length. auto.
  - rewrite repeat_length, N2Nat.id. apply round8_mult.
  - auto.
  - apply Forall_forall. intros b I. apply repeat_spec in I. subst. unfold is_byte. lia.
Qed.

Lemma bloom_new_inv : forall H bs n ssp raw, salts_total bs -> round8 raw <> 0 ->
  binv H (bloom_new bs n ssp raw) [] (bloom_new bs n ssp raw).
Proof.
  intros. apply binv_init.
  - apply bloom_new_wf; auto.
  - reflexivity.
  - intros k. cbn -[round8]. apply bit_at_repeat.
Qed.

(** ** Property-level lemmas *)
Section Props.
Variable H : N -> list N -> N.

Lemma no_false_negative : forall bs n ssp raw os f x b,
  salts_total bs -> round8 raw <> 0 ->
  bhist_exec H (bloom_new bs n ssp raw) os f ->
  In x (live_elements os) -> PlainContain H f x b -> b = true.
Proof.
  intros bs n ssp raw os f x b T R E I C.
  pose proof (bhist_inv H _ os [] _ _ (bloom_new_inv H bs n ssp raw T R) E) as V.
  destruct V as [W S L B _]. apply PlainContain_iff in C; auto. subst b.
  unfold all_hit. apply forallb_forall. intros i Ii. apply in_seq in Ii.
  apply B. exists x, i. split; [exact I|]. split.
  - destruct S as (_ & -> & _). lia.
  - apply pos_same. auto.
Qed.

Definition probe_pos (f : BloomFilter) := pos H f.

Lemma contain_exact : forall bs n ssp raw os f x b,
  salts_total bs -> round8 raw <> 0 ->
  bhist_exec H (bloom_new bs n ssp raw) os f ->
  PlainContain H f x b ->
  (b = true <-> forall i, (i < N.to_nat (bf_hash_num f))%nat ->
     exists y j, In y (live_elements os) /\ (j < N.to_nat (bf_hash_num f))%nat /\
       H (nth j (bf_vec_salt f) 0) y mod bf_table_size f =
       H (nth i (bf_vec_salt f) 0) x mod bf_table_size f).
Proof.
  intros bs n ssp raw os f x b T R E C.
  pose proof (bhist_inv H _ os [] _ _ (bloom_new_inv H bs n ssp raw T R) E) as V.
  destruct V as [W S L B _]. apply PlainContain_iff in C; auto. subst b.
  unfold all_hit. rewrite forallb_forall.
  assert (Hn : bf_hash_num (bloom_new bs n ssp raw) = bf_hash_num f) by apply S.
  split.
  - intros F i Hi. specialize (F i). rewrite in_seq in F.
    apply B in F; [|lia]. destruct F as (y & j & Iy & Hj & P).
    exists y, j. split; [exact Iy|]. split; [rewrite <- Hn; auto|].
    change (pos H f y j = pos H f x i). rewrite <- P. symmetry. apply pos_same. auto.
  - intros F i Ii. apply in_seq in Ii. destruct (F i) as (y & j & Iy & Hj & P); [lia|].
    apply B. exists y, j. split; [exact Iy|]. split; [rewrite Hn; auto|].
    transitivity (pos H f y j); [apply pos_same; auto|exact P].
Qed.

End Props.

(** ** Serialization *)
Lemma take_app : forall a b n, n = length a -> take n (a ++ b) = Some (a, b).
Proof.
  intros. unfold take. rewrite app_length.
  replace (Nat.leb n (length a + length b)) with true by (symmetry; apply Nat.leb_le; lia).
  rewrite firstn_app_exact', skipn_app_exact' by auto. auto.
Qed.

Definition fields_ok (f : BloomFilter) : Prop :=
  bf_random_seed f < 2 ^ 32 /\ bf_hash_num f < 2 ^ 32 /\ bf_table_size f < 2 ^ 32 /\
  bf_projected_element_num f < 2 ^ 64 /\ bf_inserted_element_num f < 2 ^ 64.

Lemma read_write : forall bs f rest, bwf f -> fields_ok f ->
  bf_vec_salt f = GenUniqueSaltVector bs (bf_hash_num f) (bf_random_seed f) ->
  bloom_ReadObject bs (bloom_WriteObject f ++ rest) = Some f.
Proof.
  intros bs f rest W (F1 & F2 & F3 & F4 & F5) S.
  unfold bloom_ReadObject, bloom_WriteObject. rewrite <- !app_assoc.
  rewrite (take_app (le_bytes 4 _)) by (rewrite le_bytes_length; auto).
  rewrite (take_app (le_bytes 4 _)) by (rewrite le_bytes_length; auto).
  rewrite (take_app (le_bytes 4 _)) by (rewrite le_bytes_length; auto).
  rewrite (take_app (le_bytes 8 _)) by (rewrite le_bytes_length; auto).
  rewrite (take_app (le_bytes 8 _)) by (rewrite le_bytes_length; auto).
  cbv zeta. rewrite !le_val_bytes by assumption.
  assert (L : N.to_nat (bf_table_size f / 8) = length (bf_bit_table f)).
  { rewrite (bwf_size f W), N.mul_comm, N.div_mul by discriminate. apply Nat2N.id. }
  rewrite L, firstn_all. rewrite take_app by auto.
  rewrite <- S. destruct f; reflexivity.
Qed.

Lemma write_length : forall f, bwf f ->
  N.of_nat (length (bloom_WriteObject f)) = bloom_ObjectSize f.
Proof.
  intros f W. unfold bloom_WriteObject, bloom_ObjectSize.
  rewrite !app_length, !le_bytes_length, firstn_length.
  assert (L : bf_table_size f / 8 = N.of_nat (length (bf_bit_table f))).
  { rewrite (bwf_size f W), N.mul_comm, N.div_mul by discriminate. auto. }
  rewrite L. lia.
Qed.

Lemma bloom_seed_lt : bloom_seed < 2 ^ 32.
Proof. apply wrap_lt. Qed.

Lemma round_trip : forall H bs n ssp raw os f rest,
  salts_total bs -> round8 raw <> 0 -> n < 2 ^ 64 ->
  bhist_exec H (bloom_new bs n ssp raw) os f ->
  bloom_ReadObject bs (bloom_WriteObject f ++ rest) = Some f /\
  N.of_nat (length (bloom_WriteObject f)) = bloom_ObjectSize f.
Proof.
  intros H bs n ssp raw os f rest T R Hn E.
  pose proof (bhist_inv H _ os [] _ _ (bloom_new_inv H bs n ssp raw T R) E) as V.
  destruct V as [W (S1 & S2 & S3 & S4 & S5) L B C]. split; [|apply write_length; auto].
  apply read_write; auto.
  - repeat split.
    + rewrite <- S1. apply bloom_seed_lt.
    + rewrite <- S2. apply wrap_lt.
    + rewrite <- S4. apply wrap_lt.
    + rewrite <- S5. auto.
    + rewrite C. apply wrap_lt.
  - rewrite <- S1, <- S2, <- S3. reflexivity.
Qed.

(** ** Distinct salts *)
Fixpoint nodupb (l : list N) : bool :=
  match l with [] => true | a :: r => negb (existsb (N.eqb a) r) && nodupb r end.

Lemma nodupb_NoDup : forall l, nodupb l = true -> NoDup l.
Proof.
  induction l; simpl; intros E; constructor; apply andb_true_iff in E; destruct E as [E1 E2]; auto.
  intros I. apply negb_true_iff in E1.
  assert (existsb (N.eqb a) l = true).
  { apply existsb_exists. exists a. split; auto. apply N.eqb_refl. }
  congruence.
Qed.

Lemma salts_distinct_all : forallb (fun h => nodupb (salt_small (N.of_nat h) bloom_seed)) (seq 0 129) = true.
Proof. vm_compute. reflexivity. Qed.

Lemma salts_distinct : forall bs h, h <= 128 -> NoDup (GenUniqueSaltVector bs h bloom_seed).
Proof.
  intros bs h Hh. unfold GenUniqueSaltVector. destruct (N.leb_spec h 128); [|lia].
  apply nodupb_NoDup. pose proof salts_distinct_all as A. rewrite forallb_forall in A.
  rewrite <- (N2Nat.id h). apply A. apply in_seq. lia.
Qed.

Lemma round8_nonzero : forall raw, 1 <= raw <= 2 ^ 32 - 8 -> round8 raw <> 0.
Proof.
  intros raw H. unfold round8, shl32, shr32, add32, wrap32.
  rewrite (wrap_small 32 (raw + 7)) by lia.
  rewrite N.shiftl_mul_pow2, N.shiftr_div_pow2. change (2 ^ 3) with 8.
  assert (1 <= (raw + 7) / 8) by (apply N.div_le_lower_bound; lia).
  assert ((raw + 7) / 8 < 2 ^ 29) by (apply N.div_lt_upper_bound; lia).
  rewrite wrap_small; lia.
Qed.

Lemma zero_table_ub : forall H bs n ssp x, 0 < wrap32 ssp ->
  exec_insert_steps H (bloom_new bs n ssp 0) (Insert_steps (bloom_new bs n ssp 0) [x]) = None.
Proof.
  intros H bs n ssp x Hs. unfold Insert_steps, PlainInsert_steps.
  cbn [flat_map bloom_new bf_hash_num]. rewrite app_nil_r.
  destruct (N.to_nat (wrap32 ssp)) eqn:E; [lia|].
  cbn [seq map app exec_insert_steps exec_insert_step]. unfold bit_index.
  destruct (nth_error _ 0); reflexivity.
Qed.

Lemma schedule_independent : forall H bs n ssp raw os f xs s1 s2,
  salts_total bs -> 1 <= raw <= 2 ^ 32 - 8 ->
  bhist_exec H (bloom_new bs n ssp raw) os f ->
  Permutation s1 (Insert_steps f xs) -> Permutation s2 (Insert_steps f xs) ->
  exists f', exec_insert_steps H f s1 = Some f' /\ exec_insert_steps H f s2 = Some f'.
Proof.
  intros H bs n ssp raw os f xs s1 s2 T R E P1 P2.
  pose proof (bhist_inv H _ os [] _ _ (bloom_new_inv H bs n ssp raw T (round8_nonzero _ R)) E) as V.
  destruct V as [W S L B C]. eapply insert_deterministic; eauto. rewrite C. apply wrap_lt.
Qed.

Lemma contain_total : forall H bs n ssp raw os f x,
  salts_total bs -> 1 <= raw <= 2 ^ 32 - 8 ->
  bhist_exec H (bloom_new bs n ssp raw) os f ->
  exists b, PlainContain H f x b /\ forall b', PlainContain H f x b' -> b' = b.
Proof.
  intros H bs n ssp raw os f x T R E.
  pose proof (bhist_inv H _ os [] _ _ (bloom_new_inv H bs n ssp raw T (round8_nonzero _ R)) E) as V.
  destruct V as [W S L B C].
  eexists. split.
  - apply (PlainContain_iff H f x); auto.
  - intros b' E'. apply PlainContain_iff in E'; auto.
Qed.

Lemma history_total : forall H bs n ssp raw os,
  salts_total bs -> 1 <= raw <= 2 ^ 32 - 8 ->
  exists f, bhist_exec H (bloom_new bs n ssp raw) os f.
Proof.
  intros. eapply bhist_progress. apply bloom_new_inv; auto. apply round8_nonzero; auto.
Qed.

Lemma count_exact : forall H bs n ssp raw os f,
  salts_total bs -> 1 <= raw <= 2 ^ 32 - 8 ->
  bhist_exec H (bloom_new bs n ssp raw) os f ->
  bf_inserted_element_num f = N.of_nat (length (live_elements os)) mod 2 ^ 64.
Proof.
  intros H bs n ssp raw os f T R E.
  pose proof (bhist_inv H _ os [] _ _ (bloom_new_inv H bs n ssp raw T (round8_nonzero _ R)) E) as V.
  apply V.
Qed.

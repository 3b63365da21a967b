(** Proofs about the OT-based OPRF. *)
From Coq Require Import NArith ZArith List Bool Arith Lia.
From Coq Require Import ZifyBool ZifyNat ZifyN.
From Verif.Base Require Import Words ListX.
From Verif.Crypto Require Import BlockModel AESModel AESKeyProofs PRGModel PRGProofs.
From Verif.Group Require Import ECModel.
From Verif.Net Require Import ChannelModel PartyModel PartyProofs.
From Verif.OT Require Import OTModel OTSpec OTProofs OTRun.
From Verif.OKVS Require Import SparseModel MatModel PaxosModel.
From Verif.MPC Require Import OOPRFModel OOPRFSpec.
Import ListNotations.

(** ** Bits of arrays *)
Definition vb (M : list N) (k : nat) : bool := N.testbit (nth (k / 8) M 0%N) (N.of_nat (k mod 8)).

Lemma rd_nth {A} (l : list A) i d : i < length l -> rd l i = Some (nth i l d).
Proof. intros H. unfold rd. apply nth_error_nth'. exact H. Qed.
Lemma get_bit_ok M k : k / 8 < length M -> get_bit M k = Some (vb M k).
Proof. intros H. unfold get_bit. rewrite (rd_nth M _ 0%N H). reflexivity. Qed.

Lemma testbit_one b i j : N.testbit (N.shiftl (N.b2n b) (N.of_nat i)) (N.of_nat j) = ((i =? j) && b)%bool.
Proof.
  destruct (Nat.lt_ge_cases j i) as [H|H].
  - rewrite N.shiftl_spec_low by lia. replace (i =? j) with false by lia. reflexivity.
  - rewrite N.shiftl_spec_high' by lia. destruct (Nat.eqb_spec i j) as [E|E].
    + subst. rewrite N.sub_diag. destruct b; reflexivity.
    + cbn [andb]. destruct b; cbn [N.b2n]; [|apply N.bits_0]. apply N.bits_above_log2.
      assert (N.of_nat j - N.of_nat i <> 0)%N by lia. destruct (N.of_nat j - N.of_nat i)%N; [lia|reflexivity].
Qed.
Lemma same_pos k l : k / 8 = l / 8 -> k mod 8 = l mod 8 -> k = l.
Proof. intros A B. rewrite (Nat.div_mod k 8), (Nat.div_mod l 8) by lia. lia. Qed.
Lemma or_bit_ok M k b : k / 8 < length M -> exists M', or_bit M k b = Some M' /\ length M' = length M /\
  forall l, vb M' l = (vb M l || ((k =? l) && b))%bool.
Proof.
  intros H. unfold or_bit. rewrite (rd_nth M _ 0%N H). cbn [bind]. unfold wr. replace (k / 8 <? length M) with true by lia.
  eexists. split; [reflexivity|]. split; [apply upd_length|]. intros l. unfold vb.
  destruct (Nat.eq_dec (l / 8) (k / 8)) as [E|E].
  - rewrite E, nth_upd_same by lia. rewrite N.lor_spec, testbit_one. f_equal. f_equal.
    destruct (Nat.eqb_spec k l) as [->|F]; [apply Nat.eqb_refl|]. apply Nat.eqb_neq. intros Q. apply F, same_pos; auto.
  - rewrite nth_upd_other by lia. replace (k =? l) with false; [cbn [andb]; rewrite orb_false_r; reflexivity|].
    symmetry. apply Nat.eqb_neq. intros ->. apply E. reflexivity.
Qed.
Lemma clear_bit_ok M k : k / 8 < length M -> exists M', clear_bit M k = Some M' /\ length M' = length M /\
  forall l, vb M' l = (vb M l && negb (k =? l))%bool.
Proof.
  intros H. unfold clear_bit. rewrite (rd_nth M _ 0%N H). cbn [bind]. unfold wr. replace (k / 8 <? length M) with true by lia.
  eexists. split; [reflexivity|]. split; [apply upd_length|]. intros l. unfold vb.
  destruct (Nat.eq_dec (l / 8) (k / 8)) as [E|E].
  - rewrite E, nth_upd_same by lia. rewrite N.ldiff_spec. f_equal. f_equal. rewrite (testbit_one true), andb_true_r.
    destruct (Nat.eqb_spec k l) as [->|F]; [apply Nat.eqb_refl|]. apply Nat.eqb_neq. intros Q. apply F, same_pos; auto.
  - rewrite nth_upd_other by lia. replace (k =? l) with false; [cbn [negb]; rewrite andb_true_r; reflexivity|].
    symmetry. apply Nat.eqb_neq. intros ->. apply E. reflexivity.
Qed.
Lemma vb_repeat0 n k : vb (repeat 0%N n) k = false.
Proof. unfold vb. rewrite nth_repeat. apply N.bits_0. Qed.

Lemma fold_seq {S} (f : S -> nat -> option S) (P : nat -> S -> Prop) n : forall a s,
  (forall i s, a <= i < a + n -> P i s -> exists s', f s i = Some s' /\ P (Datatypes.S i) s') -> P a s ->
  exists s', fold_opt f s (seq a n) = Some s' /\ P (a + n) s'.
Proof.
  induction n as [|n IH]; intros a s H HP; cbn [seq fold_opt].
  - exists s. rewrite Nat.add_0_r. auto.
  - destruct (H a s ltac:(lia) HP) as (s1 & E & P1). rewrite E. cbn [bind]. destruct (IH (Datatypes.S a) s1) as (s2 & E2 & P2).
    + intros i t Hi. apply H. lia.
    + exact P1.
    + exists s2. split; [exact E2|]. rewrite <- Nat.add_succ_comm. exact P2.
Qed.

Lemma firstn_plus {A} a b : forall l : list A, firstn (a + b) l = firstn a l ++ firstn b (skipn a l).
Proof. induction a as [|a IH]; intros [|x l]; cbn [Nat.add firstn skipn app]; rewrite ?firstn_nil; try reflexivity. rewrite IH. reflexivity. Qed.
Lemma pieces {A} (b : nat) (v : list A) k : forall a,
  flat_map (fun q => firstn b (skipn (q * b) v)) (seq a k) = firstn (k * b) (skipn (a * b) v).
Proof.
  induction k as [|k IH]; intros a; cbn [seq flat_map]; [reflexivity|].
  rewrite IH. change (S k * b) with (b + k * b). rewrite firstn_plus, skipn_skipn'. f_equal. f_equal. f_equal. lia.
Qed.
Lemma flat_map_map {A B C} (f : B -> C) (g : A -> list B) l : flat_map (fun a => map f (g a)) l = map f (flat_map g l).
Proof. induction l as [|a l IH]; cbn [flat_map]; [reflexivity|]. rewrite IH, map_app. reflexivity. Qed.
Lemma flat_length {A} (f : nat -> list A) c k : forall a, (forall i, a <= i < a + k -> length (f i) = c) -> length (flat_map f (seq a k)) = k * c.
Proof.
  induction k as [|k IH]; intros a H; cbn [seq flat_map]; [reflexivity|]. rewrite app_length, IH by (intros; apply H; lia).
  rewrite H by lia. lia.
Qed.

(** ** Parameters *)
Definition spn (p : params) : nat := 16 / lhb p.
Definition parts (p : params) : nat := (WIDTH p + spn p - 1) / spn p.
Section Params.
Variable p : params.
Hypothesis OK : proper p.

Lemma height_hb : HEIGHT p = 8 * hb p.
Proof.
  unfold hb, HEIGHT. destruct OK as [[L _] _]. replace (LOG p) with (3 + (LOG p - 3)) by lia. rewrite Nat.pow_add_r. change (2 ^ 3) with 8.
  rewrite (Nat.mul_comm 8 (2 ^ _)), Nat.div_mul by lia. lia.
Qed.
Lemma lhb_bounds : 1 <= lhb p <= 4 /\ LOG p <= 8 * lhb p.
Proof.
  unfold lhb. destruct OK as [[L L'] _]. pose proof (Nat.div_mod (LOG p + 7) 8). pose proof (Nat.mod_upper_bound (LOG p + 7) 8). lia.
Qed.
Lemma split_ok : split p = Some (spn p) /\ 4 <= spn p /\ spn p * lhb p <= 16.
Proof.
  unfold spn.
  destruct lhb_bounds as [H _]. unfold split. replace (lhb p =? 0) with false by lia. split; [reflexivity|].
  assert (lhb p = 1 \/ lhb p = 2 \/ lhb p = 3 \/ lhb p = 4) as C by lia. destruct C as [-> |[-> |[-> | -> ]]]; cbv; lia.
Qed.
Local Notation sp := (spn p).
Lemma sp_pos : 0 < sp. Proof. destruct split_ok as (_ & H & _). lia. Qed.

(** ** Locations *)
Definition slice (i : nat) (x : N) : list N := firstn (lhb p) (skipn (i * lhb p) (le_bytes 16 x)).
Definition loc (i : nat) (x : N) : nat := N.to_nat (N.land (le_val (slice i x)) (2 ^ N.of_nat (LOG p) - 1)).
Lemma slice_length i x : i < sp -> length (slice i x) = lhb p.
Proof.
  intros H. unfold slice. rewrite firstn_length, skipn_length, le_bytes_length.
  destruct split_ok as (_ & _ & H2). nia.
Qed.
Lemma land_mask x k : N.land x (2 ^ k - 1) = (x mod 2 ^ k)%N.
Proof. rewrite <- N.land_ones. f_equal. rewrite N.ones_equiv. lia. Qed.
Lemma height_N : N.of_nat (HEIGHT p) = (2 ^ N.of_nat (LOG p))%N.
Proof. unfold HEIGHT. rewrite Nat2N.inj_pow. reflexivity. Qed.
Lemma loc_lt i x : loc i x < HEIGHT p.
Proof.
  unfold loc. rewrite land_mask. assert (le_val (slice i x) mod 2 ^ N.of_nat (LOG p) < 2 ^ N.of_nat (LOG p))%N by (apply N.mod_lt, N.pow_nonzero; discriminate).
  rewrite <- height_N in *. lia.
Qed.
Lemma le_val_app a b : le_val (a ++ b) = (le_val a + 2 ^ (8 * N.of_nat (length a)) * le_val b)%N.
Proof.
  induction a as [|x a IH]; cbn [app le_val length]; [change (2 ^ (8 * N.of_nat 0))%N with 1%N; lia|].
  rewrite IH. replace (8 * N.of_nat (Datatypes.S (length a)))%N with (8 + 8 * N.of_nat (length a))%N by lia.
  rewrite N.pow_add_r. change (2 ^ 8)%N with 256%N. lia.
Qed.
Lemma loc_read i x rest : i < sp -> N.to_nat (N.land (le_val (firstn 4 (slice i x ++ rest))) (2 ^ N.of_nat (LOG p) - 1)) = loc i x.
Proof.
  intros H. unfold loc. f_equal. assert (L := slice_length i x H). destruct lhb_bounds as [B B'].
  rewrite firstn_app, firstn_all2 by lia. rewrite le_val_app, L, !land_mask.
  replace (8 * N.of_nat (lhb p))%N with (N.of_nat (LOG p) + (8 * N.of_nat (lhb p) - N.of_nat (LOG p)))%N by lia.
  rewrite N.pow_add_r, <- N.mul_assoc, (N.mul_comm (2 ^ N.of_nat (LOG p))). apply N.mod_add, N.pow_nonzero. discriminate.
Qed.

Lemma div8 k : k < HEIGHT p -> k / 8 < hb p.
Proof. intros H. rewrite height_hb in H. apply Nat.div_lt_upper_bound; lia. Qed.

(** ** One part *)
Variable n : nat.
Hypothesis NB : n mod BATCH p = 0.
Hypothesis NH : n <= HEIGHT p.

Lemma batches_ok : batches p n * BATCH p = n.
Proof.
  destruct OK as (_ & B & _). unfold batches. rewrite (Nat.div_mod n (BATCH p)) at 1 by lia. rewrite NB, Nat.add_0_r.
  replace (BATCH p * (n / BATCH p) + BATCH p - 1) with (BATCH p - 1 + n / BATCH p * BATCH p) by lia.
  rewrite Nat.div_add by lia. rewrite (Nat.div_small (BATCH p - 1)) by lia.
  rewrite (Nat.div_mod n (BATCH p)) at 2 by lia. lia.
Qed.
Lemma enc_batches_ok k vec : length vec = n -> enc_batches p k n vec = Some (map (Enc k) vec).
Proof.
  intros L. unfold enc_batches. rewrite batches_ok, L, Nat.leb_refl. f_equal.
  rewrite (flat_map_ext _ (fun q => map (Enc k) (firstn (BATCH p) (skipn (q * BATCH p) vec)))) by (intros; apply FastECB_map).
  rewrite flat_map_map, pieces, batches_ok. rewrite Nat.mul_0_l, skipn_O, firstn_all2 by lia. rewrite skipn_all2 by lia. apply app_nil_r.
Qed.

Lemma fill_row_ok vec i row : length vec = n -> i < sp -> length row = n * lhb p + 4 ->
  exists row', fill_row p n vec i row = Some row' /\ length row' = n * lhb p + 4 /\ forall j, j < n -> location p row' j = Some (loc i (nth j vec 0%N)).
Proof.
  intros LV Hi LR. unfold fill_row. rewrite batches_ok.
  set (sl := fun j => slice i (nth j vec 0%N)).
  assert (LS : forall j, length (sl j) = lhb p) by (intros j; apply slice_length, Hi).
  destruct (fold_seq (fun row j => copy_to row (j * lhb p) (firstn (lhb p) (skipn (i * lhb p) (le_bytes 16 (nth j vec 0%N)))))
              (fun j row => length row = n * lhb p + 4 /\ firstn (j * lhb p) row = flat_map sl (seq 0 j)) n 0 row) as (row' & E & L' & F').
  - intros j r Hj [Lr Fr]. unfold copy_to. fold (slice i (nth j vec 0%N)). fold (sl j). rewrite LS.
    replace (j * lhb p + lhb p <=? length r) with true by (rewrite Lr; symmetry; apply Nat.leb_le; nia).
    eexists. split; [reflexivity|]. assert (LF : length (firstn (j * lhb p) r) = j * lhb p) by (rewrite firstn_length, Lr; nia). split.
    + rewrite !app_length, LF, LS, skipn_length, Lr. nia.
    + replace (S j * lhb p) with (j * lhb p + lhb p) by lia. rewrite firstn_plus.
      rewrite firstn_app_exact' by (symmetry; exact LF). rewrite skipn_app_exact' by (symmetry; exact LF). rewrite firstn_app_exact' by (symmetry; apply LS).
      rewrite Fr, seq_S, flat_map_app. cbn [flat_map Nat.add]. rewrite app_nil_r. reflexivity.
  - split; [exact LR|]. rewrite Nat.mul_0_l. reflexivity.
  - exists row'. split; [exact E|]. split; [exact L'|]. intros j Hj. unfold location.
    replace (j * lhb p + 4 <=? length row') with true by (rewrite L'; symmetry; apply Nat.leb_le; nia). f_equal.
    cbn [Nat.add] in F'. rewrite <- (firstn_skipn (n * lhb p) row'), F'. replace n with (j + S (n - j - 1)) at 1 by lia.
    rewrite seq_app, flat_map_app, <- app_assoc, skipn_app_exact' by (symmetry; apply flat_length; intros; apply LS).
    cbn [seq flat_map Nat.add]. rewrite <- app_assoc. apply loc_read, Hi.
Qed.
Definition rows_ok (rows : list (list N)) : Prop := length rows = sp /\ Forall (fun r => length r = n * lhb p + 4) rows.
Lemma no_rows_ok : rows_ok (no_rows p sp n).
Proof. split; [apply repeat_length|]. apply Forall_forall. intros r H. apply repeat_spec in H. subst. apply repeat_length. Qed.
Lemma fill_rows_ok bk vec rows : length vec = n -> bk <= sp -> rows_ok rows ->
  exists rows', fill_rows p n bk vec rows = Some rows' /\ rows_ok rows' /\ forall i j, i < bk -> j < n -> location p (nth i rows' []) j = Some (loc i (nth j vec 0%N)).
Proof.
  intros LV HB [LR FR]. unfold fill_rows.
  destruct (all_some_ex nat (list N) (fun i => row <- rd rows i ;; fill_row p n vec i row)
     (fun i row' => length row' = n * lhb p + 4 /\ forall j, j < n -> location p row' j = Some (loc i (nth j vec 0%N))) (seq 0 bk)) as (r & E & F2).
  { intros i Hi. apply in_seq in Hi. rewrite (rd_nth rows i []) by lia. cbn [bind]. apply fill_row_ok; [exact LV|lia|].
    rewrite Forall_forall in FR. apply FR, nth_In. lia. }
  rewrite E. cbn [bind]. eexists. split; [reflexivity|]. destruct (Forall2_seq_nth _ _ _ _ [] F2) as [L N].
  split; [split|].
  - rewrite app_length, skipn_length. lia.
  - apply Forall_app. split; [|apply Forall_skipn, FR]. apply Forall_forall. intros x Hx. destruct (In_nth _ _ [] Hx) as (i & Hi & <-).
    apply N. lia.
  - intros i j Hi Hj. rewrite app_nth1 by lia. apply N; assumption.
Qed.

Lemma mapping_ok M row f : hb p <= length M -> (forall j, j < n -> location p row j = Some (f j) /\ f j < HEIGHT p) ->
  exists v, mapping p n M row = Some v /\ length v = hb p /\ forall k, vb v k = ((k <? n) && vb M (f k))%bool.
Proof.
  intros LM HF. unfold mapping.
  destruct (fold_seq (fun v j => loc <- location p row j ;; b <- get_bit M loc ;; or_bit v j b)
    (fun j v => length v = hb p /\ forall k, vb v k = ((k <? j) && vb M (f k))%bool) n 0 (repeat 0%N (hb p))) as (v & E & L & V).
  - intros j v Hj [L V]. destruct (HF j ltac:(lia)) as [EL HL]. rewrite EL. cbn [bind]. pose proof (div8 _ HL).
    rewrite get_bit_ok by lia. cbn [bind]. destruct (or_bit_ok v j (vb M (f j))) as (v' & E & L' & V'); [rewrite L; apply div8; lia|].
    exists v'. split; [exact E|]. split; [lia|]. intros k. rewrite V', V.
    destruct (Nat.eqb_spec j k) as [->|H1].
    + replace (k <? k) with false by lia. replace (k <? S k) with true by lia. reflexivity.
    + cbn [andb]. rewrite orb_false_r. f_equal. lia.
  - split; [apply repeat_length|]. intros k. rewrite vb_repeat0. reflexivity.
  - exists v. auto.
Qed.
Lemma matrix_D_ok row f : (forall j, j < n -> location p row j = Some (f j) /\ f j < HEIGHT p) ->
  exists D, matrix_D p n row = Some D /\ length D = hb p /\ forall j, j < n -> vb D (f j) = false.
Proof.
  intros HF. unfold matrix_D.
  destruct (fold_seq (fun D j => loc <- location p row j ;; clear_bit D loc)
    (fun j D => length D = hb p /\ forall k, k < j -> vb D (f k) = false) n 0 (repeat 255%N (hb p))) as (D & E & L & V).
  - intros j D Hj [L V]. destruct (HF j ltac:(lia)) as [EL HL]. rewrite EL. cbn [bind]. pose proof (div8 _ HL).
    destruct (clear_bit_ok D (f j)) as (D' & E & L' & V'); [lia|]. exists D'. split; [exact E|]. split; [lia|]. intros k Hk. rewrite V'.
    destruct (Nat.eq_dec k j) as [->|]; [rewrite Nat.eqb_refl; apply andb_false_r|]. rewrite V by lia. reflexivity.
  - split; [apply repeat_length|]. intros k H. lia.
  - exists D. auto.
Qed.
End Params.

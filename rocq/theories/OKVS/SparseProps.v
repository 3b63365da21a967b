(** C66: the sparse positions of a key. *)
From Coq Require Import NArith ZArith List Bool Lia Arith.
From Coq Require Import ZifyBool ZifyNat ZifyN.
From Verif Require Import Base.Words Base.ListX OKVS.DivModel OKVS.GFModel.
From Verif Require Import OKVS.SparseModel OKVS.SparseSpec OKVS.SparseProofs.
Import ListNotations.
Local Open Scope N_scope.

(** C66, the scalar path: for every hashed key, every index type that can hold
    the size and every weight up to the size, [w] distinct columns below the
    size; with 16-bit indices and weight 3 only up to size 2^15 (see below). *)
Theorem C66_scalar_partial :
  forall b w m dense,
  int_width b -> m < 2 ^ b -> N.of_nat w <= m ->
  (w = 3%nat -> b = 16 -> m <= 2 ^ 15) ->
  exists row, set_sparse_1 b w m dense = Some row /\ is_row w m row.
Proof.
  intros b w m dense W Hm Hw H16. apply sparse_1_ok. repeat split; assumption.
Qed.
Print Assumptions C66_scalar_partial.

(** C66, the 32-way path: every one of the 32 rows is a row, without the
    restriction for 16-bit indices; the comparisons are signed, hence the bound
    2^63 (only relevant for 64-bit indices). *)
Theorem C66_vector :
  forall b w m dense,
  int_width b -> m < 2 ^ b -> N.of_nat w <= m -> m + 2 < 2 ^ 63 ->
  length dense = 32%nat ->
  exists rows, set_sparse_32 b w m dense = Some rows /\
    length rows = 32%nat /\ Forall (is_row w m) rows.
Proof.
  intros b w m dense W Hm Hw H63 L. destruct (Nat.eq_dec w 3) as [->|C].
  - change (N.of_nat 3) with 3 in Hw.
    rewrite sparse_32_three by assumption. eexists. split; [reflexivity|].
    rewrite map_length. split; [exact L|]. apply Forall_forall. intros r Hr.
    apply in_map_iff in Hr. destruct Hr as (d & <- & _).
    apply triple_row; try exact Hw; apply N.mod_lt; lia.
  - assert (H : idx_ok b w m) by (repeat split; try assumption; lia).
    rewrite (sparse_32_ok b w m dense H H63 L). eexists. split; [reflexivity|].
    rewrite map_length. split; [exact L|]. apply Forall_forall. intros r Hr.
    apply in_map_iff in Hr. destruct Hr as (d & <- & _). unfold the_row.
    destruct (sparse_1_ok b w m d H) as (r & -> & R). exact R.
Qed.
Print Assumptions C66_vector.

(** C66, the two paths agree on every block. *)
Theorem C66_agree_partial :
  forall b w m dense,
  int_width b -> m < 2 ^ b -> N.of_nat w <= m -> m + 2 < 2 ^ 63 ->
  (w = 3%nat -> b = 16 -> m <= 2 ^ 15) ->
  length dense = 32%nat ->
  exists rows, set_sparse_32 b w m dense = Some rows /\
    forall i, (i < 32)%nat ->
      set_sparse_1 b w m (nth i dense 0) = Some (nth i rows []).
Proof.
  intros b w m dense W Hm Hw H63 H16 L.
  assert (H : idx_ok b w m) by (repeat split; assumption).
  rewrite (sparse_32_ok b w m dense H H63 L). eexists. split; [reflexivity|].
  intros i Hi. rewrite (nth_map' _ dense i 0) by lia. unfold the_row.
  destruct (sparse_1_ok b w m (nth i dense 0) H) as (r & -> & _). reflexivity.
Qed.
Print Assumptions C66_agree_partial.

(** C66 refuted for 16-bit indices: for every size above 2^15 there are hashed
    keys for which the scalar path multiplies two uint16_t whose product
    exceeds INT_MAX - signed overflow, undefined behaviour. *)
Theorem C66_int_overflow_refuted :
  forall m, 2 ^ 15 < m -> m < 2 ^ 16 ->
  exists dense, dense < 2 ^ 128 /\ set_sparse_1 16 3 m dense = None.
Proof.
  intros m H1 H2. change (2 ^ 15) with 32768 in H1. change (2 ^ 16) with 65536 in H2.
  exists (65535 * m). split; [change (2 ^ 128) with 340282366920938463463374607431768211456; lia|].
  unfold set_sparse_1. cbn [Nat.eqb].
  assert (R : remainder 16 m (65535 * m) 0 = None).
  { unfold remainder.
    destruct (mod_div_ok m 0 ltac:(lia)) as (d & -> & D).
    { change (2 ^ 64) with 18446744073709551616. lia. }
    assert (Wd : word64 (65535 * m) 0 = 65535 * m).
    { unfold word64. change (32 * 0) with 0. rewrite N.shiftr_0_r. apply N.mod_small.
      change two64 with 18446744073709551616. lia. }
    rewrite Wd. rewrite (proj1 (D (65535 * m) ltac:(change (2 ^ 64) with 18446744073709551616; lia))).
    rewrite N.sub_0_r, N.div_mul by lia.
    change (idx 16 65535) with 65535.
    unfold mod_val. rewrite N.sub_0_r. unfold idx at 1. rewrite N.mod_small by (change (2 ^ 16) with 65536; lia).
    unfold idx_mul. change (16 <? 32) with true. cbv iota.
    replace (65535 * m <? 2 ^ 31) with false; [reflexivity|].
    change (2 ^ 31) with 2147483648. lia. }
  rewrite R. reflexivity.
Qed.
Print Assumptions C66_int_overflow_refuted.

(** Examples: the largest words of a block in a small table, scalar and
    vector, weights 3 and 5. *)
Example C66_run :
  set_sparse_1 8 3 3 (2 ^ 128 - 1) = Some [0; 2; 1] /\
  set_sparse_1 32 3 1000 (2 ^ 128 - 1) = Some [615; 159; 530] /\
  set_sparse_1 8 5 5 (2 ^ 128 - 1) = Some [0; 1; 2; 3; 4] /\
  set_sparse_1 8 2 1 7 = None /\
  option_map (firstn 2) (set_sparse_32 8 3 200 (map N.of_nat (seq 100 32)))
  = Some [[100; 0; 1]; [101; 0; 1]].
Proof. repeat split; vm_compute; reflexivity. Qed.

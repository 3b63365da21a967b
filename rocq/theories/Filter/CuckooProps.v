(** Properties C04 - C08 of the cuckoo filter. *)
From Coq Require Import NArith List Bool Lia.
From Verif.Base Require Import Words ListX Mem.
From Verif.Utility Require Import BitOpModel.
From Verif.Filter Require Import MurmurModel CuckooModel CuckooSpec CuckooProofs.
Import ListNotations.
Local Open Scope N_scope.

(** C04. In a history without deletions, every element whose insertion returned
    true is reported at the end, whatever rand() returned, also when the victim
    cache is in use. *)
Theorem C04_cuckoo_no_false_negative :
  forall H p d vi vt ops1 x rnd ops2 f rs,
  hash32 H -> capacity_ok p -> insert_only (ops1 ++ CInsert x rnd :: ops2) ->
  crun H (cuckoo_new p d vi vt) (ops1 ++ CInsert x rnd :: ops2) = Some (f, rs) ->
  nth (length ops1) rs false = true ->
  PlainContain H f x = Some true.
Proof.
  intros H p d vi vt ops1 x rnd ops2 f rs H32 C IO E R.
  eapply history_contain; eauto. intros y Hy. exfalso. apply (IO y). apply in_or_app. right. right. auto.
Qed.
Print Assumptions C04_cuckoo_no_false_negative.

(** C04. No history (with or without deletions) accesses memory outside the table
    or loops: every call returns. *)
Theorem C04_cuckoo_history_total :
  forall H p d vi vt ops, hash32 H -> capacity_ok p ->
  exists f rs, crun H (cuckoo_new p d vi vt) ops = Some (f, rs) /\ length rs = length ops.
Proof.
  intros H p d vi vt ops H32 C.
  destruct (crun_total H ops _ H32 (WF_new p d vi vt C)) as (f & rs & E & _ & _ & L). eauto.
Qed.
Print Assumptions C04_cuckoo_history_total.

(** C04, boundary. For capacities between 2^33+4 and 2^34-1 the constructor computes
    an empty table and the first insertion writes out of bounds. *)
Theorem C04_cuckoo_huge_capacity_refuted :
  forall H rnd p d vi vt x, 2 ^ 31 < p / 4 < 2 ^ 32 ->
  PlainInsert H rnd (cuckoo_new p d vi vt) x = None.
Proof. exact insert_capacity_zero. Qed.
Print Assumptions C04_cuckoo_huge_capacity_refuted.

(** C05 (partial): a live element survives all deletions of elements that do not
    share its fingerprint and bucket pair.  Missing: colliding elements, for which
    the claim is false (next theorem). *)
Theorem C05_cuckoo_delete_other_partial :
  forall H p d vi vt ops1 x rnd ops2 f rs,
  hash32 H -> capacity_ok p ->
  crun H (cuckoo_new p d vi vt) (ops1 ++ CInsert x rnd :: ops2) = Some (f, rs) ->
  nth (length ops1) rs false = true ->
  (forall y, In (CDelete y) ops2 -> ~ collide H (cf_bucket_num f) x y) ->
  PlainContain H f x = Some true.
Proof. exact history_contain. Qed.
Print Assumptions C05_cuckoo_delete_other_partial.

(** C05 (refuted): Delete removes the fingerprint from both buckets.  Whenever y
    has x's fingerprint and its first bucket is x's second one, inserting x and y
    and deleting y makes the filter forget x. *)
Theorem C05_cuckoo_delete_loses_other_refuted :
  forall H p d vi vt x y rnd1 rnd2, hash32 H -> capacity_ok p ->
  fingerprint H x = fingerprint H y ->
  bucket1 H (cf_bucket_num (cuckoo_new p d vi vt)) y = bucket2 H (cf_bucket_num (cuckoo_new p d vi vt)) x ->
  exists f, crun H (cuckoo_new p d vi vt) [CInsert x rnd1; CInsert y rnd2; CDelete y]
            = Some (f, [true; true; true]) /\
    PlainContain H f x = Some false.
Proof. exact delete_loses. Qed.
Print Assumptions C05_cuckoo_delete_loses_other_refuted.

(** The hypotheses are met by the 64-bit integers 3 and 4 with the hash function
    of the code and capacity 100. *)
Example C05_concrete :
  let x := le_bytes 8 3 in let y := le_bytes 8 4 in
  capacity_ok 100 /\ hash32 LiteMurmurHash /\ x <> y /\
  fingerprint LiteMurmurHash x = fingerprint LiteMurmurHash y /\
  bucket1 LiteMurmurHash (cf_bucket_num (cuckoo_new 100 false 0 0)) y =
  bucket2 LiteMurmurHash (cf_bucket_num (cuckoo_new 100 false 0 0)) x.
Proof.
  split; [discriminate|]. split; [exact hash32_murmur|]. split; [discriminate|]. vm_compute. auto.
Qed.

(** C05. Delete returns true exactly when Contain would have. *)
Theorem C05_cuckoo_delete_result :
  forall H p d vi vt ops f rs x, hash32 H -> capacity_ok p ->
  crun H (cuckoo_new p d vi vt) ops = Some (f, rs) ->
  exists f' r, PlainDelete H f x = Some (f', r) /\ PlainContain H f x = Some r.
Proof.
  intros H p d vi vt ops f rs x H32 C E.
  destruct (crun_total H ops _ H32 (WF_new p d vi vt C)) as (g & rs' & E' & W & _).
  rewrite E in E'. inversion E'; subst g rs'.
  destruct (PlainDelete_spec H f x H32 W) as (f' & r & -> & _ & _ & K & _).
  destruct (contain_spec H f x H32 W) as (r' & -> & K').
  exists f', r. split; auto. f_equal. apply eq_true_iff_eq. rewrite K, K'. tauto.
Qed.
Print Assumptions C05_cuckoo_delete_result.

(** C06. For every reachable filter, every bucket and every fingerprint the
    alternate bucket is inside the table, and its alternate is the bucket itself. *)
Theorem C06_cuckoo_alternate_involution :
  forall H p d vi vt ops f rs b tag, hash32 H -> capacity_ok p ->
  crun H (cuckoo_new p d vi vt) ops = Some (f, rs) ->
  b < cf_bucket_num f ->
  8 * ComputeAnotherBucketIndex f b tag + 8 <= N.of_nat (length (cf_table f)) /\
  ComputeAnotherBucketIndex f (ComputeAnotherBucketIndex f b tag) tag = b.
Proof.
  intros H p d vi vt ops f rs b tag H32 C E Hb.
  destruct (crun_total H ops _ H32 (WF_new p d vi vt C)) as (g & rs' & E' & W & _).
  rewrite E in E'. inversion E'; subst g rs'. split; [|apply alt_invol; auto].
  rewrite (wf_len f W). pose proof (alt_lt f b tag W Hb). lia.
Qed.
Print Assumptions C06_cuckoo_alternate_involution.

(** C07 (partial): with at least two buckets every field except victim.used is
    restored; victim.used becomes whatever the four buffer bytes 56..59 held
    before WriteObject. *)
Theorem C07_cuckoo_buffer_round_trip_partial :
  forall H p d vi vt ops f rs buf, hash32 H -> capacity_ok p -> vi < 2 ^ 32 -> vt < 2 ^ 32 ->
  crun H (cuckoo_new p d vi vt) ops = Some (f, rs) -> 2 <= cf_bucket_num f ->
  N.of_nat (length buf) = ObjectSize f ->
  exists buf', WriteObject f buf = Some buf' /\ length buf' = length buf /\
    ReadObject buf' =
      Some (set_victim f (cf_vic_idx f) (cf_vic_tag f) (le_val (firstn 4 (skipn 56 buf)))).
Proof.
  intros H p d vi vt ops f rs buf H32 C Hvi Hvt E B L.
  destruct (crun_total H ops _ H32 (WF_new p d vi vt C)) as (g & rs' & E' & W & _).
  pose proof (crun_ranges H ops _ f rs H32 (WF_new p d vi vt C) E (ranges_new p d vi vt Hvi Hvt)) as R.
  rewrite E in E'. inversion E'; subst g rs'.
  destruct (buffer_round_trip f buf W R B) as (buf' & E1 & E2 & E3); [rewrite L; apply N.le_refl|].
  exists buf'. split; auto. split; auto. rewrite E3.
  rewrite read_bytes_some; [reflexivity|]. rewrite L. unfold ObjectSize. lia.
Qed.
Print Assumptions C07_cuckoo_buffer_round_trip_partial.

(** C07 (refuted): with one bucket, WriteObject into a buffer of ObjectSize()
    bytes writes past its end. *)
Theorem C07_cuckoo_one_bucket_overflow_refuted :
  forall H p d vi vt ops f rs buf, hash32 H -> capacity_ok p ->
  crun H (cuckoo_new p d vi vt) ops = Some (f, rs) -> cf_bucket_num f = 1 ->
  N.of_nat (length buf) = ObjectSize f -> WriteObject f buf = None.
Proof.
  intros H p d vi vt ops f rs buf H32 C E.
  destruct (crun_total H ops _ H32 (WF_new p d vi vt C)) as (g & rs' & E' & W & _).
  rewrite E in E'. inversion E'; subst g rs'. apply buffer_overflow_1; auto.
Qed.
Print Assumptions C07_cuckoo_one_bucket_overflow_refuted.

(** C07 (refuted): the file variants never restore the table, for any reachable
    filter: ReadObject(file) overflows the table or leaves a different one. *)
Theorem C07_cuckoo_file_round_trip_refuted :
  forall H p d vi vt ops f rs g, hash32 H -> capacity_ok p -> vi < 2 ^ 32 -> vt < 2 ^ 32 ->
  crun H (cuckoo_new p d vi vt) ops = Some (f, rs) ->
  ReadFile (WriteFile f) = Some g -> cf_table g <> cf_table f.
Proof.
  intros H p d vi vt ops f rs g H32 C Hvi Hvt E.
  destruct (crun_total H ops _ H32 (WF_new p d vi vt C)) as (g' & rs' & E' & W & _).
  pose proof (crun_ranges H ops _ f rs H32 (WF_new p d vi vt C) E (ranges_new p d vi vt Hvi Hvt)) as R.
  rewrite E in E'. inversion E'; subst g' rs'. apply file_never; auto.
Qed.
Print Assumptions C07_cuckoo_file_round_trip_refuted.

(** A reachable filter with the victim cache in use: nine elements in a two-bucket
    table (capacity 7). *)
Definition ex_ops : list cop :=
  map (fun i => CInsert (le_bytes 8 (i * i * i * 7919 + 13)) (fun _ => 3)) [1;2;3;4;5;6;7;8;9].
Definition ex_filter : cuckoo :=
  match crun LiteMurmurHash (cuckoo_new 7 true 0 0) ex_ops with Some (f, _) => f | None => cuckoo_new 0 false 0 0 end.

(** C07 (refuted): a filter that holds all nine inserted elements, written to a
    zero-filled buffer and read back, no longer contains the last one. *)
Theorem C07_cuckoo_buffer_loses_victim_refuted :
  exists f rs buf buf' g x,
    crun LiteMurmurHash (cuckoo_new 7 true 0 0) ex_ops = Some (f, rs) /\
    N.of_nat (length buf) = ObjectSize f /\ WriteObject f buf = Some buf' /\ ReadObject buf' = Some g /\
    PlainContain LiteMurmurHash f x = Some true /\ PlainContain LiteMurmurHash g x = Some false.
Proof.
  exists ex_filter, (repeat true 9), (repeat 0 76).
  assert (exists b, WriteObject ex_filter (repeat 0 76) = Some b /\
    exists g, ReadObject b = Some g /\ PlainContain LiteMurmurHash g (le_bytes 8 (9 * 9 * 9 * 7919 + 13)) = Some false)
    as (b & E1 & g & E2 & E3).
  { eexists. split; [vm_compute; reflexivity|]. eexists. split; [vm_compute; reflexivity|]. vm_compute. reflexivity. }
  exists b, g, (le_bytes 8 (9 * 9 * 9 * 7919 + 13)).
  split; [vm_compute; reflexivity|]. split; [vm_compute; reflexivity|].
  split; [exact E1|]. split; [exact E2|]. split; [vm_compute; reflexivity|exact E3].
Qed.
Print Assumptions C07_cuckoo_buffer_loses_victim_refuted.

(** The example history meets the hypotheses of C04/C05/C06/C07_partial: all nine
    insertions return true, the victim cache is in use, the table has two buckets. *)
Example C04_example :
  hash32 LiteMurmurHash /\ capacity_ok 7 /\ insert_only ex_ops /\
  crun LiteMurmurHash (cuckoo_new 7 true 0 0) ex_ops = Some (ex_filter, repeat true 9) /\
  cf_vic_used ex_filter = 1 /\ cf_bucket_num ex_filter = 2 /\
  PlainContain LiteMurmurHash ex_filter (le_bytes 8 (9 * 9 * 9 * 7919 + 13)) = Some true.
Proof.
  split; [exact hash32_murmur|]. split; [discriminate|]. split.
  { intros x Hx. unfold ex_ops in Hx. apply in_map_iff in Hx. destruct Hx as (i & Q & _). discriminate. }
  split; [vm_compute; reflexivity|]. split; [vm_compute; reflexivity|].
  split; vm_compute; reflexivity.
Qed.

(** C08 (refuted): Insert(ECPoint)/Contain(ECPoint) hash 65 bytes of a buffer of
    which only 33 are written.  Whenever the stale bytes at lookup lead to another
    fingerprint or bucket pair, the inserted point is not found. *)
Theorem C08_cuckoo_point_lookup_refuted :
  forall H p d vi vt enc g1 g2 rnd, hash32 H -> capacity_ok p ->
  length enc = 33%nat -> length g1 = 65%nat -> length g2 = 65%nat ->
  ~ collide H (cf_bucket_num (cuckoo_new p d vi vt)) (enc ++ skipn 33 g1) (enc ++ skipn 33 g2) ->
  exists f, InsertPoint H rnd (cuckoo_new p d vi vt) g1 enc = Some (f, true) /\
    ContainPoint H f g2 enc = Some false.
Proof.
  intros H p d vi vt enc g1 g2 rnd H32 C Le L1 L2 NC.
  assert (P : forall g, length g = 65%nat -> point_buffer g enc = Some (enc ++ skipn 33 g)).
  { intros g Lg. unfold point_buffer. rewrite write_bytes_some by (rewrite Le, Lg; discriminate).
    rewrite Le. reflexivity. }
  destruct (fresh_other H p d vi vt _ _ rnd H32 C NC) as (f & E1 & E2).
  exists f. unfold InsertPoint, ContainPoint. rewrite !P by auto. auto.
Qed.
Print Assumptions C08_cuckoo_point_lookup_refuted.

(** Two stack contents for which this happens with the hash of the code. *)
Example C08_concrete :
  let enc := 2 :: repeat 7 32 in
  ~ collide LiteMurmurHash (cf_bucket_num (cuckoo_new 100 false 0 0))
      (enc ++ skipn 33 (repeat 0 65)) (enc ++ skipn 33 (repeat 1 65)).
Proof. vm_compute. intros [Q _]. discriminate. Qed.

(** C08 (partial): found whenever the stale bytes 33..64 of both calls agree.
    Missing: independence of the stale bytes, which fails as shown above. *)
Theorem C08_cuckoo_point_lookup_partial :
  forall H p d vi vt ops1 enc g1 g2 rnd ops2 f rs, hash32 H -> capacity_ok p ->
  length enc = 33%nat -> length g1 = 65%nat -> length g2 = 65%nat -> skipn 33 g1 = skipn 33 g2 ->
  insert_only (ops1 ++ CInsert (enc ++ skipn 33 g1) rnd :: ops2) ->
  crun H (cuckoo_new p d vi vt) (ops1 ++ CInsert (enc ++ skipn 33 g1) rnd :: ops2) = Some (f, rs) ->
  nth (length ops1) rs false = true ->
  ContainPoint H f g2 enc = Some true.
Proof.
  intros H p d vi vt ops1 enc g1 g2 rnd ops2 f rs H32 C Le L1 L2 Eg IO E R.
  unfold ContainPoint, point_buffer. rewrite write_bytes_some by (rewrite Le, L2; discriminate).
  rewrite Le. change (N.to_nat 0) with 0%nat. cbn [firstn app Nat.add]. rewrite <- Eg.
  eapply C04_cuckoo_no_false_negative; eauto.
Qed.
Print Assumptions C08_cuckoo_point_lookup_partial.

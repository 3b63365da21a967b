From Coq Require Import NArith List Bool Lia.
From Coq Require Import ZifyBool ZifyNat ZifyN.
From Verif.Base Require Import Words ListX Mem.
From Verif.Utility Require Import BitOpModel BitOpProofs.
From Verif.Filter Require Import MurmurModel CuckooModel CuckooSpec.
Import ListNotations.
Local Open Scope N_scope.

Record WF (f : cuckoo) : Prop := mkWF {
  wf_bits : cf_tag_bits f = 16;
  wf_slots : cf_slot_num f = 4;
  wf_bb : cf_bucket_bytes f = 8;
  wf_kick : cf_max_kick f < 2 ^ 64;
  wf_bn : exists k, k <= 32 /\ cf_bucket_num f = 2 ^ k;
  wf_len : N.of_nat (length (cf_table f)) = cf_bucket_num f * 8;
  wf_bytes : bytes_ok (cf_table f) }.

(** everything but the table contents, counter and victim *)
Definition same_shape (f g : cuckoo) : Prop :=
  cf_max_kick f = cf_max_kick g /\ cf_slot_num f = cf_slot_num g /\ cf_tag_bits f = cf_tag_bits g /\
  cf_bucket_bytes f = cf_bucket_bytes g /\ cf_bucket_num f = cf_bucket_num g.
Definition same_victim (f g : cuckoo) : Prop :=
  cf_vic_idx f = cf_vic_idx g /\ cf_vic_tag f = cf_vic_tag g /\ cf_vic_used f = cf_vic_used g.

Lemma same_shape_refl : forall f, same_shape f f.
Proof. unfold same_shape; tauto. Qed.
Lemma same_shape_trans : forall f g h, same_shape f g -> same_shape g h -> same_shape f h.
Proof. unfold same_shape. intuition congruence. Qed.
Lemma same_victim_refl : forall f, same_victim f f.
Proof. unfold same_victim; tauto. Qed.
Global Hint Resolve same_shape_refl same_victim_refl : core.

Definition slot (f : cuckoo) (b s : N) : N :=
  match ReadTag f b s with Some t => t | None => 0 end.

Lemma read_bytes_ok : forall m o l bs, bytes_ok m -> read_bytes m o l = Some bs ->
  bytes_ok bs /\ N.of_nat (length bs) = l.
Proof.
  intros m o l bs O E. unfold read_bytes in E.
  destruct (N.leb_spec (o + l) (N.of_nat (length m))); inversion E; subst. split.
  - unfold bytes_ok in *. rewrite Forall_forall in *. intros z Hz. apply O.
    assert (In z (skipn (N.to_nat o) m)).
    { rewrite <- (firstn_skipn (N.to_nat l)). apply in_or_app. auto. }
    rewrite <- (firstn_skipn (N.to_nat o) m). apply in_or_app. auto.
  - rewrite firstn_length, skipn_length. lia.
Qed.

Lemma ReadTag_total : forall f b s, WF f -> b < cf_bucket_num f -> s < 4 ->
  ReadTag f b s = Some (slot f b s) /\ slot f b s < 2 ^ 16.
Proof.
  intros f b s W Hb Hs. unfold slot, ReadTag.
  rewrite (wf_bits f W), (wf_bb f W). change (16 =? 16) with true. cbn iota.
  pose proof (wf_len f W).
  destruct (read_bytes (cf_table f) (b * 8 + 2 * s) 2) as [bs|] eqn:E.
  - cbn [option_map]. split; auto.
    destruct (read_bytes_ok _ _ _ _ (wf_bytes f W) E) as (O & L).
    pose proof (le_val_lt bs O) as Q. rewrite L in Q. exact Q.
  - exfalso. rewrite read_bytes_some in E by lia. discriminate.
Qed.

Lemma WriteTag_total : forall f b s tag, WF f -> b < cf_bucket_num f -> s < 4 -> tag < 2 ^ 16 ->
  exists f', WriteTag f b s tag = Some f' /\ WF f' /\ same_shape f f' /\ same_victim f f' /\
    cf_count f' = cf_count f /\
    (forall b' s', b' < cf_bucket_num f -> s' < 4 ->
       slot f' b' s' = if (b' =? b) && (s' =? s) then tag else slot f b' s').
Proof.
  intros f b s tag W Hb Hs Ht. unfold WriteTag.
  pose proof (wf_len f W) as L.
  rewrite (wf_bits f W), (wf_bb f W). change (16 =? 16) with true. cbn iota.
  destruct (write_bytes (cf_table f) (b * 8 + 2 * s) (le_bytes 2 tag)) as [t|] eqn:E;
    [|rewrite write_bytes_some in E by (rewrite le_bytes_length; lia); discriminate].
  cbn [option_map].
  assert (Lt := write_bytes_length _ _ _ _ E).
  assert (W' : WF (set_table f t)).
  { destruct W; constructor; cbn [set_table cf_tag_bits cf_slot_num cf_bucket_bytes cf_max_kick cf_bucket_num cf_table]; auto.
    - rewrite Lt. auto.
    - refine (write_bytes_ok _ _ _ _ _ (le_bytes_ok 2 tag) E); auto. }
  exists (set_table f t). split; [auto|]. split; [auto|]. split; [repeat split|]. split; [repeat split|].
  split; [auto|].
  intros b' s' Hb' Hs'. unfold slot, ReadTag.
  cbn [set_table cf_tag_bits cf_slot_num cf_bucket_bytes cf_bucket_num cf_table].
  rewrite (wf_bits f W), (wf_bb f W). change (16 =? 16) with true. cbn iota.
  destruct ((b' =? b) && (s' =? s)) eqn:Q.
  - assert (b' = b) by lia. assert (s' = s) by lia. subst.
    change 2 with (N.of_nat (length (le_bytes 2 tag))) at 2.
    rewrite (read_write_same _ _ _ _ E). cbn [option_map].
    apply le_val_bytes. exact Ht.
  - rewrite (read_write_other _ _ _ _ (b' * 8 + 2 * s') 2 E); auto.
    rewrite le_bytes_length. lia.
Qed.

Definition in_bucket (f : cuckoo) (b tag : N) : Prop := exists s, s < 4 /\ slot f b s = tag.

Lemma le_val_8 : forall l, length l = 8%nat -> bytes_ok l ->
  le_val l = lanes4 (le_val (firstn 2 l)) (le_val (firstn 2 (skipn 2 l)))
                    (le_val (firstn 2 (skipn 4 l))) (le_val (firstn 2 (skipn 6 l))).
Proof.
  intros l L O. do 8 (destruct l as [|? l]; [discriminate L|]). destruct l; [|discriminate L].
  unfold lanes4. cbn [firstn skipn le_val]. lia.
Qed.

Lemma FindTag_spec : forall f b tag, WF f -> b < cf_bucket_num f -> tag < 2 ^ 16 ->
  exists r, FindTagInBucket f b tag = Some r /\ (r = true <-> in_bucket f b tag).
Proof.
  intros f b tag W Hb Ht. unfold FindTagInBucket. pose proof (wf_len f W) as L.
  rewrite (wf_bits f W), (wf_bb f W). change (16 =? 16) with true. cbn iota.
  rewrite read_bytes_some by lia.
  eexists. split; [reflexivity|].
  set (bs := firstn (N.to_nat 8) (skipn (N.to_nat (b * 8)) (cf_table f))).
  assert (R : read_bytes (cf_table f) (b * 8) 8 = Some bs) by (apply read_bytes_some; lia).
  destruct (read_bytes_ok _ _ _ _ (wf_bytes f W) R) as (O & Lb).
  assert (S : forall s, s < 4 -> slot f b s = le_val (firstn 2 (skipn (2 * N.to_nat s) bs))).
  { intros s Hs. unfold slot, ReadTag. rewrite (wf_bits f W), (wf_bb f W). change (16 =? 16) with true. cbn iota.
    rewrite read_bytes_some by lia. cbn [option_map]. f_equal. unfold bs.
    change (N.to_nat 2) with 2%nat.
    apply list_eq_nth with (d := 0).
    - rewrite !firstn_length, !skipn_length, firstn_length, skipn_length. lia.
    - intros i Hi. rewrite firstn_length in Hi.
      rewrite !nth_firstn_lt, !nth_skipn, nth_firstn_lt, nth_skipn by lia. f_equal. lia. }
  rewrite le_val_8 by (auto; lia).
  assert (B : forall s, s < 4 -> le_val (firstn 2 (skipn (2 * N.to_nat s) bs)) < 2 ^ 16).
  { intros s Hs. rewrite <- S by auto. apply ReadTag_total; auto. }
  rewrite negb_true_iff, N.eqb_neq.
  rewrite hasvalue16_lanes; auto.
  2:{ apply (B 0); lia. } 2:{ apply (B 1); lia. } 2:{ apply (B 2); lia. } 2:{ apply (B 3); lia. }
  unfold in_bucket. split.
  - intros [E|[E|[E|E]]]; [exists 0|exists 1|exists 2|exists 3]; (split; [lia|]); rewrite S by lia; exact E.
  - intros (s & Hs & E). rewrite S in E by auto.
    assert (s = 0 \/ s = 1 \/ s = 2 \/ s = 3) as [->|[->|[->| ->]]] by lia; auto.
Qed.

(** ** Indices *)
Lemma sub64_pow2 : forall k, k <= 32 -> sub64 (2 ^ k) 1 = N.ones k.
Proof.
  intros k Hk. unfold sub64, wrap64. change (wrap 64 1) with 1.
  assert (2 ^ k <= 2 ^ 32) by (apply N.pow_le_mono_r; [discriminate|lia]).
  assert (1 <= 2 ^ k) by (pose proof (N.pow_nonzero 2 k); lia).
  rewrite N.ones_equiv. unfold wrap.
  replace (2 ^ k + (2 ^ 64 - 1)) with (N.pred (2 ^ k) + 1 * 2 ^ 64) by lia.
  rewrite N.mod_add by discriminate. apply N.mod_small. lia.
Qed.

Lemma wrap32_land_ones : forall x k, k <= 32 -> wrap32 (N.land x (N.ones k)) = x mod 2 ^ k.
Proof.
  intros x k Hk. rewrite N.land_ones. apply wrap_small.
  assert (2 ^ k <= 2 ^ 32) by (apply N.pow_le_mono_r; [discriminate|lia]).
  pose proof (N.mod_lt x (2 ^ k)). pose proof (N.pow_nonzero 2 k). lia.
Qed.

Lemma lxor_mod_pow2 : forall a b k, (N.lxor a b) mod 2 ^ k = N.lxor (a mod 2 ^ k) (b mod 2 ^ k).
Proof.
  intros a b k. rewrite <- !N.land_ones. apply N.bits_inj. intros i.
  rewrite !N.lxor_spec, !N.land_spec, N.lxor_spec.
  destruct (N.testbit (N.ones k) i); rewrite ?andb_true_r, ?andb_false_r; auto.
Qed.

Lemma mod_mod_pow2 : forall a j k, k <= j -> (a mod 2 ^ j) mod 2 ^ k = a mod 2 ^ k.
Proof.
  intros a j k L. rewrite <- !N.land_ones. apply N.bits_inj. intros i.
  rewrite !N.land_spec, <- andb_assoc. f_equal.
  destruct (N.lt_ge_cases i k).
  - rewrite !N.ones_spec_low by lia. auto.
  - rewrite (N.ones_spec_high k) by lia. apply andb_false_r.
Qed.

Lemma alt_eq : forall f b tag, WF f -> b < cf_bucket_num f ->
  ComputeAnotherBucketIndex f b tag = N.lxor b ((tag * 0x5bd1e995) mod cf_bucket_num f).
Proof.
  intros f b tag W Hb. destruct (wf_bn f W) as (k & Hk & E). unfold ComputeAnotherBucketIndex.
  rewrite E in *. rewrite sub64_pow2, wrap32_land_ones, lxor_mod_pow2 by auto.
  rewrite (N.mod_small b) by auto. f_equal.
  unfold mul32, wrap32, wrap. apply mod_mod_pow2. auto.
Qed.

Lemma alt_lt : forall f b tag, WF f -> b < cf_bucket_num f ->
  ComputeAnotherBucketIndex f b tag < cf_bucket_num f.
Proof.
  intros f b tag W Hb. rewrite alt_eq by auto. destruct (wf_bn f W) as (k & Hk & E). rewrite E in *.
  apply lxor_lt; auto. apply N.mod_lt. apply N.pow_nonzero. discriminate.
Qed.

Lemma alt_invol : forall f b tag, WF f -> b < cf_bucket_num f ->
  ComputeAnotherBucketIndex f (ComputeAnotherBucketIndex f b tag) tag = b.
Proof.
  intros f b tag W Hb. rewrite (alt_eq f (ComputeAnotherBucketIndex f b tag)) by auto using alt_lt.
  rewrite alt_eq by auto. rewrite N.lxor_assoc, N.lxor_nilpotent, N.lxor_0_r. auto.
Qed.

Lemma alt_shape : forall f g b tag, same_shape f g ->
  ComputeAnotherBucketIndex g b tag = ComputeAnotherBucketIndex f b tag.
Proof. intros f g b tag (A1 & A2 & A3 & A4 & A5). unfold ComputeAnotherBucketIndex. rewrite A5. auto. Qed.

(** ** Element indices *)
Section Elem.
Variable H : N -> list N -> N.
Hypothesis H32 : hash32 H.

Lemma ComputeTag_eq : forall f x, WF f -> ComputeTag f (H fixed_salt32 x) = fingerprint H x.
Proof.
  intros f x W. unfold ComputeTag, fingerprint. rewrite (wf_bits f W). unfold shr32.
  change (32 - 16) with 16. rewrite N.shiftr_div_pow2.
  set (t := H fixed_salt32 x / 2 ^ 16).
  assert (t < 2 ^ 16).
  { apply N.div_lt_upper_bound; [discriminate|]. exact (H32 _). }
  destruct (t =? 0) eqn:E.
  - apply N.eqb_eq in E. rewrite E. reflexivity.
  - unfold add32. rewrite N.add_0_r. apply wrap_small. lia.
Qed.

Lemma fingerprint_range : forall x, 0 < fingerprint H x < 2 ^ 16.
Proof.
  intros x. unfold fingerprint.
  assert (H fixed_salt32 x / 2 ^ 16 < 2 ^ 16).
  { apply N.div_lt_upper_bound; [discriminate|]. exact (H32 _). }
  destruct (N.eqb_spec (H fixed_salt32 x / 2 ^ 16) 0); lia.
Qed.

Lemma bucket1_eq : forall f x, WF f -> ComputeBucketIndex f (H fixed_salt32 x) = bucket1 H (cf_bucket_num f) x.
Proof.
  intros f x W. destruct (wf_bn f W) as (k & Hk & E). unfold ComputeBucketIndex, bucket1.
  rewrite E, sub64_pow2, wrap32_land_ones by auto. auto.
Qed.

Lemma bucket1_lt : forall f x, WF f -> bucket1 H (cf_bucket_num f) x < cf_bucket_num f.
Proof.
  intros f x W. destruct (wf_bn f W) as (k & Hk & E). unfold bucket1. rewrite E.
  apply N.mod_lt. apply N.pow_nonzero. discriminate.
Qed.

Lemma bucket2_eq : forall f x, WF f ->
  ComputeAnotherBucketIndex f (bucket1 H (cf_bucket_num f) x) (fingerprint H x) = bucket2 H (cf_bucket_num f) x.
Proof. intros f x W. rewrite alt_eq by auto using bucket1_lt. reflexivity. Qed.
End Elem.

(** ** What the filter remembers about a fingerprint and its bucket pair *)
Definition held_tab (f : cuckoo) (tg c1 : N) : Prop :=
  in_bucket f c1 tg \/ in_bucket f (ComputeAnotherBucketIndex f c1 tg) tg.
Definition held (f : cuckoo) (tg c1 : N) : Prop :=
  held_tab f tg c1 \/
  (cf_vic_used f <> 0 /\ cf_vic_tag f = tg /\
   (cf_vic_idx f = c1 \/ cf_vic_idx f = ComputeAnotherBucketIndex f c1 tg)).

Lemma contain_spec : forall H f x, hash32 H -> WF f ->
  exists r, PlainContain H f x = Some r /\
    (r = true <-> held f (fingerprint H x) (bucket1 H (cf_bucket_num f) x)).
Proof.
  intros H f x H32 W. unfold PlainContain.
  rewrite (ComputeTag_eq H H32 f x W), (bucket1_eq H f x W).
  pose proof (bucket1_lt H f x W) as B1.
  pose proof (fingerprint_range H H32 x) as (_ & FR).
  set (b1 := bucket1 H (cf_bucket_num f) x) in *. set (tg := fingerprint H x) in *.
  destruct (FindTag_spec f b1 tg W B1 FR) as (r1 & -> & S1).
  destruct (FindTag_spec f _ tg W (alt_lt f b1 tg W B1) FR) as (r2 & -> & S2).
  unfold held, held_tab.
  destruct r1.
  { exists true. split; auto. split; auto. intros _. left. left. apply S1. auto. }
  destruct r2.
  { exists true. split; auto. split; auto. intros _. left. right. apply S2. auto. }
  eexists. split; [reflexivity|].
  rewrite !andb_true_iff, negb_true_iff, orb_true_iff, N.eqb_neq, !N.eqb_eq.
  assert (~ in_bucket f b1 tg) by (intros Q; apply S1 in Q; discriminate).
  assert (~ in_bucket f (ComputeAnotherBucketIndex f b1 tg) tg) by (intros Q; apply S2 in Q; discriminate).
  split.
  - intros ((U & T) & I). right. split; [auto|]. split; [auto|]. destruct I; auto.
  - intros [[?|?]|(U & T & I)]; try tauto. split; [split; auto|]. destruct I; auto.
Qed.

(** ** Insertion *)
Definition full (f : cuckoo) (b : N) : Prop := forall s, s < 4 -> slot f b s <> 0.

(** f' is f with slot (b,s), which held [old], now holding [tag] *)
Definition slot_written (f f' : cuckoo) (b s old tag : N) : Prop :=
  WF f' /\ same_shape f f' /\ s < 4 /\ slot f b s = old /\
  forall b' s', b' < cf_bucket_num f -> s' < 4 ->
       slot f' b' s' = if (b' =? b) && (s' =? s) then tag else slot f b' s'.

Lemma insert_slot_loop_spec : forall n f b tag s, WF f -> b < cf_bucket_num f -> tag < 2 ^ 16 ->
  s + N.of_nat n = 4 -> (forall s', s' < s -> slot f b s' <> 0) ->
  (insert_slot_loop f b tag s n = Some None /\ full f b) \/
  (exists f' s0, insert_slot_loop f b tag s n = Some (Some f') /\ slot_written f f' b s0 0 tag).
Proof.
  induction n; intros f b tag s W Hb Ht Hs Hf; cbn [insert_slot_loop].
  - left. split; auto. intros s' Hs'. apply Hf. lia.
  - assert (Hs4 : s < 4) by lia.
    destruct (ReadTag_total f b s W Hb Hs4) as (-> & _).
    destruct (N.eqb_spec (slot f b s) 0) as [E|E].
    + right. destruct (WriteTag_total f b s tag W Hb Hs4 Ht) as (f' & -> & P).
      exists f', s. split; auto. unfold slot_written. tauto.
    + apply IHn; auto; [lia|]. intros s' L. destruct (N.eq_dec s' s); [congruence|]. apply Hf. lia.
Qed.

Lemma InsertTag_spec : forall f b tag lic r, WF f -> b < cf_bucket_num f -> tag < 2 ^ 16 ->
  (exists f' s, InsertTagToBucket f b tag lic r = Some (f', SuccessAndNoKick) /\ slot_written f f' b s 0 tag) \/
  (lic = false /\ full f b /\ InsertTagToBucket f b tag lic r = Some (f, FreshInsertFailure)) \/
  (lic = true /\ full f b /\ exists f' s k, InsertTagToBucket f b tag lic r = Some (f', SuccessButKick k) /\
     slot_written f f' b s k tag).
Proof.
  intros f b tag lic r W Hb Ht. unfold InsertTagToBucket. rewrite (wf_slots f W).
  destruct (insert_slot_loop_spec 4 f b tag 0 W Hb Ht) as [(E & F)|(f' & s0 & E & S)]; [lia|intros; lia| |].
  - change (N.to_nat 4) with 4%nat. rewrite E. destruct lic.
    + right. right. split; auto. split; auto.
      assert (M : r mod 4 < 4) by (apply N.mod_lt; discriminate).
      destruct (ReadTag_total f b (r mod 4) W Hb M) as (-> & _).
      destruct (WriteTag_total f b (r mod 4) tag W Hb M Ht) as (f' & -> & P).
      exists f', (r mod 4), (slot f b (r mod 4)). split; auto. unfold slot_written. tauto.
    + right. left. auto.
  - left. change (N.to_nat 4) with 4%nat. rewrite E. eauto.
Qed.

Lemma in_bucket_written : forall f f' b s old tag b' tg, slot_written f f' b s old tag ->
  b' < cf_bucket_num f -> in_bucket f b' tg -> in_bucket f' b' tg \/ (b' = b /\ tg = old).
Proof.
  intros f f' b s old tag b' tg (W' & _ & Hs & Ho & U) Hb' (s' & Hs' & E).
  destruct ((b' =? b) && (s' =? s)) eqn:Q.
  - right. assert (b' = b) by lia. assert (s' = s) by lia. subst. auto.
  - left. exists s'. split; auto. rewrite U, Q; auto.
Qed.

Lemma in_bucket_new : forall f f' b s old tag, slot_written f f' b s old tag ->
  b < cf_bucket_num f -> in_bucket f' b tag.
Proof.
  intros f f' b s old tag (W' & _ & Hs & Ho & U) Hb. exists s. split; auto.
  rewrite U, !N.eqb_refl by auto. auto.
Qed.

Lemma held_tab_written : forall f f' b s old tag tg c1, WF f -> slot_written f f' b s old tag ->
  c1 < cf_bucket_num f -> held_tab f tg c1 ->
  held_tab f' tg c1 \/ (tg = old /\ (b = c1 \/ b = ComputeAnotherBucketIndex f c1 tg)).
Proof.
  intros f f' b s old tag tg c1 W S Hc Hh. pose proof S as (_ & SH & _).
  unfold held_tab. rewrite (alt_shape _ _ c1 tg SH). destruct Hh as [Hh|Hh].
  - destruct (in_bucket_written _ _ _ _ _ _ _ _ S Hc Hh) as [?|(? & ?)]; auto.
  - destruct (in_bucket_written _ _ _ _ _ _ _ _ S (alt_lt f c1 tg W Hc) Hh) as [?|(? & ?)]; auto.
Qed.

Definition carried (f : cuckoo) (tg c1 b tag : N) : Prop :=
  held_tab f tg c1 \/ (tag = tg /\ (b = c1 \/ b = ComputeAnotherBucketIndex f c1 tg)).

Lemma insert_loop_total : forall fuel rnd f b tag (lic : bool) kick, WF f -> b < cf_bucket_num f -> 0 < tag < 2 ^ 16 ->
  (N.to_nat (cf_max_kick f - kick)%N + (if lic then 1 else 2) <= fuel)%nat ->
  exists f', insert_loop fuel rnd f b tag lic kick = Some f' /\ WF f' /\ same_shape f f'.
Proof.
  induction fuel; intros rnd f b tag lic kick W Hb Ht HF; [destruct lic; lia|].
  cbn [insert_loop]. destruct (N.ltb_spec kick (cf_max_kick f)) as [L|L].
  2:{ eexists. split; [reflexivity|]. split; [|repeat split]. destruct W; constructor; auto. }
  destruct (InsertTag_spec f b tag lic (rnd kick) W Hb) as
    [(f' & s & -> & S)|[(-> & Fu & ->)|(-> & Fu & f' & s & k & -> & S)]]; [lia| | |].
  - destruct S as (W' & SH & _). eexists. split; [reflexivity|]. split.
    + destruct W'; constructor; auto.
    + destruct SH as (A1 & A2 & A3 & A4 & A5). repeat split; auto.
  - destruct (IHfuel rnd f (ComputeAnotherBucketIndex f b tag) tag true kick) as (f' & E & P); auto using alt_lt.
    + lia.
    + eauto.
  - pose proof S as (W' & SH & Hs & Ho & U).
    pose proof SH as (A1 & A2 & A3 & A4 & A5).
    assert (K : 0 < k < 2 ^ 16).
    { destruct (ReadTag_total f b s W Hb Hs) as (_ & Q). pose proof (Fu s Hs). lia. }
    destruct (IHfuel rnd f' (ComputeAnotherBucketIndex f' b k) k true (kick + 1)) as (g & E & Wg & Sg); auto.
    + apply alt_lt; auto. rewrite <- A5. auto.
    + rewrite <- A1. lia.
    + exists g. split; auto. split; auto. eapply same_shape_trans; eauto.
Qed.

Lemma insert_loop_held : forall fuel rnd f b tag lic kick f' tg c1,
  WF f -> b < cf_bucket_num f -> 0 < tag < 2 ^ 16 -> 0 < tg < 2 ^ 16 -> c1 < cf_bucket_num f ->
  carried f tg c1 b tag -> insert_loop fuel rnd f b tag lic kick = Some f' -> held f' tg c1.
Proof.
  induction fuel; intros rnd f b tag lic kick f' tg c1 W Hb Ht Hg Hc C E; [discriminate|].
  cbn [insert_loop] in E. destruct (N.ltb_spec kick (cf_max_kick f)) as [L|L].
  2:{ inversion E; subst f'. clear E. destruct C as [C|(-> & C)].
      - left. exact C.
      - right. cbn [set_victim cf_vic_used cf_vic_tag cf_vic_idx]. split; [discriminate|]. split; auto. }
  destruct (InsertTag_spec f b tag lic (rnd kick) W Hb) as
    [(f1 & s & Q & S)|[(-> & Fu & Q)|(-> & Fu & f1 & s & k & Q & S)]]; [lia| | |]; rewrite Q in E.
  - inversion E; subst f'. clear E Q. left.
    assert (held_tab f1 tg c1); [|auto].
    destruct C as [C|(-> & C)].
    + destruct (held_tab_written _ _ _ _ _ _ _ _ W S Hc C) as [?|(? & _)]; auto. lia.
    + pose proof (in_bucket_new _ _ _ _ _ _ S Hb). pose proof S as (_ & SH & _).
      unfold held_tab. rewrite (alt_shape _ _ c1 tg SH). destruct C as [<-|<-]; auto.
  - refine (IHfuel _ _ _ _ _ _ _ _ _ W (alt_lt f b tag W Hb) Ht Hg Hc _ E).
    destruct C as [C|(-> & C)]; [left; auto|right; split; auto].
    destruct C as [-> | ->]; auto. left. apply alt_invol; auto.
  - pose proof S as (W1 & SH & Hs & Ho & U). pose proof SH as (A1 & A2 & A3 & A4 & A5).
    assert (K : 0 < k < 2 ^ 16).
    { destruct (ReadTag_total f b s W Hb Hs) as (_ & Q'). pose proof (Fu s Hs). lia. }
    assert (Hb1 : b < cf_bucket_num f1) by (rewrite <- A5; auto).
    assert (Hc1 : c1 < cf_bucket_num f1) by (rewrite <- A5; auto).
    refine (IHfuel _ _ _ _ _ _ _ _ _ W1 (alt_lt f1 b k W1 Hb1) K Hg Hc1 _ E).
    assert (C' : held_tab f1 tg c1 \/ (tg = k /\ (b = c1 \/ b = ComputeAnotherBucketIndex f c1 tg))).
    { destruct C as [C|(-> & C)].
      - eapply held_tab_written; eauto.
      - left. pose proof (in_bucket_new _ _ _ _ _ _ S Hb).
        unfold held_tab. rewrite (alt_shape _ _ c1 tg SH). destruct C as [<-|<-]; auto. }
    destruct C' as [C'|(<- & C')]; [left; auto|right; split; auto].
    rewrite !(alt_shape _ _ _ _ SH). destruct C' as [-> | ->]; auto. left. apply alt_invol; auto.
Qed.

(** ** Deletion *)
Lemma delete_loop_spec : forall n f b tag s, WF f -> b < cf_bucket_num f -> s + N.of_nat n = 4 ->
  (forall s', s' < s -> slot f b s' <> tag) ->
  (delete_loop f b tag s n = Some (f, None) /\ ~ in_bucket f b tag) \/
  (exists f' s0, delete_loop f b tag s n = Some (f', Some s0) /\ slot_written f f' b s0 tag 0 /\ same_victim f f').
Proof.
  induction n; intros f b tag s W Hb Hs Hf; cbn [delete_loop].
  - left. split; auto. intros (s' & Hs' & E). apply (Hf s'); auto. lia.
  - assert (Hs4 : s < 4) by lia.
    destruct (ReadTag_total f b s W Hb Hs4) as (-> & _).
    destruct (N.eqb_spec (slot f b s) tag) as [E|E].
    + right. destruct (WriteTag_total f b s 0 W Hb Hs4) as (f' & -> & P); [reflexivity|].
      exists f', s. split; auto. unfold slot_written. tauto.
    + apply IHn; auto; [lia|]. intros s' L. destruct (N.eq_dec s' s); [congruence|]. apply Hf. lia.
Qed.

Lemma WF_set_count : forall f c, WF f -> WF (set_count f c).
Proof. intros f c W. destruct W; constructor; auto. Qed.
Lemma WF_set_victim : forall f i t u, WF f -> WF (set_victim f i t u).
Proof. intros f i t u W. destruct W; constructor; auto. Qed.

Lemma delete_and_refill_spec : forall f b tag, WF f -> b < cf_bucket_num f -> 0 < tag < 2 ^ 16 ->
  exists f' d, delete_and_refill f b tag = Some (f', d) /\ WF f' /\ same_shape f f' /\
    (d = true <-> in_bucket f b tag) /\ (d = false -> f' = f) /\
    (forall tg c1, c1 < cf_bucket_num f -> 0 < tg ->
       (tg <> tag \/ (b <> c1 /\ b <> ComputeAnotherBucketIndex f c1 tg)) ->
       held f tg c1 -> held f' tg c1).
Proof.
  intros f b tag W Hb Ht. unfold delete_and_refill, DeleteTagFromBucket. rewrite (wf_slots f W).
  change (N.to_nat 4) with 4%nat.
  destruct (delete_loop_spec 4 f b tag 0 W Hb) as [(-> & Q)|(f1 & s & -> & S & (V1 & V2 & V3))]; [lia|intros; lia| |].
  - exists f, false. split; auto. split; auto. split; auto. split; [|split; auto].
    split; [discriminate|]. tauto.
  - pose proof S as (W1 & SH & Hs & Ho & U). pose proof SH as (A1 & A2 & A3 & A4 & A5).
    assert (IB : in_bucket f b tag) by (exists s; auto).
    unfold TrySaveVictim. set (f2 := set_count f1 (sub64 (cf_count f1) 1)).
    assert (W2 : WF f2) by (apply WF_set_count; auto).
    cbn [f2 set_count cf_vic_used cf_vic_idx cf_vic_tag].
    assert (Hold : forall tg c1, c1 < cf_bucket_num f ->
       (tg <> tag \/ (b <> c1 /\ b <> ComputeAnotherBucketIndex f c1 tg)) ->
       held_tab f tg c1 -> held_tab f1 tg c1).
    { intros tg c1 Hc N1 Hh. destruct (held_tab_written _ _ _ _ _ _ _ _ W S Hc Hh) as [?|(E1 & E2)]; auto.
      exfalso. destruct N1 as [N1|(N1 & N2)]; [congruence|]. destruct E2; congruence. }
    destruct (negb (cf_vic_used f1 =? 0) && (cf_vic_idx f1 =? b) && (cf_vic_tag f1 =? tag)) eqn:Vq.
    + assert (W3 : WF (set_victim f2 (cf_vic_idx f1) (cf_vic_tag f1) 0)) by (apply WF_set_victim; auto).
      assert (Hb3 : b < cf_bucket_num (set_victim f2 (cf_vic_idx f1) (cf_vic_tag f1) 0)).
      { change (b < cf_bucket_num f1). rewrite <- A5. auto. }
      destruct (WriteTag_total _ b s tag W3 Hb3 Hs) as (f3 & E3 & W4 & SH3 & VV & C3 & U3); [lia|].
      fold f2. rewrite E3. cbn [option_map].
      exists f3, true. split; auto. split; auto. split.
      { eapply same_shape_trans; [exact SH|]. exact SH3. }
      split; [tauto|]. split; [discriminate|].
      intros tg c1 Hc G N1 Hh. destruct Hh as [Hh|(U1 & U2 & U4)].
      * left. apply Hold in Hh; auto.
        assert (SW : slot_written f1 f3 b s 0 tag).
        { split; [auto|]. split; [exact SH3|]. split; [auto|]. split; [|exact U3].
          rewrite U, !N.eqb_refl by auto. auto. }
        assert (Hc1 : c1 < cf_bucket_num f1) by (rewrite <- A5; auto).
        destruct (held_tab_written _ _ _ _ _ _ _ _ W1 SW Hc1 Hh) as [?|(E1 & _)]; auto. lia.
      * exfalso. assert (cf_vic_idx f = b /\ cf_vic_tag f = tag) as (? & ?) by lia.
        destruct N1 as [N1|(N1 & N2)]; [congruence|]. destruct U4; congruence.
    + cbn [option_map]. exists f2, true. split; auto. split; auto. split; [exact SH|].
      split; [tauto|]. split; [discriminate|].
      intros tg c1 Hc G N1 Hh. destruct Hh as [Hh|(U1 & U2 & U4)].
      * left. apply Hold in Hh; auto.
      * right. cbn [f2 set_count cf_vic_used cf_vic_idx cf_vic_tag]. rewrite <- V1, <- V2, <- V3.
        split; auto. split; auto.
        change (ComputeAnotherBucketIndex f2 c1 tg) with (ComputeAnotherBucketIndex f1 c1 tg).
        rewrite (alt_shape _ _ _ _ SH). auto.
Qed.

Lemma PlainInsert_spec : forall H rnd f x, hash32 H -> WF f ->
  exists f' r, PlainInsert H rnd f x = Some (f', r) /\ WF f' /\ same_shape f f' /\
    (r = true -> held f' (fingerprint H x) (bucket1 H (cf_bucket_num f) x)) /\
    (forall tg c1, 0 < tg < 2 ^ 16 -> c1 < cf_bucket_num f -> held f tg c1 -> held f' tg c1).
Proof.
  intros H rnd f x H32 W. unfold PlainInsert.
  destruct (N.eqb_spec (cf_vic_used f) 0) as [E|E]; cbn [negb].
  2:{ exists f, false. split; auto. split; auto. split; auto. split; [discriminate|auto]. }
  rewrite (ComputeTag_eq H H32 f x W), (bucket1_eq H f x W).
  pose proof (bucket1_lt H f x W) as B1. pose proof (fingerprint_range H H32 x) as FR.
  destruct (insert_loop_total (N.to_nat (cf_max_kick f) + 2) rnd f _ _ false 0 W B1 FR) as (f' & EQ & W' & S).
  { rewrite N.sub_0_r. lia. }
  rewrite EQ. cbn [option_map]. exists f', true. split; auto. split; auto. split; auto. split.
  - intros _. refine (insert_loop_held _ _ _ _ _ _ _ _ _ _ W B1 FR FR B1 _ EQ). right. auto.
  - intros tg c1 Ht Hc Hh. refine (insert_loop_held _ _ _ _ _ _ _ _ tg c1 W B1 FR Ht Hc _ EQ).
    destruct Hh as [Hh|(U & _)]; [left; auto|congruence].
Qed.

Definition pair_neq (f : cuckoo) (tg c1 tag b : N) : Prop :=
  tg <> tag \/ (b <> c1 /\ b <> ComputeAnotherBucketIndex f c1 tg).

Lemma PlainDelete_spec : forall H f x, hash32 H -> WF f ->
  exists f' r, PlainDelete H f x = Some (f', r) /\ WF f' /\ same_shape f f' /\
    (r = true <-> held f (fingerprint H x) (bucket1 H (cf_bucket_num f) x)) /\
    (forall tg c1, 0 < tg < 2 ^ 16 -> c1 < cf_bucket_num f ->
       pair_neq f tg c1 (fingerprint H x) (bucket1 H (cf_bucket_num f) x) ->
       held f tg c1 -> held f' tg c1).
Proof.
  intros H f x H32 W. unfold PlainDelete.
  rewrite (ComputeTag_eq H H32 f x W), (bucket1_eq H f x W).
  pose proof (bucket1_lt H f x W) as B1. pose proof (fingerprint_range H H32 x) as FR.
  set (b1 := bucket1 H (cf_bucket_num f) x) in *. set (tag := fingerprint H x) in *.
  assert (PN : forall tg c1, c1 < cf_bucket_num f -> pair_neq f tg c1 tag b1 ->
     pair_neq f tg c1 tag (ComputeAnotherBucketIndex f b1 tag)).
  { intros tg c1 Hc [Q|(Q1 & Q2)]; [left; auto|].
    destruct (N.eq_dec tg tag) as [->|]; [|left; auto]. right. split.
    - intros E. apply Q2. rewrite <- E. symmetry. apply alt_invol; auto.
    - intros E. apply Q1. rewrite <- (alt_invol f b1 tag), <- (alt_invol f c1 tag) by auto. congruence. }
  destruct (delete_and_refill_spec f b1 tag W B1 FR) as (f1 & d1 & -> & W1 & S1 & D1 & F1 & P1).
  pose proof (alt_lt f b1 tag W B1) as B2.
  set (b2 := ComputeAnotherBucketIndex f b1 tag) in *.
  assert (BN : cf_bucket_num f1 = cf_bucket_num f) by (symmetry; apply S1).
  assert (B2' : b2 < cf_bucket_num f1) by (rewrite BN; auto).
  destruct (delete_and_refill_spec f1 b2 tag W1 B2' FR) as (f2 & d2 & -> & W2 & S2 & D2 & F2 & P2).
  assert (S12 : same_shape f f2) by (eapply same_shape_trans; eauto).
  assert (HP : forall tg c1, 0 < tg < 2 ^ 16 -> c1 < cf_bucket_num f -> pair_neq f tg c1 tag b1 ->
     held f tg c1 -> held f2 tg c1).
  { intros tg c1 Ht Hc Hq Hh. apply P2; [rewrite BN; auto|lia| |].
    - rewrite (alt_shape _ _ _ _ S1). apply PN; auto.
    - apply P1; auto. lia. }
  assert (HD : d1 = false -> d2 = false -> f2 = f).
  { intros q1 q2. rewrite F2 by auto. apply F1. auto. }
  assert (D12 : d1 || d2 = true -> held f tag b1).
  { intros Q. left. apply orb_true_iff in Q.
    destruct d1; [left; apply D1; auto|]. destruct Q as [Q|Q]; [discriminate|].
    right. fold b2. rewrite <- (F1 eq_refl). apply D2. auto. }
  destruct (negb (cf_vic_used f2 =? 0) && (tag =? cf_vic_tag f2) &&
     ((b1 =? cf_vic_idx f2) || (b2 =? cf_vic_idx f2))) eqn:V.
  - eexists _, true. split; [reflexivity|]. split; [apply WF_set_victim; auto|]. split; [exact S12|]. split.
    + split; auto. intros _. destruct (d1 || d2) eqn:Q; [apply D12; auto|].
      apply orb_false_iff in Q. rewrite HD in V by tauto. right. fold b2. lia.
    + intros tg c1 Ht Hc Hq Hh. destruct (HP tg c1 Ht Hc Hq Hh) as [Q|(Q1 & Q2 & Q3)]; [left; exact Q|].
      exfalso. rewrite (alt_shape _ _ _ _ S12) in Q3.
      pose proof (PN tg c1 Hc Hq) as Hq'. fold b2 in Hq'. unfold pair_neq in Hq, Hq'.
      set (a := ComputeAnotherBucketIndex f c1 tg) in *. lia.
  - exists f2, (d1 || d2). split; auto. split; auto. split; auto. split; [|auto].
    split; [auto|]. intros [[Q|Q]|(Q1 & Q2 & Q3)].
    + apply D1 in Q. rewrite Q. auto.
    + fold b2 in Q. destruct d1; auto. rewrite <- (F1 eq_refl) in Q. apply D2 in Q. rewrite Q. auto.
    + fold b2 in Q3. destruct (d1 || d2) eqn:Q; auto. apply orb_false_iff in Q.
      rewrite HD in V by tauto. lia.
Qed.

(** ** Fresh filters *)
Lemma nth_repeat_0 : forall n i, nth i (repeat 0 n) 0 = 0.
Proof. induction n; intros [|i]; simpl; auto. Qed.

Definition capacity_pow2 p d : capacity_ok p -> exists k, k <= 32 /\
  (let bn := upperpower2 (N.max 1 (wrap32 (p / 4))) in if (d : bool) then bn * 2 else bn) = 2 ^ k.
Proof.
  intros C. unfold capacity_ok in C.
  assert (E : wrap32 (p / 4) = p / 4) by (apply wrap_small; lia). rewrite E.
  destruct (upperpower2_spec (N.max 1 (p / 4))) as (k & -> & L & M); [lia|].
  assert (K : k <= 31) by (apply M; lia).
  destruct d; [exists (N.succ k)|exists k]; (split; [lia|]); auto.
  cbn zeta. rewrite N.pow_succ_r'. apply N.mul_comm.
Qed.

Lemma WF_new : forall p d vi vt, capacity_ok p -> WF (cuckoo_new p d vi vt).
Proof.
  intros p d vi vt C. destruct (capacity_pow2 p d C) as (k & Hk & E). cbn zeta in E.
  unfold cuckoo_new. rewrite E.
  constructor; cbn [cf_tag_bits cf_slot_num cf_bucket_bytes cf_max_kick cf_bucket_num cf_table]; auto.
  - reflexivity.
  - eauto.
  - rewrite repeat_length. rewrite N2Nat.id.
    replace (2 ^ k * 4 * 16) with (2 ^ k * 8 * 8) by lia. rewrite N.div_mul by discriminate. auto.
  - apply Forall_forall. intros b Hb. apply repeat_spec in Hb. subst. reflexivity.
Qed.

Lemma slot_new : forall p d vi vt b s, slot (cuckoo_new p d vi vt) b s = 0.
Proof.
  intros. unfold slot, ReadTag, cuckoo_new. cbn [cf_tag_bits cf_table cf_bucket_bytes].
  change (16 =? 16) with true. cbn iota. unfold read_bytes.
  match goal with |- context [if ?c then _ else _] => destruct c; [|reflexivity] end.
  cbn [option_map]. match goal with |- le_val ?l = 0 => assert (Z : Forall (fun z => z = 0) l) end.
  { apply Forall_forall. intros z Hz.
    match type of Hz with In _ (firstn ?n (skipn ?m ?l)) =>
      assert (In z l) end.
    { apply (In_nth _ _ 0) in Hz. destruct Hz as (i & Hi & <-). rewrite firstn_length, skipn_length in Hi.
      rewrite nth_firstn_lt, nth_skipn by lia. apply nth_In. lia. }
    eapply repeat_spec; eauto. }
  induction Z; auto. subst. cbn [le_val]. rewrite IHZ. reflexivity.
Qed.

(** ** Histories *)
Lemma crun_total : forall H ops f, hash32 H -> WF f ->
  exists f' rs, crun H f ops = Some (f', rs) /\ WF f' /\ same_shape f f' /\ length rs = length ops.
Proof.
  intros H ops. induction ops as [|o ops IH]; intros f H32 W; cbn [crun].
  - exists f, []. split; auto.
  - assert (exists f1 r, (match o with CInsert x rnd => PlainInsert H rnd f x | CDelete x => PlainDelete H f x end)
        = Some (f1, r) /\ WF f1 /\ same_shape f f1) as (f1 & r & -> & W1 & S1).
    { destruct o as [x rnd|x].
      - destruct (PlainInsert_spec H rnd f x H32 W) as (f1 & r & E & W1 & S1 & _). eauto.
      - destruct (PlainDelete_spec H f x H32 W) as (f1 & r & E & W1 & S1 & _). eauto. }
    destruct (IH f1 H32 W1) as (f' & rs & -> & W' & S' & L). cbn [option_map fst snd].
    exists f', (r :: rs). split; auto. split; auto. split; [eapply same_shape_trans; eauto|cbn; auto].
Qed.

Lemma collide_pair : forall H f x y, WF f -> ~ collide H (cf_bucket_num f) x y ->
  pair_neq f (fingerprint H x) (bucket1 H (cf_bucket_num f) x) (fingerprint H y) (bucket1 H (cf_bucket_num f) y).
Proof.
  intros H f x y W NC. unfold pair_neq, collide in *. rewrite bucket2_eq by auto.
  destruct (N.eq_dec (fingerprint H x) (fingerprint H y)); [right|left; auto].
  split; intros E; apply NC; auto.
Qed.

Lemma crun_keeps : forall H ops f f' rs x, hash32 H -> WF f -> crun H f ops = Some (f', rs) ->
  (forall y, In (CDelete y) ops -> ~ collide H (cf_bucket_num f) x y) ->
  held f (fingerprint H x) (bucket1 H (cf_bucket_num f) x) ->
  held f' (fingerprint H x) (bucket1 H (cf_bucket_num f) x).
Proof.
  intros H ops. induction ops as [|o ops IH]; intros f f' rs x H32 W E NC Hh; cbn [crun] in E.
  - inversion E; subst; auto.
  - pose proof (fingerprint_range H H32 x) as FR. pose proof (bucket1_lt H f x W) as B1.
    assert (exists f1 r, (match o with CInsert x rnd => PlainInsert H rnd f x | CDelete x => PlainDelete H f x end)
        = Some (f1, r) /\ WF f1 /\ same_shape f f1 /\ held f1 (fingerprint H x) (bucket1 H (cf_bucket_num f) x))
      as (f1 & r & Q & W1 & S1 & H1).
    { destruct o as [y rnd|y].
      - destruct (PlainInsert_spec H rnd f y H32 W) as (f1 & r & E1 & W1 & S1 & _ & K). eauto 10.
      - destruct (PlainDelete_spec H f y H32 W) as (f1 & r & E1 & W1 & S1 & _ & K).
        exists f1, r. split; auto. split; auto. split; auto. apply K; auto.
        apply collide_pair; auto. apply NC. left. auto. }
    rewrite Q in E. destruct (crun H f1 ops) as [[g rs']|] eqn:R; [|discriminate].
    cbn [option_map fst snd] in E. inversion E; subst.
    assert (BN : cf_bucket_num f1 = cf_bucket_num f) by (symmetry; apply S1).
    rewrite <- BN in *. eapply IH; eauto. intros y Hy. apply NC. right. auto.
Qed.

Lemma crun_app : forall H o1 o2 f f' rs, crun H f (o1 ++ o2) = Some (f', rs) ->
  exists g r1 r2, crun H f o1 = Some (g, r1) /\ crun H g o2 = Some (f', r2) /\ rs = r1 ++ r2.
Proof.
  intros H o1. induction o1 as [|o o1 IH]; intros o2 f f' rs E.
  - exists f, [], rs. auto.
  - cbn [app crun] in *. destruct (match o with CInsert x rnd => _ | CDelete x => _ end) as [[f1 b]|]; [|discriminate].
    destruct (crun H f1 (o1 ++ o2)) as [[g' rs']|] eqn:R; [|discriminate].
    cbn [option_map fst snd] in E. inversion E; subst.
    destruct (IH _ _ _ _ R) as (g & r1 & r2 & E1 & E2 & ->).
    exists g, (b :: r1), r2. rewrite E1. auto.
Qed.

(** an element whose insertion at position i succeeded is reported as long as no
    later deletion concerns a colliding element *)
Lemma history_contain : forall H p d vi vt ops1 x rnd ops2 f rs,
  hash32 H -> capacity_ok p ->
  crun H (cuckoo_new p d vi vt) (ops1 ++ CInsert x rnd :: ops2) = Some (f, rs) ->
  nth (length ops1) rs false = true ->
  (forall y, In (CDelete y) ops2 -> ~ collide H (cf_bucket_num f) x y) ->
  PlainContain H f x = Some true.
Proof.
  intros H p d vi vt ops1 x rnd ops2 f rs H32 C E R NC.
  pose proof (WF_new p d vi vt C) as W.
  destruct (crun_total H (ops1 ++ CInsert x rnd :: ops2) _ H32 W) as (f'' & rs'' & E'' & Wf & Sf & _).
  rewrite E in E''. inversion E''; subst f'' rs''. clear E''.
  destruct (crun_app _ _ _ _ _ _ E) as (g & r1 & r2 & E1 & E2 & ->).
  destruct (crun_total H ops1 _ H32 W) as (g' & r1' & E1' & Wg & Sg & L).
  rewrite E1 in E1'. inversion E1'; subst g' r1'. clear E1'.
  rewrite app_nth2 in R by lia. rewrite L, PeanoNat.Nat.sub_diag in R.
  cbn [crun] in E2. destruct (PlainInsert_spec H rnd g x H32 Wg) as (g1 & r & Q & W1 & S1 & HI & _).
  rewrite Q in E2. destruct (crun H g1 ops2) as [[g2 rs2]|] eqn:R2; [|discriminate].
  cbn [option_map fst snd] in E2. inversion E2; subst. cbn in R. subst r.
  assert (BN : cf_bucket_num g1 = cf_bucket_num g) by (symmetry; apply S1).
  assert (BF : cf_bucket_num f = cf_bucket_num g).
  { destruct Sf as (_ & _ & _ & _ & A). destruct Sg as (_ & _ & _ & _ & B). congruence. }
  destruct (contain_spec H f x H32 Wf) as (r & -> & K). f_equal. apply K.
  rewrite BF in *. rewrite <- BN in *.
  eapply crun_keeps; eauto.
Qed.

(** ** Universal loss on deletion *)
Definition only (f : cuckoo) (l : list (N * N)) : Prop :=
  forall b s, b < cf_bucket_num f -> s < 4 -> slot f b s <> 0 -> In (b, s) l.

Lemma insert_unfull : forall H rnd f x, hash32 H -> WF f -> cf_vic_used f = 0 -> 0 < cf_max_kick f ->
  ~ full f (bucket1 H (cf_bucket_num f) x) ->
  exists f' s, PlainInsert H rnd f x = Some (f', true) /\ cf_vic_used f' = 0 /\
    slot_written f f' (bucket1 H (cf_bucket_num f) x) s 0 (fingerprint H x).
Proof.
  intros H rnd f x H32 W V K NF. unfold PlainInsert. rewrite V. change (0 =? 0) with true. cbn [negb].
  rewrite (ComputeTag_eq H H32 f x W), (bucket1_eq H f x W).
  pose proof (bucket1_lt H f x W) as B1. pose proof (fingerprint_range H H32 x) as FR.
  set (b := bucket1 H (cf_bucket_num f) x) in *.
  replace (N.to_nat (cf_max_kick f) + 2)%nat with (S (N.to_nat (cf_max_kick f) + 1)) by lia.
  cbn [insert_loop]. replace (0 <? cf_max_kick f) with true by lia.
  unfold InsertTagToBucket. rewrite (wf_slots f W). change (N.to_nat 4) with 4%nat.
  destruct (insert_slot_loop_spec 4 f b (fingerprint H x) 0 W B1) as [(E & F)|(f' & s0 & E & S)];
    [lia|lia|intros; lia|tauto|].
  rewrite E. cbn [option_map]. eexists _, s0. split; [reflexivity|].
  assert (cf_vic_used f' = 0).
  { clear S. revert E. generalize 0 at 1. generalize 4%nat. induction n; intros s E; cbn [insert_slot_loop] in E; [discriminate|].
    destruct (ReadTag f b s); [|discriminate]. destruct (n0 =? 0).
    - unfold WriteTag in E. destruct (cf_tag_bits f =? 16); [|discriminate].
      destruct (write_bytes _ _ _); [|discriminate]. cbn in E. inversion E. exact V.
    - eauto. }
  split; [exact H0|]. destruct S as (W' & SH & S'). split; [apply WF_set_count; auto|]. split; [exact SH|exact S'].
Qed.

Lemma delete_plain : forall f b tag, WF f -> b < cf_bucket_num f -> cf_vic_used f = 0 -> in_bucket f b tag ->
  exists f' s, delete_and_refill f b tag = Some (f', true) /\ cf_vic_used f' = 0 /\
    slot_written f f' b s tag 0.
Proof.
  intros f b tag W Hb V IB. unfold delete_and_refill, DeleteTagFromBucket. rewrite (wf_slots f W).
  change (N.to_nat 4) with 4%nat.
  destruct (delete_loop_spec 4 f b tag 0 W Hb) as [(-> & Q)|(f1 & s & -> & S & (V1 & V2 & V3))]; [lia|intros; lia|tauto|].
  unfold TrySaveVictim. cbn [set_count cf_vic_used]. rewrite <- V3, V. change (0 =? 0) with true.
  cbn [negb andb option_map]. eexists _, s. split; [reflexivity|]. split; [cbn; congruence|].
  destruct S as (W' & SH & S'). split; [apply WF_set_count; auto|]. split; [exact SH|exact S'].
Qed.

Lemma only_cleared : forall f f' b s tag l, slot_written f f' b s tag 0 -> only f l ->
  only f' l /\ ~ (slot f' b s <> 0 /\ b < cf_bucket_num f).
Proof.
  intros f f' b s tag l (W' & SH & Hs & Ho & U) O.
  assert (BN : cf_bucket_num f' = cf_bucket_num f) by (symmetry; apply SH).
  split.
  - intros b' s' Hb' Hs' Nz. rewrite BN in Hb'. rewrite U in Nz by auto.
    destruct ((b' =? b) && (s' =? s)); [congruence|]. apply O; auto.
  - intros (Q & Hb). apply Q. rewrite U, !N.eqb_refl by auto. reflexivity.
Qed.

Lemma delete_loses : forall H p d vi vt x y rnd1 rnd2, hash32 H -> capacity_ok p ->
  let bn := cf_bucket_num (cuckoo_new p d vi vt) in
  fingerprint H x = fingerprint H y -> bucket1 H bn y = bucket2 H bn x ->
  exists f, crun H (cuckoo_new p d vi vt) [CInsert x rnd1; CInsert y rnd2; CDelete y] = Some (f, [true; true; true]) /\
    PlainContain H f x = Some false.
Proof.
  intros H p d vi vt x y rnd1 rnd2 H32 C bn FP B.
  pose proof (WF_new p d vi vt C) as W0.
  assert (BN0 : cf_bucket_num (cuckoo_new p d vi vt) = bn) by reflexivity. clearbody bn.
  set (f0 := cuckoo_new p d vi vt) in *.
  assert (Z0 : forall b s, slot f0 b s = 0) by (intros; apply slot_new).
  pose proof (fingerprint_range H H32 x) as FR.
  pose proof (bucket1_lt H f0 x W0) as Bx. pose proof (bucket1_lt H f0 y W0) as By.
  destruct (insert_unfull H rnd1 f0 x H32 W0) as (f1 & s1 & E1 & V1 & S1); [reflexivity|reflexivity| |].
  { intros F. apply (F 0); [lia|auto]. }
  pose proof S1 as (W1 & SH1 & Hs1 & _ & U1).
  assert (BN1 : cf_bucket_num f1 = bn) by (rewrite <- BN0; symmetry; apply SH1).
  rewrite BN0 in Bx, By, S1, U1.
  set (b1 := bucket1 H bn x) in *. set (b2 := bucket1 H bn y) in *. set (tag := fingerprint H x) in *.
  assert (A2 : ComputeAnotherBucketIndex f0 b1 tag = b2) by (unfold b1, tag; rewrite <- BN0, bucket2_eq, BN0 by auto; auto).
  destruct (insert_unfull H rnd2 f1 y H32 W1) as (f2 & s2 & E2 & V2 & S2).
  { auto. } { destruct SH1 as (A & _). rewrite <- A. reflexivity. }
  { rewrite BN1. fold b2. intros F.
    assert (exists s, s < 4 /\ (b2 =? b1) && (s =? s1) = false) as (s & Hs & Q).
    { destruct (N.eq_dec s1 0); [exists 1|exists 0]; lia. }
    apply (F s); auto. rewrite U1, Q by auto. auto. }
  rewrite BN1 in S2. fold b2 in S2. rewrite <- FP in S2. fold tag in S2.
  pose proof S2 as (W2 & SH2 & Hs2 & Ho2 & U2).
  assert (BN2 : cf_bucket_num f2 = bn) by (rewrite <- BN1; symmetry; apply SH2).
  rewrite BN1 in U2.
  assert (NE : (b1, s1) <> (b2, s2)).
  { intros Q. inversion Q as [[Q1 Q2]]. rewrite <- Q1, <- Q2 in Ho2. rewrite U1, !N.eqb_refl in Ho2 by auto. cbn in Ho2. lia. }
  assert (O2 : forall b s, b < bn -> s < 4 -> slot f2 b s <> 0 -> (b, s) = (b1, s1) \/ (b, s) = (b2, s2)).
  { intros b s Hb Hs Nz. rewrite U2 in Nz by auto.
    destruct ((b =? b2) && (s =? s2)) eqn:Q; [right; f_equal; lia|].
    rewrite U1 in Nz by auto. destruct ((b =? b1) && (s =? s1)) eqn:Q'; [left; f_equal; lia|]. rewrite Z0 in Nz. congruence. }
  assert (T1 : slot f2 b1 s1 = tag).
  { rewrite U2 by auto. destruct ((b1 =? b2) && (s1 =? s2)); auto.
    rewrite U1, !N.eqb_refl by auto. auto. }
  assert (T2 : slot f2 b2 s2 = tag) by (rewrite U2, !N.eqb_refl by auto; auto).
  assert (IB2 : in_bucket f2 b2 tag) by (exists s2; auto).
  assert (SH02 : same_shape f0 f2) by (eapply same_shape_trans; eauto).
  destruct (delete_plain f2 b2 tag W2) as (f3 & s3 & E3 & V3 & S3); [rewrite BN2; auto|auto|auto|].
  pose proof S3 as (W3 & SH3 & Hs3 & Ho3 & U3). rewrite BN2 in U3.
  assert (BN3 : cf_bucket_num f3 = bn) by (rewrite <- BN2; symmetry; apply SH3).
  assert (IB3 : in_bucket f3 b1 tag).
  { destruct (N.eq_dec b1 b2) as [Eb|Nb].
    - assert (s1 <> s2) by congruence.
      exists (if s3 =? s1 then s2 else s1). destruct (N.eqb_spec s3 s1); split; auto; rewrite U3 by auto.
      + replace ((b1 =? b2) && (s2 =? s3)) with false by lia. rewrite Eb. auto.
      + replace ((b1 =? b2) && (s1 =? s3)) with false by lia. auto.
    - exists s1. split; auto. rewrite U3 by auto. replace ((b1 =? b2) && (s1 =? s3)) with false by lia. auto. }
  destruct (delete_plain f3 b1 tag W3) as (f4 & s4 & E4 & V4 & S4); [rewrite BN3; auto|auto|auto|].
  pose proof S4 as (W4 & SH4 & Hs4 & Ho4 & U4). rewrite BN3 in U4.
  assert (BN4 : cf_bucket_num f4 = bn) by (rewrite <- BN3; symmetry; apply SH4).
  assert (Z4 : forall b s, b < bn -> s < 4 -> slot f4 b s = 0).
  { intros b s Hb Hs. destruct (N.eq_dec (slot f4 b s) 0) as [|Nz]; auto. exfalso.
    rewrite U4 in Nz by auto. destruct ((b =? b1) && (s =? s4)) eqn:Q4; [congruence|].
    assert (Nz3 := Nz). rewrite U3 in Nz by auto. destruct ((b =? b2) && (s =? s3)) eqn:Q3; [congruence|].
    assert (K3 : (b2, s3) = (b1, s1) \/ (b2, s3) = (b2, s2)) by (apply O2; auto; lia).
    assert (K4' : slot f3 b1 s4 <> 0) by lia. rewrite U3 in K4' by auto.
    destruct ((b1 =? b2) && (s4 =? s3)) eqn:Q5; [congruence|].
    assert (K4 : (b1, s4) = (b1, s1) \/ (b1, s4) = (b2, s2)) by (apply O2; auto; lia).
    destruct (O2 b s Hb Hs Nz) as [K|K]; inversion K; subst b s; clear K.
    - destruct K4 as [K4|K4]; inversion K4; subst; [lia|].
      destruct K3 as [K3|K3]; inversion K3; subst; [lia|]. lia.
    - destruct K3 as [K3|K3]; [|inversion K3; lia]. inversion K3 as [[Q6 Q7]].
      destruct K4 as [K4|K4]; inversion K4; subst; lia. }
  exists f4. split.
  - cbn [crun]. rewrite E1, E2. cbn [option_map fst snd].
    unfold PlainDelete. rewrite (ComputeTag_eq H H32 f2 y W2), (bucket1_eq H f2 y W2), BN2. fold b2.
    rewrite <- FP. fold tag. rewrite E3.
    rewrite (alt_shape _ _ b2 tag SH02). rewrite <- A2 at 1. rewrite alt_invol by (auto; rewrite BN0; auto). rewrite E4.
    rewrite V4. reflexivity.
  - destruct (contain_spec H f4 x H32 W4) as ([|] & -> & K); auto. exfalso.
    destruct K as (K & _). specialize (K eq_refl). rewrite BN4 in K. fold b1 tag in K.
    destruct K as [[(s & Hs & K)|(s & Hs & K)]|(K & _)]; [| |congruence].
    + rewrite Z4 in K by auto. lia.
    + rewrite Z4 in K; [lia| |auto]. rewrite <- BN4. apply alt_lt; auto. rewrite BN4; auto.
Qed.

(** ** Serialisation *)
Record ranges (f : cuckoo) : Prop := mkRanges {
  rg_count : cf_count f < 2 ^ 64;
  rg_vi : cf_vic_idx f < 2 ^ 32;
  rg_vt : cf_vic_tag f < 2 ^ 32;
  rg_vu : cf_vic_used f < 2 ^ 32 }.

Lemma get_written : forall n v b off b' , v < 256 ^ N.of_nat n -> write_bytes b off (le_bytes n v) = Some b' ->
  option_map le_val (read_bytes b' off (N.of_nat n)) = Some v.
Proof.
  intros n v b off b' Hv E. pose proof (read_write_same _ _ _ _ E) as R.
  rewrite le_bytes_length in R. rewrite R. cbn [option_map]. f_equal. apply le_val_bytes. auto.
Qed.

Lemma write_some : forall b off bs, off + N.of_nat (length bs) <= N.of_nat (length b) ->
  exists b', write_bytes b off bs = Some b'.
Proof. intros. rewrite write_bytes_some by auto. eauto. Qed.

Ltac wstep b' E := match goal with |- context [opt_bind (write_bytes ?b ?o ?v) _] =>
   destruct (write_some b o v) as (b' & E); [rewrite ?le_bytes_length; lia|];
   rewrite E; cbn [opt_bind] end.

Lemma buffer_round_trip : forall f buf, WF f -> ranges f -> 2 <= cf_bucket_num f ->
  ObjectSize f <= N.of_nat (length buf) ->
  exists buf', WriteObject f buf = Some buf' /\ length buf' = length buf /\
    ReadObject buf' = option_map (fun g => set_victim f (cf_vic_idx f) (cf_vic_tag f) g)
                        (option_map le_val (read_bytes buf 56 4)).
Proof.
  intros f buf W R B L. unfold ObjectSize in L. pose proof (wf_len f W) as LT.
  unfold WriteObject.
  wstep m1 E1. pose proof (write_bytes_length _ _ _ _ E1) as L1.
  wstep m2 E2. pose proof (write_bytes_length _ _ _ _ E2) as L2.
  wstep m3 E3. pose proof (write_bytes_length _ _ _ _ E3) as L3.
  wstep m4 E4. pose proof (write_bytes_length _ _ _ _ E4) as L4.
  wstep m5 E5. pose proof (write_bytes_length _ _ _ _ E5) as L5.
  wstep m6 E6. pose proof (write_bytes_length _ _ _ _ E6) as L6.
  wstep m7 E7. pose proof (write_bytes_length _ _ _ _ E7) as L7.
  wstep m8 E8. pose proof (write_bytes_length _ _ _ _ E8) as L8.
  wstep m9 E9. pose proof (write_bytes_length _ _ _ _ E9) as L9.
  destruct (write_some m9 60 (cf_table f)) as (m & E10); [lia|].
  pose proof (write_bytes_length _ _ _ _ E10) as L10. rewrite E10.
  exists m. split; auto. split; [congruence|].
  destruct R as [R1 R2 R3 R4]. destruct (wf_bn f W) as (k & Hk & BN).
  assert (B32 : 2 ^ k <= 2 ^ 32) by (apply N.pow_le_mono_r; [discriminate|lia]).
  unfold ReadObject.
  Ltac skip := match goal with
    E : write_bytes ?a ?o ?v = Some ?m |- context [read_bytes ?m ?o' ?l] =>
      rewrite (read_write_other a o v m o' l E) by (rewrite ?le_bytes_length; lia) end.
  assert (G1 : option_map le_val (read_bytes m 0 8) = Some (cf_count f)).
  { do 9 skip. eapply (get_written 8); eauto. }
  assert (G2 : option_map le_val (read_bytes m 8 8) = Some (cf_max_kick f)).
  { do 8 skip. eapply (get_written 8); eauto. exact (wf_kick f W). }
  assert (G3 : option_map le_val (read_bytes m 16 8) = Some (cf_slot_num f)).
  { do 7 skip. eapply (get_written 8); eauto. rewrite (wf_slots f W). reflexivity. }
  assert (G4 : option_map le_val (read_bytes m 24 8) = Some (cf_tag_bits f)).
  { do 6 skip. eapply (get_written 8); eauto. rewrite (wf_bits f W). reflexivity. }
  assert (G5 : option_map le_val (read_bytes m 32 8) = Some (cf_bucket_bytes f)).
  { do 5 skip. eapply (get_written 8); eauto. rewrite (wf_bb f W). reflexivity. }
  assert (G6 : option_map le_val (read_bytes m 40 8) = Some (cf_bucket_num f)).
  { do 4 skip. eapply (get_written 8); eauto. change (256 ^ N.of_nat 8) with (2 ^ 64). lia. }
  assert (G7 : option_map le_val (read_bytes m 48 4) = Some (cf_vic_idx f)).
  { do 3 skip. eapply (get_written 4); eauto. }
  assert (G8 : option_map le_val (read_bytes m 52 4) = Some (cf_vic_tag f)).
  { do 2 skip. eapply (get_written 4); eauto. }
  assert (G9 : read_bytes m 56 4 = read_bytes buf 56 4).
  { do 10 skip. auto. }
  rewrite G1, G2, G3, G4, G5, G6, G7, G8, G9. cbn [opt_bind].
  destruct (read_bytes buf 56 4) as [bs|]; cbn [option_map opt_bind]; auto.
  assert (Wr : wrap64 (cf_bucket_bytes f * cf_bucket_num f) = N.of_nat (length (cf_table f))).
  { rewrite (wf_bb f W). unfold wrap64. rewrite wrap_small; lia. }
  rewrite Wr, (read_write_same _ _ _ _ E10). cbn [opt_bind]. reflexivity.
Qed.

Lemma buffer_overflow_1 : forall f buf, WF f -> cf_bucket_num f = 1 ->
  N.of_nat (length buf) = ObjectSize f -> WriteObject f buf = None.
Proof.
  intros f buf W B L. unfold ObjectSize in L. pose proof (wf_len f W) as LT. unfold WriteObject.
  wstep m1 E1. pose proof (write_bytes_length _ _ _ _ E1) as L1.
  wstep m2 E2. pose proof (write_bytes_length _ _ _ _ E2) as L2.
  wstep m3 E3. pose proof (write_bytes_length _ _ _ _ E3) as L3.
  wstep m4 E4. pose proof (write_bytes_length _ _ _ _ E4) as L4.
  wstep m5 E5. pose proof (write_bytes_length _ _ _ _ E5) as L5.
  wstep m6 E6. pose proof (write_bytes_length _ _ _ _ E6) as L6.
  wstep m7 E7. pose proof (write_bytes_length _ _ _ _ E7) as L7.
  wstep m8 E8. pose proof (write_bytes_length _ _ _ _ E8) as L8.
  unfold write_bytes at 1. rewrite le_bytes_length.
  destruct (N.leb_spec (66 + N.of_nat 4) (N.of_nat (length m8))); [lia|reflexivity].
Qed.

(** the file variant never restores the table *)
Lemma take_word_prefix : forall l, exists r, l = take_word l ++ r /\
  match r with [] => True | b :: _ => is_space b = true end.
Proof.
  induction l as [|b l (r & E & K)]; [exists []; auto|]. cbn [take_word].
  destruct (is_space b) eqn:Q; [exists (b :: l); auto|]. exists r. rewrite E at 1. auto.
Qed.

Lemma file_never : forall f, WF f -> ranges f ->
  forall g, ReadFile (WriteFile f) = Some g -> cf_table g <> cf_table f.
Proof.
  intros f W R g E Q. unfold ReadFile in E. pose proof (wf_len f W) as LT.
  destruct (wf_bn f W) as (k & Hk & BN).
  assert (B1 : 1 <= 2 ^ k) by (pose proof (N.pow_nonzero 2 k); lia).
  assert (S60 : skipn 60 (WriteFile f) = cf_table f).
  { unfold WriteFile. rewrite !app_assoc. apply skipn_app_exact'. rewrite !app_length, !le_bytes_length. reflexivity. }
  repeat match type of E with opt_bind ?o _ = Some _ => destruct o eqn:?; [cbn [opt_bind] in E|discriminate E] end.
  inversion E; subst g. clear E. cbn [cf_table] in Q. rewrite Q in *. clear Q.
  match goal with X : write_bytes ?a ?b ?c = Some (cf_table f) |- _ => rename X into WB end.
  rewrite S60 in WB. pose proof (write_bytes_length _ _ _ _ WB) as LW.
  rewrite repeat_length in LW.
  destruct (take_word_prefix (skip_ws (cf_table f))) as (r & ER & KR).
  unfold write_bytes in WB.
  match type of WB with (if ?c then _ else _) = _ => destruct c eqn:BB; [|discriminate] end.
  rewrite repeat_length in BB. change (N.to_nat 0) with 0%nat in WB. cbn [firstn app] in WB.
  inversion WB as [WB']. clear WB.
  set (w := take_word (skip_ws (cf_table f))) in *.
  rewrite app_length in BB. cbn [length] in BB.
  assert (SK : exists p, cf_table f = p ++ skip_ws (cf_table f) /\ (p = [] \/ exists b p', p = b :: p' /\ is_space b = true)).
  { clear. generalize (cf_table f) as l. induction l as [|b l (p & Ep & _)]; [exists []; auto|]. cbn [skip_ws].
    destruct (is_space b) eqn:Q; [|exists []; auto]. exists (b :: p). split; [rewrite Ep at 1; auto|]. right. eauto. }
  destruct SK as (p & Ep & [->|(b & p' & -> & SB)]).
  - cbn [app] in Ep. rewrite <- Ep in ER.
    (* table = w ++ r, and also table = w ++ 0 :: zeros *)
    rewrite <- app_assoc in WB'. rewrite ER in WB' at 1.
    apply app_inv_head in WB'. destruct r as [|b r].
    + cbn [app] in WB'. discriminate.
    + cbn [app] in WB'. inversion WB'; subst b. discriminate.
  - (* the table starts with a blank, the word cannot *)
    rewrite Ep in WB'. cbn [app] in WB'.
    destruct w as [|c w'] eqn:Ew.
    + cbn [app] in WB'. inversion WB'; subst b. discriminate.
    + cbn [app] in WB'. inversion WB'; subst c.
      assert (is_space b = false); [|congruence].
      clear - Ew. destruct (skip_ws (cf_table f)) as [|c l]; [discriminate|].
      unfold w in Ew. cbn [take_word] in Ew. destruct (is_space c) eqn:Q; [discriminate|]. inversion Ew. congruence.
Qed.

(** field ranges of reachable filters *)
Lemma WriteTag_ranges : forall f b s t f', WriteTag f b s t = Some f' -> ranges f -> ranges f'.
Proof.
  intros f b s t f' E R. unfold WriteTag in E. destruct (cf_tag_bits f =? 16); [|discriminate].
  destruct (write_bytes _ _ _); [|discriminate]. inversion E. destruct R; constructor; auto.
Qed.

Lemma insert_slot_ranges : forall n f b t s f', insert_slot_loop f b t s n = Some (Some f') -> ranges f -> ranges f'.
Proof.
  induction n; intros f b t s f' E R; cbn [insert_slot_loop] in E; [discriminate|].
  destruct (ReadTag f b s); [|discriminate]. destruct (n0 =? 0); [|eauto].
  destruct (WriteTag f b s t) eqn:Q; [|discriminate]. inversion E; subst. eapply WriteTag_ranges; eauto.
Qed.

Lemma InsertTag_ranges : forall f b t l r f' st, InsertTagToBucket f b t l r = Some (f', st) -> ranges f -> ranges f'.
Proof.
  intros f b t l r f' st E R. unfold InsertTagToBucket in E.
  destruct (insert_slot_loop f b t 0 _) as [[g|]|] eqn:Q; [|destruct l|discriminate].
  - inversion E; subst. eapply insert_slot_ranges; eauto.
  - destruct (ReadTag _ _ _); [|discriminate]. destruct (WriteTag _ _ _ _) eqn:Q'; [|discriminate].
    inversion E; subst. eapply WriteTag_ranges; eauto.
  - inversion E; subst. auto.
Qed.

Lemma insert_loop_ranges : forall fuel rnd f b t l k f', insert_loop fuel rnd f b t l k = Some f' ->
  WF f -> b < cf_bucket_num f -> 0 < t < 2 ^ 16 -> ranges f -> ranges f'.
Proof.
  induction fuel; intros rnd f b t l k f' E W Hb Ht R; [discriminate|]. cbn [insert_loop] in E.
  destruct (k <? cf_max_kick f).
  - destruct (InsertTag_spec f b t l (rnd k) W Hb) as
      [(f1 & s & Q & S)|[(-> & Fu & Q)|(-> & Fu & f1 & s & kk & Q & S)]]; [lia| | |]; rewrite Q in E;
      pose proof (InsertTag_ranges _ _ _ _ _ _ _ Q R) as R1.
    + inversion E; subst. destruct R1. constructor; auto. apply wrap_lt.
    + eapply IHfuel; eauto using alt_lt.
    + pose proof S as (W1 & SH & Hs & Ho & U).
      assert (BN : cf_bucket_num f1 = cf_bucket_num f) by (symmetry; apply SH).
      eapply IHfuel; eauto.
      * apply alt_lt; auto. rewrite BN; auto.
      * destruct (ReadTag_total f b s W Hb Hs) as (_ & Q'). pose proof (Fu s Hs). lia.
  - inversion E; subst. destruct R. destruct (wf_bn f W) as (j & Hj & BN).
    assert (2 ^ j <= 2 ^ 32) by (apply N.pow_le_mono_r; [discriminate|lia]).
    constructor; cbn [set_victim cf_count cf_vic_idx cf_vic_tag cf_vic_used]; auto; lia.
Qed.

Lemma delete_loop_ranges : forall n f b t s f' o, delete_loop f b t s n = Some (f', o) -> ranges f -> ranges f'.
Proof.
  induction n; intros f b t s f' o E R; cbn [delete_loop] in E; [inversion E; subst; auto|].
  destruct (ReadTag f b s); [|discriminate]. destruct (n0 =? t); [|eauto].
  destruct (WriteTag f b s 0) eqn:Q; [|discriminate]. inversion E; subst. eapply WriteTag_ranges; eauto.
Qed.

Lemma refill_ranges : forall f b t f' d, delete_and_refill f b t = Some (f', d) -> ranges f -> ranges f'.
Proof.
  intros f b t f' d E R. unfold delete_and_refill in E.
  destruct (DeleteTagFromBucket f b t) as [[g [s|]]|] eqn:Q; [| |discriminate].
  - pose proof (delete_loop_ranges _ _ _ _ _ _ _ Q R) as R1.
    destruct (TrySaveVictim _ _ _ _) as [h|] eqn:T; [|discriminate]. inversion E; subst.
    unfold TrySaveVictim in T. destruct R1. 
    destruct (_ && _) in T.
    + eapply WriteTag_ranges; eauto. constructor; auto; cbn; try apply wrap_lt; lia.
    + inversion T; subst. constructor; auto. apply wrap_lt.
  - inversion E; subst. eapply delete_loop_ranges; eauto.
Qed.

Lemma crun_ranges : forall H ops f f' rs, hash32 H -> WF f -> crun H f ops = Some (f', rs) -> ranges f -> ranges f'.
Proof.
  intros H ops. induction ops as [|o ops IH]; intros f f' rs H32 W E R; cbn [crun] in E.
  - inversion E; subst; auto.
  - assert (exists f1 r, (match o with CInsert x rnd => PlainInsert H rnd f x | CDelete x => PlainDelete H f x end)
        = Some (f1, r) /\ WF f1 /\ ranges f1) as (f1 & r & Q & W1 & R1).
    { destruct o as [y rnd|y].
      - destruct (PlainInsert_spec H rnd f y H32 W) as (f1 & r & E1 & W1 & _). exists f1, r. split; auto. split; auto.
        unfold PlainInsert in E1. destruct (negb _); [inversion E1; subst; auto|].
        rewrite (ComputeTag_eq H H32 f y W), (bucket1_eq H f y W) in E1.
        destruct (insert_loop _ _ _ _ _ _ _) eqn:Q; [|discriminate]. inversion E1; subst.
        eapply insert_loop_ranges; eauto using bucket1_lt, fingerprint_range.
      - destruct (PlainDelete_spec H f y H32 W) as (f1 & r & E1 & W1 & _). exists f1, r. split; auto. split; auto.
        unfold PlainDelete in E1.
        destruct (delete_and_refill f _ _) as [[g d1]|] eqn:Q1; [|discriminate].
        destruct (delete_and_refill g _ _) as [[h d2]|] eqn:Q2; [|discriminate].
        pose proof (refill_ranges _ _ _ _ _ Q2 (refill_ranges _ _ _ _ _ Q1 R)) as Rh.
        destruct (_ && _) in E1; inversion E1; subst; auto. destruct Rh; constructor; auto. reflexivity. }
    rewrite Q in E. destruct (crun H f1 ops) as [[g rs']|] eqn:RR; [|discriminate].
    cbn [option_map fst snd] in E. inversion E; subst. eapply IH; eauto.
Qed.

Lemma ranges_new : forall p d vi vt, vi < 2 ^ 32 -> vt < 2 ^ 32 -> ranges (cuckoo_new p d vi vt).
Proof. intros. constructor; auto; reflexivity. Qed.

(** ** Capacities for which the table is empty *)
Lemma capacity_zero : forall p d vi vt, 2 ^ 31 < p / 4 < 2 ^ 32 ->
  cf_table (cuckoo_new p d vi vt) = [] /\ cf_bucket_num (cuckoo_new p d vi vt) = 0.
Proof.
  intros p d vi vt C. unfold cuckoo_new.
  assert (E : wrap32 (p / 4) = p / 4) by (apply wrap_small; lia). rewrite E.
  rewrite upperpower2_overflow by lia. destruct d; auto.
Qed.

Lemma insert_capacity_zero : forall H rnd p d vi vt x, 2 ^ 31 < p / 4 < 2 ^ 32 ->
  PlainInsert H rnd (cuckoo_new p d vi vt) x = None.
Proof.
  intros H rnd p d vi vt x C. destruct (capacity_zero p d vi vt C) as (T & B).
  unfold PlainInsert. change (cf_vic_used (cuckoo_new p d vi vt)) with 0. change (0 =? 0) with true. cbn [negb].
  change (cf_max_kick (cuckoo_new p d vi vt)) with 500.
  replace (N.to_nat 500 + 2)%nat with (S (N.to_nat 500 + 1)) by lia. cbn [insert_loop].
  change (cf_max_kick (cuckoo_new p d vi vt)) with 500. change (0 <? 500) with true. cbn iota.
  unfold InsertTagToBucket. change (cf_slot_num (cuckoo_new p d vi vt)) with 4. change (N.to_nat 4) with 4%nat.
  cbn [insert_slot_loop]. unfold ReadTag at 1. rewrite T.
  change (cf_tag_bits (cuckoo_new p d vi vt) =? 16) with true. cbn iota.
  unfold read_bytes. cbn [length].
  match goal with |- context [if ?c then _ else _] => destruct c eqn:Q end; [lia|reflexivity].
Qed.

(** ** Murmur is a 32-bit hash when salted with 32 bits *)
Lemma murmur32 : forall s, s < 2 ^ 32 -> forall x, LiteMurmurHash s x < 2 ^ 32.
Proof.
  assert (N32 : forall a, a < 2 ^ 32 -> not32 a < 2 ^ 32) by (intros; apply lxor_lt; auto; reflexivity).
  assert (A32 : forall a b, add32 a b < 2 ^ 32) by (intros; apply wrap_lt).
  assert (M32 : forall a b, mul32 a b < 2 ^ 32) by (intros; apply wrap_lt).
  assert (S32 : forall a b, shl32 a b < 2 ^ 32) by (intros; apply wrap_lt).
  assert (T1 : forall d l x, d < 2 ^ 32 -> lm_tail1 d l x < 2 ^ 32).
  { intros d l [|a [|? ?]] Hd; cbn [lm_tail1]; auto. }
  assert (EV : forall d c, d < 2 ^ 32 -> lm_even d c < 2 ^ 32).
  { intros. unfold lm_even. apply lxor_lt; auto. }
  assert (OD : forall d c, d < 2 ^ 32 -> lm_odd d c < 2 ^ 32).
  { intros. unfold lm_odd. apply lxor_lt; auto. apply lxor_lt; auto. }
  assert (T2 : forall d l x, d < 2 ^ 32 -> lm_tail2 d l x < 2 ^ 32).
  { intros d l [|a [|? ?]] Hd; cbn [lm_tail2]; auto. apply T1. destruct (N.odd l); auto. }
  assert (T4 : forall d x, d < 2 ^ 32 -> lm_tail4 d x < 2 ^ 32).
  { intros d x Hd. do 4 (destruct x as [|? x]; [cbn [lm_tail4]; auto|]). cbn [lm_tail4]. auto. }
  assert (L : forall n d x, (length x <= n)%nat -> d < 2 ^ 32 -> lm_loop d x < 2 ^ 32).
  { induction n; intros d x Hx Hd.
    - destruct x; [|simpl in Hx; lia]. apply T4; auto.
    - do 8 (destruct x as [|? x]; [apply T4; auto|]). cbn [lm_loop].
      apply IHn; [simpl in Hx; lia|]. unfold lm_mix8. repeat apply lxor_lt; auto. reflexivity. }
  intros s Hs x. unfold LiteMurmurHash. eauto.
Qed.

Lemma hash32_murmur : hash32 LiteMurmurHash.
Proof. intros x. apply murmur32. reflexivity. Qed.

Lemma fresh_other : forall H p d vi vt x y rnd, hash32 H -> capacity_ok p ->
  ~ collide H (cf_bucket_num (cuckoo_new p d vi vt)) x y ->
  exists f, PlainInsert H rnd (cuckoo_new p d vi vt) x = Some (f, true) /\ PlainContain H f y = Some false.
Proof.
  intros H p d vi vt x y rnd H32 C NC.
  pose proof (WF_new p d vi vt C) as W0.
  destruct (insert_unfull H rnd (cuckoo_new p d vi vt) x H32 W0) as (f1 & s1 & E1 & V1 & S1); [reflexivity|reflexivity| |].
  { intros F. apply (F 0); [lia|]. apply slot_new. }
  exists f1. split; auto.
  pose proof S1 as (W1 & SH1 & Hs1 & _ & U1).
  assert (BN1 : cf_bucket_num f1 = cf_bucket_num (cuckoo_new p d vi vt)) by (symmetry; apply SH1).
  destruct (contain_spec H f1 y H32 W1) as ([|] & -> & K); auto. exfalso.
  destruct K as (K & _). specialize (K eq_refl).
  set (f0 := cuckoo_new p d vi vt) in *.
  pose proof (bucket1_lt H f0 y W0) as By. pose proof (bucket1_lt H f0 x W0) as Bx.
  pose proof (fingerprint_range H H32 y) as FR.
  assert (IB : forall b, b < cf_bucket_num f0 -> in_bucket f1 b (fingerprint H y) ->
     b = bucket1 H (cf_bucket_num f0) x /\ fingerprint H x = fingerprint H y).
  { intros b Hb (s & Hs & Q). rewrite U1 in Q by auto.
    destruct ((b =? bucket1 H (cf_bucket_num f0) x) && (s =? s1)) eqn:Z; [split; [lia|auto]|].
    unfold f0 in Q at 1. rewrite slot_new in Q. lia. }
  rewrite BN1 in K.
  destruct K as [[K|K]|(K & _)]; [| |congruence].
  - apply IB in K; auto. apply NC. split; [tauto|]. left. apply K.
  - rewrite (alt_shape _ _ _ _ SH1) in K. apply IB in K; [|apply alt_lt; auto].
    apply NC. destruct K as (K & F). split; auto. right.
    rewrite <- bucket2_eq by auto. rewrite F, <- K. symmetry. apply alt_invol; auto.
Qed.

(** C72: the binned oblivious key-value store decodes what was encoded, for every
    number of threads and every schedule. *)
From Coq Require Import NArith List Bool Lia Arith Permutation.
From Coq Require Import ZifyBool ZifyNat ZifyN.
From Verif Require Import Base.Words Base.ListX OKVS.DivModel OKVS.DivProps OKVS.SparseModel OKVS.SparseSpec
  OKVS.PaxosModel OKVS.PaxosSpec OKVS.PaxosSet OKVS.PaxosBack OKVS.PaxosEncode OKVS.PaxosProps
  OKVS.BaxosModel OKVS.BaxosSpec OKVS.BaxosLists OKVS.BaxosSort OKVS.BaxosBins OKVS.BaxosSolve
  OKVS.BaxosDecode.
Import ListNotations.

(** ** The specification and the model's own notions *)
Lemma key_bin_of enc B k : key_bin enc B k = bin_of B (key_hash enc k).
Proof. reflexivity. Qed.

Lemma truth_combine enc B : forall keys values, length values = length keys ->
  map (truth enc B keys values) (seq 0 (length keys))
  = map (fun kv => (key_bin enc B (fst kv), (snd kv, key_hash enc (fst kv)))) (combine keys values).
Proof.
  intros keys values L.
  assert (LC : length (combine keys values) = length keys) by (rewrite combine_length; lia).
  apply (list_eq_nth _ _ (0, (0, 0)%N)).
  - rewrite !map_length, seq_length. lia.
  - rewrite map_length, seq_length. intros i Hi.
    rewrite nth_map' with (d := 0) by (rewrite seq_length; exact Hi).
    rewrite nth_map' with (d := (0, 0)%N) by lia. rewrite nth_seq' by exact Hi.
    rewrite combine_nth by lia. reflexivity.
Qed.

Lemma cells_map b (f : N * N -> nat * (N * N)) l :
  cells b (map f l) = map (fun x => snd (f x)) (filter (fun x => fst (f x) =? b) l).
Proof.
  unfold cells, in_bin. induction l as [|x l IH]; [reflexivity|]. cbn [map filter].
  destruct (fst (f x) =? b); cbn [map]; rewrite IH; reflexivity.
Qed.

Lemma pairs_spec enc B keys values b : length values = length keys ->
  map snd (pairs enc B keys values b) = set_dense enc (bin_keys enc B b keys values)
  /\ map fst (pairs enc B keys values b) = bin_values enc B b keys values.
Proof.
  intros L. unfold pairs. rewrite truth_combine by exact L. rewrite cells_map. cbn [fst snd].
  unfold bin_keys, bin_values, bin_pairs, set_dense. rewrite !map_map. cbn [fst snd]. split; reflexivity.
Qed.

Lemma load_pairs enc B keys values b : length values = length keys ->
  length (bin_pairs enc B b keys values) = load enc B b keys.
Proof.
  unfold bin_pairs, load. revert values. induction keys as [|k keys IH]; intros [|v values] L; try discriminate; [reflexivity|].
  cbn [combine filter fst]. destruct (key_bin enc B k =? b); cbn [length]; rewrite IH by (cbn in L; lia); reflexivity.
Qed.

Lemma pairs_length enc B keys values b : length values = length keys ->
  length (pairs enc B keys values b) = load enc B b keys.
Proof.
  intros L. rewrite <- (load_pairs enc B keys values b L).
  rewrite <- (map_length snd (pairs enc B keys values b)). rewrite (proj1 (pairs_spec _ _ _ _ b L)).
  unfold set_dense, bin_keys. rewrite !map_length. reflexivity.
Qed.

Lemma part_load enc B T keys values t b : 0 < T -> t < T ->
  length (cells b (part enc B T keys values t)) = load enc B b (thread_keys T t keys).
Proof.
  intros HT Ht. unfold part, cells, load, thread_keys. rewrite map_length.
  assert (LE := t_end_le (length keys) T t HT Ht).
  set (bg := t_begin (length keys) T t) in *. set (n := t_len (length keys) T t) in *.
  assert (E : firstn n (skipn bg keys) = map (fun i => nth i keys 0%N) (seq bg n)).
  { apply (list_eq_nth _ _ 0%N).
    - rewrite firstn_length, skipn_length, map_length, seq_length. lia.
    - rewrite firstn_length, skipn_length. intros i Hi.
      rewrite nth_firstn_lt, nth_skipn by lia.
      rewrite nth_map' with (d := 0) by (rewrite seq_length; lia). rewrite seq_nth by lia. reflexivity. }
  rewrite E. clear E. generalize (seq bg n). intros l.
  induction l as [|i l IH]; [reflexivity|]. cbn [map filter].
  unfold in_bin at 1. cbn [truth fst]. rewrite key_bin_of.
  change (bin_of B (N.lxor (enc (nth i keys 0%N)) (nth i keys 0%N)))
    with (bin_of B (key_hash enc (nth i keys 0%N))).
  destruct (bin_of B (key_hash enc (nth i keys 0%N)) =? b); cbn [length]; rewrite IH; reflexivity.
Qed.

Lemma thread_keys_length T t keys : 0 < T -> t < T ->
  length (thread_keys T t keys) = t_len (length keys) T t.
Proof.
  intros HT Ht. unfold thread_keys. assert (LE := t_end_le (length keys) T t HT Ht).
  rewrite firstn_length, skipn_length. lia.
Qed.

Lemma roomy_fits enc B T keys values : usable (binp B) -> length values = length keys ->
  roomy enc B T keys -> fits enc B keys values T.
Proof.
  intros U L (R1 & R2 & R3 & R4 & R5 & R6 & R7).
  repeat split; auto.
  - apply U.
  - intros t Ht. rewrite <- thread_keys_length by assumption. apply R5. exact Ht.
  - intros t b Ht Hb. rewrite part_load by assumption. apply R6; assumption.
  - intros b Hb. rewrite pairs_length by exact L. apply R7. exact Hb.
Qed.

Lemma load_hashes enc B b keys :
  length (filter (fun h => bin_of B h =? b) (set_dense enc keys)) = load enc B b keys.
Proof.
  unfold load, set_dense. induction keys as [|k keys IH]; [reflexivity|]. cbn [map filter].
  change (N.lxor (enc k) k) with (key_hash enc k). rewrite <- key_bin_of.
  destruct (key_bin enc B k =? b); cbn [length]; rewrite IH; reflexivity.
Qed.

(** A bin's output is what storing its keys gives. *)
Lemma bin_out_store enc vl B keys values tapes b v : length values = length keys ->
  bin_out enc vl B keys values tapes b = Some v ->
  load enc B b keys <= per_bin B
  /\ exists o t', bin_store enc vl B b keys values (tapes b) = Some (o, v, t').
Proof.
  intros L H. unfold bin_out in H. rewrite pairs_length in H by exact L.
  destruct (Nat.ltb_spec (per_bin B) (load enc B b keys)) as [X|X]; [discriminate|]. split; [exact X|].
  destruct (pairs_spec enc B keys values b L) as [E1 E2]. rewrite E1, E2 in H.
  unfold bin_store, store. destruct (set_keys (binp B) _) as [o|]; [|discriminate]. cbn [bind] in *.
  destruct (encode _ _ _ _ _) as [[[o' v'] t']|]; [|discriminate]. cbn [bind fst snd] in H.
  injection H as <-. eauto.
Qed.

(** The pieces of the output: every bin holds its keys' values. *)
Section Solved.
Variable enc : N -> N.
Variable vl : nat.
Variable B : baxos.
Variable tapes : nat -> tape.
Variables keys values : list N.
Hypothesis U : usable (binp B).
Hypothesis LV : length values = length keys.
Hypothesis FW : forall b, b < nbins B -> N.lt (N.of_nat (load enc B b keys)) (2 ^ bits (binp B)).
Hypothesis GB : forall b, b < nbins B -> good_bin enc vl B b keys values (tapes b).
Variable cur : nat -> list N.
Hypothesis BO : forall b, b < nbins B -> bin_out enc vl B keys values tapes b = Some (cur b).

Lemma bin_values_ok b : b < nbins B ->
  dense_ok (binp B)
  /\ map (decode_value vl (binp B) (cur b)) (set_dense enc (bin_keys enc B b keys values))
     = bin_values enc B b keys values.
Proof.
  intros Hb. destruct (bin_out_store _ _ _ _ _ _ _ _ LV (BO b Hb)) as (_ & o & t' & E).
  destruct (GB b Hb o (cur b) t' E) as [NR HK].
  assert (Lk : length (bin_values enc B b keys values) = length (bin_keys enc B b keys values))
    by (unfold bin_values, bin_keys; rewrite !map_length; reflexivity).
  assert (FK : few_keys (binp B) (bin_keys enc B b keys values)).
  { unfold few_keys, bin_keys. rewrite map_length, load_pairs by exact LV. apply FW. exact Hb. }
  destruct (store_encoded _ _ _ _ _ _ _ _ _ U FK Lk HK E) as (o1 & Dn & Eg & _ & _ & EN).
  split; [apply EN|]. destruct (usable_good _ U) as (G & _).
  apply (encoded_decodes vl (binp B) _ o1 _ (is_some (tapes b)) (cur b) G Dn).
  - unfold set_dense. rewrite map_length. exact Lk.
  - exact EN.
  - destruct NR as [->|NR]; [left; reflexivity|right; congruence].
Qed.

Lemma all_values : nbins B <> 0 ->
  map (value_of vl B cur) (set_dense enc keys) = values.
Proof.
  intros Hn.
  assert (X : forall k v, In (k, v) (combine keys values) -> value_of vl B cur (key_hash enc k) = v).
  { intros k v H. unfold value_of. set (b := bin_of B (key_hash enc k)).
    assert (Hb : b < nbins B) by (apply (bin_of_lt enc); lia).
    destruct (bin_values_ok b Hb) as [_ E].
    unfold bin_keys, bin_values, set_dense in E. rewrite !map_map in E.
    assert (I : In (k, v) (bin_pairs enc B b keys values)).
    { unfold bin_pairs. apply filter_In. split; [exact H|]. apply Nat.eqb_eq. reflexivity. }
    revert I E. generalize (bin_pairs enc B b keys values). induction l as [|x l IH]; intros I E; [destruct I|].
    cbn [map] in E. injection E as E0 E. destruct I as [->|I]; [exact E0|apply IH; assumption]. }
  clear - X LV. unfold set_dense. revert values LV X. induction keys as [|k ks IH]; intros [|v vs] L X; try discriminate; [reflexivity|].
  cbn [map]. f_equal.
  - apply X. left. reflexivity.
  - apply IH; [cbn in L; lia|]. intros k' v' H. apply X. right. exact H.
Qed.
End Solved.

Definition padded (nb tot : nat) (cur : nat -> list N) (b : nat) : list N :=
  if b <? nb then cur b else repeat 0%N tot.

Lemma whole_padded nb tot cur : whole nb (padded nb tot cur) = whole nb cur.
Proof.
  unfold whole. f_equal. apply map_ext_in. intros b Hb. apply in_seq in Hb. unfold padded.
  replace (b <? nb) with true by lia. reflexivity.
Qed.

(** ** C72 *)

(** Whatever the hash, the keys and values, the number of threads that encode
    and that decode and the schedules: if [solve] and [decode] return then
    [decode] of the keys gives the values. *)
Theorem C72_partial : forall enc vl B T sched1 sched2 tapes keys values out T' sched vals res,
  usable (binp B) -> roomy enc B T keys -> length values = length keys ->
  (forall b, b < nbins B -> good_bin enc vl B b keys values (tapes b)) ->
  solve enc vl B T sched1 sched2 tapes keys values (repeat 0%N (nbins B * btotal B)) = Some out ->
  0 < T' -> length vals = length keys ->
  bdecode enc vl B T' sched keys vals out = Some res ->
  res = values.
Proof.
  intros enc vl B T sched1 sched2 tapes keys values out T' sched vals res U R LV GB H HT' Lv HD.
  destruct (solve_ok _ _ _ _ _ _ _ (roomy_fits _ _ _ _ _ U LV R) LV _ _ _ H) as (cur & -> & BO).
  destruct R as (R1 & R2 & R3 & R4 & R5 & R6 & R7). destruct (usable_good _ U) as (G & Sz & Wp & Mp).
  assert (BOp : forall b, b < nbins B ->
    bin_out enc vl B keys values tapes b = Some (padded (nbins B) (total (binp B)) cur b)).
  { intros b Hb. unfold padded. replace (b <? nbins B) with true by lia. apply BO. exact Hb. }
  rewrite <- (whole_padded (nbins B) (total (binp B)) cur) in HD.
  assert (HG : bglimit B + bssp B < 256) by apply U.
  destruct (bin_values_ok enc vl B tapes keys values U LV R7 GB _ BOp 0 ltac:(lia)) as [DO _].
  apply bdecode_ok in HD; auto.
  - rewrite HD. apply all_values with (tapes := tapes); auto. lia.
  - lia.
  - lia.
  - intros b. unfold padded. destruct (Nat.ltb_spec b (nbins B)) as [Hb|Hb]; [|apply repeat_length].
    apply (bin_out_length _ _ _ _ _ _ _ _ (BO b Hb)).
  - intros b Hb. rewrite load_hashes. apply R7. exact Hb.
  - lia.
Qed.
Print Assumptions C72_partial.

(** ... and every number of threads has a schedule with which [decode] returns. *)
Theorem C72_decode_returns : forall enc vl B T sched1 sched2 tapes keys values out T' vals,
  usable (binp B) -> roomy enc B T keys -> length values = length keys ->
  (forall b, b < nbins B -> good_bin enc vl B b keys values (tapes b)) ->
  solve enc vl B T sched1 sched2 tapes keys values (repeat 0%N (nbins B * btotal B)) = Some out ->
  0 < T' -> length vals = length keys ->
  exists sched, bdecode enc vl B T' sched keys vals out = Some values.
Proof.
  intros enc vl B T sched1 sched2 tapes keys values out T' vals U R LV GB H HT' Lv.
  destruct (solve_ok _ _ _ _ _ _ _ (roomy_fits _ _ _ _ _ U LV R) LV _ _ _ H) as (cur & -> & BO).
  destruct R as (R1 & R2 & R3 & R4 & R5 & R6 & R7). destruct (usable_good _ U) as (G & Sz & Wp & Mp).
  assert (BOp : forall b, b < nbins B ->
    bin_out enc vl B keys values tapes b = Some (padded (nbins B) (total (binp B)) cur b)).
  { intros b Hb. unfold padded. replace (b <? nbins B) with true by lia. apply BO. exact Hb. }
  rewrite <- (whole_padded (nbins B) (total (binp B)) cur).
  assert (HG : bglimit B + bssp B < 256) by apply U.
  destruct (bin_values_ok enc vl B tapes keys values U LV R7 GB _ BOp 0 ltac:(lia)) as [DO _].
  assert (AV := all_values enc vl B tapes keys values U LV R7 GB _ BOp ltac:(lia)).
  rewrite <- AV.
  apply bdecode_total; auto.
  - lia.
  - lia.
  - intros b. unfold padded. destruct (Nat.ltb_spec b (nbins B)) as [Hb|Hb]; [|apply repeat_length].
    apply (bin_out_length _ _ _ _ _ _ _ _ (BO b Hb)).
  - intros b Hb. rewrite load_hashes. apply R7. exact Hb.
  - lia.
Qed.
Print Assumptions C72_decode_returns.

(** The encoded vector does not depend on the number of threads or the schedule
    (given what the generator delivers to each bin). *)
Theorem C72_deterministic : forall enc vl B T1 T2 a1 b1 a2 b2 tapes keys values out1 out2,
  usable (binp B) -> roomy enc B T1 keys -> roomy enc B T2 keys -> length values = length keys ->
  solve enc vl B T1 a1 b1 tapes keys values (repeat 0%N (nbins B * btotal B)) = Some out1 ->
  solve enc vl B T2 a2 b2 tapes keys values (repeat 0%N (nbins B * btotal B)) = Some out2 ->
  out1 = out2.
Proof.
  intros enc vl B T1 T2 a1 b1 a2 b2 tapes keys values out1 out2 U R1 R2 LV H1 H2.
  destruct (solve_ok _ _ _ _ _ _ _ (roomy_fits _ _ _ _ _ U LV R1) LV _ _ _ H1) as (c1 & -> & B1).
  destruct (solve_ok _ _ _ _ _ _ _ (roomy_fits _ _ _ _ _ U LV R2) LV _ _ _ H2) as (c2 & -> & B2).
  unfold whole. f_equal. apply map_ext_in. intros b Hb. apply in_seq in Hb.
  assert (E1 := B1 b ltac:(lia)). assert (E2 := B2 b ltac:(lia)). congruence.
Qed.
Print Assumptions C72_deterministic.

(** [solve] returns if no bin has more keys than its capacity and the keys of
    every bin can be encoded. *)
Theorem C72_total : forall enc vl B T tapes keys values,
  usable (binp B) -> roomy enc B T keys -> length values = length keys ->
  (forall b, b < nbins B -> load enc B b keys <= per_bin B
     /\ bin_store enc vl B b keys values (tapes b) <> None) ->
  exists sched1 sched2 out,
    solve enc vl B T sched1 sched2 tapes keys values (repeat 0%N (nbins B * btotal B)) = Some out.
Proof.
  intros enc vl B T tapes keys values U R LV H.
  apply solve_total; [apply roomy_fits; assumption|exact LV|].
  intros b Hb. destruct (H b Hb) as [H1 H2]. unfold bin_out. rewrite pairs_length by exact LV.
  replace (per_bin B <? load enc B b keys) with false by lia.
  destruct (pairs_spec enc B keys values b LV) as [E1 E2]. rewrite E1, E2.
  unfold bin_store, store in H2. destruct (set_keys _ _) as [o|]; [|contradiction]. cbn [bind] in *.
  destruct (encode _ _ _ _ _); [discriminate|contradiction].
Qed.
Print Assumptions C72_total.

(** With one bin, and as many keys as the object was made for *)
Theorem C72_single_bin : forall enc vl B T sched1 sched2 tapes keys values out0 out T' sched vals,
  usable (binp B) -> nbins B = 1 -> length keys = items B -> length values = length keys ->
  few_keys (binp B) keys ->
  (forall o v t', store enc vl (binp B) keys values (tapes 0) = Some (o, v, t') ->
     (tapes 0 = None \/ gap_rows o = [])
     /\ (bkind B = gf_128 -> blocks_ok enc vl keys values (tapes 0) /\ length (gap_rows o) < 256)) ->
  solve enc vl B T sched1 sched2 tapes keys values out0 = Some out ->
  length vals = length keys ->
  bdecode enc vl B T' sched keys vals out = Some values.
Proof.
  intros enc vl B T sched1 sched2 tapes keys values out0 out T' sched vals U N1 LI LV FK GB H Lv.
  unfold solve in H. rewrite N1 in H. cbn [Nat.eqb] in H. rewrite slice_ok in H by lia. cbn [bind skipn] in H.
  rewrite <- LI, firstn_all in H.
  assert (ES : exists o t', store enc vl (binp B) keys values (tapes 0) = Some (o, out, t')).
  { unfold store. destruct (set_keys _ _) as [o|]; [|discriminate]. cbn [bind] in *.
    destruct (encode _ _ _ _ _) as [[[o' v'] t']|]; [|discriminate]. cbn [bind fst snd] in H.
    injection H as <-. eauto. }
  destruct ES as (o & t' & E). destruct (GB o out t' E) as [NR HK].
  destruct (store_encoded _ _ _ _ _ _ _ _ _ U FK LV HK E) as (o1 & Dn & Eg & _ & _ & EN).
  destruct (usable_good _ U) as (G & Sz & Wp & Mp).
  assert (V : map (decode_value vl (binp B) out) (set_dense enc keys) = values).
  { apply (encoded_decodes vl (binp B) _ o1 _ (is_some (tapes 0)) out G Dn).
    - unfold set_dense. rewrite map_length. exact LV.
    - exact EN.
    - destruct NR as [->|NR]; [left; reflexivity|right; congruence]. }
  assert (Ld : length (set_dense enc keys) = length keys) by apply map_length.
  unfold bdecode. rewrite N1. cbn [Nat.eqb].
  rewrite (decode_buf_ok vl B G Wp Mp (en_dense _ _ _ _ _ _ _ EN)).
  - cbn [bind]. replace (length vals <? length keys) with false by lia.
    rewrite V, Ld, <- Lv, skipn_all, app_nil_r. reflexivity.
  - apply EN.
  - rewrite Ld. exact FK.
Qed.
Print Assumptions C72_single_bin.

(** ** What goes wrong *)

(** One bin and fewer keys than the object was made for: [solve] reads behind
    the keys. *)
Theorem C72_single_bin_refuted : forall enc vl B T sched1 sched2 tapes keys values out0,
  nbins B = 1 -> length keys < items B ->
  solve enc vl B T sched1 sched2 tapes keys values out0 = None.
Proof.
  intros. unfold solve. rewrite H. cbn [Nat.eqb]. unfold slice. cbn [Nat.add].
  replace (items B <=? length keys) with false by lia. reflexivity.
Qed.
Print Assumptions C72_single_bin_refuted.

(** Several bins and a thread with fewer than 32 keys: [len - 32] wraps around
    and the thread reads behind its keys. *)
Theorem C72_short_thread_refuted : forall enc vl B T t sched1 sched2 tapes keys values out0,
  2 <= nbins B -> N.lt (N.of_nat (nbins B)) (2 ^ 64) -> N.lt (N.of_nat (length keys)) (2 ^ 56) ->
  t < T -> length (thread_keys T t keys) < 32 ->
  solve enc vl B T sched1 sched2 tapes keys values out0 = None.
Proof.
  intros enc vl B T t sched1 sched2 tapes keys values out0 Hn H64 B56 Ht HL. unfold solve.
  replace (nbins B =? 1) with false by lia. replace (T =? 0) with false by lia.
  rewrite all_some_none; [reflexivity|]. apply in_map_iff. exists t. split; [|apply in_seq; lia].
  unfold thread_writes. rewrite thread_keys_length in HL by lia.
  rewrite entries_short; [reflexivity|lia|exact H64|exact B56|exact HL].
Qed.
Print Assumptions C72_short_thread_refuted.

(** 256 bins or more: the loop over the bins of a thread never ends. *)
Theorem C72_many_bins_refuted : forall enc vl B T sched1 sched2 tapes keys values out0,
  256 <= nbins B -> 0 < T ->
  solve enc vl B T sched1 sched2 tapes keys values out0 = None.
Proof.
  intros enc vl B T sched1 sched2 tapes keys values out0 Hn HT. unfold solve.
  replace (nbins B =? 1) with false by lia. replace (T =? 0) with false by lia.
  destruct (all_some (map (thread_writes enc B keys values T) (seq 0 T))) as [rs|]; [|reflexivity]. cbn [bind].
  destruct (interleave sched1 (map fst rs)) as [ws|]; [|reflexivity]. cbn [bind].
  destruct (apply_writes ws _) as [tab|]; [|reflexivity]. cbn [bind].
  rewrite all_some_none; [reflexivity|]. apply in_map_iff. exists 0. split; [|apply in_seq; lia].
  apply thread_bins_endless; lia.
Qed.
Print Assumptions C72_many_bins_refuted.

(** A bin with more keys than its capacity; in particular this happens for
    every hash if all bins together have less room than there are keys. *)
Lemma sum_loads enc B keys : nbins B <> 0 ->
  list_sum (map (fun b => load enc B b keys) (seq 0 (nbins B))) = length keys.
Proof.
  intros Hn. induction keys as [|k keys IH].
  - unfold load. cbn [filter length]. generalize (seq 0 (nbins B)).
    induction l as [|b l IH]; [reflexivity|]. cbn [map]. exact IH.
  - cbn [length]. rewrite <- IH. clear IH.
    assert (Hb : key_bin enc B k < nbins B) by (rewrite key_bin_of; apply (bin_of_lt enc); lia).
    rewrite (seq_at (nbins B) (key_bin enc B k) Hb), !map_app, !list_sum_app.
    cbn [map list_sum]. unfold load at 2. cbn [filter]. rewrite Nat.eqb_refl. cbn [length]. fold (load enc B (key_bin enc B k) keys).
    assert (X : forall l, ~ In (key_bin enc B k) l ->
      map (fun b => load enc B b (k :: keys)) l = map (fun b => load enc B b keys) l).
    { intros l Hl. apply map_ext_in. intros b HI. unfold load. cbn [filter].
      destruct (Nat.eqb_spec (key_bin enc B k) b) as [E|]; [exfalso; apply Hl; rewrite E; exact HI|reflexivity]. }
    rewrite !X by (intros I; apply in_seq in I; lia). unfold list_sum. cbn [fold_right]. lia.
Qed.

Theorem C72_overfull_refuted : forall enc vl B T sched1 sched2 tapes keys values,
  usable (binp B) -> roomy enc B T keys -> length values = length keys ->
  (exists b, b < nbins B /\ per_bin B < load enc B b keys)
    \/ nbins B * per_bin B < length keys ->
  solve enc vl B T sched1 sched2 tapes keys values (repeat 0%N (nbins B * btotal B)) = None.
Proof.
  intros enc vl B T sched1 sched2 tapes keys values U R LV HO.
  destruct (solve enc vl B T sched1 sched2 tapes keys values (repeat 0%N (nbins B * btotal B)))
    as [out|] eqn:H; [|reflexivity]. exfalso.
  destruct (solve_ok _ _ _ _ _ _ _ (roomy_fits _ _ _ _ _ U LV R) LV _ _ _ H) as (cur & -> & BO).
  assert (X : forall b, b < nbins B -> load enc B b keys <= per_bin B).
  { intros b Hb. apply (bin_out_store _ _ _ _ _ _ _ _ LV (BO b Hb)). }
  destruct HO as [(b & Hb & L)|L]; [specialize (X b Hb); lia|].
  assert (S := sum_loads enc B keys ltac:(destruct R; lia)).
  assert (Y : list_sum (map (fun b => load enc B b keys) (seq 0 (nbins B))) <= nbins B * per_bin B).
  { rewrite <- (seq_length (nbins B) 0) at 2.
    assert (Z : forall b, In b (seq 0 (nbins B)) -> load enc B b keys <= per_bin B).
    { intros b Hb. apply X. apply in_seq in Hb. lia. }
    revert Z. generalize (seq 0 (nbins B)). induction l as [|b l IH]; intros Z; [cbn; lia|].
    cbn [map length]. change (list_sum (load enc B b keys :: map (fun b => load enc B b keys) l))
      with (load enc B b keys + list_sum (map (fun b => load enc B b keys) l)).
    assert (Z1 := Z b (or_introl eq_refl)). assert (Z2 := IH (fun y Hy => Z y (or_intror Hy))). lia. }
  lia.
Qed.
Print Assumptions C72_overfull_refuted.

(** *** A concrete object: 66 keys in 2 bins, one of which has a gap row with the
    binary kind; one or two threads *)
Definition ex_B (k : dense_kind) : baxos :=
  {| items := 66; nbins := 2; bin_cap := 48; per_thread := fun T => if T =? 1 then 48 else 26;
     bwt := 3; bmsize := match k with binary => 44 | gf_128 => 52 end;
     bglimit := 2; bssp := 6; bkind := k |}.
Definition bx_keys : list N := map (fun i => N.of_nat (100 + i)) (seq 0 66).
Definition bx_table : list N := Eval vm_compute in
  map (fun k => N.lxor (ex_mix k) k) (map (fun i => N.of_nat (100 + i)) (seq 0 66)).
Definition bx_enc (x : N) : N := N.lxor x (nth (N.to_nat x - 100) bx_table 0%N).
Definition bx_values : list N := map (fun i => N.of_nat (3000 + 17 * i)) (seq 0 66).

Lemma forall_below n P : forallb P (seq 0 n) = true -> forall i, i < n -> P i = true.
Proof. rewrite forallb_forall. intros H i Hi. apply H. apply in_seq. lia. Qed.

Lemma load_nbins enc B B' b keys : nbins B = nbins B' -> load enc B b keys = load enc B' b keys.
Proof. intros E. unfold load, key_bin. rewrite E. reflexivity. Qed.

Lemma ex_roomy k T : T = 1 \/ T = 2 -> roomy bx_enc (ex_B k) T bx_keys.
Proof.
  intros HT. unfold roomy. change (nbins (ex_B k)) with 2.
  split; [lia|]. split; [lia|]. split; [lia|]. split; [vm_compute; reflexivity|].
  assert (X : forall T, T = 1 \/ T = 2 ->
    (let ls := map (fun b => map (fun t => load bx_enc (ex_B binary) b (thread_keys T t bx_keys)) (seq 0 T)) (seq 0 2) in
     forallb (forallb (fun l => l <=? per_thread (ex_B binary) T)) ls
     && forallb (fun t => 32 <=? length (thread_keys T t bx_keys)) (seq 0 T)
     && forallb (fun b => N.ltb (N.of_nat (load bx_enc (ex_B binary) b bx_keys)) (2 ^ 8)) (seq 0 2))
    = true).
  { intros T0 [->| ->]; vm_compute; reflexivity. }
  specialize (X T HT). cbv zeta in X. apply andb_prop in X. destruct X as [X X3].
  apply andb_prop in X. destruct X as [X1 X2]. split; [|split].
  - intros t Ht. apply Nat.leb_le. apply (forall_below T _ X2 t Ht).
  - intros t b Ht Hb. rewrite (load_nbins _ _ (ex_B binary)) by reflexivity.
    change (per_thread (ex_B k) T) with (per_thread (ex_B binary) T). rewrite forallb_forall in X1.
    assert (I := X1 _ (in_map (fun b => map (fun t => load bx_enc (ex_B binary) b (thread_keys T t bx_keys)) (seq 0 T))
                         (seq 0 2) b (proj2 (in_seq 2 0 b) ltac:(lia)))). cbv beta in I. rewrite forallb_forall in I.
    assert (I2 := I _ (in_map (fun t => load bx_enc (ex_B binary) b (thread_keys T t bx_keys))
                         (seq 0 T) t (proj2 (in_seq T 0 t) ltac:(lia)))). apply Nat.leb_le in I2. exact I2.
  - intros b Hb. assert (W : bits (binp (ex_B k)) = 8%N) by (destruct k; vm_compute; reflexivity).
    rewrite W, (load_nbins _ _ (ex_B binary)) by reflexivity. apply N.ltb_lt. apply (forall_below 2 _ X3 b Hb).
Qed.

Lemma ex_B_usable k : usable (binp (ex_B k)).
Proof. destruct k; unfold usable, int_width; cbn; repeat split; try lia; intros; discriminate. Qed.

Definition gaps_of (r : option (okvs * list N * tape)) : option nat :=
  r <- r ;; Some (length (gap_rows (fst (fst r)))).

Lemma gaps_of_not r n : gaps_of r = Some n -> r <> None.
Proof. intros H ->. discriminate. Qed.
Lemma gaps_of_len r n o out t : gaps_of r = Some n -> r = Some (o, out, t) -> length (gap_rows o) = n.
Proof. intros H ->. cbn [gaps_of bind fst] in H. congruence. Qed.

Lemma bin_blocks enc vl B b keys values t : blocks_ok enc vl keys values t ->
  blocks_ok enc vl (bin_keys enc B b keys values) (bin_values enc B b keys values) t.
Proof.
  intros (B1 & B2 & B3). split; [|split; [|exact B3]].
  - intros x Hx. apply B1. unfold bin_keys in Hx. apply in_map_iff in Hx. destruct Hx as ((x' & v) & <- & Hx).
    unfold bin_pairs in Hx. apply filter_In in Hx. destruct Hx as [Hx _]. apply in_combine_l in Hx. exact Hx.
  - intros v Hv. apply B2. unfold bin_values in Hv. apply in_map_iff in Hv. destruct Hv as ((x' & v') & <- & Hv).
    unfold bin_pairs in Hv. apply filter_In in Hv. destruct Hv as [Hv _]. apply in_combine_r in Hv. exact Hv.
Qed.

(** What the example needs of its stores *)
Lemma example_from B T keys values : usable (binp B) -> roomy bx_enc B T keys ->
  length values = length keys -> blocks_ok bx_enc 1 keys values None ->
  (forall b, b < nbins B -> load bx_enc B b keys <= per_bin B) ->
  (forall b, b < nbins B -> exists n, n < 256 /\ gaps_of (bin_store bx_enc 1 B b keys values None) = Some n) ->
  (forall b, b < nbins B -> good_bin bx_enc 1 B b keys values None)
  /\ exists sched1 sched2 out,
     solve bx_enc 1 B T sched1 sched2 (fun _ => None) keys values
       (repeat 0%N (nbins B * btotal B)) = Some out.
Proof.
  intros U R L BK LD GS. split.
  - intros b Hb o out t' E. split; [left; reflexivity|]. intros _.
    destruct (GS b Hb) as (n & Hn & Eg). split; [apply bin_blocks; exact BK|].
    rewrite (gaps_of_len _ _ _ _ _ Eg E). exact Hn.
  - apply C72_total; auto. intros b Hb. split; [apply LD; exact Hb|].
    destruct (GS b Hb) as (n & _ & Eg). apply (gaps_of_not _ _ Eg).
Qed.

Example C72_example : forall k T, T = 1 \/ T = 2 ->
  usable (binp (ex_B k)) /\ roomy bx_enc (ex_B k) T bx_keys
  /\ length bx_values = length bx_keys
  /\ (forall b, b < nbins (ex_B k) -> good_bin bx_enc 1 (ex_B k) b bx_keys bx_values None)
  /\ exists sched1 sched2 out,
     solve bx_enc 1 (ex_B k) T sched1 sched2 (fun _ => None) bx_keys bx_values
       (repeat 0%N (nbins (ex_B k) * btotal (ex_B k))) = Some out.
Proof.
  intros k T HT. split; [apply ex_B_usable|]. split; [apply ex_roomy; exact HT|]. split; [reflexivity|].
  assert (GS : forall b, b < 2 -> exists n, n < 256 /\ gaps_of (bin_store bx_enc 1 (ex_B k) b bx_keys bx_values None) = Some n).
  { intros b Hb. assert (Eb : b = 0 \/ b = 1) by lia.
    destruct k, Eb as [->| ->]; eexists; (split; [|vm_compute; reflexivity]); repeat constructor. }
  assert (BK : blocks_ok bx_enc 1 bx_keys bx_values None).
  { assert (A : forallb (fun k => N.ltb (key_hash bx_enc k) (2 ^ 128)) bx_keys = true)
      by (vm_compute; reflexivity).
    assert (B : forallb (fun v => N.ltb v (2 ^ (128 * N.of_nat 1))) bx_values = true)
      by (vm_compute; reflexivity).
    rewrite forallb_forall in A, B. split; [|split; [|exact I]].
    + intros x Hx. apply N.ltb_lt. apply A. exact Hx.
    + intros v Hv. apply N.ltb_lt. apply B. exact Hv. }
  apply example_from.
  - apply ex_B_usable.
  - apply ex_roomy. exact HT.
  - reflexivity.
  - exact BK.
  - intros b Hb.
    assert (X : forallb (fun b => load bx_enc (ex_B binary) b bx_keys <=? 48) (seq 0 2) = true)
      by (vm_compute; reflexivity).
    rewrite (load_nbins _ _ (ex_B binary)) by reflexivity. change (per_bin (ex_B k)) with 48.
    apply Nat.leb_le. apply (forall_below 2 _ X b Hb).
  - exact GS.
Qed.

(** [solve] adds to what it finds: with several bins the output must be zero on
    entry, otherwise it returns and the keys decode to something else. *)
Lemma wrong_from (s : option (list N)) (d : list N -> option (list N)) (vs : list N) :
  (out <- s ;; res <- d out ;; Some (forallb (fun p => N.eqb (fst p) (snd p)) (combine res vs)))
  = Some false ->
  exists out res, s = Some out /\ d out = Some res /\ res <> vs.
Proof.
  destruct s as [out|]; [|discriminate]. cbn [bind]. destruct (d out) as [res|] eqn:E; [|discriminate].
  cbn [bind]. intros W. exists out, res. split; [reflexivity|]. split; [exact E|]. intros ->.
  assert (X : forallb (fun p => N.eqb (fst p) (snd p)) (combine vs vs) = true).
  { clear. induction vs as [|v vs IH]; [reflexivity|]. cbn. rewrite N.eqb_refl. exact IH. }
  congruence.
Qed.

Theorem C72_dirty_output_refuted : exists out res,
  solve bx_enc 1 (ex_B binary) 1 (repeat 0 66) [0; 0] (fun _ => None) bx_keys bx_values
    (repeat 5%N (nbins (ex_B binary) * btotal (ex_B binary))) = Some out
  /\ bdecode bx_enc 1 (ex_B binary) 1 (repeat 0 66) bx_keys (repeat 0%N 66) out = Some res
  /\ res <> bx_values.
Proof.
  apply (wrong_from _ (bdecode bx_enc 1 (ex_B binary) 1 (repeat 0 66) bx_keys (repeat 0%N 66))).
  vm_compute. reflexivity.
Qed.
Print Assumptions C72_dirty_output_refuted.

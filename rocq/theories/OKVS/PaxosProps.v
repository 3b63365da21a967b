(** C67 and C68: the oblivious key-value store decodes what was encoded. *)
From Coq Require Import NArith List Bool Lia Arith.
From Coq Require Import ZifyBool ZifyNat ZifyN.
From Verif Require Import Base.Words Base.ListX.
From Verif Require Import OKVS.SparseModel OKVS.SparseSpec OKVS.SparseProofs.
From Verif Require Import OKVS.PaxosModel OKVS.PaxosSpec OKVS.PaxosLists OKVS.PaxosSet
  OKVS.PaxosTri OKVS.PaxosSum OKVS.PaxosFC OKVS.PaxosBack OKVS.PaxosSolve OKVS.PaxosEncode.
Import ListNotations.

Lemma usable_good p : usable p -> good p /\ sized p /\ 0 < wt p /\ 0 < msize p.
Proof.
  intros (A & B & C & D & E & F). split; [|split; [exact F|lia]].
  split; [|exact C]. split; [exact A|]. split; [exact B|]. split; [lia|exact E].
Qed.

Lemma set_dense_map enc keys : set_dense enc keys = map (key_hash enc) keys.
Proof. reflexivity. Qed.

Lemma encode_unfold vl p o values t :
  encode vl p o values t =
  (o <- (if is_nil (tri_rows o) then triangulate p o else Some o) ;;
   (r <- match t with
       | None => Some (repeat 0%N (total p), None)
       | Some t => r <- zero_fill vl o (repeat 0%N (total p)) t ;; Some (fst r, Some (snd r))
       end ;;
   let '(out, t) := r in
   match kind p with
   | binary => backfill_binary vl p o values out t
   | gf_128 => backfill_gf128 vl p o values out t
   end)).
Proof. reflexivity. Qed.

(** What a successful [store] leaves *)
Lemma store_encoded enc vl p keys values t o out t' :
  usable p -> few_keys p keys -> length values = length keys ->
  (kind p = gf_128 -> blocks_ok enc vl keys values t /\ length (gap_rows o) < 256) ->
  store enc vl p keys values t = Some (o, out, t') ->
  exists o1, done p (set_dense enc keys) o1 /\ gap_rows o = gap_rows o1
    /\ tri_rows o = tri_rows o1
    /\ (gap_rows o1 = [] -> o = o1 /\ gap_cols o1 = [] /\ fc o1 = [] /\ emat o1 = [])
    /\ encoded vl p (set_dense enc keys) o1 values (is_some t) out.
Proof.
  intros U FK LV HK H. destruct (usable_good p U) as (G & Sz & Wp & Mp).
  unfold store in H. set (ds := set_dense enc keys) in *.
  assert (Lds : length ds = length keys) by apply map_length.
  destruct (set_keys p ds) as [o0|] eqn:E0; [|discriminate]. cbn [bind] in H.
  destruct (set_keys_spec p ds G Mp) as [S1 S2]; [rewrite Lds; exact FK|].
  assert (Fr : fresh p ds o0).
  { destruct (S1 (S2 o0 E0)) as (o2 & E2 & F2). congruence. }
  rewrite encode_unfold in H.
  assert (N0 : tri_rows o0 = []) by apply Fr.
  rewrite N0 in H. cbn [is_nil] in H.
  assert (T := triangulate_spec p ds o0 G Wp Fr).
  destruct (triangulate p o0) as [o1|]; [|discriminate]. cbn [bind] in H.
  destruct T as (Dn & GC0 & FC0 & EM0). exists o1.
  destruct (encode_gaps _ _ _ _ _ _ _ _ H) as [Eg Et].
  split; [exact Dn|]. split; [exact Eg|]. split; [exact Et|]. split.
  - intros NG. split; [|auto]. apply (encode_same _ _ _ _ _ _ _ _ NG H).
  - apply encode_done with (o' := o) (t' := t'); auto.
    + lia.
    + intros K. destruct (HK K) as ((B1 & B2 & B3) & GS). rewrite Eg in GS.
      split; [exact GS|]. split; [destruct t; exact B3|]. split.
      * apply Forall_forall. intros d Hd. apply in_map_iff in Hd. destruct Hd as (k & <- & Hk).
        apply B1. exact Hk.
      * apply Forall_forall. exact B2.
Qed.

Lemma encoded_lookup enc vl p keys values random o1 out :
  usable p -> few_keys p keys -> length values = length keys ->
  done p (set_dense enc keys) o1 ->
  encoded vl p (set_dense enc keys) o1 values random out ->
  random = false \/ gap_rows o1 = [] ->
  lookup enc vl p out keys = Some values
  /\ forall i, i < length keys -> lookup_1 enc vl p out (nth i keys 0%N) = Some (nth i values 0%N).
Proof.
  intros U FK LV Dn EN HR. destruct (usable_good p U) as (G & Sz & Wp & Mp).
  set (ds := set_dense enc keys) in *.
  assert (Lds : length ds = length keys) by apply map_length.
  assert (V := encoded_decodes vl p ds o1 values random out G Dn).
  rewrite Lds in V. specialize (V LV EN HR). split.
  - unfold lookup. fold ds.
    rewrite (decode_ok vl p out G Wp (en_dense _ _ _ _ _ _ _ EN) (en_len _ _ _ _ _ _ _ EN) ds Mp)
      by (rewrite Lds; exact FK).
    rewrite V. reflexivity.
  - intros i Hi. unfold lookup_1.
    rewrite (decode_1_ok vl p out G Wp (en_dense _ _ _ _ _ _ _ EN) (en_len _ _ _ _ _ _ _ EN)).
    f_equal. rewrite <- V.
    rewrite nth_map' with (d := 0%N) by lia. f_equal.
    unfold ds, set_dense. rewrite nth_map' with (d := 0%N) by exact Hi. reflexivity.
Qed.

(** ** C67 *)

(** Without randomisation: whatever the hash, the keys and the values, if
    [encode] returns then [decode] of the keys, batched or one by one, returns
    the values. *)
Theorem C67_plain : forall enc vl p keys values o out t',
  usable p -> few_keys p keys -> length values = length keys ->
  (kind p = gf_128 -> blocks_ok enc vl keys values None /\ length (gap_rows o) < 256) ->
  store enc vl p keys values None = Some (o, out, t') ->
  lookup enc vl p out keys = Some values
  /\ forall i, i < length keys ->
     lookup_1 enc vl p out (nth i keys 0%N) = Some (nth i values 0%N).
Proof.
  intros enc vl p keys values o out t' U FK LV HK H.
  destruct (store_encoded _ _ _ _ _ _ _ _ _ U FK LV HK H) as (o1 & Dn & _ & _ & _ & EN).
  eapply encoded_lookup; eauto.
Qed.
Print Assumptions C67_plain.

(** With randomisation: the same if the triangulation left no gap row. *)
Theorem C67_random_partial : forall enc vl p keys values t o out t',
  usable p -> few_keys p keys -> length values = length keys ->
  (kind p = gf_128 -> blocks_ok enc vl keys values (Some t)) ->
  store enc vl p keys values (Some t) = Some (o, out, t') ->
  gap_rows o = [] ->
  lookup enc vl p out keys = Some values
  /\ forall i, i < length keys ->
     lookup_1 enc vl p out (nth i keys 0%N) = Some (nth i values 0%N).
Proof.
  intros enc vl p keys values t o out t' U FK LV HK H NG.
  assert (HK' : kind p = gf_128 ->
     blocks_ok enc vl keys values (Some t) /\ length (gap_rows o) < 256).
  { intros K. split; [auto|]. rewrite NG. cbn. lia. }
  destruct (store_encoded _ _ _ _ _ _ _ _ _ U FK LV HK' H) as (o1 & Dn & Eg & _ & _ & EN).
  eapply encoded_lookup; eauto. right. congruence.
Qed.
Print Assumptions C67_random_partial.

(** ... and with gap rows for every key that is not one of them. *)
Theorem C67_random_others_partial : forall enc vl p keys values t o out t',
  usable p -> few_keys p keys -> length values = length keys ->
  (kind p = gf_128 -> blocks_ok enc vl keys values (Some t) /\ length (gap_rows o) < 256) ->
  store enc vl p keys values (Some t) = Some (o, out, t') ->
  forall i, i < length keys -> ~ In i (gap_rows o) ->
  lookup_1 enc vl p out (nth i keys 0%N) = Some (nth i values 0%N).
Proof.
  intros enc vl p keys values t o out t' U FK LV HK H i Hi NI.
  destruct (store_encoded _ _ _ _ _ _ _ _ _ U FK LV HK H) as (o1 & Dn & Eg & _ & _ & EN).
  destruct (usable_good p U) as (G & Sz & Wp & Mp). unfold lookup_1.
  rewrite (decode_1_ok vl p out G Wp (en_dense _ _ _ _ _ _ _ EN) (en_len _ _ _ _ _ _ _ EN)).
  f_equal.
  assert (I : In i (tri_rows o1 ++ gap_rows o1)).
  { apply (d_all _ _ _ Dn). unfold set_dense. rewrite map_length. exact Hi. }
  apply in_app_or in I. destruct I as [I|I]; [|rewrite <- Eg in I; contradiction].
  rewrite <- (en_tri _ _ _ _ _ _ _ EN i I). f_equal. unfold set_dense.
  rewrite nth_map' with (d := 0%N) by exact Hi. reflexivity.
Qed.
Print Assumptions C67_random_others_partial.

(** Batched and scalar decoding agree on every output vector of the right
    length and every list of keys, stored or not. *)
Theorem C67_batch : forall enc vl p out keys,
  usable p -> few_keys p keys -> length out = total p ->
  (kind p = binary -> dsize p <= 128) ->
  exists vs, lookup enc vl p out keys = Some vs /\ length vs = length keys
    /\ forall i, i < length keys ->
       lookup_1 enc vl p out (nth i keys 0%N) = Some (nth i vs 0%N).
Proof.
  intros enc vl p out keys U FK L D. destruct (usable_good p U) as (G & Sz & Wp & Mp).
  assert (DO : dense_ok p) by (unfold dense_ok; destruct (kind p); auto).
  exists (map (decode_value vl p out) (set_dense enc keys)). split; [|split].
  - unfold lookup. apply decode_ok; auto. unfold set_dense. rewrite map_length. exact FK.
  - unfold set_dense. rewrite !map_length. reflexivity.
  - intros i Hi. unfold lookup_1. rewrite decode_1_ok by assumption. f_equal.
    unfold set_dense. rewrite map_map, nth_map' with (d := 0%N) by exact Hi. reflexivity.
Qed.
Print Assumptions C67_batch.

(** [set_keys] and the triangulation succeed for keys with distinct hashes if
    there are at least two more columns than keys and no column is in 200 rows
    or more; if no gap row is left then so does [encode]. *)
Theorem C67_total : forall enc vl p keys values t,
  usable p -> few_keys p keys -> length values = length keys ->
  NoDup (set_dense enc keys) -> length keys + 2 <= msize p ->
  light p (set_dense enc keys) ->
  (kind p = binary -> dsize p <= 128) ->
  (t <> None -> match kind p with binary => vl <= 1 | gf_128 => 1 <= dsize p end) ->
  exists o o1, set_keys p (set_dense enc keys) = Some o /\ triangulate p o = Some o1
    /\ (gap_rows o1 = [] ->
        exists out t', store enc vl p keys values t = Some (o1, out, t')).
Proof.
  intros enc vl p keys values t U FK LV ND LM LI D CR.
  destruct (usable_good p U) as (G & Sz & Wp & Mp). unfold store.
  set (ds := set_dense enc keys) in *.
  assert (Lds : length ds = length keys) by apply map_length.
  destruct (set_keys_spec p ds G Mp) as [S1 _]; [rewrite Lds; exact FK|].
  destruct (S1 LI) as (o & E & Fr). exists o. rewrite E.
  assert (T := triangulate_spec p ds o G Wp Fr).
  destruct (triangulate p o) as [o1|] eqn:ET.
  - exists o1. split; [reflexivity|]. split; [reflexivity|]. intros NG. cbn [bind].
    rewrite encode_unfold. assert (N0 : tri_rows o = []) by apply Fr.
    rewrite N0. cbn [is_nil]. rewrite ET. cbn [bind].
    destruct T as (Dn & GC0 & FC0 & EM0).
    destruct (encode_total vl p ds o1 values t) as (out & t' & EO); auto.
    + lia.
    + unfold dense_ok. destruct (kind p); auto.
    + unfold can_randomise. destruct t; [|exact I]. apply CR. discriminate.
    + exists out, t'. exact EO.
  - exfalso. destruct T as [T|(r & r' & N & Hr & Hr' & EQ)]; [lia|].
    apply N. apply (NoDup_nth ds 0%N); auto.
Qed.
Print Assumptions C67_total.

(** *** A concrete store: 8 keys, 11 sparse columns and a mixing function in
    place of AES (the theorems hold for every function) *)
Definition ex_mix (x : N) : N :=
  let y := N.modulo ((x + 1) * 0x9E3779B97F4A7C15F39CC0605CEDC835) (2 ^ 128) in
  N.modulo (N.lxor y (N.shiftr y 61) * 0xC2B2AE3D27D4EB4F165667B19E3779F9) (2 ^ 128).
Definition ex_table : list N := Eval vm_compute in map (fun i => ex_mix (N.of_nat i)) (seq 0 8).
Definition ex_enc (x : N) : N := nth (N.to_nat x) ex_table 0%N.
Definition ex_p (k : dense_kind) : params :=
  {| bits := 8; wt := 3; msize := 11; glimit := 2; ssp := 6; kind := k |}.
Definition ex_keys : list N := map N.of_nat (seq 0 8).
Definition ex_values : list N := map (fun i => N.of_nat (1000 + i)) (seq 0 8).
Definition ex_tape (i : nat) : N := (N.of_nat (i + 1) * 12345678901234567890123 + 77)%N.
Definition ex_run k t := store ex_enc 1 (ex_p k) ex_keys ex_values t.

Lemma ex_usable k : usable (ex_p k).
Proof. destruct k; unfold usable, int_width; cbn; repeat split; try lia; intros; discriminate. Qed.

(** What a run shows: gap rows and the decoded values *)
Definition shows (p : params) (keys : list N) (r : option (okvs * list N * tape))
  : option (list nat * option (list N)) :=
  r <- r ;; let '(o, out, _) := r in Some (gap_rows o, lookup ex_enc 1 p out keys).

Lemma shows_inv p keys r g vs : shows p keys r = Some (g, vs) ->
  exists o out t, r = Some (o, out, t) /\ gap_rows o = g /\ lookup ex_enc 1 p out keys = vs.
Proof.
  unfold shows. destruct r as [[[o out] t]|]; [|discriminate]. cbn [bind]. intros H.
  exists o, out, t. injection H as <- <-. auto.
Qed.

Definition ex_values2 : list N := map (fun i => N.of_nat (5000 + 7 * i)) (seq 0 8).

(** Two calls of [encode] on the same object *)
Definition ex_twice k :=
  let r := ex_run k None in
  (shows (ex_p k) ex_keys r,
   shows (ex_p k) ex_keys (r <- r ;; encode 1 (ex_p k) (fst (fst r)) ex_values2 None)).

Lemma ex_twice_shows k : exists g vs,
  ex_twice k = (Some ([4], Some ex_values), Some (g, Some vs))
  /\ (nth 4 vs 0 =? nth 4 ex_values2 0)%N = false.
Proof. destruct k; eexists _, _; (split; [vm_compute; reflexivity|reflexivity]). Qed.

Lemma ex_twice_both k : exists g vs,
  shows (ex_p k) ex_keys (ex_run k None) = Some ([4], Some ex_values)
  /\ shows (ex_p k) ex_keys
       (r <- ex_run k None ;; encode 1 (ex_p k) (fst (fst r)) ex_values2 None) = Some (g, Some vs)
  /\ (nth 4 vs 0 =? nth 4 ex_values2 0)%N = false.
Proof.
  destruct (ex_twice_shows k) as (g & vs & E & NE). exists g, vs.
  unfold ex_twice in E. cbv zeta in E. apply pair_equal_spec in E. destruct E as [E1 E2].
  split; [exact E1|]. split; [exact E2|exact NE].
Qed.

Example C67_plain_example : forall k,
  usable (ex_p k) /\ few_keys (ex_p k) ex_keys
  /\ length ex_values = length ex_keys
  /\ blocks_ok ex_enc 1 ex_keys ex_values None
  /\ exists o out t', ex_run k None = Some (o, out, t') /\ gap_rows o = [4].
Proof.
  intros k. split; [apply ex_usable|]. split; [destruct k; reflexivity|]. split; [reflexivity|]. split.
  - assert (A : forallb (fun k => N.ltb (key_hash ex_enc k) (2 ^ 128)) ex_keys = true)
      by (vm_compute; reflexivity).
    assert (B : forallb (fun v => N.ltb v (2 ^ (128 * N.of_nat 1))) ex_values = true)
      by (vm_compute; reflexivity).
    rewrite forallb_forall in A, B. split; [|split; [|exact I]].
    + intros x Hx. apply N.ltb_lt. apply A. exact Hx.
    + intros v Hv. apply N.ltb_lt. apply B. exact Hv.
  - destruct (ex_twice_both k) as (g & vs & S & _).
    apply shows_inv in S. destruct S as (o & out & t' & E & Eg & _). exists o, out, t'. auto.
Qed.

(** 8 keys in 12 columns: no gap row, with randomisation *)
Definition ex_q (k : dense_kind) : params :=
  {| bits := 8; wt := 3; msize := 12; glimit := 2; ssp := 6; kind := k |}.

Example C67_random_example : forall k,
  usable (ex_q k) /\ few_keys (ex_q k) (firstn 8 ex_keys)
  /\ exists o out t',
     store ex_enc 1 (ex_q k) (firstn 8 ex_keys) (firstn 8 ex_values) (Some ex_tape)
     = Some (o, out, t') /\ gap_rows o = [].
Proof.
  intros k. split; [|split].
  - destruct k; unfold usable, int_width; cbn; repeat split; try lia; intros; discriminate.
  - destruct k; reflexivity.
  - assert (S : shows (ex_q k) (firstn 8 ex_keys)
        (store ex_enc 1 (ex_q k) (firstn 8 ex_keys) (firstn 8 ex_values) (Some ex_tape))
        = Some ([], Some (firstn 8 ex_values))).
    { destruct k; vm_compute; reflexivity. }
    apply shows_inv in S. destruct S as (o & out & t' & E & Eg & _). exists o, out, t'. auto.
Qed.

Lemma light_by p ds :
  (let rs := map (row_of p) ds in
   forallb (fun c => length (col_of c 0 rs) <? 200) (seq 0 (msize p))) = true ->
  light p ds.
Proof.
  cbv zeta. rewrite forallb_forall. intros H c Hc. apply Nat.ltb_lt. apply H. apply in_seq. lia.
Qed.

Example C67_total_example : forall k,
  NoDup (set_dense ex_enc (firstn 8 ex_keys))
  /\ length (firstn 8 ex_keys) + 2 <= msize (ex_q k)
  /\ light (ex_q k) (set_dense ex_enc (firstn 8 ex_keys)).
Proof.
  intros k. split; [|split].
  - apply (NoDup_count_occ' N.eq_dec). intros x Hx.
    assert (B : (let l := set_dense ex_enc (firstn 8 ex_keys) in
                 forallb (fun x => count_occ N.eq_dec l x =? 1) l) = true)
      by (vm_compute; reflexivity).
    cbv zeta in B.
    rewrite forallb_forall in B. apply Nat.eqb_eq. apply B. exact Hx.
  - destruct k; cbn; lia.
  - apply light_by. destruct k; vm_compute; reflexivity.
Qed.

(** With a gap row, randomising the free columns destroys its value: [encode]
    returns, but the key decodes to something else. Both kinds. *)
Theorem C67_random_refuted : forall k,
  exists o out t' vs, ex_run k (Some ex_tape) = Some (o, out, t')
    /\ lookup ex_enc 1 (ex_p k) out ex_keys = Some vs
    /\ nth 4 vs 0%N <> nth 4 ex_values 0%N.
Proof.
  intros k.
  assert (S : exists g vs, shows (ex_p k) ex_keys (ex_run k (Some ex_tape)) = Some (g, Some vs)
                         /\ (nth 4 vs 0 =? nth 4 ex_values 0)%N = false).
  { destruct k; eexists _, _;
      (split; [vm_compute; reflexivity|reflexivity]). }
  destruct S as (g & vs & S & NE). apply shows_inv in S.
  destruct S as (o & out & t' & E & _ & El). exists o, out, t', vs.
  split; [exact E|]. split; [exact El|]. apply N.eqb_neq. exact NE.
Qed.
Print Assumptions C67_random_refuted.

(** ** C68 *)

(** [encode] again on the same object: correct if there is no gap row. *)
Theorem C68_no_gaps_partial : forall enc vl p keys values t o out t1 values2 t2 o2 out2 t3,
  usable p -> few_keys p keys -> keys <> [] ->
  length values = length keys -> length values2 = length keys ->
  (kind p = gf_128 -> blocks_ok enc vl keys values t /\ blocks_ok enc vl keys values2 t2) ->
  store enc vl p keys values t = Some (o, out, t1) ->
  gap_rows o = [] ->
  encode vl p o values2 t2 = Some (o2, out2, t3) ->
  o2 = o
  /\ lookup enc vl p out2 keys = Some values2
  /\ forall i, i < length keys ->
     lookup_1 enc vl p out2 (nth i keys 0%N) = Some (nth i values2 0%N).
Proof.
  intros enc vl p keys values t o out t1 values2 t2 o2 out2 t3 U FK NE LV LV2 HK H NG H2.
  assert (HK' : kind p = gf_128 ->
     blocks_ok enc vl keys values t /\ length (gap_rows o) < 256).
  { intros K. split; [apply HK; exact K|]. rewrite NG. cbn. lia. }
  destruct (store_encoded _ _ _ _ _ _ _ _ _ U FK LV HK' H) as (o1 & Dn & Eg & _ & Same & _).
  rewrite NG in Eg. destruct (Same (eq_sym Eg)) as (-> & GC0 & FC0 & EM0).
  destruct (usable_good p U) as (G & Sz & Wp & Mp).
  rewrite encode_unfold in H2.
  destruct (tri_rows o1) as [|r rs] eqn:ET.
  { exfalso. destruct keys as [|k keys]; [apply NE; reflexivity|].
    assert (I : In 0 (tri_rows o1 ++ gap_rows o1)) by (apply (d_all _ _ _ Dn); cbn; lia).
    rewrite ET, NG in I. exact I. }
  cbn [is_nil bind] in H2.
  split; [apply (encode_same _ _ _ _ _ _ _ _ NG H2)|].
  assert (EN : encoded vl p (set_dense enc keys) o1 values2 (is_some t2) out2).
  { apply encode_done with (o' := o2) (t' := t3); auto.
    - unfold set_dense. rewrite map_length. lia.
    - intros K. destruct (HK K) as (_ & B1 & B2 & B3). split; [rewrite NG; cbn; lia|].
      split; [destruct t2; exact B3|]. split.
      * apply Forall_forall. intros d Hd. apply in_map_iff in Hd. destruct Hd as (k & <- & Hk).
        apply B1. exact Hk.
      * apply Forall_forall. exact B2. }
  eapply encoded_lookup; eauto.
Qed.
Print Assumptions C68_no_gaps_partial.

Example C68_example : forall k, exists o out t' r,
  store ex_enc 1 (ex_q k) (firstn 8 ex_keys) (firstn 8 ex_values) (Some ex_tape)
    = Some (o, out, t') /\ gap_rows o = []
  /\ encode 1 (ex_q k) o (rev (firstn 8 ex_values)) None = Some r.
Proof.
  intros k. destruct (C67_random_example k) as (U & FK & o & out & t' & E & Eg).
  exists o, out, t'.
  assert (S : shows (ex_q k) (firstn 8 ex_keys)
      (r <- store ex_enc 1 (ex_q k) (firstn 8 ex_keys) (firstn 8 ex_values) (Some ex_tape) ;;
       encode 1 (ex_q k) (fst (fst r)) (rev (firstn 8 ex_values)) None)
      = Some ([], Some (rev (firstn 8 ex_values)))).
  { destruct k; vm_compute; reflexivity. }
  apply shows_inv in S. destruct S as (o2 & out2 & t2 & E2 & _). rewrite E in E2.
  exists (o2, out2, t2). auto.
Qed.

(** With a gap row the second encoding is wrong, for both kinds and without any
    randomisation, although the first one is right. *)
Theorem C68_refuted : forall k,
  exists o out t1 o2 out2 t2 vs,
    ex_run k None = Some (o, out, t1)
    /\ lookup ex_enc 1 (ex_p k) out ex_keys = Some ex_values
    /\ encode 1 (ex_p k) o ex_values2 None = Some (o2, out2, t2)
    /\ lookup ex_enc 1 (ex_p k) out2 ex_keys = Some vs
    /\ nth 4 vs 0%N <> nth 4 ex_values2 0%N.
Proof.
  intros k.
  destruct (ex_twice_both k) as (g & vs & S1 & S & NE).
  apply shows_inv in S1. destruct S1 as (o & out & t1 & E & _ & El). apply shows_inv in S.
  destruct S as (o2 & out2 & t2 & E2 & _ & El2). rewrite E in E2. cbn [bind fst] in E2.
  exists o, out, t1, o2, out2, t2, vs.
  split; [exact E|]. split; [exact El|]. split; [exact E2|]. split; [exact El2|].
  apply N.eqb_neq. exact NE.
Qed.
Print Assumptions C68_refuted.

(** Sorting the keys into the bins *)
From Coq Require Import NArith List Bool Lia Arith Permutation.
From Coq Require Import ZifyBool ZifyNat ZifyN.
From Verif Require Import Base.Words Base.ListX OKVS.DivModel OKVS.DivProps OKVS.SparseModel
  OKVS.PaxosModel OKVS.BaxosModel OKVS.BaxosLists.
Import ListNotations.

Section Sort.
Variable enc : N -> N.
Variable vl : nat.
Variable B : baxos.
Notation nb := (nbins B).
Notation hash k := (N.lxor (enc k) k).

Definition bin_of (h : N) : nat := N.to_nat (N.modulo (get_bin_idx h) (N.of_nat nb)).

Lemma get_bin_idx_lt h : (get_bin_idx h < 2 ^ 64)%N.
Proof.
  unfold get_bin_idx. apply lxor_lt; [apply lxor_lt|].
  - apply N.mod_lt. discriminate.
  - apply N.mod_lt. discriminate.
  - apply N.lt_trans with (2 ^ 32)%N; [|reflexivity]. apply N.mod_lt. discriminate.
Qed.

Lemma bin_of_lt h : 0 < nb -> bin_of h < nb.
Proof.
  intros H. unfold bin_of.
  assert (A := N.mod_lt (get_bin_idx h) (N.of_nat nb)). lia.
Qed.

(** What a thread finds *)
Definition what (e : entry) : nat * (N * N) := (N.to_nat (e_bin e), (e_val e, e_hash e)).
Definition truth (keys values : list N) (i : nat) : nat * (N * N) :=
  (bin_of (hash (nth i keys 0%N)), (nth i values 0%N, hash (nth i keys 0%N))).

Hypothesis Hnb : 0 < nb.
Hypothesis Hnb64 : (N.of_nat nb < 2 ^ 64)%N.

Lemma domod_bins dv (hs : list N) : gen_divider divq (N.of_nat nb) = Some dv ->
  length hs = 32 ->
  doMod32 (map get_bin_idx hs) dv (N.of_nat nb)
  = Some (map (fun h => N.modulo (get_bin_idx h) (N.of_nat nb)) hs).
Proof.
  intros E L.
  destruct (C65_mod32 (N.of_nat nb) (map get_bin_idx hs)) as (dv' & E' & D).
  - lia.
  - exact Hnb64.
  - rewrite map_length. lia.
  - intros v Hv. apply in_map_iff in Hv. destruct Hv as (h & <- & _). apply get_bin_idx_lt.
  - assert (dv' = dv) by congruence. subst dv'. rewrite D. f_equal.
    rewrite firstn_all2 by (rewrite map_length; lia).
    rewrite skipn_all2 by (rewrite map_length; lia). rewrite app_nil_r, map_map. reflexivity.
Qed.

Lemma main_loop_long dv keys values begin len :
  gen_divider divq (N.of_nat nb) = Some dv ->
  begin + len <= length keys -> length values = length keys ->
  (N.of_nat (length keys) < 2 ^ 56)%N -> 32 <= len ->
  forall fuel i, len < i + 32 * fuel -> i <= len ->
  exists es i', main_loop enc B fuel dv keys values begin len i = Some (es, i')
    /\ i <= i' <= len
    /\ map what es = map (truth keys values) (seq (begin + i) (i' - i)).
Proof.
  intros ED LK LV B56 L32. induction fuel as [|fuel IH]; intros i F Hi.
  - lia.
  - cbn [main_loop].
    assert (ES : sub64 (N.of_nat len) 32 = (N.of_nat (len - 32))).
    { unfold sub64, two64.
      replace (N.of_nat len + 2 ^ 64 - 32)%N with (N.of_nat (len - 32) + 1 * 2 ^ 64)%N by lia.
      rewrite N.mod_add by discriminate. apply N.mod_small.
      assert ((2 ^ 56 < 2 ^ 64)%N) by reflexivity. lia. }
    rewrite ES. destruct (N.leb_spec (N.of_nat i) (N.of_nat (len - 32))) as [C|C].
    + rewrite slice_ok by lia. cbn [bind].
      rewrite (slice_seq keys 0%N) by lia.
      rewrite (domod_bins dv _ ED) by (unfold set_dense; rewrite !map_length, seq_length; reflexivity).
      cbn [bind]. rewrite slice_ok by lia. cbn [bind].
      rewrite (slice_seq values 0%N) by lia.
      destruct (IH (i + 32)) as (es & i' & EE & Hi' & HE); [lia|lia|].
      rewrite EE. cbn [bind fst snd].
      eexists _, i'. split; [reflexivity|]. split; [lia|].
      rewrite map_app, HE. replace (i' - i) with (32 + (i' - (i + 32))) by lia.
      rewrite seq_app, map_app. replace (begin + i + 32) with (begin + (i + 32)) by lia.
      apply (f_equal (fun x => x ++ _)).
      unfold set_dense. rewrite !map_map.
      generalize (seq (begin + i) 32). intros l. induction l as [|j l IHl]; [reflexivity|].
      cbn [map combine map2]. f_equal. exact IHl.
    + exists [], i. split; [reflexivity|]. split; [lia|]. rewrite Nat.sub_diag. reflexivity.
Qed.

Lemma main_loop_short dv keys values begin len :
  (N.of_nat (length keys) < 2 ^ 56)%N -> len < 32 ->
  forall fuel i, i <= length keys ->
  main_loop enc B fuel dv keys values begin len i = None.
Proof.
  intros B56 L32. induction fuel as [|fuel IH]; intros i Hi; cbn [main_loop].
  - assert (ES : (N.of_nat i <=? sub64 (N.of_nat len) 32)%N = true).
    { unfold sub64, two64. rewrite N.mod_small by lia. assert ((2 ^ 56 < 2 ^ 63)%N) by reflexivity. lia. }
    rewrite ES. reflexivity.
  - assert (ES : (N.of_nat i <=? sub64 (N.of_nat len) 32)%N = true).
    { unfold sub64, two64. rewrite N.mod_small by lia. assert ((2 ^ 56 < 2 ^ 63)%N) by reflexivity. lia. }
    rewrite ES. destruct (Nat.le_gt_cases (begin + i + 32) (length keys)) as [C|C].
    + rewrite slice_ok by lia. cbn [bind].
      destruct (doMod32 _ _ _); [|reflexivity]. cbn [bind].
      destruct (slice values _ _); [|reflexivity]. cbn [bind].
      rewrite IH by lia. reflexivity.
    + rewrite slice_none by lia. reflexivity.
Qed.

Lemma divider_ok : exists dv, gen_divider divq (N.of_nat nb) = Some dv.
Proof.
  destruct (C65_division (N.of_nat nb)) as (dv & E & _); [lia|exact Hnb64|]. eauto.
Qed.

Lemma entries_ok keys values T t : 0 < T -> t < T -> length values = length keys ->
  (N.of_nat (length keys) < 2 ^ 56)%N -> 32 <= t_len (length keys) T t ->
  exists es, thread_entries enc B keys values T t = Some es
    /\ map what es = map (truth keys values) (seq (t_begin (length keys) T t) (t_len (length keys) T t)).
Proof.
  intros HT Ht LV B56 L32. assert (LE := t_end_le (length keys) T t HT Ht).
  unfold thread_entries. destruct divider_ok as (dv & ED). rewrite ED. cbn [bind].
  destruct (main_loop_long dv keys values (t_begin (length keys) T t) (t_len (length keys) T t)
    ED LE LV B56 L32 (S (length keys)) 0) as (es & i' & EE & Hi & HE); [lia|lia|].
  rewrite EE. cbn [bind fst snd].
  assert (TE : map (tail_entry enc B keys values)
      (seq (t_begin (length keys) T t + i') (t_len (length keys) T t - i'))
    = map Some (map (fun i => {| e_check := true;
         e_bin := N.modulo (get_bin_idx (hash (nth i keys 0%N))) (N.of_nat nb);
         e_val := nth i values 0%N; e_hash := hash (nth i keys 0%N) |})
      (seq (t_begin (length keys) T t + i') (t_len (length keys) T t - i')))).
  { rewrite map_map. apply map_ext_in. intros i Hin. apply in_seq in Hin.
    unfold tail_entry, rd. rewrite (nth_error_nth' keys 0%N) by lia. cbn [bind].
    rewrite (nth_error_nth' values 0%N) by lia. reflexivity. }
  rewrite TE, all_some_Some. cbn [bind]. eexists. split; [reflexivity|].
  rewrite map_app, HE, map_map.
  replace (t_len (length keys) T t) with (i' + (t_len (length keys) T t - i')) at 2 by lia.
  rewrite seq_app, map_app. rewrite Nat.add_0_r, Nat.sub_0_r. reflexivity.
Qed.

Lemma entries_short keys values T t :
  (N.of_nat (length keys) < 2 ^ 56)%N -> t_len (length keys) T t < 32 ->
  thread_entries enc B keys values T t = None.
Proof.
  intros B56 L. unfold thread_entries. destruct divider_ok as (dv & ED). rewrite ED. cbn [bind].
  rewrite main_loop_short by (assumption || lia). reflexivity.
Qed.

(** ** Placing the entries in the table *)
Variable T : nat.
Notation seg := (per_thread B T).
Definition in_bin (b : nat) (w : nat * (N * N)) : bool := Nat.eqb (fst w) b.
Definition cells (b : nat) (l : list (nat * (N * N))) : list (N * N) := map snd (filter (in_bin b) l).

Definition limit : nat := Nat.min seg (N.to_nat (2 ^ width (bmsize B) - 1)).

Lemma cells_cons b w l : cells b (w :: l) = if fst w =? b then snd w :: cells b l else cells b l.
Proof. unfold cells, in_bin. cbn [filter]. destruct (fst w =? b); reflexivity. Qed.

Lemma cells_app b l l' : cells b (l ++ l') = cells b l ++ cells b l'.
Proof. unfold cells. rewrite filter_app, map_app. reflexivity. Qed.

Lemma place_ok t : forall es sizes,
  length sizes = nb -> Forall (fun e => N.to_nat (e_bin e) < nb) es ->
  (forall b, b < nb -> nth b sizes 0 + length (cells b (map what es)) <= seg) ->
  (forall b, b < nb -> N.lt (N.of_nat (nth b sizes 0 + length (cells b (map what es)))) (2 ^ width (bmsize B))) ->
  exists ws sizes', place B T t es sizes = Some (ws, sizes')
    /\ length sizes' = nb
    /\ (forall b, b < nb -> nth b sizes' 0 = nth b sizes 0 + length (cells b (map what es)))
    /\ (forall a v, In (a, v) ws <-> exists b j, b < nb /\ j < length (cells b (map what es))
          /\ a = cell_addr B T t b (nth b sizes 0 + j)
          /\ v = Some (nth j (cells b (map what es)) (0, 0)%N)).
Proof.
  induction es as [|e es IH]; intros sizes LS FB FS FW.
  - exists [], sizes. split; [reflexivity|]. split; [exact LS|]. split; [intros; cbn; lia|].
    intros a v. split; [intros []|]. intros (b & j & _ & Hj & _). cbn in Hj. lia.
  - apply Forall_cons_iff in FB. destruct FB as [Fb FB].
    set (b0 := N.to_nat (e_bin e)) in *. cbn [place]. fold b0.
    unfold rd. rewrite (nth_error_nth' sizes 0) by lia. cbn [bind].
    rewrite wr_ok by lia. cbn [bind].
    assert (E0 : forall b, b < nb -> nth b (upd sizes b0 (S (nth b0 sizes 0))) 0 + length (cells b (map what es))
                   = nth b sizes 0 + length (cells b (map what (e :: es)))).
    { intros b Hb. cbn [map]. rewrite cells_cons. change (fst (what e)) with b0.
      destruct (Nat.eqb_spec b0 b) as [->|N].
      - rewrite nth_upd_same by lia. cbn [length]. lia.
      - rewrite nth_upd_other by lia. reflexivity. }
    assert (E1 := E0 b0 Fb). rewrite nth_upd_same in E1 by lia.
    assert (EI : N.to_nat (idx (width (bmsize B)) (N.of_nat (S (nth b0 sizes 0)))) = S (nth b0 sizes 0)).
    { unfold idx. rewrite N.mod_small; [lia|]. specialize (FW b0 Fb). lia. }
    rewrite EI.
    assert (EC : (e_check e && (seg <? nth b0 sizes 0)) = false).
    { specialize (FS b0 Fb). lia. }
    rewrite EC.
    destruct (IH (upd sizes b0 (S (nth b0 sizes 0)))) as (ws & sizes' & EP & LS' & NS & IN).
    + rewrite upd_length. exact LS.
    + exact FB.
    + intros b Hb. rewrite E0 by exact Hb. apply FS. exact Hb.
    + intros b Hb. rewrite E0 by exact Hb. apply FW. exact Hb.
    + rewrite EP. cbn [bind fst snd]. eexists _, sizes'. split; [reflexivity|].
      split; [exact LS'|]. split; [intros b Hb; rewrite NS, E0 by exact Hb; reflexivity|].
      intros a v. cbn [In]. rewrite IN. split.
      * intros [H|(b & j & Hb & Hj & Ha & Hv)].
        -- injection H as <- <-. exists b0, 0. split; [exact Fb|].
           cbn [map]. rewrite cells_cons. change (fst (what e)) with b0. rewrite Nat.eqb_refl.
           cbn [length nth]. split; [lia|]. rewrite Nat.add_0_r. split; reflexivity.
        -- destruct (Nat.eqb_spec b0 b) as [<-|N].
           ++ exists b0, (S j). split; [exact Fb|]. cbn [map]. rewrite cells_cons.
              change (fst (what e)) with b0. rewrite Nat.eqb_refl. cbn [length nth].
              split; [lia|]. split; [|exact Hv]. rewrite Ha. rewrite nth_upd_same by lia. f_equal. lia.
           ++ exists b, j. cbn [map]. rewrite cells_cons. change (fst (what e)) with b0.
              replace (b0 =? b) with false by lia. rewrite nth_upd_other in Ha by lia. auto.
      * intros (b & j & Hb & Hj & Ha & Hv). cbn [map] in Hj, Hv. rewrite cells_cons in Hj, Hv.
        change (fst (what e)) with b0 in Hj, Hv.
        destruct (Nat.eqb_spec b0 b) as [<-|N].
        -- destruct j as [|j].
           ++ left. rewrite Nat.add_0_r in Ha. subst a v. reflexivity.
           ++ right. exists b0, j. cbn [length nth] in Hj, Hv. split; [exact Hb|]. split; [lia|].
              split; [|exact Hv]. rewrite nth_upd_same by lia. rewrite Ha. f_equal. lia.
        -- right. exists b, j. rewrite nth_upd_other by lia. auto.
Qed.

Lemma cell_addr_inj t b s t' b' s' : b < 256 -> b' < 256 -> t < T -> t' < T -> s < seg -> s' < seg ->
  cell_addr B T t b s = cell_addr B T t' b' s' -> t = t' /\ b = b' /\ s = s'.
Proof.
  intros Hb Hb' Ht Ht' Hs Hs'. unfold cell_addr. rewrite !Nat.mod_small by assumption.
  intros H.
  assert (R : t * seg + s < T * seg) by nia.
  assert (R' : t' * seg + s' < T * seg) by nia.
  assert (b = b').
  { replace (b * (T * seg) + t * seg + s) with (b * (T * seg) + (t * seg + s)) in H by lia.
    replace (b' * (T * seg) + t' * seg + s') with (b' * (T * seg) + (t' * seg + s')) in H by lia.
    destruct (Nat.lt_trichotomy b b') as [L|[L|L]]; [exfalso; nia|exact L|exfalso; nia]. }
  subst b'. assert (t * seg + s = t' * seg + s') by lia.
  destruct (Nat.lt_trichotomy t t') as [L|[L|L]]; [exfalso; nia| |exfalso; nia].
  subst t'. split; [reflexivity|]. split; [reflexivity|]. lia.
Qed.

Lemma cell_addr_lt t b s : b < nb -> nb <= 256 -> t < T -> s < seg ->
  cell_addr B T t b s < nb * (T * seg).
Proof.
  intros Hb H6 Ht Hs. unfold cell_addr. rewrite Nat.mod_small by lia.
  assert (R : t * seg + s < T * seg) by nia. nia.
Qed.

(** ** The first section *)
Variable keys values : list N.
Hypothesis HT : 0 < T.
Hypothesis LV : length values = length keys.
Hypothesis B56 : (N.of_nat (length keys) < 2 ^ 56)%N.
Hypothesis H256 : nb <= 256.

Definition part (t : nat) : list (nat * (N * N)) :=
  map (truth keys values) (seq (t_begin (length keys) T t) (t_len (length keys) T t)).

(** Every thread has 32 keys, and its keys fit into the table. *)
Hypothesis L32 : forall t, t < T -> 32 <= t_len (length keys) T t.
Hypothesis FS : forall t b, t < T -> b < nb -> length (cells b (part t)) <= seg.
Hypothesis FW : forall t b, t < T -> b < nb ->
  (N.of_nat (length (cells b (part t))) < 2 ^ width (bmsize B))%N.

Lemma writes_ok t : t < T ->
  exists ws sizes, thread_writes enc B keys values T t = Some (ws, sizes)
    /\ length sizes = nb
    /\ (forall b, b < nb -> nth b sizes 0 = length (cells b (part t)))
    /\ (forall a v, In (a, v) ws <-> exists b j, b < nb /\ j < length (cells b (part t))
          /\ a = cell_addr B T t b j /\ v = Some (nth j (cells b (part t)) (0, 0)%N)).
Proof.
  intros Ht. destruct (entries_ok keys values T t HT Ht LV B56 (L32 t Ht)) as (es & EE & HE).
  unfold thread_writes. rewrite EE. cbn [bind]. fold (part t) in HE.
  destruct (place_ok t es (repeat 0 nb)) as (ws & sizes & EP & LS & NS & IN).
  - apply repeat_length.
  - apply Forall_forall. intros e He.
    assert (I : In (what e) (part t)) by (rewrite <- HE; apply in_map; exact He).
    unfold part in I. apply in_map_iff in I. destruct I as (i & E & _).
    apply (f_equal fst) in E. cbn [what fst truth] in E. rewrite <- E. apply bin_of_lt. exact Hnb.
  - intros b Hb. rewrite nth_repeat, HE. apply FS; assumption.
  - intros b Hb. rewrite nth_repeat, HE. apply FW; assumption.
  - rewrite EP. exists ws, sizes. split; [reflexivity|]. split; [exact LS|].
    rewrite HE in NS, IN. split.
    + intros b Hb. rewrite NS by exact Hb. rewrite nth_repeat. reflexivity.
    + intros a v. rewrite IN. split; intros (b & j & H1 & H2 & H3 & H4); exists b, j;
        rewrite nth_repeat in *; auto.
Qed.

Lemma first_section : exists rs,
  all_some (map (thread_writes enc B keys values T) (seq 0 T)) = Some rs
  /\ length rs = T
  /\ (forall t b, t < T -> b < nb -> rd (nth t (map snd rs) []) b = Some (length (cells b (part t))))
  /\ (forall sched ws, interleave sched (map fst rs) = Some ws ->
      exists tab, apply_writes ws (repeat None (nb * (T * seg))) = Some tab
        /\ length tab = nb * (T * seg)
        /\ forall t b j, t < T -> b < nb -> j < length (cells b (part t)) ->
           nth_error tab (cell_addr B T t b j) = Some (Some (nth j (cells b (part t)) (0, 0)%N))).
Proof.
  set (f := fun t => match thread_writes enc B keys values T t with Some r => r | None => ([], []) end).
  assert (EF : map (thread_writes enc B keys values T) (seq 0 T) = map Some (map f (seq 0 T))).
  { rewrite map_map. apply map_ext_in. intros t Ht. apply in_seq in Ht.
    destruct (writes_ok t) as (ws & sizes & E & _); [lia|]. unfold f. rewrite E. reflexivity. }
  exists (map f (seq 0 T)). rewrite EF, all_some_Some. split; [reflexivity|].
  split; [rewrite map_length, seq_length; reflexivity|]. split.
  - intros t b Ht Hb. rewrite map_map.
    rewrite nth_map' with (d := 0) by (rewrite seq_length; exact Ht). rewrite nth_seq' by exact Ht.
    cbn [Nat.add]. destruct (writes_ok t Ht) as (ws & sizes & E & LS & NS & _).
    unfold f. rewrite E. cbn [snd]. unfold rd. rewrite (nth_error_nth' sizes 0) by lia.
    rewrite NS by exact Hb. reflexivity.
  - intros sched ws EI. apply interleave_perm in EI. rewrite map_map in EI.
    assert (IN : forall a v, In (a, v) ws <-> exists t b j, t < T /\ b < nb /\ j < length (cells b (part t))
                 /\ a = cell_addr B T t b j /\ v = Some (nth j (cells b (part t)) (0, 0)%N)).
    { intros a v. split.
      - intros H. apply (Permutation_in _ EI) in H. apply in_concat in H.
        destruct H as (l & Hl & H). apply in_map_iff in Hl. destruct Hl as (t & <- & Ht).
        apply in_seq in Ht. destruct (writes_ok t) as (ws' & sizes & E & _ & _ & I); [lia|].
        unfold f in H. rewrite E in H. cbn [fst] in H. apply I in H.
        destruct H as (b & j & H). exists t, b, j. split; [lia|exact H].
      - intros (t & b & j & Ht & H). apply (Permutation_in _ (Permutation_sym EI)).
        apply in_concat. exists (fst (f t)). split.
        + apply in_map_iff. exists t. split; [reflexivity|]. apply in_seq. lia.
        + destruct (writes_ok t Ht) as (ws' & sizes & E & _ & _ & I).
          unfold f. rewrite E. cbn [fst]. apply I. exists b, j. exact H. }
    destruct (apply_writes_ok ws (repeat (@None (N * N)) (nb * (T * seg)))) as (tab & EA & LA & C & _).
    { intros a v H. apply IN in H. destruct H as (t & b & j & Ht & Hb & Hj & -> & _).
      rewrite repeat_length. apply cell_addr_lt; auto. specialize (FS t b Ht Hb). lia. }
    exists tab. split; [exact EA|]. rewrite repeat_length in LA. split; [exact LA|].
    intros t b j Ht Hb Hj. apply C.
    + intros a v v' H H'. apply IN in H. apply IN in H'.
      destruct H as (t1 & b1 & j1 & A1 & A2 & A3 & A4 & ->).
      destruct H' as (t2 & b2 & j2 & B1 & B2 & B3 & B4 & ->).
      assert (F1 := FS t1 b1 A1 A2). assert (F2 := FS t2 b2 B1 B2).
      rewrite A4 in B4. apply cell_addr_inj in B4; try lia. destruct B4 as (-> & -> & ->). reflexivity.
    + apply IN. exists t, b, j. auto.
Qed.
End Sort.

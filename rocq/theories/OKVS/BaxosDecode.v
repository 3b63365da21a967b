(** [decode] with several bins *)
From Coq Require Import NArith List Bool Lia Arith Permutation.
From Coq Require Import ZifyBool ZifyNat ZifyN.
From Verif Require Import Base.Words Base.ListX OKVS.DivModel OKVS.DivProps OKVS.SparseModel
  OKVS.PaxosModel OKVS.PaxosSet OKVS.PaxosBack
  OKVS.BaxosModel OKVS.BaxosLists OKVS.BaxosSort OKVS.BaxosBins OKVS.BaxosSolve.
Import ListNotations.

Lemma concat_upd {A} : forall (l : list (list A)) b v, b < length l ->
  Permutation (concat (upd l b v) ++ nth b l []) (concat l ++ v).
Proof.
  induction l as [|x l IH]; intros b v H; [cbn in H; lia|]. destruct b as [|b]; cbn [upd concat nth].
  - rewrite <- app_assoc. rewrite (Permutation_app_comm v). rewrite <- app_assoc.
    rewrite (Permutation_app_comm (concat l)). rewrite <- !app_assoc.
    apply Permutation_app_head. apply Permutation_app_comm.
  - rewrite <- !app_assoc. apply Permutation_app_head. apply IH. cbn in H. lia.
Qed.

Lemma NoDup_app_r {A} (l l' : list A) : NoDup (l ++ l') -> NoDup l'.
Proof. induction l as [|x l IH]; [auto|]. cbn. intros H. apply NoDup_cons_iff in H. tauto. Qed.

Section Decode.
Variable enc : N -> N.
Variable vl : nat.
Variable B : baxos.
Notation nb := (nbins B).
Notation p := (binp B).
Hypothesis G : good p.
Hypothesis Wp : 0 < bwt B.
Hypothesis Mp : 0 < bmsize B.
Hypothesis D : dense_ok p.

Lemma decode_buf_ok out ds buf : length out = total p ->
  N.lt (N.of_nat (length ds)) (2 ^ bits p) ->
  decode_buf vl B out ds buf = Some (map (decode_value vl p out) ds ++ skipn (length ds) buf).
Proof.
  intros L FK. assert (E := decode_ok vl p out G Wp D L ds Mp FK).
  unfold decode in E. unfold decode_buf.
  destruct (Nat.eqb (msize p) 0); [discriminate|]. cbv zeta in *.
  assert (EN : N.to_nat (idx (bits p) (N.of_nat (length ds))) = length ds).
  { unfold idx. rewrite N.mod_small by exact FK. lia. }
  rewrite EN in *. apply bind_inv in E. destruct E as (a & EA & E). rewrite EA. cbn [bind].
  rewrite Nat.sub_diag in E. cbn [repeat] in E. rewrite app_nil_r in E. congruence.
Qed.

Hypothesis Hnb : 0 < nb.
Hypothesis Hnb64 : (N.of_nat nb < 2 ^ 64)%N.
Hypothesis HG : bglimit B + bssp B < 256.

Lemma btotal_is : btotal B = total p.
Proof.
  clear - HG. unfold btotal, total, dsize. cbn [binp glimit ssp kind msize].
  rewrite Nat.mod_small; [reflexivity|]. destruct (bkind B); lia.
Qed.
Variable cur : nat -> list N.
Hypothesis LC : forall b, length (cur b) = total p.

(** What a hashed key decodes to *)
Definition value_of (h : N) : N := decode_value vl p (cur (bin_of B h)) h.

Section Batch.
Variable hs : list N.          (* the hashed keys of the thread *)
Variable ds : nat.
(** No bin has more keys than an index can count. *)
Hypothesis few : forall b, b < nb ->
  N.lt (N.of_nat (length (filter (fun h => bin_of B h =? b) hs))) (2 ^ bits p).

Record inv (k : nat) (s : batch) : Prop := {
  i_len : length (fst (fst s)) = nb;
  i_vb : length (snd (fst s)) = ds;
  i_perm : Permutation (map fst (snd s) ++ map snd (concat (fst (fst s)))) (seq 0 k);
  i_ws : forall i v, In (i, v) (snd s) -> v = value_of (nth i hs 0%N);
  i_buf : forall b h i, b < nb -> In (h, i) (nth b (fst (fst s)) []) ->
          h = nth i hs 0%N /\ bin_of B h = b;
  i_k : k <= length hs }.

Lemma buf_few k s b : inv k s -> b < nb ->
  N.lt (N.of_nat (length (nth b (fst (fst s)) []))) (2 ^ bits p).
Proof.
  intros I Hb. apply N.le_lt_trans with (2 := few b Hb).
  set (buf := nth b (fst (fst s)) []).
  assert (IN : incl (map snd buf) (filter (fun i => bin_of B (nth i hs 0%N) =? b) (seq 0 (length hs)))).
  { intros i Hi. apply in_map_iff in Hi. destruct Hi as ((h & i') & E & Hi). cbn in E. subst i'.
    destruct (i_buf _ _ I b h i Hb Hi) as (-> & E). apply filter_In. split; [|apply Nat.eqb_eq; exact E].
    assert (J : In i (seq 0 k)).
    { apply (Permutation_in _ (i_perm _ _ I)). apply in_or_app. right. apply in_map_iff.
      exists (nth i hs 0%N, i). split; [reflexivity|]. apply in_concat. exists buf.
      split; [|exact Hi]. apply nth_In. rewrite (i_len _ _ I). exact Hb. }
    apply in_seq in J. apply in_seq. assert (K := i_k _ _ I). lia. }
  assert (ND : NoDup (map snd buf)).
  { assert (ND : NoDup (map fst (snd s) ++ map snd (concat (fst (fst s))))).
    { apply (Permutation_NoDup (Permutation_sym (i_perm _ _ I))). apply seq_NoDup. }
    apply NoDup_app_r in ND.
    assert (P := concat_upd (fst (fst s)) b []). rewrite app_nil_r in P.
    rewrite (i_len _ _ I) in P. specialize (P Hb). fold buf in P.
    apply (Permutation_map snd) in P. rewrite map_app in P.
    apply (Permutation_NoDup (Permutation_sym P)) in ND.
    apply NoDup_app_r in ND. exact ND. }
  assert (L := NoDup_incl_length ND IN). rewrite map_length in L.
  assert (EQ : length (filter (fun i => bin_of B (nth i hs 0%N) =? b) (seq 0 (length hs)))
             = length (filter (fun h => bin_of B h =? b) hs)).
  { rewrite <- (map_nth_seq hs 0%N) at 2. generalize (seq 0 (length hs)). intros l.
    induction l as [|i l IH]; [reflexivity|]. cbn [map filter].
    destruct (bin_of B (nth i hs 0%N) =? b); cbn [length]; rewrite IH; reflexivity. }
  lia.
Qed.

Lemma flush_ok k s b : inv k s -> b < nb -> length (nth b (fst (fst s)) []) <= ds ->
  exists s', flush vl B (whole nb cur) b s = Some s' /\ inv k s'
    /\ fst (fst s') = upd (fst (fst s)) b [].
Proof.
  intros I Hb LB. assert (FW := buf_few k s b I Hb).
  destruct s as [[bufs vb] ws]. unfold flush. cbn [fst snd] in *.
  assert (IL := i_len _ _ I). assert (IV := i_vb _ _ I). cbn [fst snd] in IL, IV.
  unfold rd. rewrite (nth_error_nth' bufs []) by lia. cbn [bind].
  rewrite btotal_is. rewrite (whole_slice nb (total p)) by assumption. cbn [bind].
  rewrite decode_buf_ok by (rewrite ?map_length; auto). cbn [bind].
  rewrite map_length.
  rewrite slice_ok by (rewrite app_length, !map_length, skipn_length; lia).
  cbn [bind]. rewrite wr_ok by lia. cbn [bind].
  eexists. split; [reflexivity|]. cbn [fst snd]. split; [|reflexivity].
  set (buf := nth b bufs []) in *.
  assert (EV : firstn (length buf) (skipn 0 (map (decode_value vl p (cur b)) (map fst buf) ++ skipn (length buf) vb))
             = map (decode_value vl p (cur b)) (map fst buf)).
  { cbn [skipn]. apply firstn_app_exact'. rewrite !map_length. reflexivity. }
  rewrite EV.
  assert (MF : map fst (combine (map snd buf) (map (decode_value vl p (cur b)) (map fst buf))) = map snd buf).
  { rewrite map_map. clear. induction buf as [|x buf IH]; [reflexivity|]. cbn. rewrite IH. reflexivity. }
  constructor; cbn [fst snd].
  - rewrite upd_length. exact IL.
  - rewrite app_length, !map_length, skipn_length. lia.
  - rewrite map_app, MF, <- app_assoc. rewrite <- (i_perm _ _ I). cbn [fst snd].
    apply Permutation_app_head. rewrite <- map_app. apply Permutation_map.
    assert (P := concat_upd bufs b [] ltac:(lia)). rewrite app_nil_r in P. fold buf in P.
    rewrite <- P. apply Permutation_app_comm.
  - intros i v H. apply in_app_or in H. destruct H as [H|H]; [exact (i_ws _ _ I i v H)|].
    rewrite map_map in H.
    assert (E : exists h, In (h, i) buf /\ v = decode_value vl p (cur b) h).
    { clear - H. induction buf as [|[h0 i0] buf IH]; [destruct H|]. cbn in H.
      destruct H as [H|H].
      - injection H as <- <-. exists h0. split; [left; reflexivity|reflexivity].
      - destruct (IH H) as (h & H1 & H2). exists h. split; [right; exact H1|exact H2]. }
    destruct E as (h & Hi & ->). destruct (i_buf _ _ I b h i Hb Hi) as (Eh & Eb).
    unfold value_of. rewrite <- Eh, Eb. reflexivity.
  - intros b' h i Hb' H. destruct (Nat.eq_dec b' b) as [->|N].
    + rewrite nth_upd_same in H by lia. destruct H.
    + rewrite nth_upd_other in H by lia. exact (i_buf _ _ I b' h i Hb' H).
  - exact (i_k _ _ I).
Qed.

Definition below (s : batch) : Prop := forall b, length (nth b (fst (fst s)) []) < ds.

Lemma collect_ok k s h : inv k s -> below s -> k < length hs -> h = nth k hs 0%N ->
  exists s', collect vl B ds (whole nb cur) (bin_of B h) h k s = Some s' /\ inv (S k) s' /\ below s'.
Proof.
  intros I BL Hk Eh. set (b := bin_of B h).
  assert (Hb : b < nb) by (apply (bin_of_lt enc); exact Hnb).
  destruct s as [[bufs vb] ws]. unfold collect.
  assert (IL := i_len _ _ I). assert (IV := i_vb _ _ I). cbn [fst snd] in IL, IV.
  assert (BB := BL b). cbn [fst snd] in BB.
  unfold rd. rewrite (nth_error_nth' bufs []) by lia. cbn [bind].
  replace (ds <=? length (nth b bufs [])) with false by lia.
  rewrite wr_ok by lia. cbn [bind].
  assert (I' : inv (S k) (upd bufs b (nth b bufs [] ++ [(h, k)]), vb, ws)).
  { constructor; cbn [fst snd].
    - rewrite upd_length. exact IL.
    - exact IV.
    - rewrite seq_S. cbn [Nat.add]. rewrite <- (i_perm _ _ I). cbn [fst snd].
      rewrite <- app_assoc. apply Permutation_app_head.
      assert (P := concat_upd bufs b (nth b bufs [] ++ [(h, k)]) ltac:(lia)).
      rewrite (Permutation_app_comm (nth b bufs [])) in P at 2.
      rewrite app_assoc in P. apply Permutation_app_inv_r in P.
      change [k] with (map snd [(h, k)]). rewrite <- map_app. apply Permutation_map. exact P.
    - exact (i_ws _ _ I).
    - intros b' h' i Hb' H. destruct (Nat.eq_dec b' b) as [->|N].
      + rewrite nth_upd_same in H by lia. apply in_app_or in H. destruct H as [H|[H|[]]].
        * exact (i_buf _ _ I b h' i Hb H).
        * injection H as <- <-. split; [exact Eh|reflexivity].
      + rewrite nth_upd_other in H by lia. exact (i_buf _ _ I b' h' i Hb' H).
    - lia. }
  destruct (Nat.eqb_spec (S (length (nth b bufs []))) ds) as [E|NE].
  - destruct (flush_ok (S k) _ b I' Hb) as (s' & EF & I2 & EB).
    + cbn [fst snd]. rewrite nth_upd_same by lia. rewrite app_length. cbn [length]. lia.
    + exists s'. split; [exact EF|]. split; [exact I2|]. intros b'. rewrite EB. cbn [fst snd].
      rewrite upd_upd. destruct (Nat.eq_dec b' b) as [->|N].
      * rewrite nth_upd_same by lia. cbn. lia.
      * rewrite nth_upd_other by lia. apply BL.
  - eexists. split; [reflexivity|]. split; [exact I'|]. intros b'. cbn [fst snd].
    destruct (Nat.eq_dec b' b) as [->|N].
    + rewrite nth_upd_same by lia. rewrite app_length. cbn [length]. lia.
    + rewrite nth_upd_other by lia. apply BL.
Qed.

Lemma collects_ok : forall l k s, inv k s -> below s ->
  (forall j, j < length l -> nth j l 0%N = nth (k + j) hs 0%N) -> k + length l <= length hs ->
  exists s', collects vl B ds (whole nb cur) (combine (map (bin_of B) l) l) k s = Some s'
    /\ inv (k + length l) s' /\ below s'.
Proof.
  induction l as [|h l IH]; intros k s I BL HL LE; cbn [map combine collects length] in *.
  - exists s. rewrite Nat.add_0_r. auto.
  - destruct (collect_ok k s h I BL) as (s1 & E1 & I1 & B1).
    + lia.
    + assert (H0 := HL 0 ltac:(lia)). cbn [nth] in H0. rewrite Nat.add_0_r in H0. exact H0.
    + rewrite E1. cbn [bind]. destruct (IH (S k) s1 I1 B1) as (s' & E & I2 & B2).
      * intros j Hj. specialize (HL (S j) ltac:(lia)). cbn [nth] in HL. rewrite HL. f_equal. lia.
      * lia.
      * exists s'. split; [exact E|]. split; [|exact B2]. replace (k + S (length l)) with (S k + length l) by lia.
        exact I2.
Qed.

Lemma decode_keys_ok dv : gen_divider divq (N.of_nat nb) = Some dv ->
  forall fuel keys k s, length keys < fuel -> inv k s -> below s ->
  (forall j, j < length keys -> nth j (set_dense enc keys) 0%N = nth (k + j) hs 0%N) ->
  k + length keys = length hs ->
  exists s', decode_keys enc vl B fuel ds dv (whole nb cur) keys k s = Some s'
    /\ inv (length hs) s' /\ below s'.
Proof.
  intros ED. induction fuel as [|fuel IH]; intros keys k s F I BL HL LE; [lia|].
  cbn [decode_keys]. destruct (Nat.leb_spec 32 (length keys)) as [L|L].
  - assert (LF : length (set_dense enc (firstn 32 keys)) = 32).
    { unfold set_dense. rewrite map_length, firstn_length. lia. }
    rewrite (domod_bins B Hnb Hnb64 dv _ ED LF). cbn [bind].
    rewrite map_map. change (fun x => N.to_nat (N.modulo (get_bin_idx x) (N.of_nat nb))) with (bin_of B).
    destruct (collects_ok (set_dense enc (firstn 32 keys)) k s I BL) as (s1 & E1 & I1 & B1).
    + intros j Hj. rewrite <- HL by lia. unfold set_dense in *.
      rewrite map_length, firstn_length in Hj.
      rewrite !nth_map' with (d := 0%N) by (rewrite ?firstn_length; lia).
      rewrite nth_firstn_lt by lia. reflexivity.
    + lia.
    + rewrite LF in *. rewrite E1. cbn [bind]. apply IH; auto.
      * rewrite skipn_length. lia.
      * intros j Hj. rewrite skipn_length in Hj. rewrite <- Nat.add_assoc, <- HL by lia.
        unfold set_dense. rewrite !nth_map' with (d := 0%N) by (rewrite ?skipn_length; lia).
        rewrite nth_skipn. reflexivity.
      * rewrite skipn_length. lia.
  - change (fun h => N.to_nat (N.modulo (get_bin_idx h) (N.of_nat nb))) with (bin_of B).
    destruct (collects_ok (set_dense enc keys) k s I BL) as (s1 & E1 & I1 & B1).
    + intros j Hj. apply HL. unfold set_dense in Hj. rewrite map_length in Hj. exact Hj.
    + unfold set_dense. rewrite map_length. lia.
    + exists s1. split; [exact E1|]. split; [|exact B1]. rewrite <- LE.
      unfold set_dense in I1. rewrite map_length in I1. exact I1.
Qed.

Lemma flushes_ok k : forall bs s, inv k s -> below s -> (forall b, In b bs -> b < nb) ->
  exists s', flushes vl B (whole nb cur) bs s = Some s' /\ inv k s' /\ below s'
    /\ forall b, In b bs \/ nth b (fst (fst s)) [] = [] -> nth b (fst (fst s')) [] = [].
Proof.
  induction bs as [|b bs IH]; intros s I BL HB; cbn [flushes].
  - exists s. split; [reflexivity|]. split; [exact I|]. split; [exact BL|]. intros b [[]|H]. exact H.
  - assert (Hb : b < nb) by (apply HB; left; reflexivity). assert (IL := i_len _ _ I).
    unfold rd. rewrite (nth_error_nth' (fst (fst s)) []) by lia. cbn [bind].
    destruct (nth b (fst (fst s)) []) as [|x buf] eqn:EB.
    + cbn [is_nil bind]. destruct (IH s I BL) as (s' & E & I' & B' & Z).
      * intros y Hy. apply HB. right. exact Hy.
      * exists s'. split; [exact E|]. split; [exact I'|]. split; [exact B'|].
        intros y [[<-|Hy]|Hy]; apply Z; auto.
    + cbn [is_nil]. destruct (flush_ok k s b I Hb) as (s1 & E1 & I1 & EU).
      * specialize (BL b). lia.
      * rewrite E1. cbn [bind].
        assert (B1 : below s1).
        { intros y. rewrite EU. destruct (Nat.eq_dec y b) as [->|N].
          - rewrite nth_upd_same by lia. specialize (BL b). cbn. lia.
          - rewrite nth_upd_other by lia. apply BL. }
        destruct (IH s1 I1 B1) as (s' & E & I' & B' & Z).
        -- intros y Hy. apply HB. right. exact Hy.
        -- exists s'. split; [exact E|]. split; [exact I'|]. split; [exact B'|].
           intros y Hy. destruct (Nat.eq_dec y b) as [->|N].
           ++ apply Z. right. rewrite EU. apply nth_upd_same. lia.
           ++ apply Z. destruct Hy as [[Hy|Hy]|Hy]; [congruence|left; exact Hy|right].
              rewrite EU, nth_upd_other by lia. exact Hy.
Qed.
End Batch.

Lemma decode_batch_ok keys :
  (forall b, b < nb ->
     N.lt (N.of_nat (length (filter (fun h => bin_of B h =? b) (set_dense enc keys)))) (2 ^ bits p)) ->
  exists ws, decode_batch enc vl B (whole nb cur) keys = Some ws
    /\ Permutation (map fst ws) (seq 0 (length keys))
    /\ forall i v, In (i, v) ws -> v = value_of (nth i (set_dense enc keys) 0%N).
Proof.
  intros few. unfold decode_batch. destruct (divider_ok B Hnb Hnb64) as (dv & ED). rewrite ED. cbn [bind].
  set (hs := set_dense enc keys) in *. set (ds := Nat.min 512 (length keys)).
  assert (LH : length hs = length keys) by (unfold hs, set_dense; apply map_length).
  assert (NR : forall b, nth b (repeat (@nil (N * nat)) nb) [] = []) by (intros; apply nth_repeat).
  assert (CR : forall k, concat (repeat (@nil (N * nat)) k) = []) by (induction k; auto).
  assert (I0 : inv hs ds 0 (repeat [] nb, repeat 0%N ds, [])).
  { constructor; cbn [fst snd].
    - apply repeat_length.
    - apply repeat_length.
    - rewrite CR. constructor.
    - intros i v [].
    - intros b h i Hb H. rewrite NR in H. destruct H.
    - lia. }
  assert (TOT : exists s', decode_keys enc vl B (S (length keys)) ds dv (whole nb cur) keys 0
                    (repeat [] nb, repeat 0%N ds, []) = Some s'
                 /\ inv hs ds (length hs) s' /\ (below ds s' \/ fst (fst s') = repeat [] nb)).
  { destruct (Nat.eq_dec (length keys) 0) as [Z|NZ].
    - destruct keys as [|k keys]; [|cbn in Z; lia].
      eexists. split; [reflexivity|]. split; [exact I0|]. right. reflexivity.
    - destruct (decode_keys_ok hs ds few dv ED (S (length keys)) keys 0 _ ltac:(lia) I0) as (s' & E & I & BL).
      + intros b. cbn [fst snd]. rewrite NR. cbn [length]. unfold ds. apply Nat.min_glb_lt; lia.
      + intros j Hj. reflexivity.
      + lia.
      + exists s'. auto. }
  destruct TOT as (s1 & E1 & I1 & BL). rewrite E1. cbn [bind].
  assert (FL : exists s', flushes vl B (whole nb cur) (seq 0 nb) s1 = Some s' /\ inv hs ds (length hs) s'
                 /\ forall b, b < nb -> nth b (fst (fst s')) [] = []).
  { destruct BL as [BL|ER].
    - destruct (flushes_ok hs ds few (length hs) (seq 0 nb) s1 I1 BL) as (s' & E & I & _ & Z).
      + intros b Hb. apply in_seq in Hb. lia.
      + exists s'. split; [exact E|]. split; [exact I|]. intros b Hb. apply Z. left. apply in_seq. lia.
    - exists s1. split; [|split; [exact I1|intros; rewrite ER; apply NR]].
      assert (X : forall b, In b (seq 0 nb) -> b < nb) by (intros b Hb; apply in_seq in Hb; lia).
      revert X. generalize (seq 0 nb). induction l as [|b l IH]; intros X; [reflexivity|].
      cbn [flushes]. unfold rd. rewrite (nth_error_nth' _ []) by (rewrite ER, repeat_length; apply X; left; reflexivity).
      rewrite ER, NR. cbn [bind is_nil]. apply IH. intros y Hy. apply X. right. exact Hy. }
  destruct FL as (s2 & E2 & I2 & Z). rewrite E2. cbn [bind]. exists (snd s2). split; [reflexivity|].
  assert (ZB : fst (fst s2) = repeat [] nb).
  { apply (list_eq_nth _ _ []).
    - rewrite (i_len _ _ _ _ I2), repeat_length. reflexivity.
    - intros i Hi. rewrite NR. apply Z. rewrite (i_len _ _ _ _ I2) in Hi. exact Hi. }
  split.
  - assert (P := i_perm _ _ _ _ I2). rewrite ZB, CR in P. cbn [map] in P. rewrite app_nil_r, LH in P. exact P.
  - exact (i_ws _ _ _ _ I2).
Qed.

Lemma filter_slice {A} (f : A -> bool) (l l1 : list A) b k : slice l b k = Some l1 ->
  length (filter f l1) <= length (filter f l).
Proof.
  intros H. apply slice_inv in H. destruct H as (_ & -> & _).
  rewrite <- (firstn_skipn b l) at 2. rewrite filter_app, app_length.
  rewrite <- (firstn_skipn k (skipn b l)) at 2. rewrite filter_app, app_length. lia.
Qed.

Section All.
Variable keys : list N.
Notation n := (length keys).
Hypothesis few : forall b, b < nb ->
  N.lt (N.of_nat (length (filter (fun h => bin_of B h =? b) (set_dense enc keys)))) (2 ^ bits p).
Variable T : nat.
Hypothesis HT : 0 < T.

Lemma decode_thread_ok t : t < T ->
  exists ws, decode_thread enc vl B (whole nb cur) keys T t = Some ws
    /\ Permutation (map fst ws) (seq (t_begin n T t) (t_len n T t))
    /\ forall i v, In (i, v) ws -> v = value_of (nth i (set_dense enc keys) 0%N).
Proof.
  intros Ht. unfold decode_thread. assert (LE := t_end_le n T t HT Ht).
  set (bg := t_begin n T t) in *. set (k := t_len n T t) in *.
  rewrite slice_ok by exact LE. cbn [bind].
  set (ks := firstn k (skipn bg keys)).
  assert (LK : length ks = k) by (unfold ks; rewrite firstn_length, skipn_length; lia).
  assert (NK : forall i, i < k -> nth i (set_dense enc ks) 0%N = nth (bg + i) (set_dense enc keys) 0%N).
  { intros i Hi. unfold set_dense. rewrite !nth_map' with (d := 0%N) by lia.
    unfold ks. rewrite nth_firstn_lt by lia. rewrite nth_skipn. reflexivity. }
  destruct (decode_batch_ok ks) as (ws & E & P & V).
  { intros b Hb. apply N.le_lt_trans with (2 := few b Hb).
    assert (S : slice (set_dense enc keys) bg k = Some (set_dense enc ks)).
    { rewrite slice_ok by (unfold set_dense; rewrite map_length; exact LE).
      unfold set_dense, ks. rewrite skipn_map, firstn_map. reflexivity. }
    assert (FL := filter_slice (fun h => bin_of B h =? b) _ _ _ _ S). lia. }
  rewrite E. cbn [bind]. eexists. split; [reflexivity|]. split.
  - rewrite map_map. cbn [fst].
    rewrite <- (map_map fst (Nat.add bg)). rewrite P, LK.
    assert (ES : forall s k, map (Nat.add bg) (seq s k) = seq (bg + s) k).
    { intros s k0. revert s. induction k0 as [|k0 IH]; intros s; [reflexivity|]. cbn. f_equal.
      rewrite IH. f_equal. lia. }
    rewrite ES, Nat.add_0_r. reflexivity.
  - intros i v H. apply in_map_iff in H. destruct H as ((i0 & v0) & EQ & H). cbn in EQ. injection EQ as <- <-.
    rewrite (V i0 v0 H). rewrite NK; [reflexivity|].
    assert (J : In i0 (seq 0 (length ks))).
    { apply (Permutation_in _ P). apply in_map_iff. exists (i0, v0). auto. }
    apply in_seq in J. lia.
Qed.

Lemma threads_ok :
  exists wss, all_some (map (decode_thread enc vl B (whole nb cur) keys T) (seq 0 T)) = Some wss
    /\ Permutation (map fst (concat wss)) (seq 0 n)
    /\ forall i v, In (i, v) (concat wss) -> v = value_of (nth i (set_dense enc keys) 0%N).
Proof.
  assert (X : forall k, k <= T ->
    exists wss, all_some (map (decode_thread enc vl B (whole nb cur) keys T) (seq 0 k)) = Some wss
    /\ Permutation (map fst (concat wss))
         (concat (map (fun t => seq (t_begin n T t) (t_len n T t)) (seq 0 k)))
    /\ forall i v, In (i, v) (concat wss) -> v = value_of (nth i (set_dense enc keys) 0%N)).
  { induction k as [|k IH]; intros L.
    - exists []. split; [reflexivity|]. split; [constructor|]. intros i v [].
    - destruct IH as (wss & E & P & V); [lia|].
      destruct (decode_thread_ok k) as (ws & E1 & P1 & V1); [lia|].
      exists (wss ++ [ws]). split; [|split].
      + rewrite seq_S, map_app. cbn [Nat.add map]. rewrite E1. rewrite (all_some_inv _ _ E).
        change [Some ws] with (map Some [ws]). rewrite <- map_app. apply all_some_Some.
      + rewrite seq_S, map_app, !concat_app, map_app. cbn [Nat.add map concat]. rewrite !app_nil_r.
        apply Permutation_app; assumption.
      + intros i v H. rewrite concat_app in H. cbn [concat] in H. rewrite app_nil_r in H.
        apply in_app_or in H. destruct H; auto. }
  destruct (X T (le_n _)) as (wss & E & P & V). exists wss. rewrite parts_all in P by exact HT. auto.
Qed.

Lemma apply_all ws vals : length vals = n -> Permutation (map fst ws) (seq 0 n) ->
  (forall i v, In (i, v) ws -> v = value_of (nth i (set_dense enc keys) 0%N)) ->
  apply_writes ws vals = Some (map value_of (set_dense enc keys)).
Proof.
  intros LV P V. destruct (apply_writes_ok ws vals) as (mem & E & L & W & _).
  { intros a v H. assert (J : In a (seq 0 n)).
    { apply (Permutation_in _ P). apply in_map_iff. exists (a, v). auto. }
    apply in_seq in J. lia. }
  rewrite E. f_equal. apply (list_eq_nth _ _ 0%N).
  - unfold set_dense. rewrite !map_length. lia.
  - intros i Hi. rewrite nth_map' with (d := 0%N) by (unfold set_dense; rewrite map_length; lia).
    assert (J : In i (map fst ws)).
    { apply (Permutation_in _ (Permutation_sym P)). apply in_seq. lia. }
    apply in_map_iff in J. destruct J as ((i0 & v) & <- & J). cbn [fst].
    rewrite <- (V i0 v J). apply nth_error_nth. apply W; [|exact J].
    intros a v1 v2 H1 H2. rewrite (V _ _ H1), (V _ _ H2). reflexivity.
Qed.

Lemma bdecode_ok sched vals out : nb <> 1 -> length vals = n ->
  bdecode enc vl B T sched keys vals (whole nb cur) = Some out ->
  out = map value_of (set_dense enc keys).
Proof.
  intros N1 LV. unfold bdecode. replace (nb =? 1) with false by lia. replace (T =? 0) with false by lia.
  destruct threads_ok as (wss & E & P & V). rewrite E. cbn [bind].
  destruct (interleave sched wss) as [ws|] eqn:EI; [|discriminate]. cbn [bind].
  apply interleave_perm in EI. rewrite apply_all; [congruence|exact LV| |].
  - rewrite EI. exact P.
  - intros i v H. apply V. apply (Permutation_in _ EI). exact H.
Qed.

Lemma bdecode_total vals : nb <> 1 -> length vals = n ->
  exists sched, bdecode enc vl B T sched keys vals (whole nb cur)
    = Some (map value_of (set_dense enc keys)).
Proof.
  intros N1 LV. unfold bdecode. replace (nb =? 1) with false by lia. replace (T =? 0) with false by lia.
  destruct threads_ok as (wss & E & P & V). rewrite E. cbn [bind].
  exists (in_order wss). rewrite interleave_in_order. cbn [bind]. apply apply_all; assumption.
Qed.
End All.
End Decode.

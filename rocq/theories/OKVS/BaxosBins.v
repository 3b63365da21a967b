(** Encoding the bins *)
From Coq Require Import NArith List Bool Lia Arith Permutation.
From Coq Require Import ZifyBool ZifyNat ZifyN.
From Verif Require Import Base.Words Base.ListX OKVS.DivModel OKVS.DivProps OKVS.SparseModel
  OKVS.PaxosModel OKVS.BaxosModel OKVS.BaxosLists OKVS.BaxosSort.
Import ListNotations.

(** ** The length of the output does not change *)
Lemma wr_length {A} (l l' : list A) i v : wr l i v = Some l' -> length l' = length l.
Proof. intros H. apply wr_inv in H. destruct H as [_ ->]. apply upd_length. Qed.

Lemma zero_walk_length vl : forall fuel nodes c r blocks out t out' t',
  zero_walk vl fuel nodes c r blocks out t = Some (out', t') -> length out' = length out.
Proof.
  induction fuel as [|fuel IH]; intros nodes c r blocks out t out' t' H; [discriminate|].
  cbn [zero_walk] in H. destruct r as [|r].
  - unfold draw in H. exact (IH _ _ _ _ _ _ _ _ H).
  - apply bind_inv in H. destruct H as (v & _ & H).
    apply bind_inv in H. destruct H as (o & E & H).
    apply bind_inv in H. destruct H as (nd & _ & H).
    apply wr_length in E. destruct (next nd).
    + rewrite (IH _ _ _ _ _ _ _ _ H). exact E.
    + injection H as <- _. exact E.
Qed.

Lemma random_dense_length vl m gc : forall cols it blocks out out',
  random_dense vl m gc cols it blocks out = Some out' -> length out' = length out.
Proof.
  induction cols as [|i cols IH]; intros it blocks out out' H; cbn [random_dense] in H.
  - injection H as <-. reflexivity.
  - destruct (is_gap_col gc i); [eauto|].
    apply bind_inv in H. destruct H as (v & _ & H).
    apply bind_inv in H. destruct H as (o & E & H).
    apply wr_length in E. rewrite (IH _ _ _ _ H). exact E.
Qed.

Lemma random_all_length vl m : forall cols blocks out out',
  random_all vl m cols blocks out = Some out' -> length out' = length out.
Proof.
  induction cols as [|i cols IH]; intros blocks out out' H; cbn [random_all] in H.
  - injection H as <-. reflexivity.
  - apply bind_inv in H. destruct H as (v & _ & H).
    apply bind_inv in H. destruct H as (o & E & H).
    apply wr_length in E. rewrite (IH _ _ _ H). exact E.
Qed.

Lemma add_outputs_length m : forall cs vs out out',
  add_outputs m cs vs out = Some out' -> length out' = length out.
Proof.
  induction cs as [|i cols IH]; intros vs out out' H; cbn [add_outputs] in H.
  - injection H as <-. reflexivity.
  - destruct vs as [|v vs]; [injection H as <-; reflexivity|].
    apply bind_inv in H. destruct H as (x & _ & H).
    apply bind_inv in H. destruct H as (o & E & H).
    apply wr_length in E. rewrite (IH _ _ _ H). exact E.
Qed.

Lemma triangle_length o part values : forall it out out',
  triangle o part values it out = Some out' -> length out' = length out.
Proof.
  induction it as [|it IH]; intros out out' H; cbn [triangle] in H.
  - injection H as <-. reflexivity.
  - repeat (apply bind_inv in H; destruct H as (? & ?E & H)).
    match goal with E : wr _ _ _ = _ |- _ => apply wr_length in E; rewrite <- E end.
    apply IH. exact H.
Qed.

Lemma solve_binary_length vl p o g values out t gc fc E out' t' :
  solve_binary vl p o g values out t = Some (gc, fc, E, out', t') -> length out' = length out.
Proof.
  unfold solve_binary. destruct (glimit p <? g); [discriminate|]. intros H.
  apply bind_inv in H. destruct H as (fc1 & _ & H).
  apply bind_inv in H. destruct H as (er & _ & H).
  apply bind_inv in H. destruct H as ([gc1 E1] & _ & H).
  apply bind_inv in H. destruct H as ([out1 t1] & HR & H).
  assert (L1 : length out1 = length out).
  { destruct t as [t|]; unfold draw in HR.
    - apply bind_inv in HR. destruct HR as (o2 & R & HR). injection HR as -> _.
      exact (random_dense_length _ _ _ _ _ _ _ _ R).
    - injection HR as -> _. reflexivity. }
  apply bind_inv in H. destruct H as (vs & _ & H).
  apply bind_inv in H. destruct H as (vs2 & _ & H).
  apply bind_inv in H. destruct H as (out2 & EA & H).
  apply add_outputs_length in EA. injection H as _ _ _ -> _. congruence.
Qed.

Lemma solve_gf_length vl p o g values out t fc E out' t' :
  solve_gf vl p o g values out t = Some (fc, E, out', t') -> length out' = length out.
Proof.
  unfold solve_gf. destruct (glimit p <? g); [discriminate|]. intros H.
  apply bind_inv in H. destruct H as (fc1 & _ & H). cbv zeta in H.
  destruct (_ <? g); [discriminate|].
  apply bind_inv in H. destruct H as (top & _ & H).
  apply bind_inv in H. destruct H as ([[E1 rv] t1] & _ & H).
  apply bind_inv in H. destruct H as (E2 & _ & H).
  apply bind_inv in H. destruct H as (vs & _ & H).
  apply bind_inv in H. destruct H as (out2 & EA & H).
  apply add_outputs_length in EA. injection H as _ _ -> _. congruence.
Qed.

Lemma encode_into_length vl p o values out t o' out' t' :
  encode_into vl p o values out t = Some (o', out', t') -> length out' = length out.
Proof.
  unfold encode_into. intros H. apply bind_inv in H. destruct H as (o1 & _ & H).
  apply bind_inv in H. destruct H as ([out1 t1] & HR & H).
  assert (L1 : length out1 = length out).
  { destruct t as [t|].
    - apply bind_inv in HR. destruct HR as ([o2 t2] & R & HR). injection HR as -> _. cbn [fst].
      unfold zero_fill in R. apply bind_inv in R. destruct R as (h & _ & R). destruct h.
      + exact (zero_walk_length _ _ _ _ _ _ _ _ _ _ R).
      + injection R as -> _. reflexivity.
    - injection HR as -> _. reflexivity. }
  rewrite <- L1. clear L1 HR. destruct (kind p).
  - unfold backfill_binary in H. destruct (128 <? dsize p); [discriminate|].
    apply bind_inv in H. destruct H as ([[o2 out2] t2] & HR & H).
    assert (L2 : length out2 = length out1).
    { destruct (_ && _).
      - apply bind_inv in HR. destruct HR as ([[[[gc fc] E] out3] t3] & S & HR).
        apply solve_binary_length in S. injection HR as _ -> _. exact S.
      - destruct t1 as [t1|]; unfold draw in HR.
        + apply bind_inv in HR. destruct HR as (out3 & R & HR). apply random_all_length in R.
          injection HR as _ -> _. exact R.
        + injection HR as _ -> _. reflexivity. }
    destruct (_ <? gap_count o1); [discriminate|].
    apply bind_inv in H. destruct H as (out3 & ET & H). apply triangle_length in ET.
    injection H as _ -> _. congruence.
  - unfold backfill_gf128 in H.
    apply bind_inv in H. destruct H as ([[o2 out2] t2] & HR & H).
    assert (L2 : length out2 = length out1).
    { destruct (_ && _).
      - apply bind_inv in HR. destruct HR as ([[[fc E] out3] t3] & S & HR).
        apply solve_gf_length in S. injection HR as _ -> _. exact S.
      - destruct t1 as [t1|]; unfold draw in HR.
        + apply bind_inv in HR. destruct HR as (out3 & R & HR). apply random_all_length in R.
          injection HR as _ -> _. exact R.
        + injection HR as _ -> _. reflexivity. }
    apply bind_inv in H. destruct H as (out3 & ET & H). apply triangle_length in ET.
    injection H as _ -> _. congruence.
Qed.

(** ** The loops over the bins *)
Lemma NoDup_app' {A} (l l' : list A) : NoDup l -> NoDup l' ->
  (forall x, In x l -> ~ In x l') -> NoDup (l ++ l').
Proof.
  intros H H' D. induction l as [|x l IH]; [exact H'|]. cbn. apply NoDup_cons_iff in H.
  constructor.
  - intros I. apply in_app_or in I. destruct I as [I|I]; [apply H; exact I|].
    apply (D x); [left; reflexivity|exact I].
  - apply IH; [apply H|]. intros y Hy. apply D. right. exact Hy.
Qed.

Section Loops.
Variable B : baxos.
Variable T : nat.
Hypothesis HT : 0 < T.
Hypothesis H256 : nbins B + T <= 256.

Lemma thread_bins_ok : forall fuel b, nbins B - b < fuel ->
  exists l, thread_bins B fuel T b = Some l /\ NoDup l
    /\ forall x, In x l <-> x < nbins B /\ exists k, x = b + k * T.
Proof.
  induction fuel as [|fuel IH]; intros b F; [lia|]. cbn [thread_bins].
  destruct (Nat.ltb_spec b (nbins B)) as [L|L].
  - rewrite Nat.mod_small by lia. destruct (IH (b + T)) as (l & E & ND & IN); [lia|].
    rewrite E. exists (b :: l). split; [reflexivity|]. split.
    + constructor; [|exact ND]. intros I. apply IN in I. destruct I as (_ & k & K). lia.
    + intros x. cbn [In]. rewrite IN. split.
      * intros [<-|(H & k & ->)]; [split; [exact L|]; exists 0; lia|].
        split; [exact H|]. exists (S k). lia.
      * intros (H & k & ->). destruct k as [|k]; [left; lia|right].
        split; [exact H|]. exists k. lia.
  - exists []. split; [reflexivity|]. split; [constructor|]. intros x. split; [intros []|].
    intros (H & k & ->). lia.
Qed.

Lemma all_bins : exists bs, all_some (map (thread_bins B 257 T) (seq 0 T)) = Some bs
  /\ Permutation (concat bs) (seq 0 (nbins B)).
Proof.
  set (f := fun t => match thread_bins B 257 T t with Some l => l | None => [] end).
  assert (F : forall t, thread_bins B 257 T t = Some (f t) /\ NoDup (f t)
            /\ forall x, In x (f t) <-> x < nbins B /\ exists k, x = t + k * T).
  { intros t. destruct (thread_bins_ok 257 t) as (l & E & H); [lia|]. unfold f. rewrite E. auto. }
  exists (map f (seq 0 T)). split.
  - rewrite <- all_some_Some. f_equal. rewrite map_map. apply map_ext. intros t. exact (proj1 (F t)).
  - apply NoDup_Permutation.
    + assert (G : forall k, k <= T -> NoDup (concat (map f (seq 0 k)))).
      { induction k as [|k IH]; intros L; [constructor|].
        rewrite seq_S, map_app, concat_app. cbn [Nat.add map concat]. rewrite app_nil_r.
        apply NoDup_app'; [apply IH; lia|exact (proj1 (proj2 (F k)))|].
        intros x H1 H2. apply in_concat in H1. destruct H1 as (l & Hl & Hx).
        apply in_map_iff in Hl. destruct Hl as (t & <- & Ht). apply in_seq in Ht.
        apply F in Hx. apply F in H2. destruct Hx as (_ & k1 & E1). destruct H2 as (_ & k2 & E2).
        assert (M1 : x mod T = t) by (rewrite E1, Nat.mod_add by lia; apply Nat.mod_small; lia).
        assert (M2 : x mod T = k) by (rewrite E2, Nat.mod_add by lia; apply Nat.mod_small; lia).
        lia. }
      apply G. lia.
    + apply seq_NoDup.
    + intros x. rewrite in_seq. split.
      * intros H. apply in_concat in H. destruct H as (l & Hl & Hx).
        apply in_map_iff in Hl. destruct Hl as (t & <- & Ht). apply F in Hx. lia.
      * intros H. apply in_concat. exists (f (x mod T)). split.
        -- apply in_map. apply in_seq. assert (M := Nat.mod_upper_bound x T). lia.
        -- apply F. split; [lia|]. exists (x / T). assert (M := Nat.div_mod x T). lia.
Qed.
End Loops.

(** From 256 bins on the loop of line 237 never ends. *)
Lemma thread_bins_endless B T : 256 <= nbins B -> forall fuel b, b < 256 ->
  thread_bins B fuel T b = None.
Proof.
  intros H. induction fuel as [|fuel IH]; intros b Hb; [reflexivity|]. cbn [thread_bins].
  replace (b <? nbins B) with true by lia.
  rewrite IH by (apply Nat.mod_upper_bound; lia). reflexivity.
Qed.

(** ** Moving the entries together *)
Section Gather.
Variable B : baxos.
Variable T b : nat.
Notation seg := (per_thread B T).
Notation base := (b * (T * per_thread B T)).
Hypothesis Hb : b < 256.
Variable C : nat -> list (N * N).      (* the entries of the threads for this bin *)
Hypothesis FC : forall t, t < T -> length (C t) <= seg.
Hypothesis FW : N.lt (N.of_nat (length (concat (map C (seq 0 T))))) (2 ^ width (bmsize B)).
Variable sizes : list (list nat).
Hypothesis HS : forall t, t < T -> rd (nth t sizes []) b = Some (length (C t)).

Definition holds (tab : list (option (N * N))) (a : nat) (l : list (N * N)) : Prop :=
  forall j, j < length l -> nth_error tab (a + j) = Some (Some (nth j l (0, 0)%N)).

Lemma holds_app tab a l l' : holds tab a l -> holds tab (a + length l) l' -> holds tab a (l ++ l').
Proof.
  intros H H' j Hj. rewrite app_length in Hj. destruct (Nat.lt_ge_cases j (length l)) as [L|L].
  - rewrite app_nth1 by exact L. apply H. exact L.
  - rewrite app_nth2 by exact L. rewrite <- H' by lia. f_equal. lia.
Qed.

Lemma move_ok : forall l src pos tab,
  holds tab src l -> base + pos <= src -> base + pos + length l <= length tab ->
  (N.of_nat (pos + length l) < 2 ^ width (bmsize B))%N ->
  exists tab', move_cells B (length l) src base pos tab = Some (pos + length l, tab')
    /\ length tab' = length tab /\ holds tab' (base + pos) l
    /\ forall a, a < base + pos \/ base + pos + length l <= a -> nth_error tab' a = nth_error tab a.
Proof.
  clear. induction l as [|x l IH]; intros src pos tab H L1 L2 W.
  - exists tab. cbn. rewrite Nat.add_0_r. split; [reflexivity|]. split; [reflexivity|].
    split; [intros j Hj; cbn in Hj; lia|]. auto.
  - cbn [length move_cells] in *. unfold rd.
    assert (H0 := H 0). cbn [length nth] in H0. rewrite Nat.add_0_r in H0. rewrite H0 by lia.
    cbn [bind]. rewrite wr_ok by lia. cbn [bind].
    assert (EI : N.to_nat (idx (width (bmsize B)) (N.of_nat (S pos))) = S pos).
    { unfold idx. rewrite N.mod_small; lia. }
    rewrite EI.
    destruct (IH (S src) (S pos) (upd tab (base + pos) (Some x))) as (tab' & E & L & HO & O).
    + intros j Hj. rewrite nth_error_upd_other by lia.
      specialize (H (S j)). cbn [length nth] in H. rewrite <- H by lia. f_equal. lia.
    + lia.
    + rewrite upd_length. lia.
    + lia.
    + exists tab'. rewrite E. split; [f_equal; f_equal; lia|]. rewrite L, upd_length.
      split; [reflexivity|]. split.
      * intros [|j] Hj; cbn [nth length] in *.
        -- rewrite Nat.add_0_r, O by lia. apply nth_error_upd_same. lia.
        -- rewrite <- HO by lia. f_equal. lia.
      * intros a Ha. rewrite O by lia. apply nth_error_upd_other. lia.
Qed.

Lemma prefix_le k : k <= T -> length (concat (map C (seq 0 k))) <= k * seg.
Proof.
  clear HS FW Hb sizes b. induction k as [|k IH]; intros L; [cbn; lia|].
  rewrite seq_S, map_app, concat_app, app_length. cbn [Nat.add map concat]. rewrite app_nil_r.
  specialize (FC k). lia.
Qed.
Lemma prefix_mono k k' : k <= k' -> length (concat (map C (seq 0 k))) <= length (concat (map C (seq 0 k'))).
Proof.
  intros H. replace k' with (k + (k' - k)) by lia.
  rewrite seq_app, map_app, concat_app, app_length. lia.
Qed.

Lemma gather_ok : forall n k tab, k + n = T -> 0 < k ->
  length tab = nbins B * (T * seg) -> b < nbins B ->
  holds tab base (concat (map C (seq 0 k))) ->
  (forall t, k <= t -> t < T -> holds tab (base + t * seg) (C t)) ->
  exists tab', gather B (seq k n) sizes T b (length (concat (map C (seq 0 k)))) tab = Some tab'
    /\ length tab' = length tab /\ holds tab' base (concat (map C (seq 0 T)))
    /\ forall a, a < base \/ base + T * seg <= a -> nth_error tab' a = nth_error tab a.
Proof.
  induction n as [|n IH]; intros k tab EK K0 LT Hbn H1 H2.
  - exists tab. cbn. split; [reflexivity|]. split; [reflexivity|]. rewrite Nat.add_0_r in EK. subst k.
    split; [exact H1|auto].
  - cbn [seq gather]. rewrite HS by lia. cbn [bind].
    assert (EA : cell_addr B T k b 0 = base + k * seg).
    { unfold cell_addr. rewrite Nat.mod_small by exact Hb. lia. }
    rewrite EA. assert (PL := prefix_le k ltac:(lia)). assert (FCk := FC k ltac:(lia)).
    assert (ES : concat (map C (seq 0 (S k))) = concat (map C (seq 0 k)) ++ C k).
    { rewrite seq_S, map_app, concat_app. cbn [Nat.add map concat]. rewrite app_nil_r. reflexivity. }
    assert (PM := prefix_mono (S k) T ltac:(lia)). rewrite ES, app_length in PM.
    assert (R : k * seg + seg <= T * seg) by nia.
    destruct (move_ok (C k) (base + k * seg) (length (concat (map C (seq 0 k)))) tab)
      as (tab1 & E1 & L1 & HO1 & O1).
    + apply H2; lia.
    + lia.
    + rewrite LT. nia.
    + lia.
    + rewrite E1. cbn [bind fst snd].
      replace (length (concat (map C (seq 0 k))) + length (C k))
        with (length (concat (map C (seq 0 (S k))))) by (rewrite ES, app_length; reflexivity).
      destruct (IH (S k) tab1) as (tab' & E & L & HO & O).
      * lia.
      * lia.
      * congruence.
      * exact Hbn.
      * rewrite ES. apply holds_app; [|exact HO1].
        intros j Hj. rewrite O1 by lia. apply H1. exact Hj.
      * intros t Ht1 Ht2 j Hj. rewrite O1; [apply H2; lia|]. right.
        assert (k * seg + seg <= t * seg) by nia. lia.
      * exists tab'. split; [exact E|]. split; [congruence|]. split; [exact HO|].
        intros a Ha. rewrite O by exact Ha. apply O1. lia.
Qed.
End Gather.

(** [backfill_binary] and [backfill_gf128] solve the linear system. *)
From Coq Require Import NArith List Bool Lia Arith Sorting.Sorted.
From Coq Require Import ZifyBool ZifyNat ZifyN.
From Verif Require Import Base.Words Base.ListX OKVS.SparseModel OKVS.SparseSpec OKVS.SparseProofs.
From Verif Require Import OKVS.GFModel OKVS.GFProofs OKVS.MatModel OKVS.MatSpec OKVS.MatProofs
  OKVS.MatProps.
From Verif Require Import OKVS.PaxosModel OKVS.PaxosLists OKVS.PaxosSet OKVS.PaxosTri
  OKVS.PaxosSum OKVS.PaxosFC OKVS.PaxosBack.
Import ListNotations.

Definition sized (p : params) : Prop := glimit p + ssp p < 256.

Lemma dense_sum_ext vl p out out' d :
  (forall c, msize p <= c -> nth c out' 0%N = nth c out 0%N) ->
  dense_sum vl p out' d = dense_sum vl p out d.
Proof.
  intros H. unfold dense_sum.
  destruct (kind p); apply xs_ext; intros k _; rewrite H by lia; reflexivity.
Qed.

Lemma triangle_with o gc fcl E part values : forall iter out,
  triangle (with_solution o gc fcl E) part values iter out = triangle o part values iter out.
Proof.
  induction iter as [|k IH]; intros out; [reflexivity|]. cbn [triangle with_solution tri_rows
    tri_cols rows dense].
  destruct (rd (tri_rows o) k); [|reflexivity]. cbn [bind].
  destruct (rd (tri_cols o) k); [|reflexivity]. cbn [bind].
  destruct (rd values n); [|reflexivity]. cbn [bind].
  destruct (rd (rows o) n); [|reflexivity]. cbn [bind].
  destruct (add_cols out l n1); [|reflexivity]. cbn [bind].
  destruct (rd (dense o) n); [|reflexivity]. cbn [bind].
  destruct (part n3 out n2); [|reflexivity]. cbn [bind].
  destruct (wr out n0 n4); [|reflexivity]. cbn [bind]. apply IH.
Qed.

Section Solve.
Variables (vl : nat) (p : params) (ds : list N) (o : okvs) (values : list N).
Hypothesis G : good p.
Hypothesis Sz : sized p.
Hypothesis Dn : done p ds o.
Hypothesis LV : length ds <= length values.
Hypothesis GC0 : gap_cols o = [].
Hypothesis FC0 : fc o = [].
Hypothesis EM0 : emat o = [].
Notation delta := (length (tri_rows o)).
Notation gaps := (length (gap_rows o)).
Notation val r := (nth r values 0%N).
Notation hashed r := (nth r ds 0%N).

Lemma row_count : length ds = delta + gaps.
Proof.
  clear LV GC0 FC0 EM0 Sz G.
  rewrite <- app_length. apply Nat.le_antisymm.
  - rewrite <- (seq_length (length ds) 0). apply NoDup_incl_length; [apply seq_NoDup|].
    intros r Hr. apply in_seq in Hr. apply (d_all _ _ _ Dn). lia.
  - rewrite <- (seq_length (length ds) 0) at 1. apply NoDup_incl_length; [apply (d_nodup _ _ _ Dn)|].
    intros r Hr. apply (d_all _ _ _ Dn) in Hr. apply in_seq. lia.
Qed.

(** What the output satisfies in the end *)
Record outcome (out out' : list N) : Prop := {
  oc_len : length out' = total p;
  oc_tri : forall i, i < delta ->
    decode_value vl p out' (hashed (nth i (tri_rows o) 0)) = val (nth i (tri_rows o) 0);
  oc_gap : forall i, i < gaps -> exists L, cancels o i L /\
    decode_value vl p out' (hashed (nth i (gap_rows o) 0))
    = N.lxor (val (nth i (gap_rows o) 0)) (residual o out' i L);
  oc_free : forall c, c < msize p -> ~ In c (tri_cols o) -> nth c out' 0%N = nth c out 0%N }.

Definition gap_equations (out : list N) : Prop :=
  forall i, i < gaps -> exists L, cancels o i L /\
    N.lxor (dense_sum vl p out (hashed (nth i (gap_rows o) 0)))
           (xs (fun r => dense_sum vl p out (hashed r)) L)
    = N.lxor (val (nth i (gap_rows o) 0)) (xs (fun r => val r) L).

Lemma finish part out out1 :
  length out1 = total p ->
  (forall c, c < msize p -> nth c out1 0%N = nth c out 0%N) ->
  (forall c, In c (tri_cols o) -> nth c out 0%N = 0%N) ->
  (forall d out2 acc, length out2 = total p ->
     (forall c, msize p <= c -> nth c out2 0%N = nth c out1 0%N) ->
     part d out2 acc = Some (N.lxor acc (dense_sum vl p out1 d))) ->
  gap_equations out1 ->
  exists out', triangle o part values delta out1 = Some out' /\ outcome out out'
    /\ forall c, ~ In c (tri_cols o) -> nth c out' 0%N = nth c out1 0%N.
Proof.
  intros L1 Low Z HP GE.
  assert (Lt : forall c, In c (tri_cols o) -> c < msize p).
  { assert (F := d_ltc _ _ _ Dn). rewrite Forall_forall in F. exact F. }
  destruct (triangle_spec p ds o values G Dn LV part (dense_sum vl p out1) out1 HP delta out1)
    as (out' & E & L' & Hn & HE).
  - lia.
  - exact L1.
  - auto.
  - intros i Hi.
    assert (I : In (nth i (tri_cols o) 0) (tri_cols o))
      by (apply nth_In; rewrite (d_cols _ _ _ Dn); exact Hi).
    rewrite Low by (apply Lt; exact I). apply Z. exact I.
  - intros i Hi. lia.
  - exists out'. split; [exact E|].
    assert (DE : forall d, dense_sum vl p out' d = dense_sum vl p out1 d).
    { intros d. apply dense_sum_ext. intros c Hc. apply Hn. intros I. apply Lt in I. lia. }
    split; [|exact Hn]. constructor.
    + exact L'.
    + intros i Hi. unfold decode_value. rewrite DE.
      specialize (HE i Hi). unfold row_eq in HE.
      rewrite <- (row_is p ds o Dn) by (apply (tri_lt p ds o Dn); exact Hi). exact HE.
    + intros i Hi. destruct (GE i Hi) as (L & C & EQ). exists L. split; [exact C|].
      unfold decode_value. rewrite DE.
      rewrite <- (row_is p ds o Dn) by (apply (gap_lt p ds o Dn); exact Hi).
      apply (gap_spec ds o values out' (dense_sum vl p out1) i L); assumption.
    + intros c Hc N. rewrite Hn by exact N. apply Low. exact Hc.
Qed.

(** ** Binary *)
Lemma binary_sum_add out a b : kind p = binary ->
  dense_sum vl p out (N.lxor a b) = N.lxor (dense_sum vl p out a) (dense_sum vl p out b).
Proof.
  intros K. unfold dense_sum. rewrite K, <- xs_add. apply xs_ext. intros k _.
  rewrite N.lxor_spec.
  destruct (N.testbit a (N.of_nat k)), (N.testbit b (N.of_nat k)); cbn [xorb];
    rewrite ?N.lxor_0_r, ?N.lxor_0_l, ?N.lxor_nilpotent; reflexivity.
Qed.

Lemma binary_sum_0 out : kind p = binary -> dense_sum vl p out 0 = 0%N.
Proof.
  intros K. unfold dense_sum. rewrite K. apply xs_0. intros k _. rewrite N.bits_0. reflexivity.
Qed.

(** [out] has arbitrary values in the dense columns outside [gc] only if the
    output is randomised *)
Definition dense_zero (out : list N) (gc : list N) (t : tape) : Prop :=
  t = None -> forall k, k < dsize p -> is_gap_col gc k = false -> nth (msize p + k) out 0%N = 0%N.

Lemma binary_part gc t out1 g : kind p = binary ->
  is_subset g (N.of_nat (dsize p)) gc -> dense_zero out1 gc t ->
  forall d out2 acc, length out2 = total p ->
    (forall c, msize p <= c -> nth c out2 0%N = nth c out1 0%N) ->
    dense_part_binary p gc t d out2 acc = Some (N.lxor acc (dense_sum vl p out1 d)).
Proof.
  clear LV GC0 FC0 EM0 Dn Sz G.
  intros K Sub DZ d out2 acc L2 A. unfold dense_part_binary. rewrite <- (dense_sum_ext vl p out1 out2 d A).
  destruct (subset_nat _ _ _ Sub) as (ND & FB & Lg).
  unfold dense_sum. rewrite K. unfold total in L2. destruct t as [t|].
  - rewrite add_bits_ok by (apply seq_bound; lia). f_equal. f_equal. apply xs_ext.
    intros k Hk. apply in_seq in Hk. rewrite dense_bit_testbit by lia. reflexivity.
  - rewrite add_bits_ok.
    + f_equal. f_equal. rewrite (seq_split g (dsize p) gc _ Sub).
      match goal with |- _ = N.lxor ?a ?b => assert (Z : b = 0%N) end.
      { apply xs_0. intros k Hk. apply filter_In in Hk. destruct Hk as [Hk Hg].
        apply in_seq in Hk. rewrite A by lia. rewrite DZ; auto; [|lia|].
        - destruct (N.testbit d (N.of_nat k)); reflexivity.
        - destruct (is_gap_col gc k); [discriminate|reflexivity]. }
      rewrite Z, N.lxor_0_r. apply xs_ext. intros k Hk.
      rewrite Forall_forall in FB. rewrite dense_bit_testbit by (apply FB; exact Hk). reflexivity.
    + apply Forall_impl with (2 := FB). intros; lia.
Qed.

Lemma nth_bit_matrix erow gc i k : i < length erow -> k < length gc ->
  nth k (nth i (bit_matrix p erow gc) []) 0%N
  = N.b2n (dense_bit p (nth i erow 0%N) (nth k (map N.to_nat gc) 0)).
Proof.
  intros Hi Hk. unfold bit_matrix.
  rewrite nth_map' with (d := 0%N) by exact Hi.
  rewrite nth_map' with (d := 0%N) by exact Hk.
  rewrite nth_map' with (d := 0%N) by exact Hk. reflexivity.
Qed.

Lemma solve_binary_inv out t gc fcl E out1 t1 g : kind p = binary -> g = gaps ->
  length out = total p -> (forall c, msize p <= c -> nth c out 0%N = 0%N) ->
  solve_binary vl p o g values out t = Some (gc, fcl, E, out1, t1) ->
  is_subset g (N.of_nat (dsize p)) gc /\ length out1 = total p
  /\ (forall c, c < msize p -> nth c out1 0%N = nth c out 0%N)
  /\ dense_zero out1 gc t1 /\ gap_equations out1.
Proof.
  intros K -> Lo Zo H. unfold solve_binary in H.
  assert (DS : dsize p = glimit p + ssp p).
  { unfold dsize. rewrite K. apply Nat.mod_small. exact Sz. }
  destruct (Nat.ltb_spec (glimit p) gaps) as [|Hg]; [discriminate|].
  destruct (get_FC_1_spec p ds o G Dn gaps (Nat.le_refl _)) as (F & EF & LF & HF).
  rewrite EF in H. cbn [bind] in H.
  assert (HF' : forall i, i < gaps -> cancels o i (nth i F [])).
  { intros i Hi. destruct (HF i Hi) as (L & E1 & C). rewrite FC0 in E1.
    destruct i; cbn [nth app] in E1; rewrite E1; exact C. }
  clear HF.
  destruct (all_some (map (gap_dense o F) (seq 0 gaps))) as [erow|] eqn:EE; [|discriminate].
  cbn [bind] in H.
  destruct (all_some_seq_inv _ _ _ 0%N EE) as [Le He]. clear EE.
  destruct (find_combination p erow) as [[gc' E']|] eqn:FE; [|discriminate].
  cbn [bind] in H.
  apply find_combination_inv in FE; [|lia]. destruct FE as [Sub CI]. rewrite Le in Sub.
  assert (C69 := C69_binary gaps (bit_matrix p erow gc')).
  rewrite CI in C69.
  assert (SQ : square 2 gaps (bit_matrix p erow gc')).
  { rewrite <- Le. apply bit_matrix_square. rewrite Le. apply Sub. }
  specialize (C69 SQ).
  destruct (subset_nat _ _ _ Sub) as (ND & FB & Lg).
  assert (FBo : forall out' : list N, length out' = total p ->
    Forall (fun c => msize p + c < length out') (map N.to_nat gc')).
  { intros out' L'. apply Forall_impl with (2 := FB). unfold total in L'. intros; lia. }
  (* the random part *)
  match type of H with (r <- ?e ;; _) = _ => destruct e as [[outr tr]|] eqn:ER end;
    [|discriminate].
  cbn [bind] in H.
  assert (HR : length outr = total p
    /\ (forall x, x < msize p -> nth x outr 0%N = nth x out 0%N)
    /\ (forall c, In c (map N.to_nat gc') -> nth (msize p + c) outr 0%N = 0%N)
    /\ dense_zero outr gc' tr).
  { destruct t as [t0|].
    - unfold draw in ER.
      destruct (random_dense vl (msize p) gc' (seq 0 (dsize p)) 0 _ out) as [out0|] eqn:RD;
        [|discriminate]. cbn [bind] in ER. injection ER as <- <-.
      destruct (random_dense_inv _ _ _ _ _ _ _ _ RD) as [Lr Hr].
      split; [lia|]. split; [|split].
      + intros x Hx. apply Hr. intros c _ _. lia.
      + intros c Hc. rewrite Hr; [apply Zo; lia|]. intros c' _ N E1.
        assert (c' = c) by lia. subst c'. apply is_gap_col_In in Hc. congruence.
      + intros X. discriminate.
    - injection ER as <- <-. split; [exact Lo|]. split; [auto|]. split.
      + intros c _. apply Zo. lia.
      + intros _ k _ _. apply Zo. lia. }
  clear ER. destruct HR as (Lr & Hr1 & Hr2 & Hr3).
  destruct (all_some (map (gap_value o F values) (seq 0 gaps))) as [vs|] eqn:EV; [|discriminate].
  cbn [bind] in H. destruct (all_some_seq_inv _ _ _ 0%N EV) as [Lv Hv]. clear EV.
  set (free := filter (fun c => negb (is_gap_col gc' c)) (seq 0 (dsize p))) in *.
  set (fsum := fun i => xs (fun k => if N.testbit (nth i erow 0%N) (N.of_nat k)
                                     then nth (msize p + k) outr 0%N else 0%N) free).
  match type of H with (r <- ?e ;; _) = _ => destruct e as [vs'|] eqn:EV end;
    [|discriminate].
  cbn [bind] in H.
  assert (Fb : forall k, In k free -> k < dsize p /\ is_gap_col gc' k = false).
  { intros k Hk. apply filter_In in Hk. destruct Hk as [Hk Hn]. apply in_seq in Hk.
    destruct (is_gap_col gc' k); [discriminate|]. split; [lia|reflexivity]. }
  assert (HV : length vs' = gaps
    /\ forall i, i < gaps -> nth i vs' 0%N = N.lxor (nth i vs 0%N) (fsum i)).
  { destruct tr as [tr|].
    - destruct (all_some_seq_inv _ _ _ 0%N EV) as [L1 H1]. split; [exact L1|].
      intros i Hi. specialize (H1 i Hi). rewrite (He i Hi) in H1. cbn [bind] in H1.
      rewrite add_bits_ok in H1.
      + apply (f_equal (fun x => match x with Some y => y | None => 0%N end)) in H1.
        rewrite <- H1. f_equal. unfold fsum. apply xs_ext. intros k Hk.
        rewrite dense_bit'_testbit by (apply Fb; exact Hk). reflexivity.
      + apply Forall_forall. intros k Hk. apply Fb in Hk. unfold total in Lr. lia.
    - injection EV as <-. split; [exact Lv|]. intros i Hi.
      replace (fsum i) with 0%N; [rewrite N.lxor_0_r; reflexivity|]. symmetry. apply xs_0.
      intros k Hk. apply Fb in Hk. rewrite Hr3; [|reflexivity|apply Hk|apply Hk].
      destruct (N.testbit (nth i erow 0%N) (N.of_nat k)); reflexivity. }
  clear EV. destruct HV as [Lv' Hv'].
  destruct (add_outputs_spec (msize p) (map N.to_nat gc') (times_bits E' vs') outr)
    as (out2 & E2 & L2 & W1 & W2).
  - exact ND.
  - unfold times_bits. rewrite map_length, Lg. apply C69.
  - apply FBo. exact Lr.
  - rewrite E2 in H. cbn [bind] in H.
    assert (X1 : gc' = gc) by congruence. assert (X2 : out2 = out1) by congruence.
    assert (X3 : tr = t1) by congruence. clear H. subst gc' out2 t1.
    split; [exact Sub|]. split; [lia|]. split; [|split].
    + intros c Hc. rewrite W2; [apply Hr1; exact Hc|]. intros; lia.
    + intros T k Hk Hn. rewrite W2; [apply Hr3; assumption|].
      intros c Hc E3. assert (c = k) by lia. subst c. apply is_gap_col_In in Hc. congruence.
    + intros i Hi. exists (nth i F []). split; [apply HF'; exact Hi|].
      assert (HD := gap_dense_ok p ds o values Dn LV F i (nth i F []) Hi eq_refl (HF' i Hi)).
      rewrite (He i Hi) in HD. injection HD as HD.
      assert (HVi := gap_value_ok p ds o values Dn LV F i (nth i F []) Hi eq_refl (HF' i Hi)).
      rewrite (Hv i Hi) in HVi. injection HVi as HVi.
      rewrite <- HVi.
      rewrite <- (xs_hom (dense_sum vl p out1) (fun r => hashed r));
        [|apply binary_sum_0; exact K|intros; apply binary_sum_add; exact K].
      rewrite <- binary_sum_add by exact K. rewrite <- HD.
      unfold dense_sum. rewrite K. rewrite (seq_split gaps (dsize p) gc _ Sub). fold free.
      rewrite (xs_ext (fun k => if N.testbit (nth i erow 0%N) (N.of_nat k)
                                then nth (msize p + k) out1 0%N else 0%N)
                (fun k => if N.testbit (nth i erow 0%N) (N.of_nat k)
                          then nth (msize p + k) outr 0%N else 0%N) free).
      2:{ intros k Hk. apply Fb in Hk. rewrite W2; [reflexivity|].
          intros c Hc E3. assert (c = k) by lia. subst c. apply is_gap_col_In in Hc.
          destruct Hk. congruence. }
      fold (fsum i).
      assert (SB := solve_bits gaps (bit_matrix p erow gc) E' vs' i SQ C69 Lv' Hi).
      rewrite (Hv' i Hi) in SB.
      match goal with |- N.lxor ?a _ = _ => assert (EA : a = N.lxor (nth i vs 0%N) (fsum i)) end.
      { rewrite <- SB. rewrite (xs_nth _ _ 0), Lg. rewrite !xs_xsum. apply xs_ext.
        intros k Hk. apply in_seq in Hk.
        rewrite W1 by lia. rewrite Hr2 by (apply nth_In; lia). rewrite N.lxor_0_l.
        rewrite nth_bit_matrix by (rewrite ?Le; destruct Sub; lia).
        rewrite dense_bit_testbit.
        - unfold act2. destruct (N.testbit _ _); reflexivity.
        - rewrite Forall_forall in FB. apply FB. apply nth_In. lia. }
      rewrite EA. rewrite N.lxor_assoc, N.lxor_nilpotent. apply N.lxor_0_r.
Qed.

Lemma triangle_too_far part out iter : delta < iter ->
  triangle o part values iter out = None.
Proof.
  intros H. destruct iter as [|k]; [lia|]. cbn [triangle]. unfold rd.
  destruct (nth_error (tri_rows o) k) as [r|] eqn:E; [|reflexivity].
  apply nth_error_lt in E. lia.
Qed.

Lemma gap_count_small : gaps < 256 -> gap_count o = gaps.
Proof. intros H. apply Nat.mod_small. exact H. Qed.

Theorem backfill_binary_ok out t o' out' t' : kind p = binary ->
  length out = total p -> (forall c, msize p <= c -> nth c out 0%N = 0%N) ->
  (forall c, In c (tri_cols o) -> nth c out 0%N = 0%N) ->
  backfill_binary vl p o values out t = Some (o', out', t') ->
  dense_ok p /\ outcome out out'.
Proof.
  intros K Lo Zo Zt H. unfold backfill_binary in H.
  destruct (Nat.ltb_spec 128 (dsize p)) as [|H128]; [discriminate|].
  split; [unfold dense_ok; rewrite K; exact H128|].
  assert (RL : length (rows o) = delta + gaps).
  { rewrite (rows_len p ds o Dn). apply row_count. }
  assert (GM : gap_count o <= gaps) by (apply Nat.mod_le; lia).
  destruct (Nat.ltb_spec gaps 256) as [Small|Big].
  - rewrite (gap_count_small Small) in *. rewrite GC0 in H. cbn [is_nil] in H. rewrite andb_true_r in H.
    destruct (Nat.eqb_spec gaps 0) as [Z|NZ]; cbn [negb] in H.
    + assert (GE : forall x, gap_equations x) by (intros x i Hi; lia).
      destruct t as [t|].
      * unfold draw in H.
        destruct (random_all vl (msize p) (seq 0 (dsize p)) _ out) as [out1|] eqn:RA; [|discriminate].
        cbn [bind] in H. rewrite GC0 in H.
        destruct (random_all_inv _ _ _ _ _ _ RA) as [L1 H1].
        destruct (Nat.ltb_spec (length (rows o)) gaps); [lia|].
        replace (length (rows o) - gaps) with delta in H by lia.
        destruct (finish (dense_part_binary p [] (Some (fun i => t (dsize p + i)))) out out1)
          as (out2 & E2 & OC & _).
        -- lia.
        -- intros c Hc. apply H1. intros; lia.
        -- exact Zt.
        -- intros. apply binary_part with (g := 0); auto.
           ++ repeat split; constructor.
           ++ intros X. discriminate.
        -- apply GE.
        -- rewrite E2 in H. cbn [bind] in H. injection H as <- <- <-. exact OC.
      * cbn [bind] in H. rewrite GC0 in H.
        destruct (Nat.ltb_spec (length (rows o)) gaps); [lia|].
        replace (length (rows o) - gaps) with delta in H by lia.
        destruct (finish (dense_part_binary p [] None) out out) as (out2 & E2 & OC & _); auto.
        -- intros. apply binary_part with (g := 0); auto.
           ++ repeat split; constructor.
           ++ intros _ k _ _. apply Zo. lia.
        -- rewrite E2 in H. cbn [bind] in H. injection H as <- <- <-. exact OC.
    + destruct (solve_binary vl p o gaps values out t) as [[[[[gc fcl] E] out1] t1]|] eqn:SB; [|discriminate].
      cbn [bind] in H.
      destruct (solve_binary_inv _ _ _ _ _ _ _ _ K eq_refl Lo Zo SB) as (Sub & L1 & H1 & DZ & GE).
      rewrite triangle_with in H. cbn [with_solution rows gap_cols] in H.
      destruct (Nat.ltb_spec (length (rows o)) gaps); [lia|].
      replace (length (rows o) - gaps) with delta in H by lia.
      destruct (finish (dense_part_binary p gc t1) out out1) as (out2 & E2 & OC & _); auto.
      * intros. apply binary_part with (g := gaps); auto.
      * rewrite E2 in H. cbn [bind] in H. injection H as <- <- <-. exact OC.
  - exfalso.
    assert (Far : delta < length (rows o) - gap_count o).
    { assert (gap_count o < 256) by (apply Nat.mod_upper_bound; lia). lia. }
    match type of H with (r <- ?e ;; _) = _ => destruct e as [[[o1 out1] t1]|] eqn:E1 end;
      [|discriminate]. cbn [bind] in H.
    assert (T1 : forall part it, triangle o1 part values it out1 = triangle o part values it out1
                  /\ rows o1 = rows o).
    { intros part it. rewrite GC0 in E1. cbn [is_nil] in E1.
      destruct (negb (Nat.eqb (gap_count o) 0)); cbn [andb] in E1.
      - destruct (solve_binary vl p o (gap_count o) values out t) as [[[[[gc fcl] E] outx] tx]|]; [|discriminate].
        cbn [bind] in E1. injection E1 as <- <- <-. split; [apply triangle_with|reflexivity].
      - destruct t as [t|].
        + unfold draw in E1. destruct (random_all _ _ _ _ _); [|discriminate]. cbn [bind] in E1.
          injection E1 as <- <- <-. auto.
        + injection E1 as <- <- <-. auto. }
    destruct (T1 (fun _ _ _ => None) 0) as [_ RR]. rewrite RR in H.
    destruct (Nat.ltb (length (rows o)) (gap_count o)); [discriminate|].
    rewrite (proj1 (T1 _ _)), triangle_too_far in H by exact Far. discriminate.
Qed.

(** ** GF(2^128) *)
Lemma gf_sum_gap out d L : kind p = gf_128 ->
  N.lxor (dense_sum vl p out d) (xs (fun r => dense_sum vl p out (hashed r)) L)
  = xs (fun k => vmul vl (nth (msize p + k) out 0%N)
                   (N.lxor (gpow d k) (xs (fun r => gpow (hashed r) k) L))) (seq 0 (dsize p)).
Proof.
  intros K. unfold dense_sum. rewrite K, xs_swap, <- xs_add. apply xs_ext. intros k _.
  rewrite vmul_add_r. f_equal. symmetry. apply xs_hom.
  - apply vmul_0_r.
  - intros. apply vmul_add_r.
Qed.

Lemma random_rows_spec len : forall k t rs t', random_rows k len t = (rs, t') ->
  (forall i, N.lt (t i) (2 ^ 128)) ->
  length rs = k /\ Forall (vector (2 ^ 128) len) rs.
Proof.
  induction k as [|k IH]; intros t rs t' H B; cbn [random_rows] in H.
  - injection H as <- <-. split; [reflexivity|constructor].
  - unfold draw in H. destruct (random_rows k len (fun i => t (len + i))) as [rs1 t1] eqn:E.
    injection H as <- <-. apply IH in E; [|intros; apply B]. destruct E as [L F].
    split; [cbn; lia|]. constructor; [|exact F]. split; [rewrite map_length, seq_length; reflexivity|].
    apply Forall_forall. intros x Hx. apply in_map_iff in Hx. destruct Hx as (i & <- & _). apply B.
Qed.

Definition tape_ok (t : tape) : Prop :=
  match t with None => True | Some t => forall i, N.lt (t i) (2 ^ 128) end.

Hypothesis DsB : Forall (fun d => N.lt d (2 ^ 128)) ds.
Hypothesis ValB : Forall (fun v => N.lt v (2 ^ (128 * N.of_nat vl))) values.

Lemma hashed_lt r : N.lt (hashed r) (2 ^ 128).
Proof.
  destruct (Nat.ltb_spec r (length ds)).
  - rewrite Forall_forall in DsB. apply DsB. apply nth_In. assumption.
  - rewrite nth_overflow by assumption. reflexivity.
Qed.

Lemma val_lt r : N.lt (val r) (2 ^ (128 * N.of_nat vl)).
Proof.
  destruct (Nat.ltb_spec r (length values)).
  - rewrite Forall_forall in ValB. apply ValB. apply nth_In. assumption.
  - rewrite nth_overflow by assumption. apply N.neq_0_lt_0, N.pow_nonzero. discriminate.
Qed.

Lemma solve_gf_inv out t fcl E out1 t1 g : kind p = gf_128 -> g = gaps -> tape_ok t ->
  length out = total p -> (forall c, msize p <= c -> nth c out 0%N = 0%N) ->
  solve_gf vl p o g values out t = Some (fcl, E, out1, t1) ->
  gaps <= dsize p /\ length out1 = total p
  /\ (forall c, c < msize p -> nth c out1 0%N = nth c out 0%N)
  /\ gap_equations out1.
Proof.
  intros K -> TO Lo Zo H. unfold solve_gf in H.
  assert (DS : dsize p = glimit p).
  { unfold dsize. rewrite K. unfold sized in Sz. rewrite Nat.add_0_r. apply Nat.mod_small. lia. }
  destruct (Nat.ltb_spec (glimit p) gaps) as [|Hg]; [discriminate|].
  destruct (get_FC_1_spec p ds o G Dn gaps (Nat.le_refl _)) as (F & EF & LF & HF).
  rewrite EF in H. cbn [bind] in H.
  assert (HF' : forall i, i < gaps -> cancels o i (nth i F [])).
  { intros i Hi. destruct (HF i Hi) as (L & E1 & C). rewrite FC0 in E1.
    destruct i; cbn [nth app] in E1; rewrite E1; exact C. }
  clear HF.
  set (len := match t with Some _ => dsize p | None => gaps end) in *.
  assert (Hlen : gaps <= len <= dsize p) by (unfold len; destruct t; lia).
  rewrite EM0 in H. rewrite firstn_nil in H. cbn [app length] in H. rewrite Nat.sub_0_r in H.
  destruct (Nat.ltb_spec len gaps) as [|_]; [lia|].
  match type of H with (top <- ?e ;; _) = _ => destruct e as [top|] eqn:ET end; [|discriminate].
  cbn [bind] in H.
  destruct (all_some_seq_inv _ _ _ [] ET) as [Lt Ht]. clear ET.
  assert (HT : forall i, i < gaps -> length (nth i top []) = len /\
    forall k, k < len -> nth k (nth i top []) 0%N
      = N.lxor (gpow (hashed (nth i (gap_rows o) 0)) k)
               (xs (fun r => gpow (hashed r) k) (nth i F []))).
  { intros i Hi. specialize (Ht i Hi).
    destruct (gap_powers_ok p ds o values Dn LV F len i (nth i F []) Hi eq_refl (HF' i Hi))
      as (pw & EP & LP & HP).
    rewrite EP in Ht. cbn [bind] in Ht. unfold write_prefix in Ht.
    assert (ER : nth i (repeat (repeat 0%N len) len) [] = repeat 0%N len).
    { rewrite nth_indep with (d' := repeat 0%N len) by (rewrite repeat_length; lia). apply nth_repeat. }
    rewrite ER, repeat_length, LP, Nat.leb_refl in Ht.
    rewrite skipn_all2 in Ht by (rewrite repeat_length; lia). rewrite app_nil_r in Ht.
    injection Ht as <-. split; [exact LP|exact HP]. }
  clear Ht.
  assert (TopV : Forall (vector (2 ^ 128) len) top).
  { apply Forall_forall. intros r Hr. apply In_nth with (d := []) in Hr.
    destruct Hr as (i & Hi & <-). rewrite Lt in Hi. destruct (HT i Hi) as [L1 H1].
    split; [exact L1|]. apply Forall_forall. intros x Hx. apply In_nth with (d := 0%N) in Hx.
    destruct Hx as (k & Hk & <-). rewrite L1 in Hk. rewrite H1 by exact Hk.
    apply lxor_lt; [apply gpow_lt, hashed_lt|]. apply xs_lt. intros r _. apply gpow_lt, hashed_lt. }
  match type of H with (r <- ?e ;; _) = _ => destruct e as [[[M rv] tr]|] eqn:ER end;
    [|discriminate]. cbn [bind] in H.
  assert (HM : square (2 ^ 128) len M /\ (forall i, i < gaps -> nth i M [] = nth i top [])
               /\ length rv = len - gaps).
  { destruct t as [t0|].
    - unfold draw in ER. destruct (random_rows (dsize p - gaps) (dsize p) _) as [rest t2] eqn:RR.
      match type of ER with (x <- ?e ;; _) = _ => destruct e as [rvx|] eqn:EV end; [|discriminate].
      cbn [bind] in ER. injection ER as <- <- <-.
      apply random_rows_spec in RR; [|intros; apply TO]. destruct RR as [Lrr FRR].
      destruct (all_some_seq_inv _ _ _ 0%N EV) as [Lrv _].
      split; [|split].
      + split; [rewrite app_length; unfold len; lia|]. apply Forall_app. split; [exact TopV|exact FRR].
      + intros i Hi. apply app_nth1. lia.
      + exact Lrv.
    - injection ER as <- <- <-. split; [|split].
      + split; [exact Lt|exact TopV].
      + auto.
      + unfold len. cbn. lia. }
  clear ER. destruct HM as (SQ & HM & Lrv).
  assert (C69 := C69_gf128_partial len M SQ).
  destruct (check_invert_gf128 M) as [Ei|]; [|discriminate]. cbn [bind] in H.
  destruct (all_some (map (gap_value o F values) (seq 0 gaps))) as [vs|] eqn:EV; [|discriminate].
  cbn [bind] in H. destruct (all_some_seq_inv _ _ _ 0%N EV) as [Lv Hv]. clear EV.
  destruct (add_outputs_spec (msize p) (seq 0 len) (times_gf vl Ei (vs ++ rv)) out)
    as (out2 & E2 & L2 & W1 & W2).
  - apply seq_NoDup.
  - unfold times_gf. rewrite map_length, seq_length. apply C69.
  - apply seq_bound. unfold total in Lo. lia.
  - rewrite E2 in H. cbn [bind] in H. assert (out2 = out1) by congruence. clear H. subst out2.
    split; [lia|]. split; [lia|]. split.
    + intros c Hc. apply W2. intros; lia.
    + intros i Hi. exists (nth i F []). split; [apply HF'; exact Hi|].
      assert (HVi := gap_value_ok p ds o values Dn LV F i (nth i F []) Hi eq_refl (HF' i Hi)).
      rewrite (Hv i Hi) in HVi. injection HVi as HVi.
      assert (En : nth i (vs ++ rv) 0%N = nth i vs 0%N) by (apply app_nth1; lia).
      assert (SG := solve_gf_system vl len M Ei (vs ++ rv) i SQ C69).
      rewrite En in SG. rewrite <- HVi, gf_sum_gap by exact K.
      rewrite <- SG.
      * rewrite xs_xsum.
        replace (dsize p) with (len + (dsize p - len)) by lia.
        rewrite seq_app, xs_app. cbn [Nat.add].
        match goal with |- N.lxor _ ?b = _ => assert (Z : b = 0%N) end.
        { apply xs_0. intros k Hk. apply in_seq in Hk. rewrite W2.
          - rewrite Zo by lia. apply vmul_0_l.
          - intros c Hc. apply in_seq in Hc. lia. }
        rewrite Z, N.lxor_0_r. apply xs_ext. intros k Hk. apply in_seq in Hk.
        specialize (W1 k). rewrite seq_length, seq_nth in W1 by lia. cbn [Nat.add] in W1.
        rewrite W1 by lia. rewrite Zo by lia. rewrite N.lxor_0_l.
        rewrite HM by exact Hi. destruct (HT i Hi) as [_ HTk]. rewrite HTk by lia. reflexivity.
      * rewrite app_length. lia.
      * lia.
      * rewrite HVi. apply lxor_lt; [apply val_lt|]. apply xs_lt. intros; apply val_lt.
Qed.

Lemma gf_part g t out1 : kind p = gf_128 -> 1 <= dsize p ->
  (g = 0 -> t = None -> forall c, msize p <= c -> nth c out1 0%N = 0%N) ->
  forall d out2 acc, length out2 = total p ->
    (forall c, msize p <= c -> nth c out2 0%N = nth c out1 0%N) ->
    dense_part_gf vl p g t d out2 acc = Some (N.lxor acc (dense_sum vl p out1 d)).
Proof.
  clear LV GC0 FC0 EM0 Dn Sz G DsB ValB.
  intros K D1 Z d out2 acc L2 A. unfold dense_part_gf.
  rewrite <- (dense_sum_ext vl p out1 out2 d A). unfold dense_sum. rewrite K.
  destruct (Nat.eqb g 0 && match t with None => true | Some _ => false end) eqn:C.
  - apply andb_prop in C. destruct C as [C1 C2]. apply Nat.eqb_eq in C1.
    destruct t; [discriminate|]. rewrite xs_0; [rewrite N.lxor_0_r; reflexivity|].
    intros k _. rewrite A by lia. rewrite Z by (auto; lia). apply vmul_0_l.
  - rewrite Nat.max_r by exact D1. unfold total in L2.
    rewrite add_powers_ok by (rewrite powers_length; lia). f_equal. f_equal.
    rewrite powers_length. apply xs_ext. intros k Hk. apply in_seq in Hk.
    rewrite powers_nth0 by lia. rewrite Nat.add_0_r. reflexivity.
Qed.

Lemma triangle_none part out k : length out = total p ->
  (forall d acc, part d out acc = None) -> triangle o part values (S k) out = None.
Proof.
  intros L H. cbn [triangle].
  destruct (rd (tri_rows o) k); [|reflexivity]. cbn [bind].
  destruct (rd (tri_cols o) k); [|reflexivity]. cbn [bind].
  destruct (rd values n); [|reflexivity]. cbn [bind].
  destruct (rd (rows o) n); [|reflexivity]. cbn [bind].
  destruct (add_cols out l n1); [|reflexivity]. cbn [bind].
  destruct (rd (dense o) n); [|reflexivity]. cbn [bind].
  rewrite H. reflexivity.
Qed.

Lemma no_rows_no_gaps : delta = 0 -> gaps = 0.
Proof.
  intros H. destruct (gap_rows o) as [|g gs] eqn:E; [reflexivity|]. exfalso.
  assert (LG := d_gf _ _ _ Dn). rewrite E in LG.
  assert (IG := d_gfin _ _ _ Dn). destruct (gap_first o) as [|f fs]; [discriminate|].
  specialize (IG f (or_introl eq_refl)). destruct (tri_rows o); [contradiction|discriminate].
Qed.

Theorem backfill_gf_ok out t o' out' t' : kind p = gf_128 -> tape_ok t -> gaps < 256 ->
  length out = total p -> (forall c, msize p <= c -> nth c out 0%N = 0%N) ->
  (forall c, In c (tri_cols o) -> nth c out 0%N = 0%N) ->
  backfill_gf128 vl p o values out t = Some (o', out', t') ->
  dense_ok p /\ outcome out out'.
Proof.
  intros K TO Small Lo Zo Zt H. split; [unfold dense_ok; rewrite K; exact I|].
  unfold backfill_gf128 in H.
  rewrite (gap_count_small Small) in *. rewrite GC0 in H. cbn [is_nil] in H. rewrite andb_true_r in H.
  destruct (Nat.eqb_spec gaps 0) as [Z|NZ]; cbn [negb] in H.
  - assert (GE : forall x, gap_equations x) by (intros x i Hi; lia).
    rewrite Z in H.
    assert (NoD : forall t2 out1, length out1 = total p ->
              (forall c, c < msize p -> nth c out1 0%N = nth c out 0%N) ->
              (t2 = None -> forall c, msize p <= c -> nth c out1 0%N = 0%N) ->
              triangle o (dense_part_gf vl p 0 t2) values delta out1 = Some out' ->
              outcome out out').
    { intros t2 out1 L1 H1 Z1 HT.
      destruct (Nat.eq_dec (dsize p) 0) as [D0|D0].
      - destruct (Nat.eq_dec delta 0) as [T0|T0].
        + rewrite T0 in HT. cbn [triangle] in HT. injection HT as <-. constructor.
          * exact L1.
          * intros i Hi. lia.
          * intros i Hi. lia.
          * intros c Hc _. apply H1. exact Hc.
        + destruct t2 as [t2|].
          * exfalso. destruct delta as [|k]; [lia|]. rewrite triangle_none in HT.
            -- discriminate.
            -- exact L1.
            -- intros d acc. unfold dense_part_gf. cbn [Nat.eqb andb]. rewrite D0. cbn [Nat.max powers].
               cbn [add_powers]. unfold rd. rewrite (proj2 (nth_error_None _ _)); [reflexivity|].
               unfold total in L1. lia.
          * destruct (finish (dense_part_gf vl p 0 None) out out1) as (out2 & E2 & OC & _); auto.
            -- intros d o2 acc _ _. unfold dense_part_gf. cbn [Nat.eqb andb]. unfold dense_sum.
               rewrite K, D0. cbn. rewrite N.lxor_0_r. reflexivity.
            -- rewrite E2 in HT. injection HT as <-. exact OC.
      - destruct (finish (dense_part_gf vl p 0 t2) out out1) as (out2 & E2 & OC & _); auto.
        + intros. apply gf_part; auto. lia.
        + rewrite E2 in HT. injection HT as <-. exact OC. }
    destruct t as [t|].
    + unfold draw in H.
      destruct (random_all vl (msize p) (seq 0 (dsize p)) _ out) as [out1|] eqn:RA; [|discriminate].
      cbn [bind] in H.
      destruct (random_all_inv _ _ _ _ _ _ RA) as [L1 H1].
      match type of H with (x <- ?e ;; _) = _ => destruct e as [out2|] eqn:ET end; [|discriminate].
      cbn [bind] in H. injection H as <- <- <-. eapply NoD; [| | |exact ET].
      * lia.
      * intros c Hc. apply H1. intros; lia.
      * intros X. discriminate.
    + cbn [bind] in H.
      match type of H with (x <- ?e ;; _) = _ => destruct e as [out2|] eqn:ET end; [|discriminate].
      cbn [bind] in H. injection H as <- <- <-. eapply NoD; [| | |exact ET]; auto.
  - destruct (solve_gf vl p o gaps values out t) as [[[[fcl E] out1] t1]|] eqn:SG; [|discriminate].
    cbn [bind] in H.
    destruct (solve_gf_inv _ _ _ _ _ _ _ K eq_refl TO Lo Zo SG) as (Gd & L1 & H1 & GE).
    rewrite triangle_with in H. cbn [with_solution tri_rows] in H.
    destruct (finish (dense_part_gf vl p gaps t1) out out1) as (out2 & E2 & OC & _); auto.
    + intros. apply gf_part; auto; lia.
    + rewrite E2 in H. cbn [bind] in H. injection H as <- <- <-. exact OC.
Qed.
End Solve.

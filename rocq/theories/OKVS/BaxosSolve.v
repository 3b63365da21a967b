(** [solve] with several bins: what the bins hold does not depend on the number
    of threads or the schedule. *)
From Coq Require Import NArith List Bool Lia Arith Permutation.
From Coq Require Import ZifyBool ZifyNat ZifyN.
From Verif Require Import Base.Words Base.ListX OKVS.DivModel OKVS.DivProps OKVS.SparseModel
  OKVS.PaxosModel OKVS.BaxosModel OKVS.BaxosLists OKVS.BaxosSort OKVS.BaxosBins.
Import ListNotations.

(** ** Outputs made of one part per bin *)
Section Outs.
Variable nb tot : nat.
Definition whole (cur : nat -> list N) : list N := concat (map cur (seq 0 nb)).

Lemma seq_at b : b < nb -> seq 0 nb = seq 0 b ++ b :: seq (S b) (nb - S b).
Proof.
  intros H. replace nb with (b + S (nb - S b)) at 1 by lia. rewrite seq_app. reflexivity.
Qed.
Lemma concat_len (cur : nat -> list N) : (forall b, length (cur b) = tot) -> forall s k,
  length (concat (map cur (seq s k))) = k * tot.
Proof.
  intros H s k. revert s. induction k as [|k IH]; intros s; [reflexivity|].
  cbn [seq map concat]. rewrite app_length, IH, H. lia.
Qed.
Lemma whole_length cur : (forall b, length (cur b) = tot) -> length (whole cur) = nb * tot.
Proof. intros H. apply concat_len. exact H. Qed.
Lemma whole_slice cur b : (forall b, length (cur b) = tot) -> b < nb ->
  slice (whole cur) (b * tot) tot = Some (cur b).
Proof.
  intros H Hb. unfold whole. rewrite (seq_at b Hb), map_app, concat_app. cbn [map concat].
  apply slice_app; [rewrite concat_len by exact H; reflexivity|symmetry; apply H].
Qed.
Definition change (cur : nat -> list N) (b : nat) (v : list N) : nat -> list N :=
  fun x => if x =? b then v else cur x.
Lemma whole_splice cur b v : (forall b, length (cur b) = tot) -> b < nb -> length v = tot ->
  splice (whole cur) (b * tot) v = Some (whole (change cur b v)).
Proof.
  intros H Hb Hv. unfold whole. rewrite (seq_at b Hb), !map_app, !concat_app. cbn [map concat].
  rewrite splice_app; [|rewrite concat_len by exact H; reflexivity|rewrite H; exact Hv].
  do 2 f_equal.
  - f_equal. apply map_ext_in. intros x Hx. apply in_seq in Hx. unfold change.
    replace (x =? b) with false by lia. reflexivity.
  - f_equal.
    + unfold change. rewrite Nat.eqb_refl. reflexivity.
    + f_equal. apply map_ext_in. intros x Hx. apply in_seq in Hx. unfold change.
      replace (x =? b) with false by lia. reflexivity.
Qed.
End Outs.

Section Solve.
Variable enc : N -> N.
Variable vl : nat.
Variable B : baxos.
Variable keys values : list N.
Variable tapes : nat -> tape.
Notation nb := (nbins B).
Notation n := (length keys).

(** The entries of a bin, in the order of the keys *)
Definition pairs (b : nat) : list (N * N) :=
  cells b (map (truth enc B keys values) (seq 0 (length keys))).

(** What is encoded in a bin *)
Definition bin_out (b : nat) : option (list N) :=
  if Nat.ltb (per_bin B) (length (pairs b)) then None
  else
    o <- set_keys (binp B) (map snd (pairs b)) ;;
    r <- encode vl (binp B) o (map fst (pairs b)) (tapes b) ;;
    Some (snd (fst r)).

Lemma bin_out_length b v : bin_out b = Some v -> length v = total (binp B).
Proof.
  unfold bin_out. destruct (_ <? _); [discriminate|]. intros H.
  apply bind_inv in H. destruct H as (o & _ & H).
  apply bind_inv in H. destruct H as ([[o' out] t'] & E & H). injection H as <-.
  apply encode_into_length in E. rewrite repeat_length in E. exact E.
Qed.

Variable T : nat.
Notation seg := (per_thread B T).
Notation C b t := (cells b (part enc B T keys values t)).

Lemma pairs_parts b : 0 < T -> pairs b = concat (map (fun t => C b t) (seq 0 T)).
Proof.
  intros H. unfold pairs. rewrite <- (parts_all n T H).
  rewrite concat_map, map_map. fold (part enc B T keys values).
  change (fun x => map (truth enc B keys values) (seq (t_begin n T x) (t_len n T x)))
    with (part enc B T keys values).
  induction (seq 0 T) as [|t l IH]; [reflexivity|]. cbn [map concat].
  rewrite cells_app, IH. reflexivity.
Qed.

Hypothesis Hnb : 0 < nb.
Hypothesis HT : 0 < T.
Hypothesis H256 : nb + T <= 256.
Hypothesis HG : bglimit B + bssp B < 256.
Hypothesis LV : length values = n.
Hypothesis B56 : (N.of_nat n < 2 ^ 56)%N.
Hypothesis L32 : forall t, t < T -> 32 <= t_len n T t.
Hypothesis FS : forall t b, t < T -> b < nb -> length (C b t) <= seg.
Hypothesis FW : forall b, b < nb ->
  length (pairs b) <= per_bin B -> (N.of_nat (length (pairs b)) < 2 ^ width (bmsize B))%N.
Hypothesis FW1 : forall t b, t < T -> b < nb ->
  (N.of_nat (length (C b t)) < 2 ^ width (bmsize B))%N.

Lemma btotal_total : btotal B = total (binp B).
Proof.
  unfold btotal, total, dsize. cbn [binp glimit ssp kind msize].
  rewrite Nat.mod_small; [reflexivity|]. destruct (bkind B); lia.
Qed.

Variable sizes : list (list nat).
Hypothesis LS : length sizes = T.
Hypothesis HS : forall t b, t < T -> b < nb -> rd (nth t sizes []) b = Some (length (C b t)).

(** The row of a bin is still as the first section left it. *)
Definition row_ok (tab : list (option (N * N))) (b : nat) : Prop :=
  forall t, t < T -> holds tab (b * (T * seg) + t * seg) (C b t).

Lemma bin_step_ok b tab cur :
  b < nb -> length tab = nb * (T * seg) -> row_ok tab b ->
  (forall b, length (cur b) = btotal B) -> cur b = repeat 0%N (btotal B) ->
  match bin_out b with
  | None => bin_step vl B sizes T b (tapes b) (tab, whole nb cur) = None
  | Some v =>
      exists tab', bin_step vl B sizes T b (tapes b) (tab, whole nb cur)
                   = Some (tab', whole nb (change cur b v))
        /\ length tab' = length tab
        /\ forall b', b' < nb -> b' <> b -> row_ok tab b' -> row_ok tab' b'
  end.
Proof.
  intros Hb LT RO LC C0. unfold bin_step.
  assert (EN : map (fun l => rd l b) sizes = map Some (map (fun t => length (C b t)) (seq 0 T))).
  { rewrite map_map. rewrite <- (map_nth_seq sizes []) at 1. rewrite map_map, LS.
    apply map_ext_in. intros t Ht. apply in_seq in Ht. apply HS; lia. }
  rewrite EN, all_some_Some. cbn [bind].
  assert (SL : list_sum (map (fun t => length (C b t)) (seq 0 T)) = length (pairs b)).
  { rewrite (pairs_parts b HT). clear EN. induction (seq 0 T) as [|t l IH]; [reflexivity|].
    cbn [map concat list_sum fold_right]. rewrite app_length, <- IH. reflexivity. }
  rewrite SL. unfold bin_out. destruct (Nat.ltb_spec (per_bin B) (length (pairs b))) as [L|L]; [reflexivity|].
  rewrite HS by assumption. cbn [bind].
  destruct (gather_ok B T b ltac:(lia) (fun t => C b t)) with (sizes := sizes) (n := T - 1) (k := 1) (tab := tab)
    as (tab' & EG & LT' & HO & OT).
  - intros t Ht. apply FS; assumption.
  - rewrite <- (pairs_parts b HT). apply FW; assumption.
  - intros t Ht. apply HS; assumption.
  - lia.
  - lia.
  - exact LT.
  - exact Hb.
  - cbn [seq map concat]. rewrite app_nil_r. specialize (RO 0 HT).
    rewrite Nat.mul_0_l, Nat.add_0_r in RO. exact RO.
  - intros t _ Ht. apply RO. exact Ht.
  - cbn [seq map concat] in EG. rewrite app_nil_r in EG. rewrite EG. cbn [bind].
    rewrite <- (pairs_parts b HT) in HO.
    assert (LP : length (pairs b) <= T * seg).
    { rewrite (pairs_parts b HT). apply (prefix_le B T (fun t => C b t)); [|lia].
      intros t Ht. apply FS; assumption. }
    assert (LR : b * (T * seg) + length (pairs b) <= length tab').
    { rewrite LT', LT. nia. }
    rewrite slice_ok by exact LR. cbn [bind].
    rewrite (slice_seq tab' None) by exact LR.
    assert (EC : map (fun j => nth j tab' None) (seq (b * (T * seg)) (length (pairs b)))
               = map Some (pairs b)).
    { apply list_eq_nth with (d := None).
      - rewrite !map_length, seq_length. reflexivity.
      - intros j Hj. rewrite map_length, seq_length in Hj.
        rewrite nth_map' with (d := 0) by (rewrite seq_length; exact Hj).
        rewrite nth_map' with (d := (0, 0)%N) by exact Hj.
        rewrite nth_seq' by exact Hj.
        apply nth_error_nth. apply HO. exact Hj. }
    rewrite EC, all_some_Some. cbn [bind].
    destruct (set_keys (binp B) (map snd (pairs b))) as [o|]; [|reflexivity]. cbn [bind].
    rewrite <- btotal_total. rewrite (whole_slice nb (btotal B)) by assumption. cbn [bind].
    rewrite C0. unfold encode. rewrite <- btotal_total.
    destruct (encode_into vl (binp B) o (map fst (pairs b)) (repeat 0%N (btotal B)) (tapes b))
      as [[[o' v] t']|] eqn:EE; [|reflexivity]. cbn [bind fst snd].
    apply encode_into_length in EE. rewrite repeat_length in EE.
    rewrite (whole_splice nb (btotal B)) by assumption. cbn [bind].
    exists tab'. split; [reflexivity|]. split; [exact LT'|].
    intros b' Hb' NE R t Ht j Hj. rewrite <- (R t Ht j Hj). apply OT.
    assert (F := FS t b' Ht Hb').
    assert (J : t * seg + j < T * seg) by nia.
    destruct (Nat.lt_ge_cases b' b) as [Q|Q]; [left|right]; nia.
Qed.

Lemma bin_steps_ok : forall order tab cur,
  NoDup order -> (forall b, In b order -> b < nb) ->
  length tab = nb * (T * seg) -> (forall b, In b order -> row_ok tab b) ->
  (forall b, length (cur b) = btotal B) -> (forall b, In b order -> cur b = repeat 0%N (btotal B)) ->
  (forall tab' out, bin_steps vl B sizes T tapes order (tab, whole nb cur) = Some (tab', out) ->
     exists cur', out = whole nb cur' /\ (forall b, In b order -> bin_out b = Some (cur' b))
       /\ forall b, ~ In b order -> cur' b = cur b)
  /\ ((forall b, In b order -> bin_out b <> None) ->
      exists r, bin_steps vl B sizes T tapes order (tab, whole nb cur) = Some r).
Proof.
  induction order as [|b order IH]; intros tab cur ND HB LT RO LC C0.
  - cbn [bin_steps]. split.
    + intros tab' out H. injection H as <- <-. exists cur. split; [reflexivity|].
      split; [intros b []|auto].
    + intros _. eexists. reflexivity.
  - cbn [bin_steps]. apply NoDup_cons_iff in ND. destruct ND as [NI ND].
    assert (S := bin_step_ok b tab cur (HB b (or_introl eq_refl)) LT (RO b (or_introl eq_refl)) LC
                   (C0 b (or_introl eq_refl))).
    destruct (bin_out b) as [v|] eqn:EB.
    + destruct S as (tab1 & E1 & LT1 & RO1). rewrite E1. cbn [bind].
      assert (LV' := bin_out_length b v EB). rewrite <- btotal_total in LV'.
      destruct (IH tab1 (change cur b v)) as [A1 A2].
      * exact ND.
      * intros x Hx. apply HB. right. exact Hx.
      * congruence.
      * intros x Hx. apply RO1; [apply HB; right; exact Hx| |apply RO; right; exact Hx].
        intros ->. contradiction.
      * intros x. unfold change. destruct (x =? b); [exact LV'|apply LC].
      * intros x Hx. unfold change. destruct (Nat.eqb_spec x b) as [->|_]; [contradiction|].
        apply C0. right. exact Hx.
      * split.
        -- intros tab' out H. destruct (A1 tab' out H) as (cur' & EO & P1 & P2).
           exists cur'. split; [exact EO|]. split.
           ++ intros x [<-|Hx]; [|apply P1; exact Hx]. rewrite EB, P2 by exact NI.
              unfold change. rewrite Nat.eqb_refl. reflexivity.
           ++ intros x Hx. rewrite P2 by (intros I; apply Hx; right; exact I).
              unfold change. destruct (Nat.eqb_spec x b) as [->|_]; [|reflexivity].
              exfalso. apply Hx. left. reflexivity.
        -- intros H. apply A2. intros x Hx. apply H. right. exact Hx.
    + rewrite S. cbn [bind]. split; [discriminate|]. intros H. exfalso.
      apply (H b (or_introl eq_refl)). exact EB.
Qed.
End Solve.

Section Top.
Variable enc : N -> N.
Variable vl : nat.
Variable B : baxos.
Variable keys values : list N.
Variable tapes : nat -> tape.
Variable T : nat.
Notation nb := (nbins B).
Notation n := (length keys).
Notation seg := (per_thread B T).

(** Every thread has 32 keys and they fit into its part of the table. *)
Definition fits : Prop :=
  2 <= nb /\ 0 < T /\ nb + T <= 256 /\ bglimit B + bssp B < 256
  /\ (N.of_nat n < 2 ^ 56)%N
  /\ (forall t, t < T -> 32 <= t_len n T t)
  /\ (forall t b, t < T -> b < nb ->
        length (cells b (part enc B T keys values t)) <= seg)
  /\ (forall b, b < nb ->
        (N.of_nat (length (pairs enc B keys values b)) < 2 ^ width (bmsize B))%N).

Hypothesis F : fits.
Hypothesis LV : length values = n.

Lemma solve_ok sched1 sched2 out :
  solve enc vl B T sched1 sched2 tapes keys values (repeat 0%N (nb * btotal B)) = Some out ->
  exists cur, out = whole nb cur
    /\ forall b, b < nb -> bin_out enc vl B keys values tapes b = Some (cur b).
Proof.
  destruct F as (Hnb & HT & H256 & HG & B56 & L32 & FS & FW).
  assert (FW1 : forall t b, t < T -> b < nb ->
    (N.of_nat (length (cells b (part enc B T keys values t))) < 2 ^ width (bmsize B))%N).
  { intros t b Ht Hb. specialize (FW b Hb). rewrite (pairs_parts enc B keys values T b HT) in FW.
    rewrite (seq_at T t Ht), map_app, concat_app in FW. cbn [map concat] in FW.
    rewrite !app_length in FW. lia. }
  intros H. unfold solve in H. replace (nb =? 1) with false in H by lia.
  replace (T =? 0) with false in H by lia.
  assert (N64 : (N.of_nat nb < 2 ^ 64)%N).
  { assert ((256 < 2 ^ 64)%N) by reflexivity. lia. }
  destruct (first_section enc B ltac:(lia) N64 T keys values HT LV B56 ltac:(lia) L32 FS FW1)
    as (rs & ER & LR & RS & TAB).
  rewrite ER in H. cbn [bind] in H.
  apply bind_inv in H. destruct H as (ws & EI & H).
  destruct (TAB _ _ EI) as (tab & EA & LT & HT'). rewrite EA in H. cbn [bind] in H.
  destruct (all_bins B T HT H256) as (bs & EB & PB). rewrite EB in H. cbn [bind] in H.
  apply bind_inv in H. destruct H as (order & EO & H).
  apply bind_inv in H. destruct H as ([tab' out'] & ES & H). injection H as <-.
  apply interleave_perm in EO. rewrite PB in EO.
  assert (W0 : repeat 0%N (nb * btotal B) = whole nb (fun _ => repeat 0%N (btotal B))).
  { unfold whole. clear. generalize 0%nat. generalize nb. induction n as [|k IH]; intros s; [reflexivity|].
    cbn [Nat.mul seq map concat]. rewrite repeat_app. f_equal. apply IH. }
  rewrite W0 in ES.
  destruct (bin_steps_ok enc vl B keys values tapes T ltac:(lia) HT H256 HG LV B56 L32 FS (fun b Hb _ => FW b Hb) FW1
     (map snd rs)) with (order := order) (tab := tab) (cur := fun _ : nat => repeat 0%N (btotal B))
    as [A _].
  - rewrite map_length. exact LR.
  - exact RS.
  - apply (Permutation_NoDup (Permutation_sym EO)). apply seq_NoDup.
  - intros b Hb. apply (Permutation_in _ EO) in Hb. apply in_seq in Hb. lia.
  - exact LT.
  - intros b Hb t Ht j Hj. apply (Permutation_in _ EO) in Hb. apply in_seq in Hb.
    rewrite <- (HT' t b j) by (assumption || lia). f_equal. unfold cell_addr.
    rewrite Nat.mod_small by lia. reflexivity.
  - intros b. apply repeat_length.
  - reflexivity.
  - destruct (A _ _ ES) as (cur & E & P & _). exists cur. split; [exact E|].
    intros b Hb. apply P. apply (Permutation_in _ (Permutation_sym EO)). apply in_seq. lia.
Qed.

Lemma solve_total :
  (forall b, b < nb -> bin_out enc vl B keys values tapes b <> None) ->
  exists sched1 sched2 out,
  solve enc vl B T sched1 sched2 tapes keys values (repeat 0%N (nb * btotal B)) = Some out.
Proof.
  intros HB.
  destruct F as (Hnb & HT & H256 & HG & B56 & L32 & FS & FW).
  assert (FW1 : forall t b, t < T -> b < nb ->
    (N.of_nat (length (cells b (part enc B T keys values t))) < 2 ^ width (bmsize B))%N).
  { intros t b Ht Hb. specialize (FW b Hb). rewrite (pairs_parts enc B keys values T b HT) in FW.
    rewrite (seq_at T t Ht), map_app, concat_app in FW. cbn [map concat] in FW.
    rewrite !app_length in FW. lia. }
  unfold solve. replace (nb =? 1) with false by lia.
  replace (T =? 0) with false by lia.
  assert (N64 : (N.of_nat nb < 2 ^ 64)%N).
  { assert ((256 < 2 ^ 64)%N) by reflexivity. lia. }
  destruct (first_section enc B ltac:(lia) N64 T keys values HT LV B56 ltac:(lia) L32 FS FW1)
    as (rs & ER & LR & RS & TAB).
  rewrite ER. cbn [bind]. exists (in_order (map fst rs)).
  rewrite interleave_in_order. cbn [bind].
  destruct (TAB _ _ (interleave_in_order (map fst rs))) as (tab & EA & LT & HT').
  rewrite EA. cbn [bind].
  destruct (all_bins B T HT H256) as (bs & EB & PB). rewrite EB. cbn [bind].
  exists (in_order bs). rewrite interleave_in_order. cbn [bind].
  assert (W0 : repeat 0%N (nb * btotal B) = whole nb (fun _ => repeat 0%N (btotal B))).
  { unfold whole. clear. generalize 0%nat. generalize nb. induction n as [|k IH]; intros s; [reflexivity|].
    cbn [Nat.mul seq map concat]. rewrite repeat_app. f_equal. apply IH. }
  rewrite W0.
  destruct (bin_steps_ok enc vl B keys values tapes T ltac:(lia) HT H256 HG LV B56 L32 FS (fun b Hb _ => FW b Hb) FW1
     (map snd rs)) with (order := concat bs) (tab := tab) (cur := fun _ : nat => repeat 0%N (btotal B))
    as [_ A].
  - rewrite map_length. exact LR.
  - exact RS.
  - apply (Permutation_NoDup (Permutation_sym PB)). apply seq_NoDup.
  - intros b Hb. apply (Permutation_in _ PB) in Hb. apply in_seq in Hb. lia.
  - exact LT.
  - intros b Hb t Ht j Hj. apply (Permutation_in _ PB) in Hb. apply in_seq in Hb.
    rewrite <- (HT' t b j) by (assumption || lia). f_equal. unfold cell_addr.
    rewrite Nat.mod_small by lia. reflexivity.
  - intros b. apply repeat_length.
  - reflexivity.
  - destruct A as (r & ES).
    + intros b Hb. apply HB. apply (Permutation_in _ PB) in Hb. apply in_seq in Hb. lia.
    + rewrite ES. cbn [bind]. eexists. reflexivity.
Qed.
End Top.

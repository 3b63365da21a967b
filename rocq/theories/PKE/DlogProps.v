(** Properties C27 (discrete-log search) and C28 (loading a table). *)
From Coq Require Import NArith ZArith List Lia Bool Arith Permutation.
From Coq Require Import ZifyBool ZifyNat ZifyN.
From Verif.Base Require Import Words ListX.
From Verif.Utility Require Import SerialModel SerialProofs.
From Verif.Crypto Require Import BigIntModel BigIntSpec BigIntProofs.
From Verif.Group Require Import ECModel ECProofs ZqGroup.
From Verif.PKE Require Import DlogModel DlogSpec DlogProofs.
Import ListNotations.
Local Open Scope nat_scope.

Section Props.
Variable G : ECGroup.
Variable key : pt G -> N.
Hypothesis key64 : forall P, (key P < 2 ^ 64)%N.

(** the parameters are accepted and the range does not exceed the group *)
Definition good_params (g : pt G) (R T : nat) : Prop :=
  CheckDlogParameters R T = true /\ g <> inf G /\ (covered R T <= order G)%Z.

(** the state of a process that has loaded the table BuildSaveTable wrote for [g]
    and no other; [garbage] are the bytes of the uninitialised write buffer and
    [bs] the order in which the build tasks ran *)
Definition after_load (g : pt G) (R T : nat) (st : dstate G) : Prop :=
  exists garbage bs, length garbage = 65 /\ build_schedule bs /\
    LoadTable G (dstate0 G) (table_file G key garbage g R T bs) R T = Some st.

Lemma after_load_loaded : forall g R T st, good_params g R T -> after_load g R T st -> loaded G key g R T st.
Proof.
  intros g R T st [C [F Cov]] [gb [bs [L [P E]]]].
  refine (proj1 (loaded_after G key gb (dstate0 G) st g R T bs C P L key64 F Cov I _ E)).
  intros k b H. discriminate H.
Qed.

(** C27: for every interleaving of the search tasks, the answer "found" comes with a
    discrete log in the covered range and the answer "not found" means that there is
    none in that range. *)
Theorem C27_search_sound_complete : forall g h R T st x0 sched,
  good_params g R T -> after_load g R T st -> keys_separate G key g h R T ->
  finished G (run G key st h R T x0 sched) = true ->
  exists found x, ShanksDLOG G key st h R T x0 sched = Some (found, x) /\
    (found = true -> is_dlog G g h x /\ (0 <= x < covered R T)%Z) /\
    (found = false -> x = x0 /\ forall y, (0 <= y < covered R T)%Z -> ~ is_dlog G g h y).
Proof.
  intros g h R T st x0 sched GP AL SEP F.
  pose proof (after_load_loaded g R T st GP AL) as LD. destruct GP as [C _].
  apply search_correct; try assumption; apply LD.
Qed.

(** C27: for even RANGE_LEN every exponent of the configured range is found, under
    every interleaving. *)
Theorem C27_search_complete_partial : forall g R T st x x0 sched,
  good_params g R T -> after_load g R T st -> keys_separate G key g (pmul G g x) R T ->
  finished G (run G key st (pmul G g x) R T x0 sched) = true ->
  Nat.even R = true -> (0 <= x < 2 ^ Z.of_nat R)%Z ->
  ShanksDLOG G key st (pmul G g x) R T x0 sched = Some (true, x).
Proof.
  intros g R T st x x0 sched GP AL SEP F Ev B.
  assert (Ec : covered R T = (2 ^ Z.of_nat R)%Z).
  { destruct GP as [C _]. destruct (check_facts R T C) as [_ [_ [_ [_ HT]]]].
    rewrite (covered_pow R T HT). do 2 f_equal. apply Nat.even_spec in Ev. destruct Ev as [m ->].
    rewrite (Nat.mul_comm 2 m), Nat.div_mul by lia. lia. }
  destruct (C27_search_sound_complete g _ R T st x0 sched GP AL SEP F) as [found [y [E [S N]]]].
  rewrite E. destruct found.
  - destruct (S eq_refl) as [D By]. destruct GP as [_ [Fg Cov]]. do 2 f_equal.
    apply (dlog_unique G g (pmul G g x)); [exact Fg|exact D|reflexivity|lia|lia].
  - exfalso. destruct (N eq_refl) as [_ N']. apply (N' x); [lia|reflexivity].
Qed.

(** C27, the part of the statement that is false: for odd RANGE_LEN the upper half of
    the range is never found, whatever the interleaving. *)
Theorem C27_odd_range_refuted : forall g R T st x x0 sched,
  good_params g R T -> after_load g R T st -> keys_separate G key g (pmul G g x) R T ->
  finished G (run G key st (pmul G g x) R T x0 sched) = true ->
  Nat.odd R = true -> (2 ^ (Z.of_nat R - 1) <= x < 2 ^ Z.of_nat R)%Z -> (x < order G)%Z ->
  ShanksDLOG G key st (pmul G g x) R T x0 sched = Some (false, x0).
Proof.
  intros g R T st x x0 sched GP AL SEP F Od B Bq.
  assert (Ec : covered R T = (2 ^ (Z.of_nat R - 1))%Z).
  { destruct GP as [C _]. destruct (check_facts R T C) as [_ [_ [_ [_ HT]]]].
    rewrite (covered_pow R T HT). f_equal. apply Nat.odd_spec in Od. destruct Od as [m ->].
    replace (2 * m + 1) with (1 + m * 2) by lia. rewrite Nat.div_add by lia.
    change (1 / 2) with 0. lia. }
  destruct (C27_search_sound_complete g _ R T st x0 sched GP AL SEP F) as [found [y [E [S N]]]].
  rewrite E. destruct found.
  - exfalso. destruct (S eq_refl) as [D By]. destruct GP as [_ [Fg Cov]].
    assert (0 <= 2 ^ (Z.of_nat R - 1))%Z by (apply Z.pow_nonneg; lia).
    assert (y = x) by (apply (dlog_unique G g (pmul G g x)); [exact Fg|exact D|reflexivity|lia|lia]). lia.
  - destruct (N eq_refl) as [-> _]. reflexivity.
Qed.

(** C27: the search ends: any schedule that lets every task run often enough finishes. *)
Theorem C27_search_terminates : forall st h R T x0 sched,
  (forall i, i < SEARCH_TASK_NUM -> SLICED_GIANTSTEP_NUM R T + 4 <= count_occ Nat.eq_dec sched i) ->
  finished G (run G key st h R T x0 sched) = true.
Proof. intros. apply run_finishes. assumption. Qed.

(** C27: the table does not depend on the order in which the build tasks run. *)
Theorem C27_build_order_irrelevant : forall g R T bs bs' garbage,
  CheckDlogParameters R T = true -> build_schedule bs -> build_schedule bs' ->
  table_file G key garbage g R T bs = table_file G key garbage g R T bs'.
Proof. intros. unfold table_file. rewrite !babystep_keys_spec by assumption. reflexivity. Qed.

(** C27: a table can be loaded in a process that has loaded none. *)
Theorem C27_load_succeeds : forall g R T garbage bs,
  good_params g R T -> length garbage = 65 -> build_schedule bs ->
  exists st, LoadTable G (dstate0 G) (table_file G key garbage g R T bs) R T = Some st.
Proof.
  intros g R T gb bs [C [F Cov]] L P. eexists. apply LoadTable_build; auto. exact I.
Qed.

(** C27: a table file cut short by a crash is rejected, whatever the earlier state. *)
Theorem C27_truncated_table_rejected : forall st g R T garbage bs n,
  CheckDlogParameters R T = true -> length garbage = 65 ->
  n < length (table_file G key garbage g R T bs) ->
  LoadTable G st (firstn n (table_file G key garbage g R T bs)) R T = None.
Proof.
  intros st g R T gb bs n C L H. unfold LoadTable.
  rewrite firstn_length, Nat.min_l by lia. rewrite table_file_length in H by assumption.
  destruct (Nat.eqb_spec n (BABYSTEP_NUM R T * 8 + (SEARCH_TASK_NUM + 1) * 65)); [lia|reflexivity].
Qed.

(** C28: loading a table for [g] again, any number of times, leaves the searches to
    base [g] correct. *)
Theorem C28_reload_same_base_partial : forall g h R T st st' garbage bs x0 sched,
  good_params g R T -> length garbage = 65 -> build_schedule bs ->
  after_load g R T st -> LoadTable G st (table_file G key garbage g R T bs) R T = Some st' ->
  keys_separate G key g h R T ->
  finished G (run G key st' h R T x0 sched) = true ->
  exists found x, ShanksDLOG G key st' h R T x0 sched = Some (found, x) /\
    (found = true -> is_dlog G g h x /\ (0 <= x < covered R T)%Z) /\
    (found = false -> x = x0 /\ forall y, (0 <= y < covered R T)%Z -> ~ is_dlog G g h y).
Proof.
  intros g h R T st st' gb bs x0 sched GP L P [gb0 [bs0 [L0 [P0 E0]]]] E SEP F.
  destruct GP as [C [Fg Cov]].
  destruct (loaded_after G key gb0 (dstate0 G) st g R T bs0 C P0 L0 key64 Fg Cov I) as [LD A0];
    [intros k b H; discriminate H|exact E0|].
  destruct (loaded_after G key gb st st' g R T bs C P L key64 Fg Cov A0) as [LD' _];
    [apply (ld_sound _ _ _ _ _ _ LD)|exact E|].
  apply search_correct; try assumption; apply LD'.
Qed.

(** C28 is false: after loading the table of [g1] and then that of [g2], the entries
    of [g1] still answer.  Every target [g1 * b] in the old table whose logarithm to
    base [g2] is outside the range is reported as found, with a wrong logarithm,
    under every interleaving. *)
Theorem C28_stale_entries_refuted : forall g1 g2 R T st st' garbage bs b x0 sched,
  good_params g1 R T -> good_params g2 R T -> length garbage = 65 -> build_schedule bs ->
  after_load g1 R T st -> LoadTable G st (table_file G key garbage g2 R T bs) R T = Some st' ->
  b < BABYSTEP_NUM R T ->
  (forall y, (0 <= y < covered R T)%Z -> ~ is_dlog G g2 (pmul G g1 (Z.of_nat b)) y) ->
  finished G (run G key st' (pmul G g1 (Z.of_nat b)) R T x0 sched) = true ->
  exists x, ShanksDLOG G key st' (pmul G g1 (Z.of_nat b)) R T x0 sched = Some (true, x) /\
            ~ is_dlog G g2 (pmul G g1 (Z.of_nat b)) x.
Proof.
  intros g1 g2 R T st st' gb bs b x0 sched GP1 GP2 L P [gb0 [bs0 [L0 [P0 E0]]]] E Hb Out F.
  destruct GP1 as [C [F1 Cov]]. destruct GP2 as [_ [F2 _]].
  destruct (loaded_after G key gb0 (dstate0 G) st g1 R T bs0 C P0 L0 key64 F1 Cov I) as [LD A0];
    [intros k i H; discriminate H|exact E0|].
  rewrite LoadTable_build in E by assumption. inversion E; subst st'; clear E.
  set (keys := map _ (seq 0 (BABYSTEP_NUM R T))) in *.
  set (st' := {| giantstep := _; anchors := _; index_map := _ |}) in *.
  assert (Lk : length keys = BABYSTEP_NUM R T) by (unfold keys; rewrite map_length, seq_length; reflexivity).
  set (h := pmul G g1 (Z.of_nat b)) in *.
  pose proof (run_result G key st' g2 h R T x0 eq_refl eq_refl C sched F) as [S N]. cbv zeta in S, N.
  assert (Hf : exists b', hfind (index_map G st') (key h) = Some b').
  { unfold st'. cbn [index_map]. rewrite load_keys_find.
    destruct (find _ _); [eexists; reflexivity|]. apply (ld_complete _ _ _ _ _ _ LD). exact Hb. }
  assert (T0 : tgt G g2 h R T (0 * SLICED_GIANTSTEP_NUM R T + 0) = h).
  { unfold tgt. cbn [Nat.mul Nat.add]. change (Z.of_nat 0) with 0%Z. rewrite Z.mul_0_l, pmul_0.
    unfold psub. rewrite pneg_inf. apply padd_inf. }
  destruct (check_facts R T C) as [_ [_ [_ [Pg _]]]].
  assert (FT : FIND G (run G key st' h R T x0 sched) = true).
  { destruct (FIND G _) eqn:E; [reflexivity|]. exfalso. destruct (N eq_refl) as [_ M].
    specialize (M 0 0 ltac:(unfold SEARCH_TASK_NUM, LOG_TASK_NUM; cbn; lia) Pg).
    unfold miss in M. rewrite T0 in M. destruct Hf as [b' Hf]. congruence. }
  exists (xval G (run G key st' h R T x0 sched)). split.
  - unfold ShanksDLOG. destruct (index_map G st') eqn:E.
    + exfalso. destruct Hf as [b' Hf]. discriminate Hf.
    + rewrite FT. reflexivity.
  - apply Out. destruct (S FT) as [i [j [b' [Hi [[Hj Hh] ->]]]]].
    assert (Bb : b' < BABYSTEP_NUM R T).
    { unfold st' in Hh. cbn [index_map] in Hh. rewrite load_keys_find in Hh.
      destruct (find _ _) as [k|] eqn:Fd.
      - inversion Hh; subst. apply find_some in Fd. destruct Fd as [I _]. apply in_rev, in_seq in I. lia.
      - apply (ld_sound _ _ _ _ _ _ LD) in Hh. apply Hh. }
    pose proof (index_bound R T C i j Hi Hj) as Bk.
    unfold hitval, covered.
    assert (Z.of_nat j + Z.of_nat i * Z.of_nat (SLICED_GIANTSTEP_NUM R T)
            = Z.of_nat (i * SLICED_GIANTSTEP_NUM R T + j))%Z as -> by lia. nia.
Qed.
End Props.

(** ** a concrete case: the group of order 4099, RANGE_LEN = 12, TRADEOFF_NUM = 0 *)
Lemma prime_4099 : Znumtheory.prime 4099.
Proof. apply prime_by_trial; [lia|vm_compute; reflexivity]. Qed.
Lemma lt_4099 : (4099 < 2 ^ 256)%Z. Proof. reflexivity. Qed.
Definition G4099 : ECGroup := ZqG 4099 prime_4099 lt_4099.
Definition key4099 (P : pt G4099) : N := Z.to_N (proj1_sig P).
Lemma key4099_64 : forall P, (key4099 P < 2 ^ 64)%N.
Proof. intros P. unfold key4099. pose proof (Zq_range 4099 P). change (2 ^ 64)%N with 18446744073709551616%N. lia. Qed.
Lemma key4099_inj : forall P Q, key4099 P = key4099 Q -> P = Q.
Proof.
  intros P Q E. unfold key4099 in E. pose proof (Zq_range 4099 P). pose proof (Zq_range 4099 Q).
  apply Zq_ext. lia.
Qed.
Lemma sep_4099 : forall g h R T, keys_separate G4099 key4099 g h R T.
Proof. intros g h R T k b _ _ target E. apply key4099_inj. exact E. Qed.
Definition round_robin : list nat := concat (repeat (rev (seq 0 SEARCH_TASK_NUM)) 5).
Lemma round_robin_long : forall i, i < SEARCH_TASK_NUM ->
  SLICED_GIANTSTEP_NUM 12 0 + 4 <= count_occ Nat.eq_dec round_robin i.
Proof.
  assert (F : forallb (fun i => 5 <=? count_occ Nat.eq_dec round_robin i) (seq 0 SEARCH_TASK_NUM) = true)
    by (vm_compute; reflexivity).
  intros i Hi. rewrite forallb_forall in F. specialize (F i). rewrite Nat.leb_le in F.
  change (SLICED_GIANTSTEP_NUM 12 0 + 4) with 5. apply F. apply in_seq. lia.
Qed.
Lemma params_4099 : forall g, g <> inf G4099 -> good_params G4099 g 12 0.
Proof.
  intros g F. split; [reflexivity|]. split; [exact F|]. vm_compute. discriminate.
Qed.
Lemma bs_ok : build_schedule (rev (seq 0 BUILD_TASK_NUM)).
Proof. apply Permutation_sym, Permutation_rev. Qed.

Example C27_example : exists st,
  after_load G4099 key4099 (pgen G4099) 12 0 st /\
  ShanksDLOG G4099 key4099 st (pmul G4099 (pgen G4099) 4000) 12 0 0%Z round_robin = Some (true, 4000%Z).
Proof.
  pose proof (params_4099 (pgen G4099) (pgen_finite G4099)) as GP.
  destruct (C27_load_succeeds G4099 key4099 key4099_64 (pgen G4099) 12 0 (repeat 7%N 65) _ GP eq_refl bs_ok)
    as [st E].
  assert (AL : after_load G4099 key4099 (pgen G4099) 12 0 st)
    by (exists (repeat 7%N 65), (rev (seq 0 BUILD_TASK_NUM)); split; [reflexivity|]; split; [apply bs_ok|exact E]).
  exists st. split; [exact AL|].
  apply C27_search_complete_partial; [apply key4099_64|exact GP|exact AL|apply sep_4099| |reflexivity|lia].
  apply C27_search_terminates. apply round_robin_long.
Qed.

(** base -1 first, then base 1: the point 4097 = (-1)*2 has no logarithm below 4096
    to base 1, and is still reported as found *)
Example C28_example : exists st st' x,
  after_load G4099 key4099 (pneg G4099 (pgen G4099)) 12 0 st /\
  LoadTable G4099 st (table_file G4099 key4099 (repeat 7%N 65) (pgen G4099) 12 0 (seq 0 BUILD_TASK_NUM)) 12 0 = Some st' /\
  ShanksDLOG G4099 key4099 st' (pmul G4099 (pneg G4099 (pgen G4099)) 2) 12 0 0%Z round_robin = Some (true, x) /\
  ~ is_dlog G4099 (pgen G4099) (pmul G4099 (pneg G4099 (pgen G4099)) 2) x.
Proof.
  assert (Fn : pneg G4099 (pgen G4099) <> inf G4099)
    by (intros E; apply (pgen_finite G4099), pneg_eq_inf; exact E).
  pose proof (params_4099 (pgen G4099) (pgen_finite G4099)) as GP.
  pose proof (params_4099 _ Fn) as GN.
  destruct (C27_load_succeeds G4099 key4099 key4099_64 _ 12 0 (repeat 7%N 65) _ GN eq_refl bs_ok)
    as [st E].
  assert (AL : after_load G4099 key4099 (pneg G4099 (pgen G4099)) 12 0 st)
    by (exists (repeat 7%N 65), (rev (seq 0 BUILD_TASK_NUM)); split; [reflexivity|]; split; [apply bs_ok|exact E]).
  assert (BS : build_schedule (seq 0 BUILD_TASK_NUM)) by apply Permutation_refl.
  assert (A0 : anchor0_ok G4099 st).
  { destruct GN as [C [F Cov]].
    refine (proj2 (loaded_after G4099 key4099 (repeat 7%N 65) (dstate0 G4099) st _ 12 0 (rev (seq 0 BUILD_TASK_NUM)) C bs_ok eq_refl key4099_64 F Cov I _ E)).
    intros k b H. discriminate H. }
  destruct GP as [C [F Cov]].
  assert (E2 := LoadTable_build G4099 key4099 (repeat 7%N 65) st (pgen G4099) 12 0 _ C BS eq_refl key4099_64 F Cov A0).
  destruct (C28_stale_entries_refuted G4099 key4099 key4099_64 _ (pgen G4099) 12 0 st _ (repeat 7%N 65) _ 2 0%Z round_robin
    GN (conj C (conj F Cov)) eq_refl BS AL E2) as [x [H1 H2]].
  - vm_compute. lia.
  - intros y B D. unfold is_dlog in D. apply (f_equal (@proj1_sig _ _)) in D.
    assert (P1 : proj1_sig (pmul G4099 (pgen G4099) y) = ((1 * y) mod 4099)%Z) by reflexivity.
    assert (P2 : proj1_sig (pmul G4099 (pneg G4099 (pgen G4099)) (Z.of_nat 2)) = 4097%Z) by reflexivity.
    change (covered 12 0) with 4096%Z in B. rewrite P1, P2 in D.
    rewrite Z.mul_1_l, Z.mod_small in D by lia. lia.
  - apply C27_search_terminates. apply round_robin_long.
  - exists st. eexists. exists x. split; [exact AL|]. split; [exact E2|]. split; [exact H1|exact H2].
Qed.

Print Assumptions C27_search_sound_complete.
Print Assumptions C27_search_complete_partial.
Print Assumptions C27_odd_range_refuted.
Print Assumptions C27_search_terminates.
Print Assumptions C27_build_order_irrelevant.
Print Assumptions C27_load_succeeds.
Print Assumptions C27_truncated_table_rejected.
Print Assumptions C28_reload_same_base_partial.
Print Assumptions C28_stale_entries_refuted.

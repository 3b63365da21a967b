From Coq Require Import NArith ZArith List Lia Bool Arith Permutation.
From Coq Require Import ZifyBool ZifyNat ZifyN.
From Verif.Base Require Import Words ListX.
From Verif.Utility Require Import SerialModel SerialProofs.
From Verif.Crypto Require Import BigIntModel BigIntSpec BigIntProofs PRGModel PRGProofs.
From Verif.Group Require Import ECModel ECProofs.
From Verif.PKE Require Import DlogModel DlogSpec DlogProofs ElGamalModel.
Import ListNotations.
Local Open Scope Z_scope.

Section P.
Variable G : ECGroup.
Variable key : pt G -> N.
Local Notation q := (order G).
Local Infix "+p" := (padd G) (at level 50, left associativity).
Local Infix "-p" := (psub G) (at level 50, left associativity).
Local Notation "P *p k" := (pmul G P k%Z) (at level 40, left associativity).

Lemma msum2 : forall A B a b, msum G [A; B] [a; b] = A *p a +p B *p b.
Proof. intros. cbn [msum]. rewrite padd_inf. reflexivity. Qed.

Lemma psub_eq : forall P Q R, P = Q +p R -> P -p R = Q.
Proof. intros P Q R ->. unfold psub. rewrite <- padd_assoc, padd_neg, padd_inf. reflexivity. Qed.

(** the key step of every decryption *)
Lemma T_key_cancel : forall g sk r, ~ cong q sk 0 -> g *p sk *p r *p ModInverse sk q = g *p r.
Proof.
  intros g sk r N. rewrite !pmul_mul. apply pmul_cong.
  replace (sk * (r * ModInverse sk q)) with (sk * ModInverse sk q * r) by ring.
  rewrite (inv_cong G sk N). rewrite Z.mul_1_l. reflexivity.
Qed.

Lemma T_Dec_point : forall g h sk r m, ~ cong q sk 0 ->
  (g *p r +p h *p m) -p g *p sk *p r *p ModInverse sk q = h *p m.
Proof. intros g h sk r m N. rewrite T_key_cancel by exact N. apply psub_eq. apply padd_comm. Qed.

(** initialising from a fresh process, with or without the table on disk *)
Lemma Init_loaded : forall gb bs h R T file st,
  CheckDlogParameters R T = true -> build_schedule bs -> length gb = 65%nat ->
  (forall P, (key P < 2 ^ 64)%N) -> h <> inf G -> covered R T <= q ->
  (file = None \/ exists gb' bs', length gb' = 65%nat /\ build_schedule bs' /\
                  file = Some (table_file G key gb' h R T bs')) ->
  (let '(st', content) := match file with
                   | Some f => (dstate0 G, f)
                   | None => BuildSaveTable G key gb (dstate0 G) h R T bs
                   end in LoadTable G st' content R T) = Some st ->
  loaded G key h R T st.
Proof.
  intros gb bs h R T file st C P L K F Cov FF E.
  destruct FF as [->|[gb' [bs' [L' [P' ->]]]]].
  - unfold BuildSaveTable in E.
    refine (proj1 (loaded_after G key gb _ st h R T bs C P L K F Cov _ _ E)).
    + unfold anchor0_ok. cbn [anchors]. unfold anchors_of, SEARCH_TASK_NUM, LOG_TASK_NUM.
      cbn [Nat.pow Nat.mul Nat.add seq map]. apply pmul_0.
    + intros k b H. discriminate H.
  - refine (proj1 (loaded_after G key gb' (dstate0 G) st h R T bs' C P' L' K F Cov I _ E)).
    intros k b H. discriminate H.
Qed.

(** the search finds exactly the exponents of the covered range *)
Lemma loaded_search : forall h R T st m sched,
  CheckDlogParameters R T = true -> h <> inf G -> covered R T <= q ->
  loaded G key h R T st -> keys_separate G key h (h *p m) R T ->
  finished G (run G key st (h *p m) R T 0 sched) = true ->
  (0 <= m < covered R T -> ShanksDLOG G key st (h *p m) R T 0 sched = Some (true, m)) /\
  (covered R T <= m < q -> ShanksDLOG G key st (h *p m) R T 0 sched = Some (false, 0)).
Proof.
  intros h R T st m sched C F Cov LD SEP Fin.
  destruct (search_correct G key st h (h *p m) R T 0 (ld_giant _ _ _ _ _ _ LD) (ld_anchors _ _ _ _ _ _ LD)
              C LD SEP sched Fin) as [found [y [E [S N]]]].
  assert (0 <= covered R T) by (unfold covered; lia).
  rewrite E. split; intros B; destruct found.
  - destruct (S eq_refl) as [D By]. do 2 f_equal.
    apply (dlog_unique G h (h *p m)); [exact F|exact D|reflexivity|lia|lia].
  - exfalso. destruct (N eq_refl) as [_ N']. apply (N' m B). reflexivity.
  - exfalso. destruct (S eq_refl) as [D By].
    assert (y = m) by (apply (dlog_unique G h (h *p m)); [exact F|exact D|reflexivity|lia|lia]). lia.
  - destruct (N eq_refl) as [-> _]. reflexivity.
Qed.

Lemma covered_even : forall R T, CheckDlogParameters R T = true -> Nat.even R = true ->
  covered R T = 2 ^ Z.of_nat R.
Proof.
  intros R T C Ev. destruct (check_facts R T C) as [_ [_ [_ [_ HT]]]].
  rewrite (covered_pow R T HT). do 2 f_equal. apply Nat.even_spec in Ev. destruct Ev as [m ->].
  rewrite (Nat.mul_comm 2 m), Nat.div_mul by lia. lia.
Qed.

Lemma covered_odd : forall R T, CheckDlogParameters R T = true -> Nat.odd R = true ->
  covered R T = 2 ^ (Z.of_nat R - 1).
Proof.
  intros R T C Od. destruct (check_facts R T C) as [_ [_ [_ [_ HT]]]].
  rewrite (covered_pow R T HT). f_equal. apply Nat.odd_spec in Od. destruct Od as [m ->].
  replace (2 * m + 1)%nat with (1 + m * 2)%nat by lia. rewrite Nat.div_add by lia.
  change (1 / 2)%nat with 0%nat. lia.
Qed.

(** byte conversion of ciphertexts *)
Lemma point_slot_length : forall P, length (point_slot G P) = 65%nat.
Proof. intros P. unfold point_slot. destruct (peqb G P (inf G)); [reflexivity|apply unc65_length]. Qed.

Lemma slot_point_slot : forall P, slot_point G (point_slot G P) = P.
Proof.
  intros P. unfold slot_point, point_slot. destruct (peqb_spec G P (inf G)) as [->|N].
  - rewrite oct65_head0; reflexivity.
  - rewrite oct65_unc65 by exact N. reflexivity.
Qed.
End P.

Lemma map2_xor_self : forall p m : list N, length p = length m ->
  map2 N.lxor (map2 N.lxor p m) p = m.
Proof.
  induction p as [|a p IH]; intros [|b m] L; try discriminate; cbn [map2]; [reflexivity|].
  f_equal; [|apply IH; cbn in L; lia].
  rewrite (N.lxor_comm a b), N.lxor_assoc, N.lxor_nilpotent, N.lxor_0_r. reflexivity.
Qed.

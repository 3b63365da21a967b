(** Lemmas about the shuffle and the generator. *)
From Coq Require Import NArith List Bool Arith Lia Permutation Factorial.
From Verif.Base Require Import Words ListX.
From Verif.MPC Require Import ShuffleModel.
Import ListNotations.

(** draws in range: the k-th one is at most i + k *)
Fixpoint in_range (i : nat) (ds : list nat) : Prop :=
  match ds with [] => True | j :: ds' => (j <= i)%nat /\ in_range (S i) ds' end.

Lemma in_range_snoc : forall ds i j, in_range i (ds ++ [j]) <-> in_range i ds /\ (j <= i + length ds)%nat.
Proof.
  induction ds as [|a ds IH]; intros i j; cbn [app in_range length].
  - rewrite Nat.add_0_r. tauto.
  - rewrite IH. rewrite Nat.add_succ_r. cbn [Nat.add]. tauto.
Qed.

Section Shuffle.
Context {A : Type} (a0 : A).
Local Notation swap := (swap a0).
Local Notation exchange := (exchange a0).

Lemma swap_length : forall l i j, length (swap l i j) = length l.
Proof. intros l i j. unfold ShuffleModel.swap. rewrite !upd_length. reflexivity. Qed.
Lemma exchange_length : forall ds i l, length (exchange i ds l) = length l.
Proof. induction ds as [|j ds IH]; intros i l; [reflexivity|]. cbn [ShuffleModel.exchange]. rewrite IH. apply swap_length. Qed.
Lemma exchange_snoc : forall ds i j l, exchange i (ds ++ [j]) l = swap (exchange i ds l) (i + length ds) j.
Proof.
  induction ds as [|a ds IH]; intros i j l; cbn [app ShuffleModel.exchange length].
  - rewrite Nat.add_0_r. reflexivity.
  - rewrite IH. rewrite Nat.add_succ_r. reflexivity.
Qed.
Lemma swap_app : forall l r i j, (i < length l)%nat -> (j < length l)%nat -> swap (l ++ r) i j = swap l i j ++ r.
Proof.
  intros l r i j Hi Hj. unfold ShuffleModel.swap. rewrite !app_nth1 by assumption.
  rewrite upd_app_l by assumption. apply upd_app_l. rewrite upd_length. exact Hj.
Qed.
Lemma exchange_app : forall ds i l r, in_range i ds -> (i + length ds <= length l)%nat -> exchange i ds (l ++ r) = exchange i ds l ++ r.
Proof.
  induction ds as [|j ds IH]; intros i l r R L; [reflexivity|]. cbn [ShuffleModel.exchange length] in *. destruct R as [Rj R].
  rewrite swap_app by lia. apply IH; [exact R|]. rewrite swap_length. lia.
Qed.

(** the last exchange *)
Definition last_step (m : list A) (x : A) (j : nat) : list A :=
  if (j =? length m)%nat then m ++ [x] else upd m j x ++ [nth j m a0].
Lemma swap_last : forall m x j, (j <= length m)%nat -> swap (m ++ [x]) (length m) j = last_step m x j.
Proof.
  intros m x j Hj. unfold ShuffleModel.swap, last_step. rewrite (app_nth2 m [x] a0 (le_n _)), Nat.sub_diag. cbn [nth].
  rewrite (upd_app_r m [x] (length m)) by lia. rewrite Nat.sub_diag. cbn [upd]. destruct (Nat.eqb_spec j (length m)) as [->|N].
  - rewrite upd_app_r by lia. rewrite Nat.sub_diag. reflexivity.
  - rewrite app_nth1 by lia. apply upd_app_l. lia.
Qed.
(** a whole shuffle of one more item *)
Lemma exchange_step : forall ds j l x, in_range 1 (ds ++ [j]) -> length ds = length l - 1 -> (0 < length l)%nat ->
  exchange 1 (ds ++ [j]) (l ++ [x]) = last_step (exchange 1 ds l) x j.
Proof.
  intros ds j l x R L P. apply in_range_snoc in R. destruct R as [R Rj].
  rewrite exchange_snoc, exchange_app by (assumption || lia).
  replace (1 + length ds)%nat with (length (exchange 1 ds l)) by (rewrite exchange_length; lia).
  apply swap_last. rewrite exchange_length. lia.
Qed.

Lemma upd_perm : forall m j x, (j < length m)%nat -> Permutation (upd m j x ++ [nth j m a0]) (m ++ [x]).
Proof.
  intros m j x Hj. destruct (upd_split m j x a0 Hj) as [E1 E2]. rewrite E1. rewrite E2 at 4. rewrite <- !app_assoc.
  apply Permutation_app_head. cbn [app]. rewrite !(Permutation_app_comm _ [_]). cbn [app]. apply perm_swap.
Qed.
Lemma last_perm : forall m x j, (j <= length m)%nat -> Permutation (last_step m x j) (m ++ [x]).
Proof.
  intros m x j Hj. unfold last_step. destruct (Nat.eqb_spec j (length m)) as [|N]; [reflexivity|]. apply upd_perm. lia.
Qed.
Lemma exchange_perm : forall l ds, in_range 1 ds -> length ds = length l - 1 -> Permutation l (exchange 1 ds l).
Proof.
  induction l as [|x l IH] using rev_ind; intros ds R L.
  - destruct ds; [constructor|discriminate].
  - rewrite app_length in L. cbn [length] in L. destruct l as [|y l0] eqn:El.
    + destruct ds; [reflexivity|discriminate].
    + rewrite <- El in *. assert (P : (0 < length l)%nat) by (rewrite El; cbn; lia). clear El y l0.
      destruct ds as [|j ds _] using rev_ind; [cbn in L; lia|]. rewrite app_length in L. cbn [length] in L.
      rewrite exchange_step by (assumption || lia). rewrite last_perm.
      * apply Permutation_app_tail. apply IH; [apply in_range_snoc in R; apply R|lia].
      * rewrite exchange_length. apply in_range_snoc in R. lia.
Qed.

(** every order is reached by exactly one list of draws *)
Lemma last_inj : forall m m' x j j', ~ In x m -> ~ In x m' -> length m = length m' -> (j <= length m)%nat -> (j' <= length m')%nat ->
  last_step m x j = last_step m' x j' -> j = j' /\ m = m'.
Proof.
  intros m m' x j j' NI NI' L Hj Hj' E. unfold last_step in E.
  destruct (Nat.eqb_spec j (length m)) as [J|J], (Nat.eqb_spec j' (length m')) as [J'|J'].
  - apply app_inj_tail in E. split; [congruence|apply E].
  - apply app_inj_tail in E. destruct E as [_ E]. exfalso. apply NI'. rewrite E. apply nth_In. lia.
  - apply app_inj_tail in E. destruct E as [_ E]. exfalso. apply NI. rewrite <- E. apply nth_In. lia.
  - apply app_inj_tail in E. destruct E as [E1 E2].
    assert (JJ : j = j').
    { destruct (Nat.eq_dec j j') as [|N]; [assumption|exfalso]. apply NI'.
      assert (X : nth j (upd m' j' x) a0 = x) by (rewrite <- E1; apply nth_upd_same; lia).
      rewrite nth_upd_other in X by auto. rewrite <- X. apply nth_In. lia. }
    subst j'. split; [reflexivity|]. rewrite <- (upd_nth_same m j a0) by lia. rewrite <- (upd_nth_same m' j a0) by lia.
    rewrite E2. rewrite <- (upd_upd m j x), <- (upd_upd m' j x), E1. reflexivity.
Qed.
Lemma last_surj : forall m0 x l', Permutation (m0 ++ [x]) l' -> exists m j, Permutation m0 m /\ (j <= length m)%nat /\ last_step m x j = l'.
Proof.
  intros m0 x l' P. destruct l' as [|y l0 _] using rev_ind.
  - exfalso. apply Permutation_length in P. rewrite app_length in P. cbn in P. lia.
  - assert (L : length m0 = length l0) by (apply Permutation_length in P; rewrite !app_length in P; cbn [length] in P; lia).
    assert (I : In x (l0 ++ [y])) by (apply (Permutation_in _ P); apply in_or_app; right; left; reflexivity).
    apply in_app_or in I. destruct I as [I|[<-|[]]].
    + destruct (In_nth _ _ a0 I) as [j [Hj EJ]]. exists (upd l0 j y), j. rewrite upd_length. split; [|split; [lia|]].
      * apply (Permutation_app_inv_r [x]). rewrite P. pose proof (upd_perm l0 j y Hj) as Q. rewrite EJ in Q. symmetry. exact Q.
      * unfold last_step. rewrite upd_length. destruct (Nat.eqb_spec j (length l0)) as [|_]; [lia|].
        rewrite upd_upd, nth_upd_same by exact Hj. rewrite <- EJ, upd_nth_same by exact Hj. reflexivity.
    + exists l0, (length l0). split; [apply (Permutation_app_inv_r [y]); exact P|]. split; [lia|].
      unfold last_step. rewrite Nat.eqb_refl. reflexivity.
Qed.
Lemma exchange_onto : forall l l', Permutation l l' -> exists ds, in_range 1 ds /\ length ds = length l - 1 /\ exchange 1 ds l = l'.
Proof.
  induction l as [|x l IH] using rev_ind; intros l' P.
  - apply Permutation_nil in P. subst l'. exists []. repeat split.
  - destruct l as [|y l0] eqn:El.
    + apply Permutation_length_1_inv in P. subst l'. exists []. repeat split.
    + rewrite <- El in *. assert (Q : (0 < length l)%nat) by (rewrite El; cbn; lia). clear El y l0.
      destruct (last_surj l x l' P) as [m [j [PM [Hj E]]]]. destruct (IH m PM) as [ds [R [L EX]]].
      pose proof (Permutation_length PM) as LM.
      assert (R' : in_range 1 (ds ++ [j])) by (apply in_range_snoc; split; [exact R|lia]).
      exists (ds ++ [j]). split; [exact R'|]. split; [rewrite !app_length; cbn [length]; lia|].
      rewrite exchange_step by (assumption || lia). rewrite EX. exact E.
Qed.
Lemma exchange_inj : forall l ds ds', NoDup l -> in_range 1 ds -> in_range 1 ds' -> length ds = length l - 1 -> length ds' = length l - 1 ->
  exchange 1 ds l = exchange 1 ds' l -> ds = ds'.
Proof.
  induction l as [|x l IH] using rev_ind; intros ds ds' ND R R' L L' E.
  - destruct ds, ds'; try discriminate. reflexivity.
  - rewrite app_length in L, L'. cbn [length] in L, L'. destruct l as [|y l0] eqn:El.
    + destruct ds, ds'; try discriminate. reflexivity.
    + rewrite <- El in *. assert (Q : (0 < length l)%nat) by (rewrite El; cbn; lia). clear El y l0.
      destruct ds as [|j ds _] using rev_ind; [cbn in L; lia|]. destruct ds' as [|j' ds' _] using rev_ind; [cbn in L'; lia|].
      rewrite app_length in L, L'. cbn [length] in L, L'. rewrite !exchange_step in E by (assumption || lia).
      apply in_range_snoc in R, R'. destruct R as [R Rj], R' as [R' Rj'].
      assert (NI : ~ In x l) by (intros I; apply NoDup_remove_2 in ND; apply ND; rewrite app_nil_r; exact I).
      assert (NL : NoDup l) by (apply NoDup_remove_1 in ND; rewrite app_nil_r in ND; exact ND).
      apply last_inj in E.
      * destruct E as [-> E]. f_equal. apply IH; try assumption; lia.
      * intros I. apply NI. apply (Permutation_in x (Permutation_sym (exchange_perm l ds R ltac:(lia)))). exact I.
      * intros I. apply NI. apply (Permutation_in x (Permutation_sym (exchange_perm l ds' R' ltac:(lia)))). exact I.
      * rewrite !exchange_length. reflexivity.
      * rewrite exchange_length. lia.
      * rewrite exchange_length. lia.
Qed.
End Shuffle.

(** ** all lists of draws *)
Fixpoint all_draws (k i : nat) : list (list nat) :=
  match k with
  | O => [[]]
  | S k' => flat_map (fun j => map (cons j) (all_draws k' (S i))) (seq 0 (S i))
  end.
Lemma all_draws_in : forall k i ds, In ds (all_draws k i) -> in_range i ds /\ length ds = k.
Proof.
  induction k as [|k IH]; intros i ds I; cbn [all_draws] in I.
  - destruct I as [<-|[]]. split; [exact Logic.I|reflexivity].
  - apply in_flat_map in I. destruct I as [j [J I]]. apply in_map_iff in I. destruct I as [ds' [<- I]]. apply in_seq in J.
    apply IH in I. destruct I as [R L]. cbn [in_range length]. split; [split; [lia|exact R]|rewrite L; reflexivity].
Qed.
Lemma NoDup_app' : forall A (l r : list A), NoDup l -> NoDup r -> (forall x, In x l -> ~ In x r) -> NoDup (l ++ r).
Proof.
  intros A l r NL NR D. induction NL as [|x l NI NL IH]; [exact NR|]. cbn [app]. constructor.
  - intros I. apply in_app_or in I. destruct I as [I|I]; [exact (NI I)|exact (D x (or_introl eq_refl) I)].
  - apply IH. intros y Y. apply D. right. exact Y.
Qed.
Lemma cons_disjoint : forall (X : list (list nat)) js, NoDup js -> NoDup X -> NoDup (flat_map (fun j => map (cons j) X) js).
Proof.
  intros X js NJ NX. induction NJ as [|j js NI NJ IH]; [constructor|]. cbn [flat_map]. apply NoDup_app'.
  - apply FinFun.Injective_map_NoDup; [|exact NX]. intros a b E. congruence.
  - exact IH.
  - intros ds I I'. apply in_map_iff in I. destruct I as [a [<- _]]. apply in_flat_map in I'. destruct I' as [j' [J' I']].
    apply in_map_iff in I'. destruct I' as [b [E _]]. assert (j' = j) by congruence. subst j'. exact (NI J').
Qed.
Lemma all_draws_NoDup : forall k i, NoDup (all_draws k i).
Proof.
  induction k as [|k IH]; intros i; cbn [all_draws]; [constructor; [intros []|constructor]|]. apply cons_disjoint; [apply seq_NoDup|apply IH].
Qed.
Lemma flat_length : forall (X : list (list nat)) js, length (flat_map (fun j => map (cons j) X) js) = length js * length X.
Proof. intros X. induction js as [|j js IH]; [reflexivity|]. cbn [flat_map length Nat.mul]. rewrite app_length, map_length, IH. reflexivity. Qed.
Lemma all_draws_length : forall k i, length (all_draws k i) * fact i = fact (k + i).
Proof.
  induction k as [|k IH]; intros i; cbn [all_draws]; [cbn [length Nat.add]; apply Nat.mul_1_l|]. rewrite flat_length, seq_length.
  transitivity (length (all_draws k (S i)) * fact (S i)).
  - change (fact (S i)) with (S i * fact i). ring.
  - rewrite IH. f_equal. lia.
Qed.

(** ** the tempering can be undone *)
Local Open Scope N_scope.
Definition linear (f : N -> N) : Prop := f 0 = 0 /\ forall a b, f (N.lxor a b) = N.lxor (f a) (f b).
Lemma word_lxor : forall a b, word (N.lxor a b) = N.lxor (word a) (word b).
Proof.
  intros a b. unfold word. apply N.bits_inj. intros n. destruct (N.lt_ge_cases n 32) as [L|L].
  - rewrite N.lxor_spec, !N.mod_pow2_bits_low by exact L. apply N.lxor_spec.
  - rewrite N.lxor_spec, !N.mod_pow2_bits_high by exact L. reflexivity.
Qed.
Lemma land_lxor : forall a b c, N.land (N.lxor a b) c = N.lxor (N.land a c) (N.land b c).
Proof. intros a b c. apply N.bits_inj. intros n. rewrite N.lxor_spec, !N.land_spec, N.lxor_spec. destruct (N.testbit a n), (N.testbit b n), (N.testbit c n); reflexivity. Qed.
Lemma lxor_swap : forall a b c d, N.lxor (N.lxor a b) (N.lxor c d) = N.lxor (N.lxor a c) (N.lxor b d).
Proof.
  intros a b c d. apply N.bits_inj. intros n. rewrite !N.lxor_spec.
  destruct (N.testbit a n), (N.testbit b n), (N.testbit c n), (N.testbit d n); reflexivity.
Qed.
Lemma linear_t1 : linear t1.
Proof. split; [reflexivity|]. intros a b. unfold t1. rewrite N.shiftr_lxor, land_lxor. apply lxor_swap. Qed.
Lemma linear_t2 : linear t2.
Proof. split; [reflexivity|]. intros a b. unfold t2. rewrite N.shiftl_lxor, word_lxor, land_lxor. apply lxor_swap. Qed.
Lemma linear_t3 : linear t3.
Proof. split; [reflexivity|]. intros a b. unfold t3. rewrite N.shiftl_lxor, word_lxor, land_lxor. apply lxor_swap. Qed.
Lemma linear_t4 : linear t4.
Proof. split; [reflexivity|]. intros a b. unfold t4. rewrite N.shiftr_lxor. apply lxor_swap. Qed.
Lemma linear_comp : forall f g, linear f -> linear g -> linear (fun x => f (g x)).
Proof. intros f g [F0 F] [G0 G]. split; [rewrite G0; exact F0|]. intros a b. rewrite G, F. reflexivity. Qed.
Lemma split_bit : forall k x, x < 2 ^ N.succ k -> x = N.lxor (x mod 2 ^ k) (if N.testbit x k then 2 ^ k else 0).
Proof.
  intros k x B. apply N.bits_inj. intros n. rewrite N.lxor_spec. destruct (N.lt_trichotomy n k) as [L|[->|L]].
  - rewrite N.mod_pow2_bits_low by exact L. destruct (N.testbit x k); [rewrite N.pow2_bits_false by lia|rewrite N.bits_0]; rewrite xorb_false_r; reflexivity.
  - rewrite N.mod_pow2_bits_high by lia. destruct (N.testbit x k); [rewrite N.pow2_bits_true; reflexivity|rewrite N.bits_0; reflexivity].
  - rewrite N.mod_pow2_bits_high by lia.
    assert (E : N.testbit x n = false) by (rewrite <- (N.mod_small x (2 ^ N.succ k) B); apply N.mod_pow2_bits_high; lia).
    rewrite E. destruct (N.testbit x k); [rewrite N.pow2_bits_false by lia|rewrite N.bits_0]; reflexivity.
Qed.
Lemma linear_id : forall f, linear f -> forall k, (forall i, (i < k)%nat -> f (2 ^ N.of_nat i) = 2 ^ N.of_nat i) ->
  forall x, x < 2 ^ N.of_nat k -> f x = x.
Proof.
  intros f [F0 F] k. induction k as [|k IH]; intros B x X.
  - assert (x = 0) by (change (2 ^ N.of_nat 0) with 1 in X; lia). subst x. exact F0.
  - rewrite Nat2N.inj_succ in X. rewrite (split_bit (N.of_nat k) x X) at 1 2. rewrite F. rewrite IH.
    + destruct (N.testbit x (N.of_nat k)); [rewrite B by lia; reflexivity|rewrite F0; reflexivity].
    + intros i Hi. apply B. lia.
    + apply N.mod_lt. apply N.pow_nonzero. discriminate.
Qed.
(** undo the tempering, by repeating its steps *)
Definition untemper (z : N) : N :=
  let y3 := t4 z in let y2 := t3 y3 in
  let y1 := t2 (t2 (t2 (t2 (t2 (t2 (t2 y2)))))) in t1 (t1 (t1 y1)).
Lemma untemper_temper : forall x, x < 2 ^ 32 -> untemper (temper x) = x.
Proof.
  intros x X. refine (linear_id (fun x => untemper (temper x)) _ 32 _ x X).
  - unfold untemper, temper. cbv zeta.
    repeat first [exact linear_t1|apply (linear_comp t1); [exact linear_t1|]|apply (linear_comp t2); [exact linear_t2|]|apply (linear_comp t3); [exact linear_t3|]|apply (linear_comp t4); [exact linear_t4|]].
  - assert (C : forallb (fun i => N.eqb (untemper (temper (2 ^ N.of_nat i))) (2 ^ N.of_nat i)) (seq 0 32) = true) by (vm_compute; reflexivity).
    intros i Hi. rewrite forallb_forall in C. specialize (C i). apply N.eqb_eq. apply C. apply in_seq. lia.
Qed.

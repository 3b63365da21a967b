(** Property C116: the shuffles that hide positions. *)
From Coq Require Import NArith List Bool Arith Lia Permutation Factorial.
From Verif.Base Require Import Words ListX.
From Verif.MPC Require Import ShuffleModel ShuffleProofs.
Import ListNotations.

(** the draw returns a position in 0..i *)
Definition draw_ok (draw : mt -> nat -> nat * mt) : Prop := forall g i, (fst (draw g i) <= i)%nat.
(** a list of draws for n items: one in 0..1, one in 0..2, ..., one in 0..n-1 *)
Definition draws_for (n : nat) (ds : list nat) : Prop :=
  length ds = (n - 1)%nat /\ forall k, (k < length ds)%nat -> (nth k ds 0 <= S k)%nat.

Lemma in_range_nth : forall ds i, in_range i ds <-> forall k, (k < length ds)%nat -> (nth k ds 0 <= i + k)%nat.
Proof.
  induction ds as [|j ds IH]; intros i; cbn [in_range length].
  - split; [intros _ k K; lia|auto].
  - rewrite IH. split.
    + intros [A B] [|k] K; cbn [nth]; [lia|]. specialize (B k ltac:(lia)). lia.
    + intros B. split; [specialize (B 0%nat ltac:(lia)); cbn [nth] in B; lia|]. intros k K. specialize (B (S k) ltac:(lia)). cbn [nth] in B. lia.
Qed.
Lemma draws_for_range : forall n ds, draws_for n ds <-> in_range 1 ds /\ length ds = (n - 1)%nat.
Proof. intros n ds. unfold draws_for. rewrite in_range_nth. cbn [Nat.add]. tauto. Qed.

Lemma draws_ok : forall draw, draw_ok draw -> forall k i g, in_range i (fst (draws draw k i g)) /\ length (fst (draws draw k i g)) = k.
Proof.
  intros draw D. induction k as [|k IH]; intros i g; [split; [exact I|reflexivity]|]. cbn [draws].
  pose proof (D g i) as DI. destruct (draw g i) as [j g1]. cbn [fst] in DI. specialize (IH (S i) g1).
  destruct (draws draw k (S i) g1) as [ds g2]. cbn [fst] in *. cbn [in_range length]. destruct IH as [R L]. split; [split; assumption|rewrite L; reflexivity].
Qed.

(** ** what holds: a shuffle loses and adds nothing, whatever the generator gives *)
Theorem C116_permutation : forall A (a0 : A) draw g l, draw_ok draw -> Permutation l (fst (shuffle a0 draw g l)).
Proof.
  intros A a0 draw g l D. unfold shuffle. destruct (draws_ok draw D (length l - 1) 1 g) as [R L].
  destruct (draws draw (length l - 1) 1 g) as [ds g']. cbn [fst] in *. apply exchange_perm; assumption.
Qed.

(** and every order comes from exactly one list of draws: with independent uniform draws all orders are equally likely *)
Theorem C116_uniform_partial : forall A (a0 : A) l l', NoDup l -> Permutation l l' ->
  exists ds, (draws_for (length l) ds /\ exchange a0 1 ds l = l') /\
    forall ds', draws_for (length l) ds' /\ exchange a0 1 ds' l = l' -> ds' = ds.
Proof.
  intros A a0 l l' ND P. destruct (exchange_onto a0 l l' P) as [ds [R [L E]]]. exists ds. split.
  - split; [apply draws_for_range; auto|exact E].
  - intros ds' [D' E']. apply draws_for_range in D'. destruct D' as [R' L']. apply (exchange_inj a0 l); try assumption. congruence.
Qed.

(** ** what is false *)
Lemma N_fact : forall n, N.of_nat (fact (S n)) = (N.of_nat (S n) * N.of_nat (fact n))%N.
Proof. intros n. change (fact (S n)) with (S n * fact n). apply Nat2N.inj_mul. Qed.
Lemma fact_13 : (2 ^ 32 < N.of_nat (fact 13))%N.
Proof. rewrite !N_fact. reflexivity. Qed.
Lemma many_orders : forall n, (13 <= n)%nat -> (N.to_nat (2 ^ 32) < fact n)%nat.
Proof.
  intros n Hn. apply (Nat.lt_le_trans _ (fact 13)); [|apply fact_le; exact Hn]. pose proof fact_13 as F.
  rewrite <- (Nat2N.id (fact 13)). revert F. generalize (2 ^ 32)%N (N.of_nat (fact 13)). intros a b F. lia.
Qed.
Lemma missed : forall A (eqd : forall x y : A, {x = y} + {x <> y}) (l r : list A), NoDup l -> (length r < length l)%nat ->
  exists x, In x l /\ ~ In x r.
Proof.
  intros A eqd l r ND L. destruct (Forall_Exists_dec (fun x => In x r) (fun x => in_dec eqd x r) l) as [F|E].
  - exfalso. rewrite Forall_forall in F. pose proof (NoDup_incl_length ND F). lia.
  - apply Exists_exists in E. exact E.
Qed.

Lemma seed_in : forall B (f : N -> B) m rd, (rd < m)%N -> In (f rd) (map (fun i => f (N.of_nat i)) (seq 0 (N.to_nat m))).
Proof.
  intros B f m rd L. apply in_map_iff. exists (N.to_nat rd). rewrite N2Nat.id. split; [reflexivity|]. apply in_seq. lia.
Qed.

(** The generator is seeded once per process with 32 bits.  From 13 items on some order is never taken, whatever
    std::shuffle draws and whatever the process did with the generator before. *)
Theorem C116_seed_refuted : forall A (a0 : A) (eqd : forall x y : A, {x = y} + {x <> y}) draw (before : mt -> mt) l,
  NoDup l -> (13 <= length l)%nat ->
  exists l', Permutation l l' /\ forall rd, (rd < 2 ^ 32)%N -> fst (shuffle a0 draw (before (global_built_in_prg rd)) l) <> l'.
Proof.
  intros A a0 eqd draw before l ND HL.
  set (f := fun rd => fst (shuffle a0 draw (before (global_built_in_prg rd)) l)).
  set (orders := map (fun ds => exchange a0 1 ds l) (all_draws (length l - 1) 1)).
  set (seeds := map (fun i => f (N.of_nat i)) (seq 0 (N.to_nat (2 ^ 32)))).
  assert (NO : NoDup orders).
  { unfold orders. generalize (all_draws_NoDup (length l - 1) 1) (all_draws_in (length l - 1) 1). generalize (all_draws (length l - 1) 1).
    intros X NX IX. induction NX as [|ds X NI NX IH]; [constructor|]. cbn [map]. constructor.
    - intros I. apply in_map_iff in I. destruct I as [ds' [E I]]. destruct (IX ds (or_introl eq_refl)) as [R L]. destruct (IX ds' (or_intror I)) as [R' L'].
      apply NI. rewrite <- (exchange_inj a0 l ds' ds ND R' R L' L E). exact I.
    - apply IH. intros ds' I. apply IX. right. exact I. }
  assert (LO : length orders = fact (length l)).
  { unfold orders. rewrite map_length. pose proof (all_draws_length (length l - 1) 1) as E. rewrite Nat.mul_1_r in E. rewrite E. f_equal. lia. }
  destruct (missed (list A) (list_eq_dec eqd) orders seeds NO) as [l' [IO NS]].
  { unfold seeds. rewrite map_length, seq_length, LO. apply many_orders. exact HL. }
  unfold orders in IO. apply in_map_iff in IO. destruct IO as [ds [E I]]. apply all_draws_in in I. destruct I as [R L].
  exists l'. split; [rewrite <- E; apply exchange_perm; assumption|]. intros rd B EQ. apply NS. rewrite <- EQ. exact (seed_in _ f (2 ^ 32)%N rd B).
Qed.

(** Whoever sees 624 outputs of the generator in a row can compute all later ones, without the seed. *)
Definition words (g : mt) : Prop := length g = mt_n /\ Forall (fun x => (x < 2 ^ 32)%N) g.
Lemma low_bits : forall x, (forall n, (32 <= n)%N -> N.testbit x n = false) -> (x < 2 ^ 32)%N.
Proof.
  intros x B. assert (E : x = (x mod 2 ^ 32)%N).
  { apply N.bits_inj. intros n. destruct (N.lt_ge_cases n 32) as [L|L]; [rewrite N.mod_pow2_bits_low by exact L; reflexivity|].
    rewrite N.mod_pow2_bits_high by exact L. apply B. exact L. }
  rewrite E. apply N.mod_lt. discriminate.
Qed.
Lemma high_bits : forall x n, (x < 2 ^ 32)%N -> (32 <= n)%N -> N.testbit x n = false.
Proof. intros x n B L. rewrite <- (N.mod_small x (2 ^ 32) B). apply N.mod_pow2_bits_high. exact L. Qed.
Lemma twist_word : forall a b c, (a < 2 ^ 32 -> b < 2 ^ 32 -> c < 2 ^ 32 -> twist a b c < 2 ^ 32)%N.
Proof.
  intros a b c A B C. apply low_bits. intros n L. unfold twist. cbv zeta. rewrite !N.lxor_spec, N.shiftr_spec by apply N.le_0_l.
  rewrite (high_bits c n C L), N.lor_spec, !N.land_spec, (high_bits a (n + 1)), (high_bits b (n + 1)) by (assumption || lia).
  destruct (N.odd _); [rewrite (high_bits 0x9908b0df n) by (reflexivity || assumption); reflexivity|rewrite N.bits_0; reflexivity].
Qed.
Lemma nth_word : forall g k, Forall (fun x => (x < 2 ^ 32)%N) g -> (nth k g 0 < 2 ^ 32)%N.
Proof. induction g as [|a g IH]; intros [|k] F; cbn [nth]; try reflexivity; inversion F; subst; [assumption|apply IH; assumption]. Qed.
Lemma run_state : forall k g, (k <= length g)%nat -> Forall (fun x => (x < 2 ^ 32)%N) g ->
  snd (mt_run k g) = skipn k g ++ map untemper (fst (mt_run k g)) /\ Forall (fun x => (x < 2 ^ 32)%N) (snd (mt_run k g)).
Proof.
  induction k as [|k IH]; intros g L F; [cbn [mt_run fst snd map skipn]; rewrite app_nil_r; auto|]. cbn [mt_run]. unfold mt_next.
  set (x := twist (nth 0 g 0%N) (nth 1 g 0%N) (nth mt_m g 0%N)).
  assert (X : (x < 2 ^ 32)%N) by (apply twist_word; apply nth_word; exact F).
  destruct g as [|a g]; [cbn [length] in L; lia|]. cbn [tl]. cbn [length] in L.
  destruct (IH (g ++ [x])) as [E B]; [rewrite app_length; cbn [length]; lia|apply Forall_app; split; [inversion F; assumption|constructor; [exact X|constructor]]|].
  destruct (mt_run k (g ++ [x])) as [os g2]. cbn [fst snd] in *. split; [|exact B].
  cbn [map skipn]. rewrite untemper_temper by exact X. rewrite E, skipn_app. replace (k - length g)%nat with 0%nat by lia. cbn [skipn]. rewrite <- app_assoc. reflexivity.
Qed.
Lemma fill_words : forall k i x, (x < 2 ^ 32)%N -> length (mt_fill k i x) = k /\ Forall (fun x => (x < 2 ^ 32)%N) (mt_fill k i x).
Proof.
  induction k as [|k IH]; intros i x B; [split; [reflexivity|constructor]|]. cbn [mt_fill length].
  destruct (IH (i + 1)%N (word (1812433253 * N.lxor x (N.shiftr x 30) + (i + 1)))) as [L F]; [apply N.mod_lt; discriminate|].
  split; [rewrite L; reflexivity|constructor; assumption].
Qed.
Lemma next_words : forall g, words g -> words (snd (mt_next g)).
Proof.
  intros g [L F]. unfold mt_next. cbn [snd]. destruct g as [|a g]; [discriminate|]. cbn [tl]. split.
  - rewrite app_length. cbn [length] in *. lia.
  - apply Forall_app. split; [inversion F; assumption|]. constructor; [|constructor]. apply twist_word; apply nth_word; exact F.
Qed.
Lemma run_words : forall k g, words g -> words (snd (mt_run k g)).
Proof.
  induction k as [|k IH]; intros g W; [exact W|]. cbn [mt_run]. pose proof (next_words g W) as W1. destruct (mt_next g) as [x g1].
  specialize (IH g1 W1). destruct (mt_run k g1) as [l g2]. exact IH.
Qed.
Lemma run_whole : forall k g, length g = k -> Forall (fun x => (x < 2 ^ 32)%N) g -> snd (mt_run k g) = map untemper (fst (mt_run k g)).
Proof. intros k g L F. destruct (run_state k g ltac:(rewrite L; apply le_n) F) as [E _]. rewrite E. rewrite <- L at 1. rewrite skipn_all. reflexivity. Qed.
(** (mt_n is 624) *)
Theorem C116_predictable_refuted : exists predict : list N -> nat -> list N, forall rd k n,
  let g := snd (mt_run k (global_built_in_prg rd)) in
  predict (fst (mt_run mt_n g)) n = fst (mt_run n (snd (mt_run mt_n g))).
Proof.
  exists (fun os n => fst (mt_run n (map untemper os))). intros rd k n g.
  assert (W : words g) by (apply run_words; apply fill_words; apply N.mod_lt; discriminate).
  destruct W as [L F]. rewrite (run_whole mt_n g L F). exact eq_refl.
Qed.

(** ** instances *)
(** a draw that takes the output modulo the range, and 13 rows of the equality test's grid *)
Definition draw_mod (g : mt) (i : nat) : nat * mt := let '(x, g') := mt_next g in ((N.to_nat (x mod N.of_nat (S i))), g').
Lemma draw_mod_ok : draw_ok draw_mod.
Proof. intros g i. unfold draw_mod. destruct (mt_next g) as [x g']. cbn [fst]. pose proof (N.mod_lt x (N.of_nat (S i)) ltac:(lia)). lia. Qed.
Example C116_rows : exists order, Permutation (seq 0 13) order /\
  forall rd, (rd < 2 ^ 32)%N -> fst (shuffle 0%nat draw_mod (global_built_in_prg rd) (seq 0 13)) <> order.
Proof. exact (C116_seed_refuted nat 0%nat Nat.eq_dec draw_mod (fun g => g) (seq 0 13) (seq_NoDup _ _) (le_n 13)). Qed.
(** the generator gives the first number of the default seed; the 10000th one, 4123659995 in the standard, was computed once outside this file *)
Example C116_first : fst (mt_next (mt_seeded 5489)) = 3499211612%N.
Proof. vm_compute. reflexivity. Qed.
Example C116_exchange : exchange 0%nat 1 [1; 0; 2]%nat [10; 11; 12; 13]%nat = [12; 11; 13; 10]%nat.
Proof. reflexivity. Qed.

Print Assumptions C116_permutation.
Print Assumptions C116_uniform_partial.
Print Assumptions C116_seed_refuted.
Print Assumptions C116_predictable_refuted.

(** Property C121: the parallel loops compute what the sequential loops do, for every schedule. *)
From Coq Require Import NArith ZArith List Lia Bool Arith.
From Verif.Base Require Import ListX.
From Verif.Group Require Import ECModel ECProofs ZqGroup.
From Verif.Par Require Import ParModel.
Import ListNotations.

Lemma cell_eqb_spec : forall a b, cell_eqb a b = true <-> a = b.
Proof. intros [a i] [b j]. unfold cell_eqb. cbn [fst snd]. rewrite andb_true_iff, !Nat.eqb_eq. split; [intros [-> ->]; reflexivity|intros E; inversion E; auto]. Qed.

Section Par.
Context {V : Type}.
Implicit Types (m : memory V) (p : prog V).
Lemma setm_same : forall m c v, setm m c v c = v.
Proof. intros m c v. unfold setm. assert (E : cell_eqb c c = true) by (apply cell_eqb_spec; reflexivity). rewrite E. reflexivity. Qed.
Lemma setm_other : forall m c v x, x <> c -> setm m c v x = m x.
Proof. intros m c v x N. unfold setm. destruct (cell_eqb x c) eqn:E; [apply cell_eqb_spec in E; contradiction|reflexivity]. Qed.

(** ** specification: the iteration reads only elements of R and writes only elements of W *)
Fixpoint within (R W : cell -> Prop) p : Prop :=
  match p with Done => True | Rd c k => R c /\ forall v, within R W (k v) | Wr c _ p' => W c /\ within R W p' end.
(** no element written by one iteration is read or written by another *)
Definition independent (R W : nat -> cell -> Prop) (n : nat) : Prop :=
  forall i j c, i < n -> j < n -> i <> j -> W i c -> ~ R j c /\ ~ W j c.
Definition footprints (R W : nat -> cell -> Prop) (ps : list (prog V)) : Prop := forall i p, nth_error ps i = Some p -> within (R i) (W i) p.

(** ** one iteration *)
Lemma run_ext : forall p m m', (forall c, m c = m' c) -> forall c, run p m c = run p m' c.
Proof.
  induction p as [|d k IH|d v p IH]; intros m m' E c; cbn [run]; [apply E| |].
  - rewrite (E d). apply IH. exact E.
  - apply IH. intros x. unfold setm. destruct (cell_eqb x d); [reflexivity|apply E].
Qed.
Lemma seqrun_ext : forall ps m m', (forall c, m c = m' c) -> forall c, seqrun ps m c = seqrun ps m' c.
Proof. induction ps as [|p ps IH]; intros m m' E c; cbn [seqrun]; [apply E|]. apply IH. apply run_ext. exact E. Qed.
Lemma run_frame : forall R W p m c, within R W p -> ~ W c -> run p m c = m c.
Proof.
  intros R W. induction p as [|d k IH|d v p IH]; intros m c I N; cbn [run within] in *; [reflexivity| |]; destruct I as [I1 I2].
  - apply IH; [apply I2|exact N].
  - rewrite IH by assumption. apply setm_other. intros E. subst d. contradiction.
Qed.
Lemma run_set : forall R W p m c v, within R W p -> ~ R c -> ~ W c -> forall x, run p (setm m c v) x = setm (run p m) c v x.
Proof.
  intros R W. induction p as [|d k IH|d w p IH]; intros m c v I NR NW x; cbn [run within] in *; [reflexivity| |]; destruct I as [I1 I2].
  - rewrite setm_other by (intros E; subst d; contradiction). apply IH; [apply I2|exact NR|exact NW].
  - rewrite <- IH by assumption. apply run_ext. intros y. unfold setm.
    destruct (cell_eqb y d) eqn:E1, (cell_eqb y c) eqn:E2; try reflexivity. apply cell_eqb_spec in E1, E2. subst y. subst d. contradiction.
Qed.
Lemma seq_frame : forall ps m c, (forall p, In p ps -> exists R W, within R W p /\ ~ W c) -> seqrun ps m c = m c.
Proof.
  induction ps as [|p ps IH]; intros m c H; cbn [seqrun]; [reflexivity|]. rewrite IH by (intros q I; apply H; right; exact I).
  destruct (H p (or_introl eq_refl)) as [R [W [I N]]]. exact (run_frame R W p m c I N).
Qed.
Lemma seq_set : forall ps m c v, (forall p, In p ps -> exists R W, within R W p /\ ~ R c /\ ~ W c) -> forall x, seqrun ps (setm m c v) x = setm (seqrun ps m) c v x.
Proof.
  induction ps as [|p ps IH]; intros m c v H x; cbn [seqrun]; [reflexivity|]. rewrite <- IH by (intros q I; apply H; right; exact I).
  apply seqrun_ext. intros y. destruct (H p (or_introl eq_refl)) as [R [W [I [N1 N2]]]]. exact (run_set R W p m c v I N1 N2 y).
Qed.
Lemma seq_app : forall a b m, seqrun (a ++ b) m = seqrun b (seqrun a m).
Proof. induction a as [|p a IH]; intros b m; [reflexivity|]. cbn [seqrun app]. apply IH. Qed.

(** ** one access does not change what the rest of the sequential loop yields *)
Lemma upd_split : forall (A : Type) (l : list A) i x y, nth_error l i = Some x -> exists a b, l = a ++ x :: b /\ upd l i y = a ++ y :: b /\ length a = i.
Proof.
  intros A. induction l as [|z l IH]; intros [|i] x y E; cbn [nth_error] in E; try discriminate.
  - assert (z = x) by congruence. subst z. exists [], l. auto.
  - destruct (IH i x y E) as [a [b [E1 [E2 L]]]]. exists (z :: a), b. cbn [upd app length]. rewrite E1 at 1. rewrite E2, L. auto.
Qed.
Lemma step_keeps : forall R W ps m i, independent R W (length ps) -> footprints R W ps ->
  footprints R W (fst (step (ps, m) i)) /\ length (fst (step (ps, m) i)) = length ps /\
  forall c, seqrun (fst (step (ps, m) i)) (snd (step (ps, m) i)) c = seqrun ps m c.
Proof.
  intros R W ps m i IN FP. unfold step. destruct (nth_error ps i) as [p|] eqn:E; [|cbn [fst snd]; auto].
  pose proof (FP i p E) as FI.
  assert (LI : i < length ps) by (apply nth_error_Some; congruence).
  assert (UPD : forall q, within (R i) (W i) q -> footprints R W (upd ps i q)).
  { intros q Q j r J. destruct (Nat.eq_dec j i) as [->|D].
    - rewrite nth_error_upd_same in J by exact LI. assert (r = q) by congruence. subst r. exact Q.
    - rewrite nth_error_upd_other in J by congruence. apply FP. exact J. }
  assert (BEFORE : forall a x b, ps = a ++ x :: b -> length a = i -> forall q, In q a -> exists j, j < length ps /\ j <> i /\ within (R j) (W j) q).
  { intros a x b PE LA q Q. apply In_nth_error in Q. destruct Q as [j J]. assert (LJ : j < length a) by (apply nth_error_Some; congruence).
    exists j. split; [clear - LA LJ LI; lia|]. split; [clear - LA LJ; lia|]. apply FP. rewrite PE, nth_error_app1 by exact LJ. exact J. }
  destruct p as [|c k|c v p]; cbn [fst snd].
  - auto.
  - cbn [within] in FI. destruct FI as [RC FK]. split; [apply UPD; apply FK|]. split; [apply upd_length|]. intros x.
    destruct (upd_split _ ps i _ (k (m c)) E) as [a [b [PE [UE LA]]]]. rewrite UE, PE, !seq_app. cbn [seqrun run].
    assert (S : seqrun a m c = m c).
    { apply seq_frame. intros q Q. destruct (BEFORE a _ b PE LA q Q) as [j [LJ [D I]]]. exists (R j), (W j). split; [exact I|].
      intros WJ. destruct (IN j i c LJ LI D WJ) as [X _]. contradiction. }
    rewrite S. reflexivity.
  - cbn [within] in FI. destruct FI as [WC FK]. split; [apply UPD; exact FK|]. split; [apply upd_length|]. intros x.
    destruct (upd_split _ ps i _ p E) as [a [b [PE [UE LA]]]]. rewrite UE, PE, !seq_app. cbn [seqrun run].
    apply seqrun_ext. apply run_ext. apply seq_set. intros q Q. destruct (BEFORE a _ b PE LA q Q) as [j [LJ [D I]]].
    exists (R j), (W j). split; [exact I|]. exact (IN i j c LI LJ (fun X => D (eq_sym X)) WC).
Qed.
Lemma exec_keeps : forall R W sched ps m, independent R W (length ps) -> footprints R W ps ->
  footprints R W (fst (exec sched (ps, m))) /\ length (fst (exec sched (ps, m))) = length ps /\
  forall c, seqrun (fst (exec sched (ps, m))) (snd (exec sched (ps, m))) c = seqrun ps m c.
Proof.
  intros R W. induction sched as [|i sched IH]; intros ps m IN FP; [cbn [exec fold_left fst snd]; auto|].
  unfold exec. cbn [fold_left]. fold (exec sched (step (ps, m) i)). destruct (step_keeps R W ps m i IN FP) as [F1 [L1 S1]].
  destruct (step (ps, m) i) as [ps1 m1]. cbn [fst snd] in *. rewrite <- L1 in IN. destruct (IH ps1 m1 IN F1) as [F2 [L2 S2]].
  split; [exact F2|]. split; [congruence|]. intros c. rewrite S2. apply S1.
Qed.
Lemma seq_done : forall ps m, finished ps -> seqrun ps m = m.
Proof.
  induction ps as [|p ps IH]; intros m F; [reflexivity|]. cbn [seqrun]. rewrite (F p (or_introl eq_refl)). cbn [run]. apply IH. intros q Q. apply F. right. exact Q.
Qed.

(** ** any schedule that finishes leaves the memory of the sequential loop *)
Theorem C121_schedule : forall R W ps m sched, independent R W (length ps) -> footprints R W ps ->
  finished (fst (exec sched (ps, m))) -> forall c, snd (exec sched (ps, m)) c = seqrun ps m c.
Proof.
  intros R W ps m sched IN FP F c. destruct (exec_keeps R W sched ps m IN FP) as [_ [_ S]]. rewrite <- S. rewrite seq_done by exact F. reflexivity.
Qed.
(** ** no two iterations are ever about to access the same element when one of them writes *)
Definition next_read p : option cell := match p with Rd c _ => Some c | _ => None end.
Definition next_write p : option cell := match p with Wr c _ _ => Some c | _ => None end.
Theorem C121_no_race : forall R W ps m sched i j p q c, independent R W (length ps) -> footprints R W ps -> i <> j ->
  nth_error (fst (exec sched (ps, m))) i = Some p -> nth_error (fst (exec sched (ps, m))) j = Some q ->
  next_write p = Some c -> next_read q <> Some c /\ next_write q <> Some c.
Proof.
  intros R W ps m sched i j p q c IN FP D EI EJ NW. destruct (exec_keeps R W sched ps m IN FP) as [F [L _]].
  assert (LI : i < length ps) by (rewrite <- L; apply nth_error_Some; congruence). assert (LJ : j < length ps) by (rewrite <- L; apply nth_error_Some; congruence).
  pose proof (F i p EI) as FI. pose proof (F j q EJ) as FJ. destruct p as [|c0 k0|c0 v0 p0]; try discriminate. cbn [next_write] in NW. assert (c0 = c) by congruence. subst c0.
  cbn [within] in FI. destruct FI as [WC _]. destruct (IN i j c LI LJ D WC) as [NR NW2].
  destruct q as [|c1 k1|c1 v1 q1]; cbn [next_read next_write within] in *; split; try discriminate; destruct FJ as [X _]; intros E; assert (c1 = c) by congruence; subst c1; contradiction.
Qed.
(** ** every schedule can be continued to the end *)
Lemma exec_app : forall a b (st : list (prog V) * memory V), exec (a ++ b) st = exec b (exec a st).
Proof. intros a b st. unfold exec. apply fold_left_app. Qed.
Lemma finish_one : forall p ps m i, nth_error ps i = Some p -> exists k m', exec (repeat i k) (ps, m) = (upd ps i Done, m').
Proof.
  assert (UU : forall (ps : list (prog V)) i q r, upd (upd ps i q) i r = upd ps i r) by (intros; apply upd_upd).
  induction p as [|c k IH|c v p IH]; intros ps m i E; assert (LI : i < length ps) by (apply nth_error_Some; congruence).
  - exists 0, m. cbn [repeat exec fold_left]. f_equal. destruct (upd_split _ ps i _ Done E) as [a [b [E1 [E2 _]]]]. rewrite E2. exact E1.
  - destruct (IH (m c) (upd ps i (k (m c))) m i) as [n [m' X]]; [apply nth_error_upd_same; exact LI|]. exists (S n), m'. cbn [repeat]. unfold exec. cbn [fold_left step].
    rewrite E. fold (exec (repeat i n) (upd ps i (k (m c)), m)). rewrite X, UU. reflexivity.
  - destruct (IH (upd ps i p) (setm m c v) i) as [n [m' X]]; [apply nth_error_upd_same; exact LI|]. exists (S n), m'. cbn [repeat]. unfold exec. cbn [fold_left step].
    rewrite E. fold (exec (repeat i n) (upd ps i p, setm m c v)). rewrite X, UU. reflexivity.
Qed.
Theorem C121_finishes : forall ps m sched, exists more, finished (fst (exec (sched ++ more) (ps, m))).
Proof.
  intros ps m sched. setoid_rewrite exec_app. destruct (exec sched (ps, m)) as [ps1 m1]. clear ps m sched.
  assert (X : forall n, n <= length ps1 -> exists more, length (fst (exec more (ps1, m1))) = length ps1 /\ forall j, j < n -> nth_error (fst (exec more (ps1, m1))) j = Some Done).
  { induction n as [|n IH]; intros L; [exists []; split; [reflexivity|intros j J; clear - J; lia]|].
    destruct IH as [more [L1 D1]]; [clear - L; lia|]. destruct (exec more (ps1, m1)) as [ps2 m2] eqn:E. cbn [fst] in L1, D1.
    destruct (nth_error ps2 n) as [p|] eqn:EN; [|apply nth_error_None in EN; clear - EN L L1; lia].
    destruct (finish_one p ps2 m2 n EN) as [k [m' X]]. exists (more ++ repeat n k). rewrite exec_app, E, X. cbn [fst]. split; [rewrite upd_length; exact L1|].
    intros j J. destruct (Nat.eq_dec j n) as [->|D]; [apply nth_error_upd_same; clear - L L1; lia|]. rewrite nth_error_upd_other by congruence. apply D1. clear - J D. lia. }
  destruct (X (length ps1) (le_n _)) as [more [L D]]. exists more. intros p I. apply In_nth_error in I. destruct I as [j J].
  assert (LJ : j < length ps1) by (rewrite <- L; apply nth_error_Some; congruence). specialize (D j LJ). congruence.
Qed.

(** ** and every schedule reaches the end after as many accesses as the sequential loop makes *)
Fixpoint accesses p m : nat := match p with Done => 0 | Rd c k => S (accesses (k (m c)) m) | Wr c v p' => S (accesses p' (setm m c v)) end.
Fixpoint total (ps : list (prog V)) m : nat := match ps with [] => 0 | p :: ps' => accesses p m + total ps' (run p m) end.
(** the number of steps of a schedule in which an unfinished iteration makes an access *)
Fixpoint effective (sched : list nat) (st : list (prog V) * memory V) : nat :=
  match sched with
  | [] => 0
  | i :: r => (match nth_error (fst st) i with Some Done | None => 0 | Some _ => 1 end) + effective r (step st i)
  end.
Lemma accesses_ext : forall p m m', (forall c, m c = m' c) -> accesses p m = accesses p m'.
Proof.
  induction p as [|d k IH|d v p IH]; intros m m' E; cbn [accesses]; [reflexivity| |].
  - rewrite (E d). f_equal. apply IH. exact E.
  - f_equal. apply IH. intros x. unfold setm. destruct (cell_eqb x d); [reflexivity|apply E].
Qed.
Lemma total_ext : forall ps m m', (forall c, m c = m' c) -> total ps m = total ps m'.
Proof. induction ps as [|p ps IH]; intros m m' E; cbn [total]; [reflexivity|]. rewrite (accesses_ext p m m' E). f_equal. apply IH. apply run_ext. exact E. Qed.
Lemma accesses_set : forall R W p m c v, within R W p -> ~ R c -> ~ W c -> accesses p (setm m c v) = accesses p m.
Proof.
  intros R W. induction p as [|d k IH|d w p IH]; intros m c v I NR NW; cbn [accesses within] in *; [reflexivity| |]; destruct I as [I1 I2]; f_equal.
  - rewrite setm_other by (intros E; subst d; contradiction). apply IH; [apply I2|exact NR|exact NW].
  - rewrite <- (IH (setm m d w) c v) by assumption. apply accesses_ext. intros y. unfold setm.
    destruct (cell_eqb y d) eqn:E1, (cell_eqb y c) eqn:E2; try reflexivity. apply cell_eqb_spec in E1, E2. subst y. subst d. contradiction.
Qed.
Lemma total_set : forall ps m c v, (forall p, In p ps -> exists R W, within R W p /\ ~ R c /\ ~ W c) -> total ps (setm m c v) = total ps m.
Proof.
  induction ps as [|p ps IH]; intros m c v H; cbn [total]; [reflexivity|]. destruct (H p (or_introl eq_refl)) as [R [W [I [N1 N2]]]].
  rewrite (accesses_set R W p m c v I N1 N2). f_equal. rewrite <- (IH (run p m) c v) by (intros q Q; apply H; right; exact Q).
  apply total_ext. exact (run_set R W p m c v I N1 N2).
Qed.
Lemma total_app : forall a b m, total (a ++ b) m = total a m + total b (seqrun a m).
Proof. induction a as [|p a IH]; intros b m; [reflexivity|]. cbn [total app seqrun]. rewrite IH. clear. lia. Qed.
Lemma step_total : forall R W ps m i, independent R W (length ps) -> footprints R W ps ->
  total ps m = (match nth_error ps i with Some Done | None => 0 | Some _ => 1 end) + total (fst (step (ps, m) i)) (snd (step (ps, m) i)).
Proof.
  intros R W ps m i IN FP. unfold step. destruct (nth_error ps i) as [p|] eqn:E; [|reflexivity].
  pose proof (FP i p E) as FI. assert (LI : i < length ps) by (apply nth_error_Some; congruence).
  assert (BEFORE : forall a x b, ps = a ++ x :: b -> length a = i -> forall q, In q a -> exists j, j < length ps /\ j <> i /\ within (R j) (W j) q).
  { intros a x b PE LA q Q. apply In_nth_error in Q. destruct Q as [j J]. assert (LJ : j < length a) by (apply nth_error_Some; congruence).
    exists j. split; [clear - LA LJ LI; lia|]. split; [clear - LA LJ; lia|]. apply FP. rewrite PE, nth_error_app1 by exact LJ. exact J. }
  destruct p as [|c k|c v p]; cbn [fst snd]; [reflexivity| |].
  - cbn [within] in FI. destruct FI as [RC _]. destruct (upd_split _ ps i _ (k (m c)) E) as [a [b [PE [UE LA]]]]. rewrite UE, PE, !total_app. cbn [total run accesses].
    assert (S : seqrun a m c = m c).
    { apply seq_frame. intros q Q. destruct (BEFORE a _ b PE LA q Q) as [j [LJ [D I]]]. exists (R j), (W j). split; [exact I|].
      intros WJ. destruct (IN j i c LJ LI D WJ) as [X _]. contradiction. }
    rewrite S. clear. lia.
  - cbn [within] in FI. destruct FI as [WC _]. destruct (upd_split _ ps i _ p E) as [a [b [PE [UE LA]]]]. rewrite UE, PE, !total_app. cbn [total run accesses].
    assert (H : forall q, In q a -> exists R W, within R W q /\ ~ R c /\ ~ W c).
    { intros q Q. destruct (BEFORE a _ b PE LA q Q) as [j [LJ [D I]]]. exists (R j), (W j). split; [exact I|]. exact (IN i j c LI LJ (fun X => D (eq_sym X)) WC). }
    rewrite (total_set a m c v H). rewrite (accesses_ext p _ _ (seq_set a m c v H)). rewrite (total_ext b _ _ (run_ext p _ _ (seq_set a m c v H))). clear. lia.
Qed.
Lemma total_zero : forall ps m, total ps m = 0 <-> finished ps.
Proof.
  induction ps as [|p ps IH]; intros m; cbn [total]; [split; [intros _ p []|reflexivity]|]. split.
  - intros E. destruct p as [|c k|c v p]; cbn [accesses] in E; [|discriminate|discriminate]. cbn [run plus] in E. apply IH in E. intros q [<-|Q]; [reflexivity|apply E; exact Q].
  - intros F. rewrite (F p (or_introl eq_refl)). cbn [accesses run plus]. apply IH. intros q Q. apply F. right. exact Q.
Qed.
Theorem C121_bounded : forall R W ps m sched, independent R W (length ps) -> footprints R W ps ->
  effective sched (ps, m) <= total ps m /\ (finished (fst (exec sched (ps, m))) <-> effective sched (ps, m) = total ps m).
Proof.
  intros R W ps m sched IN FP.
  assert (X : total ps m = effective sched (ps, m) + total (fst (exec sched (ps, m))) (snd (exec sched (ps, m)))).
  { revert ps m IN FP. induction sched as [|i sched IH]; intros ps m IN FP; [reflexivity|]. cbn [effective fst]. unfold exec. cbn [fold_left]. fold (exec sched (step (ps, m) i)).
    rewrite (step_total R W ps m i IN FP). destruct (step_keeps R W ps m i IN FP) as [F1 [L1 _]]. destruct (step (ps, m) i) as [ps1 m1]. cbn [fst snd] in *.
    rewrite <- L1 in IN. rewrite (IH ps1 m1 IN F1). clear. lia. }
  split; [clear - X; lia|]. rewrite <- (total_zero _ (snd (exec sched (ps, m)))). clear - X. lia.
Qed.

(** ** dst[pi(i)] = f(src_1[i], ..., src_k[i]) *)
Lemma reads_within : forall srcs i k (R W : cell -> Prop), (forall s, In s srcs -> R (s, i)) -> (forall l, within R W (k l)) -> within R W (reads srcs i k).
Proof.
  induction srcs as [|s srcs IH]; intros i k R W HR HK; cbn [reads within]; [apply HK|]. split; [apply HR; left; reflexivity|].
  intros v. apply IH; [intros t T; apply HR; right; exact T|]. intros l. apply HK.
Qed.
Lemma reads_run : forall srcs i k m, run (reads srcs i k) m = run (k (map (fun s => m (s, i)) srcs)) m.
Proof. induction srcs as [|s srcs IH]; intros i k m; [reflexivity|]. cbn [reads run map]. apply IH. Qed.
Definition pw_R (srcs : list nat) (i : nat) (c : cell) : Prop := In (fst c) srcs /\ snd c = i.
Definition pw_W (dst : nat) (pi : nat -> nat) (i : nat) (c : cell) : Prop := c = (dst, pi i).
(** the array written is not read, or each iteration writes the element at its own index *)
Definition separate (srcs : list nat) (dst : nat) (pi : nat -> nat) (n : nat) : Prop := ~ In dst srcs \/ forall i, i < n -> pi i = i.
Definition injective (pi : nat -> nat) (n : nat) : Prop := forall i j, i < n -> j < n -> pi i = pi j -> i = j.
Lemma pw_indep : forall srcs dst pi n, separate srcs dst pi n -> injective pi n -> independent (pw_R srcs) (pw_W dst pi) n.
Proof.
  intros srcs dst pi n SEP INJ i j c LI LJ D WI. unfold pw_W in *. subst c. split.
  - intros [I E]. cbn [fst snd] in *. destruct SEP as [SEP|SEP]; [contradiction|]. rewrite (SEP i LI) in E. contradiction.
  - intros E. assert (pi i = pi j) by congruence. apply D. apply INJ; assumption.
Qed.
Lemma loop_nth : forall (b : nat -> prog V) n i p, nth_error (map b (seq 0 n)) i = Some p -> i < n /\ p = b i.
Proof.
  intros b n i p E. rewrite nth_error_map in E. assert (LI : i < n).
  { assert (X : i < length (seq 0 n)) by (apply nth_error_Some; intros Y; rewrite Y in E; discriminate). rewrite seq_length in X. exact X. }
  split; [exact LI|]. rewrite (nth_error_nth' _ 0) in E by (rewrite seq_length; exact LI). rewrite seq_nth in E by exact LI. cbn [option_map plus] in E. congruence.
Qed.
Lemma pw_foot : forall srcs dst pi f n, footprints (pw_R srcs) (pw_W dst pi) (pointwise_loop srcs dst pi f n).
Proof.
  intros srcs dst pi f n i p E. apply loop_nth in E. destruct E as [LI ->]. unfold pointwise. apply reads_within.
  - intros s S. split; [exact S|reflexivity].
  - intros l. cbn [within]. split; [reflexivity|exact I].
Qed.
(** the sequential loop *)
Lemma seq_snoc : forall ps p m, seqrun (ps ++ [p]) m = run p (seqrun ps m).
Proof. intros ps p m. rewrite seq_app. reflexivity. Qed.
Lemma pw_seq : forall srcs dst pi f m n, separate srcs dst pi n -> injective pi n ->
  (forall i, i < n -> seqrun (pointwise_loop srcs dst pi f n) m (dst, pi i) = f (map (fun s => m (s, i)) srcs)) /\
  (forall c, (forall i, i < n -> c <> (dst, pi i)) -> seqrun (pointwise_loop srcs dst pi f n) m c = m c).
Proof.
  intros srcs dst pi f m. induction n as [|n IH]; intros SEP INJ; [split; [intros i LI; clear - LI; lia|reflexivity]|].
  assert (SEP' : separate srcs dst pi n) by (destruct SEP as [S|S]; [left; exact S|right; intros i LI; apply S; clear - LI; lia]).
  assert (INJ' : injective pi n) by (intros i j LI LJ E; apply INJ; [clear - LI; lia|clear - LJ; lia|exact E]).
  destruct (IH SEP' INJ') as [A1 A2]. unfold pointwise_loop in *. rewrite seq_S, map_app. cbn [map plus]. rewrite seq_snoc. unfold pointwise at 1 3. rewrite !reads_run. cbn [run].
  set (m' := seqrun (map (pointwise srcs dst pi f) (seq 0 n)) m) in *.
  assert (RD : map (fun s => m' (s, n)) srcs = map (fun s => m (s, n)) srcs).
  { apply map_ext_in. intros s S. apply A2. intros i LI E. assert (E1 : s = dst) by congruence. assert (E2 : n = pi i) by congruence. destruct SEP as [SEP|SEP].
    - subst s. contradiction.
    - rewrite SEP in E2 by (clear - LI; lia). clear - E2 LI. lia. }
  rewrite RD. split.
  - intros i LI. destruct (Nat.eq_dec i n) as [->|D]; [apply setm_same|]. rewrite setm_other; [apply A1; clear - LI D; lia|].
    intros E. apply D. apply INJ; [exact LI|clear; lia|congruence].
  - intros c N. rewrite setm_other by (apply N; clear; lia). apply A2. intros i LI. apply N. clear - LI. lia.
Qed.
Theorem C121_pointwise : forall srcs dst pi f n m sched, separate srcs dst pi n -> injective pi n ->
  finished (fst (exec sched (pointwise_loop srcs dst pi f n, m))) ->
  (forall i, i < n -> snd (exec sched (pointwise_loop srcs dst pi f n, m)) (dst, pi i) = f (map (fun s => m (s, i)) srcs)) /\
  (forall c, (forall i, i < n -> c <> (dst, pi i)) -> snd (exec sched (pointwise_loop srcs dst pi f n, m)) c = m c).
Proof.
  intros srcs dst pi f n m sched SEP INJ F.
  assert (IN : independent (pw_R srcs) (pw_W dst pi) (length (pointwise_loop srcs dst pi f n))).
  { unfold pointwise_loop. rewrite map_length, seq_length. apply pw_indep; assumption. }
  pose proof (C121_schedule _ _ _ m sched IN (pw_foot srcs dst pi f n) F) as E. destruct (pw_seq srcs dst pi f m n SEP INJ) as [A1 A2].
  split; [intros i LI; rewrite E; apply A1; exact LI|intros c N; rewrite E; apply A2; exact N].
Qed.

(** ** the table of discrete logarithms, built in slices *)
Definition sl_R (src i : nat) (c : cell) : Prop := c = (src, i).
Definition sl_W (dst L i : nat) (c : cell) : Prop := fst c = dst /\ i * L <= snd c < i * L + L.
Lemma fill_within : forall dst items base (R W : cell -> Prop), (forall j, base <= j < base + length items -> W (dst, j)) -> within R W (fill dst base items).
Proof.
  induction items as [|v items IH]; intros base R W H; cbn [fill within]; [exact I|]. cbn [length] in H. split; [apply H; clear; lia|]. apply IH. intros j J. apply H. clear - J. lia.
Qed.
Lemma fill_run : forall dst items base m, (forall j d, j < length items -> run (fill dst base items) m (dst, base + j) = nth j items d).
Proof.
  induction items as [|v items IH]; intros base m j d J; cbn [length] in J; [clear - J; lia|]. cbn [fill run].
  destruct j as [|j]; cbn [nth].
  - rewrite (run_frame (fun _ => True) (fun c => fst c = dst /\ S base <= snd c)).
    + rewrite Nat.add_0_r. apply setm_same.
    + apply fill_within. intros i H. cbn [fst snd]. split; [reflexivity|clear - H; lia].
    + cbn [fst snd]. intros [_ X]. clear - X. lia.
  - replace (base + S j) with (S base + j) by lia. apply IH. clear - J. lia.
Qed.
Lemma sl_indep : forall src dst L n, src <> dst -> independent (sl_R src) (sl_W dst L) n.
Proof.
  intros src dst L n D0 i j [a x] _ _ D [E1 E2]. cbn [fst snd] in *. unfold sl_R, sl_W. cbn [fst snd]. split; [congruence|]. intros [_ E3]. apply D. clear - E2 E3. nia.
Qed.
Lemma sl_within : forall src dst L g i, within (sl_R src i) (sl_W dst L i) (slice (V := V) src dst L g i).
Proof.
  intros src dst L g i. unfold slice. cbn [within]. split; [reflexivity|]. intros v. apply fill_within. rewrite map_length, seq_length. intros j J. split; [reflexivity|exact J].
Qed.
Theorem C121_slices : forall src dst L g n m sched, src <> dst ->
  finished (fst (exec sched (slice_loop src dst L g n, m))) ->
  (forall i j, i < n -> j < L -> snd (exec sched (slice_loop src dst L g n, m)) (dst, i * L + j) = g (m (src, i)) j) /\
  (forall c, (fst c <> dst \/ n * L <= snd c) -> snd (exec sched (slice_loop src dst L g n, m)) c = m c).
Proof.
  intros src dst L g n m sched D0 F.
  assert (FP : footprints (sl_R src) (sl_W dst L) (slice_loop src dst L g n)).
  { intros i p E. apply loop_nth in E. destruct E as [_ ->]. apply sl_within. }
  pose proof (C121_schedule _ _ _ m sched (sl_indep src dst L _ D0) FP F) as E.
  assert (S : forall k, (forall i j, i < k -> j < L -> seqrun (slice_loop src dst L g k) m (dst, i * L + j) = g (m (src, i)) j) /\
    forall c, (fst c <> dst \/ k * L <= snd c) -> seqrun (slice_loop src dst L g k) m c = m c).
  { induction k as [|k [A1 A2]]; [split; [intros i j LI; clear - LI; lia|reflexivity]|]. unfold slice_loop in *. rewrite seq_S, map_app. cbn [map plus]. rewrite seq_snoc.
    set (m' := seqrun (map (slice src dst L g) (seq 0 k)) m) in *. split.
    - intros i j LI LJ. destruct (Nat.eq_dec i k) as [->|D].
      + unfold slice. cbn [run]. rewrite (fill_run dst _ (k * L) m' j (m' (src, k))) by (rewrite map_length, seq_length; exact LJ).
        rewrite (nth_indep _ _ (g (m' (src, k)) 0)) by (rewrite map_length, seq_length; exact LJ). rewrite map_nth, seq_nth by exact LJ. rewrite A2 by (left; cbn [fst]; exact D0). reflexivity.
      + rewrite (run_frame _ _ _ _ _ (sl_within src dst L g k)); [apply A1; [clear - LI D; lia|exact LJ]|]. intros [_ X]. cbn [snd] in X. clear - X LI D LJ. assert (i < k) by lia. nia.
    - intros c C. rewrite (run_frame _ _ _ _ _ (sl_within src dst L g k)).
      + apply A2. destruct C as [C|C]; [left; exact C|right; clear - C; nia].
      + intros [X1 X2]. destruct C as [C|C]; [contradiction|clear - C X2; nia]. }
  destruct (S n) as [A1 A2]. split; [intros i j LI LJ; rewrite E; apply A1; assumption|intros c C; rewrite E; apply A2; exact C].
Qed.
End Par.

(** every key of the table is that of g * index, whatever the order in which the tasks write *)
Theorem C121_table : forall G key g L n m sched,
  (forall i, i < n -> m (0, i) = inl (pmul G g (Z.of_nat (i * L)))) ->
  finished (fst (exec sched (table_loop G key g L n, m))) ->
  forall index, index < n * L -> snd (exec sched (table_loop G key g L n, m)) (1, index) = inr (key (pmul G g (Z.of_nat index))).
Proof.
  intros G key g L n m sched ST F index LI.
  destruct (C121_slices 0 1 L (table_item G key g) n m sched ltac:(discriminate) F) as [A _].
  assert (L0 : L <> 0) by (intros E; subst L; clear - LI; lia).
  assert (B1 : index / L < n) by (apply Nat.div_lt_upper_bound; [exact L0|clear - LI; lia]).
  assert (B2 : index mod L < L) by (apply Nat.mod_upper_bound; exact L0).
  specialize (A _ _ B1 B2). assert (DM : index = index / L * L + index mod L) by (rewrite Nat.mul_comm; apply Nat.div_mod; exact L0).
  rewrite <- DM in A. etransitivity; [exact A|]. rewrite (ST _ B1). cbn [table_item]. do 2 f_equal.
  assert (IT : forall j k, Nat.iter j (fun Q => padd G Q g) (pmul G g (Z.of_nat k)) = pmul G g (Z.of_nat (k + j))).
  { induction j as [|j IH]; intros k; [rewrite Nat.add_0_r; reflexivity|]. change (Nat.iter (S j) (fun Q => padd G Q g) (pmul G g (Z.of_nat k))) with (padd G (Nat.iter j (fun Q => padd G Q g) (pmul G g (Z.of_nat k))) g). rewrite IH. replace (Z.of_nat (k + S j)) with (Z.of_nat (k + j) + 1)%Z by (clear; lia).
    rewrite pmul_add, pmul_1. reflexivity. }
  rewrite IT, <- DM. reflexivity.
Qed.

(** ** bodies that fill several arrays: an iteration that writes only at its own index, and reads there or in arrays the loop
    does not write *)
Theorem C121_own_index : forall (V : Type) (shared : nat -> Prop) (ps : list (prog V)) m sched,
  (forall i p, nth_error ps i = Some p -> within (fun c => snd c = i \/ shared (fst c)) (fun c => snd c = i /\ ~ shared (fst c)) p) ->
  finished (fst (exec sched (ps, m))) -> forall c, snd (exec sched (ps, m)) c = seqrun ps m c.
Proof.
  intros V shared ps m sched FP F.
  apply (C121_schedule (fun i c => snd c = i \/ shared (fst c)) (fun i c => snd c = i /\ ~ shared (fst c))); [|exact FP|exact F].
  intros i j c _ _ D [E N]. split; [intros [X|X]; [congruence|contradiction]|intros [X _]; congruence].
Qed.

(** ** the same with any assignment of elements to iterations: an iteration writes only what it owns, and reads what it owns or
    what nobody owns *)
Theorem C121_owner : forall (V : Type) (owner : cell -> option nat) (ps : list (prog V)) m sched,
  (forall i p, nth_error ps i = Some p -> within (fun c => owner c = Some i \/ owner c = None) (fun c => owner c = Some i) p) ->
  finished (fst (exec sched (ps, m))) -> forall c, snd (exec sched (ps, m)) c = seqrun ps m c.
Proof.
  intros V owner ps m sched FP F.
  apply (C121_schedule (fun i c => owner c = Some i \/ owner c = None) (fun i c => owner c = Some i)); [|exact FP|exact F].
  intros i j c _ _ D E. split; [intros [X|X]; congruence|congruence].
Qed.
Lemma each_within : forall (V A : Type) (R W : cell -> Prop) (l : list A) (f : A -> prog V -> prog V),
  (forall a k, In a l -> within R W k -> within R W (f a k)) -> within R W (each l f).
Proof.
  intros V A R W l f. induction l as [|a l IH]; intros H; [exact I|]. cbn [each fold_right]. apply H; [left; reflexivity|]. apply IH. intros b k B. apply H. right. exact B.
Qed.
(** the matrix loops of the OPRF from OT extension: bits or-ed into shared bytes, but each byte by one iteration only *)
Theorem C121_packing : forall MATRIX_WIDTH B n m sched, 0 < B -> finished (fst (exec sched (packing_loop MATRIX_WIDTH B n, m))) ->
  forall c, snd (exec sched (packing_loop MATRIX_WIDTH B n, m)) c = seqrun (packing_loop MATRIX_WIDTH B n) m c.
Proof.
  intros MW B n m sched PB F.
  apply (C121_owner _ (fun c => if Nat.odd (fst c) then Some (fst c / 2 / B) else None)); [|exact F]. intros t p E. apply loop_nth in E. destruct E as [_ ->].
  unfold packing_body. apply each_within. intros [i j] k IN K. apply in_prod_iff in IN. destruct IN as [_ IN]. apply in_seq in IN.
  assert (OJ : Nat.odd (2 * j + 1) = true) by (rewrite Nat.odd_add, Nat.odd_mul; reflexivity). assert (OI : Nat.odd (2 * i) = false) by (rewrite Nat.odd_mul; reflexivity).
  assert (DJ : (2 * j + 1) / 2 / B = t).
  { assert (HJ : j = (2 * j + 1) / 2) by (apply (Nat.div_unique _ 2 j 1); clear; lia). rewrite <- HJ. symmetry. apply (Nat.div_unique _ B t (j - t * B)); clear - IN; nia. }
  cbn [within fst]. rewrite OJ, OI, DJ. split; [right; reflexivity|]. intros v. split; [left; reflexivity|]. intros w. split; [reflexivity|exact K].
Qed.
(** and the result is the transposed matrix: bit i of row j of matrix_input is bit j of row i of matrix_mapping_values *)
Definition hits (m : memory N) (j x : nat) (b : N) (ij : nat * nat) : bool :=
  Nat.eqb (snd ij) j && Nat.eqb (fst ij / 8) x && N.eqb b (N.of_nat (fst ij mod 8)) && N.testbit (m (2 * fst ij, snd ij / 8)) (N.of_nat (snd ij mod 8)).
Lemma shifted_bit : forall (v : bool) s b, N.testbit (N.shiftl (N.b2n v) s) b = N.eqb b s && v.
Proof.
  intros v s b. destruct (N.lt_ge_cases b s) as [L|L].
  - rewrite N.shiftl_spec_low by exact L. destruct (N.eqb_spec b s) as [->|]; [exfalso; apply (N.lt_irrefl s); exact L|reflexivity].
  - rewrite N.shiftl_spec_high' by exact L. destruct (N.eqb_spec b s) as [->|D].
    + rewrite N.sub_diag. destruct v; reflexivity.
    + destruct (N.sub b s) as [|q] eqn:E; [exfalso; apply D; apply N.le_antisymm; [apply N.sub_0_le; exact E|exact L]|]. destruct v; [|destruct q; reflexivity].
      cbn [N.b2n andb]. destruct q; reflexivity.
Qed.
Lemma pack_run : forall l m,
  let body := each l (fun (ij : nat * nat) k => let (i, j) := ij in Rd (2 * i, j / 8) (fun v => Rd (2 * j + 1, i / 8) (fun w =>
    Wr (2 * j + 1, i / 8) (N.lor w (N.shiftl (N.b2n (N.testbit v (N.of_nat (j mod 8)))) (N.of_nat (i mod 8)))) k))) in
  (forall i x, run body m (2 * i, x) = m (2 * i, x)) /\
  (forall j x b, N.testbit (run body m (2 * j + 1, x)) b = N.testbit (m (2 * j + 1, x)) b || existsb (hits m j x b) l).
Proof.
  induction l as [|[i0 j0] l IH]; intros m body.
  - split; [reflexivity|]. intros j x b. cbn [body each fold_right run existsb]. rewrite orb_false_r. reflexivity.
  - unfold body. cbn [each fold_right run]. set (m1 := setm m (2 * j0 + 1, i0 / 8) _). destruct (IH m1) as [A1 A2]. clear body.
    assert (EV : forall i x, m1 (2 * i, x) = m (2 * i, x)).
    { intros i x. unfold m1. apply setm_other. intros E. assert (X : 2 * i = 2 * j0 + 1) by congruence. clear - X. lia. }
    split; [intros i x; etransitivity; [apply A1|apply EV]|]. intros j x b. etransitivity; [apply A2|]. cbn [existsb].
    assert (HE : existsb (hits m1 j x b) l = existsb (hits m j x b) l).
    { clear - EV. induction l as [|a l IHl]; [reflexivity|]. cbn [existsb]. rewrite IHl. unfold hits. rewrite EV. reflexivity. }
    rewrite HE, orb_assoc. f_equal. unfold hits at 1. cbn [fst snd]. unfold m1.
    destruct (Nat.eqb_spec j0 j) as [->|D]; [destruct (Nat.eqb_spec (i0 / 8) x) as [->|D]|]; cbn [andb].
    + rewrite setm_same, N.lor_spec, shifted_bit. reflexivity.
    + rewrite setm_other by congruence. rewrite orb_false_r. reflexivity.
    + rewrite setm_other; [rewrite orb_false_r; reflexivity|]. intros E. apply D. assert (X : 2 * j + 1 = 2 * j0 + 1) by congruence. clear - X. lia.
Qed.
Lemma pack_seq : forall MW B n m,
  (forall i x, seqrun (packing_loop MW B n) m (2 * i, x) = m (2 * i, x)) /\
  (forall j x b, N.testbit (seqrun (packing_loop MW B n) m (2 * j + 1, x)) b =
    N.testbit (m (2 * j + 1, x)) b || existsb (fun t => existsb (hits m j x b) (list_prod (seq 0 MW) (seq (t * B) B))) (seq 0 n)).
Proof.
  intros MW B n m. induction n as [|n [A1 A2]].
  - split; [reflexivity|]. intros j x b. cbn [packing_loop seq map seqrun existsb]. rewrite orb_false_r. reflexivity.
  - unfold packing_loop in *. rewrite seq_S, map_app. cbn [map plus]. rewrite seq_snoc. set (m' := seqrun (map (packing_body MW B) (seq 0 n)) m) in *.
    destruct (pack_run (list_prod (seq 0 MW) (seq (n * B) B)) m') as [B1 B2]. split; [intros i x; etransitivity; [apply B1|apply A1]|].
    intros j x b. etransitivity; [apply B2|]. rewrite A2, existsb_app. cbn [existsb]. rewrite orb_false_r, orb_assoc. f_equal.
    assert (HX : forall l, existsb (hits m' j x b) l = existsb (hits m j x b) l).
    { intros l. induction l as [|a l IHl]; [reflexivity|]. cbn [existsb]. rewrite IHl. unfold hits. rewrite A1. reflexivity. }
    apply HX.
Qed.
Theorem C121_packing_transposed : forall MATRIX_WIDTH B n m sched, 0 < B -> (forall j x, m (2 * j + 1, x) = 0%N) ->
  finished (fst (exec sched (packing_loop MATRIX_WIDTH B n, m))) -> forall i j, i < MATRIX_WIDTH -> j < n * B ->
  N.testbit (snd (exec sched (packing_loop MATRIX_WIDTH B n, m)) (2 * j + 1, i / 8)) (N.of_nat (i mod 8)) =
  N.testbit (m (2 * i, j / 8)) (N.of_nat (j mod 8)).
Proof.
  intros MW B n m sched PB Z F i j LI LJ. rewrite (C121_packing MW B n m sched PB F). destruct (pack_seq MW B n m) as [_ A]. rewrite A, Z. cbn [N.testbit orb]. clear A.
  destruct (N.testbit (m (2 * i, j / 8)) (N.of_nat (j mod 8))) eqn:BIT.
  - apply existsb_exists. exists (j / B). split; [apply in_seq; split; [apply Nat.le_0_l|]; apply Nat.div_lt_upper_bound; [clear - PB; lia|clear - LJ; lia]|].
    apply existsb_exists. exists (i, j). split.
    + apply in_prod_iff. split; [apply in_seq; clear - LI; lia|]. apply in_seq. pose proof (Nat.div_mod j B ltac:(clear - PB; lia)) as DM. pose proof (Nat.mod_upper_bound j B ltac:(clear - PB; lia)) as MB. clear - DM MB. nia.
    + unfold hits. cbn [fst snd]. rewrite !Nat.eqb_refl, N.eqb_refl, BIT. reflexivity.
  - destruct (existsb _ (seq 0 n)) eqn:X; [|reflexivity]. apply existsb_exists in X. destruct X as [t [_ X]]. apply existsb_exists in X. destruct X as [[i' j'] [_ H]].
    unfold hits in H. cbn [fst snd] in H. apply andb_prop in H. destruct H as [H H4]. apply andb_prop in H. destruct H as [H H3]. apply andb_prop in H. destruct H as [H1 H2].
    apply Nat.eqb_eq in H1, H2. apply N.eqb_eq in H3. subst j'.
    assert (E8 : i' mod 8 = i mod 8) by (clear - H3; lia). assert (EI : i' = i) by (rewrite (Nat.div_mod i' 8), (Nat.div_mod i 8), H2, E8 by discriminate; reflexivity).
    subst i'. congruence.
Qed.
Lemma third : forall i r, r < 3 -> (3 * i + r) / 3 = i.
Proof. intros i r H. symmetry. apply (Nat.div_unique _ 3 i r); clear - H; lia. Qed.
Theorem C121_mapping : forall INPUT_NUM max_location n m sched, finished (fst (exec sched (mapping_loop INPUT_NUM max_location n, m))) ->
  forall c, snd (exec sched (mapping_loop INPUT_NUM max_location n, m)) c = seqrun (mapping_loop INPUT_NUM max_location n) m c.
Proof.
  intros IN ml n m sched F. apply (C121_owner _ (fun c => Some (fst c / 3))); [|exact F]. intros i p E. apply loop_nth in E. destruct E as [_ ->].
  unfold mapping_body. apply each_within. intros j k _ K. cbv zeta. cbn [within fst].
  assert (T0 : 3 * i / 3 = i) by (rewrite <- (Nat.add_0_r (3 * i)); apply third; clear; lia). rewrite T0, !third by (clear; lia).
  split; [left; reflexivity|]. intros x. split; [left; reflexivity|]. intros v. split; [left; reflexivity|]. intros w. split; [reflexivity|exact K].
Qed.
Theorem C121_clearing : forall INPUT_NUM max_location n m sched, finished (fst (exec sched (clearing_loop INPUT_NUM max_location n, m))) ->
  forall c, snd (exec sched (clearing_loop INPUT_NUM max_location n, m)) c = seqrun (clearing_loop INPUT_NUM max_location n) m c.
Proof.
  intros IN ml n m sched F. apply (C121_owner _ (fun c => Some (fst c / 3))); [|exact F]. intros i p E. apply loop_nth in E. destruct E as [_ ->].
  unfold clearing_body. apply each_within. intros j k _ K. cbv zeta. cbn [within fst].
  assert (T0 : 3 * i / 3 = i) by (rewrite <- (Nat.add_0_r (3 * i)); apply third; clear; lia). rewrite T0, !third by (clear; lia).
  split; [left; reflexivity|]. intros x. split; [left; reflexivity|]. intros w. split; [reflexivity|exact K].
Qed.

(** the value of these two loops *)
Lemma run_agree : forall (V : Type) (S : cell -> Prop) (p : prog V) m m', within S S p -> (forall c, S c -> m c = m' c) -> forall c, S c -> run p m c = run p m' c.
Proof.
  intros V S. induction p as [|d k IH|d v p IH]; intros m m' W A c C; cbn [run within] in *; [apply A; exact C| |]; destruct W as [D W].
  - rewrite (A d D). apply IH; [apply W|exact A|exact C].
  - apply IH; [exact W| |exact C]. intros x X. unfold setm. destruct (cell_eqb x d); [reflexivity|apply A; exact X].
Qed.
Lemma seq_rows : forall (V : Type) (owner : cell -> nat) (body : nat -> prog V) n m,
  (forall i, within (fun c => owner c = i) (fun c => owner c = i) (body i)) ->
  (forall c, owner c < n -> seqrun (map body (seq 0 n)) m c = run (body (owner c)) m c) /\ (forall c, n <= owner c -> seqrun (map body (seq 0 n)) m c = m c).
Proof.
  intros V owner body n m W. induction n as [|n [A1 A2]]; [split; [intros c C; clear - C; lia|reflexivity]|].
  rewrite seq_S, map_app. cbn [map plus]. rewrite seq_snoc. set (m' := seqrun (map body (seq 0 n)) m) in *. split.
  - intros c C. destruct (Nat.eq_dec (owner c) n) as [E|D].
    + rewrite E. apply (run_agree _ (fun c => owner c = n)); [apply W| |exact E]. intros d D. apply A2. rewrite D. apply le_n.
    + rewrite (run_frame _ _ _ _ _ (W n)) by exact D. apply A1. clear - C D. lia.
  - intros c C. rewrite (run_frame _ _ _ _ _ (W n)) by (clear - C; lia). apply A2. clear - C. lia.
Qed.
Definition row_of (c : cell) : nat := fst c / 3.
Lemma rows0 : forall i x, row_of (3 * i, x) = i.
Proof. intros i x. unfold row_of. cbn [fst]. rewrite <- (Nat.add_0_r (3 * i)). apply third. clear. lia. Qed.
Lemma rows1 : forall i x, row_of (3 * i + 1, x) = i.
Proof. intros i x. unfold row_of. cbn [fst]. apply third. clear. lia. Qed.
Lemma rows2 : forall i x, row_of (3 * i + 2, x) = i.
Proof. intros i x. unfold row_of. cbn [fst]. apply third. clear. lia. Qed.
(** the location the j-th item has in row i *)
Definition location_of (m : memory N) (ml : N) (i j : nat) : N := N.land (m (3 * i, j)) ml.
Lemma mapping_run : forall ml i l m,
  let body := each l (fun j k => Rd (3 * i, j) (fun x => let location := N.land x ml in
    Rd (3 * i + 1, N.to_nat (location / 8)) (fun v => Rd (3 * i + 2, j / 8) (fun w =>
    Wr (3 * i + 2, j / 8) (N.lor w (N.shiftl (N.b2n (N.testbit v (location mod 8))) (N.of_nat (j mod 8)))) k)))) in
  forall x b, N.testbit (run body m (3 * i + 2, x)) b = N.testbit (m (3 * i + 2, x)) b ||
    existsb (fun j => Nat.eqb (j / 8) x && N.eqb b (N.of_nat (j mod 8)) && N.testbit (m (3 * i + 1, N.to_nat (location_of m ml i j / 8))) (location_of m ml i j mod 8)) l.
Proof.
  intros ml i. induction l as [|j0 l IH]; intros m body x b; unfold body; clear body; cbn [each fold_right]; [cbn [run existsb]; rewrite orb_false_r; reflexivity|].
  cbn [run existsb]. cbv zeta. cbn [run]. set (m1 := setm m (3 * i + 2, j0 / 8) _).
  assert (E0 : forall y, m1 (3 * i, y) = m (3 * i, y)) by (intros y; unfold m1; apply setm_other; intros E; assert (X : 3 * i = 3 * i + 2) by congruence; clear - X; lia).
  assert (E1 : forall y, m1 (3 * i + 1, y) = m (3 * i + 1, y)) by (intros y; unfold m1; apply setm_other; intros E; assert (X : 3 * i + 1 = 3 * i + 2) by congruence; clear - X; lia).
  etransitivity; [apply (IH m1)|]. rewrite orb_assoc. f_equal.
  - unfold m1. destruct (Nat.eqb_spec (j0 / 8) x) as [->|D]; cbn [andb].
    + rewrite setm_same, N.lor_spec, shifted_bit. reflexivity.
    + rewrite setm_other by congruence. rewrite orb_false_r. reflexivity.
  - clear - E0 E1. induction l as [|j l IHl]; [reflexivity|]. cbn [existsb]. rewrite IHl. unfold location_of. rewrite E0, E1. reflexivity.
Qed.
(** bit j of the row filled is the bit at the j-th location, for every schedule *)
Theorem C121_mapping_value : forall INPUT_NUM max_location n m sched, (forall i x, m (3 * i + 2, x) = 0%N) ->
  finished (fst (exec sched (mapping_loop INPUT_NUM max_location n, m))) -> forall i j, i < n -> j < INPUT_NUM ->
  let location := N.land (m (3 * i, j)) max_location in
  N.testbit (snd (exec sched (mapping_loop INPUT_NUM max_location n, m)) (3 * i + 2, j / 8)) (N.of_nat (j mod 8)) =
  N.testbit (m (3 * i + 1, N.to_nat (location / 8))) (location mod 8).
Proof.
  intros IN ml n m sched Z F i j LI LJ location. rewrite (C121_mapping IN ml n m sched F).
  assert (W : forall t, within (fun c => row_of c = t) (fun c => row_of c = t) (mapping_body IN ml t)).
  { intros t. unfold mapping_body. apply each_within. intros a k _ K. cbv zeta. cbn [within]. split; [apply rows0|]. intros y. split; [apply rows1|]. intros v. split; [apply rows2|]. intros w. split; [apply rows2|exact K]. }
  destruct (seq_rows _ row_of _ n m W) as [A _]. unfold mapping_loop. rewrite A by (rewrite rows2; exact LI). rewrite rows2.
  etransitivity; [apply mapping_run|]. rewrite Z. cbn [N.testbit orb]. fold (location_of m ml i j) in location. unfold location.
  destruct (N.testbit (m (3 * i + 1, N.to_nat (location_of m ml i j / 8))) (location_of m ml i j mod 8)) eqn:BIT.
  - apply existsb_exists. exists j. split; [apply in_seq; clear - LJ; lia|]. rewrite Nat.eqb_refl, N.eqb_refl, BIT. reflexivity.
  - destruct (existsb _ (seq 0 IN)) eqn:X; [|reflexivity]. apply existsb_exists in X. destruct X as [j' [_ H]]. apply andb_prop in H. destruct H as [H H3]. apply andb_prop in H. destruct H as [H1 H2].
    apply Nat.eqb_eq in H1. apply N.eqb_eq in H2. assert (E8 : j' mod 8 = j mod 8) by (clear - H2; lia).
    assert (EJ : j' = j) by (rewrite (Nat.div_mod j' 8), (Nat.div_mod j 8), H1, E8 by discriminate; reflexivity). subst j'. congruence.
Qed.
Lemma clearing_run : forall ml i l m,
  let body := each l (fun j k => Rd (3 * i, j) (fun x => let location := N.land x ml in
    Rd (3 * i + 1, N.to_nat (location / 8)) (fun w => Wr (3 * i + 1, N.to_nat (location / 8)) (N.clearbit w (location mod 8)) k))) in
  forall x b, N.testbit (run body m (3 * i + 1, x)) b = N.testbit (m (3 * i + 1, x)) b &&
    negb (existsb (fun j => Nat.eqb (N.to_nat (location_of m ml i j / 8)) x && N.eqb (location_of m ml i j mod 8) b) l).
Proof.
  intros ml i. induction l as [|j0 l IH]; intros m body x b; unfold body; clear body; cbn [each fold_right]; [cbn [run existsb negb]; rewrite andb_true_r; reflexivity|].
  cbn [run existsb]. cbv zeta. cbn [run]. fold (location_of m ml i j0). set (m1 := setm m (3 * i + 1, N.to_nat (location_of m ml i j0 / 8)) _).
  assert (E0 : forall y, m1 (3 * i, y) = m (3 * i, y)) by (intros y; unfold m1; apply setm_other; intros E; assert (X : 3 * i = 3 * i + 1) by congruence; clear - X; lia).
  etransitivity; [apply (IH m1)|]. rewrite negb_orb, andb_assoc. f_equal.
  - unfold m1. destruct (Nat.eqb_spec (N.to_nat (location_of m ml i j0 / 8)) x) as [->|D]; cbn [andb].
    + rewrite setm_same, N.clearbit_eqb. reflexivity.
    + rewrite setm_other by congruence. cbn [negb]. rewrite andb_true_r. reflexivity.
  - f_equal. clear - E0. induction l as [|j l IHl]; [reflexivity|]. cbn [existsb]. rewrite IHl. unfold location_of. rewrite E0. reflexivity.
Qed.
(** a bit of row i is cleared if and only if it is the location of some item, for every schedule *)
Theorem C121_clearing_value : forall INPUT_NUM max_location n m sched,
  finished (fst (exec sched (clearing_loop INPUT_NUM max_location n, m))) -> forall i p, i < n ->
  N.testbit (snd (exec sched (clearing_loop INPUT_NUM max_location n, m)) (3 * i + 1, N.to_nat (p / 8))) (p mod 8) = true <->
  (N.testbit (m (3 * i + 1, N.to_nat (p / 8))) (p mod 8) = true /\ forall j, j < INPUT_NUM -> N.land (m (3 * i, j)) max_location <> p).
Proof.
  intros IN ml n m sched F i p LI. rewrite (C121_clearing IN ml n m sched F).
  assert (W : forall t, within (fun c => row_of c = t) (fun c => row_of c = t) (clearing_body IN ml t)).
  { intros t. unfold clearing_body. apply each_within. intros a k _ K. cbv zeta. cbn [within]. split; [apply rows0|]. intros y. split; [apply rows1|]. intros w. split; [apply rows1|exact K]. }
  destruct (seq_rows _ row_of _ n m W) as [A _]. unfold clearing_loop. rewrite A by (rewrite rows1; exact LI). rewrite rows1.
  assert (R : N.testbit (run (clearing_body IN ml i) m (3 * i + 1, N.to_nat (p / 8))) (p mod 8) = _) by apply clearing_run. rewrite R. clear R.
  rewrite andb_true_iff, negb_true_iff. split; intros [H1 H2]; (split; [exact H1|]).
  - intros j LJ E. fold (location_of m ml i j) in E. assert (X : existsb (fun j => Nat.eqb (N.to_nat (location_of m ml i j / 8)) (N.to_nat (p / 8)) && N.eqb (location_of m ml i j mod 8) (p mod 8)) (seq 0 IN) = true).
    { apply existsb_exists. exists j. split; [apply in_seq; clear - LJ; lia|]. rewrite E, Nat.eqb_refl, N.eqb_refl. reflexivity. }
    congruence.
  - destruct (existsb _ (seq 0 IN)) eqn:X; [|reflexivity]. exfalso. apply existsb_exists in X. destruct X as [j [J H]]. apply andb_prop in H. destruct H as [D M]. apply Nat.eqb_eq in D. apply N.eqb_eq in M.
    apply (H2 j); [apply in_seq in J; clear - J; lia|]. fold (location_of m ml i j). assert (D' : (location_of m ml i j / 8 = p / 8)%N) by (apply N2Nat.inj; exact D).
    rewrite (N.div_mod (location_of m ml i j) 8), (N.div_mod p 8), D', M by discriminate. reflexivity.
Qed.

(** ** a loop through a permutation: every element of the result is given *)
Theorem C121_permuted : forall (V : Type) src dst pi (f : V -> V) n m sched, src <> dst ->
  (forall i, i < n -> pi i < n) -> injective pi n ->
  let loop := pointwise_loop [src] dst pi (fun l => match l with v :: _ => f v | [] => f (m (src, 0)) end) n in
  finished (fst (exec sched (loop, m))) -> forall j, j < n -> exists i, i < n /\ pi i = j /\ snd (exec sched (loop, m)) (dst, j) = f (m (src, i)).
Proof.
  intros V src dst pi f n m sched D0 RG INJ loop F j LJ.
  assert (SUR : exists i, i < n /\ pi i = j).
  { assert (ND : NoDup (map pi (seq 0 n))).
    { assert (G : forall l, NoDup l -> (forall x, In x l -> x < n) -> NoDup (map pi l)).
      { induction l as [|x l IH]; intros N B; [constructor|]. inversion N as [|? ? NI N']; subst. cbn [map]. constructor.
        - intros I. apply in_map_iff in I. destruct I as [y [E I]]. apply NI. assert (X : y = x) by (apply INJ; [apply B; right; exact I|apply B; left; reflexivity|exact E]). rewrite <- X. exact I.
        - apply IH; [exact N'|]. intros y I. apply B. right. exact I. }
      apply G; [apply seq_NoDup|]. intros x I. apply in_seq in I. clear - I. lia. }
    assert (INC : incl (seq 0 n) (map pi (seq 0 n))).
    { apply NoDup_length_incl; [exact ND|rewrite map_length; reflexivity|]. intros x I. apply in_map_iff in I. destruct I as [y [E I]]. apply in_seq in I. apply in_seq.
      assert (B : pi y < n) by (apply RG; clear - I; lia). clear - E B. lia. }
    assert (IJ : In j (seq 0 n)) by (apply in_seq; clear - LJ; lia). apply INC in IJ. apply in_map_iff in IJ. destruct IJ as [i [E I]]. apply in_seq in I. exists i. split; [clear - I; lia|exact E]. }
  destruct SUR as [i [LI E]]. exists i. split; [exact LI|]. split; [exact E|]. subst j.
  assert (SEP : separate [src] dst pi n) by (left; intros [X|[]]; contradiction).
  destruct (C121_pointwise [src] dst pi _ n m sched SEP INJ F) as [A _]. etransitivity; [exact (A i LI)|reflexivity].
Qed.

(** the map of the equality test writes every element once *)
Theorem C121_grid : forall ROW_NUM COLUMN_NUM row_map column_map,
  (forall i, i < ROW_NUM -> row_map i < ROW_NUM) -> injective row_map ROW_NUM ->
  (forall j, j < COLUMN_NUM -> column_map j < COLUMN_NUM) -> injective column_map COLUMN_NUM ->
  let LEN := ROW_NUM * COLUMN_NUM in
  (forall k, k < LEN -> grid_map COLUMN_NUM row_map column_map k < LEN) /\ injective (grid_map COLUMN_NUM row_map column_map) LEN.
Proof.
  intros R C row col RR RI CR CI LEN. unfold LEN, grid_map.
  assert (B : forall k, k < R * C -> k / C < R /\ k mod C < C /\ k = C * (k / C) + k mod C).
  { intros k K. assert (C <> 0) by (intros ->; clear - K; lia). split; [apply Nat.div_lt_upper_bound; [assumption|clear - K; lia]|].
    split; [apply Nat.mod_upper_bound; assumption|apply Nat.div_mod; assumption]. }
  split.
  - intros k K. destruct (B k K) as [B1 [B2 _]]. specialize (RR _ B1). specialize (CR _ B2). clear - RR CR. nia.
  - intros k l K L E. destruct (B k K) as [K1 [K2 K3]]. destruct (B l L) as [L1 [L2 L3]].
    pose proof (CR _ K2) as CK. pose proof (CR _ L2) as CL.
    assert (E1 : row (k / C) = row (l / C)) by (clear - E CK CL; nia).
    assert (E2 : col (k mod C) = col (l mod C)) by (rewrite E1 in E; clear - E; lia).
    apply RI in E1; [|exact K1|exact L1]. apply CI in E2; [|exact K2|exact L2]. rewrite K3, L3, E1, E2. reflexivity.
Qed.

(** ** the Bloom filter's shared flag: the answer is the same for every schedule although the iterations race on it *)
Definition second_part (i : nat) : prog bool := Rd (1, i) (fun b : bool => if b then Done else Wr (0, 0) false Done).
Definition contain_inv (n : nat) (m : memory bool) (st : list (prog bool) * memory bool) : Prop :=
  let (ps, mm) := st in
  length ps = n /\ (forall i, mm (1, i) = m (1, i)) /\
  (mm (0, 0) = true -> m (0, 0) = true) /\
  (mm (0, 0) = false -> m (0, 0) = false \/ exists i, i < n /\ m (1, i) = false) /\
  forall i p, nth_error ps i = Some p ->
    p = contain_body i \/ p = second_part i \/ (p = Wr (0, 0) false Done /\ m (1, i) = false) \/ (p = Done /\ (m (1, i) = true \/ mm (0, 0) = false)).
Lemma contain_step : forall n m st i, contain_inv n m st -> contain_inv n m (step st i).
Proof.
  intros n m [ps mm] i [LEN [BITS [FT [FF TH]]]]. unfold step. destruct (nth_error ps i) as [p|] eqn:E; [|split; [exact LEN|split; [exact BITS|split; [exact FT|split; [exact FF|exact TH]]]]].
  assert (LI : i < length ps) by (apply nth_error_Some; congruence).
  assert (UPD : forall q, (q = contain_body i \/ q = second_part i \/ (q = Wr (0, 0) false Done /\ m (1, i) = false) \/ (q = Done /\ (m (1, i) = true \/ mm (0, 0) = false))) -> contain_inv n m (upd ps i q, mm)).
  { intros q Q. split; [rewrite upd_length; exact LEN|]. split; [exact BITS|]. split; [exact FT|]. split; [exact FF|]. intros j r J. destruct (Nat.eq_dec j i) as [->|D].
    - rewrite nth_error_upd_same in J by exact LI. assert (r = q) by congruence. subst r. exact Q.
    - rewrite nth_error_upd_other in J by congruence. apply TH. exact J. }
  destruct (TH i p E) as [->|[->|[[-> B]|[-> B]]]].
  - cbn [contain_body]. apply UPD. destruct (mm (0, 0)) eqn:FL; [right; left; reflexivity|right; right; right; split; [reflexivity|right; reflexivity]].
  - cbn [second_part]. apply UPD. rewrite BITS. destruct (m (1, i)) eqn:FL; [right; right; right; split; [reflexivity|left; reflexivity]|right; right; left; split; reflexivity].
  - assert (Z : setm mm (0, 0) false (0, 0) = false) by apply setm_same.
    split; [rewrite upd_length; exact LEN|]. split; [intros j; rewrite setm_other by discriminate; apply BITS|]. rewrite Z. split; [discriminate|].
    split; [intros _; right; exists i; split; [rewrite <- LEN; exact LI|exact B]|]. intros j r J. destruct (Nat.eq_dec j i) as [->|D].
    + rewrite nth_error_upd_same in J by exact LI. assert (r = Done) by congruence. subst r. right. right. right. split; [reflexivity|right; reflexivity].
    + rewrite nth_error_upd_other in J by congruence. destruct (TH j r J) as [X|[X|[X|[X _]]]]; [left; exact X|right; left; exact X|right; right; left; exact X|right; right; right; split; [exact X|right; reflexivity]].
  - split; [exact LEN|]. split; [exact BITS|]. split; [exact FT|]. split; [exact FF|exact TH].
Qed.
Theorem C121_contain : forall n m sched, finished (fst (exec sched (contain_loop n, m))) ->
  snd (exec sched (contain_loop n, m)) (0, 0) = m (0, 0) && forallb (fun i => m (1, i)) (seq 0 n).
Proof.
  intros n m sched F.
  assert (I0 : contain_inv n m (contain_loop n, m)).
  { split; [unfold contain_loop; rewrite map_length, seq_length; reflexivity|]. split; [reflexivity|]. split; [auto|]. split; [auto|]. intros i p E. apply loop_nth in E. left. apply E. }
  assert (I1 : forall s st, contain_inv n m st -> contain_inv n m (exec s st)).
  { induction s as [|i s IH]; intros st I; [exact I|]. unfold exec. cbn [fold_left]. apply IH. apply contain_step. exact I. }
  specialize (I1 sched _ I0). destruct (exec sched (contain_loop n, m)) as [ps mm]. cbn [fst snd] in *. destruct I1 as [LEN [_ [FT [FF TH]]]].
  destruct (mm (0, 0)) eqn:FL; symmetry.
  - rewrite (FT eq_refl). cbn [andb]. apply forallb_forall. intros i I. apply in_seq in I. destruct (nth_error ps i) as [p|] eqn:E; [|apply nth_error_None in E; clear - I E LEN; lia].
    assert (PD : p = Done) by (apply F; apply nth_error_In with (n := i); exact E).
    destruct (TH i p E) as [X|[X|[[X _]|[_ [X|X]]]]]; [rewrite PD in X; discriminate|rewrite PD in X; discriminate|rewrite PD in X; discriminate|exact X|discriminate].
  - destruct (FF eq_refl) as [X|[i [LI X]]]; [rewrite X; reflexivity|]. apply andb_false_iff. right.
    destruct (forallb (fun i => m (1, i)) (seq 0 n)) eqn:A; [|reflexivity]. rewrite forallb_forall in A. assert (I : In i (seq 0 n)) by (apply in_seq; clear - LI; lia). specialize (A i I). congruence.
Qed.

(** ** but the flag is raced on: one iteration is about to write it while another is about to read it *)
Theorem C121_contain_race_refuted : exists n m sched i j p q c, i <> j /\
  nth_error (fst (exec sched (contain_loop n, m))) i = Some p /\ nth_error (fst (exec sched (contain_loop n, m))) j = Some q /\
  next_write p = Some c /\ next_read q = Some c.
Proof.
  exists 2, (fun c => negb (Nat.eqb (fst c) 1)), [0; 0], 0, 1. do 2 eexists. exists (0, 0).
  split; [discriminate|]. split; [reflexivity|]. split; [reflexivity|]. split; reflexivity.
Qed.

(** ** what the hypotheses exclude: an index written twice, and bits or-ed into one byte without "atomic" *)
Theorem C121_not_injective_refuted : exists (pi : nat -> nat) n (m : memory nat) s1 s2,
  let loop := pointwise_loop [0] 1 pi (fun l => hd 0 l) n in
  finished (fst (exec s1 (loop, m))) /\ finished (fst (exec s2 (loop, m))) /\ snd (exec s1 (loop, m)) (1, 0) <> snd (exec s2 (loop, m)) (1, 0).
Proof.
  exists (fun _ => 0), 2, (fun c => snd c + 5), [0; 0; 1; 1], [1; 1; 0; 0]. cbn. split; [|split; [|discriminate]]; intros p [<-|[<-|[]]]; reflexivity.
Qed.
Theorem C121_lost_bit_refuted : forall a b : N, N.lor a b <> a -> N.lor a b <> b ->
  exists s1 s2, let loop := [or_body a; or_body b] in let m := fun _ : cell => 0%N in
  finished (fst (exec s1 (loop, m))) /\ finished (fst (exec s2 (loop, m))) /\
  snd (exec s1 (loop, m)) (0, 0) = N.lor a b /\ snd (exec s2 (loop, m)) (0, 0) <> N.lor a b.
Proof.
  intros a b NA NB. exists [0; 0; 1; 1], [0; 1; 0; 1]. cbv beta zeta delta [exec]. cbn [fold_left step nth_error or_body upd fst snd].
  split; [intros p [<-|[<-|[]]]; reflexivity|]. split; [intros p [<-|[<-|[]]]; reflexivity|]. rewrite !setm_same. split; [reflexivity|]. rewrite N.lor_0_l. congruence.
Qed.

(** ** instances *)
Definition rot3 (i : nat) : nat := match i with 0 => 2 | 1 => 0 | _ => 1 end.
Definition m3 : memory nat := fun c => 10 * fst c + snd c.
Example C121_pointwise_run : separate [0] 1 rot3 3 /\ injective rot3 3 /\
  let loop := pointwise_loop [0] 1 rot3 (fun l => hd 0 l + 100) 3 in let s := [2; 0; 1; 1; 0; 2] in
  finished (fst (exec s (loop, m3))) /\ map (fun j => snd (exec s (loop, m3)) (1, j)) [0; 1; 2; 3] = [101; 102; 100; 13].
Proof.
  split; [left; intros [X|[]]; discriminate|]. split.
  - intros i j LI LJ. destruct i as [|[|[|i]]], j as [|[|[|j]]]; cbn; lia.
  - cbn. split; [|reflexivity]. intros p [<-|[<-|[<-|[]]]]; reflexivity.
Qed.
Example C121_bounded_run : let loop := pointwise_loop [0] 1 rot3 (fun l => hd 0 l + 100) 3 in
  total loop m3 = 6 /\ effective [2; 0; 1; 1; 0; 2] (loop, m3) = 6 /\ effective [2; 2; 2; 0] (loop, m3) = 3.
Proof. cbn. repeat split. Qed.
Example C121_grid_run : map (grid_map 3 (fun i => 1 - i) rot3) (seq 0 6) = [5; 3; 4; 2; 0; 1].
Proof. reflexivity. Qed.
Definition m8 : memory N := fun c => if Nat.odd (fst c) then 0%N else N.of_nat (3 + fst c).
Example C121_packing_run : let loop := packing_loop 2 2 2 in let s := concat (repeat [0; 1] 12) in
  finished (fst (exec s (loop, m8))) /\ map (fun j => snd (exec s (loop, m8)) (2 * j + 1, 0)) [0; 1; 2; 3] = [3; 1; 2; 0]%N.
Proof. vm_compute. split; [|reflexivity]. intros p [<-|[<-|[]]]; reflexivity. Qed.
(** locations 9 and 3 in row 0, 10 and 4 in row 1, both rows holding 0xff and 0x02 *)
Definition mrows : memory N := fun c => match fst c mod 3 with
  | 0 => N.of_nat (fst c / 3 + (if Nat.eqb (snd c) 0 then 9 else 3)) | 1 => if Nat.eqb (snd c) 0 then 255%N else 2%N | _ => 0%N end.
Example C121_mapping_run : let loop := mapping_loop 2 15 2 in let s := concat (repeat [1; 0] 8) in
  finished (fst (exec s (loop, mrows))) /\ map (fun i => snd (exec s (loop, mrows)) (3 * i + 2, 0)) [0; 1] = [3; 2]%N.
Proof. vm_compute. split; [|reflexivity]. intros p [<-|[<-|[]]]; reflexivity. Qed.
Example C121_clearing_run : let loop := clearing_loop 2 15 2 in let s := concat (repeat [1; 0] 6) in
  finished (fst (exec s (loop, mrows))) /\ map (fun i => (snd (exec s (loop, mrows)) (3 * i + 1, 0), snd (exec s (loop, mrows)) (3 * i + 1, 1))) [0; 1] = [(247, 0); (239, 2)]%N.
Proof. vm_compute. split; [|reflexivity]. intros p [<-|[<-|[]]]; reflexivity. Qed.
Example C121_slices_run : let loop := slice_loop 0 1 2 (fun v j => v * 10 + j) 2 in let s := [1; 0; 1; 0; 0; 1] in
  finished (fst (exec s (loop, m3))) /\ map (fun j => snd (exec s (loop, m3)) (1, j)) [0; 1; 2; 3; 4] = [0; 1; 10; 11; 14].
Proof. cbn. split; [|reflexivity]. intros p [<-|[<-|[]]]; reflexivity. Qed.
Example C121_table_run : let key := fun P : pt G11 => Z.to_N (proj1_sig P) in let g := pmul G11 (pgen G11) 3 in
  let m := fun c : cell => if Nat.eqb (fst c) 0 then inl (pmul G11 g (Z.of_nat (snd c * 2))) else inr 77%N in let s := [1; 0; 1; 0; 0; 1] in
  (forall i, i < 2 -> m (0, i) = inl (pmul G11 g (Z.of_nat (i * 2)))) /\
  finished (fst (exec s (table_loop G11 key g 2 2, m))) /\
  map (fun j => snd (exec s (table_loop G11 key g 2 2, m)) (1, j)) [0; 1; 2; 3; 4] = [inr 0; inr 3; inr 6; inr 9; inr 77]%N.
Proof. cbv zeta. split; [reflexivity|]. split; [|vm_compute; reflexivity]. vm_compute. intros p [<-|[<-|[]]]; reflexivity. Qed.
Example C121_contain_run : let m := fun c : cell => negb (cell_eqb c (1, 1)) in let s := [0; 1; 2; 1; 0; 2; 1] in
  finished (fst (exec s (contain_loop 3, m))) /\ snd (exec s (contain_loop 3, m)) (0, 0) = false.
Proof. cbn. split; [|reflexivity]. intros p [<-|[<-|[<-|[]]]]; reflexivity. Qed.

Print Assumptions C121_schedule.
Print Assumptions C121_no_race.
Print Assumptions C121_finishes.
Print Assumptions C121_pointwise.
Print Assumptions C121_slices.
Print Assumptions C121_own_index.
Print Assumptions C121_permuted.
Print Assumptions C121_contain.
Print Assumptions C121_not_injective_refuted.
Print Assumptions C121_lost_bit_refuted.
Print Assumptions C121_contain_race_refuted.
Print Assumptions C121_grid.
Print Assumptions C121_owner.
Print Assumptions C121_packing.
Print Assumptions C121_mapping.
Print Assumptions C121_clearing.
Print Assumptions C121_packing_transposed.
Print Assumptions C121_mapping_value.
Print Assumptions C121_clearing_value.
Print Assumptions C121_table.
Print Assumptions C121_bounded.

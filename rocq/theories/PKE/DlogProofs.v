From Coq Require Import NArith ZArith List Lia Bool Arith Permutation.
From Coq Require Import ZifyBool ZifyNat ZifyN.
From Verif.Base Require Import Words ListX.
From Verif.Utility Require Import SerialModel SerialProofs.
From Verif.Crypto Require Import BigIntModel BigIntSpec BigIntProofs.
From Verif.Group Require Import ECModel ECProofs.
From Verif.PKE Require Import DlogModel DlogSpec.
Import ListNotations.
Local Open Scope nat_scope.

Lemma pow2_nz : forall n, 2 ^ n <> 0.
Proof. intros n. apply Nat.pow_nonzero. lia. Qed.

Lemma check_facts : forall R T, CheckDlogParameters R T = true ->
  SLICED_BABYSTEP_NUM R T * BUILD_TASK_NUM = BABYSTEP_NUM R T /\
  SLICED_GIANTSTEP_NUM R T * SEARCH_TASK_NUM = GIANTSTEP_NUM R T /\
  0 < SLICED_BABYSTEP_NUM R T /\ 0 < SLICED_GIANTSTEP_NUM R T /\ T <= R / 2.
Proof.
  intros R T C. unfold CheckDlogParameters in C.
  destruct (Nat.ltb_spec (R / 2) T); [discriminate|].
  destruct (Nat.ltb_spec (R / 2 + T) LOG_TASK_NUM); [discriminate|].
  destruct (Nat.ltb_spec (R / 2 - T) LOG_TASK_NUM); [discriminate|].
  unfold SLICED_BABYSTEP_NUM, SLICED_GIANTSTEP_NUM, BABYSTEP_NUM, GIANTSTEP_NUM, BUILD_TASK_NUM, SEARCH_TASK_NUM.
  assert (X : forall n, LOG_TASK_NUM <= n -> 2 ^ n / 2 ^ LOG_TASK_NUM = 2 ^ (n - LOG_TASK_NUM)).
  { intros n Hn. replace n with ((n - LOG_TASK_NUM) + LOG_TASK_NUM) at 1 by lia.
    rewrite Nat.pow_add_r. apply Nat.div_mul. apply pow2_nz. }
  rewrite !X by assumption. rewrite <- !Nat.pow_add_r.
  pose proof (pow2_nz (R / 2 + T - LOG_TASK_NUM)). pose proof (pow2_nz (R / 2 - T - LOG_TASK_NUM)).
  split; [f_equal; lia|]. split; [f_equal; lia|]. split; [lia|]. split; [lia|assumption].
Qed.

Lemma covered_pow : forall R T, T <= R / 2 -> covered R T = (2 ^ Z.of_nat (2 * (R / 2)))%Z.
Proof.
  intros R T H. unfold covered, BABYSTEP_NUM, GIANTSTEP_NUM.
  rewrite <- Nat2Z.inj_mul, <- Nat.pow_add_r, Nat2Z.inj_pow. f_equal. f_equal. lia.
Qed.

Section P.
Variable G : ECGroup.
Variable key : pt G -> N.
Local Infix "+p" := (padd G) (at level 50, left associativity).
Local Notation "P *p k" := (pmul G P k%Z) (at level 40, left associativity).
Local Notation q := (order G).

(** ** building the table *)
Lemma BuildSliced_length : forall n g sp si buf,
  length (BuildSlicedKeyTable G key g sp si n buf) = length buf.
Proof.
  induction n as [|n IH]; intros; cbn [BuildSlicedKeyTable]; [reflexivity|].
  rewrite IH, upd_length. reflexivity.
Qed.

Lemma BuildSliced_nth : forall n g s si buf i, si + n <= length buf ->
  nth i (BuildSlicedKeyTable G key g (g *p Z.of_nat s) si n buf) 0%N
  = if (si <=? i) && (i <? si + n) then key (g *p Z.of_nat (s + (i - si))) else nth i buf 0%N.
Proof.
  induction n as [|n IH]; intros g s si buf i L; cbn [BuildSlicedKeyTable].
  - destruct (Nat.leb_spec si i), (Nat.ltb_spec i (si + 0)); cbn [andb]; auto; lia.
  - replace (g *p Z.of_nat s +p g) with (g *p Z.of_nat (S s))
      by (rewrite Nat2Z.inj_succ, <- Z.add_1_r; apply pmul_succ).
    rewrite IH by (rewrite upd_length; lia).
    destruct (Nat.eq_dec i si) as [->|Ne].
    + destruct (Nat.leb_spec (S si) si); [lia|]. cbn [andb].
      rewrite nth_upd_same by lia.
      destruct (Nat.leb_spec si si); [|lia]. destruct (Nat.ltb_spec si (si + S n)); [|lia].
      cbn [andb]. rewrite Nat.sub_diag, Nat.add_0_r. reflexivity.
    + rewrite nth_upd_other by lia.
      destruct (Nat.leb_spec (S si) i), (Nat.leb_spec si i), (Nat.ltb_spec i (S si + n)),
        (Nat.ltb_spec i (si + S n)); cbn [andb]; try lia; auto.
      do 2 f_equal. f_equal. lia.
Qed.

Lemma build_tasks_length : forall sched g R T buf,
  length (build_tasks G key g R T sched buf) = length buf.
Proof.
  induction sched as [|i r IH]; intros; cbn [build_tasks]; [reflexivity|].
  rewrite IH. apply BuildSliced_length.
Qed.

Lemma build_tasks_nth : forall sched g R T buf i,
  (forall t, In t sched -> (S t) * SLICED_BABYSTEP_NUM R T <= length buf) ->
  nth i (build_tasks G key g R T sched buf) 0%N
  = if existsb (fun t => (t * SLICED_BABYSTEP_NUM R T <=? i) && (i <? S t * SLICED_BABYSTEP_NUM R T)) sched
    then key (g *p Z.of_nat i) else nth i buf 0%N.
Proof.
  induction sched as [|t r IH]; intros g R T buf i L; cbn [build_tasks existsb]; [reflexivity|].
  set (n := SLICED_BABYSTEP_NUM R T) in *.
  assert (Lt : S t * n <= length buf) by (apply L; left; reflexivity).
  rewrite IH by (rewrite BuildSliced_length; intros t' I; apply L; right; exact I). fold n.
  rewrite BuildSliced_nth by lia.
  assert (En : t * n + n = S t * n) by lia. rewrite En.
  destruct ((t * n <=? i) && (i <? S t * n)) eqn:E1; cbn [orb].
  - assert (X : t * n + (i - t * n) = i) by lia. rewrite X.
    match goal with |- (if ?b then _ else _) = _ => destruct b; reflexivity end.
  - reflexivity.
Qed.

Lemma babystep_keys_spec : forall g R T sched, CheckDlogParameters R T = true -> build_schedule sched ->
  babystep_keys G key g R T sched = map (fun i => key (g *p Z.of_nat i)) (seq 0 (BABYSTEP_NUM R T)).
Proof.
  intros g R T sched C P. destruct (check_facts R T C) as [HB [_ [Hp _]]].
  unfold babystep_keys.
  apply list_eq_nth with (d := 0%N).
  - rewrite build_tasks_length, repeat_length, map_length, seq_length. reflexivity.
  - intros i Hi. rewrite build_tasks_length, repeat_length in Hi.
    rewrite build_tasks_nth.
    + rewrite nth_map' with (d := 0) by (rewrite seq_length; exact Hi).
      rewrite seq_nth by exact Hi. rewrite Nat.add_0_l.
      set (n := SLICED_BABYSTEP_NUM R T) in *.
      replace (existsb _ sched) with true; [reflexivity|]. symmetry. apply existsb_exists.
      exists (i / n). split.
      * apply (Permutation_in _ (Permutation_sym P)). apply in_seq.
        split; [apply Nat.le_0_l|]. rewrite Nat.add_0_l. apply Nat.div_lt_upper_bound; [lia|]. rewrite HB. exact Hi.
      * pose proof (Nat.div_mod i n ltac:(lia)). pose proof (Nat.mod_upper_bound i n ltac:(lia)).
        apply andb_true_intro. split; [apply Nat.leb_le|apply Nat.ltb_lt]; nia.
    + intros t I. rewrite repeat_length. apply (Permutation_in _ P) in I. apply in_seq in I.
      rewrite <- HB, Nat.mul_comm. apply Nat.mul_le_mono_l. lia.
Qed.

(** ** loading *)
Lemma load_keys_find : forall keys i m k,
  hfind (load_keys keys i m) k =
  match find (fun j => (nth j keys 0 =? k)%N) (rev (seq 0 (length keys))) with
  | Some j => Some (i + j)
  | None => hfind m k
  end.
Proof.
  induction keys as [|x keys IH]; intros i m k; cbn [load_keys length]; [reflexivity|].
  rewrite IH. cbn [seq]. rewrite <- seq_shift. cbn [rev].
  rewrite <- map_rev.
  assert (X : forall l, find (fun j => (nth j (x :: keys) 0 =? k)%N) (map S l ++ [0])
    = match find (fun j => (nth j keys 0 =? k)%N) l with
      | Some j => Some (S j) | None => if (x =? k)%N then Some 0 else None end).
  { induction l as [|a l IHl]; cbn [map app find nth].
    - reflexivity.
    - destruct (nth a keys 0 =? k)%N; auto. }
  rewrite X. destruct (find _ (rev (seq 0 (length keys)))) as [j|].
  - f_equal. lia.
  - cbn [hset hfind]. rewrite (N.eqb_sym k x). destruct (x =? k)%N; [f_equal; lia|reflexivity].
Qed.

Lemma load_keys_sound : forall keys m k b, hfind m k = None ->
  hfind (load_keys keys 0 m) k = Some b -> b < length keys /\ nth b keys 0%N = k.
Proof.
  intros keys m k b E H. rewrite load_keys_find in H.
  destruct (find _ _) as [j|] eqn:F; [|congruence].
  inversion H; subst. apply find_some in F. destruct F as [I F]. apply in_rev, in_seq in I.
  cbn [Nat.add]. split; [lia|]. apply N.eqb_eq. exact F.
Qed.

Lemma load_keys_complete : forall keys m b, b < length keys ->
  exists b', hfind (load_keys keys 0 m) (nth b keys 0%N) = Some b' /\
             b' < length keys /\ nth b' keys 0%N = nth b keys 0%N.
Proof.
  intros keys m b L. rewrite load_keys_find.
  destruct (find _ _) as [j|] eqn:F.
  - apply find_some in F. destruct F as [I F]. apply in_rev, in_seq in I. apply N.eqb_eq in F.
    exists j. split; [reflexivity|]. split; [lia|exact F].
  - exfalso. pose proof (find_none _ _ F b) as N. cbv beta in N. rewrite N.eqb_refl in N.
    discriminate N. apply in_rev. rewrite rev_involutive. apply in_seq. lia.
Qed.

Lemma load_keys_other : forall keys m k, ~ In k keys -> hfind (load_keys keys 0 m) k = hfind m k.
Proof.
  intros keys m k N. rewrite load_keys_find. destruct (find _ _) as [j|] eqn:F; [|reflexivity].
  exfalso. apply find_some in F. destruct F as [I F]. apply in_rev, in_seq in I. apply N.eqb_eq in F.
  apply N. rewrite <- F. apply nth_In. lia.
Qed.

Lemma load_keys_nonempty : forall keys i m, keys <> [] -> load_keys keys i m <> [].
Proof.
  assert (X : forall keys i m, m <> [] -> load_keys keys i m <> []).
  { induction keys as [|k r IH]; intros i m H; cbn [load_keys]; [exact H|]. apply IH. discriminate. }
  intros [|k r] i m H; [congruence|]. cbn [load_keys]. apply X. discriminate.
Qed.

Lemma read_points_keep : forall gb v old rest,
  length gb = 65 -> length old = length v ->
  (forall i, i < length v -> nth i v (inf G) = inf G -> nth i old (inf G) = inf G) ->
  read_points G old (write_points G gb v ++ rest) = Some (v, rest).
Proof.
  induction v as [|P v IH]; intros [|o old] rest Lg L H; try discriminate;
    cbn [read_points write_points]; [reflexivity|].
  rewrite <- app_assoc.
  assert (E : read_point G o (write_point G gb P ++ write_points G gb v ++ rest)
              = Some (P, write_points G gb v ++ rest)).
  { destruct (peqb_spec G P (inf G)) as [EP|NP].
    - subst P. rewrite read_write_point_inf by exact Lg.
      specialize (H 0 ltac:(cbn; lia) eq_refl). cbn in H.
      rewrite H. reflexivity.
    - apply read_write_point. exact NP. }
  rewrite E. rewrite IH; [reflexivity|exact Lg|cbn in L; lia|].
  intros i Hi. apply (H (S i)). cbn. lia.
Qed.

Lemma anchor_nth : forall g R T i, i < SEARCH_TASK_NUM ->
  nth i (anchors_of G g R T) (inf G)
  = g *p (- (Z.of_nat i * Z.of_nat (SLICED_GIANTSTEP_NUM R T) * Z.of_nat (BABYSTEP_NUM R T))).
Proof.
  intros g R T i H. unfold anchors_of.
  rewrite nth_map' with (d := 0) by (rewrite seq_length; exact H).
  rewrite seq_nth by exact H. rewrite Nat.add_0_l. unfold giantstep_of.
  rewrite <- pmul_neg, !pmul_mul. f_equal. ring.
Qed.

Lemma mul_not_inf : forall g k, g <> inf G -> (0 < k < q)%Z -> g *p k <> inf G.
Proof.
  intros g k F H E. rewrite <- (pmul_0 G g) in E. apply pmul_inj in E; [|exact F].
  apply (range_not_0 G k); [lia|exact E].
Qed.

(** what the globals are after loading the table of base [g] *)
Record loaded (g : pt G) (R T : nat) (st : dstate G) : Prop := {
  ld_giant : giantstep G st = giantstep_of G g R T;
  ld_anchors : anchors G st = anchors_of G g R T;
  ld_sound : forall k b, hfind (index_map G st) k = Some b ->
             b < BABYSTEP_NUM R T /\ key (g *p Z.of_nat b) = k;
  ld_complete : forall b, b < BABYSTEP_NUM R T ->
             exists b', hfind (index_map G st) (key (g *p Z.of_nat b)) = Some b';
  ld_nonempty : index_map G st <> []
}.

Lemma table_file_length : forall gb g R T sched, CheckDlogParameters R T = true -> length gb = 65 ->
  length (table_file G key gb g R T sched) = BABYSTEP_NUM R T * 8 + (SEARCH_TASK_NUM + 1) * 65.
Proof.
  intros gb g R T sched C L. unfold table_file.
  assert (P : forall P, length (write_point G gb P) = 65).
  { intros P. unfold write_point. destruct (peqb G P (inf G)); [|apply unc65_length].
    cbn [length]. rewrite skipn_length, L. reflexivity. }
  assert (Ps : forall v, length (write_points G gb v) = 65 * length v).
  { induction v as [|x v IH]; cbn [write_points length]; [reflexivity|].
    rewrite app_length, P, IH. lia. }
  rewrite !app_length, P, Ps. unfold write_vec. rewrite vec_bytes_length.
  unfold babystep_keys. rewrite build_tasks_length, repeat_length.
  unfold anchors_of. rewrite map_length, seq_length. lia.
Qed.

Lemma LoadTable_build : forall gb st g R T sched,
  CheckDlogParameters R T = true -> build_schedule sched -> length gb = 65 ->
  (forall P, (key P < 2 ^ 64)%N) -> g <> inf G -> (covered R T <= q)%Z ->
  anchor0_ok G st ->
  LoadTable G st (table_file G key gb g R T sched) R T =
  Some {| giantstep := giantstep_of G g R T; anchors := anchors_of G g R T;
          index_map := load_keys (map (fun i => key (g *p Z.of_nat i)) (seq 0 (BABYSTEP_NUM R T))) 0
                                 (index_map G st) |}.
Proof.
  intros gb st g R T sched C P Lg K64 Fg Cov A0.
  destruct (check_facts R T C) as [HB [HG [Pb [Pg _]]]].
  unfold LoadTable. rewrite table_file_length by assumption. rewrite Nat.eqb_refl.
  unfold table_file. rewrite babystep_keys_spec by assumption.
  set (keys := map _ (seq 0 (BABYSTEP_NUM R T))).
  assert (Lk : length keys = BABYSTEP_NUM R T) by (unfold keys; rewrite map_length, seq_length; reflexivity).
  assert (Fk : Forall (fun x => (x < 256 ^ N.of_nat 8)%N) keys).
  { unfold keys. apply Forall_forall. intros x I. apply in_map_iff in I. destruct I as [i [<- _]]. apply K64. }
  unfold read_vec. rewrite repeat_length.
  rewrite fin_read_app by (unfold write_vec; rewrite vec_bytes_length, Lk; reflexivity).
  unfold write_vec. rewrite <- Lk, bytes_vec_bytes by exact Fk.
  assert (Hpos : (0 < Z.of_nat (BABYSTEP_NUM R T))%Z)
    by (pose proof (pow2_nz (R / 2 + T)); unfold BABYSTEP_NUM; lia).
  assert (Gpos : (1 < Z.of_nat (GIANTSTEP_NUM R T))%Z).
  { rewrite <- HG. unfold SEARCH_TASK_NUM, LOG_TASK_NUM. cbn [Nat.pow]. lia. }
  assert (Fgs : giantstep_of G g R T <> inf G).
  { unfold giantstep_of. rewrite <- pmul_neg. intros E.
    apply (mul_not_inf g (Z.of_nat (BABYSTEP_NUM R T)) Fg).
    - unfold covered in Cov. nia.
    - rewrite pmul_neg in E. apply pneg_eq_inf. exact E. }
  rewrite read_write_point by exact Fgs.
  rewrite <- (app_nil_r (write_points G gb (anchors_of G g R T))).
  rewrite read_points_keep; [reflexivity|exact Lg| |].
  - unfold resize. rewrite app_length, firstn_length, repeat_length.
    unfold anchors_of. rewrite map_length, seq_length. lia.
  - assert (La : length (anchors_of G g R T) = SEARCH_TASK_NUM)
      by (unfold anchors_of; rewrite map_length, seq_length; reflexivity).
    rewrite La. intros i Hi E. rewrite anchor_nth in E by exact Hi.
    destruct i as [|i].
    + unfold resize, anchor0_ok in *. destruct (anchors G st) as [|a l].
      * reflexivity.
      * subst a. reflexivity.
    + exfalso. rewrite pmul_neg in E.
      set (k := (Z.of_nat (S i) * Z.of_nat (SLICED_GIANTSTEP_NUM R T) * Z.of_nat (BABYSTEP_NUM R T))%Z) in *.
      apply (mul_not_inf g k Fg).
      * unfold covered in Cov. rewrite <- HG in Cov. subst k.
        assert (Z.of_nat (S i) < Z.of_nat SEARCH_TASK_NUM)%Z by lia.
        rewrite Nat2Z.inj_mul in Cov. nia.
      * apply pneg_eq_inf. exact E.
Qed.

(** ** the parallel search, under every interleaving *)
Section Search.
Variables (st : dstate G) (g h : pt G) (R T : nat) (x0 : Z).
Hypothesis LG : giantstep G st = giantstep_of G g R T.
Hypothesis LA : anchors G st = anchors_of G g R T.
Hypothesis CK : CheckDlogParameters R T = true.

Local Notation SL := (SLICED_GIANTSTEP_NUM R T).
Local Notation BABY := (BABYSTEP_NUM R T).

(** the point tested in giant step [k] (over all tasks) *)
Definition tgt (k : nat) : pt G := psub G h (g *p (Z.of_nat k * Z.of_nat BABY)).
Definition hit (i j b : nat) : Prop := j < SL /\ hfind (index_map G st) (key (tgt (i * SL + j))) = Some b.
Definition hitval (i j b : nat) : Z :=
  (Z.of_nat b + (Z.of_nat j + Z.of_nat i * Z.of_nat SL) * Z.of_nat BABY)%Z.
Definition miss (i j : nat) : Prop := hfind (index_map G st) (key (tgt (i * SL + j))) = None.
(** [x] is the value some successful task computes *)
Definition hit_result (x : Z) : Prop := exists i j b, i < SEARCH_TASK_NUM /\ hit i j b /\ x = hitval i j b.

Lemma tgt_start : forall i, i < SEARCH_TASK_NUM -> h +p nth i (anchors G st) (inf G) = tgt (i * SL + 0).
Proof.
  intros i Hi. rewrite LA, anchor_nth by exact Hi. unfold tgt, psub.
  rewrite pmul_neg. do 3 f_equal. rewrite Nat.add_0_r, Nat2Z.inj_mul. ring.
Qed.

Lemma tgt_next : forall k, tgt k +p giantstep G st = tgt (S k).
Proof.
  intros k. rewrite LG. unfold tgt, giantstep_of, psub.
  rewrite <- padd_assoc. f_equal. rewrite <- !pmul_neg, <- pmul_add. f_equal.
  rewrite Nat2Z.inj_succ. ring.
Qed.

Definition task_ok (s : search G) (i : nat) (t : task G) : Prop :=
  match t with
  | Idle _ => True
  | Searching _ target j => j <= SL /\ target = tgt (i * SL + j) /\ forall j', j' < j -> miss i j'
  | Hit _ b j => hit i j b
  | Wrote _ => hit_result (xval G s)
  | Done _ => FIND G s = true \/ forall j', j' < SL -> miss i j'
  end.

Definition Inv (s : search G) : Prop :=
  length (tasks G s) = SEARCH_TASK_NUM /\
  (FIND G s = true -> hit_result (xval G s)) /\
  (FIND G s = false -> xval G s = x0 \/ Exists (fun t => t = Wrote G) (tasks G s)) /\
  forall i t, nth_error (tasks G s) i = Some t -> task_ok s i t.

Lemma Inv0 : Inv (search0 G x0).
Proof.
  unfold search0. split; [|split; [|split]]; cbn [tasks FIND xval].
  - apply repeat_length.
  - discriminate.
  - auto.
  - intros i t E. apply nth_error_In, repeat_spec in E. subst t. exact I.
Qed.

Lemma task_ok_mono : forall s s' i t,
  (FIND G s = true -> FIND G s' = true) ->
  (xval G s' = xval G s \/ hit_result (xval G s')) ->
  task_ok s i t -> task_ok s' i t.
Proof.
  intros s s' i t F X O. destruct t as [|target j|b j| |]; cbn [task_ok] in *; auto.
  - destruct X as [->|X]; auto.
  - destruct O as [O|O]; auto.
Qed.

Lemma Exists_upd_other : forall (l : list (task G)) i t0 t,
  nth_error l i = Some t0 -> t0 <> Wrote G ->
  Exists (fun t => t = Wrote G) l -> Exists (fun t => t = Wrote G) (upd l i t).
Proof.
  induction l as [|a l IH]; intros i t0 t E N X; [inversion X|].
  destruct i as [|i]; cbn [upd nth_error] in *.
  - inversion E; subst. inversion X; subst; [congruence|]. right. assumption.
  - inversion X; subst; [left; reflexivity|]. right. apply (IH i t0); assumption.
Qed.

Lemma Exists_upd_here : forall (l : list (task G)) i, i < length l ->
  Exists (fun t => t = Wrote G) (upd l i (Wrote G)).
Proof.
  induction l as [|a l IH]; intros i H; cbn [length] in H; [lia|].
  destruct i as [|i]; cbn [upd]; [left; reflexivity|]. right. apply IH. lia.
Qed.

Lemma Inv_step : forall s i, Inv s -> Inv (search_step G key st h R T s i).
Proof.
  intros s i [L [IF [IX IT]]]. unfold search_step.
  destruct (nth_error (tasks G s) i) as [t|] eqn:E; [|unfold Inv; auto].
  assert (Hi : i < length (tasks G s)) by (apply nth_error_Some; congruence).
  pose proof (IT i t E) as O.
  assert (CASE : forall f x t',
    (FIND G s = true -> f = true) ->
    (x = xval G s \/ hit_result x) ->
    (f = true -> hit_result x) ->
    (f = false -> x = x0 \/ Exists (fun t => t = Wrote G) (upd (tasks G s) i t')) ->
    task_ok {| FIND := f; xval := x; tasks := upd (tasks G s) i t' |} i t' ->
    Inv {| FIND := f; xval := x; tasks := upd (tasks G s) i t' |}).
  { intros f x t' HF HX HR HN HT. split; [|split; [|split]]; cbn [tasks FIND xval].
    - rewrite upd_length. exact L.
    - exact HR.
    - exact HN.
    - intros k u Eu. destruct (Nat.eq_dec i k) as [<-|Ne].
      + rewrite nth_error_upd_same in Eu by exact Hi. inversion Eu; subst u. exact HT.
      + rewrite nth_error_upd_other in Eu by exact Ne.
        apply task_ok_mono with (s := s); cbn [FIND xval]; auto. }
  assert (KEEP : forall t', t <> Wrote G -> FIND G s = false ->
    xval G s = x0 \/ Exists (fun t => t = Wrote G) (upd (tasks G s) i t')).
  { intros t' Nt F. destruct (IX F) as [X|X]; [left; exact X|right].
    apply (Exists_upd_other _ _ t); assumption. }
  destruct t as [|target j|b j| |]; cbn [task_step task_ok] in *.
  - destruct (FIND G s) eqn:F.
    + apply CASE; auto; [discriminate|]. cbn [task_ok FIND]. auto.
    + apply CASE; auto.
      * intros _. apply KEEP; [discriminate|reflexivity].
      * cbn [task_ok]. split; [lia|]. split; [|intros; lia]. apply tgt_start. lia.
  - destruct O as [Hj [-> Hm]].
    destruct (Nat.ltb_spec j SL) as [Lj|Lj].
    + destruct (FIND G s) eqn:F.
      * apply CASE; auto; [discriminate|]. cbn [task_ok FIND]. auto.
      * destruct (hfind (index_map G st) (key (tgt (i * SL + j)))) as [b|] eqn:H.
        -- apply CASE; auto.
           ++ intros _. apply KEEP; [discriminate|reflexivity].
           ++ cbn [task_ok]. split; assumption.
        -- apply CASE; auto.
           ++ intros _. apply KEEP; [discriminate|reflexivity].
           ++ cbn [task_ok]. split; [lia|]. split.
              ** rewrite tgt_next. f_equal. lia.
              ** intros j' Hj'. destruct (Nat.eq_dec j' j) as [->|]; [exact H|apply Hm; lia].
    + apply CASE; auto.
      * intros F. apply KEEP; [discriminate|exact F].
      * cbn [task_ok FIND]. right. intros j' Hj'. apply Hm. lia.
  - assert (HR : hit_result (hitval i j b)) by (exists i, j, b; split; [lia|]; auto).
    apply CASE; auto.
    intros _. right. apply Exists_upd_here. exact Hi.
  - apply CASE; auto; [discriminate|]. cbn [task_ok FIND]. auto.
  - apply CASE; auto.
    intros F. apply KEEP; [discriminate|exact F].
Qed.

Lemma Inv_run : forall sched, Inv (run G key st h R T x0 sched).
Proof.
  intros sched. unfold run. generalize Inv0. generalize (search0 G x0).
  induction sched as [|i r IH]; intros s H; cbn [fold_left]; [exact H|].
  apply IH, Inv_step, H.
Qed.

(** what a finished run reports *)
Lemma run_result : forall sched, finished G (run G key st h R T x0 sched) = true ->
  let s := run G key st h R T x0 sched in
  (FIND G s = true -> hit_result (xval G s)) /\
  (FIND G s = false -> xval G s = x0 /\ forall i j, i < SEARCH_TASK_NUM -> j < SL -> miss i j).
Proof.
  intros sched F. cbv zeta. destruct (Inv_run sched) as [L [IF [IX IT]]].
  set (s := run G key st h R T x0 sched) in *. split; [exact IF|]. intros NF. split.
  - destruct (IX NF) as [X|X]; [exact X|]. exfalso. unfold finished in F.
    rewrite forallb_forall in F. apply Exists_exists in X. destruct X as [t [I ->]].
    specialize (F _ I). discriminate.
  - intros i j Hi Hj. destruct (nth_error (tasks G s) i) as [t|] eqn:E.
    + pose proof (IT i t E) as O. unfold finished in F. rewrite forallb_forall in F.
      specialize (F t (nth_error_In _ _ E)). destruct t; try discriminate. cbn [task_ok] in O.
      destruct O as [O|O]; [congruence|]. apply O. exact Hj.
    + apply nth_error_None in E. lia.
Qed.

(** ** soundness and completeness when the keys separate the compared points *)
Hypothesis LD : loaded g R T st.
Hypothesis SEP : keys_separate G key g h R T.

Lemma split_index : forall k, k < GIANTSTEP_NUM R T ->
  exists i j, i < SEARCH_TASK_NUM /\ j < SL /\ k = i * SL + j.
Proof.
  intros k Hk. destruct (check_facts R T CK) as [_ [HG [_ [Pg _]]]].
  exists (k / SL), (k mod SL).
  split; [apply Nat.div_lt_upper_bound; [lia|]; rewrite HG; exact Hk|].
  split; [apply Nat.mod_upper_bound; lia|].
  pose proof (Nat.div_mod k SL ltac:(lia)). lia.
Qed.

Lemma index_bound : forall i j, i < SEARCH_TASK_NUM -> j < SL -> i * SL + j < GIANTSTEP_NUM R T.
Proof.
  intros i j Hi Hj. destruct (check_facts R T CK) as [_ [HG _]]. rewrite <- HG.
  assert (S i * SL <= SEARCH_TASK_NUM * SL) by (apply Nat.mul_le_mono_r; lia).
  rewrite (Nat.mul_comm SL). lia.
Qed.

Lemma hit_is_dlog : forall x, hit_result x -> is_dlog G g h x /\ (0 <= x < covered R T)%Z.
Proof.
  intros x [i [j [b [Hi [[Hj Hb] ->]]]]].
  destruct (ld_sound _ _ _ _ LD _ _ Hb) as [Bb Kb].
  pose proof (index_bound i j Hi Hj) as Bk.
  pose proof (SEP (i * SL + j) b Bk Bb (eq_sym Kb)) as E.
  split.
  - unfold is_dlog, hitval. rewrite pmul_add, <- E. unfold psub. rewrite <- padd_assoc.
    replace (Z.of_nat (i * SL + j) * Z.of_nat BABY)%Z
      with ((Z.of_nat j + Z.of_nat i * Z.of_nat SL) * Z.of_nat BABY)%Z by lia.
    rewrite padd_neg_l. apply padd_inf.
  - unfold hitval, covered.
    assert (Z.of_nat j + Z.of_nat i * Z.of_nat SL = Z.of_nat (i * SL + j))%Z as -> by lia. nia.
Qed.

Lemma dlog_is_hit : forall x, is_dlog G g h x -> (0 <= x < covered R T)%Z ->
  exists i j b, i < SEARCH_TASK_NUM /\ hit i j b.
Proof.
  intros x D B. unfold covered in B.
  assert (Hpos : (0 < Z.of_nat BABY)%Z)
    by (pose proof (pow2_nz (R / 2 + T)); unfold BABYSTEP_NUM; lia).
  set (k := Z.to_nat (x / Z.of_nat BABY)). set (b := Z.to_nat (x mod Z.of_nat BABY)).
  pose proof (Z.mod_pos_bound x (Z.of_nat BABY) Hpos) as Mb.
  assert (Db : (0 <= x / Z.of_nat BABY < Z.of_nat (GIANTSTEP_NUM R T))%Z).
  { split; [apply Z.div_pos; lia|]. apply Z.div_lt_upper_bound; lia. }
  assert (Hk : k < GIANTSTEP_NUM R T) by (subst k; lia).
  assert (Hb : b < BABY) by (subst b; lia).
  destruct (split_index k Hk) as [i [j [Hi [Hj Ek]]]].
  assert (Et : tgt (i * SL + j) = g *p Z.of_nat b).
  { unfold tgt. rewrite <- Ek, <- D. unfold psub. rewrite <- pmul_neg, <- pmul_add. f_equal.
    subst k b. rewrite !Z2Nat.id by lia. pose proof (Z.div_mod x (Z.of_nat BABY)). lia. }
  destruct (ld_complete _ _ _ _ LD b Hb) as [b' Hb'].
  exists i, j, b'. split; [exact Hi|]. split; [exact Hj|]. rewrite Et. exact Hb'.
Qed.

Lemma search_correct : forall sched, finished G (run G key st h R T x0 sched) = true ->
  exists found x, ShanksDLOG G key st h R T x0 sched = Some (found, x) /\
    (found = true -> is_dlog G g h x /\ (0 <= x < covered R T)%Z) /\
    (found = false -> x = x0 /\ forall y, (0 <= y < covered R T)%Z -> ~ is_dlog G g h y).
Proof.
  intros sched F. pose proof (run_result sched F) as [S N]. cbv zeta in S, N.
  unfold ShanksDLOG. destruct (index_map G st) eqn:E; [exfalso; apply (ld_nonempty _ _ _ _ LD); exact E|].
  exists (FIND G (run G key st h R T x0 sched)), (xval G (run G key st h R T x0 sched)).
  split; [reflexivity|]. split.
  - intros Fd. apply hit_is_dlog, S, Fd.
  - intros Fd. destruct (N Fd) as [X M]. split; [exact X|].
    intros y B D. destruct (dlog_is_hit y D B) as [i [j [b [Hi [Hj Hb]]]]].
    specialize (M i j Hi Hj). unfold miss in M. rewrite E in *. congruence.
Qed.
End Search.

(** ** every sufficiently long schedule finishes *)
Section Term.
Variables (st : dstate G) (h : pt G) (R T : nat).
Local Notation SL := (SLICED_GIANTSTEP_NUM R T).

Definition rank (t : task G) : nat :=
  match t with
  | Idle _ => SL + 4
  | Searching _ _ j => 3 + (SL - j)
  | Hit _ _ _ => 2
  | Wrote _ => 1
  | Done _ => 0
  end.

Lemma task_step_rank : forall i s t f x t', task_step G key st h R T i s t = (f, x, t') ->
  rank t' < rank t \/ (rank t = 0 /\ rank t' = 0).
Proof.
  intros i s t f x t' E. destruct t as [|target j|b j| |]; cbn [task_step] in E.
  - destruct (FIND G s); inversion E; subst; cbn [rank]; lia.
  - destruct (Nat.ltb_spec j SL).
    + destruct (FIND G s); [inversion E; subst; cbn [rank]; lia|].
      destruct (hfind _ _); inversion E; subst; cbn [rank]; lia.
    + inversion E; subst; cbn [rank]; lia.
  - inversion E; subst; cbn [rank]; lia.
  - inversion E; subst; cbn [rank]; lia.
  - inversion E; subst; cbn [rank]; lia.
Qed.

Lemma run_rank : forall sched s i t, nth_error (tasks G s) i = Some t ->
  exists t', nth_error (tasks G (fold_left (search_step G key st h R T) sched s)) i = Some t' /\
             rank t' + count_occ Nat.eq_dec sched i <= Nat.max (rank t) (count_occ Nat.eq_dec sched i).
Proof.
  induction sched as [|a r IH]; intros s i t E; cbn [fold_left count_occ].
  - exists t. split; [exact E|lia].
  - unfold search_step at 2. destruct (nth_error (tasks G s) a) as [ta|] eqn:Ea.
    + destruct (task_step G key st h R T a s ta) as [[f x] t'] eqn:S.
      destruct (Nat.eq_dec a i) as [->|Ne].
      * assert (ta = t) by congruence. subst ta.
        edestruct (IH {| FIND := f; xval := x; tasks := upd (tasks G s) i t' |} i t') as [u [Eu Ru]].
        { cbn [tasks]. apply nth_error_upd_same. apply nth_error_Some. congruence. }
        exists u. split; [exact Eu|]. pose proof (task_step_rank _ _ _ _ _ _ S). lia.
      * edestruct (IH {| FIND := f; xval := x; tasks := upd (tasks G s) a t' |} i t) as [u [Eu Ru]].
        { cbn [tasks]. rewrite nth_error_upd_other by exact Ne. exact E. }
        exists u. split; [exact Eu|lia].
    + destruct (Nat.eq_dec a i) as [->|Ne]; [congruence|].
      destruct (IH s i t E) as [u [Eu Ru]]. exists u. split; [exact Eu|lia].
Qed.

Lemma run_length : forall sched s, length (tasks G (fold_left (search_step G key st h R T) sched s)) = length (tasks G s).
Proof.
  induction sched as [|a r IH]; intros s; cbn [fold_left]; [reflexivity|].
  rewrite IH. unfold search_step. destruct (nth_error (tasks G s) a); [|reflexivity].
  destruct (task_step G key st h R T a s t) as [[f x] t']. cbn [tasks]. apply upd_length.
Qed.

Lemma run_finishes : forall x0 sched,
  (forall i, i < SEARCH_TASK_NUM -> SL + 4 <= count_occ Nat.eq_dec sched i) ->
  finished G (run G key st h R T x0 sched) = true.
Proof.
  intros x0 sched H. unfold finished. apply forallb_forall. intros t I.
  apply In_nth_error in I. destruct I as [i E].
  assert (Hi : i < SEARCH_TASK_NUM).
  { assert (L : i < length (tasks G (run G key st h R T x0 sched))) by (apply nth_error_Some; congruence).
    unfold run in L. rewrite run_length in L. cbn [search0 tasks] in L. rewrite repeat_length in L. exact L. }
  destruct (run_rank sched (search0 G x0) i (Idle G)) as [u [Eu Ru]].
  { cbn [search0 tasks]. apply nth_error_repeat. exact Hi. }
  unfold run in E. rewrite Eu in E. inversion E; subst u. cbn [rank] in Ru.
  specialize (H i Hi). assert (rank t = 0) by lia.
  destruct t; cbn [rank is_done] in *; try reflexivity; lia.
Qed.
End Term.

(** ** loading *)
Lemma keys_nth : forall g n b, b < n ->
  nth b (map (fun i => key (g *p Z.of_nat i)) (seq 0 n)) 0%N = key (g *p Z.of_nat b).
Proof.
  intros g n b H. rewrite nth_map' with (d := 0) by (rewrite seq_length; exact H).
  rewrite seq_nth by exact H. reflexivity.
Qed.

(** the state after loading, when what was in the map before came from the same base *)
Lemma loaded_after : forall gb st st' g R T sched,
  CheckDlogParameters R T = true -> build_schedule sched -> length gb = 65 ->
  (forall P, (key P < 2 ^ 64)%N) -> g <> inf G -> (covered R T <= q)%Z ->
  anchor0_ok G st ->
  (forall k b, hfind (index_map G st) k = Some b -> b < BABYSTEP_NUM R T /\ key (g *p Z.of_nat b) = k) ->
  LoadTable G st (table_file G key gb g R T sched) R T = Some st' ->
  loaded g R T st' /\ anchor0_ok G st'.
Proof.
  intros gb st st' g R T sched C P Lg K Fg Cov A0 Old E.
  rewrite LoadTable_build in E by assumption. inversion E; subst st'; clear E.
  set (keys := map _ (seq 0 (BABYSTEP_NUM R T))).
  assert (Lk : length keys = BABYSTEP_NUM R T) by (unfold keys; rewrite map_length, seq_length; reflexivity).
  split; [split; cbn [giantstep anchors index_map]|].
  - reflexivity.
  - reflexivity.
  - intros k b H. rewrite load_keys_find in H.
    destruct (find _ _) as [j|] eqn:F; [|apply Old; exact H].
    inversion H; subst. apply find_some in F. destruct F as [I F]. apply in_rev, in_seq in I.
    apply N.eqb_eq in F. cbn [Nat.add]. split; [lia|]. rewrite <- F. unfold keys.
    symmetry. apply keys_nth. lia.
  - intros b Hb. destruct (load_keys_complete keys (index_map G st) b) as [b' [H _]]; [lia|].
    unfold keys at 2 in H. rewrite keys_nth in H by exact Hb. exists b'. exact H.
  - apply load_keys_nonempty. pose proof (pow2_nz (R / 2 + T)). unfold BABYSTEP_NUM in Lk.
    destruct keys; [cbn in Lk; lia|discriminate].
  - unfold anchor0_ok. cbn [anchors]. unfold anchors_of, SEARCH_TASK_NUM, LOG_TASK_NUM.
    cbn [Nat.pow Nat.mul Nat.add seq map]. apply pmul_0.
Qed.

Lemma dlog_unique : forall g h x y, g <> inf G -> is_dlog G g h x -> is_dlog G g h y ->
  (0 <= x < q)%Z -> (0 <= y < q)%Z -> x = y.
Proof.
  intros g h x y F Dx Dy Bx By. unfold is_dlog in *. subst h. apply pmul_inj in Dy; [|exact F].
  symmetry. apply (cong_canon G); assumption.
Qed.
End P.

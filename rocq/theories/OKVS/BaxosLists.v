(** Schedules, writes and slices *)
From Coq Require Import NArith List Bool Lia Arith Permutation.
From Coq Require Import ZifyBool ZifyNat ZifyN.
From Verif Require Import Base.ListX OKVS.SparseModel OKVS.PaxosModel OKVS.BaxosModel.
Import ListNotations.

Lemma bind_inv {A B} (e : option A) (f : A -> option B) r :
  bind e f = Some r -> exists a, e = Some a /\ f a = Some r.
Proof. destruct e; [|discriminate]. eauto. Qed.

(** ** Slices *)
Lemma slice_inv {A} (l : list A) i n s : slice l i n = Some s ->
  i + n <= length l /\ s = firstn n (skipn i l) /\ length s = n.
Proof.
  unfold slice. destruct (Nat.leb_spec (i + n) (length l)); [|discriminate].
  intros H'. injection H' as <-. split; [assumption|]. split; [reflexivity|].
  rewrite firstn_length, skipn_length. lia.
Qed.
Lemma slice_ok {A} (l : list A) i n : i + n <= length l ->
  slice l i n = Some (firstn n (skipn i l)).
Proof. intros H. unfold slice. replace (i + n <=? length l) with true by lia. reflexivity. Qed.
Lemma slice_none {A} (l : list A) i n : length l < i + n -> slice l i n = None.
Proof. intros H. unfold slice. replace (i + n <=? length l) with false by lia. reflexivity. Qed.

Lemma slice_seq {A} (l : list A) d i n : i + n <= length l ->
  firstn n (skipn i l) = map (fun j => nth j l d) (seq i n).
Proof.
  intros H. apply list_eq_nth with (d := d).
  - rewrite firstn_length, skipn_length, map_length, seq_length. lia.
  - intros j Hj. rewrite firstn_length, skipn_length in Hj.
    rewrite nth_firstn_lt, nth_skipn by lia.
    rewrite nth_map' with (d := 0) by (rewrite seq_length; lia).
    rewrite nth_seq' by lia. reflexivity.
Qed.

Lemma splice_ok {A} (l : list A) i v : i + length v <= length l ->
  splice l i v = Some (firstn i l ++ v ++ skipn (i + length v) l).
Proof. intros H. unfold splice. replace (i + length v <=? length l) with true by lia. reflexivity. Qed.

Lemma slice_app {A} (a b c : list A) i n : i = length a -> n = length b ->
  slice (a ++ b ++ c) i n = Some b.
Proof.
  intros -> ->. rewrite slice_ok by (rewrite !app_length; lia).
  rewrite skipn_app_exact, firstn_app_exact. reflexivity.
Qed.

Lemma splice_app {A} (a b c v : list A) i : i = length a -> length v = length b ->
  splice (a ++ b ++ c) i v = Some (a ++ v ++ c).
Proof.
  intros -> H. rewrite splice_ok by (rewrite !app_length; lia).
  rewrite firstn_app_exact. do 3 f_equal. rewrite H.
  rewrite <- skipn_skipn', skipn_app_exact, skipn_app_exact. reflexivity.
Qed.

(** ** Schedules *)
Lemma upd_concat {A} (ws : list (list A)) : forall t w rest, nth t ws [] = w :: rest ->
  Permutation (w :: concat (upd ws t rest)) (concat ws).
Proof.
  induction ws as [|l ws IH]; intros t w rest H.
  - destruct t; discriminate.
  - destruct t as [|t]; cbn [nth upd concat] in *.
    + rewrite H. reflexivity.
    + rewrite (Permutation_middle l (concat (upd ws t rest)) w).
      apply Permutation_app_head. apply IH. exact H.
Qed.

Lemma all_nil_concat {A} (ws : list (list A)) : forallb is_nil ws = true -> concat ws = [].
Proof.
  induction ws as [|l ws IH]; [reflexivity|]. cbn [forallb concat]. intros H.
  apply andb_prop in H. destruct H as [H1 H2]. destruct l; [|discriminate]. cbn. auto.
Qed.

Lemma interleave_perm {A} : forall sched (ws : list (list A)) l,
  interleave sched ws = Some l -> Permutation l (concat ws).
Proof.
  induction sched as [|t sched IH]; intros ws l H; cbn [interleave] in H.
  - destruct (forallb is_nil ws) eqn:E; [|discriminate]. injection H as <-.
    rewrite all_nil_concat by exact E. reflexivity.
  - destruct (nth t ws []) as [|w rest] eqn:E; [discriminate|].
    apply bind_inv in H. destruct H as (r & H1 & H2). injection H2 as <-.
    rewrite (IH _ _ H1). apply upd_concat. exact E.
Qed.

(** The threads one after the other *)
Definition in_order {A} (ws : list (list A)) : list nat :=
  concat (map (fun t => repeat t (length (nth t ws []))) (seq 0 (length ws))).

Lemma interleave_one {A} : forall (l : list A) sched ws t, nth t ws [] = l ->
  interleave (repeat t (length l) ++ sched) ws
  = (r <- interleave sched (upd ws t []) ;; Some (l ++ r)).
Proof.
  induction l as [|x l IH]; intros sched ws t H.
  - cbn [length repeat app]. assert (E : upd ws t [] = ws).
    { destruct (Nat.lt_ge_cases t (length ws)) as [Ht|Ht].
      - rewrite <- H. apply upd_nth_same. exact Ht.
      - apply upd_oob. exact Ht. }
    rewrite E. destruct (interleave sched ws); reflexivity.
  - cbn [length repeat app interleave]. rewrite H.
    assert (Ht : t < length ws).
    { destruct (Nat.lt_ge_cases t (length ws)); [assumption|].
      rewrite nth_overflow in H by lia. discriminate. }
    rewrite IH by (apply nth_upd_same; exact Ht). rewrite upd_upd.
    destruct (interleave sched (upd ws t [])); reflexivity.
Qed.

Lemma interleave_in_order_from {A} : forall (l1 : list (list A)) k,
  interleave (concat (map (fun t => repeat t (length (nth t (repeat [] k ++ l1) [])))
                       (seq k (length l1)))) (repeat [] k ++ l1) = Some (concat l1).
Proof.
  induction l1 as [|l l1 IH]; intros k.
  - cbn. rewrite app_nil_r. replace (forallb is_nil (repeat (@nil A) k)) with true; [reflexivity|].
    symmetry. apply forallb_forall. intros x Hx. apply repeat_spec in Hx. subst. reflexivity.
  - cbn [length seq map concat].
    assert (N0 : nth k (repeat (@nil A) k ++ l :: l1) [] = l).
    { rewrite app_nth2; rewrite repeat_length; [|lia]. rewrite Nat.sub_diag. reflexivity. }
    rewrite N0. rewrite interleave_one by exact N0.
    assert (EU : upd (repeat (@nil A) k ++ l :: l1) k [] = repeat [] (S k) ++ l1).
    { rewrite upd_app_r; rewrite repeat_length; [|lia]. rewrite Nat.sub_diag. cbn [upd].
      replace (S k) with (k + 1) by lia. rewrite repeat_app, <- app_assoc. reflexivity. }
    rewrite EU.
    assert (EQ : map (fun t => repeat t (length (nth t (repeat [] k ++ l :: l1) []))) (seq (S k) (length l1))
               = map (fun t => repeat t (length (nth t (repeat [] (S k) ++ l1) []))) (seq (S k) (length l1))).
    { apply map_ext_in. intros t Ht. apply in_seq in Ht. f_equal. f_equal.
      rewrite <- EU, nth_upd_other by lia. reflexivity. }
    rewrite EQ, IH. reflexivity.
Qed.

Lemma interleave_in_order {A} (ws : list (list A)) :
  interleave (in_order ws) ws = Some (concat ws).
Proof. apply (interleave_in_order_from ws 0). Qed.

(** ** Writes *)
Definition agree {A} (ws : list (nat * A)) : Prop :=
  forall a v v', In (a, v) ws -> In (a, v') ws -> v = v'.

Lemma wr_ok {A} (l : list A) i v : i < length l -> wr l i v = Some (upd l i v).
Proof. intros H. unfold wr. replace (i <? length l) with true by lia. reflexivity. Qed.
Lemma wr_inv {A} (l : list A) i v r : wr l i v = Some r -> i < length l /\ r = upd l i v.
Proof.
  unfold wr. destruct (Nat.ltb_spec i (length l)); [|discriminate]. intros E. injection E as <-. auto.
Qed.

Lemma apply_writes_ok {A} : forall (ws : list (nat * A)) mem,
  (forall a v, In (a, v) ws -> a < length mem) ->
  exists mem', apply_writes ws mem = Some mem' /\ length mem' = length mem
    /\ (agree ws -> forall a v, In (a, v) ws -> nth_error mem' a = Some v)
    /\ (forall a, (forall v, ~ In (a, v) ws) -> nth_error mem' a = nth_error mem a).
Proof.
  induction ws as [|[a0 v0] ws IH]; intros mem H.
  - exists mem. cbn. repeat split; auto. intros _ a v [].
  - cbn [apply_writes]. rewrite wr_ok by (apply (H a0 v0); left; reflexivity). cbn [bind].
    destruct (IH (upd mem a0 v0)) as (mem' & E & L & C & O).
    { intros a v Hav. rewrite upd_length. apply (H a v). right. exact Hav. }
    exists mem'. split; [exact E|]. split; [rewrite L; apply upd_length|]. split.
    + intros AG a v Hav.
      assert (AG' : agree ws) by (intros x y z H1 H2; apply (AG x); right; assumption).
      destruct Hav as [Hav|Hav]; [|exact (C AG' a v Hav)].
      injection Hav as -> ->.
      destruct (in_dec (fun x y : nat => Nat.eq_dec x y) a (map fst ws)) as [I|NI].
      * apply in_map_iff in I. destruct I as ((a' & v') & Ea & I). cbn in Ea. subst a'.
        rewrite (C AG' a v' I). f_equal. apply (AG a); [right; exact I|left; reflexivity].
      * rewrite O.
        -- rewrite nth_error_upd_same; [reflexivity|]. apply (H a v). left. reflexivity.
        -- intros v' I. apply NI. apply in_map_iff. exists (a, v'). auto.
    + intros a N. rewrite O.
      * apply nth_error_upd_other. intros ->. apply (N v0). left. reflexivity.
      * intros v I. apply (N v). right. exact I.
Qed.

Lemma agree_perm {A} (ws ws' : list (nat * A)) : Permutation ws ws' -> agree ws' -> agree ws.
Proof. intros P AG a v v' H H'. apply (AG a); eapply Permutation_in; eauto. Qed.

(** ** all_some *)
Lemma all_some_inv {A} : forall (l : list (option A)) r, all_some l = Some r -> l = map Some r.
Proof.
  induction l as [|x l IH]; intros r H; cbn in H.
  - injection H as <-. reflexivity.
  - destruct x as [x|]; [|discriminate]. destruct (all_some l); [|discriminate].
    injection H as <-. cbn. f_equal. apply IH. reflexivity.
Qed.
Lemma all_some_Some {A} (l : list A) : all_some (map Some l) = Some l.
Proof. induction l as [|x l IH]; [reflexivity|]. cbn. rewrite IH. reflexivity. Qed.
Lemma all_some_none {A} : forall (l : list (option A)), In None l -> all_some l = None.
Proof.
  induction l as [|x l IH]; intros H; [destruct H|]. cbn. destruct H as [->|H]; [reflexivity|].
  destruct x; [|reflexivity]. rewrite IH by exact H. reflexivity.
Qed.

(** ** The parts of the threads *)
Lemma t_begin_0 n T : t_begin n T 0 = 0.
Proof. unfold t_begin. rewrite Nat.mul_0_r. destruct T; [reflexivity|]. apply Nat.div_0_l. lia. Qed.
Lemma t_begin_T n T : 0 < T -> t_begin n T T = n.
Proof. intros H. apply Nat.div_mul. lia. Qed.
Lemma t_begin_le n T t t' : 0 < T -> t <= t' -> t_begin n T t <= t_begin n T t'.
Proof. intros H L. unfold t_begin. apply Nat.div_le_mono; [lia|]. nia. Qed.
Lemma t_begin_S n T t : 0 < T -> t_begin n T t + t_len n T t = t_begin n T (S t).
Proof.
  intros H. unfold t_len. fold (t_begin n T (S t)).
  assert (L := t_begin_le n T t (S t) H). lia.
Qed.
Lemma t_end_le n T t : 0 < T -> t < T -> t_begin n T t + t_len n T t <= n.
Proof.
  intros H L. rewrite t_begin_S by exact H. rewrite <- (t_begin_T n T H) at 2.
  apply t_begin_le; lia.
Qed.

Lemma parts n T : 0 < T -> forall k, k <= T ->
  concat (map (fun t => seq (t_begin n T t) (t_len n T t)) (seq 0 k)) = seq 0 (t_begin n T k).
Proof.
  intros H. induction k as [|k IH]; intros L.
  - rewrite t_begin_0. reflexivity.
  - rewrite seq_S, map_app, concat_app, IH by lia. cbn [Nat.add map concat].
    rewrite app_nil_r, <- t_begin_S by exact H. rewrite seq_app. reflexivity.
Qed.
Lemma parts_all n T : 0 < T ->
  concat (map (fun t => seq (t_begin n T t) (t_len n T t)) (seq 0 T)) = seq 0 n.
Proof. intros H. rewrite parts by lia. rewrite t_begin_T by exact H. reflexivity. Qed.
(** Each of T threads has at least k keys if there are k*T keys. *)
Lemma t_len_ge n T t k : 0 < T -> k * T <= n -> k <= t_len n T t.
Proof.
  intros H L. assert (S1 := t_begin_S n T t H).
  assert (t_begin n T t + k <= t_begin n T (S t)); [|lia].
  unfold t_begin. rewrite <- Nat.div_add by lia. apply Nat.div_le_mono; [lia|]. nia.
Qed.

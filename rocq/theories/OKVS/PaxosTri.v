(** [triangulate]: every row ends in the triangle or among the gap rows. *)
From Coq Require Import NArith List Bool Lia Arith.
From Coq Require Import ZifyBool ZifyNat ZifyN.
From Verif Require Import Base.ListX OKVS.SparseModel.
From Verif Require Import OKVS.PaxosModel OKVS.PaxosLists OKVS.PaxosSet.
Import ListNotations.

Lemma filter_less r : forall (f f' : nat -> bool) l,
  NoDup l -> f r = true -> f' r = false -> (forall x, x <> r -> f' x = f x) ->
  length (filter f' l) = length (filter f l) - (if mem r l then 1 else 0)
  /\ (In r l -> length (filter f l) <> 0).
Proof.
  intros f f' l ND H1 H2 H3.
  assert (NI : forall l, ~ In r l -> filter f' l = filter f l).
  { induction l0 as [|x l0 IH]; intros N; [reflexivity|]. cbn [filter].
    rewrite H3 by (intros ->; apply N; left; reflexivity).
    rewrite IH by (intros X; apply N; right; exact X). reflexivity. }
  induction ND as [|x l NIx ND IH]; [split; [reflexivity|contradiction]|].
  cbn [filter]. destruct (Nat.eq_dec x r) as [->|N].
  - rewrite H1, H2, NI by exact NIx. cbn [mem existsb]. rewrite Nat.eqb_refl. cbn [orb length].
    split; [lia|intros _; lia].
  - rewrite H3 by exact N. destruct IH as [IH1 IH2].
    assert (M : mem r (x :: l) = mem r l).
    { cbn [mem existsb]. destruct (Nat.eqb_spec r x); [congruence|]. reflexivity. }
    rewrite M. split.
    + destruct (f x); cbn [length]; [|exact IH1].
      destruct (mem r l) eqn:E; [|lia].
      apply mem_In in E. specialize (IH2 E). lia.
    + intros [X|X]; [congruence|]. specialize (IH2 X). destruct (f x); cbn [length]; lia.
Qed.

Section Tri.
Variables (m : nat) (rs : list (list nat)) (ds : list N).
Hypothesis RO : rows_ok m rs.
Hypothesis Lds : length ds = length rs.
Notation n := (length rs).
Notation row r := (nth r rs []).
Notation col c := (col_of c 0 rs).

Lemma col_In c r : In r (col c) <-> r < n /\ In c (row r).
Proof. clear RO Lds. rewrite col_of_In, Nat.sub_0_r. intuition lia. Qed.

Lemma row_ok r : NoDup (row r) /\ Forall (fun c => c < m) (row r).
Proof.
  destruct (Nat.ltb_spec r n) as [L|L].
  - unfold rows_ok in RO. rewrite Forall_forall in RO. apply RO. apply nth_In. exact L.
  - rewrite nth_overflow by exact L. split; constructor.
Qed.

(** The number of rows with this column that are not signed *)
Definition W (sign : list bool) (c : nat) : nat :=
  length (filter (fun r => negb (nth r sign true)) (col c)).

Lemma W_sign sign r c :
  r < length sign -> r < n -> nth r sign true = false ->
  W (upd sign r true) c = W sign c - (if mem c (row r) then 1 else 0)
  /\ (In c (row r) -> W sign c <> 0).
Proof.
  intros L Ln H. unfold W.
  destruct (filter_less r (fun x => negb (nth x sign true))
              (fun x => negb (nth x (upd sign r true) true)) (col c) (col_of_NoDup c rs 0))
    as [A B].
  - rewrite H. reflexivity.
  - rewrite nth_upd_same by exact L. reflexivity.
  - intros x N. rewrite nth_upd_other by auto. reflexivity.
  - split.
    + rewrite A. f_equal. destruct (mem c (row r)) eqn:E.
      * apply mem_In in E. rewrite (proj2 (mem_In r (col c))); [reflexivity|].
        apply col_In. auto.
      * apply mem_false in E. rewrite (proj2 (mem_false r (col c))); [reflexivity|].
        intros X. apply col_In in X. tauto.
    + intros I. apply B. apply col_In. auto.
Qed.

Lemma W_zero sign c r :
  length sign = n -> W sign c = 0 -> r < n -> In c (row r) -> nth r sign true = true.
Proof.
  intros L H Hr Hc. destruct (nth r sign true) eqn:E; [reflexivity|exfalso].
  unfold W in H. apply length_zero_iff_nil in H.
  assert (X : In r (filter (fun r => negb (nth r sign true)) (col c))).
  { apply filter_In. split; [apply col_In; auto|]. rewrite E. reflexivity. }
  rewrite H in X. contradiction.
Qed.

Record tinv (P : list nat) (t : tri) : Prop := {
  ti_len : length (t_sign t) = n;
  ti_sign : forall r, r < n -> (nth r (t_sign t) true = true <-> In r (t_rows t ++ t_gap t));
  ti_nodup : NoDup (t_rows t ++ t_gap t);
  ti_lt : Forall (fun r => r < n) (t_rows t ++ t_gap t);
  ti_cols : length (t_cols t) = length (t_rows t);
  ti_gf : length (t_gap_first t) = length (t_gap t);
  ti_gfin : incl (t_gap_first t) (t_rows t);
  ti_lists : linv m (fun c => if mem c P then 0 else W (t_sign t) c) P (t_lists t);
  ti_ndc : NoDup (t_cols t);
  ti_ltc : Forall (fun c => c < m) (t_cols t);
  ti_tri : forall i, i < length (t_rows t) ->
     In (nth i (t_cols t) 0) (row (nth i (t_rows t) 0));
  ti_tri2 : forall i j, i < j -> j < length (t_rows t) ->
     ~ In (nth i (t_cols t) 0) (row (nth j (t_rows t) 0)) }.

Definition cleared (cols : list nat) (sign : list bool) : Prop :=
  forall c r, In c cols -> r < n -> In c (row r) -> nth r sign true = true.

Lemma new_row P t r : tinv P t -> r < n -> ~ In r (t_rows t ++ t_gap t) ->
  S (length (t_rows t)) <= n.
Proof.
  intros T Hr NI.
  assert (X : length (r :: t_rows t ++ t_gap t) <= length (seq 0 n)).
  { apply NoDup_incl_length.
    - constructor; [exact NI|apply T].
    - intros x [<-|Hx]; apply in_seq; [lia|].
      assert (F := ti_lt _ _ T). rewrite Forall_forall in F. specialize (F x Hx). lia. }
  rewrite seq_length in X. cbn [length] in X. rewrite app_length in X. lia.
Qed.

Lemma NoDup_snoc_mid (a b : list nat) x :
  NoDup (a ++ b) -> ~ In x (a ++ b) -> NoDup ((a ++ [x]) ++ b).
Proof.
  intros ND NI. rewrite <- app_assoc. cbn [app].
  apply NoDup_Add with (a := x) (l := a ++ b); [apply Add_app|]. auto.
Qed.
Lemma NoDup_snoc (a : list nat) x : NoDup a -> ~ In x a -> NoDup (a ++ [x]).
Proof.
  intros ND NI. rewrite <- (app_nil_r (a ++ [x])). apply NoDup_snoc_mid; rewrite app_nil_r; assumption.
Qed.

Definition duplicate : Prop :=
  exists r r', r <> r' /\ r < n /\ r' < n /\ nth r ds 0%N = nth r' ds 0%N.

Lemma column_rows_spec min cols0 : ~ In min cols0 -> min < m -> NoDup cols0 ->
  forall (l : list nat) (first : bool) (t : tri),
  tinv (min :: cols0) t -> cleared cols0 (t_sign t) ->
  t_cols t = cols0 ++ (if first then [] else [min]) ->
  (forall r, In r l -> r < n /\ In min (row r)) ->
  match column_rows rs ds min l first t with
  | None => m < n + 2 \/ duplicate
  | Some t' => exists first' : bool, tinv (min :: cols0) t' /\ cleared cols0 (t_sign t')
      /\ t_cols t' = cols0 ++ (if first' then [] else [min])
      /\ (forall r, nth r (t_sign t) true = true -> nth r (t_sign t') true = true)
      /\ (forall r, In r l -> nth r (t_sign t') true = true)
      /\ (first = false -> first' = false)
      /\ (forall r, In r l -> nth r (t_sign t) true = false -> first' = false)
  end.
Proof.
  intros NImin Hmin NDc. induction l as [|r l IH]; intros first t T C Ec Hl.
  - cbn [column_rows]. exists first. split; [exact T|]. split; [exact C|]. split; [exact Ec|].
    split; [auto|]. split; [intros r []|]. split; [auto|intros r []].
  - cbn [column_rows].
    destruct (Hl r (or_introl eq_refl)) as [Hr Hmr].
    assert (Hl' : forall r, In r l -> r < n /\ In min (row r))
      by (intros x Hx; apply Hl; right; exact Hx).
    rewrite (rd_nth (t_sign t) r true) by (rewrite (ti_len _ _ T); exact Hr). cbn [bind].
    destruct (nth r (t_sign t) true) eqn:Es.
    + assert (X := IH first t T C Ec Hl'). destruct (column_rows rs ds min l first t) as [t'|]; [|exact X].
      destruct X as (f' & X1 & X2 & X3 & X4 & X5 & X6 & X7). exists f'.
      split; [exact X1|]. split; [exact X2|]. split; [exact X3|]. split; [exact X4|].
      split; [intros x [<-|Hx]; auto|]. split; [exact X6|].
      intros x [<-|Hx]; [congruence|apply X7; exact Hx].
    + rewrite wr_ok by (rewrite (ti_len _ _ T); exact Hr). cbn [bind].
      rewrite (rd_nth rs r [] Hr). cbn [bind].
      destruct (row_ok r) as [NDr Fr].
      assert (NIr : ~ In r (t_rows t ++ t_gap t)).
      { intros X. apply (ti_sign _ _ T r Hr) in X. congruence. }
      assert (Ls : r < length (t_sign t)) by (rewrite (ti_len _ _ T); exact Hr).
      assert (LC := lower_cols_spec m (min :: cols0) (row r) _ (t_lists t) (ti_lists _ _ T) NDr Fr).
      assert (Sm := new_row _ _ _ T Hr NIr).
      assert (Lc : length cols0 + (if first then 0 else 1) = length (t_rows t)).
      { rewrite <- (ti_cols _ _ T), Ec, app_length. destruct first; reflexivity. }
      destruct (lower_cols (row r) (t_lists t)) as [s'|]; cbn [bind].
      2:{ left. assert (X : exhausted m (min :: cols0)).
          { apply LC.
            - intros c _ I. rewrite (proj2 (mem_In c _) I). reflexivity.
            - intros c I NI. rewrite (proj2 (mem_false c _) NI).
              apply (W_sign (t_sign t) r c Ls Hr Es). exact I. }
          apply exhausted_small in X. cbn [length] in X. destruct first; lia. }
      assert (LI : linv m (fun c => if mem c (min :: cols0) then 0 else W (upd (t_sign t) r true) c)
                        (min :: cols0) s').
      { eapply linv_ext; [| |apply LC]; [|tauto| |].
        - intros c Hc. cbn beta. destruct (mem c (min :: cols0)) eqn:E.
          + destruct (in_dec Nat.eq_dec c (row r)); reflexivity.
          + rewrite (proj1 (W_sign (t_sign t) r c Ls Hr Es)).
            destruct (in_dec Nat.eq_dec c (row r)) as [I|I].
            * rewrite (proj2 (mem_In c _) I). reflexivity.
            * rewrite (proj2 (mem_false c _) I). lia.
        - intros c _ I. rewrite (proj2 (mem_In c _) I). reflexivity.
        - intros c I NI. rewrite (proj2 (mem_false c _) NI).
          apply (W_sign (t_sign t) r c Ls Hr Es). exact I. }
      assert (SG : forall x, nth x (upd (t_sign t) r true) true = true <->
                             x = r \/ nth x (t_sign t) true = true).
      { intros x. destruct (Nat.eq_dec x r) as [->|N].
        - rewrite nth_upd_same by exact Ls. tauto.
        - rewrite nth_upd_other by auto. tauto. }
      assert (CL : cleared cols0 (upd (t_sign t) r true)).
      { intros c x I Hx Ix. apply SG. right. apply (C c x); assumption. }
      assert (Nfirst : t_rows t <> [] -> In (last (t_rows t) 0) (t_rows t)).
      { intros X. destruct (exists_last X) as (q & y & ->). rewrite last_last.
        apply in_or_app. right. left. reflexivity. }
      destruct first.
      * (* a new row of the triangle *)
        rewrite app_nil_r in Ec. rewrite Nat.add_0_r in Lc.
        set (t1 := {| t_sign := _; t_lists := _; t_rows := _; t_cols := _; t_gap := _; t_gap_first := _ |}).
        assert (T1 : tinv (min :: cols0) t1).
        { constructor; unfold t1; cbn [t_sign t_lists t_rows t_cols t_gap t_gap_first].
          - rewrite upd_length. apply T.
          - intros x Hx. rewrite SG, (ti_sign _ _ T x Hx), !in_app_iff. cbn [In]. intuition congruence.
          - apply NoDup_snoc_mid; [apply T|exact NIr].
          - assert (F := ti_lt _ _ T). rewrite !Forall_app in *.
            destruct F as [F1 F2]. repeat split; auto.
          - rewrite !app_length. cbn [length]. rewrite (ti_cols _ _ T). reflexivity.
          - apply T.
          - intros x Hx. apply in_or_app. left. apply (ti_gfin _ _ T). exact Hx.
          - exact LI.
          - apply NoDup_snoc; [apply T|rewrite Ec; exact NImin].
          - apply Forall_app. split; [apply T|]. constructor; [exact Hmin|constructor].
          - intros i Hi. rewrite app_length in Hi. cbn [length] in Hi.
            destruct (Nat.eq_dec i (length (t_rows t))) as [->|N].
            + rewrite (app_nth2 (t_rows t)), Nat.sub_diag by lia.
              rewrite <- (ti_cols _ _ T). rewrite app_nth2, Nat.sub_diag by lia. exact Hmr.
            + rewrite (app_nth1 (t_rows t)) by lia. rewrite app_nth1 by (rewrite (ti_cols _ _ T); lia).
              apply T. lia.
          - intros i j Hij Hj. rewrite app_length in Hj. cbn [length] in Hj.
            rewrite (app_nth1 (t_cols t)) by (rewrite (ti_cols _ _ T); lia).
            destruct (Nat.eq_dec j (length (t_rows t))) as [->|N].
            + rewrite app_nth2, Nat.sub_diag by lia. cbn [nth]. intros X.
              assert (Y : nth r (t_sign t) true = true); [|congruence].
              apply (C (nth i (t_cols t) 0) r); [|exact Hr|exact X].
              rewrite <- Ec. apply nth_In. rewrite (ti_cols _ _ T). lia.
            + rewrite app_nth1 by lia. apply T; lia. }
        assert (X := IH false t1 T1 CL).
        destruct (column_rows rs ds min l false t1) as [t'|].
        -- destruct X as (f' & X1 & X2 & X3 & X4 & X5 & X6 & X7).
           { unfold t1. cbn [t_cols]. rewrite Ec. reflexivity. }
           { exact Hl'. }
           exists f'. split; [exact X1|]. split; [exact X2|]. split; [exact X3|].
           unfold t1 in X4, X7. cbn [t_sign] in X4, X7.
           split; [intros x Hx; apply X4; apply SG; right; exact Hx|].
           split; [intros x [<-|Hx]; [apply X4, SG; left; reflexivity|apply X5; exact Hx]|].
           split; [discriminate|]. intros x _ _. apply X6. reflexivity.
        -- apply X; [unfold t1; cbn [t_cols]; rewrite Ec; reflexivity|exact Hl'].
      * (* a gap row *)
        assert (NE : t_rows t <> []).
        { intros X. rewrite X in Lc. cbn [length] in Lc. lia. }
        specialize (Nfirst NE). set (f := last (t_rows t) 0) in *.
        assert (Fn : f < n).
        { assert (F := ti_lt _ _ T). rewrite Forall_forall in F. apply F.
          apply in_or_app. left. exact Nfirst. }
        cbn zeta.
        rewrite (rd_nth ds r 0%N) by (rewrite Lds; exact Hr). cbn [bind].
        rewrite (rd_nth ds f 0%N) by (rewrite Lds; exact Fn). cbn [bind].
        destruct (N.eqb_spec (nth r ds 0%N) (nth f ds 0%N)) as [Ed|Nd].
        { right. exists r, f. repeat split; try assumption.
          intros X. apply NIr. rewrite X. apply in_or_app. left. exact Nfirst. }
        set (t1 := {| t_sign := _; t_lists := _; t_rows := _; t_cols := _; t_gap := _; t_gap_first := _ |}).
        assert (T1 : tinv (min :: cols0) t1).
        { constructor; unfold t1; cbn [t_sign t_lists t_rows t_cols t_gap t_gap_first].
          - rewrite upd_length. apply T.
          - intros x Hx. rewrite SG, (ti_sign _ _ T x Hx), !in_app_iff. cbn [In]. intuition congruence.
          - rewrite app_assoc. apply NoDup_snoc; [apply T|exact NIr].
          - rewrite app_assoc. apply Forall_app. split; [apply T|]. constructor; [exact Hr|constructor].
          - apply T.
          - rewrite !app_length. cbn [length]. rewrite (ti_gf _ _ T). reflexivity.
          - intros x Hx. apply in_app_or in Hx. destruct Hx as [Hx|[<-|[]]]; [|exact Nfirst].
            apply (ti_gfin _ _ T). exact Hx.
          - exact LI.
          - apply T.
          - apply T.
          - apply T.
          - apply T. }
        assert (X := IH false t1 T1 CL).
        destruct (column_rows rs ds min l false t1) as [t'|].
        -- destruct X as (f' & X1 & X2 & X3 & X4 & X5 & X6 & X7).
           { exact Ec. }
           { exact Hl'. }
           exists f'. split; [exact X1|]. split; [exact X2|]. split; [exact X3|].
           unfold t1 in X4, X7. cbn [t_sign] in X4, X7.
           split; [intros x Hx; apply X4; apply SG; right; exact Hx|].
           split; [intros x [<-|Hx]; [apply X4, SG; left; reflexivity|apply X5; exact Hx]|].
           split; [exact X6|]. intros x _ _. apply X6. reflexivity.
        -- apply X; [exact Ec|exact Hl'].
Qed.

Lemma cols_bound P t : tinv P t -> length (t_cols t) <= m.
Proof.
  intros T. rewrite <- (seq_length m 0). apply NoDup_incl_length; [apply T|].
  intros c Hc. apply in_seq. assert (F := ti_ltc _ _ T). rewrite Forall_forall in F.
  specialize (F c Hc). lia.
Qed.

Lemma tri_loop_spec o : rows o = rs -> dense o = ds ->
  (forall c, c < m -> column o c = Some (col c)) ->
  forall fuel t,
  tinv (t_cols t) t -> cleared (t_cols t) (t_sign t) ->
  m < fuel + length (t_cols t) ->
  match tri_loop fuel o t with
  | None => m < n + 2 \/ duplicate
  | Some t' => tinv (t_cols t') t' /\ cleared (t_cols t') (t_sign t')
               /\ length (snd (t_lists t')) <= 1
  end.
Proof.
  intros Er Ed Hcol. induction fuel as [|fuel IH]; intros t T C Fu.
  - assert (B := cols_bound _ _ T). lia.
  - cbn [tri_loop]. destruct (Nat.ltb_spec 1 (length (snd (t_lists t)))) as [L|L].
    2:{ split; [exact T|]. split; assumption. }
    assert (FP := find_pop_min_spec _ _ _ _ (ti_lists _ _ T) L).
    assert (Un : forall c, c < m -> (if mem c (t_cols t) then 0 else W (t_sign t) c) <> 0 ->
                 exists r, In r (col c) /\ nth r (t_sign t) true = false).
    { intros c Hc H. destruct (mem c (t_cols t)); [congruence|]. unfold W in H.
      destruct (filter (fun r => negb (nth r (t_sign t) true)) (col c)) as [|r l] eqn:E;
        [cbn in H; congruence|].
      assert (X : In r (filter (fun r => negb (nth r (t_sign t) true)) (col c)))
        by (rewrite E; left; reflexivity).
      apply filter_In in X. destruct X as [X1 X2]. exists r. split; [exact X1|].
      destruct (nth r (t_sign t) true); [discriminate|reflexivity]. }
    destruct (find_pop_min_node (t_lists t)) as [[c s']|]; cbn [bind].
    2:{ left. apply exhausted_small in FP.
        rewrite (ti_cols _ _ T) in FP.
        assert (X := ti_nodup _ _ T). assert (F := ti_lt _ _ T).
        assert (Y : length (t_rows t ++ t_gap t) <= length (seq 0 n)).
        { apply NoDup_incl_length; [exact X|]. intros r Hr. rewrite Forall_forall in F.
          specialize (F r Hr). apply in_seq. lia. }
        rewrite seq_length, app_length in Y. lia. }
    destruct FP as (Hc & NI & NZ & LI). rewrite (Hcol c Hc). cbn [bind].
    rewrite Er, Ed.
    set (t1 := {| t_sign := t_sign t; t_lists := s'; t_rows := t_rows t; t_cols := t_cols t;
                  t_gap := t_gap t; t_gap_first := t_gap_first t |}).
    assert (T1 : tinv (c :: t_cols t) t1).
    { constructor; unfold t1; cbn [t_sign t_lists t_rows t_cols t_gap t_gap_first]; try apply T.
      eapply linv_ext; [| |exact LI]; [|tauto].
      intros x _. cbn [mem existsb]. destruct (Nat.eqb_spec x c) as [->|]; reflexivity. }
    assert (CR := column_rows_spec c (t_cols t) NI Hc (ti_ndc _ _ T) (col c) true t1 T1 C).
    destruct (column_rows rs ds c (col c) true t1) as [t2|]; cbn [bind].
    + destruct CR as (f' & X1 & X2 & X3 & X4 & X5 & X6 & X7).
      { unfold t1. cbn [t_cols]. rewrite app_nil_r. reflexivity. }
      { intros r Hr. apply col_In. exact Hr. }
      destruct (Un c Hc NZ) as (r & Hr & Hs).
      assert (f' = false) by (apply (X7 r Hr Hs)). subst f'.
      apply IH.
      * destruct X1. constructor; try assumption.
        eapply linv_ext; [| |eassumption].
        -- intros x _. cbn beta. rewrite X3. 
           destruct (mem x (c :: t_cols t)) eqn:E1, (mem x (t_cols t ++ [c])) eqn:E2; try reflexivity.
           ++ apply mem_In in E1. apply mem_false in E2. exfalso. apply E2. apply in_or_app.
              destruct E1 as [<-|E1]; [right; left; reflexivity|left; exact E1].
           ++ apply mem_In in E2. apply mem_false in E1. exfalso. apply E1. apply in_app_or in E2.
              destruct E2 as [E2|[<-|[]]]; [right; exact E2|left; reflexivity].
        -- intros x. rewrite X3, in_app_iff. cbn [In]. tauto.
      * intros x r' Hx Hr' Ix. rewrite X3 in Hx. apply in_app_or in Hx.
        destruct Hx as [Hx|[<-|[]]].
        -- apply (X2 x r'); assumption.
        -- apply X5. apply col_In. auto.
      * rewrite X3, app_length. cbn [length]. lia.
    + apply CR.
      * unfold t1. cbn [t_cols]. rewrite app_nil_r. reflexivity.
      * intros r Hr. apply col_In. exact Hr.
Qed.
End Tri.

(** The object after [triangulate] *)
Record done (p : params) (ds : list N) (o : okvs) : Prop := {
  d_rows : rows o = map (row_of p) ds;
  d_dense : dense o = ds;
  d_nodup : NoDup (tri_rows o ++ gap_rows o);
  d_all : forall r, r < length ds <-> In r (tri_rows o ++ gap_rows o);
  d_cols : length (tri_cols o) = length (tri_rows o);
  d_gf : length (gap_first o) = length (gap_rows o);
  d_gfin : incl (gap_first o) (tri_rows o);
  d_ndc : NoDup (tri_cols o);
  d_ltc : Forall (fun c => c < msize p) (tri_cols o);
  d_tri : forall i, i < length (tri_rows o) ->
     In (nth i (tri_cols o) 0) (nth (nth i (tri_rows o) 0) (rows o) []);
  d_tri2 : forall i j, i < j -> j < length (tri_rows o) ->
     ~ In (nth i (tri_cols o) 0) (nth (nth j (tri_rows o) 0) (rows o) []);
  d_lists : linv (msize p) (fun _ => 0) (tri_cols o) (lsts o) }.

Lemma triangulate_spec p ds o :
  good p -> 0 < wt p -> fresh p ds o ->
  match triangulate p o with
  | None => msize p < length ds + 2 \/
            exists r r', r <> r' /\ r < length ds /\ r' < length ds
                         /\ nth r ds 0%N = nth r' ds 0%N
  | Some o' => done p ds o' /\ gap_cols o' = [] /\ fc o' = [] /\ emat o' = []
  end.
Proof.
  intros G Wp (Er & Ed & Hcol & HL & E1 & E2 & E3 & E4 & E5 & E6 & E7).
  assert (RO : rows_ok (msize p) (rows o)) by (rewrite Er; apply rows_ok_map; exact G).
  assert (Ln : length (rows o) = length ds) by (rewrite Er; apply map_length).
  unfold triangulate. rewrite E1, E2, E3, E4.
  set (t0 := {| t_sign := _; t_lists := _; t_rows := _; t_cols := _; t_gap := _; t_gap_first := _ |}).
  assert (Rep : forall r, r < length (rows o) -> nth r (repeat false (length (rows o))) true = false).
  { intros r Hr. rewrite nth_indep with (d' := false) by (rewrite repeat_length; exact Hr).
    apply nth_repeat. }
  assert (T0 : tinv (msize p) (rows o) [] t0).
  { constructor; unfold t0; cbn [t_sign t_lists t_rows t_cols t_gap t_gap_first app length];
      try constructor; try lia; try contradiction.
    - apply repeat_length.
    - rewrite Rep by exact H. discriminate.
    - intros x [].
    - eapply linv_ext; [| |exact HL]; [|tauto].
      intros c _. cbn [mem existsb]. unfold W. f_equal.
      assert (FT : forall l, (forall r, In r l -> r < length (rows o)) ->
         filter (fun r => negb (nth r (repeat false (length (rows o))) true)) l = l).
      { induction l as [|x l IH]; intros HH; [reflexivity|]. cbn [filter].
        rewrite Rep by (apply HH; left; reflexivity). cbn [negb].
        rewrite IH by (intros r Hr; apply HH; right; exact Hr). reflexivity. }
      symmetry. apply FT. intros r Hr. apply col_of_In in Hr. lia. }
  assert (TL := tri_loop_spec (msize p) (rows o) ds RO (eq_sym Ln) o eq_refl Ed Hcol
                  (S (msize p)) t0 T0).
  destruct (tri_loop (S (msize p)) o t0) as [t|]; cbn [bind].
  - destruct TL as (T & C & L1).
    { intros c r []. }
    { unfold t0. cbn [t_cols length]. lia. }
    split; [|repeat split; assumption].
    assert (ZW : forall c, c < msize p -> (if mem c (t_cols t) then 0 else W (rows o) (t_sign t) c) = 0).
    { intros c Hc. destruct (mem c (t_cols t)) eqn:E; [reflexivity|].
      assert (X := linv_end _ _ _ _ (ti_lists _ _ _ _ T) L1 c Hc).
      cbn beta in X. rewrite E in X. apply X. apply mem_false. exact E. }
    constructor; cbn [rows dense tri_rows tri_cols gap_rows gap_first lsts]; try apply T; try assumption.
    + intros r. rewrite <- Ln. split.
      * intros Hr. apply (ti_sign _ _ _ _ T r Hr).
        assert (NE : exists c, In c (nth r (rows o) [])).
        { assert (X : length (nth r (rows o) []) = wt p).
          { rewrite Er. rewrite (nth_map' (row_of p) ds r 0%N) by lia. apply row_of_ok. exact G. }
          destruct (nth r (rows o) []) as [|c l]; [cbn in X; lia|]. exists c. left. reflexivity. }
        destruct NE as (c & Hc).
        assert (Hcm : c < msize p).
        { destruct (row_ok (msize p) (rows o) RO r) as [_ F]. rewrite Forall_forall in F. apply F. exact Hc. }
        specialize (ZW c Hcm). destruct (mem c (t_cols t)) eqn:E.
        -- apply mem_In in E. apply (C c r); assumption.
        -- apply (W_zero (rows o) (t_sign t) c r); try assumption. apply T.
      * intros Hr. assert (F := ti_lt _ _ _ _ T). rewrite Forall_forall in F. apply F. exact Hr.
    + eapply linv_ext; [| |apply (ti_lists _ _ _ _ T)]; [|tauto].
      intros c Hc. apply ZW. exact Hc.
  - unfold duplicate in TL. rewrite Ln in TL. apply TL.
    + intros c r [].
    + unfold t0. cbn [t_cols length]. lia.
Qed.

(** [set_keys]: the rows, the columns and the lists of columns by weight. *)
From Coq Require Import NArith List Bool Lia Arith.
From Coq Require Import ZifyBool ZifyNat ZifyN.
From Verif Require Import Base.ListX OKVS.SparseModel OKVS.SparseSpec OKVS.SparseProofs.
From Verif Require Import OKVS.PaxosModel OKVS.PaxosLists.
Import ListNotations.

Definition mem (c : nat) (row : list nat) : bool := existsb (Nat.eqb c) row.
Lemma mem_In c row : mem c row = true <-> In c row.
Proof.
  unfold mem. rewrite existsb_exists. split.
  - intros (x & H & E). apply Nat.eqb_eq in E. subst. exact H.
  - intros H. exists c. split; [exact H|apply Nat.eqb_refl].
Qed.
Lemma mem_false c row : mem c row = false <-> ~ In c row.
Proof. rewrite <- mem_In. destruct (mem c row); split; congruence. Qed.

Definition rows_ok (m : nat) (rows : list (list nat)) : Prop :=
  Forall (fun r => NoDup r /\ Forall (fun c => c < m) r) rows.

(** The rows of a column, from row [i] on *)
Fixpoint col_of (c i : nat) (rows : list (list nat)) : list nat :=
  match rows with
  | [] => []
  | r :: rows => (if mem c r then [i] else []) ++ col_of c (S i) rows
  end.

Lemma col_of_In c rows : forall i r,
  In r (col_of c i rows) <-> i <= r /\ r < i + length rows /\ In c (nth (r - i) rows []).
Proof.
  induction rows as [|x rows IH]; intros i r.
  - cbn. split; [contradiction|]. intros (A & B & _). lia.
  - cbn [col_of length]. rewrite in_app_iff, IH.
    destruct (Nat.eq_dec r i) as [->|N].
    + rewrite Nat.sub_diag. cbn [nth]. rewrite <- (mem_In c x). destruct (mem c x); cbn [In].
      * split; intros _; [split; [lia|split; [lia|reflexivity]]|left; left; reflexivity].
      * split; [intros [[]|(A & _)]; lia|]. intros (_ & _ & X). discriminate.
    + assert (E : In r (if mem c x then [i] else []) <-> False).
      { destruct (mem c x); cbn [In]; lia. }
      rewrite E. destruct (Nat.le_gt_cases (S i) r) as [L|L].
      * replace (r - i) with (S (r - S i)) by lia. cbn [nth]. intuition lia.
      * intuition lia.
Qed.

Lemma col_of_NoDup c rows : forall i, NoDup (col_of c i rows).
Proof.
  induction rows as [|x rows IH]; intros i; [constructor|]. cbn [col_of].
  destruct (mem c x); cbn [app]; [|apply IH]. constructor; [|apply IH].
  rewrite col_of_In. lia.
Qed.

(** ** Column weights *)
Lemma count_cols_spec p : forall cols cw,
  Forall (fun c => c < length cw) cols ->
  (forall c, N.lt (N.of_nat (nth c cw 0 + count_occ Nat.eq_dec cols c)) (N.pow 2 (bits p))) ->
  exists cw', count_cols p cols cw = Some cw' /\ length cw' = length cw
    /\ list_sum cw' = list_sum cw + length cols
    /\ forall c, nth c cw' 0 = nth c cw 0 + count_occ Nat.eq_dec cols c.
Proof.
  induction cols as [|x cols IH]; intros cw F B.
  - exists cw. cbn. repeat split; auto.
  - inversion_clear F as [|? ? Fx F']. cbn [count_cols].
    rewrite (rd_nth cw x 0 Fx). cbn [bind].
    rewrite wr_ok by exact Fx. cbn [bind].
    assert (V : N.to_nat (idx (bits p) (N.of_nat (S (nth x cw 0)))) = S (nth x cw 0)).
    { specialize (B x). rewrite count_occ_cons_eq in B by reflexivity.
      unfold idx. rewrite N.mod_small; [apply Nat2N.id|]. lia. }
    rewrite V.
    assert (G : forall c, nth c (upd cw x (S (nth x cw 0))) 0
                          = if Nat.eq_dec x c then S (nth c cw 0) else nth c cw 0).
    { intros c. destruct (Nat.eq_dec x c) as [<-|N].
      - apply nth_upd_same. exact Fx.
      - apply nth_upd_other. auto. }
    destruct (IH (upd cw x (S (nth x cw 0)))) as (cw' & E & L & S1 & H).
    + rewrite upd_length. exact F'.
    + intros c. specialize (B c). rewrite G. cbn [count_occ] in B.
      destruct (Nat.eq_dec x c); lia.
    + exists cw'. rewrite upd_length in L. split; [exact E|]. split; [exact L|]. split.
      * rewrite S1. cbn [length].
        assert (U : forall (l : list nat) i v, i < length l ->
                  list_sum (upd l i v) + nth i l 0 = list_sum l + v).
        { unfold list_sum. induction l as [|y l IHl]; intros i v; [cbn; lia|].
          destruct i as [|i]; cbn; [lia|]. intros Hi. specialize (IHl i v ltac:(lia)). lia. }
        specialize (U cw x (S (nth x cw 0)) Fx). lia.
      * intros c. rewrite H, G. cbn [count_occ]. destruct (Nat.eq_dec x c); lia.
Qed.

Lemma count_occ_mem c r : NoDup r -> count_occ Nat.eq_dec r c = if mem c r then 1 else 0.
Proof.
  intros ND. destruct (mem c r) eqn:E.
  - apply mem_In in E. apply NoDup_count_occ'; assumption.
  - apply mem_false in E. apply count_occ_not_In. exact E.
Qed.

Lemma count_occ_concat c rows : forall i m, rows_ok m rows ->
  count_occ Nat.eq_dec (concat rows) c = length (col_of c i rows).
Proof.
  induction rows as [|r rows IH]; intros i m H; [reflexivity|].
  inversion_clear H as [|? ? [H1 _] H2]. cbn [concat col_of].
  rewrite count_occ_app, app_length, (count_occ_mem c r H1), (IH (S i) m H2).
  destruct (mem c r); reflexivity.
Qed.

Lemma col_of_length c rows i : length (col_of c i rows) <= length rows.
Proof.
  revert i. induction rows as [|r rows IH]; intros i; [cbn; lia|].
  cbn [col_of]. rewrite app_length. specialize (IH (S i)).
  destruct (mem c r); cbn [length]; lia.
Qed.

(** ** The lists by weight *)
Lemma statistic_step_push nodes wset w :
  w < length wset -> w < 256 ->
  statistic_step nodes wset w
  = push (nodes ++ [mkNode w None None], wset) (length nodes).
Proof.
  intros L H. unfold statistic_step, push.
  rewrite Nat.mod_small by exact H.
  unfold rd at 2. rewrite nth_error_app2, Nat.sub_diag by lia. cbn [nth_error bind weight].
  replace (S w - length wset) with 0 by lia. cbn [repeat]. rewrite app_nil_r.
  destruct (rd wset w) as [[f|]|]; cbn [bind]; [|reflexivity|reflexivity].
  destruct (modify (nodes ++ [mkNode w None None]) f _) as [n1|]; cbn [bind]; reflexivity.
Qed.

(** Prefix sums *)
Definition before (cw : list nat) (c : nat) : nat := list_sum (firstn c cw).

Lemma list_sum_app' a b : list_sum (a ++ b) = list_sum a + list_sum b.
Proof. apply list_sum_app. Qed.
Lemma list_sum_cons x l : list_sum (x :: l) = x + list_sum l.
Proof. reflexivity. Qed.

Lemma before_S cw c : c < length cw -> before cw (S c) = before cw c + nth c cw 0.
Proof.
  unfold before. revert c. induction cw as [|x cw IH]; intros c H; [cbn in H; lia|].
  destruct c as [|c]; [cbn; lia|]. cbn [length] in H. specialize (IH c ltac:(lia)).
  rewrite firstn_cons, list_sum_cons, IH. cbn [nth].
  rewrite firstn_cons, list_sum_cons. lia.
Qed.

Lemma before_mono cw c c' : c <= c' -> before cw c <= before cw c'.
Proof.
  intros H. unfold before.
  replace c' with (c + (c' - c)) by lia. generalize (c' - c) as k. intros k. clear H.
  revert c. induction cw as [|x cw IH]; intros c; [rewrite !firstn_nil; lia|].
  destruct c as [|c]; [cbn; lia|].
  cbn [plus]. rewrite !firstn_cons, !list_sum_cons. specialize (IH c). lia.
Qed.

Lemma before_lt cw c c' : c < c' -> c < length cw -> before cw c + nth c cw 0 <= before cw c'.
Proof. intros H L. rewrite <- before_S by exact L. apply before_mono. lia. Qed.

Lemma before_all cw c : before cw c <= list_sum cw.
Proof.
  unfold before. rewrite <- (firstn_skipn c cw) at 2. rewrite list_sum_app'. lia.
Qed.

(** During [weight_statistic] *)
Definition binv (k : nat) (W : nat -> nat) (s : lists) (B : list (list nat)) : Prop :=
  repr s B /\ length B = 200 /\ length (fst s) = k
  /\ (forall c, c < k -> option_map weight (nth_error (fst s) c) = Some (W c))
  /\ (forall c w, In c (nth w B []) <-> c < k /\ W c = w).

Lemma statistic_loop_spec : forall cw done begins mx s B,
  let all := done ++ cw in
  Forall (fun w => w < 200) cw ->
  binv (length done) (fun c => nth c all 0) s B ->
  begins = map (before all) (seq 0 (length done)) ->
  (forall w, In w done -> w <= mx) -> (done = [] /\ mx = 0 \/ In mx done) ->
  exists begins' mx' s' B',
    statistic_loop cw (list_sum done) mx begins s = Some (begins', mx', s')
    /\ binv (length all) (fun c => nth c all 0) s' B'
    /\ begins' = map (before all) (seq 0 (length all))
    /\ (forall w, In w all -> w <= mx') /\ (all = [] /\ mx' = 0 \/ In mx' all).
Proof.
  induction cw as [|w cw IH]; intros done begins mx s B all F H HB HM1 HM2.
  - unfold all in *. rewrite app_nil_r in *.
    exists begins, mx, s, B. split; [reflexivity|]. split; [exact H|].
    split; [exact HB|]. split; assumption.
  - inversion_clear F as [|? ? Fw F']. cbn [statistic_loop].
    destruct s as [nodes wset]. destruct H as (R & LB & Ln & Hw & Hb). cbn [fst snd] in *.
    assert (Lws : length wset = 200).
    { destruct R as [R _]. cbn [snd] in R. rewrite R, map_length. exact LB. }
    rewrite statistic_step_push by lia.
    assert (R' : repr (nodes ++ [mkNode w None None], wset) B).
    { destruct R as [R1 R2]. split; [exact R1|]. intros w'. destruct (R2 w') as [ND D].
      split; [exact ND|]. apply dll_frame with (nodes := nodes); [|exact D].
      intros x Hx. cbn [fst]. apply nth_error_app1.
      apply Hb in Hx. rewrite Ln. lia. }
    destruct (push_spec (nodes ++ [mkNode w None None], wset) B w (length nodes) R')
      as (s' & B' & E & R2 & _ & Wi & SW & LB').
    { cbn [fst]. rewrite nth_error_app2, Nat.sub_diag by lia. reflexivity. }
    { intros w' X. apply Hb in X. lia. }
    rewrite E. cbn [bind].
    assert (EA : all = (done ++ [w]) ++ cw) by (unfold all; rewrite <- app_assoc; reflexivity).
    assert (Nw : nth (length done) all 0 = w).
    { unfold all. rewrite app_nth2, Nat.sub_diag by lia. reflexivity. }
    destruct (IH (done ++ [w]) (begins ++ [list_sum done]) (Nat.max mx w) s' B' F')
      as (begins' & mx' & s2 & B2 & E2 & H2 & HB2 & M1 & M2).
    + rewrite <- EA. rewrite app_length. cbn [length]. destruct SW as [SL SW].
      cbn [fst] in SL, SW. rewrite app_length in SL. cbn [length] in SL.
      split; [exact R2|]. split; [lia|]. split; [lia|]. split.
      * intros c Hc. rewrite SW. destruct (Nat.eq_dec c (length done)) as [->|N].
        -- rewrite nth_error_app2, <- Ln, Nat.sub_diag by lia. cbn [nth_error option_map weight].
           rewrite Ln, Nw. reflexivity.
        -- rewrite nth_error_app1 by lia. apply Hw. lia.
      * intros c w'. rewrite (Wi w' c), Hb, Ln.
        destruct (Nat.eq_dec c (length done)) as [->|N].
        -- rewrite Nw. intuition lia.
        -- intuition lia.
    + rewrite HB, app_length. cbn [length]. rewrite Nat.add_1_r, seq_S, map_app.
      cbn [map]. rewrite <- EA. f_equal. f_equal. unfold before, all.
      replace (0 + length done) with (length done) by lia.
      rewrite firstn_app, Nat.sub_diag, firstn_all. cbn [firstn]. rewrite app_nil_r. reflexivity.
    + intros x Hx. apply in_app_or in Hx. destruct Hx as [Hx|[<-|[]]]; [|lia].
      specialize (HM1 x Hx). lia.
    + right. destruct (Nat.max_spec mx w) as [[H ->]|[H ->]].
      * apply in_or_app. right. left. reflexivity.
      * destruct HM2 as [[-> ->]|HM2]; [|apply in_or_app; left; exact HM2].
        cbn [In app]. left. lia.
    + rewrite list_sum_app' in E2. cbn [list_sum fold_right] in E2.
      rewrite Nat.add_0_r in E2. rewrite <- EA in *.
      exists begins', mx', s2, B2. split; [exact E2|]. split; [exact H2|].
      split; [exact HB2|]. split; assumption.
Qed.

Lemma weight_statistic_ok cw :
  cw <> [] -> Forall (fun w => w < 200) cw ->
  exists s, weight_statistic cw = Some (map (before cw) (seq 0 (length cw)), s)
            /\ linv (length cw) (fun c => nth c cw 0) [] s.
Proof.
  intros NE F. unfold weight_statistic.
  destruct (statistic_loop_spec cw [] [] 0 ([], repeat None 200) (repeat [] 200) F)
    as (begins & mx & s & B & E & H & HB & M1 & M2).
  - assert (N0 : forall w, nth w (repeat (@nil nat) 200) [] = []).
    { intros w. change (repeat (@nil nat) 200) with ([] ++ repeat (@nil nat) 200).
      rewrite nth_extend. destruct w; reflexivity. }
    split; [|split; [apply repeat_length|split; [reflexivity|split]]].
    + split.
      * cbn [snd]. rewrite map_repeat. reflexivity.
      * intros w. rewrite N0. split; [constructor|exact I].
    + cbn [length]. lia.
    + intros c w. rewrite N0. cbn [In length]. lia.
  - reflexivity.
  - contradiction.
  - left. auto.
  - cbn [app] in *. change (list_sum []) with 0 in E. rewrite E. cbn [bind].
    destruct s as [nodes wset]. destruct M2 as [[M2 _]|M2]; [contradiction|].
    exists (nodes, firstn (S mx) wset). rewrite HB. split; [reflexivity|].
    destruct H as (R & LB & Ln & Hw & Hb). cbn [fst] in *.
    assert (Lm : mx < 200) by (rewrite Forall_forall in F; apply F; exact M2).
    assert (NF : forall w, nth w (firstn (S mx) B) [] = nth w B []).
    { intros w. destruct (Nat.ltb_spec w (S mx)) as [L|L].
      - apply nth_firstn_lt. exact L.
      - rewrite nth_overflow by (rewrite firstn_length; lia).
        destruct (nth w B []) as [|c l] eqn:EL; [reflexivity|exfalso].
        assert (X : In c (nth w B [])) by (rewrite EL; left; reflexivity).
        apply Hb in X. destruct X as [X1 X2].
        assert (In (nth c cw 0) cw) by (apply nth_In; exact X1).
        specialize (M1 _ H). lia. }
    exists (firstn (S mx) B). destruct R as [R1 R2]. cbn [fst snd] in *.
    split; [split|split; [|split; [exact Ln|split; [exact Hw|]]]].
    + cbn [snd]. rewrite R1, firstn_map. reflexivity.
    + intros w. rewrite NF. apply R2.
    + assert (Hd : exists c, In c (nth mx B [])).
      { apply In_nth with (d := 0) in M2. destruct M2 as (c & L & E2). exists c.
        apply Hb. auto. }
      destruct Hd as (c & Hc). split.
      * intros X. apply (f_equal (@length (list nat))) in X. rewrite firstn_length in X.
        cbn [length] in X. lia.
      * assert (XL : length (firstn (S mx) B) = S mx) by (rewrite firstn_length; lia).
        assert (XN : firstn (S mx) B <> []) by (intros X; rewrite X in XL; discriminate).
        destruct (exists_last XN) as (B0 & y & E0). rewrite E0 in *. rewrite last_last.
        rewrite app_length in XL. cbn [length] in XL.
        specialize (NF mx). rewrite app_nth2 in NF by lia.
        replace (mx - length B0) with 0 in NF by lia. cbn [nth] in NF. rewrite NF.
        intros X. rewrite X in Hc. contradiction.
    + intros c w. rewrite NF, Hb. cbn [In]. intuition lia.
Qed.

Lemma statistic_loop_bound : forall cw b mx begins s r,
  length (snd s) = 200 -> statistic_loop cw b mx begins s = Some r ->
  Forall (fun w => w < 200) cw.
Proof.
  induction cw as [|w cw IH]; intros b mx begins s r L H; [constructor|].
  cbn [statistic_loop] in H. unfold statistic_step in H.
  destruct (rd (snd s) w) as [h|] eqn:E; cbn [bind] in H; [|discriminate].
  assert (Lw : w < 200) by (rewrite <- L; apply nth_error_lt in E; exact E).
  destruct (match h with Some f => _ | None => _ end) as [n1|]; cbn [bind] in H; [|discriminate].
  rewrite wr_ok in H by lia. cbn [bind] in H.
  constructor; [exact Lw|].
  eapply IH; [|exact H]. cbn [snd]. rewrite upd_length. exact L.
Qed.

Lemma weight_statistic_bound cw r :
  weight_statistic cw = Some r -> Forall (fun w => w < 200) cw.
Proof.
  unfold weight_statistic.
  destruct (statistic_loop cw 0 0 [] ([], repeat None 200)) as [x|] eqn:E; [|discriminate].
  intros _. eapply statistic_loop_bound; [|exact E]. apply repeat_length.
Qed.

(** ** The columns *)
Definition hinv (cw : list nat) (O : nat -> list nat) (s : list nat * list nat) : Prop :=
  length (snd s) = length cw /\ length (fst s) = list_sum cw
  /\ forall c, c < length cw ->
       nth c (snd s) 0 = length (O c)
       /\ forall k, k < length (O c) -> nth (before cw c + k) (fst s) 0 = nth k (O c) 0.

Lemma hcols_row_spec cw row : forall cols O s,
  Forall (fun w => w < 200) cw ->
  hinv cw O s -> NoDup cols -> Forall (fun c => c < length cw) cols ->
  (forall c, c < length cw -> length (O c) <= nth c cw 0) ->
  (forall c, In c cols -> length (O c) < nth c cw 0) ->
  exists s', hcols_row (map (before cw) (seq 0 (length cw))) row cols s = Some s'
    /\ hinv cw (fun c => O c ++ (if mem c cols then [row] else [])) s'.
Proof.
  induction cols as [|c cols IH]; intros O s W200 H ND F B1 B2.
  - exists s. split; [reflexivity|]. destruct H as (H1 & H2 & H3).
    split; [exact H1|]. split; [exact H2|]. intros c Hc. cbn. rewrite app_nil_r. apply H3. exact Hc.
  - inversion_clear ND as [|? ? NI ND']. inversion_clear F as [|? ? Fc F'].
    destruct s as [view now]. destruct H as (H1 & H2 & H3). cbn [fst snd] in *.
    cbn [hcols_row]. destruct (H3 c Fc) as [Hn Hv].
    rewrite (rd_nth now c 0) by lia. cbn [bind].
    rewrite (rd_nth _ c 0) by (rewrite map_length, seq_length; exact Fc). cbn [bind].
    rewrite (nth_map' (before cw) (seq 0 (length cw)) c 0) by (rewrite seq_length; exact Fc).
    rewrite seq_nth by exact Fc. cbn [plus].
    assert (Bc : length (O c) < nth c cw 0) by (apply B2; left; reflexivity).
    assert (Wc : nth c cw 0 < 200).
    { rewrite Forall_forall in W200. apply W200. apply nth_In. exact Fc. }
    assert (Bv : before cw c + nth c now 0 < length view).
    { rewrite Hn, H2. assert (X := before_all cw (S c)). rewrite before_S in X by exact Fc. lia. }
    rewrite wr_ok by exact Bv. cbn [bind]. rewrite wr_ok by lia. cbn [bind].
    rewrite Nat.mod_small by lia.
    destruct (IH (fun x => if Nat.eqb x c then O x ++ [row] else O x)
                 (upd view (before cw c + nth c now 0) row, upd now c (S (nth c now 0))))
      as (s' & E & H').
    + exact W200.
    + split; [cbn [snd]; rewrite upd_length; exact H1|].
      split; [cbn [fst]; rewrite upd_length; exact H2|]. cbn [fst snd].
      intros x Hx. destruct (Nat.eqb_spec x c) as [->|N].
      * split; [rewrite nth_upd_same by lia; rewrite app_length; cbn [length]; lia|].
        intros k Hk. rewrite app_length in Hk. cbn [length] in Hk.
        destruct (Nat.eq_dec k (length (O c))) as [->|Nk].
        -- rewrite Hn. rewrite nth_upd_same by lia. rewrite app_nth2, Nat.sub_diag by lia. reflexivity.
        -- rewrite nth_upd_other by lia. rewrite app_nth1 by lia. apply Hv. lia.
      * destruct (H3 x Hx) as [Hn' Hv']. split; [rewrite nth_upd_other by auto; exact Hn'|].
        intros k Hk. rewrite nth_upd_other; [apply Hv'; exact Hk|].
        specialize (B1 x Hx). rewrite Hn.
        destruct (Nat.lt_total x c) as [L|[L|L]]; [|congruence|].
        -- assert (X := before_lt cw x c L Hx). lia.
        -- assert (X := before_lt cw c x L Fc). lia.
    + exact ND'.
    + exact F'.
    + intros x Hx. destruct (Nat.eqb_spec x c) as [->|]; [|apply B1; exact Hx].
      rewrite app_length. cbn [length]. lia.
    + intros x Hx. destruct (Nat.eqb_spec x c) as [->|]; [contradiction|].
      apply B2. right. exact Hx.
    + exists s'. split; [exact E|]. destruct H' as (K1 & K2 & K3).
      split; [exact K1|]. split; [exact K2|]. intros x Hx. specialize (K3 x Hx). cbn beta in K3.
      change (mem x (c :: cols)) with (orb (Nat.eqb x c) (mem x cols)).
      destruct (Nat.eqb_spec x c) as [Ex|N]; cbn [orb]; [subst x|exact K3].
      assert (M : mem c cols = false) by (apply mem_false; exact NI).
      rewrite M, app_nil_r in K3. exact K3.
Qed.

Lemma hcols_rows_spec cw m : forall rows i O s,
  length cw = m -> Forall (fun w => w < 200) cw ->
  hinv cw O s -> rows_ok m rows ->
  (forall c, c < m -> length (O c) + length (col_of c i rows) <= nth c cw 0) ->
  exists s', hcols_rows (map (before cw) (seq 0 (length cw))) i rows s = Some s'
    /\ hinv cw (fun c => O c ++ col_of c i rows) s'.
Proof.
  induction rows as [|r rows IH]; intros i O s L W H RO B.
  - exists s. split; [reflexivity|]. destruct H as (H1 & H2 & H3).
    split; [exact H1|]. split; [exact H2|]. intros c Hc. cbn. rewrite app_nil_r. apply H3. exact Hc.
  - inversion_clear RO as [|? ? [ND F] RO']. cbn [hcols_rows].
    destruct (hcols_row_spec cw i r O s W H ND) as (s1 & E1 & H1).
    + rewrite L. exact F.
    + intros c Hc. specialize (B c ltac:(lia)). lia.
    + intros c Hc. rewrite Forall_forall in F. specialize (B c (F c Hc)).
      cbn [col_of] in B. rewrite (proj2 (mem_In c r) Hc) in B. cbn [app length] in B. lia.
    + rewrite E1. cbn [bind].
      destruct (IH (S i) _ s1 L W H1 RO') as (s2 & E2 & H2).
      * intros c Hc. specialize (B c Hc). cbn [col_of] in B. rewrite app_length in B |- *. lia.
      * exists s2. split; [exact E2|]. destruct H2 as (K1 & K2 & K3).
        split; [exact K1|]. split; [exact K2|]. intros c Hc. specialize (K3 c Hc). cbn beta in K3.
        cbn [col_of]. rewrite app_assoc. exact K3.
Qed.

(** ** [set_keys] *)
Definition good (p : params) : Prop :=
  idx_ok (bits p) (wt p) (N.of_nat (msize p))
  /\ N.lt (N.of_nat (msize p) + 2) (2 ^ 63).

Definition row_of (p : params) (d : N) : list nat :=
  map N.to_nat (the_row (bits p) (wt p) (N.of_nat (msize p)) d).

Lemma row_of_ok p d : good p ->
  length (row_of p d) = wt p /\ NoDup (row_of p d)
  /\ Forall (fun c => c < msize p) (row_of p d).
Proof.
  intros [G _]. unfold row_of, the_row.
  destruct (sparse_1_ok _ _ _ d G) as (r & -> & R1 & R2 & R3).
  rewrite map_length. split; [exact R1|]. split.
  - apply FinFun.Injective_map_NoDup; [|exact R2]. intros x y. lia.
  - rewrite Forall_forall in *. intros c Hc. apply in_map_iff in Hc.
    destruct Hc as (x & <- & Hx). specialize (R3 x Hx). lia.
Qed.

Lemma all_some_map {A B} (f : A -> option B) (g : A -> B) l :
  (forall x, In x l -> f x = Some (g x)) -> all_some (map f l) = Some (map g l).
Proof.
  induction l as [|x l IH]; intros H; [reflexivity|].
  cbn [map all_some]. rewrite H by (left; reflexivity). cbn [bind].
  rewrite IH; [reflexivity|]. intros y Hy. apply H. right. exact Hy.
Qed.

Lemma set_rows_ok p : good p -> forall fuel dense,
  length dense < fuel -> set_rows fuel p dense = Some (map (row_of p) dense).
Proof.
  intros [G1 G2]. induction fuel as [|fuel IH]; intros dense L; [lia|].
  cbn [set_rows]. destruct (Nat.leb_spec 32 (length dense)) as [H|H].
  - rewrite sparse_32_ok; [|exact G1|exact G2|apply firstn_length_le; exact H].
    cbn [bind]. rewrite IH by (rewrite skipn_length; lia). cbn [bind].
    rewrite map_map. f_equal. unfold row_of at 2.
    rewrite <- (firstn_skipn 32 dense) at 3. rewrite map_app. reflexivity.
  - rewrite (all_some_map _ (the_row (bits p) (wt p) (N.of_nat (msize p)))).
    + cbn [bind]. rewrite map_map. reflexivity.
    + intros d _. unfold the_row. destruct (sparse_1_ok _ _ _ d G1) as (r & -> & _). reflexivity.
Qed.

Lemma rows_ok_map p ds : good p -> rows_ok (msize p) (map (row_of p) ds).
Proof.
  intros G. apply Forall_forall. intros r Hr. apply in_map_iff in Hr.
  destruct Hr as (d & <- & _). destruct (row_of_ok p d G) as (_ & A & B). auto.
Qed.

Lemma concat_length (w : nat) (l : list (list nat)) :
  Forall (fun r => length r = w) l -> length (concat l) = length l * w.
Proof.
  induction l as [|r l IH]; intros H; [reflexivity|]. inversion_clear H as [|? ? H1 H2].
  cbn [concat]. rewrite app_length, H1, IH by exact H2. cbn [length]. lia.
Qed.

(** The object [set_keys] leaves *)
Definition fresh (p : params) (ds : list N) (o : okvs) : Prop :=
  rows o = map (row_of p) ds /\ dense o = ds
  /\ (forall c, c < msize p -> column o c = Some (col_of c 0 (rows o)))
  /\ linv (msize p) (fun c => length (col_of c 0 (rows o))) [] (lsts o)
  /\ tri_rows o = [] /\ tri_cols o = [] /\ gap_rows o = [] /\ gap_first o = []
  /\ gap_cols o = [] /\ fc o = [] /\ emat o = [].

Definition light (p : params) (ds : list N) : Prop :=
  forall c, c < msize p -> length (col_of c 0 (map (row_of p) ds)) < 200.

Lemma set_keys_spec p ds :
  good p -> 0 < msize p -> N.lt (N.of_nat (length ds)) (2 ^ bits p) ->
  (light p ds -> exists o, set_keys p ds = Some o /\ fresh p ds o)
  /\ (forall o, set_keys p ds = Some o -> light p ds).
Proof.
  intros G M Hn. unfold set_keys.
  rewrite (set_rows_ok p G) by lia. cbn [bind].
  assert (RO := rows_ok_map p ds G).
  set (rs := map (row_of p) ds) in *.
  assert (Lrs : length rs = length ds) by apply map_length.
  destruct (count_cols_spec p (concat rs) (repeat 0 (msize p))) as (cw & E & L & S1 & H).
  - rewrite repeat_length. apply Forall_forall. intros c Hc. apply in_concat in Hc.
    destruct Hc as (r & Hr & Hc). unfold rows_ok in RO. rewrite Forall_forall in RO.
    destruct (RO r Hr) as [_ F]. rewrite Forall_forall in F. apply F. exact Hc.
  - intros c. rewrite nth_repeat, (count_occ_concat c rs 0 _ RO).
    assert (X := col_of_length c rs 0). lia.
  - rewrite E. cbn [bind]. rewrite repeat_length in L.
    assert (Hcw : forall c, nth c cw 0 = length (col_of c 0 rs)).
    { intros c. rewrite H, nth_repeat, (count_occ_concat c rs 0 _ RO). reflexivity. }
    split.
    + intros LI.
      assert (W200 : Forall (fun w => w < 200) cw).
      { apply Forall_forall. intros w Hw. apply In_nth with (d := 0) in Hw.
        destruct Hw as (c & Hc & <-). rewrite Hcw. apply LI. lia. }
      destruct (weight_statistic_ok cw) as (s & Es & Hs).
      { intros ->. cbn in L. lia. }
      { exact W200. }
      rewrite Es. cbn [bind fst snd].
      unfold init_hcols.
      assert (Sum : list_sum cw = length rs * wt p).
      { rewrite S1. rewrite (concat_length (wt p)).
        - assert (Z : forall k, list_sum (repeat 0 k) = 0) by (induction k; auto).
          rewrite Z. lia.
        - apply Forall_forall. intros r Hr. unfold rs in Hr. apply in_map_iff in Hr.
          destruct Hr as (d & <- & _). apply row_of_ok. exact G. }
      destruct (hcols_rows_spec cw (msize p) rs 0 (fun _ => [])
                 (repeat 0 (length rs * wt p), repeat 0 (msize p)) L W200) as (s' & Es' & Hs').
      { split; [cbn [snd]; rewrite repeat_length; lia|].
        split; [cbn [fst]; rewrite repeat_length; lia|]. cbn [fst snd].
        intros c Hc. rewrite nth_repeat. split; [reflexivity|]. cbn [length]. lia. }
      { exact RO. }
      { intros c Hc. rewrite Hcw. cbn [length]. lia. }
      rewrite Es'. cbn [bind]. eexists. split; [reflexivity|].
      unfold fresh. cbn [rows dense lsts tri_rows tri_cols gap_rows gap_first gap_cols fc emat].
      split; [reflexivity|]. split; [reflexivity|]. split.
      * intros c Hc. unfold column. cbn [begins colw view rows].
        rewrite (rd_nth _ c 0) by (rewrite map_length, seq_length; lia).
        rewrite (nth_map' (before cw) (seq 0 (length cw)) c 0) by (rewrite seq_length; lia).
        rewrite seq_nth by lia. cbn [plus bind].
        rewrite (rd_nth cw c 0) by lia. cbn [bind].
        destruct Hs' as (K1 & K2 & K3). destruct (K3 c ltac:(lia)) as [_ Kv].
        cbn [app] in Kv.
        assert (BA := before_all cw (S c)). rewrite before_S in BA by lia.
        destruct (Nat.leb_spec (before cw c + nth c cw 0) (length (fst s'))); [|lia].
        f_equal. apply list_eq_nth with (d := 0).
        -- rewrite firstn_length, skipn_length, <- Hcw. lia.
        -- intros k Hk. rewrite firstn_length, skipn_length in Hk.
           rewrite nth_firstn_lt by lia. rewrite nth_skipn. apply Kv. rewrite <- Hcw. lia.
      * split; [|repeat split].
        rewrite <- L. eapply linv_ext; [| |exact Hs]; [|tauto].
        intros c _. apply Hcw.
    + intros o Ho. destruct (weight_statistic cw) as [r|] eqn:Es; [|discriminate].
      apply weight_statistic_bound in Es. intros c Hc. rewrite Forall_forall in Es.
      fold rs. rewrite <- Hcw. apply Es. apply nth_In. lia.
Qed.

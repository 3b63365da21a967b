(** [get_FC_1]: the rows of the triangle that cancel a gap row on the columns of
    the triangle. *)
From Coq Require Import NArith List Bool Lia Arith Sorting.Sorted.
From Coq Require Import ZifyBool ZifyNat ZifyN.
From Verif Require Import Base.Words Base.ListX OKVS.SparseModel.
From Verif Require Import OKVS.PaxosModel OKVS.PaxosLists OKVS.PaxosSet OKVS.PaxosTri
  OKVS.PaxosSum.
Import ListNotations.

Lemma toggle_sum h x l : xs h (toggle x l) = N.lxor (h x) (xs h l).
Proof.
  induction l as [|y l IH]; [reflexivity|]. cbn [toggle].
  destruct (Nat.eqb_spec x y) as [->|N].
  - rewrite xs_cons, lxor_same_l. reflexivity.
  - destruct (Nat.ltb y x); [reflexivity|]. rewrite !xs_cons, IH. apply lxor_swap.
Qed.

Lemma toggle_In x l y : In y (toggle x l) -> y = x \/ In y l.
Proof.
  induction l as [|z l IH]; cbn [toggle].
  - intros [->|[]]; auto.
  - destruct (Nat.eqb x z); [right; right; auto|].
    destruct (Nat.ltb z x).
    + intros [->|H]; auto.
    + intros [->|H]; [right; left; auto|]. destruct (IH H); [left; auto|right; right; auto].
Qed.

Lemma toggle_sorted x l : StronglySorted gt l -> StronglySorted gt (toggle x l).
Proof.
  induction l as [|y l IH]; intros S; cbn [toggle].
  - constructor; constructor.
  - inversion_clear S as [|? ? S' F]. destruct (Nat.eqb_spec x y); [exact S'|].
    destruct (Nat.ltb_spec y x) as [H|H].
    + constructor; [constructor; auto|]. constructor; [lia|].
      apply Forall_impl with (2 := F). intros; lia.
    + constructor; [apply IH; exact S'|]. apply Forall_forall. intros z Hz.
      destruct (toggle_In _ _ _ Hz) as [->|Hz']; [lia|].
      rewrite Forall_forall in F. apply F. exact Hz'.
Qed.

Lemma set_insert_toggle x l : ~ In x l -> set_insert x l = toggle x l.
Proof.
  induction l as [|y l IH]; intros N; [reflexivity|]. cbn [set_insert toggle].
  destruct (Nat.eqb_spec x y) as [->|E]; [exfalso; apply N; left; auto|].
  destruct (Nat.ltb y x); [reflexivity|]. rewrite IH; [reflexivity|].
  intros H. apply N. right. exact H.
Qed.

(** What a column stands for *)
Definition through (perm : list (option nat)) (h : nat -> N) (c : nat) : N :=
  match nth c perm None with Some j => h j | None => 0%N end.

Lemma permuted_toggle perm b : (forall c j, nth c perm None = Some j -> j < b) ->
  forall cols acc,
  Forall (fun c => c < length perm) cols -> StronglySorted gt acc -> Forall (fun j => j < b) acc ->
  exists F, permuted perm toggle cols acc = Some F /\ StronglySorted gt F
    /\ Forall (fun j => j < b) F
    /\ forall h, xs h F = N.lxor (xs h acc) (xs (through perm h) cols).
Proof.
  intros Hb. induction cols as [|c cols IH]; intros acc FC S FB.
  - exists acc. split; [reflexivity|]. split; [exact S|]. split; [exact FB|].
    intros h. cbn. rewrite N.lxor_0_r. reflexivity.
  - inversion_clear FC as [|? ? H1 H2]. cbn [permuted].
    rewrite rd_nth with (d := None) by exact H1. cbn [bind].
    destruct (IH (match nth c perm None with None => acc | Some j => toggle j acc end))
      as (F & E & SF & BF & HF).
    + exact H2.
    + destruct (nth c perm None); [apply toggle_sorted|]; exact S.
    + destruct (nth c perm None) as [j|] eqn:E; [|exact FB].
      apply Forall_forall. intros y Hy. destruct (toggle_In _ _ _ Hy) as [->|Hy'].
      * apply Hb with c. exact E.
      * rewrite Forall_forall in FB. apply FB. exact Hy'.
    + exists F. split; [exact E|]. split; [exact SF|]. split; [exact BF|].
      intros h. rewrite HF, xs_cons. unfold through at 2.
      destruct (nth c perm None) as [j|].
      * rewrite toggle_sum, (N.lxor_comm (h j)), N.lxor_assoc. reflexivity.
      * rewrite N.lxor_0_l. reflexivity.
Qed.

Lemma permuted_insert perm :
  (forall c c' j, nth c perm None = Some j -> nth c' perm None = Some j -> c = c') ->
  forall cols acc, NoDup cols ->
  (forall c j, In c cols -> nth c perm None = Some j -> ~ In j acc) ->
  permuted perm set_insert cols acc = permuted perm toggle cols acc.
Proof.
  intros Hi. induction cols as [|c cols IH]; intros acc ND H; [reflexivity|].
  inversion_clear ND as [|? ? N ND']. cbn [permuted].
  unfold rd. destruct (nth_error perm c) as [x|] eqn:E; [|reflexivity]. cbn [bind].
  assert (Ex : nth c perm None = x) by (apply nth_error_nth with (d := None) in E; exact E).
  destruct x as [j|].
  - rewrite set_insert_toggle by (apply H with c; [left|]; auto).
    apply IH; [exact ND'|]. intros c' j' Hc' E' I.
    destruct (toggle_In _ _ _ I) as [->|I'].
    + apply N. rewrite (Hi c c' j); auto.
    + apply (H c' j'); auto. right. exact Hc'.
  - apply IH; [exact ND'|]. intros c' j' Hc' E' I. apply (H c' j'); auto. right. exact Hc'.
Qed.

Lemma permutation_spec tc : NoDup tc -> forall k j perm,
  j + k <= length tc -> Forall (fun c => c < length perm) tc ->
  exists perm', permutation k tc j perm = Some perm' /\ length perm' = length perm
    /\ (forall i, j <= i < j + k -> nth (nth (length tc - i - 1) tc 0) perm' None = Some i)
    /\ (forall c, (forall i, j <= i < j + k -> nth (length tc - i - 1) tc 0 <> c) ->
          nth c perm' None = nth c perm None).
Proof.
  intros ND. induction k as [|k IH]; intros j perm Hk F.
  - exists perm. repeat split; auto; intros; lia.
  - cbn [permutation]. rewrite rd_nth with (d := 0) by lia. cbn [bind].
    set (c := nth (length tc - j - 1) tc 0).
    assert (Hc : c < length perm).
    { rewrite Forall_forall in F. apply F. apply nth_In. lia. }
    rewrite wr_ok by exact Hc. cbn [bind].
    destruct (IH (S j) (upd perm c (Some j))) as (perm' & E & L & H1 & H2).
    + lia.
    + rewrite upd_length. exact F.
    + exists perm'. split; [exact E|]. rewrite upd_length in L. split; [exact L|]. split.
      * intros i Hi. destruct (Nat.eq_dec i j) as [->|N]; [|apply H1; lia].
        rewrite H2; [apply nth_upd_same; exact Hc|].
        intros i Hi' E'. apply (NoDup_nth tc 0) in E'; try lia. exact ND.
      * intros c' Hc'. rewrite H2 by (intros; apply Hc'; lia).
        apply nth_upd_other. apply Hc'. lia.
Qed.

Section FC.
Variables (p : params) (ds : list N) (o : okvs).
Hypothesis G : good p.
Hypothesis Dn : done p ds o.
Notation delta := (length (tri_rows o)).
Notation row r := (nth r (rows o) []).
Definition tcol (j : nat) := nth (delta - j - 1) (tri_cols o) 0.
Definition trow (j : nat) := nth (delta - j - 1) (tri_rows o) 0.

(** [f] on the columns of the triangle only *)
Definition on_tri (f : nat -> N) (c : nat) : N := if mem c (tri_cols o) then f c else 0%N.

Definition pinv (perm : list (option nat)) : Prop :=
  length perm = total p
  /\ (forall i, i < delta -> nth (tcol i) perm None = Some i)
  /\ (forall c, ~ In c (tri_cols o) -> nth c perm None = None).

Lemma tri_col_index c : In c (tri_cols o) -> exists i, i < delta /\ tcol i = c.
Proof.
  intros H. apply In_nth with (d := 0) in H. destruct H as (k & Hk & E).
  rewrite (d_cols _ _ _ Dn) in Hk. exists (delta - k - 1). split; [lia|].
  unfold tcol. replace (delta - (delta - k - 1) - 1) with k by lia. exact E.
Qed.

Lemma tcol_In i : i < delta -> In (tcol i) (tri_cols o).
Proof. intros H. apply nth_In. rewrite (d_cols _ _ _ Dn). lia. Qed.

Lemma make_perm : exists perm,
  permutation delta (tri_cols o) 0 (repeat None (total p)) = Some perm /\ pinv perm.
Proof.
  destruct (permutation_spec (tri_cols o) (d_ndc _ _ _ Dn) delta 0 (repeat None (total p)))
    as (perm & E & L & H1 & H2).
  - rewrite (d_cols _ _ _ Dn). lia.
  - rewrite repeat_length. apply Forall_impl with (2 := d_ltc _ _ _ Dn).
    intros c Hc. unfold total. lia.
  - exists perm. split; [exact E|]. rewrite repeat_length in L. split; [exact L|].
    rewrite (d_cols _ _ _ Dn) in H1, H2. split.
    + intros i Hi. apply H1. lia.
    + intros c Hc. rewrite H2.
      * destruct (Nat.ltb_spec c (total p)) as [X|X].
        -- apply nth_repeat.
        -- apply nth_overflow. rewrite repeat_length. exact X.
      * intros i Hi E'. apply Hc. rewrite <- E'. apply tcol_In. lia.
Qed.

Lemma pinv_some perm c j : pinv perm -> nth c perm None = Some j -> j < delta /\ c = tcol j.
Proof.
  intros (L & H1 & H2) E. destruct (in_dec Nat.eq_dec c (tri_cols o)) as [I|I].
  - destruct (tri_col_index c I) as (i & Hi & <-). rewrite H1 in E by exact Hi.
    injection E as <-. auto.
  - rewrite H2 in E by exact I. discriminate.
Qed.

Lemma through_tri perm f c : pinv perm -> through perm (fun j => f (tcol j)) c = on_tri f c.
Proof.
  intros P. unfold through, on_tri. destruct (mem c (tri_cols o)) eqn:E.
  - apply mem_In in E. destruct (tri_col_index c E) as (i & Hi & <-).
    rewrite (proj1 (proj2 P)) by exact Hi. reflexivity.
  - apply mem_false in E. rewrite (proj2 (proj2 P)) by exact E. reflexivity.
Qed.

Lemma row_good r : NoDup (row r) /\ Forall (fun c => c < total p) (row r).
Proof.
  rewrite (d_rows _ _ _ Dn).
  destruct (row_ok (msize p) (map (row_of p) ds) (rows_ok_map p ds G) r) as [A B].
  split; [exact A|]. apply Forall_impl with (2 := B). unfold total. intros; lia.
Qed.

Definition ind (x y : nat) : N := if Nat.eqb y x then 1%N else 0%N.

Lemma ind_sum x l : NoDup l -> xs (ind x) l = if mem x l then 1%N else 0%N.
Proof.
  intros ND. destruct (mem x l) eqn:E.
  - apply mem_In in E. rewrite xs_one with (a := x); auto.
    + unfold ind. rewrite Nat.eqb_refl. reflexivity.
    + intros y _ N. unfold ind. destruct (Nat.eqb_spec y x); [contradiction|reflexivity].
  - apply mem_false in E. apply xs_0. intros y Hy. unfold ind.
    destruct (Nat.eqb_spec y x); [subst; contradiction|reflexivity].
Qed.

Lemma sorted_NoDup l : StronglySorted gt l -> NoDup l.
Proof.
  induction 1 as [|x l S IH F]; constructor; auto.
  intros H. rewrite Forall_forall in F. specialize (F x H). lia.
Qed.

(** Row [trow j] has column [tcol j] and no [tcol i] with a larger [i]. *)
Lemma row_through perm j x : pinv perm -> j < delta -> j <= x ->
  xs (through perm (ind x)) (row (trow j)) = ind x j.
Proof.
  intros P Hj Hx. destruct (row_good (trow j)) as [ND _].
  destruct (Nat.eq_dec x j) as [->|N].
  - rewrite xs_one with (a := tcol j); auto.
    + unfold through. rewrite (proj1 (proj2 P)) by exact Hj. reflexivity.
    + apply (d_tri _ _ _ Dn). lia.
    + intros c Hc NE. unfold through. destruct (nth c perm None) as [i|] eqn:E; [|reflexivity].
      destruct (pinv_some _ _ _ P E) as [_ ->]. unfold ind.
      destruct (Nat.eqb_spec i j); [subst; contradiction|reflexivity].
  - unfold ind at 2. destruct (Nat.eqb_spec j x); [lia|]. apply xs_0.
    intros c Hc. unfold through. destruct (nth c perm None) as [i|] eqn:E; [|reflexivity].
    destruct (pinv_some _ _ _ P E) as [Hi ->]. unfold ind.
    destruct (Nat.eqb_spec i x) as [->|]; [|reflexivity]. exfalso.
    apply (d_tri2 _ _ _ Dn (delta - x - 1) (delta - j - 1)); [lia|lia|exact Hc].
Qed.

Lemma eliminate_spec perm : pinv perm -> forall k F acc,
  StronglySorted gt F -> Forall (fun j => j < k) F -> Forall (fun j => j < delta) F ->
  exists L, eliminate_loop (S k) o perm F acc = Some (acc ++ L) /\ incl L (tri_rows o)
    /\ forall f, xs (fun j => f (tcol j)) F = xs (fun r => xs (on_tri f) (row r)) L.
Proof.
  intros P. induction k as [|k IH]; intros F acc S B BD.
  - destruct F as [|j F]; [|inversion_clear B; lia].
    exists []. rewrite app_nil_r. split; [reflexivity|]. split; [intros x []|]. reflexivity.
  - destruct F as [|j F].
    { exists []. rewrite app_nil_r. split; [reflexivity|]. split; [intros x []|]. reflexivity. }
    remember (Datatypes.S k) as k' eqn:Ek. cbn [eliminate_loop].
    assert (Hj : j < delta) by (inversion BD; assumption).
    assert (Hjk : j <= k) by (inversion_clear B; lia).
    rewrite rd_nth with (d := 0) by lia. cbn [bind]. fold (trow j).
    assert (Hr : In (trow j) (tri_rows o)) by (apply nth_In; lia).
    assert (Hr' : trow j < length (rows o)).
    { rewrite (d_rows _ _ _ Dn), map_length. apply (d_all _ _ _ Dn). apply in_or_app. auto. }
    rewrite rd_nth with (d := []) by exact Hr'. cbn [bind].
    destruct (row_good (trow j)) as [ND FR].
    destruct (permuted_toggle perm delta) with (cols := row (trow j)) (acc := j :: F)
      as (F' & E & SF & BF & HF).
    + intros c i Ei. apply (pinv_some perm c i P Ei).
    + rewrite (proj1 P). exact FR.
    + exact S.
    + exact BD.
    + rewrite E. cbn [bind].
      assert (Low : Forall (fun x => x < j) F').
      { apply Forall_forall. intros x Hx. destruct (Nat.ltb_spec x j) as [?|Ge]; [assumption|].
        exfalso. assert (Hs := HF (ind x)).
        rewrite (ind_sum x F' (sorted_NoDup _ SF)), (proj2 (mem_In x F') Hx) in Hs.
        rewrite row_through in Hs by assumption.
        rewrite xs_cons, xs_0 in Hs.
        - rewrite N.lxor_0_r, N.lxor_nilpotent in Hs. discriminate.
        - intros y Hy. inversion_clear S as [|? ? _ FF]. rewrite Forall_forall in FF.
          specialize (FF y Hy). unfold ind. destruct (Nat.eqb_spec y x); [lia|reflexivity]. }
      subst k'.
      destruct (IH F' (acc ++ [trow j])) as (L & EL & IL & HL).
      * exact SF.
      * apply Forall_impl with (2 := Low). intros; lia.
      * exact BF.
      * exists (trow j :: L). rewrite EL, <- app_assoc. split; [reflexivity|]. split.
        -- intros x [<-|Hx]; auto.
        -- intros f. rewrite (xs_cons (fun r => xs (on_tri f) (row r))).
           rewrite <- HL, HF.
           rewrite (xs_ext (through perm (fun j0 => f (tcol j0))) (on_tri f))
             by (intros; apply through_tri; exact P).
           rewrite N.lxor_comm, N.lxor_assoc, N.lxor_nilpotent. rewrite N.lxor_0_r. reflexivity.
Qed.

Lemma list_eqb_eq a : forall b, list_eqb a b = true -> a = b.
Proof.
  induction a as [|x a IH]; destruct b as [|y b]; cbn; try discriminate; auto.
  rewrite andb_true_iff, Nat.eqb_eq. intros [-> H]. f_equal. auto.
Qed.

Lemma fc_row_spec i acc : i < length (gap_rows o) ->
  exists L, fc_row p o i acc = Some (acc ++ L) /\ incl L (tri_rows o)
    /\ forall f, xs (on_tri f) (row (nth i (gap_rows o) 0))
                 = xs (fun r => xs (on_tri f) (row r)) L.
Proof.
  intros Hi. unfold fc_row.
  rewrite rd_nth with (d := 0) by exact Hi. cbn [bind].
  rewrite rd_nth with (d := 0) by (rewrite (d_gf _ _ _ Dn); exact Hi). cbn [bind].
  set (g0 := nth i (gap_rows o) 0). set (g1 := nth i (gap_first o) 0).
  assert (H0 : g0 < length (rows o)).
  { rewrite (d_rows _ _ _ Dn), map_length. apply (d_all _ _ _ Dn). apply in_or_app. right.
    apply nth_In. exact Hi. }
  assert (H1t : In g1 (tri_rows o)).
  { apply (d_gfin _ _ _ Dn). apply nth_In. rewrite (d_gf _ _ _ Dn). exact Hi. }
  assert (H1 : g1 < length (rows o)).
  { rewrite (d_rows _ _ _ Dn), map_length. apply (d_all _ _ _ Dn). apply in_or_app. auto. }
  rewrite !rd_nth with (d := []) by assumption. cbn [bind].
  destruct (list_eqb (row g0) (row g1)) eqn:E.
  - apply list_eqb_eq in E. exists [g1]. split; [reflexivity|]. split.
    + intros x [<-|[]]. exact H1t.
    + intros f. rewrite E, xs_cons. cbn. rewrite N.lxor_0_r. reflexivity.
  - destruct make_perm as (perm & EP & P). rewrite EP. cbn [bind].
    destruct (row_good g0) as [ND FR].
    rewrite permuted_insert; [|intros c c' j A B|exact ND|intros ? ? _ _ []].
    2:{ rewrite (proj2 (pinv_some _ _ _ P A)). symmetry. apply (pinv_some _ _ _ P B). }
    destruct (permuted_toggle perm delta) with (cols := row g0) (acc := @nil nat)
      as (F & EF & SF & BF & HF).
    + intros c j Ej. apply (pinv_some perm c j P Ej).
    + rewrite (proj1 P). exact FR.
    + constructor.
    + constructor.
    + rewrite EF. cbn [bind].
      destruct (eliminate_spec perm P delta F acc SF BF BF) as (L & EL & IL & HL).
      exists L. split; [exact EL|]. split; [exact IL|].
      intros f. rewrite <- HL, HF. cbn [xs map fold_right]. rewrite N.lxor_0_l.
      apply xs_ext. intros c _. symmetry. apply through_tri. exact P.
Qed.

(** What [FC_1[i]] has to contain *)
Definition cancels (i : nat) (L : list nat) : Prop :=
  incl L (tri_rows o)
  /\ forall f, xs (on_tri f) (row (nth i (gap_rows o) 0))
               = xs (fun r => xs (on_tri f) (row r)) L.

Lemma all_some_all {A B} (f : A -> option B) (R : A -> B -> Prop) l :
  (forall x, In x l -> exists y, f x = Some y /\ R x y) ->
  exists r, all_some (map f l) = Some r /\ Forall2 R l r.
Proof.
  induction l as [|x l IH]; intros H; [exists []; split; [reflexivity|constructor]|].
  destruct (H x (or_introl eq_refl)) as (y & E & Hy).
  destruct IH as (r & Er & Hr); [intros; apply H; right; auto|].
  exists (y :: r). cbn [map all_some]. rewrite E. cbn [bind]. rewrite Er.
  split; [reflexivity|constructor; auto].
Qed.

Lemma Forall2_nth {A B} (R : A -> B -> Prop) l r da db :
  Forall2 R l r -> length r = length l
  /\ forall i, i < length l -> R (nth i l da) (nth i r db).
Proof.
  induction 1 as [|x y l r H F IH]; [split; [reflexivity|cbn; lia]|].
  destruct IH as [L IH]. cbn [length]. split; [lia|].
  intros [|i] Hi; [exact H|]. apply IH. cbn in Hi. lia.
Qed.

Lemma all_some_seq {B} (f : nat -> option B) (R : nat -> B -> Prop) n d :
  (forall i, i < n -> exists y, f i = Some y /\ R i y) ->
  exists r, all_some (map f (seq 0 n)) = Some r /\ length r = n
    /\ forall i, i < n -> R i (nth i r d).
Proof.
  intros H. destruct (all_some_all f R (seq 0 n)) as (r & E & F).
  - intros x Hx. apply in_seq in Hx. apply H. lia.
  - exists r. split; [exact E|]. destruct (Forall2_nth _ _ _ 0 d F) as [L F'].
    rewrite seq_length in *. split; [exact L|]. intros i Hi.
    specialize (F' i Hi). rewrite seq_nth in F' by exact Hi. exact F'.
Qed.

Lemma get_FC_1_spec g : g <= length (gap_rows o) ->
  exists F, get_FC_1 p o g = Some F /\ length F = g
    /\ forall i, i < g -> exists L, nth i F [] = nth i (fc o) [] ++ L /\ cancels i L.
Proof.
  intros Hg. unfold get_FC_1.
  apply all_some_seq with
    (R := fun i (x : list nat) => exists L, x = nth i (fc o) [] ++ L /\ cancels i L).
  intros i Hi.
  assert (E0 : nth i (firstn g (fc o) ++ repeat [] (g - length (fc o))) [] = nth i (fc o) []).
  { destruct (Nat.ltb_spec i (length (fc o))) as [H|H].
    - rewrite app_nth1 by (rewrite firstn_length; lia). apply nth_firstn_lt. exact Hi.
    - rewrite app_nth2 by (rewrite firstn_length; lia). rewrite (nth_overflow (fc o)) by exact H.
      match goal with |- nth ?k _ _ = _ => destruct (Nat.ltb_spec k (g - length (fc o))) as [X|X] end.
      + apply nth_repeat.
      + apply nth_overflow. rewrite repeat_length. exact X. }
  rewrite E0. destruct (fc_row_spec i (nth i (fc o) [])) as (L & E & I & H); [lia|].
  exists (nth i (fc o) [] ++ L). split; [exact E|]. exists L. split; [reflexivity|]. split; auto.
Qed.
End FC.

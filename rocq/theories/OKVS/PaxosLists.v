(** The linked lists of columns by weight represent buckets. *)
From Coq Require Import NArith List Bool Lia Arith.
From Verif Require Import Base.ListX OKVS.SparseModel OKVS.PaxosModel.
Import ListNotations.

Lemma rd_nth {A} (l : list A) i d : i < length l -> rd l i = Some (nth i l d).
Proof. intros H. unfold rd. apply nth_error_nth'. exact H. Qed.
Lemma wr_ok {A} (l : list A) i v : i < length l -> wr l i v = Some (upd l i v).
Proof. intros H. unfold wr. destruct (Nat.ltb_spec i (length l)); [reflexivity|lia]. Qed.
Lemma nth_error_upd {A} (l : list A) i j v :
  i < length l ->
  nth_error (upd l i v) j = if Nat.eqb i j then Some v else nth_error l j.
Proof.
  revert i j. induction l as [|x l IH]; intros i j H; [cbn in H; lia|].
  destruct i as [|i], j as [|j]; cbn; auto.
  cbn in H. rewrite (IH i j) by lia. reflexivity.
Qed.
Lemma nth_error_lt {A} (l : list A) i x : nth_error l i = Some x -> i < length l.
Proof. intros H. apply nth_error_Some. congruence. Qed.

Lemma modify_ok nodes c f x :
  nth_error nodes c = Some x ->
  modify nodes c f = Some (upd nodes c (f x)).
Proof.
  intros H. unfold modify, rd. rewrite H. cbn [bind].
  apply wr_ok. apply nth_error_lt in H. exact H.
Qed.

Fixpoint dll (nodes : list node) (w : nat) (p : option nat) (l : list nat) : Prop :=
  match l with
  | [] => True
  | c :: l' => nth_error nodes c = Some (mkNode w (hd_error l') p)
               /\ dll nodes w (Some c) l'
  end.

Lemma dll_frame nodes nodes' w l : forall p,
  (forall x, In x l -> nth_error nodes' x = nth_error nodes x) ->
  dll nodes w p l -> dll nodes' w p l.
Proof.
  induction l as [|c l IH]; intros p F H; [exact I|].
  destruct H as [H1 H2]. split.
  - rewrite F by (left; reflexivity). exact H1.
  - apply IH; [|exact H2]. intros x Hx. apply F. right. exact Hx.
Qed.

Lemma dll_weight nodes w l : forall p c,
  dll nodes w p l -> In c l ->
  exists nx pv, nth_error nodes c = Some (mkNode w nx pv).
Proof.
  induction l as [|x l IH]; intros p c H HI; [contradiction|].
  destruct H as [H1 H2]. destruct HI as [<-|HI]; [eauto|]. eauto.
Qed.

Definition last_opt (p : option nat) (a : list nat) : option nat :=
  match rev a with [] => p | x :: _ => Some x end.

Lemma last_opt_cons p x a : last_opt p (x :: a) = last_opt (Some x) a.
Proof.
  unfold last_opt. cbn [rev]. destruct (rev a) as [|y r]; reflexivity.
Qed.

Lemma dll_at nodes w a c b : forall p,
  dll nodes w p (a ++ c :: b) ->
  nth_error nodes c = Some (mkNode w (hd_error b) (last_opt p a)).
Proof.
  induction a as [|x a IH]; intros p H.
  - exact (proj1 H).
  - rewrite last_opt_cons. apply IH. exact (proj2 H).
Qed.

(** Taking a node out of a list *)
Lemma dll_remove nodes nodes' w c a b : forall p,
  dll nodes w p (a ++ c :: b) -> NoDup (a ++ c :: b) ->
  (forall x, In x (a ++ b) -> Some x <> last_opt None a -> Some x <> hd_error b ->
     nth_error nodes' x = nth_error nodes x) ->
  (forall x pv, last_opt None a = Some x -> nth_error nodes x = Some (mkNode w (Some c) pv) ->
     nth_error nodes' x = Some (mkNode w (hd_error b) pv)) ->
  (forall x nx, hd_error b = Some x -> nth_error nodes x = Some (mkNode w nx (Some c)) ->
     nth_error nodes' x = Some (mkNode w nx (last_opt p a))) ->
  dll nodes' w p (a ++ b).
Proof.
  induction a as [|y a IH]; intros p D ND F1 F2 F3.
  - cbn [app] in *. destruct D as [D1 D2]. destruct b as [|x b]; [exact I|].
    cbn [dll] in D2. destruct D2 as [D2 D3]. split.
    + rewrite (F3 x (hd_error b)); auto.
    + apply dll_frame with (nodes := nodes); [|exact D3].
      intros z Hz. apply F1.
      * right. exact Hz.
      * cbn. discriminate.
      * cbn. intros E. injection E as ->. inversion_clear ND as [|? ? ? ND'].
        inversion_clear ND'. contradiction.
  - cbn [app dll] in D. destruct D as [D1 D2]. cbn [app] in ND.
    inversion_clear ND as [|? ? NI ND']. cbn [app dll].
    assert (E : last_opt None (y :: a) = last_opt (Some y) a) by apply last_opt_cons.
    assert (D2' := D2).
    apply IH in D2.
    + split; [|exact D2].
      destruct a as [|z a].
      * cbn [app] in *. apply (F2 y p); [reflexivity|exact D1].
      * cbn [app hd_error] in *. rewrite <- D1. apply F1.
        -- left. reflexivity.
        -- rewrite last_opt_cons. unfold last_opt.
           destruct (rev (z :: a)) as [|q r] eqn:R.
           ++ apply (f_equal (@length nat)) in R. rewrite rev_length in R. discriminate.
           ++ intros X. injection X as ->. apply NI.
              change (z :: a ++ c :: b) with ((z :: a) ++ c :: b).
              apply in_or_app. left. apply in_rev. rewrite R. left. reflexivity.
        -- destruct b as [|q b]; [discriminate|]. cbn. intros X. injection X as ->.
           apply NI. right. apply in_or_app. right. right. left. reflexivity.
    + exact ND'.
    + intros x Hx N1 N2. apply F1; [right; exact Hx| |exact N2].
      rewrite E. destruct a as [|z a];
        [|rewrite last_opt_cons in *; exact N1].
      intros X. cbn in X. injection X as ->. apply NI.
      apply in_or_app. apply in_app_or in Hx. destruct Hx as [Hx|Hx]; [left; exact Hx|].
      right. right. exact Hx.
    + intros x pv L. apply F2. rewrite E. destruct a as [|z a]; [discriminate|].
      rewrite last_opt_cons in *. exact L.
    + intros x nx Hb Hn. rewrite last_opt_cons in F3. eapply F3; eauto.
Qed.

(** Buckets without trailing empty ones *)
Fixpoint trimB (B : list (list nat)) : list (list nat) :=
  match B with
  | [] => []
  | x :: B' => match trimB B' with
               | [] => match x with [] => [] | _ => [x] end
               | t => x :: t
               end
  end.

Lemma trimB_nil B : trimB (B ++ [[]]) = trimB B.
Proof.
  induction B as [|x B IH]; [reflexivity|]. cbn [app trimB]. rewrite IH. reflexivity.
Qed.
Lemma trimB_cons B x l : trimB (B ++ [x :: l]) = B ++ [x :: l].
Proof.
  induction B as [|y B IH]; [reflexivity|]. cbn [app trimB]. rewrite IH.
  destruct B; reflexivity.
Qed.
Lemma trimB_nth B w : nth w (trimB B) [] = nth w B [].
Proof.
  revert w. induction B as [|x B IH]; intros w; [reflexivity|].
  cbn [trimB]. destruct (trimB B) as [|t T] eqn:E.
  - destruct x as [|y x].
    + destruct w as [|w]; [reflexivity|]. cbn [nth]. rewrite <- IH. destruct w; reflexivity.
    + destruct w as [|w]; [reflexivity|]. cbn [nth]. rewrite <- IH. reflexivity.
  - destruct w as [|w]; [reflexivity|]. cbn [nth]. exact (IH w).
Qed.

Definition trimmed (B : list (list nat)) : Prop := B <> [] /\ last B [] <> [].

Lemma trim_spec B :
  trim (map (@hd_error nat) B)
  = match trimB B with [] => None | t => Some (map (@hd_error nat) t) end.
Proof.
  unfold trim. induction B as [|x B IH] using rev_ind; [reflexivity|].
  rewrite map_app, rev_app_distr. cbn [map rev app].
  destruct x as [|y x].
  - cbn [hd_error trim_rev]. rewrite trimB_nil. exact IH.
  - cbn [hd_error trim_rev]. rewrite trimB_cons.
    transitivity (Some (map (@hd_error nat) (B ++ [y :: x])));
      [|destruct B; reflexivity].
    rewrite map_app. cbn [rev map hd_error].
    rewrite rev_involutive. reflexivity.
Qed.

Lemma trimB_trimmed B : trimB B <> [] -> trimmed (trimB B).
Proof.
  intros H. split; [exact H|]. revert H.
  induction B as [|x B IH] using rev_ind; [intros H; contradiction H; reflexivity|].
  destruct x as [|y x].
  - rewrite trimB_nil. exact IH.
  - rewrite trimB_cons, last_last. discriminate.
Qed.

Lemma trimB_empty B w : trimB B = [] -> nth w B [] = [].
Proof. intros H. rewrite <- trimB_nth, H. destruct w; reflexivity. Qed.

Definition repr (s : lists) (B : list (list nat)) : Prop :=
  snd s = map (@hd_error nat) B
  /\ forall w, NoDup (nth w B []) /\ dll (fst s) w None (nth w B []).

Lemma repr_weight s B w c :
  repr s B -> In c (nth w B []) ->
  exists nx pv, nth_error (fst s) c = Some (mkNode w nx pv).
Proof. intros [_ H] HI. eapply dll_weight; [apply H|exact HI]. Qed.

Lemma repr_unique s B w w' c :
  repr s B -> In c (nth w B []) -> In c (nth w' B []) -> w = w'.
Proof.
  intros R H1 H2.
  destruct (repr_weight _ _ _ _ R H1) as (a & b & E1).
  destruct (repr_weight _ _ _ _ R H2) as (a' & b' & E2). congruence.
Qed.

Lemma nth_upd_B (B : list (list nat)) w w' x :
  w < length B -> nth w' (upd B w x) [] = if Nat.eqb w w' then x else nth w' B [].
Proof.
  intros H. destruct (Nat.eqb_spec w w') as [<-|N].
  - apply nth_upd_same. exact H.
  - apply nth_upd_other. auto.
Qed.

Lemma nth_nonempty_lt (B : list (list nat)) w c : In c (nth w B []) -> w < length B.
Proof.
  intros H. destruct (Nat.ltb_spec w (length B)) as [L|L]; [exact L|].
  rewrite nth_overflow in H by exact L. contradiction.
Qed.

Lemma map_upd {A C} (f : A -> C) l i v : map f (upd l i v) = upd (map f l) i (f v).
Proof.
  revert i. induction l as [|x l IH]; intros i; [destruct i; reflexivity|].
  destruct i as [|i]; cbn; [reflexivity|]. rewrite IH. reflexivity.
Qed.

Definition same_weights (n n' : list node) : Prop :=
  length n' = length n /\
  forall x, option_map weight (nth_error n' x) = option_map weight (nth_error n x).

Lemma same_upd n c x y :
  nth_error n c = Some x -> weight y = weight x -> same_weights n (upd n c y).
Proof.
  intros H E. split; [apply upd_length|]. intros z.
  rewrite nth_error_upd by (apply nth_error_lt in H; exact H).
  destruct (Nat.eqb_spec c z) as [<-|]; [|reflexivity].
  rewrite H. cbn. rewrite E. reflexivity.
Qed.
Lemma same_trans a b c : same_weights a b -> same_weights b c -> same_weights a c.
Proof.
  intros [L1 H1] [L2 H2]. split; [congruence|]. intros x. rewrite H2, H1. reflexivity.
Qed.
Lemma same_refl a : same_weights a a.
Proof. split; reflexivity. Qed.

Lemma last_opt_some a x : last_opt None a = Some x -> In x a.
Proof.
  unfold last_opt. destruct (rev a) as [|y r] eqn:R; [discriminate|].
  intros E. injection E as ->. apply in_rev. rewrite R. left. reflexivity.
Qed.
Lemma hd_some (b : list nat) x : hd_error b = Some x -> In x b.
Proof. destruct b; [discriminate|]. intros E. injection E as ->. left. reflexivity. Qed.

(** The bucket lists after a node is taken out *)
Lemma repr_remove s B w a c b nodes' :
  repr s B -> nth w B [] = a ++ c :: b ->
  (forall x, Some x <> last_opt None a -> Some x <> hd_error b -> x <> c ->
     nth_error nodes' x = nth_error (fst s) x) ->
  (forall x pv, last_opt None a = Some x -> nth_error (fst s) x = Some (mkNode w (Some c) pv) ->
     nth_error nodes' x = Some (mkNode w (hd_error b) pv)) ->
  (forall x nx, hd_error b = Some x -> nth_error (fst s) x = Some (mkNode w nx (Some c)) ->
     nth_error nodes' x = Some (mkNode w nx (last_opt None a))) ->
  forall w', NoDup (nth w' (upd B w (a ++ b)) [])
             /\ dll nodes' w' None (nth w' (upd B w (a ++ b)) []).
Proof.
  intros R E F1 F2 F3 w'.
  assert (Lw : w < length B).
  { apply (nth_nonempty_lt B w c). rewrite E. apply in_or_app. right. left. reflexivity. }
  rewrite nth_upd_B by exact Lw.
  destruct R as [Rh Rd]. destruct (Nat.eqb_spec w w') as [<-|NE].
  - destruct (Rd w) as [ND D]. rewrite E in ND, D. split.
    + apply NoDup_remove_1 in ND. exact ND.
    + eapply dll_remove; [exact D|exact ND| |exact F2|exact F3].
      intros x Hx N1 N2. apply F1; [exact N1|exact N2|].
      intros ->. apply NoDup_remove_2 in ND. contradiction.
  - destruct (Rd w') as [ND D]. split; [exact ND|].
    apply dll_frame with (nodes := fst s); [|exact D].
    intros x Hx.
    assert (X : forall y, In y (nth w B []) -> y <> x).
    { intros y Hy ->. apply NE. eapply repr_unique; [split; [exact Rh|exact Rd]|exact Hy|exact Hx]. }
    rewrite E in X.
    apply F1.
    + intros L. symmetry in L. apply last_opt_some in L.
      apply (X x); [apply in_or_app; left; exact L|reflexivity].
    + intros L. symmetry in L. apply hd_some in L.
      apply (X x); [apply in_or_app; right; right; exact L|reflexivity].
    + intros ->. apply (X c); [apply in_or_app; right; left; reflexivity|reflexivity].
Qed.

Definition without (c : nat) (B B' : list (list nat)) : Prop :=
  forall w x, In x (nth w B' []) <-> x <> c /\ In x (nth w B []).

Lemma without_upd B w a c b :
  (forall w w', In c (nth w B []) -> In c (nth w' B []) -> w = w') ->
  nth w B [] = a ++ c :: b -> NoDup (a ++ c :: b) ->
  without c B (upd B w (a ++ b)).
Proof.
  intros U E ND w' x.
  assert (Hc : In c (nth w B [])) by (rewrite E; apply in_or_app; right; left; reflexivity).
  rewrite nth_upd_B by (apply (nth_nonempty_lt B w c Hc)).
  destruct (Nat.eqb_spec w w') as [<-|NE].
  - rewrite E. split.
    + intros H. split.
      * intros ->. apply NoDup_remove_2 in ND. contradiction.
      * apply in_or_app. apply in_app_or in H. destruct H as [H|H]; [left|right; right]; exact H.
    + intros [N H]. apply in_or_app. apply in_app_or in H.
      destruct H as [H|[H|H]]; [left; exact H|congruence|right; exact H].
  - split; [|intros [_ H]; exact H]. intros H. split; [|exact H].
    intros ->. apply NE. apply U; assumption.
Qed.

Lemma app_nil_nodes (a b : list nat) : a ++ b = [] -> a = [] /\ b = [].
Proof. destruct a; [auto|discriminate]. Qed.

Lemma trimmed_upd B w x : trimmed B -> x <> [] -> trimmed (upd B w x).
Proof.
  intros [N L] Hx. split.
  - intros E. apply (f_equal (@length (list nat))) in E. rewrite upd_length in E.
    destruct B; [auto|discriminate].
  - destruct (exists_last N) as (B' & y & ->). rewrite last_last in L.
    destruct (Nat.ltb_spec w (length B')) as [H|H].
    + rewrite upd_app_l by exact H. rewrite last_last. exact L.
    + rewrite upd_app_r by exact H. destruct (w - length B') as [|q]; cbn [upd];
        rewrite last_last; assumption.
Qed.

(** [pop] *)
Lemma pop_spec s B w c :
  repr s B -> trimmed B -> In c (nth w B []) ->
  match pop s c with
  | None => forall w' x, In x (nth w' B []) -> x = c
  | Some s' => exists B', repr s' B' /\ trimmed B' /\ without c B B'
                 /\ same_weights (fst s) (fst s')
                 /\ nth_error (fst s') c = Some (mkNode w None None)
  end.
Proof.
  intros R T HI.
  assert (Lw := nth_nonempty_lt _ _ _ HI).
  destruct (in_split _ _ HI) as (a & b & E).
  destruct (proj2 R w) as [ND D]. rewrite E in ND, D.
  assert (At := dll_at _ _ _ _ _ _ D).
  assert (U : forall w w', In c (nth w B []) -> In c (nth w' B []) -> w = w').
  { intros w1 w2. eapply repr_unique. exact R. }
  assert (Wo := without_upd B w a c b U E ND).
  destruct s as [nodes wset]. cbn [fst snd] in *.
  assert (Hws : wset = map (@hd_error nat) B) by exact (proj1 R).
  assert (Rw : rd wset w = Some (hd_error (nth w B []))).
  { rewrite Hws. unfold rd. rewrite nth_error_map.
    rewrite (nth_error_nth' B [] Lw). reflexivity. }
  assert (Lws : w < length wset) by (rewrite Hws, map_length; exact Lw).
  unfold pop. unfold rd at 1. rewrite At. cbn [bind prev next weight].
  destruct a as [|a0 a].
  - (* head of its list *)
    change (last_opt None []) with (@None nat) in *. cbn iota. rewrite Rw, E. cbn [app hd_error bind].
    rewrite Nat.eqb_refl.
    destruct b as [|x b]; cbn [hd_error].
    + rewrite wr_ok by exact Lws. cbn [bind].
      assert (Et : upd wset w None = map (@hd_error nat) (upd B w [])).
      { rewrite map_upd, <- Hws. reflexivity. }
      rewrite Et, trim_spec.
      destruct (trimB (upd B w [])) as [|t0 t] eqn:ET; cbn [bind].
      * intros w' x Hx.
        destruct (Nat.eq_dec x c) as [->|N]; [reflexivity|exfalso].
        assert (In x (nth w' (upd B w []) [])) as HX by (apply Wo; auto).
        rewrite (trimB_empty _ w' ET) in HX. contradiction.
      * rewrite (modify_ok _ _ _ _ At). cbn [bind]. cbn [set_prev set_next prev next weight].
        rewrite <- ET.
        exists (trimB (upd B w [])).
        assert (TN : trimB (upd B w []) <> []) by (rewrite ET; discriminate).
        repeat split.
        -- rewrite trimB_nth.
           refine (proj1 (repr_remove (nodes, wset) B w [] c [] (upd nodes c (mkNode w None None)) R E _ _ _ w0)); cbn; try discriminate.
           intros x _ _ N. rewrite nth_error_upd by (apply nth_error_lt in At; exact At).
           destruct (Nat.eqb_spec c x); [congruence|reflexivity].
        -- rewrite trimB_nth.
           refine (proj2 (repr_remove (nodes, wset) B w [] c [] (upd nodes c (mkNode w None None)) R E _ _ _ w0)); cbn; try discriminate.
           intros x _ _ N. rewrite nth_error_upd by (apply nth_error_lt in At; exact At).
           destruct (Nat.eqb_spec c x); [congruence|reflexivity].
        -- exact TN.
        -- apply (trimB_trimmed _ TN).
        -- rewrite trimB_nth in H. apply Wo in H. apply H.
        -- rewrite trimB_nth in H. apply Wo in H. apply H.
        -- intros H. rewrite trimB_nth. apply Wo. exact H.
        -- cbn [fst]. apply upd_length.
        -- cbn [fst]. intros x. eapply (same_upd _ _ _ _ At); reflexivity.
        -- cbn [fst]. rewrite nth_error_upd by (apply nth_error_lt in At; exact At).
           rewrite Nat.eqb_refl. reflexivity.
    + rewrite wr_ok by exact Lws. cbn [bind].
      assert (Nx : exists nx, nth_error nodes x = Some (mkNode w nx (Some c))).
      { cbn [app dll] in D. destruct D as [_ [D _]]. eauto. }
      destruct Nx as (nx & Nx).
      assert (Ncx : c <> x).
      { intros ->. inversion_clear ND as [|? ? H _]. apply H. left. reflexivity. }
      rewrite (modify_ok _ _ _ _ Nx). cbn [bind set_prev next weight prev].
      assert (Nc : nth_error (upd nodes x (mkNode w nx None)) c
                   = Some (mkNode w (Some x) None)).
      { rewrite nth_error_upd by (apply nth_error_lt in Nx; exact Nx).
        destruct (Nat.eqb_spec x c); [congruence|]. exact At. }
      rewrite (modify_ok _ _ _ _ Nc). cbn [bind set_prev set_next next weight prev].
      set (nodes' := upd (upd nodes x (mkNode w nx None)) c (mkNode w None None)).
      assert (G : forall z, nth_error nodes' z =
                  if Nat.eqb c z then Some (mkNode w None None)
                  else if Nat.eqb x z then Some (mkNode w nx None) else nth_error nodes z).
      { intros z. unfold nodes'. rewrite nth_error_upd by (rewrite upd_length; apply nth_error_lt in At; exact At).
        rewrite nth_error_upd by (apply nth_error_lt in Nx; exact Nx). reflexivity. }
      assert (RR := repr_remove (nodes, wset) B w [] c (x :: b) nodes' R E).
      exists (upd B w (x :: b)). repeat split.
      * cbn [snd]. rewrite map_upd, <- Hws. reflexivity.
      * refine (proj1 (RR _ _ _ w0)); cbn; try discriminate.
        -- intros z _ N1 N2. rewrite G. destruct (Nat.eqb_spec c z); [congruence|].
           destruct (Nat.eqb_spec x z); [congruence|reflexivity].
        -- intros z nz Ez Hz. injection Ez as <-. rewrite G.
           destruct (Nat.eqb_spec c x); [congruence|]. rewrite Nat.eqb_refl. congruence.
      * refine (proj2 (RR _ _ _ w0)); cbn; try discriminate.
        -- intros z _ N1 N2. rewrite G. destruct (Nat.eqb_spec c z); [congruence|].
           destruct (Nat.eqb_spec x z); [congruence|reflexivity].
        -- intros z nz Ez Hz. injection Ez as <-. rewrite G.
           destruct (Nat.eqb_spec c x); [congruence|]. rewrite Nat.eqb_refl. congruence.
      * apply (trimmed_upd B w (x :: b) T). discriminate.
      * apply (trimmed_upd B w (x :: b) T). discriminate.
      * apply (Wo w0 x0). exact H.
      * apply (Wo w0 x0). exact H.
      * intros H. apply Wo. exact H.
      * cbn [fst]. unfold nodes'. rewrite !upd_length. reflexivity.
      * cbn [fst]. intros z. rewrite G. destruct (Nat.eqb_spec c z) as [<-|]; [rewrite At; reflexivity|].
        destruct (Nat.eqb_spec x z) as [<-|]; [rewrite Nx; reflexivity|reflexivity].
      * cbn [fst]. rewrite G, Nat.eqb_refl. reflexivity.
  - (* inside its list *)
    set (A := a0 :: a) in *.
    assert (LA : exists y, last_opt None A = Some y).
    { unfold last_opt, A. destruct (rev (a0 :: a)) as [|y r] eqn:R'; [|eauto].
      apply (f_equal (@length nat)) in R'. rewrite rev_length in R'. discriminate. }
    destruct LA as (y & LA). rewrite LA.
    assert (InA := last_opt_some _ _ LA).
    assert (Ny : exists pv, nth_error nodes y = Some (mkNode w (Some c) pv)).
    { destruct (exists_last (l := A)) as (A' & y' & EA); [discriminate|].
      assert (y' = y).
      { rewrite EA in LA. unfold last_opt in LA. rewrite rev_app_distr in LA.
        cbn in LA. congruence. }
      subst y'. rewrite EA, <- app_assoc in D. cbn [app] in D.
      apply dll_at in D. eauto. }
    destruct Ny as (pv & Ny).
    assert (Nyc : y <> c).
    { intros ->. apply NoDup_remove_2 in ND. apply ND. apply in_or_app. left. exact InA. }
    assert (NEm : A ++ b <> []) by discriminate.
    assert (Hd : hd_error (A ++ b) = hd_error (nth w B [])).
    { rewrite E. reflexivity. }
    assert (Hset : wset = map (@hd_error nat) (upd B w (A ++ b))).
    { rewrite map_upd, Hd, Hws. symmetry.
      assert (GG : forall (l : list (option nat)) i d, i < length l -> upd l i (nth i l d) = l).
      { induction l as [|z l IH]; intros i d; [cbn; lia|].
        destruct i as [|i]; [reflexivity|]. cbn. intros HH. rewrite IH by lia. reflexivity. }
      rewrite <- (GG (map (@hd_error nat) B) w None) at 2
        by (rewrite map_length; exact Lw).
      f_equal. change None with (hd_error (@nil nat)). rewrite map_nth. reflexivity. }
    destruct b as [|x b]; cbn [hd_error].
    + rewrite (modify_ok _ _ _ _ Ny). cbn [bind set_next prev next weight].
      assert (Nc : nth_error (upd nodes y (mkNode w None pv)) c
                   = Some (mkNode w None (Some y))).
      { rewrite nth_error_upd by (apply nth_error_lt in Ny; exact Ny).
        destruct (Nat.eqb_spec y c); [congruence|]. rewrite At, LA. reflexivity. }
      rewrite (modify_ok _ _ _ _ Nc). cbn [bind set_prev set_next next weight prev].
      set (nodes' := upd (upd nodes y (mkNode w None pv)) c (mkNode w None None)).
      assert (G : forall z, nth_error nodes' z =
                  if Nat.eqb c z then Some (mkNode w None None)
                  else if Nat.eqb y z then Some (mkNode w None pv) else nth_error nodes z).
      { intros z. unfold nodes'. rewrite nth_error_upd by (rewrite upd_length; apply nth_error_lt in At; exact At).
        rewrite nth_error_upd by (apply nth_error_lt in Ny; exact Ny). reflexivity. }
      assert (RR : forall w', NoDup (nth w' (upd B w (A ++ [])) [])
             /\ dll nodes' w' None (nth w' (upd B w (A ++ [])) [])).
      { apply (repr_remove (nodes, wset) B w A c [] nodes' R E); rewrite ?LA; cbn; try discriminate.
        - intros z N1 _ N2. rewrite G. destruct (Nat.eqb_spec c z); [congruence|].
          destruct (Nat.eqb_spec y z); [congruence|reflexivity].
        - intros z qv Ez Hz. injection Ez as <-. rewrite G.
          destruct (Nat.eqb_spec c y); [congruence|]. rewrite Nat.eqb_refl. congruence. }
      exists (upd B w (A ++ [])). split; [split; [exact Hset|exact RR]|].
      split; [apply trimmed_upd; assumption|]. split; [exact Wo|]. split.
      * split; [cbn [fst]; unfold nodes'; rewrite !upd_length; reflexivity|].
        cbn [fst]. intros z. rewrite G. destruct (Nat.eqb_spec c z) as [<-|]; [rewrite At; reflexivity|].
        destruct (Nat.eqb_spec y z) as [<-|]; [rewrite Ny; reflexivity|reflexivity].
      * cbn [fst]. rewrite G, Nat.eqb_refl. reflexivity.
    + rewrite (modify_ok _ _ _ _ Ny). cbn [bind set_next prev next weight].
      assert (Nx : exists nx, nth_error nodes x = Some (mkNode w nx (Some c))).
      { replace (A ++ c :: x :: b) with ((A ++ [c]) ++ x :: b) in D
          by (rewrite <- app_assoc; reflexivity).
        apply dll_at in D. unfold last_opt in D. rewrite rev_app_distr in D. cbn in D. eauto. }
      destruct Nx as (nx & Nx).
      assert (Nxc : x <> c).
      { intros ->. apply NoDup_remove_2 in ND. apply ND. apply in_or_app. right. left. reflexivity. }
      assert (Nxy : y <> x).
      { intros ->. apply in_split in InA. destruct InA as (u & v & EA).
        rewrite EA, <- app_assoc in ND. cbn [app] in ND. apply NoDup_remove_2 in ND.
        apply ND. apply in_or_app. right. apply in_or_app. right. right. left. reflexivity. }
      assert (Nx' : nth_error (upd nodes y (mkNode w (Some x) pv)) x
                    = Some (mkNode w nx (Some c))).
      { rewrite nth_error_upd by (apply nth_error_lt in Ny; exact Ny).
        destruct (Nat.eqb_spec y x); [congruence|]. exact Nx. }
      rewrite (modify_ok _ _ _ _ Nx'). cbn [bind set_prev prev next weight].
      assert (Nc : nth_error (upd (upd nodes y (mkNode w (Some x) pv)) x (mkNode w nx (Some y))) c
                   = Some (mkNode w (Some x) (Some y))).
      { rewrite nth_error_upd by (rewrite upd_length; apply nth_error_lt in Nx; exact Nx).
        destruct (Nat.eqb_spec x c); [congruence|].
        rewrite nth_error_upd by (apply nth_error_lt in Ny; exact Ny).
        destruct (Nat.eqb_spec y c); [congruence|]. rewrite At, LA. reflexivity. }
      rewrite (modify_ok _ _ _ _ Nc). cbn [bind set_prev set_next next weight prev].
      set (nodes' := upd (upd (upd nodes y (mkNode w (Some x) pv)) x (mkNode w nx (Some y))) c
                         (mkNode w None None)).
      assert (G : forall z, nth_error nodes' z =
                  if Nat.eqb c z then Some (mkNode w None None)
                  else if Nat.eqb x z then Some (mkNode w nx (Some y))
                  else if Nat.eqb y z then Some (mkNode w (Some x) pv) else nth_error nodes z).
      { intros z. unfold nodes'.
        rewrite nth_error_upd by (rewrite !upd_length; apply nth_error_lt in At; exact At).
        rewrite nth_error_upd by (rewrite upd_length; apply nth_error_lt in Nx; exact Nx).
        rewrite nth_error_upd by (apply nth_error_lt in Ny; exact Ny). reflexivity. }
      assert (RR : forall w', NoDup (nth w' (upd B w (A ++ x :: b)) [])
             /\ dll nodes' w' None (nth w' (upd B w (A ++ x :: b)) [])).
      { apply (repr_remove (nodes, wset) B w A c (x :: b) nodes' R E); rewrite ?LA; cbn [fst hd_error].
        - intros z N1 N3 N2. rewrite G. destruct (Nat.eqb_spec c z); [congruence|].
          destruct (Nat.eqb_spec x z); [congruence|].
          destruct (Nat.eqb_spec y z); [congruence|reflexivity].
        - intros z qv Ez Hz. injection Ez as <-. rewrite G.
          destruct (Nat.eqb_spec c y); [congruence|].
          destruct (Nat.eqb_spec x y); [congruence|]. rewrite Nat.eqb_refl. congruence.
        - intros z qv Ez Hz. injection Ez as <-. rewrite G.
          destruct (Nat.eqb_spec c x); [congruence|]. rewrite Nat.eqb_refl. congruence. }
      exists (upd B w (A ++ x :: b)). split; [split; [exact Hset|exact RR]|].
      split; [apply trimmed_upd; assumption|]. split; [exact Wo|]. split.
      * split; [cbn [fst]; unfold nodes'; rewrite !upd_length; reflexivity|].
        cbn [fst]. intros z. rewrite G. destruct (Nat.eqb_spec c z) as [<-|]; [rewrite At; reflexivity|].
        destruct (Nat.eqb_spec x z) as [<-|]; [rewrite Nx; reflexivity|].
        destruct (Nat.eqb_spec y z) as [<-|]; [rewrite Ny; reflexivity|reflexivity].
      * cbn [fst]. rewrite G, Nat.eqb_refl. reflexivity.
Qed.

(** [push] *)
Lemma nth_extend (B : list (list nat)) k w : nth w (B ++ repeat [] k) [] = nth w B [].
Proof.
  destruct (Nat.ltb_spec w (length B)) as [H|H].
  - apply app_nth1. exact H.
  - rewrite app_nth2 by exact H. rewrite (nth_overflow B) by exact H.
    destruct (Nat.ltb_spec (w - length B) k) as [K|K].
    + apply nth_repeat.
    + apply nth_overflow. rewrite repeat_length. exact K.
Qed.

Definition with_col (c w0 : nat) (B B' : list (list nat)) : Prop :=
  forall w x, In x (nth w B' []) <-> (x = c /\ w = w0) \/ In x (nth w B []).

Lemma map_repeat {A C} (f : A -> C) x k : map f (repeat x k) = repeat (f x) k.
Proof. induction k; cbn; congruence. Qed.

Lemma push_spec s B w c :
  repr s B ->
  nth_error (fst s) c = Some (mkNode w None None) ->
  (forall w', ~ In c (nth w' B [])) ->
  exists s' B', push s c = Some s' /\ repr s' B' /\ (trimmed B -> trimmed B')
                /\ with_col c w B B'
                /\ same_weights (fst s) (fst s')
                /\ length B' = Nat.max (length B) (S w).
Proof.
  intros R At NI. destruct s as [nodes wset]. cbn [fst] in *.
  assert (Hws : wset = map (@hd_error nat) B) by exact (proj1 R).
  set (Bx := B ++ repeat [] (S w - length B)).
  assert (Lx : w < length Bx).
  { unfold Bx. rewrite app_length, repeat_length. lia. }
  assert (Ex : wset ++ repeat None (S w - length wset) = map (@hd_error nat) Bx).
  { unfold Bx. rewrite map_app, map_repeat, Hws, map_length. reflexivity. }
  unfold push. unfold rd at 1. rewrite At. cbn [bind weight]. rewrite Ex.
  assert (Rw : rd (map (@hd_error nat) Bx) w = Some (hd_error (nth w B []))).
  { unfold rd. rewrite nth_error_map, (nth_error_nth' Bx [] Lx). cbn [option_map].
    unfold Bx. rewrite nth_extend. reflexivity. }
  rewrite Rw. cbn [bind].
  assert (Tr : trimmed B -> trimmed (upd Bx w (c :: nth w B []))).
  { intros [_ T]. destruct (Nat.ltb_spec w (length B)) as [H|H].
    - unfold Bx. replace (S w - length B) with 0 by lia. cbn [repeat].
      rewrite app_nil_r. apply trimmed_upd; [|discriminate].
      destruct B as [|b0 B0]; [cbn in H; lia|]. split; [discriminate|exact T].
    - assert (EL : length Bx = S w).
      { unfold Bx. rewrite app_length, repeat_length. lia. }
      assert (NB : Bx <> []) by (intros X; rewrite X in EL; discriminate).
      destruct (exists_last NB) as (B0 & y & E0). rewrite E0 in *.
      rewrite app_length in EL. cbn [length] in EL.
      rewrite upd_app_r by lia. replace (w - length B0) with 0 by lia. cbn [upd].
      split; [destruct B0; discriminate|]. rewrite last_last. discriminate. }
  assert (Ln : forall x, length (upd Bx w x) = Nat.max (length B) (S w)).
  { intros x. rewrite upd_length. unfold Bx. rewrite app_length, repeat_length. lia. }
  assert (Wc : with_col c w B (upd Bx w (c :: nth w B []))).
  { intros w' x. rewrite nth_upd_B by exact Lx. unfold Bx. rewrite nth_extend.
    destruct (Nat.eqb_spec w w') as [<-|N].
    - split.
      + intros [<-|H]; [left; auto|right; exact H].
      + intros [[-> _]|H]; [left; reflexivity|right; exact H].
    - split; [auto|]. intros [[_ X]|H]; [congruence|exact H]. }
  destruct (proj2 R w) as [NDw Dw]. cbn [fst] in Dw.
  assert (Oth : forall nodes',
     (forall x, x <> c -> Some x <> hd_error (nth w B []) -> nth_error nodes' x = nth_error nodes x) ->
     nth_error nodes' c = Some (mkNode w (hd_error (nth w B [])) None) ->
     (forall x nx, hd_error (nth w B []) = Some x -> nth_error nodes x = Some (mkNode w nx None) ->
        nth_error nodes' x = Some (mkNode w nx (Some c))) ->
     forall w', NoDup (nth w' (upd Bx w (c :: nth w B [])) [])
                /\ dll nodes' w' None (nth w' (upd Bx w (c :: nth w B [])) [])).
  { intros nodes' F1 F2 F3 w'. rewrite nth_upd_B by exact Lx. unfold Bx. rewrite nth_extend.
    destruct (Nat.eqb_spec w w') as [<-|N].
    - split; [constructor; [apply NI|exact NDw]|]. cbn [dll]. split; [exact F2|].
      specialize (NI w). destruct (nth w B []) as [|x l] eqn:EL; [exact I|].
      cbn [dll hd_error] in *. destruct Dw as [D1 D2]. split.
      + apply (F3 x _ eq_refl D1).
      + apply dll_frame with (nodes := nodes); [|exact D2].
        intros z Hz. apply F1.
        * intros ->. apply NI. right. exact Hz.
        * intros X. injection X as ->. inversion_clear NDw. contradiction.
    - destruct (proj2 R w') as [ND' D']. split; [exact ND'|].
      apply dll_frame with (nodes := nodes); [|exact D'].
      intros z Hz. apply F1.
      + intros ->. exact (NI w' Hz).
      + intros X. symmetry in X. apply hd_some in X. apply N.
        eapply repr_unique; [exact R|exact X|exact Hz]. }
  assert (Lc := nth_error_lt _ _ _ At).
  destruct (nth w B []) as [|f l] eqn:EL; cbn [hd_error].
  - rewrite wr_ok by (rewrite map_length; exact Lx). cbn [bind].
    eexists. exists (upd Bx w [c]). split; [reflexivity|].
    split; [split|split; [exact Tr|split; [exact Wc|split; [apply same_refl|apply Ln]]]].
    + cbn [snd]. rewrite map_upd. reflexivity.
    + apply Oth; [reflexivity|exact At|discriminate].
  - cbn [dll] in Dw. destruct Dw as [Df Dl].
    assert (Nfc : f <> c).
    { intros ->. apply (NI w). rewrite EL. left. reflexivity. }
    rewrite (modify_ok _ _ _ _ Df). cbn [bind set_prev next weight].
    assert (Nc : nth_error (upd nodes f (mkNode w (hd_error l) (Some c))) c
                 = Some (mkNode w None None)).
    { rewrite nth_error_upd by (apply nth_error_lt in Df; exact Df).
      destruct (Nat.eqb_spec f c); [congruence|exact At]. }
    rewrite (modify_ok _ _ _ _ Nc). cbn [bind set_next prev weight].
    rewrite wr_ok by (rewrite map_length; exact Lx). cbn [bind].
    set (nodes' := upd (upd nodes f (mkNode w (hd_error l) (Some c))) c (mkNode w (Some f) None)).
    assert (G : forall z, nth_error nodes' z =
                if Nat.eqb c z then Some (mkNode w (Some f) None)
                else if Nat.eqb f z then Some (mkNode w (hd_error l) (Some c))
                else nth_error nodes z).
    { intros z. unfold nodes'. rewrite nth_error_upd by (rewrite upd_length; exact Lc).
      rewrite nth_error_upd by (apply nth_error_lt in Df; exact Df). reflexivity. }
    eexists. exists (upd Bx w (c :: f :: l)). split; [reflexivity|].
    split; [split|split; [exact Tr|split; [exact Wc|split; [|apply Ln]]]].
    + cbn [snd]. rewrite map_upd. reflexivity.
    + apply Oth.
      * cbn [hd_error]. intros x N1 N2. rewrite G. destruct (Nat.eqb_spec c x); [congruence|].
        destruct (Nat.eqb_spec f x); [congruence|reflexivity].
      * rewrite G, Nat.eqb_refl. reflexivity.
      * cbn [hd_error]. intros x nx X H. injection X as <-. rewrite G.
        destruct (Nat.eqb_spec c f); [congruence|]. rewrite Nat.eqb_refl. congruence.
    + split; [cbn [fst]; unfold nodes'; rewrite !upd_length; reflexivity|].
      cbn [fst]. intros z. rewrite G. destruct (Nat.eqb_spec c z) as [<-|]; [rewrite At; reflexivity|].
      destruct (Nat.eqb_spec f z) as [<-|]; [rewrite Df; reflexivity|reflexivity].
Qed.

(** What the lists say: every column below [m] that is not in [P] is in the
    list of its weight [W]. *)
Definition linv (m : nat) (W : nat -> nat) (P : list nat) (s : lists) : Prop :=
  exists B, repr s B /\ trimmed B /\ length (fst s) = m
    /\ (forall c, c < m -> option_map weight (nth_error (fst s) c) = Some (W c))
    /\ (forall c w, In c (nth w B []) <-> c < m /\ ~ In c P /\ W c = w).

Lemma linv_ext m W W' P P' s :
  (forall c, c < m -> W c = W' c) -> (forall c, In c P <-> In c P') ->
  linv m W P s -> linv m W' P' s.
Proof.
  intros HW HP (B & R & T & L & Hw & Hb). exists B.
  split; [exact R|]. split; [exact T|]. split; [exact L|]. split.
  - intros c Hc. rewrite <- HW by exact Hc. apply Hw. exact Hc.
  - intros c w. rewrite Hb. split.
    + intros (A & B' & C). rewrite <- HP, <- HW by exact A. auto.
    + intros (A & B' & C). rewrite HP, HW by exact A. auto.
Qed.

(** At most one column is left: then the list of lists would become empty. *)
Definition exhausted (m : nat) (P : list nat) : Prop :=
  exists c, forall x, x < m -> ~ In x P -> x = c.

Lemma exhausted_small m P : exhausted m P -> m <= S (length P).
Proof.
  intros (c & H).
  rewrite <- (seq_length m 0) at 1. change (S (length P)) with (length (c :: P)).
  apply NoDup_incl_length; [apply seq_NoDup|].
  intros x Hx. apply in_seq in Hx.
  destruct (in_dec Nat.eq_dec x P) as [I|I]; [right; exact I|left].
  symmetry. apply H; [lia|exact I].
Qed.

Lemma modify_free s B c x f :
  repr s B -> (forall w, ~ In c (nth w B [])) ->
  nth_error (fst s) c = Some x ->
  repr (upd (fst s) c (f x), snd s) B.
Proof.
  intros [R1 R2] N At. split; [exact R1|]. intros w. destruct (R2 w) as [ND D].
  split; [exact ND|]. apply dll_frame with (nodes := fst s); [|exact D].
  intros z Hz. cbn [fst]. rewrite nth_error_upd by (apply nth_error_lt in At; exact At).
  destruct (Nat.eqb_spec c z) as [<-|]; [|reflexivity]. contradiction (N w).
Qed.

(** Lowering the weight of one column *)
Lemma lower_one m W P s c :
  linv m W P s -> c < m -> ~ In c P -> W c <> 0 ->
  match (s <- pop s c ;;
         nodes <- modify (fst s) c (fun n => set_weight n (weight n - 1)) ;;
         push (nodes, snd s) c) with
  | None => exhausted m P
  | Some s' => linv m (fun x => if Nat.eqb x c then W x - 1 else W x) P s'
  end.
Proof.
  intros (B & R & T & L & Hw & Hb) Hc NP NW.
  assert (HI : In c (nth (W c) B [])) by (apply Hb; auto).
  assert (PS := pop_spec s B (W c) c R T HI).
  destruct (pop s c) as [s1|]; cbn [bind].
  - destruct PS as (B1 & R1 & T1 & Wo & SW & At).
    rewrite (modify_ok _ _ _ _ At). cbn [bind set_weight weight next prev].
    assert (NI : forall w, ~ In c (nth w B1 [])).
    { intros w X. apply Wo in X. apply (proj1 X). reflexivity. }
    assert (R2 := modify_free s1 B1 c _ (fun n => set_weight n (weight n - 1)) R1 NI At).
    cbn [set_weight weight next prev] in R2.
    assert (At2 : nth_error (upd (fst s1) c (mkNode (W c - 1) None None)) c
                  = Some (mkNode (W c - 1) None None)).
    { rewrite nth_error_upd by (apply nth_error_lt in At; exact At).
      rewrite Nat.eqb_refl. reflexivity. }
    destruct (push_spec (upd (fst s1) c (mkNode (W c - 1) None None), snd s1) B1 (W c - 1) c
                R2 At2 NI) as (s2 & B2 & E2 & R3 & T3 & Wi & SW2 & _). specialize (T3 T1).
    unfold set_weight in *. cbn [weight next prev] in *. rewrite E2.
    exists B2. split; [exact R3|]. split; [exact T3|]. cbn [fst] in *.
    destruct SW as [SL SW], SW2 as [SL2 SW2]. rewrite upd_length in SL2.
    split; [congruence|]. split.
    + intros x Hx. rewrite SW2. rewrite nth_error_upd by (apply nth_error_lt in At; exact At).
      rewrite (Nat.eqb_sym c x). destruct (Nat.eqb_spec x c) as [->|]; [reflexivity|].
      rewrite SW. apply Hw. exact Hx.
    + intros x w. rewrite (Wi w x), (Wo w x), Hb.
      destruct (Nat.eqb_spec x c) as [->|N]; split.
      * intros [[_ ->]|[X _]]; [auto|congruence].
      * intros (_ & _ & X). left. auto.
      * intros [[X _]|[_ X]]; [congruence|exact X].
      * intros X. right. auto.
  - exists c. intros x Hx Nx. apply (PS (W x)). apply Hb. auto.
Qed.

Lemma lower_cols_spec m P : forall cols W s,
  linv m W P s -> NoDup cols -> Forall (fun c => c < m) cols ->
  (forall c, In c cols -> In c P -> W c = 0) ->
  (forall c, In c cols -> ~ In c P -> W c <> 0) ->
  match lower_cols cols s with
  | None => exhausted m P
  | Some s' => linv m (fun x => if in_dec Nat.eq_dec x cols then W x - 1 else W x) P s'
  end.
Proof.
  induction cols as [|c cols IH]; intros W s H ND F HP HN.
  - cbn [lower_cols]. eapply linv_ext; [| |exact H]; [|tauto].
    intros x _. destruct (in_dec Nat.eq_dec x []); [contradiction|reflexivity].
  - inversion_clear ND as [|? ? NI ND']. inversion_clear F as [|? ? Fc F'].
    cbn [lower_cols].
    assert (Hw : option_map weight (nth_error (fst s) c) = Some (W c)).
    { destruct H as (B & _ & _ & _ & Hw & _). apply Hw. exact Fc. }
    unfold rd. destruct (nth_error (fst s) c) as [nd|]; [|discriminate].
    cbn [option_map] in Hw. injection Hw as Hw. cbn [bind]. rewrite Hw.
    destruct (Nat.eqb_spec (W c) 0) as [Z|NZ]; cbn [bind].
    + assert (X := IH W s H ND' F' (fun c I => HP c (or_intror I)) (fun c I => HN c (or_intror I))).
      destruct (lower_cols cols s); [|exact X].
      eapply linv_ext; [| |exact X]; [|tauto].
      intros x _. cbn beta. destruct (in_dec Nat.eq_dec x cols), (in_dec Nat.eq_dec x (c :: cols)) as [I|I];
        cbn [In] in *; try reflexivity; try tauto.
      destruct I as [<-|I]; [lia|contradiction].
    + assert (NP : ~ In c P).
      { intros I. apply NZ. apply HP; [left; reflexivity|exact I]. }
      assert (L1 := lower_one m W P s c H Fc NP NZ).
      destruct (s0 <- pop s c;; nodes <- modify (fst s0) c (fun n => set_weight n (weight n - 1)) ;;
                push (nodes, snd s0) c) as [s1|]; cbn [bind]; [|exact L1].
      assert (X := IH _ s1 L1 ND' F').
      destruct (lower_cols cols s1) as [s2|].
      * eapply linv_ext; [| |apply X]; [|tauto| |].
        -- intros x _. cbn beta. destruct (Nat.eqb_spec x c) as [->|N].
           ++ destruct (in_dec Nat.eq_dec c cols); [contradiction|].
              destruct (in_dec Nat.eq_dec c (c :: cols)) as [_|I]; [reflexivity|].
              contradiction I. left. reflexivity.
           ++ destruct (in_dec Nat.eq_dec x cols), (in_dec Nat.eq_dec x (c :: cols)) as [I|I];
                cbn [In] in *; try reflexivity; try tauto.
              destruct I as [<-|I]; [congruence|contradiction].
        -- intros x Ix Px. destruct (Nat.eqb_spec x c) as [->|]; [contradiction|].
           apply HP; [right; exact Ix|exact Px].
        -- intros x Ix Px. destruct (Nat.eqb_spec x c) as [->|]; [contradiction|].
           apply HN; [right; exact Ix|exact Px].
      * apply X.
        -- intros x Ix Px. destruct (Nat.eqb_spec x c) as [->|]; [contradiction|].
           apply HP; [right; exact Ix|exact Px].
        -- intros x Ix Px. destruct (Nat.eqb_spec x c) as [->|]; [contradiction|].
           apply HN; [right; exact Ix|exact Px].
Qed.

(** [find_pop_min_node] *)
Lemma first_list_spec (B : list (list nat)) :
  match first_list (map (@hd_error nat) B) with
  | None => forall w, nth w B [] = []
  | Some c => exists w, In c (nth w B [])
  end.
Proof.
  induction B as [|x B IH]; [intros w; destruct w; reflexivity|].
  cbn [map first_list]. destruct x as [|y x]; cbn [hd_error].
  - destruct (first_list (map (@hd_error nat) B)) as [c|].
    + destruct IH as (w & H). exists (S w). exact H.
    + intros [|w]; [reflexivity|]. apply IH.
  - exists 0. left. reflexivity.
Qed.

Lemma find_pop_min_spec m W P s :
  linv m W P s -> 1 < length (snd s) ->
  match find_pop_min_node s with
  | None => exhausted m P
  | Some (c, s') => c < m /\ ~ In c P /\ W c <> 0
      /\ linv m (fun x => if Nat.eqb x c then 0 else W x) (c :: P) s'
  end.
Proof.
  intros (B & R & T & L & Hw & Hb) Len.
  unfold find_pop_min_node.
  destruct R as [R1 R2]. rewrite R1 in Len |- *. rewrite map_length in Len.
  assert (FS := first_list_spec (tl B)).
  destruct B as [|b0 B0]; [cbn in Len; lia|]. cbn [map tl] in *.
  destruct (first_list (map (@hd_error nat) B0)) as [c|].
  - destruct FS as (w & Hc).
    assert (HI : In c (nth (S w) (b0 :: B0) [])) by exact Hc.
    destruct (proj1 (Hb c (S w)) HI) as (Hc1 & Hc2 & Hc3).
    assert (PS := pop_spec s (b0 :: B0) (S w) c (conj R1 R2) T HI).
    destruct (pop s c) as [s1|]; cbn [bind].
    + destruct PS as (B1 & RR & T1 & Wo & SW & At).
      rewrite (modify_ok _ _ _ _ At). cbn [bind].
      split; [exact Hc1|]. split; [exact Hc2|]. split; [lia|].
      assert (NI : forall w, ~ In c (nth w B1 [])).
      { intros w' X. apply Wo in X. apply (proj1 X). reflexivity. }
      exists B1. split; [exact (modify_free s1 B1 c _ (fun n => set_weight n 0) RR NI At)|].
      split; [exact T1|]. cbn [fst]. destruct SW as [SL SW].
      split; [rewrite upd_length; congruence|]. split.
      * intros x Hx. rewrite nth_error_upd by (apply nth_error_lt in At; exact At).
        rewrite (Nat.eqb_sym c x). destruct (Nat.eqb_spec x c) as [->|]; [reflexivity|].
        rewrite SW. apply Hw. exact Hx.
      * intros x w'. rewrite (Wo w' x), Hb. cbn [In].
        destruct (Nat.eqb_spec x c) as [->|N]; split.
        -- intros [X _]. congruence.
        -- intros (_ & X & _). tauto.
        -- intros (_ & X1 & X2 & X3). repeat split; try assumption.
           intros [Y|Y]; [congruence|contradiction].
        -- intros (X1 & X2 & X3). tauto.
    + exists c. intros x Hx Nx. apply (PS (W x)). apply Hb. auto.
  - exfalso. destruct T as [_ T].
    destruct (exists_last (l := B0)) as (B' & y & E).
    { intros ->. cbn in Len. lia. }
    subst B0. change (b0 :: B' ++ [y]) with ((b0 :: B') ++ [y]) in T.
    rewrite last_last in T. apply T.
    specialize (FS (length B')). rewrite app_nth2, Nat.sub_diag in FS by lia. exact FS.
Qed.

(** No list of a positive weight is left. *)
Lemma linv_end m W P s :
  linv m W P s -> length (snd s) <= 1 -> forall c, c < m -> ~ In c P -> W c = 0.
Proof.
  intros (B & R & T & L & Hw & Hb) Len c Hc NP.
  assert (HI : In c (nth (W c) B [])) by (apply Hb; auto).
  apply nth_nonempty_lt in HI. rewrite (proj1 R), map_length in Len. lia.
Qed.

(** C69, C71: matrix inversion and the enumeration of subsets. *)
From Coq Require Import NArith Arith List Bool Lia ZifyBool ZifyNat ZifyN Sorting.Sorted.
From Verif Require Import Base.Words Base.ListX OKVS.GFModel OKVS.GFProofs
  OKVS.GFInverse OKVS.MatModel OKVS.MatSpec OKVS.MatProofs.
Import ListNotations.
Local Open Scope N_scope.

(** C69, binary matrices (the product of two bits is their conjunction): the
    function accepts exactly the invertible matrices, and then returns the
    inverse. *)
Theorem C69_binary :
  forall n m, square 2 n m ->
  match check_invert m with
  | Some b => inverse_of N.land 2 n m b
  | None => ~ invertible N.land 2 n m
  end.
Proof.
  intros n m SM. unfold check_invert. rewrite (proj1 SM).
  apply (brounds n m SM n 0 m (unit_matrix n) true); [reflexivity|].
  apply (stage_0 N.land 1 N.land_comm N.land_assoc land_lxor_r land_1_l (land_lt 1) eq_refl).
  exact SM.
Qed.
Print Assumptions C69_binary.

(** C69 over GF(2^128): what is returned is the inverse. A matrix is refused
    only if one of its upper left blocks is singular. *)
Theorem C69_gf128_partial :
  forall n m, square (2 ^ 128) n m ->
  match check_invert_gf128 m with
  | Some b => inverse_of gf128_mul (2 ^ 128) n m b
  | None => exists k, (k < n)%nat /\ singular_block gf128_mul (2 ^ 128) k m
  end.
Proof.
  intros n m SM. unfold check_invert_gf128. rewrite (proj1 SM).
  apply (grounds n m SM n 0 m (unit_matrix n) true); [reflexivity| |discriminate].
  apply (stage_0 gf128_mul 128 gf_comm' gf_assoc' gf_add_r gf_1_l gf_mul_in eq_refl).
  exact SM.
Qed.
Print Assumptions C69_gf128_partial.

(** C69 refuted over GF(2^128): the search for a row to swap accepts only the
    entry 1, so every anti-diagonal matrix whose lower left entry is neither 0
    nor 1 is refused, although it has an inverse. *)
Theorem C69_gf128_refuted :
  forall a b, a < 2 ^ 128 -> b < 2 ^ 128 -> a <> 0 -> b <> 0 -> b <> 1 ->
  square (2 ^ 128) 2 [[0; a]; [b; 0]] /\
  check_invert_gf128 [[0; a]; [b; 0]] = None /\
  invertible gf128_mul (2 ^ 128) 2 [[0; a]; [b; 0]].
Proof.
  intros a b Ha Hb Za Zb Zb1.
  assert (SQ : forall x y, x < 2 ^ 128 -> y < 2 ^ 128 ->
    square (2 ^ 128) 2 [[0; x]; [y; 0]]).
  { intros x y Hx Hy. split; [reflexivity|].
    repeat constructor; assumption || reflexivity. }
  split; [apply SQ; assumption|]. split.
  - unfold check_invert_gf128.
    assert (P : with_pivot 2 0 [[0; a]; [b; 0]] (unit_matrix 2)
                = ([[0; a]; [b; 0]], unit_matrix 2)).
    { unfold with_pivot. cbn [entry row nth]. change (0 =? 0) with true. cbv iota.
      change (seq 1 (2 - 1)) with [1%nat]. cbn [find entry row nth].
      replace (b =? 1) with false by lia. reflexivity. }
    cbn [length rounds]. unfold invert_round_gf128. rewrite P. reflexivity.
  - exists [[0; gf128_inv b]; [gf128_inv a; 0]].
    assert (Ia : gf128_inv a < 2 ^ 128) by (rewrite inv_gpow by exact Ha; apply gpow_lt).
    assert (Ib : gf128_inv b < 2 ^ 128) by (rewrite inv_gpow by exact Hb; apply gpow_lt).
    split; [apply SQ; assumption|].
    pose proof (inverse a Ha Za) as Ea. pose proof (inverse b Hb Zb) as Eb.
    revert Ea Eb Ia Ib. generalize (gf128_inv a) (gf128_inv b). intros ia ib Ea Eb Ia Ib.
    intros [|x [|y [|]]] [L Fv]; try discriminate.
    assert (Hx : x < 2 ^ 128) by (inversion Fv; assumption).
    assert (Hy : y < 2 ^ 128) by (inversion Fv as [|? ? ? Fv2]; inversion Fv2; assumption).
    unfold apply, xsum. cbn [length map seq nth fold_right].
    rewrite !gf_0_l, !N.lxor_0_r, !N.lxor_0_l.
    rewrite !gf_assoc', Ea, Eb, (gf_comm' a ia), (gf_comm' b ib), Ea, Eb.
    rewrite !gf_1_l by assumption. split; reflexivity.
Qed.
Print Assumptions C69_gf128_refuted.

Example C69_binary_run :
  square 2 3 [[0;1;1];[1;1;0];[1;0;0]] /\
  check_invert [[0;1;1];[1;1;0];[1;0;0]] = Some [[0;0;1];[0;1;1];[1;1;1]] /\
  check_invert [[0;1;1];[1;1;0];[1;0;1]] = None.
Proof.
  split; [split; [reflexivity|repeat constructor]|]. split; vm_compute; reflexivity.
Qed.

Example C69_gf128_run :
  check_invert_gf128 [[1;3;5];[4;13;2];[1;2;18]] = Some [[206;60;63];[74;23;22];[5;1;1]].
Proof. vm_compute. reflexivity. Qed.

(** ** C71 *)

Lemma subset_step : forall k n c, is_subset k n c -> forall p q,
  (p <= q < k)%nat -> nth p c 0 + N.of_nat (q - p) <= nth q c 0.
Proof.
  intros k n c (L & SS & F) p q Hpq. subst k.
  replace q with (p + (q - p))%nat in * by lia. generalize dependent (q - p)%nat.
  clear q. intros d Hd. replace (p + d - p)%nat with d by lia.
  induction d as [|d IH]; [rewrite Nat.add_0_r; lia|].
  specialize (IH ltac:(lia)).
  assert (T : nth (p + d) c 0 < nth (p + S d) c 0); [|lia].
  clear - SS Hd. revert p Hd. induction SS as [|x l SS IHs Fx]; intros p Hd.
  - cbn in Hd. lia.
  - cbn [length] in Hd. destruct p as [|p].
    + destruct d as [|d].
      * cbn [Nat.add nth]. rewrite Forall_forall in Fx. apply Fx, nth_In. lia.
      * specialize (IHs 0%nat). cbn [Nat.add nth] in *.
        assert (G : forall l (d : nat), StronglySorted N.lt l -> (S d < length l)%nat ->
          nth d l 0 < nth (S d) l 0).
        { clear. induction l as [|y l IH]; intros d SS Hd; [cbn in Hd; lia|].
          inversion SS as [|? ? S' F']. subst. destruct d as [|d].
          - cbn [nth]. rewrite Forall_forall in F'. apply F', nth_In. cbn in Hd. lia.
          - cbn [nth]. apply IH; [exact S'|]. cbn in Hd. lia. }
        apply G; [exact SS|lia].
    + cbn [Nat.add nth]. apply IHs. lia.
Qed.

Lemma subset_intro : forall k n c, length c = k ->
  (forall p, (S p < k)%nat -> nth p c 0 < nth (S p) c 0) ->
  (forall p, (p < k)%nat -> nth p c 0 < n) -> is_subset k n c.
Proof.
  intros k n c L H1 H2. split; [exact L|]. split.
  - subst k. clear H2. induction c as [|x c IH]; [constructor|].
    assert (H1' : forall p, (S p < length c)%nat -> nth p c 0 < nth (S p) c 0).
    { intros p Hp. apply (H1 (S p)). cbn [length]. lia. }
    constructor; [apply IH, H1'|]. apply Forall_forall. intros y Hy.
    apply (In_nth _ _ 0) in Hy as (p & Hp & <-).
    induction p as [|p IHp].
    + apply (H1 0%nat). cbn [length]. lia.
    + specialize (IHp ltac:(lia)). specialize (H1' p Hp). lia.
  - apply Forall_forall. intros y Hy. apply (In_nth _ _ 0) in Hy as (p & Hp & <-).
    apply H2. lia.
Qed.

Lemma subset_bound : forall k n c, is_subset k n c -> forall p, (p < k)%nat ->
  nth p c 0 + N.of_nat (k - p) <= n /\ N.of_nat p <= nth p c 0.
Proof.
  intros k n c H p Hp.
  pose proof (subset_step k n c H p (k - 1) ltac:(lia)) as A.
  pose proof (subset_step k n c H 0 p ltac:(lia)) as B.
  destruct H as (L & SS & F). rewrite Forall_forall in F.
  assert (X : nth (k - 1) c 0 < n) by (apply F, nth_In; lia). lia.
Qed.

Lemma refill_length : forall k c j, length (refill c j k) = length c.
Proof.
  induction k as [|k IH]; intros c j; [reflexivity|]. cbn [refill].
  rewrite IH, upd_length. reflexivity.
Qed.

Lemma refill_nth : forall k c j b, (0 < j)%nat -> (j + k = length c)%nat ->
  nth (j - 1) c 0 = b -> b + N.of_nat k < 256 ->
  forall p, (p < length c)%nat ->
  nth p (refill c j k) 0
  = if Nat.ltb p j then nth p c 0 else b + N.of_nat (p - j + 1).
Proof.
  induction k as [|k IH]; intros c j b Hj Hl Hb Hlt p Hp; cbn [refill].
  - replace (Nat.ltb p j) with true by lia. reflexivity.
  - rewrite Hb, N.mod_small by lia.
    rewrite (IH _ (S j) (b + 1)).
    + destruct (Nat.ltb_spec p (S j)) as [A|A].
      * destruct (Nat.eq_dec p j) as [->|Hne].
        -- rewrite nth_upd_same by lia. replace (Nat.ltb j j) with false by lia. lia.
        -- rewrite nth_upd_other by lia. replace (Nat.ltb p j) with true by lia. reflexivity.
      * replace (Nat.ltb p j) with false by lia. lia.
    + lia.
    + rewrite upd_length. lia.
    + replace (S j - 1)%nat with j by lia. apply nth_upd_same. lia.
    + lia.
    + rewrite upd_length. exact Hp.
Qed.

(** What the loop finds: the last position whose entry is not maximal. *)
Lemma combination_cases : forall k n c, is_subset k n c -> n <= 256 ->
  (0 < k)%nat ->
  match prev_combination c n with
  | None => forall p, (p < k)%nat -> nth p c 0 = n - N.of_nat (k - p)
  | Some c' => exists i, (i < k)%nat /\ nth i c 0 + N.of_nat (k - i) < n /\
      (forall p, (i < p < k)%nat -> nth p c 0 = n - N.of_nat (k - p)) /\
      length c' = k /\
      forall p, (p < k)%nat -> nth p c' 0 =
        if Nat.ltb p i then nth p c 0 else nth i c 0 + 1 + N.of_nat (p - i)
  end.
Proof.
  intros k n c H Hn Hk. pose proof (proj1 H) as L.
  assert (kn : N.of_nat k <= n) by (pose proof (subset_bound k n c H 0 Hk); lia).
  assert (Loop : forall i, (i < k)%nat ->
    (forall p, (i < p < k)%nat -> nth p c 0 = n - N.of_nat (k - p)) ->
    match combination_loop i c n with
    | None => forall p, (p < k)%nat -> nth p c 0 = n - N.of_nat (k - p)
    | Some c' => exists i, (i < k)%nat /\ nth i c 0 + N.of_nat (k - i) < n /\
      (forall p, (i < p < k)%nat -> nth p c 0 = n - N.of_nat (k - p)) /\
      length c' = k /\
      forall p, (p < k)%nat -> nth p c' 0 =
        if Nat.ltb p i then nth p c 0 else nth i c 0 + 1 + N.of_nat (p - i)
    end).
  { assert (Wr : forall i, (i < k)%nat ->
      wrap 64 (n + 2 ^ 64 - N.of_nat (length c) + N.of_nat i) = n - N.of_nat (k - i)).
    { intros i Hi. unfold wrap. rewrite L. symmetry.
      apply N.mod_unique with (q := 1); lia. }
    induction i as [|i IH]; intros Hi Hmax; cbn [combination_loop]; rewrite Wr by exact Hi.
    - destruct (N.ltb_spec (nth 0 c 0) (n - N.of_nat (k - 0))) as [C|C].
      + exists 0%nat. split; [exact Hi|]. split; [lia|]. split; [exact Hmax|].
        rewrite refill_length, upd_length. split; [exact L|]. intros p Hp.
        rewrite N.mod_small by lia.
        rewrite (refill_nth _ _ 1%nat (nth 0 c 0 + 1)).
        * destruct (Nat.ltb_spec p 1) as [A|A].
          -- replace p with 0%nat by lia. rewrite nth_upd_same by lia.
             replace (Nat.ltb 0 0) with false by lia. lia.
          -- replace (Nat.ltb p 0) with false by lia. lia.
        * lia.
        * rewrite upd_length. lia.
        * cbn [Nat.sub]. apply nth_upd_same. lia.
        * lia.
        * rewrite upd_length. lia.
      + intros p Hp. destruct (Nat.eq_dec p 0) as [->|]; [|apply Hmax; lia].
        pose proof (subset_bound k n c H 0 Hk). lia.
    - destruct (N.ltb_spec (nth (S i) c 0) (n - N.of_nat (k - S i))) as [C|C].
      + exists (S i). split; [exact Hi|]. split; [lia|]. split; [exact Hmax|].
        rewrite refill_length, upd_length. split; [exact L|]. intros p Hp.
        rewrite N.mod_small by lia.
        rewrite (refill_nth _ _ (S (S i)) (nth (S i) c 0 + 1)).
        * destruct (Nat.ltb_spec p (S (S i))) as [A|A].
          -- destruct (Nat.eq_dec p (S i)) as [->|].
             ++ rewrite nth_upd_same by lia.
                replace (Nat.ltb (S i) (S i)) with false by lia. lia.
             ++ rewrite nth_upd_other by lia.
                replace (Nat.ltb p (S i)) with true by lia. reflexivity.
          -- replace (Nat.ltb p (S i)) with false by lia. lia.
        * lia.
        * rewrite upd_length. lia.
        * replace (S (S i) - 1)%nat with (S i) by lia. apply nth_upd_same. lia.
        * lia.
        * rewrite upd_length. lia.
      + apply IH; [lia|]. intros p Hp. destruct (Nat.eq_dec p (S i)) as [->|].
        * pose proof (subset_bound k n c H (S i) Hi). lia.
        * apply Hmax. lia. }
  unfold prev_combination. rewrite L. destruct k as [|i]; [lia|].
  apply Loop; [lia|]. intros p Hp. lia.
Qed.

(** Lexicographic order by positions *)
Lemma lex_intro : forall a b p, (p < length a)%nat -> (p < length b)%nat ->
  (forall q, (q < p)%nat -> nth q a 0 = nth q b 0) -> nth p a 0 < nth p b 0 -> lex_lt a b.
Proof.
  induction a as [|x a IH]; intros b p Ha Hb E Lt; [cbn in Ha; lia|].
  destruct b as [|y b]; [cbn in Hb; lia|]. destruct p as [|p]; cbn [lex_lt].
  - left. exact Lt.
  - right. split; [apply (E 0%nat); lia|]. cbn [length] in *.
    apply (IH b p); [lia|lia| |exact Lt]. intros q Hq. apply (E (S q)). lia.
Qed.

Lemma lex_elim : forall a b, lex_lt a b -> exists p, (p < length a)%nat /\ (p < length b)%nat /\
  (forall q, (q < p)%nat -> nth q a 0 = nth q b 0) /\ nth p a 0 < nth p b 0.
Proof.
  induction a as [|x a IH]; intros [|y b] H; cbn [lex_lt] in H; try contradiction.
  destruct H as [H|[-> H]].
  - exists 0%nat. cbn [length nth]. repeat split; try lia.
  - destruct (IH b H) as (p & P1 & P2 & P3 & P4). exists (S p). cbn [length nth].
    repeat split; try lia. intros [|q] Hq; [reflexivity|]. apply P3. lia.
Qed.

Lemma lex_total : forall a b, length a = length b -> a = b \/ lex_lt a b \/ lex_lt b a.
Proof.
  induction a as [|x a IH]; intros [|y b] L; try discriminate; [auto|].
  cbn [lex_lt]. destruct (N.lt_trichotomy x y) as [H|[->|H]]; auto.
  destruct (IH b) as [->|[H|H]]; [cbn in L; lia|auto|auto|auto].
Qed.

(** C71, one call: the next subset in lexicographic order, or the report that
    there is none. *)
Theorem C71_successor :
  forall k n c, is_subset k n c -> n <= 256 ->
  match prev_combination c n with
  | Some c' => is_subset k n c' /\ lex_lt c c' /\
      (forall d, is_subset k n d -> lex_lt c d -> d = c' \/ lex_lt c' d)
  | None => forall d, is_subset k n d -> ~ lex_lt c d
  end.
Proof.
  intros k n c H Hn. pose proof (proj1 H) as L.
  destruct (Nat.eq_dec k 0) as [->|Hk].
  { destruct c; [|discriminate]. cbn. intros d _ F. exact F. }
  pose proof (combination_cases k n c H Hn ltac:(lia)) as C.
  destruct (prev_combination c n) as [c'|].
  - destruct C as (i & Hi & Ci & Mx & L' & E).
    assert (S' : is_subset k n c').
    { apply subset_intro; [exact L'| |].
      - intros p Hp. rewrite !E by lia.
        destruct (Nat.ltb_spec p i); destruct (Nat.ltb_spec (S p) i); try lia.
        + pose proof (subset_step k n c H p (S p) ltac:(lia)). lia.
        + pose proof (subset_step k n c H p i ltac:(lia)). lia.
      - intros p Hp. rewrite E by exact Hp. destruct (Nat.ltb_spec p i); [|lia].
        pose proof (subset_bound k n c H p Hp). lia. }
    split; [exact S'|]. split.
    + apply (lex_intro c c' i); [lia|lia| |].
      * intros q Hq. rewrite E by lia. replace (Nat.ltb q i) with true by lia. reflexivity.
      * rewrite E by lia. replace (Nat.ltb i i) with false by lia. lia.
    + intros d Hd Lt. pose proof (proj1 Hd) as Ld.
      destruct (lex_elim c d Lt) as (p & P1 & P2 & P3 & P4).
      destruct (lex_total d c' ltac:(lia)) as [->|[Q|Q]]; auto. exfalso.
      destruct (lex_elim d c' Q) as (q & Q1 & Q2 & Q3 & Q4).
      rewrite E in Q4 by lia.
      destruct (Nat.lt_trichotomy p i) as [A|[->|A]].
      * (* d already exceeds c before position i *)
        destruct (Nat.lt_trichotomy q p) as [B|[->|B]].
        -- replace (Nat.ltb q i) with true in Q4 by lia. rewrite P3 in Q4 by exact B. lia.
        -- replace (Nat.ltb p i) with true in Q4 by lia. lia.
        -- specialize (Q3 p B). rewrite E in Q3 by lia.
           replace (Nat.ltb p i) with true in Q3 by lia. lia.
      * destruct (Nat.ltb_spec q i) as [B|B].
        -- rewrite P3 in Q4 by exact B. lia.
        -- pose proof (subset_step k n d Hd i q ltac:(lia)). lia.
      * pose proof (subset_bound k n d Hd p ltac:(lia)). rewrite (Mx p) in P4 by lia. lia.
  - intros d Hd Lt. pose proof (proj1 Hd) as Ld.
    destruct (lex_elim c d Lt) as (p & P1 & P2 & P3 & P4).
    pose proof (subset_bound k n d Hd p ltac:(lia)). rewrite (C p) in P4 by lia. lia.
Qed.
Print Assumptions C71_successor.

(** The j-th combination visited, [None] once the end has been reported *)
Fixpoint visited (j : nat) (c : list N) (n : N) : option (list N) :=
  match j with
  | O => Some c
  | S j => match prev_combination c n with Some c' => visited j c' n | None => None end
  end.

Lemma lex_trans : forall a b c, lex_lt a b -> lex_lt b c -> lex_lt a c.
Proof.
  induction a as [|x a IH]; intros [|y b] [|z c] H1 H2; cbn [lex_lt] in *; try contradiction.
  destruct H1 as [H1|[-> H1]]; destruct H2 as [H2|[-> H2]]; try (left; lia).
  right. split; [reflexivity|]. eapply IH; eassumption.
Qed.

Lemma lex_irrefl : forall a, ~ lex_lt a a.
Proof. induction a as [|x a IH]; cbn [lex_lt]; [auto|]. intros [H|[_ H]]; [lia|auto]. Qed.

Fixpoint rank (c : list N) : N :=
  match c with [] => 0 | x :: c => x * 256 ^ N.of_nat (length c) + rank c end.

Lemma rank_lt : forall c, Forall (fun x => x < 256) c -> rank c < 256 ^ N.of_nat (length c).
Proof.
  induction c as [|x c IH]; intros F; [reflexivity|]. inversion F; subst.
  cbn [rank length]. rewrite Nat2N.inj_succ, N.pow_succ_r'. specialize (IH H2). nia.
Qed.

Lemma lex_rank : forall a b, length a = length b -> Forall (fun x => x < 256) a ->
  lex_lt a b -> rank a < rank b.
Proof.
  induction a as [|x a IH]; intros [|y b] L F H; cbn [lex_lt] in H; try contradiction.
  inversion F; subst. cbn [length] in L. injection L as L. cbn [rank]. rewrite <- L.
  destruct H as [H|[-> H]].
  - pose proof (rank_lt a H3). nia.
  - specialize (IH b L H3 H). lia.
Qed.

(** C71: starting from 0, 1, ..., k-1, every k-element subset of {0..n-1} is
    visited exactly once, in increasing order, and then the end is reported. *)
Theorem C71_enumeration :
  forall k n, N.of_nat k <= n -> n <= 256 ->
  let first := map N.of_nat (seq 0 k) in
  (forall j c, visited j first n = Some c -> is_subset k n c) /\
  (forall i j a b, (i < j)%nat -> visited i first n = Some a ->
     visited j first n = Some b -> lex_lt a b) /\
  (forall c, is_subset k n c -> exists j, visited j first n = Some c) /\
  (exists j, visited j first n = None).
Proof.
  intros k n Hk Hn first.
  assert (F0 : is_subset k n first).
  { apply subset_intro.
    - unfold first. rewrite map_length, seq_length. reflexivity.
    - intros p Hp. unfold first.
      rewrite !(nth_map' N.of_nat (seq 0 k) _ 0%nat) by (rewrite seq_length; lia).
      rewrite !nth_seq' by lia. lia.
    - intros p Hp. unfold first.
      rewrite !(nth_map' N.of_nat (seq 0 k) _ 0%nat) by (rewrite seq_length; lia).
      rewrite !nth_seq' by lia. lia. }
  assert (Small : forall c, is_subset k n c -> Forall (fun x => x < 256) c).
  { intros c (_ & _ & F). eapply Forall_impl; [|exact F]. cbv beta. intros; lia. }
  assert (Sub : forall j c d, is_subset k n c -> visited j c n = Some d ->
    is_subset k n d /\ (d = c \/ lex_lt c d) /\ ((0 < j)%nat -> lex_lt c d)).
  { induction j as [|j IH]; intros c d Hc V; cbn [visited] in V.
    - injection V as <-. split; [exact Hc|]. split; [auto|lia].
    - pose proof (C71_successor k n c Hc Hn) as SC.
      destruct (prev_combination c n) as [c'|]; [|discriminate].
      destruct SC as (S1 & S2 & _). destruct (IH c' d S1 V) as (D1 & D2 & _).
      split; [exact D1|].
      assert (lex_lt c d); [|auto].
      destruct D2 as [->|D2]; [exact S2|]. eapply lex_trans; eassumption. }
  assert (Split : forall i j c a, visited i c n = Some a ->
    visited (i + j) c n = visited j a n).
  { induction i as [|i IH]; intros j c a V; cbn [visited Nat.add] in *.
    - injection V as ->. reflexivity.
    - destruct (prev_combination c n) as [c'|]; [|discriminate]. apply IH, V. }
  split; [intros j c V; apply (Sub j first c F0 V)|].
  split.
  { intros i j a b Hij Va Vb.
    replace j with (i + (j - i))%nat in Vb by lia. rewrite (Split i (j - i)%nat first a Va) in Vb.
    destruct (Sub i first a F0 Va) as (Sa & _).
    apply (Sub (j - i)%nat a b Sa Vb). lia. }
  split.
  { intros d Hd.
    assert (Search : forall f c, is_subset k n c -> d = c \/ lex_lt c d ->
      rank d - rank c <= N.of_nat f -> exists j, visited j c n = Some d).
    { induction f as [|f IH]; intros c Hc [->|Lt] R.
      - exists 0%nat. reflexivity.
      - pose proof (lex_rank c d ltac:(rewrite (proj1 Hc), (proj1 Hd); reflexivity)
                      (Small c Hc) Lt). lia.
      - exists 0%nat. reflexivity.
      - pose proof (C71_successor k n c Hc Hn) as SC.
        destruct (prev_combination c n) as [c'|] eqn:P.
        + destruct SC as (S1 & S2 & S3).
          pose proof (lex_rank c c' ltac:(rewrite (proj1 Hc), (proj1 S1); reflexivity)
                        (Small c Hc) S2).
          destruct (IH c' S1) as (j & V); [|lia|].
          * destruct (S3 d Hd Lt); auto.
          * exists (S j). cbn [visited]. rewrite P. exact V.
        + exfalso. exact (SC d Hd Lt). }
    apply (Search (N.to_nat (rank d)) first F0); [|lia].
    (* the first subset is the least *)
    assert (Ld : length d = length first) by (rewrite (proj1 Hd), (proj1 F0); reflexivity).
    destruct (lex_total d first Ld) as [->|[H|H]]; auto. exfalso.
    destruct (lex_elim d first H) as (p & P1 & P2 & P3 & P4).
    rewrite (proj1 Hd) in P1.
    pose proof (subset_bound k n d Hd p P1).
    unfold first in P4. rewrite (nth_map' N.of_nat (seq 0 k) _ 0%nat) in P4
      by (rewrite seq_length; lia).
    rewrite nth_seq' in P4 by lia. lia. }
  { assert (Stop : forall f c, is_subset k n c ->
      256 ^ N.of_nat k - rank c <= N.of_nat f -> exists j, visited j c n = None).
    { induction f as [|f IH]; intros c Hc R.
      - pose proof (rank_lt c (Small c Hc)) as B. rewrite (proj1 Hc) in B. lia.
      - pose proof (C71_successor k n c Hc Hn) as SC.
        destruct (prev_combination c n) as [c'|] eqn:P.
        + destruct SC as (S1 & S2 & _).
          pose proof (lex_rank c c' ltac:(rewrite (proj1 Hc), (proj1 S1); reflexivity)
                        (Small c Hc) S2).
          destruct (IH c' S1) as (j & V); [lia|].
          exists (S j). cbn [visited]. rewrite P. exact V.
        + exists 1%nat. cbn [visited]. rewrite P. reflexivity. }
    apply (Stop (N.to_nat (256 ^ N.of_nat k)) first F0). lia. }
Qed.
Print Assumptions C71_enumeration.

(** C71 refuted beyond 256 columns: entries are bytes, so the enumeration of
    the one-element subsets of {0..n-1} with n > 256 goes round from 255 to 0
    and never ends. *)
Theorem C71_many_columns_refuted :
  forall n, 256 < n -> n < 2 ^ 64 ->
  (forall j, exists x, visited j [0] n = Some [x] /\ x < 256) /\
  prev_combination [255] n = Some [0].
Proof.
  intros n Hn Hn2.
  assert (Step : forall x, x < 256 -> prev_combination [x] n = Some [(x + 1) mod 256]).
  { intros x Hx. unfold prev_combination. cbn [length combination_loop nth].
    assert (W : wrap 64 (n + 2 ^ 64 - N.of_nat 1 + N.of_nat 0) = n - 1).
    { unfold wrap. symmetry. apply N.mod_unique with (q := 1); lia. }
    rewrite W. replace (x <? n - 1) with true by lia. reflexivity. }
  split.
  - assert (G : forall j x, x < 256 -> exists y, visited j [x] n = Some [y] /\ y < 256).
    { induction j as [|j IH]; intros x Hx; cbn [visited].
      - exists x. auto.
      - rewrite Step by exact Hx. apply IH. apply N.mod_lt. discriminate. }
    intros j. apply G. reflexivity.
  - apply Step. reflexivity.
Qed.
Print Assumptions C71_many_columns_refuted.

Example C71_run :
  map (fun j => visited j [0;1;2] 5) (seq 0 11)
  = map Some [[0;1;2];[0;1;3];[0;1;4];[0;2;3];[0;2;4];[0;3;4];[1;2;3];[1;2;4];[1;3;4];[2;3;4]]
    ++ [None].
Proof. vm_compute. reflexivity. Qed.

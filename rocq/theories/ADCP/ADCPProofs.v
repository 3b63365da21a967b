(** Facts about the confidential payment model used by ADCPProps.v. *)
From Coq Require Import NArith ZArith List Lia Bool Arith Setoid.
From Coq Require Import ZifyBool ZifyNat ZifyN.
From Verif.Base Require Import Words ListX.
From Verif.Crypto Require Import BigIntModel BigIntSpec BigIntProofs.
From Verif.Group Require Import ECModel ECProofs.
From Verif.PKE Require Import DlogModel DlogSpec DlogProofs DlogProps ElGamalModel ElGamalProofs ElGamalProps.
From Verif.Sigma Require Import SigmaModel SigmaProofs SigmaProps.
From Verif.Bullet Require Import IPModel BPModel BPSpec IPProofs BPProofs BPProps GadgetModel GadgetProps.
From Verif.ADCP Require Import ADCPModel ADCPSpec.
Import ListNotations.
Local Open Scope Z_scope.

Lemma zsum_upd : forall A (f : A -> Z) (l : list A) i x d, (i < length l)%nat ->
  zsum (map f (upd l i x)) = zsum (map f l) - f (nth i l d) + f x.
Proof.
  intros A f. induction l as [|a l IH]; intros i x d Hi; [cbn in Hi; lia|].
  destruct i as [|i]; cbn [upd map zsum nth]; [lia|]. rewrite (IH i x d) by (cbn in Hi; lia). lia.
Qed.

Lemma Forall_upd : forall A (P : A -> Prop) (l : list A) i x, Forall P l -> P x -> Forall P (upd l i x).
Proof.
  intros A P. induction l as [|a l IH]; intros i x F X; [destruct i; constructor|].
  inversion F; subst. destruct i as [|i]; cbn [upd]; constructor; auto.
Qed.

Section Proofs.
Variable G : ECGroup.
Variable key : pt G -> N.
Hypothesis key64 : forall P, (key P < 2 ^ 64)%N.
Local Notation q := (order G).
Local Infix "+p" := (padd G) (at level 50, left associativity).
Local Infix "-p" := (psub G) (at level 50, left associativity).
Local Notation "P *p k" := (pmul G P k%Z) (at level 40, left associativity).
Local Notation "a == b" := (cong q a b) (at level 70).

(** ** decryption *)
Lemma Dec_sub : forall sk a b, T_DecECPoint G sk (T_HomoSub G a b) = T_DecECPoint G sk a -p T_DecECPoint G sk b.
Proof.
  intros sk [X Y] [X' Y']. unfold T_DecECPoint, T_HomoSub. cbn [tX tY]. generalize (ModInverse sk q). revert X Y X' Y'.
  clear. intros. logs G. gring.
Qed.
Lemma Dec_add : forall sk a b, T_DecECPoint G sk (T_HomoAdd G a b) = T_DecECPoint G sk a +p T_DecECPoint G sk b.
Proof.
  intros sk [X Y] [X' Y']. unfold T_DecECPoint, T_HomoAdd. cbn [tX tY]. generalize (ModInverse sk q). revert X Y X' Y'.
  clear. intros. logs G. gring.
Qed.
Lemma Dec_scale : forall sk a k, T_DecECPoint G sk (T_ScalarMul G a k) = T_DecECPoint G sk a *p k.
Proof.
  intros sk [X Y] k. unfold T_DecECPoint, T_ScalarMul. cbn [tX tY]. generalize (ModInverse sk q). revert X Y.
  clear. intros. logs G. gring.
Qed.
Lemma Dec_enc : forall g h sk r v, invertible G sk ->
  T_DecECPoint G sk {| tX := g *p sk *p r; tY := g *p r +p h *p v |} = h *p v.
Proof. intros g h sk r v I. unfold T_DecECPoint. cbn [tX tY]. apply T_Dec_point. exact I. Qed.

Lemma h_sub : forall h a b, h *p a -p h *p b = h *p (a - b).
Proof. clear. intros. logs G. gring. Qed.
Lemma h_add : forall h a b, h *p a +p h *p b = h *p (a + b).
Proof. clear. intros. logs G. gring. Qed.

Lemma fair_finished : forall L T st P sched, fair L T sched -> finished G (run G key st P L T 0 sched) = true.
Proof. intros. apply C27_search_terminates. assumption. Qed.

Lemma Dec_some : forall hash L T pp st sk ct m sched,
  decrypts G key hash L T pp st -> fair L T sched -> T_DecECPoint G sk ct = t_h G (a_enc G pp) *p m -> 0 <= m < covered L T ->
  T_Dec G key (a_enc G pp) st sk ct sched = Some m.
Proof.
  intros hash L T pp st sk ct m sched [R S] F E B.
  apply (Dec_of_point G key key64 hash L T (a_enc G pp) st sk ct m sched R E B (S m)). apply fair_finished. exact F.
Qed.

Lemma Dec_none : forall hash L T pp st sk ct m sched,
  decrypts G key hash L T pp st -> fair L T sched -> T_DecECPoint G sk ct = t_h G (a_enc G pp) *p m -> covered L T <= m < q ->
  T_Dec G key (a_enc G pp) st sk ct sched = None.
Proof.
  intros hash L T pp st sk ct m sched [R S] F E B.
  destruct (t_ready_loaded G key key64 _ _ _ _ _ R) as [C LD]. destruct R as [Epp [HF [Cov _]]].
  unfold T_DecECPoint in E. unfold T_Dec. rewrite E.
  assert (EL : t_len G (a_enc G pp) = L /\ t_trade G (a_enc G pp) = T) by (rewrite Epp; split; reflexivity).
  destruct EL as [-> ->].
  rewrite (proj2 (loaded_search G key (t_h G (a_enc G pp)) L T st m sched C HF Cov LD (S m) (fair_finished _ _ _ _ _ F)) B). reflexivity.
Qed.

(** what a successful decryption says about an exponent known to be near the range *)
Lemma Dec_inv : forall hash L T pp st sk ct m sched x,
  decrypts G key hash L T pp st -> fair L T sched -> T_DecECPoint G sk ct = t_h G (a_enc G pp) *p m ->
  covered L T - q <= m < q -> T_Dec G key (a_enc G pp) st sk ct sched = Some x -> x = m /\ 0 <= m < covered L T.
Proof.
  intros hash L T pp st sk ct m sched x D F E B X.
  destruct (Z.lt_ge_cases m 0) as [N|N].
  - rewrite (Dec_none hash L T pp st sk ct (m + q) sched D F) in X; [discriminate| |lia].
    rewrite E. apply pmul_cong. exists (-1). lia.
  - destruct (Z.lt_ge_cases m (covered L T)) as [N'|N'].
    + rewrite (Dec_some hash L T pp st sk ct m sched D F E) in X by lia. split; [congruence|lia].
    + rewrite (Dec_none hash L T pp st sk ct m sched D F E) in X by lia. discriminate.
Qed.

(** ** the update of the accounts *)
(** a consistent account whose balance the decryption table covers *)
Definition balance_ok (L T : nat) (pp : APP G) (a : Account G) : Prop :=
  account_ok G pp a /\ 0 <= ac_m G a < covered L T.

Lemma transfer_parts : forall pp t v, transfers G pp t v -> exists r,
  nth 0 (tvX G (c_tr G t)) (inf G) = c_pks G t *p r /\ nth 1 (tvX G (c_tr G t)) (inf G) = c_pkr G t *p r /\
  nth 2 (tvX G (c_tr G t)) (inf G) = a_pka G pp *p r /\
  tmY G (c_tr G t) = t_g G (a_enc G pp) *p r +p t_h G (a_enc G pp) *p v.
Proof. intros pp t v [r E]. exists r. rewrite E. repeat split. Qed.

Lemma debit_point : forall pp a X r v Y, account_ok G pp a -> X = ac_pk G a *p r -> Y = t_g G (a_enc G pp) *p r +p t_h G (a_enc G pp) *p v ->
  T_DecECPoint G (ac_sk G a) (T_HomoSub G (ac_ct G a) {| tX := X; tY := Y |}) = t_h G (a_enc G pp) *p (ac_m G a - v).
Proof.
  intros pp a X r v Y [I [K D]] -> ->. rewrite Dec_sub, D, K, Dec_enc by exact I. apply h_sub.
Qed.
Lemma credit_point : forall pp a X r v Y, account_ok G pp a -> X = ac_pk G a *p r -> Y = t_g G (a_enc G pp) *p r +p t_h G (a_enc G pp) *p v ->
  T_DecECPoint G (ac_sk G a) (T_HomoAdd G (ac_ct G a) {| tX := X; tY := Y |}) = t_h G (a_enc G pp) *p (ac_m G a + v).
Proof.
  intros pp a X r v Y [I [K D]] -> ->. rewrite Dec_add, D, K, Dec_enc by exact I. apply h_add.
Qed.

Lemma set_balance_ok : forall L T pp a ct m, account_ok G pp a -> T_DecECPoint G (ac_sk G a) ct = t_h G (a_enc G pp) *p m ->
  0 <= m < covered L T -> balance_ok L T pp (set_balance G a ct m).
Proof. intros L T pp a ct m [I [K D]] E B. split; [|exact B]. split; [exact I|]. split; [exact K|exact E]. Qed.

(** what stays: identity, keys, serial number *)
Definition same_holder (a b : Account G) : Prop :=
  ac_id G a = ac_id G b /\ ac_pk G a = ac_pk G b /\ ac_sk G a = ac_sk G b /\ ac_sn G a = ac_sn G b.
Lemma same_refl : forall a, same_holder a a.
Proof. intros a. repeat split. Qed.
Lemma same_trans : forall a b c, same_holder a b -> same_holder b c -> same_holder a c.
Proof. intros a b c [A [B [C D]]] [A' [B' [C' D']]]. repeat split; congruence. Qed.

Lemma nth_set : forall (l : list (Account G)) i k ct m, (i < length l)%nat ->
  same_holder (nth k (upd l i (set_balance G (nth i l (acct0 G)) ct m)) (acct0 G)) (nth k l (acct0 G)).
Proof.
  intros l i k ct m Hi. destruct (Nat.eq_dec k i) as [->|N].
  - rewrite nth_upd_same by exact Hi. repeat split.
  - rewrite nth_upd_other by congruence. apply same_refl.
Qed.

(** A successful update moves v. *)
Lemma Update1_moves : forall hash L T pp st t accts i j s1 s2 v accts',
  decrypts G key hash L T pp st -> fair L T s1 -> fair L T s2 ->
  (i < length accts)%nat -> (j < length accts)%nat -> Forall (balance_ok L T pp) accts ->
  transfers G pp t v -> 0 <= v <= q - covered L T ->
  c_pks G t = ac_pk G (nth i accts (acct0 G)) -> c_pkr G t = ac_pk G (nth j accts (acct0 G)) ->
  UpdateAccount1 G key pp st t accts i j s1 s2 = Some accts' ->
  length accts' = length accts /\ Forall (balance_ok L T pp) accts' /\ total G accts' = total G accts /\
  forall k, same_holder (nth k accts' (acct0 G)) (nth k accts (acct0 G)) /\
    ac_m G (nth k accts' (acct0 G)) = ac_m G (nth k accts (acct0 G)) - (if (k =? i)%nat then v else 0) + (if (k =? j)%nat then v else 0).
Proof.
  intros hash L T pp st t accts i j s1 s2 v accts' D F1 F2 Hi Hj BO TR V PS PR U.
  pose proof D as [[_ [_ [Cov _]]] _].
  destruct (transfer_parts _ _ _ TR) as [r [X0 [X1 [_ Y]]]].
  unfold UpdateAccount1 in U. set (s := nth i accts (acct0 G)) in *.
  assert (SO : balance_ok L T pp s) by (apply (proj1 (Forall_nth _ _) BO); exact Hi).
  destruct (T_Dec G key (a_enc G pp) st (ac_sk G s) _ s1) as [m1|] eqn:E1; [|discriminate]. cbn [obind] in U.
  assert (P1 := debit_point pp s _ r v _ (proj1 SO) (eq_trans X0 (f_equal (fun P => P *p r) PS)) Y).
  destruct (Dec_inv hash L T pp st _ _ _ _ _ D F1 P1 ltac:(destruct SO; lia) E1) as [-> B1].
  match type of U with context [upd accts i ?a] => set (s' := a) in * end.
  assert (SO' : balance_ok L T pp s') by (apply set_balance_ok; [exact (proj1 SO)|exact P1|exact B1]).
  set (accts1 := upd accts i s') in *.
  assert (BO1 : Forall (balance_ok L T pp) accts1) by (apply Forall_upd; assumption).
  assert (L1 : length accts1 = length accts) by apply upd_length.
  set (rc := nth j accts1 (acct0 G)) in *.
  assert (RO : balance_ok L T pp rc) by (apply (proj1 (Forall_nth _ _) BO1); lia).
  assert (SH : same_holder rc (nth j accts (acct0 G))) by (apply nth_set; exact Hi).
  destruct (T_Dec G key (a_enc G pp) st (ac_sk G rc) _ s2) as [m2|] eqn:E2; [|discriminate]. cbn [obind] in U.
  assert (PR' : nth 1 (tvX G (c_tr G t)) (inf G) = ac_pk G rc *p r) by (destruct SH as [_ [-> _]]; rewrite X1, PR; reflexivity).
  assert (P2 := credit_point pp rc _ r v _ (proj1 RO) PR' Y).
  destruct (Dec_inv hash L T pp st _ _ _ _ _ D F2 P2 ltac:(destruct RO; lia) E2) as [-> B2].
  assert (EU : accts' = upd accts1 j (set_balance G rc (T_HomoAdd G (ac_ct G rc) {| tX := nth 1 (tvX G (c_tr G t)) (inf G); tY := tmY G (c_tr G t) |}) (ac_m G rc + v))) by congruence.
  rewrite EU. clear U EU. split; [rewrite upd_length; exact L1|]. split; [|split].
  - apply Forall_upd; [exact BO1|]. apply set_balance_ok; [exact (proj1 RO)|exact P2|exact B2].
  - unfold total. rewrite (zsum_upd _ _ accts1 j _ (acct0 G)) by lia. unfold accts1 at 1. rewrite (zsum_upd _ _ accts i _ (acct0 G)) by lia.
    fold rc. unfold s'. cbn [ac_m set_balance]. fold s. lia.
  - intros k. split.
    + apply (same_trans _ (nth k accts1 (acct0 G))); [apply nth_set; lia|apply nth_set; exact Hi].
    + assert (K1 : ac_m G (nth k accts1 (acct0 G)) = ac_m G (nth k accts (acct0 G)) - (if (k =? i)%nat then v else 0)).
      { unfold accts1. destruct (Nat.eqb_spec k i) as [->|N].
        - rewrite nth_upd_same by exact Hi. unfold s'. cbn [ac_m set_balance]. reflexivity.
        - rewrite nth_upd_other by congruence. lia. }
      destruct (Nat.eqb_spec k j) as [->|N].
      * rewrite nth_upd_same by lia. cbn [ac_m set_balance]. unfold rc. rewrite K1. reflexivity.
      * rewrite nth_upd_other by congruence. rewrite K1. lia.
Qed.

(** It is successful when the sender has v and the receiver's balance stays decryptable. *)
Lemma Update1_succeeds : forall hash L T pp st t accts i j s1 s2 v,
  decrypts G key hash L T pp st -> fair L T s1 -> fair L T s2 ->
  (i < length accts)%nat -> (j < length accts)%nat -> Forall (balance_ok L T pp) accts ->
  transfers G pp t v -> 0 <= v <= ac_m G (nth i accts (acct0 G)) ->
  (i <> j -> ac_m G (nth j accts (acct0 G)) + v < covered L T) ->
  c_pks G t = ac_pk G (nth i accts (acct0 G)) -> c_pkr G t = ac_pk G (nth j accts (acct0 G)) ->
  exists accts', UpdateAccount1 G key pp st t accts i j s1 s2 = Some accts'.
Proof.
  intros hash L T pp st t accts i j s1 s2 v D F1 F2 Hi Hj BO TR V CJ PS PR.
  destruct (transfer_parts _ _ _ TR) as [r [X0 [X1 [_ Y]]]].
  unfold UpdateAccount1. set (s := nth i accts (acct0 G)) in *.
  assert (SO : balance_ok L T pp s) by (apply (proj1 (Forall_nth _ _) BO); exact Hi).
  assert (P1 := debit_point pp s _ r v _ (proj1 SO) (eq_trans X0 (f_equal (fun P => P *p r) PS)) Y).
  rewrite (Dec_some hash L T pp st _ _ _ _ D F1 P1) by (destruct SO; lia). cbn [obind].
  match goal with |- context [upd accts i ?a] => set (s' := a) in * end.
  set (accts1 := upd accts i s') in *.
  set (rc := nth j accts1 (acct0 G)) in *.
  assert (SO' : balance_ok L T pp s') by (apply set_balance_ok; [exact (proj1 SO)|exact P1|destruct SO; lia]).
  assert (BO1 : Forall (balance_ok L T pp) accts1) by (apply Forall_upd; assumption).
  assert (L1 : length accts1 = length accts) by apply upd_length.
  assert (RO : balance_ok L T pp rc) by (apply (proj1 (Forall_nth _ _) BO1); lia).
  assert (SH : same_holder rc (nth j accts (acct0 G))) by (apply nth_set; exact Hi).
  assert (PR' : nth 1 (tvX G (c_tr G t)) (inf G) = ac_pk G rc *p r) by (destruct SH as [_ [-> _]]; rewrite X1, PR; reflexivity).
  assert (P2 := credit_point pp rc _ r v _ (proj1 RO) PR' Y).
  rewrite (Dec_some hash L T pp st _ _ _ _ D F2 P2); [cbn [obind]; eexists; reflexivity|].
  split; [destruct RO; lia|]. unfold rc, accts1. destruct (Nat.eq_dec i j) as [<-|N].
  - rewrite nth_upd_same by exact Hi. unfold s'. cbn [ac_m set_balance]. destruct SO. lia.
  - rewrite nth_upd_other by congruence. apply CJ. exact N.
Qed.
End Proofs.

(** Properties C48 and C83: transactions and accounts in files. *)
From Coq Require Import NArith ZArith List Lia Bool Arith Setoid.
From Coq Require Import ZifyBool ZifyNat ZifyN.
From Verif.Base Require Import Words ListX.
From Verif.Utility Require Import SerialModel SerialSpec SerialProofs.
From Verif.Crypto Require Import BigIntModel BigIntSpec BigIntProofs.
From Verif.Group Require Import ECModel ECProofs ZqGroup.
From Verif.PKE Require Import DlogModel DlogSpec DlogProps ElGamalModel ElGamalProps.
From Verif.Sigma Require Import SigmaModel SigmaProps.
From Verif.Bullet Require Import IPModel BPModel BPSpec BPProps GadgetModel GadgetProps.
From Verif.ADCP Require Import ADCPModel ADCPSpec ADCPProofs ADCPProps ADCPManyProps.
Import ListNotations.
Local Open Scope Z_scope.

Section Props.
Variable G : ECGroup.
(** what the file formats can hold: points other than infinity, numbers of 256 bits *)
Definition P_ok (P : pt G) : Prop := P <> inf G.
Definition Z_ok (z : Z) : Prop := 0 <= z < 2 ^ 256.
Definition ct_ok (c : TCT G) : Prop := P_ok (tX G c) /\ P_ok (tY G c).
Definition bp_ok (p : BPProof G) : Prop :=
  P_ok (bpA G p) /\ P_ok (bpS G p) /\ P_ok (bpT1 G p) /\ P_ok (bpT2 G p) /\ Z_ok (bptaux G p) /\ Z_ok (bpmu G p) /\ Z_ok (bptx G p) /\
  Forall P_ok (ipL G (bpip G p)) /\ Forall P_ok (ipR G (bpip G p)) /\ Z_ok (ipa G (bpip G p)) /\ Z_ok (ipb G (bpip G p)).
Definition tx_ok (t : CTx1 G) : Prop :=
  Z_ok (c_sn G t) /\ P_ok (c_pks G t) /\ P_ok (c_pkr G t) /\
  (Forall P_ok (tvX G (c_tr G t)) /\ P_ok (tmY G (c_tr G t))) /\
  (Forall P_ok (pteA G (c_pte G t)) /\ P_ok (pteB G (c_pte G t)) /\ Z_ok (ptez G (c_pte G t)) /\ Z_ok (ptet G (c_pte G t))) /\
  ct_ok (c_ref G t) /\
  (P_ok (dleA1 G (c_dle G t)) /\ P_ok (dleA2 G (c_dle G t)) /\ Z_ok (dlez G (c_dle G t))) /\
  (P_ok (pkA G (c_pk G t)) /\ P_ok (pkB G (c_pk G t)) /\ Z_ok (pkz1 G (c_pk G t)) /\ Z_ok (pkz2 G (c_pk G t))) /\
  bp_ok (c_bp G t).
(** the vectors of the object that is read into have the lengths of the saved ones *)
Definition presized (old t : CTx1 G) : Prop :=
  length (tvX G (c_tr G old)) = length (tvX G (c_tr G t)) /\
  length (pteA G (c_pte G old)) = length (pteA G (c_pte G t)) /\
  length (ipL G (bpip G (c_bp G old))) = length (ipL G (bpip G (c_bp G t))) /\
  length (ipR G (bpip G (c_bp G old))) = length (ipR G (bpip G (c_bp G t))).

(** ** C48: what is false.  Read into a new object, whatever the file holds, the transfer
    ciphertext has no recipients and the balance it was made for is missing; checking the
    result reads past the end of the vector. *)
Theorem C48_fetch_refuted : forall (H : list N -> Z) hex pp file t', FetchCTx1 G (ctx0 G) file = Some t' ->
  tvX G (c_tr G t') = [] /\ pteA G (c_pte G t') = [] /\ c_bal G t' = {| tX := inf G; tY := inf G |} /\
  (forall c, VerifyCTx1 G H hex pp t' c = None) /\
  (forall s v pkr rn t, CreateCTx1 G H hex pp s v pkr rn = Some t -> t' <> t).
Proof.
  intros H hex pp file t' E. unfold FetchCTx1 in E.
  destruct (read_bigint file) as [[sn f1]|]; [|discriminate]. cbn [obind fst snd] in E.
  destruct (read_point G _ f1) as [[pks f2]|]; [|discriminate]. cbn [obind fst snd] in E.
  destruct (read_point G _ f2) as [[pkr f3]|]; [|discriminate]. cbn [obind fst snd] in E.
  unfold read_mrct in E. cbn [ctx0 c_tr tvX read_points obind fst snd] in E.
  destruct (read_point G _ f3) as [[y f4]|]; [|discriminate]. cbn [obind fst snd] in E.
  unfold read_pte in E. cbn [ctx0 c_pte pteA read_points obind fst snd] in E.
  destruct (read_point G _ f4) as [[b f5]|]; [|discriminate]. cbn [obind fst snd] in E.
  destruct (read_bigint f5) as [[z f6]|]; [|discriminate]. cbn [obind fst snd] in E.
  destruct (read_bigint f6) as [[tt f7]|]; [|discriminate]. cbn [obind fst snd] in E.
  destruct (read_ct G _ f7) as [[ref f8]|]; [|discriminate]. cbn [obind fst snd] in E.
  destruct (read_dle G _ f8) as [[dle f9]|]; [|discriminate]. cbn [obind fst snd] in E.
  destruct (read_pk G _ f9) as [[kp f10]|]; [|discriminate]. cbn [obind fst snd] in E.
  destruct (read_bp G _ f10) as [[bp f11]|]; [|discriminate]. cbn [obind fst snd] in E.
  match type of E with Some ?x = _ => assert (ET : x = t') by congruence end. subst t'.
  split; [reflexivity|]. split; [reflexivity|]. split; [reflexivity|]. split.
  - intros c. reflexivity.
  - intros s v pkr' rn t C N. subst t. unfold CreateCTx1 in C.
    destruct (PTE_Prove _ _ _ _ _ _ _ _ _ _ _) as [[pte ptr]|]; [|discriminate]. cbn [obind fst snd] in C.
    destruct (BP_Prove _ _ _ _ _ _ _ _) as [[bp' btr]|]; [|discriminate]. cbn [obind fst snd] in C.
    match type of C with Some ?x = Some ?y => assert (EC : c_tr G x = c_tr G y) by congruence end. discriminate EC.
Qed.

Ltac field := first [rewrite read_write_point by assumption | rewrite read_write_points by assumption | rewrite read_write_bigint by assumption];
  cbn [obind fst snd].

(** ** C48: what holds.  Read into an object whose vectors already have the right lengths,
    everything but the balance ciphertext comes back. *)
Theorem C48_presized_partial : forall gb gp old t rest, tx_ok t -> presized old t ->
  FetchCTx1 G old (SaveCTx1 G gb gp t ++ rest) =
  Some {| c_sn := c_sn G t; c_bal := c_bal G old; c_pks := c_pks G t; c_pkr := c_pkr G t; c_tr := c_tr G t; c_pte := c_pte G t;
          c_bp := c_bp G t; c_ref := c_ref G t; c_pk := c_pk G t; c_dle := c_dle G t |}.
Proof.
  intros gb gp old t rest T [S1 [S2 [S3 S4]]].
  destruct T as [T1 [T2 [T3 [[T4 T5] [[T6 [T7 [T8 T9]]] [[T10 T11] [[T12 [T13 T14]] [[T15 [T16 [T17 T18]]] TB]]]]]]]].
  destruct TB as [B1 [B2 [B3 [B4 [B5 [B6 [B7 [B8 [B9 [B10 B11]]]]]]]]]].
  unfold SaveCTx1, write_mrct, write_pte, write_ct, write_dle, write_pk, write_bp, write_ip. rewrite <- !app_assoc.
  unfold FetchCTx1. field. field. field. unfold read_mrct. field. field. unfold read_pte. do 4 field. unfold read_ct. do 2 field.
  unfold read_dle. do 3 field. unfold read_pk. do 4 field. unfold read_bp, read_ip. do 7 field. do 4 field.
  destruct t as [? ? ? ? [? ?] [? ? ? ?] [? ? ? ? ? ? ? [? ? ? ?]] [? ?] [? ? ? ?] [? ? ?]]. reflexivity.
Qed.

(** ** C83 *)
Definition account_storable (a : Account G) : Prop :=
  (bytes_ok (ac_id G a) /\ N.of_nat (length (ac_id G a)) < 2 ^ 64)%N /\ P_ok (ac_pk G a) /\ Z_ok (ac_sk G a) /\ ct_ok (ac_ct G a) /\
  Z_ok (ac_m G a) /\ Z_ok (ac_sn G a).
(** An account comes back, whatever the object it is read into held before. *)
Theorem C83_account_round_trip : forall gb gp old a rest, account_storable a ->
  FetchAccount G old (SaveAccount G gb gp a ++ rest) = Some a.
Proof.
  intros gb gp old a rest [L [T1 [T2 [[T3 T4] [T5 T6]]]]]. unfold SaveAccount, write_ct. rewrite <- !app_assoc. unfold FetchAccount.
  match goal with |- context [read_string (write_string _ ++ ?r)] => pose proof (read_write_obj (OString (ac_id G a)) TString r L I) as RS end.
  cbn [write_obj read_obj] in RS.
  destruct (read_string _) as [[x r]|]; [|discriminate]. injection RS as -> ->. cbn [obind fst snd].
  field. field. unfold read_ct. do 2 field. field. field. destruct a as [? ? ? [? ?] ? ?]. reflexivity.
Qed.

(** What an account file cannot hold: a ciphertext that contains the point at infinity.
    The reader leaves the old point there. *)
Theorem C83_infinity_lost : forall gb gp old a rest, length gp = 65%nat ->
  (bytes_ok (ac_id G a) /\ N.of_nat (length (ac_id G a)) < 2 ^ 64)%N -> P_ok (ac_pk G a) -> Z_ok (ac_sk G a) ->
  tX G (ac_ct G a) = inf G -> P_ok (tY G (ac_ct G a)) -> Z_ok (ac_m G a) -> Z_ok (ac_sn G a) -> tX G (ac_ct G old) <> inf G ->
  exists a', FetchAccount G old (SaveAccount G gb gp a ++ rest) = Some a' /\ tX G (ac_ct G a') = tX G (ac_ct G old) /\ a' <> a.
Proof.
  intros gb gp old a rest LG L T1 T2 T3 T4 T5 T6 NO. unfold SaveAccount, write_ct. rewrite <- !app_assoc. unfold FetchAccount.
  match goal with |- context [read_string (write_string _ ++ ?r)] => pose proof (read_write_obj (OString (ac_id G a)) TString r L I) as RS end.
  cbn [write_obj read_obj] in RS.
  destruct (read_string _) as [[x r]|]; [|discriminate]. injection RS as -> ->. cbn [obind fst snd].
  field. field. unfold read_ct. rewrite T3, read_write_point_inf by exact LG. cbn [obind fst snd]. field. field. field.
  eexists. split; [reflexivity|]. cbn [ac_ct tX]. split; [reflexivity|]. intros E. apply NO.
  rewrite <- T3, <- E. reflexivity.
Qed.
End Props.


(** ** the hypotheses are met by concrete, non-trivial data *)
Example C83_hypotheses : account_storable G4099 alice.
Proof.
  assert (F : forall P : pt G4099, (proj1_sig P =? 0) = false -> P_ok G4099 P).
  { intros P E X. rewrite X in E. vm_compute in E. discriminate. }
  split; [split; [repeat constructor|reflexivity]|].
  split; [apply F; vm_compute; reflexivity|]. split; [split; vm_compute; [discriminate|reflexivity]|].
  split; [split; apply F; vm_compute; reflexivity|]. split; split; vm_compute; first [discriminate|reflexivity].
Qed.
Definition P_okb (P : pt G4099) : bool := negb (proj1_sig P =? 0).
Definition Z_okb (z : Z) : bool := (0 <=? z) && (z <? 2 ^ 256).
Lemma P_okb_ok : forall P, P_okb P = true -> P_ok G4099 P.
Proof. intros P E X. rewrite X in E. vm_compute in E. discriminate. Qed.
Lemma Z_okb_ok : forall z, Z_okb z = true -> Z_ok z.
Proof. intros z E. apply andb_prop in E. destruct E as [A B]. split; [apply Z.leb_le; exact A|apply Z.ltb_lt; exact B]. Qed.
Lemma F_okb : forall l, forallb P_okb l = true -> Forall (P_ok G4099) l.
Proof. intros l E. apply Forall_forall. intros P I. rewrite forallb_forall in E. apply P_okb_ok. exact (E P I). Qed.
Definition tx_okb (t : CTx1 G4099) : bool :=
  true && Z_okb (c_sn _ t) && P_okb (c_pks _ t) && P_okb (c_pkr _ t) && forallb P_okb (tvX _ (c_tr _ t)) && P_okb (tmY _ (c_tr _ t)) &&
  forallb P_okb (pteA _ (c_pte _ t)) && P_okb (pteB _ (c_pte _ t)) && Z_okb (ptez _ (c_pte _ t)) && Z_okb (ptet _ (c_pte _ t)) &&
  P_okb (tX _ (c_ref _ t)) && P_okb (tY _ (c_ref _ t)) && P_okb (dleA1 _ (c_dle _ t)) && P_okb (dleA2 _ (c_dle _ t)) && Z_okb (dlez _ (c_dle _ t)) &&
  P_okb (pkA _ (c_pk _ t)) && P_okb (pkB _ (c_pk _ t)) && Z_okb (pkz1 _ (c_pk _ t)) && Z_okb (pkz2 _ (c_pk _ t)) &&
  P_okb (bpA _ (c_bp _ t)) && P_okb (bpS _ (c_bp _ t)) && P_okb (bpT1 _ (c_bp _ t)) && P_okb (bpT2 _ (c_bp _ t)) &&
  Z_okb (bptaux _ (c_bp _ t)) && Z_okb (bpmu _ (c_bp _ t)) && Z_okb (bptx _ (c_bp _ t)) &&
  forallb P_okb (ipL _ (bpip _ (c_bp _ t))) && forallb P_okb (ipR _ (bpip _ (c_bp _ t))) && Z_okb (ipa _ (bpip _ (c_bp _ t))) && Z_okb (ipb _ (bpip _ (c_bp _ t))).
Lemma tx_okb_ok : forall t, tx_okb t = true -> tx_ok G4099 t.
Proof.
  intros t E. unfold tx_okb in E. repeat (apply andb_prop in E; let E2 := fresh "E" in destruct E as [E E2]).
  unfold tx_ok, bp_ok, ct_ok. repeat match goal with |- _ /\ _ => split end; solve [apply P_okb_ok; assumption|apply F_okb; assumption|apply Z_okb_ok; assumption].
Qed.
(** a created transaction, and an object with vectors of the right lengths *)
Example C48_hypotheses : exists t, CreateCTx1 G4099 toyH toyhex ap4099 alice 3 (ac_pk G4099 bob) cr8 = Some t /\ tx_ok G4099 t /\
  presized G4099 {| c_sn := 0; c_bal := c_bal G4099 t; c_pks := inf G4099; c_pkr := inf G4099; c_tr := c_tr G4099 t; c_pte := c_pte G4099 t;
     c_bp := c_bp G4099 t; c_ref := c_bal G4099 t; c_pk := c_pk G4099 t; c_dle := c_dle G4099 t |} t.
Proof.
  assert (X : match CreateCTx1 G4099 toyH toyhex ap4099 alice 3 (ac_pk G4099 bob) cr8 with Some t => tx_okb t | None => false end = true) by (vm_compute; reflexivity).
  destruct (CreateCTx1 G4099 toyH toyhex ap4099 alice 3 (ac_pk G4099 bob) cr8) as [t|]; [|discriminate].
  exists t. split; [reflexivity|]. split; [apply tx_okb_ok; exact X|]. repeat split.
Qed.

Print Assumptions C48_fetch_refuted.
Print Assumptions C48_presized_partial.
Print Assumptions C83_account_round_trip.
Print Assumptions C83_infinity_lost.

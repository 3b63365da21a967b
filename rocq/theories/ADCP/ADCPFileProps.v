(** Property C106: what the file of a one-to-many transaction holds. *)
From Coq Require Import NArith ZArith List Lia Bool Arith.
From Coq Require Import ZifyBool ZifyNat ZifyN.
From Verif.Base Require Import Words ListX.
From Verif.Crypto Require Import BigIntModel BigIntSpec BigIntProofs.
From Verif.Group Require Import ECModel ECProofs ZqGroup.
From Verif.PKE Require Import DlogModel DlogSpec DlogProps ElGamalModel ElGamalProps.
From Verif.Sigma Require Import SigmaModel SigmaProps.
From Verif.Bullet Require Import IPModel BPModel BPSpec BPProps GadgetModel GadgetProps.
From Verif.ADCP Require Import ADCPModel ADCPSpec ADCPProofs ADCPProps ADCPManyProps ADCPSaveProps ADCPFileModel.
Import ListNotations.
Local Open Scope Z_scope.

Section Props.
Variable G : ECGroup.

(** ** Specification *)
Definition mrct_ok (c : TMRCT G) : Prop := Forall (P_ok G) (tvX G c) /\ P_ok G (tmY G c).
Definition pte_ok (p : PTEProof G) : Prop := Forall (P_ok G) (pteA G p) /\ P_ok G (pteB G p) /\ Z_ok (ptez G p) /\ Z_ok (ptet G p).
(** everything the file holds can be written: no point at infinity, numbers of 256 bits *)
Definition many_ok (t : CTxN G) : Prop :=
  Z_ok (m_sn G t) /\ P_ok G (m_pks G t) /\ ct_ok G (m_str G t) /\ Forall (P_ok G) (m_pkr G t) /\ Forall mrct_ok (m_rtr G t) /\
  Forall pte_ok (m_pte G t) /\ ct_ok G (m_ref G t) /\
  (P_ok G (dleA1 G (m_dle G t)) /\ P_ok G (dleA2 G (m_dle G t)) /\ Z_ok (dlez G (m_dle G t))) /\
  bp_ok G (m_bp G t) /\
  (P_ok G (pkA G (m_pk G t)) /\ P_ok G (pkB G (m_pk G t)) /\ Z_ok (pkz1 G (m_pk G t)) /\ Z_ok (pkz2 G (m_pk G t))).
(** the vectors of both transactions have the same lengths *)
Definition same_shape (t u : CTxN G) : Prop :=
  length (m_pkr G t) = length (m_pkr G u) /\
  map (fun c => length (tvX G c)) (m_rtr G t) = map (fun c => length (tvX G c)) (m_rtr G u) /\
  map (fun p => length (pteA G p)) (m_pte G t) = map (fun p => length (pteA G p)) (m_pte G u) /\
  length (ipL G (bpip G (m_bp G t))) = length (ipL G (bpip G (m_bp G u))) /\
  length (ipR G (bpip G (m_bp G t))) = length (ipR G (bpip G (m_bp G u))).
(** [u] is [t] but for the sender's balance and the proof of the balance *)
Definition same_but_balance (t u : CTxN G) : Prop :=
  m_sn G u = m_sn G t /\ m_pks G u = m_pks G t /\ m_str G u = m_str G t /\ m_pkr G u = m_pkr G t /\ m_rtr G u = m_rtr G t /\
  m_ref G u = m_ref G t /\ m_pk G u = m_pk G t /\ m_dle G u = m_dle G t /\ m_pte G u = m_pte G t /\ m_bp G u = m_bp G t.

(** ** Proofs *)
Lemma point_inj : forall gp P Q r s, P_ok G P -> P_ok G Q -> write_point G gp P ++ r = write_point G gp Q ++ s -> P = Q /\ r = s.
Proof.
  intros gp P Q r s HP HQ E. pose proof (read_write_point G gp (inf G) P r HP) as A.
  pose proof (read_write_point G gp (inf G) Q s HQ) as B. rewrite E in A. assert (X : (P, r) = (Q, s)) by congruence.
  split; congruence.
Qed.
Lemma bigint_inj : forall gb a b r s, Z_ok a -> Z_ok b -> write_bigint gb a ++ r = write_bigint gb b ++ s -> a = b /\ r = s.
Proof.
  intros gb a b r s HP HQ E. pose proof (read_write_bigint gb a r HP) as A.
  pose proof (read_write_bigint gb b s HQ) as B. rewrite E in A. assert (X : (a, r) = (b, s)) by congruence.
  split; congruence.
Qed.
Lemma points_inj : forall gp v w r s, Forall (P_ok G) v -> Forall (P_ok G) w -> length v = length w ->
  write_points G gp v ++ r = write_points G gp w ++ s -> v = w /\ r = s.
Proof.
  intros gp v w r s HP HQ L E. pose proof (read_write_points G gp v v r HP eq_refl) as A.
  pose proof (read_write_points G gp w v s HQ L) as B. rewrite E in A. assert (X : (v, r) = (w, s)) by congruence.
  split; congruence.
Qed.
Ltac next E := rewrite <- ?app_assoc in E;
  first [apply point_inj in E; [|assumption|assumption]|apply bigint_inj in E; [|assumption|assumption]|apply points_inj in E; [|assumption|assumption|assumption]];
  let X := fresh "X" in destruct E as [X E].
Lemma ct_inj : forall gp c d r s, ct_ok G c -> ct_ok G d -> write_ct G gp c ++ r = write_ct G gp d ++ s -> c = d /\ r = s.
Proof.
  intros gp [cx cy] [dx dy] r s [A B] [C D] E. unfold write_ct in E. cbn [tX tY] in *. do 2 next E. split; [congruence|exact E].
Qed.
Lemma mrct_inj : forall gp c d r s, mrct_ok c -> mrct_ok d -> length (tvX G c) = length (tvX G d) ->
  write_mrct G gp c ++ r = write_mrct G gp d ++ s -> c = d /\ r = s.
Proof.
  intros gp [cx cy] [dx dy] r s [A B] [C D] L E. unfold write_mrct in E. cbn [tvX tmY] in *. do 2 next E. split; [congruence|exact E].
Qed.
Lemma pte_inj : forall gb gp c d r s, pte_ok c -> pte_ok d -> length (pteA G c) = length (pteA G d) ->
  write_pte G gb gp c ++ r = write_pte G gb gp d ++ s -> c = d /\ r = s.
Proof.
  intros gb gp [c1 c2 c3 c4] [d1 d2 d3 d4] r s [A1 [A2 [A3 A4]]] [B1 [B2 [B3 B4]]] L E. unfold write_pte in E.
  cbn [pteA pteB ptez ptet] in *. do 4 next E. split; [congruence|exact E].
Qed.
Lemma dle_inj : forall gb gp c d r s,
  P_ok G (dleA1 G c) /\ P_ok G (dleA2 G c) /\ Z_ok (dlez G c) -> P_ok G (dleA1 G d) /\ P_ok G (dleA2 G d) /\ Z_ok (dlez G d) ->
  write_dle G gb gp c ++ r = write_dle G gb gp d ++ s -> c = d /\ r = s.
Proof.
  intros gb gp [c1 c2 c3] [d1 d2 d3] r s [A1 [A2 A3]] [B1 [B2 B3]] E. unfold write_dle in E.
  cbn [dleA1 dleA2 dlez] in *. do 3 next E. split; [congruence|exact E].
Qed.
Lemma pk_inj : forall gb gp c d r s,
  P_ok G (pkA G c) /\ P_ok G (pkB G c) /\ Z_ok (pkz1 G c) /\ Z_ok (pkz2 G c) ->
  P_ok G (pkA G d) /\ P_ok G (pkB G d) /\ Z_ok (pkz1 G d) /\ Z_ok (pkz2 G d) ->
  write_pk G gb gp c ++ r = write_pk G gb gp d ++ s -> c = d /\ r = s.
Proof.
  intros gb gp [c1 c2 c3 c4] [d1 d2 d3 d4] r s [A1 [A2 [A3 A4]]] [B1 [B2 [B3 B4]]] E. unfold write_pk in E.
  cbn [pkA pkB pkz1 pkz2] in *. do 4 next E. split; [congruence|exact E].
Qed.
Lemma bp_inj : forall gb gp c d r s, bp_ok G c -> bp_ok G d ->
  length (ipL G (bpip G c)) = length (ipL G (bpip G d)) -> length (ipR G (bpip G c)) = length (ipR G (bpip G d)) ->
  write_bp G gb gp c ++ r = write_bp G gb gp d ++ s -> c = d /\ r = s.
Proof.
  intros gb gp [c1 c2 c3 c4 c5 c6 c7 [c8 c9 c10 c11]] [d1 d2 d3 d4 d5 d6 d7 [d8 d9 d10 d11]] r s
    [A1 [A2 [A3 [A4 [A5 [A6 [A7 [A8 [A9 [A10 A11]]]]]]]]]] [B1 [B2 [B3 [B4 [B5 [B6 [B7 [B8 [B9 [B10 B11]]]]]]]]]] L M E.
  unfold write_bp, write_ip in E. cbn [bpA bpS bpT1 bpT2 bptaux bpmu bptx bpip ipL ipR ipa ipb] in *.
  do 11 next E. split; [congruence|exact E].
Qed.
Lemma map_len : forall (A : Type) (v u : list A), length v = length u -> map (fun _ => O) v = map (fun _ => O) u.
Proof. intros A. induction v as [|a v IH]; intros [|b u] L; try discriminate L; [reflexivity|]. cbn [map]. f_equal. apply IH. cbn in L. congruence. Qed.
(** a list of objects, when the shapes of the objects agree *)
Lemma list_inj : forall (A : Type) (ok : A -> Prop) (sh : A -> nat) (w : A -> list N),
  (forall c d r s, ok c -> ok d -> sh c = sh d -> w c ++ r = w d ++ s -> c = d /\ r = s) ->
  forall v u r s, Forall ok v -> Forall ok u -> map sh v = map sh u ->
  concat (map w v) ++ r = concat (map w u) ++ s -> v = u /\ r = s.
Proof.
  intros A ok sh w W. induction v as [|a v IH]; intros [|b u] r s F K S E; try discriminate S.
  - split; [reflexivity|exact E].
  - inversion F; inversion K; subst. cbn [map] in S. cbn [map concat] in E. rewrite <- !app_assoc in E.
    apply W in E; [|assumption|assumption|congruence]. destruct E as [-> E].
    apply IH in E; [|assumption|assumption|congruence]. destruct E as [-> E]. split; [reflexivity|exact E].
Qed.

(** ** C106: what holds.  Files of transactions of the same shape are equal only if the
    transactions agree in everything but the sender's balance and the balance proof. *)
Theorem C106_file_determines_partial : forall gb gp t u, many_ok t -> many_ok u -> same_shape t u ->
  SaveCTxN G gb gp t = SaveCTxN G gb gp u -> same_but_balance t u.
Proof.
  intros gb gp t u [A1 [A2 [A3 [A4 [A5 [A6 [A7 [A8 [A9 A10]]]]]]]]] [B1 [B2 [B3 [B4 [B5 [B6 [B7 [B8 [B9 B10]]]]]]]]]
    [S1 [S2 [S3 [S4 S5]]]] E.
  unfold SaveCTxN in E. next E. next E. apply ct_inj in E; [|assumption|assumption]. destruct E as [X1 E].
  apply (list_inj _ (P_ok G) (fun _ => O) (write_point G gp)) in E;
    [|intros; apply (point_inj gp); assumption|assumption|assumption|apply map_len; exact S1].
  destruct E as [X2 E].
  apply (list_inj _ mrct_ok (fun c => length (tvX G c)) (write_mrct G gp)) in E;
    [|intros; apply (mrct_inj gp); assumption|assumption|assumption|assumption].
  destruct E as [X3 E].
  apply (list_inj _ pte_ok (fun c => length (pteA G c)) (write_pte G gb gp)) in E;
    [|intros; apply (pte_inj gb gp); assumption|assumption|assumption|assumption].
  destruct E as [X4 E].
  apply ct_inj in E; [|assumption|assumption]. destruct E as [X5 E].
  apply dle_inj in E; [|assumption|assumption]. destruct E as [X6 E].
  apply bp_inj in E; [|assumption|assumption|assumption|assumption]. destruct E as [X7 E].
  rewrite <- (app_nil_r (write_pk G gb gp (m_pk G t))), <- (app_nil_r (write_pk G gb gp (m_pk G u))) in E.
  apply pk_inj in E; [|assumption|assumption]. destruct E as [X8 E].
  repeat split; symmetry; assumption.
Qed.

(** ** C106: what is false.  For every accepted transaction there is one that is rejected
    and has the same file: the file does not tell whether the transaction is valid. *)
Theorem C106_file_refuted : forall (H : list N -> Z) hex pp t c gb gp, t_g G (a_enc G pp) <> inf G ->
  VerifyCTxN G H hex pp t c = Some true ->
  exists u, SaveCTxN G gb gp u = SaveCTxN G gb gp t /\ same_but_balance t u /\ m_bal G u = m_bal G t /\
    VerifyCTxN G H hex pp u c = Some false.
Proof.
  intros H hex pp t c gb gp NG V. destruct t as [sn bal pks str pkr rtr ref kp dle pte bp [A z]].
  exists {| m_sn := sn; m_bal := bal; m_pks := pks; m_str := str; m_pkr := pkr; m_rtr := rtr; m_ref := ref; m_pk := kp;
            m_dle := dle; m_pte := pte; m_bp := bp; m_dlk := {| dlkA := A; dlkz := z + 1 |} |}.
  split; [reflexivity|]. split; [repeat split|]. split; [reflexivity|].
  unfold VerifyCTxN in *. cbn [m_sn m_bal m_pks m_str m_pkr m_rtr m_ref m_pk m_dle m_pte m_bp m_dlk] in *.
  destruct (PTE_verifies _ _ _ _ _ _ _ _ _) as [[b1 t1]|]; [|discriminate]. cbn [obind fst snd] in *.
  destruct (PK_Verify _ _ _ _ _ _ _ _) as [b2 t2]. cbn [fst snd] in *.
  destruct (BP_FastVerify _ _ _ _ _ _ _) as [[b3 t3]|]; [|discriminate]. cbn [obind fst snd] in *.
  unfold DLK_Verify in *. cbn [dlkA dlkz fst snd] in *.
  match type of V with Some (_ && peqb G ?x ?y && _) = _ => destruct (peqb_spec G x y) as [E|]; [|rewrite andb_false_r in V; discriminate V] end.
  f_equal. match goal with |- (_ && peqb G ?x ?y && _) = _ => destruct (peqb_spec G x y) as [E'|]; [|rewrite andb_false_r; reflexivity] end.
  exfalso. apply NG. apply (padd_cancel_l G _ _ (pmul G (t_g G (a_enc G pp)) z)).
  rewrite padd_inf. rewrite <- (pmul_1 G (t_g G (a_enc G pp))) at 2. rewrite <- pmul_add. congruence.
Qed.

(** The supervisor's key comes back. *)
Theorem C106_supervisor_key : forall gb ska rest, 0 <= ska < order G -> order G <= 2 ^ 256 ->
  FetchSP (SaveSP gb ska ++ rest) = Some ska.
Proof.
  intros gb ska rest R L. unfold FetchSP, SaveSP. rewrite read_write_bigint by lia. reflexivity.
Qed.
End Props.

(** ** the hypotheses are met by concrete, non-trivial data: a created transaction with one
    receiver that verifies, and a second one of the same shape *)
Definition mrct_okb (c : TMRCT G4099) : bool := forallb P_okb (tvX _ c) && P_okb (tmY _ c).
Definition pte_okb (p : PTEProof G4099) : bool := forallb P_okb (pteA _ p) && P_okb (pteB _ p) && Z_okb (ptez _ p) && Z_okb (ptet _ p).
Definition bp_okb (p : BPProof G4099) : bool :=
  P_okb (bpA _ p) && P_okb (bpS _ p) && P_okb (bpT1 _ p) && P_okb (bpT2 _ p) &&
  Z_okb (bptaux _ p) && Z_okb (bpmu _ p) && Z_okb (bptx _ p) &&
  forallb P_okb (ipL _ (bpip _ p)) && forallb P_okb (ipR _ (bpip _ p)) && Z_okb (ipa _ (bpip _ p)) && Z_okb (ipb _ (bpip _ p)).
Definition many_okb (t : CTxN G4099) : bool :=
  true && Z_okb (m_sn _ t) && P_okb (m_pks _ t) && P_okb (tX _ (m_str _ t)) && P_okb (tY _ (m_str _ t)) && forallb P_okb (m_pkr _ t) &&
  forallb mrct_okb (m_rtr _ t) && forallb pte_okb (m_pte _ t) && P_okb (tX _ (m_ref _ t)) && P_okb (tY _ (m_ref _ t)) &&
  P_okb (dleA1 _ (m_dle _ t)) && P_okb (dleA2 _ (m_dle _ t)) && Z_okb (dlez _ (m_dle _ t)) && bp_okb (m_bp _ t) &&
  P_okb (pkA _ (m_pk _ t)) && P_okb (pkB _ (m_pk _ t)) && Z_okb (pkz1 _ (m_pk _ t)) && Z_okb (pkz2 _ (m_pk _ t)).
Ltac bools := repeat match goal with E : _ && _ = true |- _ => apply andb_prop in E; let E2 := fresh "E" in destruct E as [E E2] end;
  repeat match goal with |- _ /\ _ => split end;
  try solve [apply P_okb_ok; assumption|apply F_okb; assumption|apply Z_okb_ok; assumption].
Lemma bp_okb_ok : forall p, bp_okb p = true -> bp_ok G4099 p.
Proof. intros p E. unfold bp_okb in E. unfold bp_ok. bools. Qed.
Lemma many_okb_ok : forall t, many_okb t = true -> many_ok G4099 t.
Proof.
  intros t E. unfold many_okb in E. unfold many_ok, ct_ok. bools.
  - apply Forall_forall. intros c I. match goal with X : forallb mrct_okb _ = true |- _ => rewrite forallb_forall in X; specialize (X c I); rename X into F end.
    unfold mrct_okb in F. unfold mrct_ok. bools.
  - apply Forall_forall. intros c I. match goal with X : forallb pte_okb _ = true |- _ => rewrite forallb_forall in X; specialize (X c I); rename X into F end.
    unfold pte_okb in F. unfold pte_ok. bools.
  - apply bp_okb_ok. assumption.
Qed.
(** the same transaction with the serial number 5 *)
Definition numbered (t : CTxN G4099) : CTxN G4099 :=
  {| m_sn := 5; m_bal := m_bal _ t; m_pks := m_pks _ t; m_str := m_str _ t; m_pkr := m_pkr _ t; m_rtr := m_rtr _ t; m_ref := m_ref _ t;
     m_pk := m_pk _ t; m_dle := m_dle _ t; m_pte := m_pte _ t; m_bp := m_bp _ t; m_dlk := m_dlk _ t |}.
Example C106_hypotheses : exists t, CreateCTxN G4099 toyH toyhex ap4099 alice [4] [ac_pk G4099 bob] mr4 = Some t /\
  many_ok G4099 t /\ many_ok G4099 (numbered t) /\ same_shape G4099 t (numbered t) /\
  t_g G4099 (a_enc G4099 ap4099) <> inf G4099 /\ VerifyCTxN G4099 toyH toyhex ap4099 t 5 = Some true.
Proof.
  assert (X : match CreateCTxN G4099 toyH toyhex ap4099 alice [4] [ac_pk G4099 bob] mr4 with Some t => many_okb t | None => false end = true)
    by (vm_compute; reflexivity).
  pose proof C45_many_run as V.
  destruct (CreateCTxN G4099 toyH toyhex ap4099 alice [4] [ac_pk G4099 bob] mr4) as [t|]; [|discriminate X].
  exists t. split; [reflexivity|]. apply many_okb_ok in X. split; [exact X|]. split.
  - destruct X as [_ X]. split; [split; [discriminate|reflexivity]|exact X].
  - split; [repeat split|]. split; [|exact V].
    intros Y. apply (f_equal (fun P => proj1_sig P)) in Y. vm_compute in Y. discriminate Y.
Qed.

Print Assumptions C106_file_determines_partial.
Print Assumptions C106_file_refuted.
Print Assumptions C106_supervisor_key.

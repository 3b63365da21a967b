(** Property C96 for the supervisor's limit policy, and concrete cases of C96. *)
From Coq Require Import NArith ZArith List Lia Bool Arith.
From Coq Require Import ZifyBool ZifyNat ZifyN.
From Verif.Base Require Import Words ListX.
From Verif.Crypto Require Import BigIntModel BigIntSpec BigIntProofs.
From Verif.Group Require Import ECModel ECProofs ZqGroup.
From Verif.PKE Require Import DlogModel ElGamalModel ElGamalProofs ElGamalProps.
From Verif.Sigma Require Import SigmaModel SigmaSpec SigmaProofs SigmaProps.
From Verif.Bullet Require Import IPModel BPModel BPSpec LagSpec BPProofs BPProps GadgetModel GadgetProps LagProofs.
From Verif.Bullet Require Import ExtractSpec BPExtractSpec ExtractProps GadgetSoundSpec GadgetSoundProps.
From Verif.ADCP Require Import ADCPModel ADCPSpec ADCPProofs ADCPProps ADCPGateSpec ADCPGateProps ADCPSoundSpec ADCPSoundProps ADCPSoundRun.
From Verif.PKE Require Import ElGamalModel.
Import ListNotations.
Local Open Scope Z_scope.

Section Limit.
Variable G : ECGroup.
Local Notation q := (order G).
Local Notation "P *p k" := (pmul G P k%Z) (at level 40, left associativity).

(** an audit accepted for some value of the verifier's combiner; the refreshed sum is [ct'] *)
Definition audited (pp : APP G) (pk : pt G) (ts : list (CTx1 G)) (ct' : TCT G) (L R : Z) (x : (list N -> Z) * RP2 G) : Prop :=
  rp2_ct G (snd x) = ct' /\ exists c, AuditLimit G (fst x) pp pk ts L R (snd x) c = Some true.
(** the transcript of an audit starts empty *)
Definition start (x : (list N -> Z) * RP2 G) : grun2 G := (fst x, [], snd x).
Definition audit_runs (pp : APP G) pk ts ct' L R {d} (T : bp_tree G d) : Prop :=
  forall i j k l w, (i < bp_range G (a_bullet G pp) * 2)%nat -> (j < 4)%nat -> (k < 3)%nat -> (l < 2)%nat -> is_branch d w ->
  exists (H : list N -> Z) p c c',
    along G T H (snd (know2 G (gadget_pp G pp) pk (limit_sum G ts) ct' (H, [], p))) (rp2_bullet G p) i j k l w /\ rp2_ct G p = ct' /\
    ~ cong q c c' /\ AuditLimit G H pp pk ts L R p c = Some true /\ AuditLimit G H pp pk ts L R p c' = Some true.

Lemma audit_is_proof : forall H pp pk ts L R p c, AuditLimit G H pp pk ts L R p c = Some true ->
  exists out, RP2_Verify G H (gadget_pp G pp) pk (limit_sum G ts) L R [] p c = Some (true, out).
Proof.
  intros H pp pk ts L R p c E. unfold AuditLimit in E. destruct (forallb _ ts); [|discriminate].
  destruct (RP2_Verify G H (gadget_pp G pp) pk (limit_sum G ts) L R [] p c) as [[b out]|]; cbn [obind fst] in E; [|discriminate].
  exists out. congruence.
Qed.

(** the accepted limit is the limit of what the user's transactions pay *)
Theorem C96_audit_limit_sound : forall pp pk ts vs ct' L R d (T : bp_tree G d) x x' y y',
  t_g G (a_enc G pp) = bp_g G (a_bullet G pp) -> t_h G (a_enc G pp) = bp_h G (a_bullet G pp) -> t_h G (a_enc G pp) <> inf G ->
  0 <= L <= R -> R <= 2 ^ Z.of_nat (bp_range G (a_bullet G pp)) -> 2 * 2 ^ Z.of_nat (bp_range G (a_bullet G pp)) <= q ->
  (bp_range G (a_bullet G pp) * 2 = 2 ^ d)%nat -> (d < 64)%nat ->
  Forall2 (fun t v => pk = c_pks G t /\ transfers G pp t v) ts vs ->
  Forall (audited pp pk ts ct' L R) [x; x'; y; y'] ->
  gfork_owner2 G (gadget_pp G pp) pk (limit_sum G ts) ct' (start x) (start x') -> gfork_know2 G (gadget_pp G pp) pk (limit_sum G ts) ct' (start y) (start y') ->
  let C := AdjustBulletInstance G (a_bullet G pp) L R (tY G ct') in
  bp_good G (a_bullet G pp) C T -> audit_runs pp pk ts ct' L R T ->
  let sk := got_key2 G (gadget_pp G pp) pk (limit_sum G ts) ct' (start x) (start x') in
  let m := got_value2 G (gadget_pp G pp) pk (limit_sum G ts) ct' (start y) (start y') in
  let r := got_random2 G (gadget_pp G pp) pk (limit_sum G ts) ct' (start y) (start y') in
  pk = t_g G (a_enc G pp) *p sk /\ (invertible G sk -> cong q m (zsum vs)) /\
  match bp_extract G (bp_range G (a_bullet G pp)) 2 d T with
  | BpRelation e => bp_found_ok G (a_bullet G pp) C (BpRelation e)
  | BpWitness rs' vs' => inside G (gadget_pp G pp) L R r m rs' vs'
  end.
Proof.
  intros pp pk ts vs ct' L R d T x x' y y' EG EH HF RL RR BQ ER Hd FT FA F1 F2 C Good AR sk m r.
  assert (ACC : Forall (gaccepts2 G (gadget_pp G pp) pk (limit_sum G ts) ct' L R) [start x; start x'; start y; start y']).
  { assert (AC : forall z, audited pp pk ts ct' L R z -> gaccepts2 G (gadget_pp G pp) pk (limit_sum G ts) ct' L R (start z)).
    { intros z [EC [c A]]. destruct (audit_is_proof _ _ _ _ _ _ _ _ A) as [out V]. split; [exact EC|]. exists c, out. exact V. }
    inversion_clear FA as [|? ? A1 FB]. inversion_clear FB as [|? ? A1' FC]. inversion_clear FC as [|? ? A2 FD]. inversion_clear FD as [|? ? A2' _].
    repeat (constructor; [apply AC; assumption|]). constructor. }
  assert (GR : gruns2 G (gadget_pp G pp) pk (limit_sum G ts) ct' L R T).
  { intros i j k l w Hi Hj Hk Hl Hw. destruct (AR i j k l w Hi Hj Hk Hl Hw) as [H [p [c [c' [AL [EC [NC [A A']]]]]]]].
    destruct (audit_is_proof _ _ _ _ _ _ _ _ A) as [o V]. destruct (audit_is_proof _ _ _ _ _ _ _ _ A') as [o' V'].
    exists H, [], p, c, c', o, o'. auto. }
  destruct (C96_known_key_sound G (gadget_pp G pp) pk (limit_sum G ts) ct' L R d T _ _ _ _ EG EH (conj RL RR) BQ ER Hd ACC F1 F2 Good GR) as [K [DE RG]].
  split; [exact K|]. split; [|exact RG]. intros I. specialize (DE I).
  set (u := {| ac_id := []; ac_pk := pk; ac_sk := sk; ac_ct := T_Enc G (a_enc G pp) pk 0 0; ac_m := 0; ac_sn := 0 |} : Account G).
  assert (AO : account_ok G pp u).
  { split; [exact I|]. split; [exact K|]. cbn [u ac_sk ac_ct ac_m]. unfold T_Enc. rewrite msum2, K.
    exact (Dec_enc G _ _ sk 0 0 I). }
  pose proof (limit_sum_point G pp u ts vs AO FT) as S. cbn [u ac_sk] in S. fold sk in DE. rewrite S in DE.
  cbn [rp_enc gadget_pp] in DE. apply (pmul_inj G _ _ _ HF) in DE. fold m in DE. symmetry. exact DE.
Qed.

(** the proof with the key is an equality proof and a proof about the refreshed ciphertext *)
Lemma RP2_is_RP1 : forall H (pp : RPP G) pk ct L R tr ct' dp kp bp c tr' out,
  DLE_Verify G H (t_g G (rp_enc G pp)) pk (psub G (tY G ct') (tY G ct)) (psub G (tX G ct') (tX G ct)) tr dp = (true, tr') ->
  RP1_Verify G H pp pk ct' L R tr' {| rp1_ptke := kp; rp1_bullet := bp |} c = Some (true, out) ->
  RP2_Verify G H pp pk ct L R tr {| rp2_ct := ct'; rp2_dle := dp; rp2_ptke := kp; rp2_bullet := bp |} c = Some (true, out).
Proof.
  intros H pp pk ct L R tr ct' dp kp bp c tr' out D V. unfold RP2_Verify. cbv zeta. cbn [rp2_ct rp2_dle rp2_ptke rp2_bullet]. rewrite D. cbn [fst snd].
  unfold RP1_Verify in V. cbn [rp1_ptke rp1_bullet] in V.
  destruct (BP_FastVerify G H (rp_bullet G pp) _ _ _ c) as [[b o]|]; cbn [obind fst snd] in V |- *; [|discriminate]. exact V.
Qed.
End Limit.
Print Assumptions C96_audit_limit_sound.

(** ** concrete cases: the payer of ADCPSoundRun has paid one coin and proves that the sum is
    in [1, 2); the range proofs of the runs are those of 192 honest audits *)
Local Notation G := G101.
Definition lpp : RPP G := gadget_pp G apt.
Definition lct : TCT G := limit_sum G [t5].
Definition lref : TCT G := T_Enc G (a_enc G apt) (ac_pk G payer) 1 29.
Definition lrn : BPRand := {| rd_alpha := 33; rd_sL := [5; 6]; rd_sR := [90; 91]; rd_rho := 12; rd_tau1 := 44; rd_tau2 := 55 |}.
Definition ldle (H : list N -> Z) : DLEProof G * list N :=
  DLE_Prove G H (t_g G (rp_enc G lpp)) (ac_pk G payer) (psub G (tY G lref) (tY G lct)) (psub G (tX G lref) (tX G lct)) (ac_sk G payer) [] 63.
Definition lprove (H : list N -> Z) : option (RP1 G * list N) := RP1_Prove G H lpp (ac_pk G payer) lref 1 2 29 1 (snd (ldle H)) 64 65 lrn.
Definition lrp1 (H : list N -> Z) : RP1 G :=
  match lprove H with Some (p, _) => p | None => {| rp1_ptke := c_pk G (ctx0 G); rp1_bullet := c_bp G (ctx0 G) |} end.
Definition lrp2 (H : list N -> Z) (p : RP1 G) : RP2 G :=
  {| rp2_ct := lref; rp2_dle := fst (ldle H); rp2_ptke := rp1_ptke G p; rp2_bullet := rp1_bullet G p |}.

Definition HtL (i j k l m : nat) : list N -> Z :=
  by_length [(12 * 33, yt i); (13 * 33, zt j); (15 * 33, xt k); (15 * 33 + 1, et l); (17 * 33 + 1, ut m)]%nat.
Definition tableL : list (list Z) := Eval vm_compute in
  flat_map (fun i => flat_map (fun j => flat_map (fun k => flat_map (fun l => map (fun m => bpn (rp1_bullet G (lrp1 (HtL i j k l m))))
    (seq 0 4)) (seq 0 2)) (seq 0 3)) (seq 0 4)) (seq 0 2).
Definition ln (f i j k l m : nat) : Z := nth f (nth (pick i j k l m) tableL []) 0.
Definition Al : Z := Eval vm_compute in proj1_sig (bpA G (rp1_bullet G (lrp1 (HtL 0 0 0 0 0)))).
Definition Sl0 : Z := Eval vm_compute in proj1_sig (bpS G (rp1_bullet G (lrp1 (HtL 0 0 0 0 0)))).
Definition Sl1 : Z := Eval vm_compute in proj1_sig (bpS G (rp1_bullet G (lrp1 (HtL 1 0 0 0 0)))).
Definition subL (i j k l : nat) : ip_tree G 1 :=
  {| nL := p101 (ln 5 i j k l 0); nR := p101 (ln 6 i j k l 0); nx := ut; nt := fun m => (ln 7 i j k l m, ln 8 i j k l m) |}.
Definition rtreeL : bp_tree G 1 :=
  {| tA := p101 Al; ty := yt; tS := fun i => p101 (nth i [Sl0; Sl1] 0); tz := fun _ => zt;
     tT1 := fun i j => p101 (ln 3 i j 0 0 0); tT2 := fun i j => p101 (ln 4 i j 0 0 0);
     tch := fun _ _ => xt; te := fun _ _ _ => et;
     ttaux := fun i j k l => ln 0 i j k l 0; tmu := fun i j k l => ln 1 i j k l 0; ttx := fun i j k l => ln 2 i j k l 0;
     tip := fun i j k l => subL i j k l |}.

Definition ltr (H : list N -> Z) (p : RP1 G) : list N := snd (know1 G lpp (ac_pk G payer) lref (H, snd (ldle H), p)).
Definition leafL (H : list N -> Z) (i j k l m : nat) (o : option (RP1 G * list N)) : bool :=
  match o with
  | None => false
  | Some (t, _) => let p := rp1_bullet G t in let tr := ltr H t in
      prf_eq p (bp_branch G rtreeL i j k l [m]) &&
      zleq ([y_of G H tr p; z_of G H tr p; x_of G H tr p; e_of G H tr p] ++ ip_challenges_of G H tr p) [yt i; zt j; xt k; et l; ut m]
  end.
Lemma leavesL : forallb (fun i => forallb (fun j => forallb (fun k => forallb (fun l => forallb (fun m =>
    leafL (HtL i j k l m) i j k l m (lprove (HtL i j k l m)))
    (seq 0 4)) (seq 0 2)) (seq 0 3)) (seq 0 4)) (seq 0 2) = true.
Proof. vm_compute. reflexivity. Qed.

Lemma lref_ok : ac_pk G payer = pmul G (t_g G (rp_enc G lpp)) (ac_sk G payer) /\
  psub G (tX G lref) (tX G lct) = pmul G (psub G (tY G lref) (tY G lct)) (ac_sk G payer).
Proof. split; apply (peqb_true G); vm_compute; reflexivity. Qed.
Lemma lhonest : forall H, exists p out, lprove H = Some (p, out) /\
  (good_challenges G H (ltr H p) (rp1_bullet G p) -> forall c,
     RP1_Verify G H lpp (ac_pk G payer) lref 1 2 (snd (ldle H)) p c = Some (true, out) /\
     AuditLimit G H apt (ac_pk G payer) [t5] 1 2 (lrp2 H p) c = Some true).
Proof.
  intros H. destruct (C44_known_randomness_complete G H lpp (ac_pk G payer) 1 2 1 29 (snd (ldle H)) 64 65 lrn) as [p [out [E V]]].
  - split; [reflexivity|]. split; [reflexivity|]. exists 1%nat. cbn. repeat split; lia.
  - split; cbn; lia.
  - lia.
  - exists p, out. split; [exact E|]. intros GC c. specialize (V GC c). split; [exact V|].
    destruct (ldle H) as [dp dtr] eqn:ED. destruct lref_ok as [K1 K2]. pose proof (C32_complete G H _ _ _ _ (ac_sk G payer) [] 63 dp dtr K1 K2 ED) as VD.
    unfold AuditLimit. replace (forallb _ [t5]) with true by (vm_compute; reflexivity). destruct p as [kp bp].
    unfold lrp2. rewrite ED. cbn [fst snd rp1_ptke rp1_bullet] in *.
    pose proof (RP2_is_RP1 G H _ _ _ 1 2 [] lref dp kp bp c dtr out VD V) as V2. fold lct lpp. rewrite V2. reflexivity.
Qed.

Lemma leafL_facts : forall H i j k l m o, (i < 2)%nat -> (m < 4)%nat -> o = lprove H -> leafL H i j k l m o = true ->
  exists p out, along G rtreeL H (ltr H p) (rp1_bullet G p) i j k l [m] /\ forall c,
     RP1_Verify G H lpp (ac_pk G payer) lref 1 2 (snd (ldle H)) p c = Some (true, out) /\
     AuditLimit G H apt (ac_pk G payer) [t5] 1 2 (lrp2 H p) c = Some true.
Proof.
  intros H i j k l m o Hi Hm E A. destruct (lhonest H) as [p [out [E' V]]]. rewrite E' in E. subst o. unfold leafL in A. cbv zeta in A.
  apply andb_prop in A. destruct A as [A2 A3]. apply prf_eq_eq in A2. apply zleq_eq, (five _ _ _ _ (yt i) (zt j) (xt k) (et l) _ [ut m]) in A3.
  destruct A3 as [EY [EZ [EX [EE EI]]]]. exists p, out. split.
  - split; [exact A2|]. split; [exact EY|]. split; [exact EZ|]. split; [exact EX|]. split; [exact EE|exact EI].
  - apply V. split; [rewrite EY; destruct i as [|[|i]]; try lia; apply unit101; reflexivity|]. rewrite EI. constructor; [|constructor].
    destruct m as [|[|[|[|m]]]]; try lia; apply unit101; reflexivity.
Qed.

Lemma runsL : forall i j k l w, (i < 2)%nat -> (j < 4)%nat -> (k < 3)%nat -> (l < 2)%nat -> is_branch 1 w ->
  exists H p out, along G rtreeL H (ltr H p) (rp1_bullet G p) i j k l w /\ forall c,
     RP1_Verify G H lpp (ac_pk G payer) lref 1 2 (snd (ldle H)) p c = Some (true, out) /\
     AuditLimit G H apt (ac_pk G payer) [t5] 1 2 (lrp2 H p) c = Some true.
Proof.
  intros i j k l w Hi Hj Hk Hl [Lw Fw]. destruct w as [|m [|m' w']]; [discriminate Lw| |discriminate Lw].
  apply Forall_inv in Fw. rename Fw into Hm. cbv beta in Hm.
  pose proof leavesL as A. rewrite forallb_forall in A. specialize (A i ltac:(apply in_seq; lia)). rewrite forallb_forall in A. specialize (A j ltac:(apply in_seq; lia)).
  rewrite forallb_forall in A. specialize (A k ltac:(apply in_seq; lia)). rewrite forallb_forall in A. specialize (A l ltac:(apply in_seq; lia)).
  rewrite forallb_forall in A. specialize (A m ltac:(apply in_seq; lia)).
  exists (HtL i j k l m). exact (leafL_facts (HtL i j k l m) i j k l m _ Hi Hm eq_refl A).
Qed.

Lemma good_treeL : bp_good G (rp_bullet G lpp) (AdjustBulletInstance G (rp_bullet G lpp) 1 2 (tY G lref)) rtreeL.
Proof.
  unfold bp_good. cbv zeta. cbn [AdjustBulletInstance length]. cbn [bp_range rp_bullet lpp gadget_pp a_bullet apt bpt Nat.mul Nat.add rtreeL ty tz tch te tip]. split; [|split; [|split; [|split]]].
  - apply distinct101. vm_compute. reflexivity.
  - intros i Hi. split; [destruct i as [|[|i]]; try lia; apply unit101; reflexivity|]. apply distinct101. vm_compute. reflexivity.
  - intros. apply distinct101. vm_compute. reflexivity.
  - intros. apply distinct101. vm_compute. reflexivity.
  - intros i j k l _ _ _ Hl. split; [destruct l as [|[|l]]; try lia; apply unit101; reflexivity|]. cbn [good_tree subL nx nt]. split; [|split].
    + intros [|[|[|[|m]]]] Hm; try lia; apply unit101; reflexivity.
    + apply distinct101. vm_compute. reflexivity.
    + intros; exact I.
Qed.

Definition K5 : list N -> Z := fun _ => 5.
Definition K7 : list N -> Z := fun _ => 7.
Definition r5 : grun1 G := (K5, snd (ldle K5), lrp1 K5).
Definition r7 : grun1 G := (K7, snd (ldle K7), lrp1 K7).
Definition a5 : (list N -> Z) * RP2 G := (K5, lrp2 K5 (lrp1 K5)).
Definition a7 : (list N -> Z) * RP2 G := (K7, lrp2 K7 (lrp1 K7)).
Lemma accepted57 : forall H a, (H = K5 /\ a = 5) \/ (H = K7 /\ a = 7) -> exists out, forall c,
  RP1_Verify G H lpp (ac_pk G payer) lref 1 2 (snd (ldle H)) (lrp1 H) c = Some (true, out) /\
  AuditLimit G H apt (ac_pk G payer) [t5] 1 2 (lrp2 H (lrp1 H)) c = Some true.
Proof.
  intros H a HA. destruct (lhonest H) as [p [out [E V]]]. assert (EP : lrp1 H = p) by (unfold lrp1; rewrite E; reflexivity).
  exists out. rewrite EP. apply V.
  assert (X : zleq (ip_challenges_of G H (ltr H (lrp1 H)) (rp1_bullet G (lrp1 H))) [a] = true) by (destruct HA as [[-> ->]|[-> ->]]; vm_compute; reflexivity).
  rewrite EP in X. apply zleq_eq in X. split; [destruct HA as [[-> ->]|[-> ->]]; apply unit101; reflexivity|]. rewrite X. constructor; [|constructor].
  destruct HA as [[-> ->]|[-> ->]]; apply unit101; reflexivity.
Qed.

Example C96_hypotheses :
  range_ok G lpp 1 2 /\ 2 * 2 ^ Z.of_nat (bp_range G (rp_bullet G lpp)) <= order G /\ (bp_range G (rp_bullet G lpp) * 2 = 2 ^ 1)%nat /\
  bp_good G (rp_bullet G lpp) (AdjustBulletInstance G (rp_bullet G lpp) 1 2 (tY G lref)) rtreeL /\
  (gaccepts1 G lpp (ac_pk G payer) lref 1 2 r5 /\ gaccepts1 G lpp (ac_pk G payer) lref 1 2 r7 /\
   gfork1 G lpp (ac_pk G payer) lref r5 r7 /\ gruns1 G lpp (ac_pk G payer) lref 1 2 rtreeL) /\
  (audited G apt (ac_pk G payer) [t5] lref 1 2 a5 /\ audited G apt (ac_pk G payer) [t5] lref 1 2 a7 /\
   gfork_owner2 G lpp (ac_pk G payer) lct lref (start G a5) (start G a7) /\ gfork_know2 G lpp (ac_pk G payer) lct lref (start G a5) (start G a7) /\
   audit_runs G apt (ac_pk G payer) [t5] lref 1 2 rtreeL) /\
  Forall2 (fun t v => ac_pk G payer = c_pks G t /\ transfers G apt t v) [t5] [1].
Proof.
  assert (B5 := accepted57 K5 5 (or_introl (conj eq_refl eq_refl))). assert (B7 := accepted57 K7 7 (or_intror (conj eq_refl eq_refl))).
  destruct B5 as [o5 B5], B7 as [o7 B7].
  split; [split; cbn; lia|]. split; [cbn; lia|]. split; [reflexivity|]. split; [exact good_treeL|]. split; [|split].
  - split; [exists 0, o5; apply B5|]. split; [exists 0, o7; apply B7|]. split.
    + split; [apply (peqb_true G); vm_compute; reflexivity|]. split; [apply (peqb_true G); vm_compute; reflexivity|]. exact diff57.
    + intros i j k l w Hi Hj Hk Hl Hw. cbn [bp_range rp_bullet lpp gadget_pp a_bullet apt bpt Nat.mul Nat.add] in Hi.
      destruct (runsL i j k l w Hi Hj Hk Hl Hw) as [H [p [out [AL V]]]]. exists H, (snd (ldle H)), p, 5, 7, out, out. split; [exact AL|]. split; [exact diff57|]. split; apply V.
  - split; [split; [reflexivity|exists 0; apply B5]|]. split; [split; [reflexivity|exists 0; apply B7]|]. split; [|split].
    + split; [apply (peqb_true G); vm_compute; reflexivity|]. split; [apply (peqb_true G); vm_compute; reflexivity|]. exact diff57.
    + split; [apply (peqb_true G); vm_compute; reflexivity|]. split; [apply (peqb_true G); vm_compute; reflexivity|]. exact diff57.
    + intros i j k l w Hi Hj Hk Hl Hw. cbn [bp_range a_bullet apt bpt Nat.mul Nat.add] in Hi.
      destruct (runsL i j k l w Hi Hj Hk Hl Hw) as [H [p [out [AL V]]]]. exists H, (lrp2 H p), 5, 7. split; [|split; [reflexivity|split; [exact diff57|split; apply V]]].
      destruct (ldle H) as [dp dtr] eqn:ED. destruct lref_ok as [K1 K2]. pose proof (C32_complete G H _ _ _ _ (ac_sk G payer) [] 63 dp dtr K1 K2 ED) as VD.
      unfold ltr in AL. rewrite ED in AL. cbn [know1 know2 owner2 lrp2 rp2_dle rp2_ptke rp2_bullet] in *. rewrite ED. cbn [fst snd] in *. fold lct lpp. rewrite VD. exact AL.
  - constructor; [|constructor]. destruct (C45_one_to_one G (fun _ => 5) hexu apt payer 1 (p101 50) rnt apt_ok payer_ok) as [t [E [TR [P _]]]].
    + unfold amount. cbn. lia.
    + unfold amount. cbn. lia.
    + unfold t5, pay. rewrite E. split; [symmetry; exact P|exact TR].
Qed.

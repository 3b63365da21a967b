(** A concrete case of C93: one receiver, amounts of one bit, a group of order 101; forks
    with constant hash functions and 192 honest transactions (as in ADCPSoundRun). *)
From Coq Require Import NArith ZArith List Lia Bool Arith.
From Coq Require Import ZifyBool ZifyNat ZifyN.
From Verif.Base Require Import Words ListX.
From Verif.Crypto Require Import BigIntModel BigIntSpec BigIntProofs.
From Verif.Group Require Import ECModel ECProofs ZqGroup.
From Verif.PKE Require Import DlogModel ElGamalModel ElGamalProofs ElGamalProps.
From Verif.Sigma Require Import SigmaModel SigmaSpec SigmaProofs SigmaProps.
From Verif.Bullet Require Import IPModel BPModel BPSpec LagSpec BPProofs BPProps LagProofs.
From Verif.Bullet Require Import ExtractSpec BPExtractSpec ExtractProps.
From Verif.ADCP Require Import ADCPModel ADCPSpec ADCPProps ADCPGateSpec ADCPGateProps ADCPSoundSpec ADCPSoundProps ADCPManyProps ADCPSoundRun.
From Verif.PKE Require Import ElGamalModel.
Import ListNotations.
Local Open Scope Z_scope.

Local Notation G := G101.
Definition rnm : MRand :=
  {| mr_r := 61; mr_rs := [17]; mr_ab := [(18, 19)]; mr_star := 20; mr_a2 := 21; mr_b2 := 22;
     mr_bp := {| rd_alpha := 33; rd_sL := [5; 6]; rd_sR := [90; 91]; rd_rho := 12; rd_tau1 := 44; rd_tau2 := 55 |}; mr_k := 62; mr_w := 23 |}.
Definition noN : CTxN G :=
  {| m_sn := 0; m_bal := c_bal G (ctx0 G); m_pks := inf G; m_str := c_bal G (ctx0 G); m_pkr := []; m_rtr := []; m_ref := c_bal G (ctx0 G);
     m_pk := c_pk G (ctx0 G); m_dle := c_dle G (ctx0 G); m_pte := []; m_bp := c_bp G (ctx0 G); m_dlk := {| dlkA := inf G; dlkz := 0 |} |}.
Definition payN (H : list N -> Z) : CTxN G := match CreateCTxN G H hexu apt payer [1] [p101 50] rnm with Some t => t | None => noN end.
Definition HtN (i j k l m : nat) : list N -> Z :=
  by_length [(14 * 33, yt i); (15 * 33, zt j); (17 * 33, xt k); (17 * 33 + 1, et l); (19 * 33 + 1, ut m)]%nat.
Definition tableN : list (list Z) := Eval vm_compute in
  flat_map (fun i => flat_map (fun j => flat_map (fun k => flat_map (fun l => map (fun m => bpn (m_bp G (payN (HtN i j k l m))))
    (seq 0 4)) (seq 0 2)) (seq 0 3)) (seq 0 4)) (seq 0 2).
Definition un (f i j k l m : nat) : Z := nth f (nth (pick i j k l m) tableN []) 0.
Definition Am : Z := Eval vm_compute in proj1_sig (bpA G (m_bp G (payN (HtN 0 0 0 0 0)))).
Definition Sm0 : Z := Eval vm_compute in proj1_sig (bpS G (m_bp G (payN (HtN 0 0 0 0 0)))).
Definition Sm1 : Z := Eval vm_compute in proj1_sig (bpS G (m_bp G (payN (HtN 1 0 0 0 0)))).
Definition subN (i j k l : nat) : ip_tree G 1 :=
  {| nL := p101 (un 5 i j k l 0); nR := p101 (un 6 i j k l 0); nx := ut; nt := fun m => (un 7 i j k l m, un 8 i j k l m) |}.
Definition rtreeN : bp_tree G 1 :=
  {| tA := p101 Am; ty := yt; tS := fun i => p101 (nth i [Sm0; Sm1] 0); tz := fun _ => zt;
     tT1 := fun i j => p101 (un 3 i j 0 0 0); tT2 := fun i j => p101 (un 4 i j 0 0 0);
     tch := fun _ _ => xt; te := fun _ _ _ => et;
     ttaux := fun i j k l => un 0 i j k l 0; tmu := fun i j k l => un 1 i j k l 0; ttx := fun i j k l => un 2 i j k l 0;
     tip := fun i j k l => subN i j k l |}.

Definition cteq (a b : TMRCT G) : bool := pleq (tmY _ a :: tvX _ a) (tmY _ b :: tvX _ b).
Definition same_content (t t' : CTxN G) : bool :=
  let f := fun t => [m_pks _ t; tX _ (m_bal _ t); tY _ (m_bal _ t); tX _ (m_ref _ t); tY _ (m_ref _ t); tX _ (m_str _ t); tY _ (m_str _ t)] ++ m_pkr _ t in
  pleq (f t) (f t') && (length (m_rtr _ t) =? length (m_rtr _ t'))%nat && forallb (fun c => cteq (fst c) (snd c)) (combine (m_rtr _ t) (m_rtr _ t')).
Lemma same_content_eq : forall t t', same_content t t' = true -> contentN G t = contentN G t'.
Proof.
  intros [sn [b b'] pks [s s'] pkr rtr [h h'] pk dle pte bp dlk] [sn2 [b2 b2'] pks2 [s2 s2'] pkr2 rtr2 [h2 h2'] pk2 dle2 pte2 bp2 dlk2]. unfold same_content, contentN.
  cbn [m_pks m_pkr m_bal m_ref m_str m_rtr tX tY]. intros E. apply andb_prop in E. destruct E as [E E3]. apply andb_prop in E. destruct E as [E1 E2].
  apply pleq_eq in E1. cbn [app] in E1. injection E1 as -> -> -> -> -> -> -> ->. assert (rtr = rtr2) as ->; [|reflexivity].
  revert rtr2 E2 E3. induction rtr as [|x l IH]; intros [|x2 l2] E2 E3; try reflexivity; try discriminate. cbn [combine forallb fst snd length Nat.eqb] in *.
  apply andb_prop in E3. destruct E3 as [E3 E4]. rewrite (IH l2 E2 E4). apply pleq_eq in E3. destruct x as [a1 a2], x2 as [a3 a4]. cbn [tmY tvX] in E3. congruence.
Qed.

Definition s5 : CTxN G := payN (fun _ => 5).
Definition s7 : CTxN G := payN (fun _ => 7).
Definition leafN (H : list N -> Z) (i j k l m : nat) (o : option (CTxN G)) : bool :=
  match o with
  | None => false
  | Some t => let p := m_bp G t in let tr := range_transcriptN G H apt t in
      same_content t s5 && prf_eq p (bp_branch G rtreeN i j k l [m]) &&
      zleq ([y_of G H tr p; z_of G H tr p; x_of G H tr p; e_of G H tr p] ++ ip_challenges_of G H tr p) [yt i; zt j; xt k; et l; ut m]
  end.
Lemma leavesN : forallb (fun i => forallb (fun j => forallb (fun k => forallb (fun l => forallb (fun m =>
    leafN (HtN i j k l m) i j k l m (CreateCTxN G (HtN i j k l m) hexu apt payer [1] [p101 50] rnm))
    (seq 0 4)) (seq 0 2)) (seq 0 3)) (seq 0 4)) (seq 0 2) = true.
Proof. vm_compute. reflexivity. Qed.

Lemma honest : forall H, exists t, CreateCTxN G H hexu apt payer [1] [p101 50] rnm = Some t /\
  (good_challenges G H (range_transcriptN G H apt t) (m_bp G t) -> forall c, VerifyCTxN G H hexu apt t c = Some true).
Proof.
  intros H. destruct (C45_one_to_many G H hexu apt payer [1] [p101 50] rnm) as [t [E [_ [_ [_ [_ V]]]]]]; try reflexivity.
  - split; [reflexivity|]. split; [reflexivity|]. exists 1%nat. cbn. repeat split; lia.
  - exact payer_ok.
  - constructor; [unfold amount; cbn; lia|constructor].
  - unfold amount. cbn. lia.
  - exists t. split; assumption.
Qed.

Lemma leafN_facts : forall (H : list N -> Z) i j k l m o content, (i < 2)%nat -> (m < 4)%nat ->
  contentN G s5 = content -> o = CreateCTxN G H hexu apt payer [1] [p101 50] rnm -> leafN H i j k l m o = true ->
  exists (H : list N -> Z) t c c',
    let p := m_bp G t in let tr := range_transcriptN G H apt t in
    contentN G t = content /\ p = bp_branch G rtreeN i j k l [m] /\
    y_of G H tr p = ty G rtreeN i /\ z_of G H tr p = tz G rtreeN i j /\ x_of G H tr p = tch G rtreeN i j k /\ e_of G H tr p = te G rtreeN i j k l /\
    ip_challenges_of G H tr p = snd (branch G 1 (tip G rtreeN i j k l) [m]) /\
    ~ cong (order G) c c' /\ VerifyCTxN G H hexu apt t c = Some true /\ VerifyCTxN G H hexu apt t c' = Some true.
Proof.
  intros H i j k l m [t|] content Hi Hm EC E A; [|discriminate A]. unfold leafN in A. cbv zeta in A. apply andb_prop in A. destruct A as [A A3]. apply andb_prop in A. destruct A as [A1 A2].
  apply same_content_eq in A1. apply prf_eq_eq in A2. apply zleq_eq, (five _ _ _ _ (yt i) (zt j) (xt k) (et l) _ [ut m]) in A3.
  destruct A3 as [EY [EZ [EX [EE EI]]]].
  destruct (honest H) as [t' [E' V]].
  assert (t' = t) by congruence. subst t'. exists H, t, 5, 7. cbv zeta. split; [congruence|]. split; [exact A2|].
  split; [exact EY|]. split; [exact EZ|]. split; [exact EX|]. split; [exact EE|]. split; [exact EI|]. split; [exact diff57|].
  assert (GC : good_challenges G H (range_transcriptN G H apt t) (m_bp G t)).
  { split; [rewrite EY; destruct i as [|[|i]]; try lia; apply unit101; reflexivity|]. rewrite EI. constructor; [|constructor].
    destruct m as [|[|[|[|m]]]]; try lia; apply unit101; reflexivity. }
  split; apply V, GC.
Qed.

Lemma runsN192 : range_runsN G hexu apt (contentN G s5) 1 rtreeN.
Proof.
  intros i j k l w Hi Hj Hk Hl [Lw Fw]. cbn [bp_range a_bullet apt bpt Nat.mul Nat.add] in Hi. destruct w as [|m [|m' w']]; [discriminate Lw| |discriminate Lw].
  apply Forall_inv in Fw. rename Fw into Hm. cbv beta in Hm.
  pose proof leavesN as A. rewrite forallb_forall in A. specialize (A i ltac:(apply in_seq; lia)). rewrite forallb_forall in A. specialize (A j ltac:(apply in_seq; lia)).
  rewrite forallb_forall in A. specialize (A k ltac:(apply in_seq; lia)). rewrite forallb_forall in A. specialize (A l ltac:(apply in_seq; lia)).
  rewrite forallb_forall in A. specialize (A m ltac:(apply in_seq; lia)).
  exact (leafN_facts (HtN i j k l m) i j k l m _ _ Hi Hm eq_refl eq_refl A).
Qed.

Lemma constant_ok : forall a o, o = CreateCTxN G (fun _ => a) hexu apt payer [1] [p101 50] rnm -> (a mod 101 =? 0) = false ->
  (match o with Some t => zleq (ip_challenges_of G (fun _ => a) (range_transcriptN G (fun _ => a) apt t) (m_bp G t)) [a] | None => false end = true) ->
  forall c, VerifyCTxN G (fun _ => a) hexu apt (match o with Some t => t | None => noN end) c = Some true.
Proof.
  intros a o E U A c. destruct (honest (fun _ => a)) as [t [E' V]]. rewrite E' in E. subst o. apply V. apply zleq_eq in A.
  split; [apply unit101; exact U|]. rewrite A. constructor; [apply unit101; exact U|constructor].
Qed.
Lemma payN5 : forall c, VerifyCTxN G (fun _ => 5) hexu apt s5 c = Some true.
Proof. exact (constant_ok 5 _ eq_refl eq_refl ltac:(vm_compute; reflexivity)). Qed.
Lemma payN7 : forall c, VerifyCTxN G (fun _ => 7) hexu apt s7 c = Some true.
Proof. exact (constant_ok 7 _ eq_refl eq_refl ltac:(vm_compute; reflexivity)). Qed.

Definition w5 : runN G := ((fun _ => 5), s5).
Definition w7 : runN G := ((fun _ => 7), s7).
Lemma N5 : contentN G (snd w5) = contentN G s5 /\ acceptsN G hexu apt w5.
Proof. split; [reflexivity|exists 0; apply payN5]. Qed.
Lemma N7 : contentN G (snd w7) = contentN G s5 /\ acceptsN G hexu apt w7.
Proof. split; [apply same_content_eq; vm_compute; reflexivity|exists 0; apply payN7]. Qed.

Example C93_hypotheses :
  (bp_range G (a_bullet G apt) * S (length (m_pkr G s5)) = 2 ^ 1)%nat /\ map (fun c => length (tvX G c)) (m_rtr G s5) = [2%nat] /\
  (contentN G (snd w5) = contentN G s5 /\ acceptsN G hexu apt w5) /\ (contentN G (snd w7) = contentN G s5 /\ acceptsN G hexu apt w7) /\
  fork_equalN G apt 0 w5 w7 /\ fork_knowN G apt w5 w7 /\ fork_sumN G apt w5 w7 /\ fork_ownerN G hexu apt w5 w7 /\
  bp_good G (a_bullet G apt) (map (tmY G) (firstn 1 (m_rtr G s5)) ++ [tY G (m_ref G s5)]) rtreeN /\ range_runsN G hexu apt (contentN G s5) 1 rtreeN /\
  tX G (m_str G s5) = pmul G (m_pks G s5) (got_restN G apt w5 w7 + got_coinN G apt 0 w5 w7).
Proof.
  split; [vm_compute; reflexivity|]. split; [vm_compute; reflexivity|]. split; [exact N5|]. split; [exact N7|].
  split; [|split; [|split; [|split; [|split; [|split]]]]].
  - split; [apply pleq_eq; vm_compute; reflexivity|]. split; [apply (peqb_true G); vm_compute; reflexivity|].
    assert (E5 : ch_equalN G apt 0 w5 = 5) by (vm_compute; reflexivity). assert (E7 : ch_equalN G apt 0 w7 = 7) by (vm_compute; reflexivity).
    rewrite E5, E7. exact diff57.
  - split; [apply (peqb_true G); vm_compute; reflexivity|]. split; [apply (peqb_true G); vm_compute; reflexivity|]. unfold ch_knowN, w5, w7. cbn [fst snd]. exact diff57.
  - split; [apply (peqb_true G); vm_compute; reflexivity|].
    assert (E5 : ch_sumN G apt w5 = 5) by (vm_compute; reflexivity). assert (E7 : ch_sumN G apt w7 = 7) by (vm_compute; reflexivity).
    rewrite E5, E7. exact diff57.
  - split; [apply (peqb_true G); vm_compute; reflexivity|]. split; [apply (peqb_true G); vm_compute; reflexivity|].
    assert (E5 : ch_ownerN G hexu apt w5 = 5) by (vm_compute; reflexivity). assert (E7 : ch_ownerN G hexu apt w7 = 7) by (vm_compute; reflexivity).
    rewrite E5, E7. exact diff57.
  - assert (L : length (map (tmY G) (firstn 1 (m_rtr G s5)) ++ [tY G (m_ref G s5)]) = 2%nat) by (vm_compute; reflexivity).
    unfold bp_good. cbv zeta. rewrite L. cbn [bp_range a_bullet apt bpt Nat.mul Nat.add rtreeN ty tz tch te tip]. split; [|split; [|split; [|split]]].
    + apply distinct101. vm_compute. reflexivity.
    + intros i Hi. split; [destruct i as [|[|i]]; try lia; apply unit101; reflexivity|]. apply distinct101. vm_compute. reflexivity.
    + intros. apply distinct101. vm_compute. reflexivity.
    + intros. apply distinct101. vm_compute. reflexivity.
    + intros i j k l _ _ _ Hl. split; [destruct l as [|[|l]]; try lia; apply unit101; reflexivity|]. cbn [good_tree subN nx nt]. split; [|split].
      * intros [|[|[|[|m]]]] Hm; try lia; apply unit101; reflexivity.
      * apply distinct101. vm_compute. reflexivity.
      * intros; exact I.
  - exact runsN192.
  - apply (peqb_true G). vm_compute. reflexivity.
Qed.

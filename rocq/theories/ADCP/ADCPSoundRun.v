(** A concrete case of C92: amounts of one bit in a group of order 101; forks with constant
    hash functions, and 192 honest transactions whose hash functions give the challenges of
    the tree. *)
From Coq Require Import NArith ZArith List Lia Bool Arith.
From Coq Require Import ZifyBool ZifyNat ZifyN.
From Verif.Base Require Import Words ListX.
From Verif.Crypto Require Import BigIntModel BigIntSpec BigIntProofs.
From Verif.Group Require Import ECModel ECProofs ZqGroup.
From Verif.PKE Require Import DlogModel ElGamalModel ElGamalProofs ElGamalProps.
From Verif.Sigma Require Import SigmaModel SigmaSpec SigmaProofs SigmaProps.
From Verif.Bullet Require Import IPModel BPModel BPSpec LagSpec BPProofs BPProps LagProofs.
From Verif.Bullet Require Import ExtractSpec BPExtractSpec ExtractProps.
From Verif.ADCP Require Import ADCPModel ADCPSpec ADCPProps ADCPGateSpec ADCPGateProps ADCPSoundSpec ADCPSoundProps.
From Verif.PKE Require Import ElGamalModel.
Import ListNotations.
Local Open Scope Z_scope.

Local Notation G := G101.
Definition bpt : BPPP G := {| bp_range := 1; bp_g := pgen G; bp_h := p101 9; bp_u := p101 31; bp_vg := map p101 [3; 5]; bp_vh := map p101 [27; 28] |}.
Definition apt : APP G :=
  {| a_snlen := 4; a_maxrecv := 7; a_coins := 4; a_bullet := bpt; a_pka := p101 77;
     a_enc := {| t_len := 1; t_size := 2; t_trade := 0; t_g := pgen G; t_h := p101 9 |} |}.
(** two coins; one is paid *)
Definition payer : Account G := CreateAccount G (fun _ => 8) apt [65%N] 2 0 13.
Definition rnt : CRand :=
  {| cr_r := 17; cr_a1 := 18; cr_b1 := 19; cr_star := 20; cr_a2 := 21; cr_b2 := 22; cr_w := 23;
     cr_bp := {| rd_alpha := 33; rd_sL := [5; 6]; rd_sR := [90; 91]; rd_rho := 12; rd_tau1 := 44; rd_tau2 := 55 |} |}.
Definition pay (H : list N -> Z) : CTx1 G := match CreateCTx1 G H hexu apt payer 1 (p101 50) rnt with Some t => t | None => ctx0 G end.

(** the challenges *)
Definition yt (i : nat) : Z := Z.of_nat (i + 3).
Definition zt (j : nat) : Z := Z.of_nat (j + 11).
Definition xt (k : nat) : Z := Z.of_nat (k + 21).
Definition et (l : nat) : Z := Z.of_nat (l + 31).
Definition ut (m : nat) : Z := Z.of_nat (m + 2).
Definition Ht (i j k l m : nat) : list N -> Z :=
  by_length [(17 * 33, yt i); (18 * 33, zt j); (20 * 33, xt k); (20 * 33 + 1, et l); (22 * 33 + 1, ut m)]%nat.

Definition bpn (p : BPProof G) : list Z :=
  [bptaux _ p; bpmu _ p; bptx _ p] ++ map (@proj1_sig _ _) ([bpT1 _ p; bpT2 _ p] ++ ipL _ (bpip _ p) ++ ipR _ (bpip _ p)) ++ [ipa _ (bpip _ p); ipb _ (bpip _ p)].
Definition pick (i j k l m : nat) : nat := (((i * 4 + j) * 3 + k) * 2 + l) * 4 + m.
Definition table : list (list Z) := Eval vm_compute in
  flat_map (fun i => flat_map (fun j => flat_map (fun k => flat_map (fun l => map (fun m => bpn (c_bp G (pay (Ht i j k l m))))
    (seq 0 4)) (seq 0 2)) (seq 0 3)) (seq 0 4)) (seq 0 2).
Definition tn (f i j k l m : nat) : Z := nth f (nth (pick i j k l m) table []) 0.

(** the messages before the first challenge are the same in all of them *)
Definition An : Z := Eval vm_compute in proj1_sig (bpA G (c_bp G (pay (Ht 0 0 0 0 0)))).
Definition Sn0 : Z := Eval vm_compute in proj1_sig (bpS G (c_bp G (pay (Ht 0 0 0 0 0)))).
Definition Sn1 : Z := Eval vm_compute in proj1_sig (bpS G (c_bp G (pay (Ht 1 0 0 0 0)))).
Definition sub (i j k l : nat) : ip_tree G 1 :=
  {| nL := p101 (tn 5 i j k l 0); nR := p101 (tn 6 i j k l 0); nx := ut; nt := fun m => (tn 7 i j k l m, tn 8 i j k l m) |}.
Definition rtree : bp_tree G 1 :=
  {| tA := p101 An; ty := yt; tS := fun i => p101 (nth i [Sn0; Sn1] 0); tz := fun _ => zt;
     tT1 := fun i j => p101 (tn 3 i j 0 0 0); tT2 := fun i j => p101 (tn 4 i j 0 0 0);
     tch := fun _ _ => xt; te := fun _ _ _ => et;
     ttaux := fun i j k l => tn 0 i j k l 0; tmu := fun i j k l => tn 1 i j k l 0; ttx := fun i j k l => tn 2 i j k l 0;
     tip := fun i j k l => sub i j k l |}.

Definition zleq (a b : list Z) : bool := if list_eq_dec Z.eq_dec a b then true else false.
Definition pleq (a b : list (pt G)) : bool := (length a =? length b)%nat && forallb (fun c => peqb G (fst c) (snd c)) (combine a b).
Definition prf_eq (a b : BPProof G) : bool :=
  pleq [bpA _ a; bpS _ a; bpT1 _ a; bpT2 _ a] [bpA _ b; bpS _ b; bpT1 _ b; bpT2 _ b] &&
  zleq [bptaux _ a; bpmu _ a; bptx _ a; ipa _ (bpip _ a); ipb _ (bpip _ a)] [bptaux _ b; bpmu _ b; bptx _ b; ipa _ (bpip _ b); ipb _ (bpip _ b)] &&
  pleq (ipL _ (bpip _ a)) (ipL _ (bpip _ b)) && pleq (ipR _ (bpip _ a)) (ipR _ (bpip _ b)).
Definition flat_content (t : CTx1 G) : list (pt G) :=
  [c_pks _ t; c_pkr _ t; tX _ (c_bal _ t); tY _ (c_bal _ t); tX _ (c_ref _ t); tY _ (c_ref _ t); tmY _ (c_tr _ t)] ++ tvX _ (c_tr _ t).
Definition t5 : CTx1 G := pay (fun _ => 5).
Definition t7 : CTx1 G := pay (fun _ => 7).
Definition leaf_ok (H : list N -> Z) (i j k l m : nat) (o : option (CTx1 G)) : bool :=
  match o with
  | None => false
  | Some t => let p := c_bp G t in let tr := range_transcript1 G H apt t in
      pleq (flat_content t) (flat_content t5) && prf_eq p (bp_branch G rtree i j k l [m]) &&
      zleq ([y_of G H tr p; z_of G H tr p; x_of G H tr p; e_of G H tr p] ++ ip_challenges_of G H tr p) [yt i; zt j; xt k; et l; ut m]
  end.
Lemma leaves : forallb (fun i => forallb (fun j => forallb (fun k => forallb (fun l => forallb (fun m =>
    leaf_ok (Ht i j k l m) i j k l m (CreateCTx1 G (Ht i j k l m) hexu apt payer 1 (p101 50) rnt))
    (seq 0 4)) (seq 0 2)) (seq 0 3)) (seq 0 4)) (seq 0 2) = true.
Proof. vm_compute. reflexivity. Qed.

Lemma zleq_eq : forall a b, zleq a b = true -> a = b.
Proof. intros a b. unfold zleq. destruct (list_eq_dec Z.eq_dec a b); [auto|discriminate]. Qed.
Lemma pleq_eq : forall a b, pleq a b = true -> a = b.
Proof.
  unfold pleq. induction a as [|x a IH]; intros [|y b] E; try reflexivity; try discriminate. cbn [length combine forallb fst snd Nat.eqb] in E.
  apply andb_prop in E. destruct E as [L E]. apply andb_prop in E. destruct E as [E1 E2]. apply peqb_true in E1. subst y. f_equal. apply IH. rewrite L, E2. reflexivity.
Qed.
Lemma prf_eq_eq : forall a b, prf_eq a b = true -> a = b.
Proof.
  intros [A S T1 T2 ta mu tx [L R x y]] [A' S' T1' T2' ta' mu' tx' [L' R' x' y']] E. unfold prf_eq in E. cbn [bpA bpS bpT1 bpT2 bptaux bpmu bptx bpip ipL ipR ipa ipb] in E.
  apply andb_prop in E. destruct E as [E E4]. apply andb_prop in E. destruct E as [E E3]. apply andb_prop in E. destruct E as [E1 E2].
  apply pleq_eq in E1, E3, E4. apply zleq_eq in E2. congruence.
Qed.

Lemma flat_content_eq : forall t t', flat_content t = flat_content t' -> content1 G t = content1 G t'.
Proof.
  intros [a [b b'] c d [e e'] f g [h h'] i j] [a2 [b2 b2'] c2 d2 [e2 e2'] f2 g2 [h2 h2'] i2 j2]. unfold flat_content, content1.
  cbn [c_pks c_pkr c_bal c_ref c_tr tX tY tmY tvX app]. intros E. injection E as -> -> -> -> -> -> -> ->. reflexivity.
Qed.

Lemma five : forall (a b c d a' b' c' d' : Z) l l', [a; b; c; d] ++ l = [a'; b'; c'; d'] ++ l' -> a = a' /\ b = b' /\ c = c' /\ d = d' /\ l = l'.
Proof. intros. cbn [app] in *. injection H as -> -> -> -> ->. auto. Qed.
Lemma payer_ok : account_ok G apt payer.
Proof.
  split; [|split]; [|reflexivity|].
  - unfold invertible. apply unit101. reflexivity.
  - apply (peqb_true G). vm_compute. reflexivity.
Qed.
Lemma apt_ok : params_ok G apt 2 (cr_bp rnt).
Proof. split; [reflexivity|]. split; [reflexivity|]. exists 1%nat. cbn. repeat split; lia. Qed.

Lemma pay_ok : forall H, (forall t, CreateCTx1 G H hexu apt payer 1 (p101 50) rnt = Some t -> good_challenges G H (range_transcript1 G H apt t) (c_bp G t)) ->
  CreateCTx1 G H hexu apt payer 1 (p101 50) rnt = Some (pay H) /\ forall c, VerifyCTx1 G H hexu apt (pay H) c = Some true.
Proof.
  intros H GC. destruct (C45_one_to_one G H hexu apt payer 1 (p101 50) rnt apt_ok payer_ok) as [t [E [_ [_ [_ V]]]]].
  - unfold amount. cbn. lia.
  - unfold amount. cbn. lia.
  - unfold pay. rewrite E. split; [reflexivity|]. apply V, GC, E.
Qed.

Lemma pay5 : (CreateCTx1 G (fun _ => 5) hexu apt payer 1 (p101 50) rnt = Some t5 /\ forall c, VerifyCTx1 G (fun _ => 5) hexu apt t5 c = Some true).
Proof.
  apply pay_ok. intros t E. assert (X : match CreateCTx1 G (fun _ => 5) hexu apt payer 1 (p101 50) rnt with
    | Some t => zleq (ip_challenges_of G (fun _ => 5) (range_transcript1 G (fun _ => 5) apt t) (c_bp G t)) [5] | None => false end = true) by (vm_compute; reflexivity).
  rewrite E in X. split; [apply unit101; reflexivity|]. apply zleq_eq in X. rewrite X. constructor; [|constructor]. apply unit101. reflexivity.
Qed.
Lemma pay7 : (CreateCTx1 G (fun _ => 7) hexu apt payer 1 (p101 50) rnt = Some t7 /\ forall c, VerifyCTx1 G (fun _ => 7) hexu apt t7 c = Some true).
Proof.
  apply pay_ok. intros t E. assert (X : match CreateCTx1 G (fun _ => 7) hexu apt payer 1 (p101 50) rnt with
    | Some t => zleq (ip_challenges_of G (fun _ => 7) (range_transcript1 G (fun _ => 7) apt t) (c_bp G t)) [7] | None => false end = true) by (vm_compute; reflexivity).
  rewrite E in X. split; [apply unit101; reflexivity|]. apply zleq_eq in X. rewrite X. constructor; [|constructor]. apply unit101. reflexivity.
Qed.

Definition x5 : run1 G := ((fun _ => 5), t5).
Definition x7 : run1 G := ((fun _ => 7), t7).
Lemma diff57 : distinct_challenges G 5 7.
Proof. intros [k K]. change (order G) with 101 in K. lia. Qed.

(** what the check of a leaf gives, for any transaction *)
Lemma leaf_facts : forall (H : list N -> Z) i j k l m o content, (i < 2)%nat -> (m < 4)%nat ->
  content1 G t5 = content -> o = CreateCTx1 G H hexu apt payer 1 (p101 50) rnt -> leaf_ok H i j k l m o = true ->
  exists (H : list N -> Z) t c c',
    let p := c_bp G t in let tr := range_transcript1 G H apt t in
    content1 G t = content /\ p = bp_branch G rtree i j k l [m] /\
    y_of G H tr p = ty G rtree i /\ z_of G H tr p = tz G rtree i j /\ x_of G H tr p = tch G rtree i j k /\ e_of G H tr p = te G rtree i j k l /\
    ip_challenges_of G H tr p = snd (branch G 1 (tip G rtree i j k l) [m]) /\
    ~ cong (order G) c c' /\ VerifyCTx1 G H hexu apt t c = Some true /\ VerifyCTx1 G H hexu apt t c' = Some true.
Proof.
  intros H i j k l m [t|] content Hi Hm EC E A; [|discriminate A]. unfold leaf_ok in A. cbv zeta in A. apply andb_prop in A. destruct A as [A A3]. apply andb_prop in A. destruct A as [A1 A2].
  apply pleq_eq, flat_content_eq in A1. apply prf_eq_eq in A2. apply zleq_eq, (five _ _ _ _ (yt i) (zt j) (xt k) (et l) _ [ut m]) in A3.
  destruct A3 as [EY [EZ [EX [EE EI]]]].
  destruct (C45_one_to_one G H hexu apt payer 1 (p101 50) rnt apt_ok payer_ok) as [t' [E' [_ [_ [_ V]]]]]; [unfold amount; cbn; lia|unfold amount; cbn; lia|].
  assert (t' = t) by congruence. subst t'. exists H, t, 5, 7. cbv zeta. split; [congruence|]. split; [exact A2|].
  split; [exact EY|]. split; [exact EZ|]. split; [exact EX|]. split; [exact EE|]. split; [exact EI|]. split; [exact diff57|].
  assert (GC : good_challenges G H (range_transcript1 G H apt t) (c_bp G t)).
  { split; [rewrite EY; destruct i as [|[|i]]; try lia; apply unit101; reflexivity|]. rewrite EI. constructor; [|constructor].
    destruct m as [|[|[|[|m]]]]; try lia; apply unit101; reflexivity. }
  split; apply V, GC.
Qed.

Lemma runs192 : range_runs1 G hexu apt (content1 G t5) rtree.
Proof.
  intros i j k l w Hi Hj Hk Hl [Lw Fw]. cbn [bp_range a_bullet apt bpt Nat.mul Nat.add] in Hi. destruct w as [|m [|m' w']]; [discriminate Lw| |discriminate Lw].
  apply Forall_inv in Fw. rename Fw into Hm. cbv beta in Hm.
  pose proof leaves as A. rewrite forallb_forall in A. specialize (A i ltac:(apply in_seq; lia)). rewrite forallb_forall in A. specialize (A j ltac:(apply in_seq; lia)).
  rewrite forallb_forall in A. specialize (A k ltac:(apply in_seq; lia)). rewrite forallb_forall in A. specialize (A l ltac:(apply in_seq; lia)).
  rewrite forallb_forall in A. specialize (A m ltac:(apply in_seq; lia)).
  exact (leaf_facts (Ht i j k l m) i j k l m _ _ Hi Hm eq_refl eq_refl A).
Qed.

Example C92_hypotheses :
  t_g G (a_enc G apt) = bp_g G (a_bullet G apt) /\ t_h G (a_enc G apt) = bp_h G (a_bullet G apt) /\
  (bp_range G (a_bullet G apt) * 2 = 2 ^ 1)%nat /\ length (tvX G (c_tr G t5)) = 3%nat /\
  Forall (fun x => content1 G (snd x) = content1 G t5 /\ accepts1 G hexu apt x) [x5; x7; x5; x7; x5; x7] /\
  fork_equal1 G apt x5 x7 /\ fork_know1 G apt x5 x7 /\ fork_owner1 G hexu apt x5 x7 /\
  bp_good G (a_bullet G apt) [tmY G (c_tr G t5); tY G (c_ref G t5)] rtree /\ range_runs1 G hexu apt (content1 G t5) rtree.
Proof.
  assert (C7 : content1 G t7 = content1 G t5) by (apply flat_content_eq, pleq_eq; vm_compute; reflexivity).
  assert (A5 : content1 G t5 = content1 G t5 /\ accepts1 G hexu apt x5) by (split; [reflexivity|exists 0; apply pay5]).
  assert (A7 : content1 G t7 = content1 G t5 /\ accepts1 G hexu apt x7) by (split; [exact C7|exists 0; apply pay7]).
  split; [reflexivity|]. split; [reflexivity|]. split; [reflexivity|]. split; [vm_compute; reflexivity|]. split.
  { repeat (constructor; [first [exact A5|exact A7]|]). constructor. }
  split; [|split; [|split]].
  - split; [apply pleq_eq; vm_compute; reflexivity|]. split; [apply (peqb_true G); vm_compute; reflexivity|].
    assert (E5 : ch_equal1 G apt x5 = 5) by (vm_compute; reflexivity). assert (E7 : ch_equal1 G apt x7 = 7) by (vm_compute; reflexivity).
    rewrite E5, E7. exact diff57.
  - split; [apply (peqb_true G); vm_compute; reflexivity|]. split; [apply (peqb_true G); vm_compute; reflexivity|]. unfold ch_know1, x5, x7. cbn [fst snd]. exact diff57.
  - split; [apply (peqb_true G); vm_compute; reflexivity|]. split; [apply (peqb_true G); vm_compute; reflexivity|].
    assert (E5 : ch_owner1 G hexu apt x5 = 5) by (vm_compute; reflexivity). assert (E7 : ch_owner1 G hexu apt x7 = 7) by (vm_compute; reflexivity).
    rewrite E5, E7. exact diff57.
  - split.
    + unfold bp_good. cbn [bp_range a_bullet apt bpt length Nat.mul Nat.add rtree ty tz tch te tip]. split; [|split; [|split; [|split]]].
      * apply distinct101. vm_compute. reflexivity.
      * intros i Hi. split; [destruct i as [|[|i]]; try lia; apply unit101; reflexivity|]. apply distinct101. vm_compute. reflexivity.
      * intros. apply distinct101. vm_compute. reflexivity.
      * intros. apply distinct101. vm_compute. reflexivity.
      * intros i j k l _ _ _ Hl. split; [destruct l as [|[|l]]; try lia; apply unit101; reflexivity|]. cbn [good_tree sub nx nt]. split; [|split].
        -- intros [|[|[|[|m]]]] Hm; try lia; apply unit101; reflexivity.
        -- apply distinct101. vm_compute. reflexivity.
        -- intros; exact I.
    + exact runs192.
Qed.

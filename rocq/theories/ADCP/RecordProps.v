(** Property C115: accepted transactions stay on record. *)
From Coq Require Import NArith ZArith List Lia Bool Arith.
From Coq Require Import ZifyBool ZifyNat ZifyN.
From Verif.Base Require Import Words ListX.
From Verif.Crypto Require Import BigIntModel BigIntSpec BigIntProofs.
From Verif.Group Require Import ECModel ECProofs ZqGroup.
From Verif.PKE Require Import DlogModel DlogSpec DlogProps ElGamalModel ElGamalProps.
From Verif.Sigma Require Import SigmaModel SigmaProps.
From Verif.Bullet Require Import IPModel BPModel BPSpec BPProps.
From Verif.ADCP Require Import ADCPModel ADCPSpec ADCPProofs ADCPProps ADCPManyProps ADCPSaveProps ADCPFileModel ADCPGateProps DiskModel DiskProofs DiskProps.
Import ListNotations.

Section Props.
Variable G : ECGroup.
Variable key : pt G -> N.
Variable H : list N -> Z.
Variable hex : Z -> list N.
Variable hexp : pt G -> list N.
Variables gb gp : list N.
Local Notation acct accts i := (nth i accts (acct0 G)).
Local Notation ops1 := (Miner1_ops G key H hex hexp gb gp).
Local Notation opsN := (MinerN_ops G key hex hexp gb gp).
Local Notation file1 t := (ctx_name G hex hexp (c_pks G t) (c_sn G t)).
Local Notation fileN t := (ctx_name G hex hexp (m_pks G t) (m_sn G t)).

Lemma create1_header : forall pp s v pkr rn t, CreateCTx1 G H hex pp s v pkr rn = Some t -> c_pks G t = ac_pk G s /\ c_sn G t = ac_sn G s.
Proof.
  intros pp s v pkr rn t C. unfold CreateCTx1 in C. cbv zeta in C.
  destruct (PTE_Prove _ _ _ _ _ _ _ _ _ _ _) as [[pte ptr]|]; [|discriminate]. cbn [obind fst snd] in C.
  destruct (BP_Prove _ _ _ _ _ _ _ _) as [[bp btr]|]; [|discriminate]. cbn [obind fst snd] in C.
  match type of C with Some ?x = Some ?y => assert (E : y = x) by congruence end. rewrite E. split; reflexivity.
Qed.
Lemma createN_header : forall pp s vs pkr rn t, CreateCTxN G H hex pp s vs pkr rn = Some t -> m_pks G t = ac_pk G s /\ m_sn G t = ac_sn G s.
Proof.
  intros pp s vs pkr rn t C. unfold CreateCTxN in C. cbv zeta in C.
  destruct (PTE_proves _ _ _ _ _ _ _ _ _ _ _) as [[pte ptr]|]; [|discriminate]. cbn [obind fst snd] in C.
  destruct (BP_Prove _ _ _ _ _ _ _ _) as [[bp btr]|]; [|discriminate]. cbn [obind fst snd] in C.
  match type of C with Some ?x = Some ?y => assert (E : y = x) by congruence end. rewrite E. split; reflexivity.
Qed.

(** ** what is false.  Two one-to-one transactions that a sender makes and the miner accepts, one after the other, have the
    same file: UpdateAccount does not advance the serial number.  Afterwards the file holds the second one only, and no
    file but the accounts has changed. *)
Theorem C115_one_to_one_refuted : forall pp st accts i j k v1 v2 pkr1 pkr2 rn1 rn2 t1 t2 c1 c2 a1 a2 b1 b2 accts1 accts2 d,
  i <> j -> i <> k -> (i < length accts)%nat -> (j < length accts)%nat -> (k < length accts)%nat ->
  length accts1 = length accts ->
  ac_id G (acct accts i) <> ac_id G (acct accts j) -> ac_id G (acct accts1 i) <> ac_id G (acct accts1 k) ->
  CreateCTx1 G H hex pp (acct accts i) v1 pkr1 rn1 = Some t1 ->
  Miner1 G key H hex pp st t1 accts i j c1 a1 a2 = Some (true, accts1) ->
  CreateCTx1 G H hex pp (acct accts1 i) v2 pkr2 rn2 = Some t2 ->
  Miner1 G key H hex pp st t2 accts1 i k c2 b1 b2 = Some (true, accts2) ->
  let d' := run d (ops1 pp st t1 accts i j c1 a1 a2 ++ ops1 pp st t2 accts1 i k c2 b1 b2) in
  d' (file1 t1) = Some (SaveCTx1 G gb gp t2) /\
  forall f, f <> file1 t1 -> (forall a, f <> account_file G a) -> d' f = d f.
Proof.
  intros pp st accts i j k v1 v2 pkr1 pkr2 rn1 rn2 t1 t2 c1 c2 a1 a2 b1 b2 accts1 accts2 d N1 N2 Hi Hj Hk LL I1 I2 C1 M1 C2 M2 d'.
  destruct (accepted_ops G key H hex hexp gb gp pp st t1 accts i j c1 a1 a2 accts1 N1 Hi Hj M1) as [_ [_ [_ [[m EM] _]]]].
  assert (EF : file1 t2 = file1 t1).
  { destruct (create1_header _ _ _ _ _ _ C1) as [P1 S1], (create1_header _ _ _ _ _ _ C2) as [P2 S2]. rewrite P1, S1, P2, S2, EM. reflexivity. }
  rewrite <- LL in Hi, Hk.
  destruct (C114_order_partial G key H hex hexp gb gp pp st t2 accts1 i k c2 b1 b2 accts2 (run d (ops1 pp st t1 accts i j c1 a1 a2)) N2 Hi Hk I2 M2) as [O2 [_ [_ F2]]].
  rewrite LL in Hi.
  destruct (C114_order_partial G key H hex hexp gb gp pp st t1 accts i j c1 a1 a2 accts1 d N1 Hi Hj I1 M1) as [O1 _].
  unfold d'. rewrite run_app. split; [rewrite <- EF; exact F2|]. intros f NF NA.
  specialize (O2 (length (ops1 pp st t2 accts1 i k c2 b1 b2))). specialize (O1 (length (ops1 pp st t1 accts i j c1 a1 a2))).
  unfold crash in O1, O2. rewrite firstn_all in O1, O2. destruct O1 as [_ [_ [_ [_ [_ O1]]]]]. destruct O2 as [_ [_ [_ [_ [_ O2]]]]].
  rewrite O2; [|apply NA|apply NA|rewrite EF; exact NF]. apply O1; [apply NA|apply NA|exact NF].
Qed.

(** ** what holds.  One-to-many transactions advance the serial number: those that one sender makes and the miner accepts,
    one after the other, all stay on record. *)
Inductive accepted_run (pp : APP G) (st : dstate G) : Account G -> list (CTxN G) -> list op -> Prop :=
| run_none s : accepted_run pp st s [] []
| run_one s vs pkr rn t rs c s1 ss s' rs' l ops :
    CreateCTxN G H hex pp s vs pkr rn = Some t -> MinerN G key H hex pp st t s rs c s1 ss = Some (true, (s', rs')) ->
    accepted_run pp st s' l ops -> accepted_run pp st s (t :: l) (opsN pp st t s rs s1 ss ++ ops).

Lemma save_elsewhere : forall d a f, (forall a, f <> account_file G a) -> run d (SaveAccount_ops G gb gp a) f = d f.
Proof. intros d a f N. unfold SaveAccount_ops. apply run_save. apply N. Qed.
Lemma credit_elsewhere : forall pp st f, (forall a, f <> account_file G a) -> forall rs rtr ss d,
  run d (credit_ops G key gb gp pp st rtr rs ss) f = d f.
Proof.
  intros pp st f N. induction rs as [|r rs IH]; intros [|x rtr] ss d; try reflexivity. cbn [credit_ops].
  destruct (T_Dec _ _ _ _ _ _ _) as [m|]; [|reflexivity]. rewrite run_app, IH. apply save_elsewhere. exact N.
Qed.
Lemma minerN_record : forall pp st t s rs s1 ss d, let d' := run d (opsN pp st t s rs s1 ss) in
  d' (fileN t) = Some (SaveCTxN G gb gp t) /\ forall f, f <> fileN t -> (forall a, f <> account_file G a) -> d' f = d f.
Proof.
  intros pp st t s rs s1 ss d d'. unfold d', MinerN_ops. rewrite run_app.
  destruct (run_save (run d (UpdateAccountN_ops G key gb gp pp st t s rs s1 ss)) (fileN t) (SaveCTxN G gb gp t)) as [A B]. split; [exact A|].
  intros f NF NA. rewrite B by exact NF. unfold UpdateAccountN_ops. cbv zeta. destruct (T_Dec _ _ _ _ _ _ _) as [m|]; [|reflexivity].
  rewrite run_app, credit_elsewhere by exact NA. apply save_elsewhere. exact NA.
Qed.
Lemma credit_length : forall pp st rs rtr ss rs', credit G key pp st rtr rs ss = Some rs' -> length rs' = length rs.
Proof.
  intros pp st. induction rs as [|r rs IH]; intros rtr ss rs' E; [destruct rtr; injection E as <-; reflexivity|].
  destruct rtr as [|x rtr]; [discriminate|]. cbn [credit] in E. destruct (T_Dec _ _ _ _ _ _ _) as [m|]; [|discriminate]. cbn [obind] in E.
  destruct (credit _ _ _ _ _ _ _) as [l|] eqn:C; [|discriminate]. cbn [obind] in E.
  match type of E with Some ?x = _ => assert (Y : rs' = x) by congruence end. rewrite Y. cbn [length]. rewrite (IH _ _ _ C). reflexivity.
Qed.
Lemma minerN_state : forall pp st t s rs c s1 ss s' rs', MinerN G key H hex pp st t s rs c s1 ss = Some (true, (s', rs')) ->
  length rs' = length rs /\ s' = {| ac_id := ac_id G s; ac_pk := ac_pk G s; ac_sk := ac_sk G s;
    ac_ct := T_HomoSub G (ac_ct G s) (m_str G t); ac_m := ac_m G s'; ac_sn := (ac_sn G s + 1)%Z |}.
Proof.
  intros pp st t s rs c s1 ss s' rs' M. unfold MinerN in M. destruct (negb _); [discriminate|].
  destruct (receivers_match _ _ _) as [k|]; [|discriminate]. cbn [obind] in M. destruct (negb k); [discriminate|].
  destruct (VerifyCTxN _ _ _ _ _ _) as [[|]|]; cbn [obind] in M; try discriminate. unfold UpdateAccountN in M. cbv zeta in M.
  destruct (T_Dec _ _ _ _ _ _ _) as [m|]; [|discriminate]. cbn [obind] in M.
  destruct (credit _ _ _ _ _ _ _) as [l|] eqn:C; [|discriminate]. cbn [obind] in M.
  match type of M with Some (true, (?x, ?y)) = _ => assert (E : s' = x) by congruence; assert (E2 : rs' = y) by congruence end.
  split; [rewrite E2; exact (credit_length _ _ _ _ _ _ C)|]. rewrite E. reflexivity.
Qed.
Lemma minerN_serial : forall pp st t s rs c s1 ss s' rs', MinerN G key H hex pp st t s rs c s1 ss = Some (true, (s', rs')) ->
  ac_sn G s' = (ac_sn G s + 1)%Z /\ ac_pk G s' = ac_pk G s.
Proof. intros pp st t s rs c s1 ss s' rs' M. destruct (minerN_state _ _ _ _ _ _ _ _ _ _ M) as [_ E]. rewrite E. split; reflexivity. Qed.
Lemma name_serial : (forall a b, hex a = hex b -> a = b) -> forall pk a b, ctx_name G hex hexp pk a = ctx_name G hex hexp pk b -> a = b.
Proof.
  intros HI pk a b E. unfold ctx_name in E. apply app_inv_head in E. apply app_inv_head in E. apply app_inv_tail in E. apply HI. exact E.
Qed.
Lemma run_headers : forall pp st s l ops, accepted_run pp st s l ops -> forall t, In t l -> m_pks G t = ac_pk G s /\ (ac_sn G s <= m_sn G t)%Z.
Proof.
  intros pp st s l ops P. induction P as [s|s vs pkr rn t rs c s1 ss s' rs' l ops C M P IH]; intros u U; [destruct U|].
  destruct (createN_header _ _ _ _ _ _ C) as [P1 S1]. destruct (minerN_serial _ _ _ _ _ _ _ _ _ _ M) as [E1 E2]. destruct U as [<-|U].
  - split; [exact P1|]. rewrite S1. apply Z.le_refl.
  - destruct (IH u U) as [A B]. split; [congruence|]. rewrite E1 in B. apply (Z.le_trans _ (ac_sn G s + 1)); [apply Z.le_succ_diag_r|exact B].
Qed.
Lemma run_keep : forall pp st s l ops, accepted_run pp st s l ops -> forall f d, (forall t, In t l -> f <> fileN t) -> (forall a, f <> account_file G a) ->
  run d ops f = d f.
Proof.
  intros pp st s l ops P. induction P as [s|s vs pkr rn t rs c s1 ss s' rs' l ops C M P IH]; intros f d NF NA; [reflexivity|].
  rewrite run_app, IH; [|intros u U; apply NF; right; exact U|exact NA].
  apply (minerN_record pp st t s rs s1 ss d); [apply NF; left; reflexivity|exact NA].
Qed.
Theorem C115_one_to_many_partial : (forall a b, hex a = hex b -> a = b) -> forall pp st s l ops d, accepted_run pp st s l ops ->
  forall t, In t l -> run d ops (fileN t) = Some (SaveCTxN G gb gp t).
Proof.
  intros HI pp st s l ops d P. revert d.
  induction P as [s|s vs pkr rn t rs c s1 ss s' rs' l ops C M P IH]; intros d u U; [destruct U|]. rewrite run_app.
  destruct U as [<-|U]; [|apply IH; exact U].
  rewrite (run_keep _ _ _ _ _ P).
  - apply (minerN_record pp st t s rs s1 ss d).
  - intros w W E. destruct (createN_header _ _ _ _ _ _ C) as [P1 S1]. destruct (minerN_serial _ _ _ _ _ _ _ _ _ _ M) as [E1 E2].
    destruct (run_headers _ _ _ _ _ P w W) as [A B]. rewrite P1, S1, A, E2 in E. apply (name_serial HI) in E.
    rewrite <- E, E1 in B. apply (Z.nle_succ_diag_l (ac_sn G s)). exact B.
  - intros a E. exact (names_apart G hex hexp a _ _ (eq_sym E)).
Qed.

(** The record of a one-to-many transaction is lost as well when the sender's serial number is the one of a one-to-one
    transaction accepted before it: the two share the file. *)
Theorem C115_mixed_refuted : forall pp st accts i j v1 pkr1 rn1 t1 c1 a1 a2 accts1 vs pkr rn t2 rs b1 bs d,
  i <> j -> (i < length accts)%nat -> (j < length accts)%nat ->
  CreateCTx1 G H hex pp (acct accts i) v1 pkr1 rn1 = Some t1 ->
  Miner1 G key H hex pp st t1 accts i j c1 a1 a2 = Some (true, accts1) ->
  CreateCTxN G H hex pp (acct accts1 i) vs pkr rn = Some t2 ->
  run d (ops1 pp st t1 accts i j c1 a1 a2 ++ opsN pp st t2 (acct accts1 i) rs b1 bs) (file1 t1) = Some (SaveCTxN G gb gp t2).
Proof.
  intros pp st accts i j v1 pkr1 rn1 t1 c1 a1 a2 accts1 vs pkr rn t2 rs b1 bs d N Hi Hj C1 M1 C2.
  destruct (accepted_ops G key H hex hexp gb gp pp st t1 accts i j c1 a1 a2 accts1 N Hi Hj M1) as [_ [_ [_ [[m EM] _]]]].
  assert (EF : fileN t2 = file1 t1).
  { destruct (create1_header _ _ _ _ _ _ C1) as [P1 S1], (createN_header _ _ _ _ _ _ C2) as [P2 S2]. rewrite P1, S1, P2, S2, EM. reflexivity. }
  rewrite run_app, <- EF. apply (minerN_record pp st t2 (acct accts1 i) rs b1 bs).
Qed.
End Props.

(** ** instances: alice pays bob twice, one-to-one, and bob and carol, one-to-many *)
Local Open Scope Z_scope.
Definition after1 (v : Z) (t : CTx1 G4099) (s : Account G4099) : Account G4099 :=
  set_balance G4099 s (T_HomoSub G4099 (ac_ct G4099 s) {| tX := nth 0 (tvX _ (c_tr _ t)) (inf G4099); tY := tmY _ (c_tr _ t) |}) (ac_m G4099 s - v).
Lemma step1 : forall st accts v, decrypts G4099 key4099 hash4099 12 0 ap4099 st -> length accts = 3%nat ->
  Forall (balance_ok G4099 12 0 ap4099) accts -> 0 <= v <= 3 -> 0 <= ac_m G4099 (nth 0 accts (acct0 G4099)) - v < 16 ->
  0 <= ac_m G4099 (nth 1 accts (acct0 G4099)) < 16 ->
  match CreateCTx1 G4099 toyH hexu ap4099 (nth 0 accts (acct0 G4099)) v (ac_pk G4099 (nth 1 accts (acct0 G4099))) cr8 with
  | Some t => VerifyCTx1 G4099 toyH hexu ap4099 t 5 | None => None end = Some true ->
  exists t accts1, CreateCTx1 G4099 toyH hexu ap4099 (nth 0 accts (acct0 G4099)) v (ac_pk G4099 (nth 1 accts (acct0 G4099))) cr8 = Some t /\
    Miner1 G4099 key4099 toyH hexu ap4099 st t accts 0 1 5 round_robin round_robin = Some (true, accts1) /\ length accts1 = 3%nat /\
    Forall (balance_ok G4099 12 0 ap4099) accts1 /\ nth 0 accts1 (acct0 G4099) = after1 v t (nth 0 accts (acct0 G4099)) /\
    ac_m G4099 (nth 1 accts1 (acct0 G4099)) = ac_m G4099 (nth 1 accts (acct0 G4099)) + v /\
    ac_pk G4099 (nth 1 accts1 (acct0 G4099)) = ac_pk G4099 (nth 1 accts (acct0 G4099)) /\
    ac_id G4099 (nth 1 accts1 (acct0 G4099)) = ac_id G4099 (nth 1 accts (acct0 G4099)).
Proof.
  intros st accts v D L BO BV B0 B1 X. set (a := nth 0 accts (acct0 G4099)) in *. set (b := nth 1 accts (acct0 G4099)) in *.
  assert (BA : balance_ok G4099 12 0 ap4099 a) by (rewrite Forall_forall in BO; apply BO; apply nth_In; rewrite L; lia).
  destruct (C45_one_to_one G4099 toyH hexu ap4099 a v (ac_pk G4099 b) cr8 params_4099_2 (proj1 BA)) as [t [E [TR [PS [PR _]]]]];
    [split; [apply BV|change (v < 16); lia]|split; [apply B0|exact (proj2 B0)]|].
  rewrite E in X.
  assert (CV : 32 < covered 12 0) by (vm_compute; reflexivity).
  destruct (C46_accepted_moves G4099 key4099 key4099_64 toyH hexu hash4099 12 0 ap4099 st t accts 0 1 5 round_robin round_robin v
    D fair_4099 fair_4099 ltac:(rewrite L; lia) ltac:(rewrite L; lia) BO TR) as [accts1 [M1 [L1 [BB S]]]];
    [change (0 <= v <= 3); exact BV|fold a; lia|intros _; fold b; lia|exact PS|exact PR|exact X|].
  exists t, accts1. split; [exact E|]. split; [exact M1|]. split; [rewrite L1; exact L|]. split; [exact BB|].
  destruct (accepted_ops G4099 key4099 toyH hexu (comp33 G4099) [] [] ap4099 st t accts 0 1 5 round_robin round_robin accts1
    ltac:(discriminate) ltac:(rewrite L; lia) ltac:(rewrite L; lia) M1) as [_ [_ [_ [[m EM] [m' EM']]]]].
  fold a in EM. fold b in EM'.
  destruct (S 0%nat) as [_ X0]. destruct (S 1%nat) as [_ X1]. cbn [Nat.eqb] in X0, X1. fold a in X0. fold b in X1.
  split; [|split; [rewrite X1; lia|rewrite EM'; split; reflexivity]].
  rewrite EM in X0 |- *. cbn [set_balance ac_m] in X0. unfold after1. f_equal. lia.
Qed.
Local Notation pay1 v s r := (CreateCTx1 G4099 toyH hexu ap4099 s v (ac_pk G4099 r) cr8).
Local Notation toy_ops1 := (Miner1_ops G4099 key4099 toyH hexu (comp33 G4099) [] [] ap4099).
Local Notation toy_miner1 := (Miner1 G4099 key4099 toyH hexu ap4099).
Lemma twice1 : forall st a b e v1 v2 t1 t2 d, decrypts G4099 key4099 hash4099 12 0 ap4099 st ->
  Forall (balance_ok G4099 12 0 ap4099) [a; b; e] -> ac_id G4099 a <> ac_id G4099 b -> 0 <= v1 <= 3 -> 0 <= v2 <= 3 ->
  0 <= ac_m G4099 a - v1 < 16 -> 0 <= ac_m G4099 a - v1 - v2 < 16 -> 0 <= ac_m G4099 b < 16 -> 0 <= ac_m G4099 b + v1 < 16 ->
  pay1 v1 a b = Some t1 -> VerifyCTx1 G4099 toyH hexu ap4099 t1 5 = Some true ->
  pay1 v2 (after1 v1 t1 a) b = Some t2 -> VerifyCTx1 G4099 toyH hexu ap4099 t2 5 = Some true ->
  exists accts1 accts2, toy_miner1 st t1 [a; b; e] 0 1 5 round_robin round_robin = Some (true, accts1) /\
    pay1 v2 (nth 0 accts1 (acct0 G4099)) b = Some t2 /\
    toy_miner1 st t2 accts1 0 1 5 round_robin round_robin = Some (true, accts2) /\
    run d (toy_ops1 st t1 [a; b; e] 0 1 5 round_robin round_robin ++ toy_ops1 st t2 accts1 0 1 5 round_robin round_robin)
      (ctx_name G4099 hexu (comp33 G4099) (c_pks _ t1) (c_sn _ t1)) = Some (SaveCTx1 G4099 [] [] t2).
Proof.
  intros st a b e v1 v2 t1 t2 d D BO NI R1 R2 X1 X2 X3 X4 E1 V1 E2 V2.
  destruct (step1 st [a; b; e] v1 D eq_refl BO R1 X1 X3) as [u1 [accts1 [C1 [M1 [L1 [B1 [EA [EM [EP EI]]]]]]]]];
    [cbn [nth]; rewrite E1; exact V1|]. cbn [nth] in C1, EA, EP, EI, EM.
  assert (U1 : u1 = t1) by congruence. subst u1.
  destruct (step1 st accts1 v2 D L1 B1 R2) as [u2 [accts2 [C2 [M2 _]]]];
    [rewrite EA; exact X2|rewrite EM; exact X4|rewrite EA, EP, E2; exact V2|].
  rewrite EP in C2. assert (U2 : u2 = t2) by (rewrite EA in C2; congruence). subst u2.
  exists accts1, accts2. split; [exact M1|]. split; [exact C2|]. split; [exact M2|].
  assert (NI' : ac_id G4099 (nth 0 accts1 (acct0 G4099)) <> ac_id G4099 (nth 1 accts1 (acct0 G4099))) by (rewrite EA, EI; exact NI).
  exact (proj1 (C115_one_to_one_refuted G4099 key4099 toyH hexu (comp33 G4099) [] [] ap4099 st [a; b; e] 0 1 1 v1 v2 (ac_pk G4099 b) (ac_pk G4099 b)
    cr8 cr8 t1 t2 5 5 round_robin round_robin round_robin round_robin accts1 accts2 d ltac:(discriminate) ltac:(discriminate)
    ltac:(cbn [length]; lia) ltac:(cbn [length]; lia) ltac:(cbn [length]; lia) L1 NI NI' C1 M1 C2 M2)).
Qed.
Definition true1 (o : option (CTx1 G4099)) : bool :=
  match o with Some t => match VerifyCTx1 G4099 toyH hexu ap4099 t 5 with Some b => b | None => false end | None => false end.
Lemma true1_ok : forall o, true1 o = true -> exists t, o = Some t /\ VerifyCTx1 G4099 toyH hexu ap4099 t 5 = Some true.
Proof.
  intros [t|] E; [|discriminate]. exists t. split; [reflexivity|]. unfold true1 in E. destruct (VerifyCTx1 _ _ _ _ _ _) as [[|]|]; [reflexivity|discriminate|discriminate].
Qed.
Lemma first1 : true1 (pay1 3 alice bob) = true.
Proof. vm_compute. reflexivity. Qed.
Lemma second1 : match pay1 3 alice bob with Some t1 => true1 (pay1 2 (after1 3 t1 alice) bob) | None => false end = true.
Proof. vm_compute. reflexivity. Qed.
Lemma balances : balance_ok G4099 12 0 ap4099 alice /\ balance_ok G4099 12 0 ap4099 bob /\ balance_ok G4099 12 0 ap4099 carol.
Proof. split; [|split]; (apply account_4099; [vm_compute; split; [discriminate|reflexivity]|lia]). Qed.
Example C115_one_to_one_run : forall d, exists st t1 t2 accts1 accts2,
  pay1 3 alice bob = Some t1 /\ toy_miner1 st t1 [alice; bob; carol] 0 1 5 round_robin round_robin = Some (true, accts1) /\
  pay1 2 (nth 0 accts1 (acct0 G4099)) bob = Some t2 /\ toy_miner1 st t2 accts1 0 1 5 round_robin round_robin = Some (true, accts2) /\
  run d (toy_ops1 st t1 [alice; bob; carol] 0 1 5 round_robin round_robin ++ toy_ops1 st t2 accts1 0 1 5 round_robin round_robin)
    (ctx_name G4099 hexu (comp33 G4099) (c_pks _ t1) (c_sn _ t1)) = Some (SaveCTx1 G4099 [] [] t2).
Proof.
  intros d. destruct ready_4099 as [st D]. destruct balances as [BA [BB BC]].
  destruct (true1_ok _ first1) as [t1 [E1 V1]]. pose proof second1 as S2. rewrite E1 in S2. destruct (true1_ok _ S2) as [t2 [E2 V2]].
  destruct (twice1 st alice bob carol 3 2 t1 t2 d D (Forall_cons _ BA (Forall_cons _ BB (Forall_cons _ BC (Forall_nil _)))) ltac:(discriminate)
    ltac:(lia) ltac:(lia) ltac:(change (0 <= 11 - 3 < 16); lia) ltac:(change (0 <= 11 - 3 - 2 < 16); lia) ltac:(change (0 <= 2 < 16); lia)
    ltac:(change (0 <= 2 + 3 < 16); lia) E1 V1 E2 V2) as [accts1 [accts2 [M1 [C2 [M2 R]]]]].
  exists st, t1, t2, accts1, accts2. split; [exact E1|]. split; [exact M1|]. split; [exact C2|]. split; [exact M2|exact R].
Qed.

Definition afterN (v : Z) (t : CTxN G4099) (s : Account G4099) : Account G4099 :=
  {| ac_id := ac_id _ s; ac_pk := ac_pk _ s; ac_sk := ac_sk _ s; ac_ct := T_HomoSub G4099 (ac_ct _ s) (m_str _ t); ac_m := ac_m _ s - v;
     ac_sn := ac_sn _ s + 1 |}.
Lemma stepN : forall st s r v, decrypts G4099 key4099 hash4099 12 0 ap4099 st ->
  balance_ok G4099 12 0 ap4099 s -> balance_ok G4099 12 0 ap4099 r -> 0 <= v < 16 -> 0 <= ac_m G4099 s - v < 16 -> 0 <= ac_m G4099 r < 16 ->
  match CreateCTxN G4099 toyH hexu ap4099 s [v] [ac_pk G4099 r] mr4 with
  | Some t => VerifyCTxN G4099 toyH hexu ap4099 t 5 | None => None end = Some true ->
  exists t rs', CreateCTxN G4099 toyH hexu ap4099 s [v] [ac_pk G4099 r] mr4 = Some t /\
    MinerN G4099 key4099 toyH hexu ap4099 st t s [r] 5 round_robin [round_robin] = Some (true, (afterN v t s, rs')) /\
    balance_ok G4099 12 0 ap4099 (afterN v t s).
Proof.
  intros st s r v D BS BR BV B0 B1 X.
  destruct (C45_one_to_many G4099 toyH hexu ap4099 s [v] [ac_pk G4099 r] mr4 params_4099_2 (proj1 BS) eq_refl eq_refl eq_refl) as [t [E [PY [PS [PR [ST _]]]]]].
  { constructor; [split; [apply BV|exact (proj2 BV)]|constructor]. }
  { change (zsum [v]) with (v + 0). rewrite Z.add_0_r. split; [apply B0|exact (proj2 B0)]. }
  rewrite E in X. change (zsum [v]) with (v + 0) in ST. rewrite Z.add_0_r in ST.
  assert (CV : 32 < covered 12 0) by (vm_compute; reflexivity).
  destruct (C51_wellformed_partial G4099 key4099 key4099_64 toyH hexu hash4099 12 0 ap4099 st t [v] s [r] 5 round_robin [round_robin] (mr_r mr4)
    D fair_4099 (Forall_cons _ fair_4099 (Forall_nil _)) eq_refl PY) as [s' [rs' [M [BO [_ [TT MR]]]]]].
  { change (zsum [v]) with (v + 0). rewrite Z.add_0_r, PS. exact ST. }
  { exact BS. } { exact (Forall_cons _ BR (Forall_nil _)). } { exact PS. } { exact PR. } { exact X. }
  { change (zsum [v]) with (v + 0). lia. }
  { intros [|k] Hk; [cbn [nth]; lia|cbn in Hk; lia]. }
  assert (ES : s' = afterN v t s).
  { destruct (minerN_state G4099 key4099 toyH hexu _ _ _ _ _ _ _ _ _ _ M) as [LL ES].
    specialize (MR 0%nat ltac:(cbn [length]; lia)). cbn [nth] in MR.
    destruct rs' as [|r' [|]]; try discriminate LL. cbn [nth] in MR. unfold total in TT. cbn [map zsum] in TT.
    rewrite ES. unfold afterN. f_equal. lia. }
  subst s'. exists t, rs'. split; [exact E|]. split; [exact M|exact BO].
Qed.
Local Notation payN v s r := (CreateCTxN G4099 toyH hexu ap4099 s [v] [ac_pk G4099 r] mr4).
Local Notation toy_run := (accepted_run G4099 key4099 toyH hexu (comp33 G4099) [] [] ap4099).
Lemma twiceN : forall st a b e v1 v2 t1 t2, decrypts G4099 key4099 hash4099 12 0 ap4099 st ->
  balance_ok G4099 12 0 ap4099 a -> balance_ok G4099 12 0 ap4099 b -> balance_ok G4099 12 0 ap4099 e -> 0 <= v1 < 16 -> 0 <= v2 < 16 ->
  0 <= ac_m G4099 a - v1 < 16 -> 0 <= ac_m G4099 a - v1 - v2 < 16 -> 0 <= ac_m G4099 b < 16 -> 0 <= ac_m G4099 e < 16 ->
  payN v1 a b = Some t1 -> VerifyCTxN G4099 toyH hexu ap4099 t1 5 = Some true ->
  payN v2 (afterN v1 t1 a) e = Some t2 -> VerifyCTxN G4099 toyH hexu ap4099 t2 5 = Some true ->
  exists ops, toy_run st a [t1; t2] ops.
Proof.
  intros st a b e v1 v2 t1 t2 D BA BB BE R1 R2 X1 X2 X3 X4 E1 V1 E2 V2.
  destruct (stepN st a b v1 D BA BB R1 X1 X3) as [u1 [rs1 [C1 [M1 B1]]]]; [rewrite E1; exact V1|].
  assert (U1 : u1 = t1) by congruence. subst u1.
  destruct (stepN st (afterN v1 t1 a) e v2 D B1 BE R2 X2 X4) as [u2 [rs2 [C2 [M2 _]]]]; [rewrite E2; exact V2|].
  assert (U2 : u2 = t2) by congruence. subst u2. eexists.
  exact (run_one G4099 key4099 toyH hexu (comp33 G4099) [] [] ap4099 st _ _ _ _ _ _ _ _ _ _ _ _ _ C1 M1
    (run_one G4099 key4099 toyH hexu (comp33 G4099) [] [] ap4099 st _ _ _ _ _ _ _ _ _ _ _ _ _ C2 M2 (run_none _ _ _ _ _ _ _ _ _ _))).
Qed.
Definition trueN (o : option (CTxN G4099)) : bool :=
  match o with Some t => match VerifyCTxN G4099 toyH hexu ap4099 t 5 with Some b => b | None => false end | None => false end.
Lemma trueN_ok : forall o, trueN o = true -> exists t, o = Some t /\ VerifyCTxN G4099 toyH hexu ap4099 t 5 = Some true.
Proof.
  intros [t|] E; [|discriminate]. exists t. split; [reflexivity|]. unfold trueN in E. destruct (VerifyCTxN _ _ _ _ _ _) as [[|]|]; [reflexivity|discriminate|discriminate].
Qed.
Lemma firstN : trueN (payN 3 alice bob) = true.
Proof. vm_compute. reflexivity. Qed.
Lemma secondN : match payN 3 alice bob with Some t1 => trueN (payN 2 (afterN 3 t1 alice) carol) | None => false end = true.
Proof. vm_compute. reflexivity. Qed.
Example C115_one_to_many_run : forall d, exists st t1 t2 ops, toy_run st alice [t1; t2] ops /\
  run d ops (ctx_name G4099 hexu (comp33 G4099) (m_pks _ t1) (m_sn _ t1)) = Some (SaveCTxN G4099 [] [] t1) /\
  run d ops (ctx_name G4099 hexu (comp33 G4099) (m_pks _ t2) (m_sn _ t2)) = Some (SaveCTxN G4099 [] [] t2).
Proof.
  intros d. destruct ready_4099 as [st D]. destruct balances as [BA [BB BC]].
  destruct (trueN_ok _ firstN) as [t1 [E1 V1]]. pose proof secondN as S2. rewrite E1 in S2. destruct (trueN_ok _ S2) as [t2 [E2 V2]].
  destruct (twiceN st alice bob carol 3 2 t1 t2 D BA BB BC ltac:(lia) ltac:(lia) ltac:(change (0 <= 11 - 3 < 16); lia)
    ltac:(change (0 <= 11 - 3 - 2 < 16); lia) ltac:(change (0 <= 2 < 16); lia) ltac:(change (0 <= 0 < 16); lia) E1 V1 E2 V2) as [ops R].
  exists st, t1, t2, ops. split; [exact R|].
  split; (eapply C115_one_to_many_partial; [exact (proj2 (proj2 hexu_ok))|exact R|]); [left; reflexivity|right; left; reflexivity].
Qed.

Print Assumptions C115_one_to_one_refuted.
Print Assumptions C115_one_to_many_partial.
Print Assumptions C115_mixed_refuted.

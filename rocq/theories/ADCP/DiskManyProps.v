(** Property C119: crashes while the miner writes the files of a one-to-many transaction. *)
From Coq Require Import NArith ZArith List Lia Bool Arith.
From Coq Require Import ZifyBool ZifyNat ZifyN.
From Verif.Base Require Import Words ListX.
From Verif.Crypto Require Import BigIntModel BigIntSpec BigIntProofs.
From Verif.Group Require Import ECModel ECProofs ZqGroup.
From Verif.PKE Require Import DlogModel DlogSpec DlogProps ElGamalModel ElGamalProofs ElGamalProps.
From Verif.Sigma Require Import SigmaModel SigmaProps.
From Verif.Bullet Require Import IPModel BPModel BPSpec BPProps.
From Verif.ADCP Require Import ADCPModel ADCPSpec ADCPProofs ADCPProps ADCPManyProps ADCPSaveProps ADCPFileModel ADCPGateProps DiskModel DiskProofs DiskProps RecordProps.
Import ListNotations.

(** ** several files saved one after the other *)
Definition saves_ops (l : list (name * list N)) : list op := flat_map (fun p => save_ops (fst p) (snd p)) l.
Lemma saves_run : forall l d, NoDup (map fst l) -> (forall p, In p l -> run d (saves_ops l) (fst p) = Some (snd p)) /\
  (forall f, ~ In f (map fst l) -> run d (saves_ops l) f = d f).
Proof.
  induction l as [|[f b] l IH]; intros d ND; [split; [intros p []|reflexivity]|].
  apply NoDup_cons_iff in ND. destruct ND as [NI ND]. cbn [saves_ops flat_map fst snd]. fold (saves_ops l).
  destruct (run_save d f b) as [A B]. destruct (IH (run d (save_ops f b)) ND) as [C D]. split.
  - intros p [<-|I]; rewrite run_app; [cbn [fst snd]; rewrite D by exact NI; exact A|apply C; exact I].
  - intros g G. cbn [map In] in G. rewrite run_app, D by tauto. apply B. intros ->. tauto.
Qed.
Lemma saves_crash : forall l d k, NoDup (map fst l) -> exists n,
  (forall i x, i < n -> nth_error l i = Some x -> crash d (saves_ops l) k (fst x) = Some (snd x)) /\
  (forall x, nth_error l n = Some x -> saved_or_cut (d (fst x)) (crash d (saves_ops l) k (fst x)) (snd x)) /\
  (forall i x, n < i -> nth_error l i = Some x -> crash d (saves_ops l) k (fst x) = d (fst x)) /\
  (forall f, ~ In f (map fst l) -> crash d (saves_ops l) k f = d f).
Proof.
  induction l as [|[f b] l IH]; intros d k ND.
  - exists 0. split; [intros i x L; lia|]. split; [discriminate|]. split; [intros [|i] x _ E; discriminate|].
    intros g _. unfold crash. cbn [saves_ops flat_map]. rewrite firstn_nil. reflexivity.
  - apply NoDup_cons_iff in ND. destruct ND as [NI ND]. cbn [fst] in NI. cbn [saves_ops flat_map fst snd]. fold (saves_ops l). rewrite crash_app.
    assert (NE : forall i x, nth_error l i = Some x -> fst x <> f).
    { intros i x E X. apply NI. rewrite <- X. apply in_map. exact (nth_error_In _ _ E). }
    destruct (Nat.leb_spec k (length (save_ops f b))) as [K|K].
    + exists 0. destruct (crash_save d f b k) as [_ B]. split; [intros i x L; lia|].
      split; [intros x E; assert (x = (f, b)) by (cbn in E; congruence); subst x; apply crash_cut|].
      split; [intros [|i] x L E; [lia|]; apply B; exact (NE i x E)|]. intros g G. apply B. intros ->. apply G. left. reflexivity.
    + destruct (run_save d f b) as [A B]. destruct (IH (run d (save_ops f b)) (k - length (save_ops f b)) ND) as [n [P1 [P2 [P3 P4]]]].
      exists (S n). split; [|split; [|split]].
      * intros [|i] x L E; [assert (x = (f, b)) by (cbn in E; congruence); subst x; cbn [fst snd]; rewrite P4 by exact NI; exact A|].
        apply (P1 i); [lia|exact E].
      * intros x E. cbn [nth_error] in E. rewrite <- (B (fst x)) by exact (NE n x E). apply P2. exact E.
      * intros [|i] x L E; [lia|]. cbn [nth_error] in E. rewrite <- (B (fst x)) by exact (NE i x E). apply (P3 i); [lia|exact E].
      * intros g G. cbn [map In fst] in G. rewrite P4 by tauto. apply B. intros ->. tauto.
Qed.
Lemma nodup_front : forall (A : Type) (a b : list A), NoDup (a ++ b) -> NoDup a.
Proof.
  intros A a b. induction a as [|x a IH]; intros ND; [constructor|]. cbn [app] in ND. apply NoDup_cons_iff in ND. destruct ND as [NI ND].
  constructor; [intros I; apply NI; apply in_or_app; left; exact I|apply IH; exact ND].
Qed.
(** a crash point for every number of finished saves *)
Lemma saves_between : forall l d n, NoDup (map fst l) -> exists k,
  (forall x, In x (firstn n l) -> crash d (saves_ops l) k (fst x) = Some (snd x)) /\
  (forall f, ~ In f (map fst (firstn n l)) -> crash d (saves_ops l) k f = d f).
Proof.
  intros l d n ND. exists (length (saves_ops (firstn n l))).
  assert (E : crash d (saves_ops l) (length (saves_ops (firstn n l))) = run d (saves_ops (firstn n l))).
  { unfold crash. f_equal. rewrite <- (firstn_skipn n l) at 2. unfold saves_ops. rewrite flat_map_app, firstn_app, Nat.sub_diag, firstn_O, app_nil_r, firstn_all. reflexivity. }
  rewrite E. apply saves_run. rewrite <- firstn_map. rewrite <- (firstn_skipn n (map fst l)) in ND. revert ND. apply nodup_front.
Qed.

Section Props.
Variable G : ECGroup.
Variable key : pt G -> N.
Hypothesis key64 : forall P, (key P < 2 ^ 64)%N.
Variable H : list N -> Z.
Variable hex : Z -> list N.
Variable hexp : pt G -> list N.
Variables gb gp : list N.
Local Notation bytes a := (SaveAccount G gb gp a).
Local Notation opsN := (MinerN_ops G key hex hexp gb gp).
Local Notation fileN t := (ctx_name G hex hexp (m_pks G t) (m_sn G t)).
Local Notation filed a := (account_file G a, bytes a).

Lemma credit_saves : forall pp st rs rtr ss rs', credit G key pp st rtr rs ss = Some rs' ->
  credit_ops G key gb gp pp st rtr rs ss = saves_ops (map (fun a => filed a) rs') /\ map (ac_id G) rs' = map (ac_id G) rs.
Proof.
  intros pp st. induction rs as [|r rs IH]; intros rtr ss rs' E; [destruct rtr; injection E as <-; split; reflexivity|].
  destruct rtr as [|x rtr]; [discriminate|]. cbn [credit] in E. cbn [credit_ops]. cbv zeta in E |- *. destruct (T_Dec _ _ _ _ _ _ _) as [m|]; [|discriminate]. cbn [obind] in E.
  destruct (credit _ _ _ _ _ _ _) as [l|] eqn:C; [|discriminate]. cbn [obind] in E.
  match type of E with Some ?x = _ => assert (Y : rs' = x) by congruence end. subst rs'. destruct (IH _ _ _ C) as [A B]. rewrite A. split.
  - cbn [map saves_ops flat_map fst snd]. reflexivity.
  - cbn [map]. rewrite B. reflexivity.
Qed.
Lemma miner_saves : forall pp st t s rs c s1 ss s' rs', MinerN G key H hex pp st t s rs c s1 ss = Some (true, (s', rs')) ->
  opsN pp st t s rs s1 ss = saves_ops (map (fun a => filed a) (s' :: rs') ++ [(fileN t, SaveCTxN G gb gp t)]) /\
  map (ac_id G) (s' :: rs') = map (ac_id G) (s :: rs).
Proof.
  intros pp st t s rs c s1 ss s' rs' M. unfold MinerN in M. destruct (negb _); [discriminate|].
  destruct (receivers_match _ _ _) as [k|]; [|discriminate]. cbn [obind] in M. destruct (negb k); [discriminate|].
  destruct (VerifyCTxN _ _ _ _ _ _) as [[|]|]; cbn [obind] in M; try discriminate.
  unfold UpdateAccountN in M. cbv zeta in M. unfold MinerN_ops, UpdateAccountN_ops. cbv zeta. destruct (T_Dec _ _ _ _ _ _ _) as [m|]; [|discriminate]. cbn [obind] in M.
  destruct (credit _ _ _ _ _ _ _) as [l|] eqn:C; [|discriminate]. cbn [obind] in M.
  assert (R : rs' = l) by congruence. subst l.
  match type of M with Some (true, (?x, _)) = _ => assert (S : s' = x) by congruence end. subst s'.
  destruct (credit_saves _ _ _ _ _ _ C) as [A B]. rewrite A. split.
  - unfold saves_ops. rewrite flat_map_app. cbn [map flat_map fst snd]. rewrite app_nil_r. reflexivity.
  - cbn [map]. rewrite B. reflexivity.
Qed.
Lemma names_nodup : forall (l : list (Account G)) t, NoDup (map (ac_id G) l) ->
  NoDup (map fst (map (fun a => filed a) l ++ [(fileN t, SaveCTxN G gb gp t)])).
Proof.
  intros l t ND. rewrite map_app, map_map. cbn [map fst]. induction l as [|a l IH]; [constructor; [intros []|constructor]|].
  cbn [map] in ND |- *. apply NoDup_cons_iff in ND. destruct ND as [NI ND]. constructor; [|apply IH; exact ND].
  intros I. apply in_app_iff in I. destruct I as [I|[I|[]]]; [|exact (names_apart G hex hexp a _ _ (eq_sym I))].
  apply in_map_iff in I. destruct I as [b [E B]]. apply NI. unfold account_file in E. apply app_inv_tail in E. rewrite <- E. apply in_map. exact B.
Qed.

(** ** what holds.  The files are written in the order sender, receivers, transaction: at every crash point there is one
    of them up to which all are complete, which itself is untouched or cut short, and after which all are untouched.  No
    other file changes, and without a crash all are complete. *)
Theorem C119_order_partial : forall pp st t s rs c s1 ss s' rs' d, NoDup (map (ac_id G) (s :: rs)) ->
  MinerN G key H hex pp st t s rs c s1 ss = Some (true, (s', rs')) ->
  let files := map (fun a => filed a) (s' :: rs') ++ [(fileN t, SaveCTxN G gb gp t)] in
  let after := crash d (opsN pp st t s rs s1 ss) in
  (forall k, exists n, (forall i x, i < n -> nth_error files i = Some x -> after k (fst x) = Some (snd x)) /\
     (forall x, nth_error files n = Some x -> saved_or_cut (d (fst x)) (after k (fst x)) (snd x)) /\
     (forall i x, n < i -> nth_error files i = Some x -> after k (fst x) = d (fst x)) /\
     (forall f, ~ In f (map fst files) -> after k f = d f)) /\
  (forall x, In x files -> run d (opsN pp st t s rs s1 ss) (fst x) = Some (snd x)).
Proof.
  intros pp st t s rs c s1 ss s' rs' d ND M files after. destruct (miner_saves _ _ _ _ _ _ _ _ _ _ M) as [E I].
  assert (NF : NoDup (map fst files)) by (apply names_nodup; rewrite I; exact ND). unfold after. rewrite E. fold files. split.
  - intros k. apply saves_crash. exact NF.
  - apply saves_run. exact NF.
Qed.

(** ** what is false.  For every number n of receivers there is a crash point after which the files, read back, hold
    the sender's new balance, n new balances of receivers and the others' old ones: what the others were to get is gone, and
    the transaction is not on record. *)
Lemma partly_credited : forall (rs rs' : list (Account G)) vs n, length rs' = length rs -> length vs = length rs ->
  (forall k, (k < length rs)%nat -> ac_m G (nth k rs' (acct0 G)) = (ac_m G (nth k rs (acct0 G)) + nth k vs 0)%Z) ->
  (total G (firstn n rs' ++ skipn n rs) = total G rs' - zsum (skipn n vs))%Z.
Proof.
  unfold total. induction rs as [|r rs IH]; intros [|r' rs'] [|v vs] n L1 L2 P; try discriminate; [destruct n; reflexivity|].
  pose proof (P 0 ltac:(cbn [length]; lia)) as P0. cbn [nth] in P0.
  assert (PS : forall k, (k < length rs)%nat -> ac_m G (nth k rs' (acct0 G)) = (ac_m G (nth k rs (acct0 G)) + nth k vs 0)%Z).
  { intros k K. exact (P (S k) ltac:(cbn [length]; lia)). }
  destruct n as [|n].
  - specialize (IH rs' vs 0 ltac:(cbn in L1; lia) ltac:(cbn in L2; lia) PS). cbn [firstn skipn app map zsum] in IH |- *. lia.
  - specialize (IH rs' vs n ltac:(cbn in L1; lia) ltac:(cbn in L2; lia) PS). cbn [firstn skipn app map zsum] in IH |- *. lia.
Qed.
Theorem C119_between_refuted : forall hash L T pp st t vs s rs c s1 ss r s' rs' d old n,
  decrypts G key hash L T pp st -> fair L T s1 -> Forall (fair L T) ss -> length ss = length rs ->
  pays G pp t vs -> m_str G t = T_Enc G (a_enc G pp) (m_pks G t) (zsum vs) r ->
  balance_ok G L T pp s -> Forall (balance_ok G L T pp) rs ->
  m_pks G t = ac_pk G s -> m_pkr G t = map (ac_pk G) rs -> VerifyCTxN G H hex pp t c = Some true ->
  (0 <= ac_m G s - zsum vs < covered L T)%Z ->
  (forall k, (k < length rs)%nat -> (0 <= ac_m G (nth k rs (acct0 G)) + nth k vs 0 < covered L T)%Z) ->
  MinerN G key H hex pp st t s rs c s1 ss = Some (true, (s', rs')) ->
  NoDup (map (ac_id G) (s :: rs)) -> Forall (account_storable G) (s' :: rs') -> Forall (account_storable G) rs ->
  (forall a, In a rs -> d (account_file G a) = Some (bytes a)) -> n <= length rs ->
  exists k accts, length accts = length (s :: rs) /\
    (forall i, i < length (s :: rs) -> exists b, crash d (opsN pp st t s rs s1 ss) k (account_file G (nth i (s :: rs) (acct0 G))) = Some b /\
       FetchAccount G old b = Some (nth i accts (acct0 G))) /\
    crash d (opsN pp st t s rs s1 ss) k (fileN t) = d (fileN t) /\
    (total G accts = total G (s :: rs) - zsum (skipn n vs))%Z.
Proof.
  intros hash L T pp st t vs s rs c s1 ss r s' rs' d old n D F1 FS LS PY ES SO RO PK PR VT B BR M ND ST SR DR NL.
  destruct (C51_wellformed_partial G key key64 H hex hash L T pp st t vs s rs c s1 ss r D F1 FS LS PY ES SO RO PK PR VT B BR) as [s0 [rs0 [M0 [_ [_ [TT MR]]]]]].
  rewrite M in M0. assert (s0 = s') by congruence. assert (rs0 = rs') by congruence. subst s0 rs0. clear M0.
  destruct (miner_saves _ _ _ _ _ _ _ _ _ _ M) as [E I]. destruct (minerN_state G key H hex _ _ _ _ _ _ _ _ _ _ M) as [LL _].
  assert (LV : length vs = length rs). { destruct PY as [r0 [_ [L2 _]]]. rewrite PR, map_length in L2. exact L2. }
  set (files := map (fun a => filed a) (s' :: rs') ++ [(fileN t, SaveCTxN G gb gp t)]) in *.
  assert (NF : NoDup (map fst files)) by (apply names_nodup; rewrite I; exact ND).
  destruct (saves_between files d (S n) NF) as [k [K1 K2]]. rewrite E.
  assert (FN : firstn (S n) files = map (fun a => filed a) (s' :: firstn n rs')).
  { unfold files. rewrite firstn_app. cbn [length map]. rewrite map_length, LL. replace (S n - S (length rs)) with 0 by (clear - NL; lia).
    rewrite firstn_O, app_nil_r. cbn [firstn]. rewrite firstn_map. reflexivity. }
  assert (FI : forall a b : Account G, ac_id G a = ac_id G b -> account_file G a = account_file G b) by (intros a b X; unfold account_file; rewrite X; reflexivity).
  assert (NTH : forall i, ac_id G (nth i (s' :: rs') (acct0 G)) = ac_id G (nth i (s :: rs) (acct0 G))).
  { intros i. rewrite <- (map_nth (ac_id G)), <- (map_nth (ac_id G) (s :: rs)), I. reflexivity. }
  exists k, (s' :: firstn n rs' ++ skipn n rs). split; [|split; [|split]].
  - cbn [length]. rewrite app_length, firstn_length, skipn_length, LL. clear - NL. lia.
  - intros i LI. destruct (Nat.lt_ge_cases i (S n)) as [IN|IN].
    + assert (X : nth i (s' :: firstn n rs' ++ skipn n rs) (acct0 G) = nth i (s' :: rs') (acct0 G)).
      { destruct i as [|i]; [reflexivity|]. cbn [nth]. rewrite app_nth1 by (rewrite firstn_length, LL; clear - IN NL; lia). apply nth_firstn_lt. clear - IN. lia. }
      assert (IM : In (nth i (s' :: rs') (acct0 G)) (s' :: firstn n rs')).
      { rewrite <- X. destruct i as [|i]; [left; reflexivity|]. right. cbn [nth]. rewrite app_nth1 by (rewrite firstn_length, LL; clear - IN NL; lia).
        apply nth_In. rewrite firstn_length, LL. clear - IN NL. lia. }
      exists (bytes (nth i (s' :: rs') (acct0 G))). rewrite X. split.
      * rewrite <- (FI _ _ (NTH i)). apply (K1 (filed (nth i (s' :: rs') (acct0 G)))). rewrite FN. apply (in_map (fun a => filed a)). exact IM.
      * rewrite <- (app_nil_r (bytes _)). apply C83_account_round_trip. rewrite Forall_forall in ST. apply ST. apply nth_In. cbn [length] in LI |- *. rewrite LL. exact LI.
    + destruct i as [|i]; [clear - IN; lia|]. cbn [nth length] in LI |- *.
      assert (X : nth i (firstn n rs' ++ skipn n rs) (acct0 G) = nth i rs (acct0 G)).
      { rewrite app_nth2 by (rewrite firstn_length; clear - IN; lia). rewrite firstn_length, LL. rewrite nth_skipn. f_equal. clear - IN NL. lia. }
      assert (IR : In (nth i rs (acct0 G)) rs) by (apply nth_In; clear - LI; lia).
      exists (bytes (nth i rs (acct0 G))). rewrite X. split.
      * rewrite K2; [apply DR; exact IR|]. rewrite FN, map_map. cbn [fst]. intros J. apply in_map_iff in J. destruct J as [a [AE AI]].
        assert (AJ : exists j, j < S n /\ ac_id G a = ac_id G (nth j (s :: rs) (acct0 G))).
        { apply (In_nth _ _ (acct0 G)) in AI. destruct AI as [j [LJ EJ]]. cbn [length] in LJ. rewrite firstn_length in LJ.
          exists j. split; [clear - LJ; lia|]. rewrite <- NTH, <- EJ. destruct j as [|j]; [reflexivity|]. cbn [nth]. rewrite nth_firstn_lt by (clear - LJ; lia). reflexivity. }
        destruct AJ as [j [LJ EJ]]. unfold account_file in AE. apply app_inv_tail in AE. rewrite EJ in AE.
        change (nth i rs (acct0 G)) with (nth (S i) (s :: rs) (acct0 G)) in AE.
        rewrite <- (map_nth (ac_id G) (s :: rs) (acct0 G) j), <- (map_nth (ac_id G) (s :: rs) (acct0 G) (S i)) in AE.
        apply (proj1 (NoDup_nth (map (ac_id G) (s :: rs)) (ac_id G (acct0 G))) ND) in AE; rewrite ?map_length; cbn [length]; clear - AE LJ IN LI NL || clear - LJ IN LI NL; lia.
      * rewrite <- (app_nil_r (bytes _)). apply C83_account_round_trip. rewrite Forall_forall in SR. apply SR. exact IR.
  - apply K2. rewrite FN, map_map. cbn [fst]. intros J. apply in_map_iff in J. destruct J as [a [AE _]]. exact (names_apart G hex hexp a _ _ AE).
  - pose proof (partly_credited rs rs' vs n LL LV MR) as PC. unfold total in TT, PC |- *. cbn [map zsum] in TT |- *. rewrite PC. clear - TT. lia.
Qed.

(** No crash is needed when the balance of the n-th receiver grows too large to decrypt: the process ends by itself, after the
    files of the sender and of the receivers before the n-th have been written. *)
Lemma credit_stops : forall hash L T pp st pkr vs rs0 rs ss n,
  decrypts G key hash L T pp st -> Forall (fair L T) ss -> length ss = length rs -> pkr = map (ac_pk G) rs ->
  length vs = length pkr -> length rs0 = length pkr -> Forall (balance_ok G L T pp) rs -> n < length rs ->
  (forall k, k < n -> (0 <= ac_m G (nth k rs (acct0 G)) + nth k vs 0 < covered L T)%Z) ->
  (covered L T <= ac_m G (nth n rs (acct0 G)) + nth n vs 0 < order G)%Z ->
  let rtr := map2 (fun pk x => T_MREnc G (a_enc G pp) [pk; a_pka G pp] (fst x) (snd x)) pkr (combine vs rs0) in
  credit G key pp st rtr rs ss = None /\
  exists l, length l = n /\ credit_ops G key gb gp pp st rtr rs ss = saves_ops (map (fun a => filed a) l) /\ map (ac_id G) l = map (ac_id G) (firstn n rs) /\
    forall k, k < n -> ac_m G (nth k l (acct0 G)) = (ac_m G (nth k rs (acct0 G)) + nth k vs 0)%Z.
Proof.
  intros hash L T pp st pkr vs rs0 rs. revert pkr vs rs0. induction rs as [|r rs IH]; intros pkr vs rs0 ss n D F LS EP L1 L2 BO LN B BN; [cbn in LN; lia|].
  subst pkr. cbn [map] in *. destruct vs as [|v vs]; [discriminate|]. destruct rs0 as [|x rs0]; [discriminate|]. destruct ss as [|s1 ss]; [discriminate|].
  cbn [length] in L1, L2, LS, LN. pose proof (Forall_inv BO) as BA. pose proof (Forall_inv_tail BO) as BT. pose proof (Forall_inv F) as F1. pose proof (Forall_inv_tail F) as FT.
  cbn [combine map2 credit credit_ops T_MREnc map nth tvX tmY fst snd hd tl]. cbv zeta.
  assert (P := credit_point G pp r (pmul G (ac_pk G r) x) x v _ (proj1 BA) eq_refl eq_refl).
  destruct n as [|n].
  - cbn [nth] in BN. rewrite (Dec_none G key key64 hash L T pp st _ _ _ s1 D F1 P BN). cbn [obind]. split; [reflexivity|].
    exists []. split; [reflexivity|]. split; [reflexivity|]. split; [reflexivity|]. intros k K. clear - K. lia.
  - pose proof (B 0 ltac:(clear; lia)) as B0. cbn [nth] in B0, BN. rewrite (Dec_some G key key64 hash L T pp st _ _ _ _ D F1 P B0). cbn [obind].
    destruct (IH (map (ac_pk G) rs) vs rs0 ss n D FT ltac:(clear - LS; lia) eq_refl ltac:(clear - L1; lia) ltac:(clear - L2; lia) BT ltac:(clear - LN; lia)
      (fun k K => B (S k) ltac:(clear - K; lia)) BN) as [C [l [LL [E [I M]]]]].
    cbv zeta in C, E. rewrite C, E. cbn [obind]. split; [reflexivity|]. eexists (_ :: l). split; [cbn [length]; rewrite LL; reflexivity|].
    split; [reflexivity|]. split; [cbn [map firstn]; rewrite I; reflexivity|]. intros [|k] K; [reflexivity|]. cbn [nth]. apply M. clear - K. lia.
Qed.
Theorem C119_overflow_refuted : forall hash L T pp st t vs s rs c s1 ss r d n,
  decrypts G key hash L T pp st -> fair L T s1 -> Forall (fair L T) ss -> length ss = length rs ->
  pays G pp t vs -> m_str G t = T_Enc G (a_enc G pp) (m_pks G t) (zsum vs) r ->
  balance_ok G L T pp s -> Forall (balance_ok G L T pp) rs ->
  m_pks G t = ac_pk G s -> m_pkr G t = map (ac_pk G) rs -> VerifyCTxN G H hex pp t c = Some true ->
  (0 <= ac_m G s - zsum vs < covered L T)%Z -> n < length rs ->
  (forall k, k < n -> (0 <= ac_m G (nth k rs (acct0 G)) + nth k vs 0 < covered L T)%Z) ->
  (covered L T <= ac_m G (nth n rs (acct0 G)) + nth n vs 0 < order G)%Z -> NoDup (map (ac_id G) (s :: rs)) ->
  MinerN G key H hex pp st t s rs c s1 ss = None /\
  exists s' l, ac_m G s' = (ac_m G s - zsum vs)%Z /\ length l = n /\
    (forall k, k < n -> ac_m G (nth k l (acct0 G)) = (ac_m G (nth k rs (acct0 G)) + nth k vs 0)%Z) /\
    map (ac_id G) (s' :: l) = map (ac_id G) (s :: firstn n rs) /\
    let after := run d (UpdateAccountN_ops G key gb gp pp st t s rs s1 ss) in
    (forall a, In a (s' :: l) -> after (account_file G a) = Some (bytes a)) /\
    (forall f, ~ In f (map (account_file G) (s :: firstn n rs)) -> after f = d f).
Proof.
  intros hash L T pp st t vs s rs c s1 ss r d n D F1 FS LS PY ES SO RO PK PR VT B LN BK BN ND.
  assert (RM : receivers_match G (m_pkr G t) rs = Some true).
  { rewrite PR. clear. induction rs as [|a rs IH]; [reflexivity|]. cbn [map receivers_match]. rewrite peqb_refl. exact IH. }
  assert (P : T_DecECPoint G (ac_sk G s) (T_HomoSub G (ac_ct G s) (m_str G t)) = pmul G (t_h G (a_enc G pp)) (ac_m G s - zsum vs)).
  { rewrite ES. unfold T_Enc. rewrite msum2. apply (debit_point G pp s _ r); [exact (proj1 SO)|rewrite PK; reflexivity|reflexivity]. }
  destruct PY as [rs0 [L1 [L2 ER]]]. assert (LR : length rs0 = length (m_pkr G t)) by (rewrite L1; exact L2).
  destruct (credit_stops hash L T pp st (m_pkr G t) vs rs0 rs ss n D FS LS PR L2 LR RO LN BK BN) as [C [l [LL [E [I M]]]]]. cbv zeta in C, E.
  assert (DS := Dec_some G key key64 hash L T pp st _ _ _ s1 D F1 P B). split.
  - unfold MinerN. rewrite PK, peqb_refl, RM. cbn [negb obind]. rewrite VT. cbn [obind]. unfold UpdateAccountN. cbv zeta. rewrite DS. cbn [obind]. rewrite ER, C. reflexivity.
  - set (s' := {| ac_id := ac_id G s; ac_pk := ac_pk G s; ac_sk := ac_sk G s; ac_ct := T_HomoSub G (ac_ct G s) (m_str G t); ac_m := (ac_m G s - zsum vs)%Z; ac_sn := (ac_sn G s + 1)%Z |}).
    exists s', l. split; [reflexivity|]. split; [exact LL|]. split; [exact M|]. split; [cbn [map]; rewrite I; reflexivity|].
    assert (U : UpdateAccountN_ops G key gb gp pp st t s rs s1 ss = saves_ops (map (fun a => filed a) (s' :: l))).
    { unfold UpdateAccountN_ops. cbv zeta. rewrite DS, ER, E. reflexivity. }
    cbv zeta. rewrite U.
    assert (NF : NoDup (map fst (map (fun a => filed a) (s' :: l)))).
    { pose proof (names_nodup (s' :: l) t) as X. rewrite map_app in X. apply (nodup_front _ _ _ (X ltac:(cbn [map]; rewrite I;
        cbn [map] in ND; apply NoDup_cons_iff in ND; destruct ND as [N1 N2]; rewrite <- firstn_map; constructor;
        [intros J; apply N1; rewrite <- (firstn_skipn n (map (ac_id G) rs)); apply in_or_app; left; exact J|
         rewrite <- (firstn_skipn n (map (ac_id G) rs)) in N2; exact (nodup_front _ _ _ N2)]))). }
    destruct (saves_run _ d NF) as [A O]. split.
    + intros a IA. apply (A (filed a)). apply (in_map (fun a => filed a)). exact IA.
    + intros f NI. apply O. rewrite map_map. cbn [fst]. intros J. apply NI.
      assert (EQ : forall x y : list (Account G), map (ac_id G) x = map (ac_id G) y -> map (account_file G) x = map (account_file G) y).
      { clear. induction x as [|a x IH]; intros [|b y] X; try discriminate; [reflexivity|]. cbn [map] in X |- *.
        assert (X1 : ac_id G a = ac_id G b) by congruence. assert (X2 : map (ac_id G) x = map (ac_id G) y) by congruence.
        rewrite (IH _ X2). unfold account_file at 1 3. rewrite X1. reflexivity. }
      rewrite <- (EQ (s' :: l) (s :: firstn n rs)) by (cbn [map]; rewrite I; reflexivity). exact J.
Qed.
End Props.

(** ** an instance: alice pays 3 to bob, and the miner is cut off after writing alice's file *)
Local Open Scope Z_scope.
Definition received (G : ECGroup) (t : CTxN G) (r : Account G) (m : Z) : Account G :=
  set_balance G r (match m_rtr G t with x :: _ => T_HomoAdd G (ac_ct G r) {| tX := nth 0 (tvX G x) (inf G); tY := tmY G x |} | [] => ac_ct G r end) m.
Lemma minerN_one : forall G key H hex pp st t s r c s1 ss s' rs', MinerN G key H hex pp st t s [r] c s1 ss = Some (true, (s', rs')) ->
  rs' = [received G t r (ac_m G (nth 0 rs' (acct0 G)))].
Proof.
  intros G key H hex pp st t s r c s1 ss s' rs' M. unfold MinerN in M. destruct (negb _); [discriminate|].
  destruct (receivers_match _ _ _) as [k|]; [|discriminate]. cbn [obind] in M. destruct (negb k); [discriminate|].
  destruct (VerifyCTxN _ _ _ _ _ _) as [[|]|]; cbn [obind] in M; try discriminate.
  unfold UpdateAccountN in M. cbv zeta in M. destruct (T_Dec _ _ _ _ _ _ _) as [m|]; [|discriminate]. cbn [obind] in M.
  destruct (credit _ _ _ _ _ _ _) as [l|] eqn:C; [|discriminate]. cbn [obind] in M. assert (R : rs' = l) by congruence. subst l.
  unfold received. destruct (m_rtr G t) as [|x rtr]; [discriminate|]. cbn [credit] in C. cbv zeta in C.
  destruct (T_Dec _ _ _ _ _ _ _) as [m'|]; [|discriminate]. cbn [obind] in C. destruct rtr; cbn [credit obind] in C;
  match type of C with Some ?y = _ => assert (Y : rs' = y) by congruence end; subst rs'; reflexivity.
Qed.
Local Notation payN v s r := (CreateCTxN G4099 toyH hexu ap4099 s [v] [ac_pk G4099 r] mr4).
Local Notation toy_opsN := (MinerN_ops G4099 key4099 hexu (comp33 G4099) [] []).
Definition storable_after (o : option (CTxN G4099)) : bool :=
  match o with Some t => storableb (afterN 3 t alice) && storableb (received G4099 t bob 5) | None => false end.
Lemma storable_paid : storable_after (payN 3 alice bob) = true.
Proof. vm_compute. reflexivity. Qed.
Lemma cut_off : forall st a b v t d old, decrypts G4099 key4099 hash4099 12 0 ap4099 st ->
  balance_ok G4099 12 0 ap4099 a -> balance_ok G4099 12 0 ap4099 b -> 0 <= v < 16 -> 0 <= ac_m G4099 a - v < 16 -> 0 <= ac_m G4099 b < 16 ->
  payN v a b = Some t -> VerifyCTxN G4099 toyH hexu ap4099 t 5 = Some true -> ac_id G4099 a <> ac_id G4099 b ->
  account_storable G4099 (afterN v t a) -> account_storable G4099 (received G4099 t b (ac_m G4099 b + v)) -> account_storable G4099 b ->
  d (account_file G4099 b) = Some (SaveAccount G4099 [] [] b) ->
  exists k accts, length accts = 2%nat /\
    (forall i, (i < 2)%nat -> exists f, crash d (toy_opsN ap4099 st t a [b] round_robin [round_robin]) k (account_file G4099 (nth i [a; b] (acct0 G4099))) = Some f /\
       FetchAccount G4099 old f = Some (nth i accts (acct0 G4099))) /\
    total G4099 accts = total G4099 [a; b] - v.
Proof.
  intros st a b v t d old D BA BB R1 X1 X2 E VT NI SA SB SO DB.
  destruct (stepN st a b v D BA BB R1 X1 X2) as [u [rs' [C [M _]]]]; [rewrite E; exact VT|]. assert (u = t) by congruence. subst u.
  destruct (C45_one_to_many G4099 toyH hexu ap4099 a [v] [ac_pk G4099 b] mr4 params_4099_2 (proj1 BA) eq_refl eq_refl eq_refl) as [u [E' [PY [PS [PR [ST _]]]]]].
  { constructor; [split; [apply R1|exact (proj2 R1)]|constructor]. }
  { change (zsum [v]) with (v + 0). rewrite Z.add_0_r. split; [apply X1|exact (proj2 X1)]. }
  assert (u = t) by congruence. subst u. assert (CV : 32 < covered 12 0) by (vm_compute; reflexivity).
  assert (BS : 0 <= ac_m G4099 a - zsum [v] < covered 12 0) by (change (zsum [v]) with (v + 0); lia).
  assert (BR : forall k, (k < length [b])%nat -> 0 <= ac_m G4099 (nth k [b] (acct0 G4099)) + nth k [v] 0 < covered 12 0).
  { intros [|k] Hk; [cbn [nth]; lia|cbn in Hk; lia]. }
  assert (ST' : m_str G4099 t = T_Enc G4099 (a_enc G4099 ap4099) (m_pks G4099 t) (zsum [v]) (mr_r mr4)) by (rewrite PS; exact ST).
  destruct (C51_wellformed_partial G4099 key4099 key4099_64 toyH hexu hash4099 12 0 ap4099 st t [v] a [b] 5 round_robin [round_robin] (mr_r mr4)
    D fair_4099 (Forall_cons _ fair_4099 (Forall_nil _)) eq_refl PY ST' BA (Forall_cons _ BB (Forall_nil _)) PS PR VT BS BR) as [s0 [rs0 [M0 [_ [_ [_ MR]]]]]].
  assert (rs0 = rs') by congruence. subst rs0. specialize (MR 0%nat ltac:(cbn [length]; lia)). cbn [nth] in MR.
  assert (RS : Forall (account_storable G4099) rs').
  { rewrite (minerN_one _ _ _ _ _ _ _ _ _ _ _ _ _ _ M), MR. constructor; [exact SB|constructor]. }
  destruct (C119_between_refuted G4099 key4099 key4099_64 toyH hexu (comp33 G4099) [] [] hash4099 12 0 ap4099 st t [v] a [b] 5 round_robin [round_robin] (mr_r mr4)
    (afterN v t a) rs' d old 0 D fair_4099 (Forall_cons _ fair_4099 (Forall_nil _)) eq_refl PY ST' BA (Forall_cons _ BB (Forall_nil _)) PS PR VT BS BR M)
    as [k [accts [L [P [_ TT]]]]].
  - constructor; [intros [X|[]]; apply NI; symmetry; exact X|]. constructor; [intros []|constructor].
  - constructor; [exact SA|exact RS].
  - constructor; [exact SO|constructor].
  - intros x [<-|[]]. exact DB.
  - apply Nat.le_0_l.
  - exists k, accts. split; [exact L|]. split; [exact P|]. rewrite TT. change (zsum (skipn 0 [v])) with (v + 0). rewrite Z.add_0_r. reflexivity.
Qed.
Example C119_run : forall d old, d (account_file G4099 bob) = Some (SaveAccount G4099 [] [] bob) ->
  exists st t k accts, length accts = 2%nat /\
    (forall i, (i < 2)%nat -> exists f, crash d (toy_opsN ap4099 st t alice [bob] round_robin [round_robin]) k (account_file G4099 (nth i [alice; bob] (acct0 G4099))) = Some f /\
       FetchAccount G4099 old f = Some (nth i accts (acct0 G4099))) /\
    total G4099 accts = total G4099 [alice; bob] - 3.
Proof.
  intros d old ED. destruct ready_4099 as [st D]. destruct balances as [BA [BB _]]. destruct (trueN_ok _ firstN) as [t [E VT]].
  pose proof storable_paid as S. rewrite E in S. unfold storable_after in S. apply andb_prop in S. destruct S as [S1 S2].
  exists st, t. apply (cut_off st alice bob 3 t d old D BA BB ltac:(lia) ltac:(change (0 <= 11 - 3 < 16); lia) ltac:(change (0 <= 2 < 16); lia) E VT).
  - discriminate.
  - apply storableb_ok; [apply bytes_1; reflexivity|exact S1].
  - change (ac_m G4099 bob + 3) with 5. apply storableb_ok; [apply bytes_1; reflexivity|exact S2].
  - apply storableb_ok; [apply bytes_1; reflexivity|vm_compute; reflexivity].
  - exact ED.
Qed.

(** alice pays 3 to rich_bob, whose balance grows too large *)
Lemma stopped : forall st a b v t d, decrypts G4099 key4099 hash4099 12 0 ap4099 st ->
  balance_ok G4099 12 0 ap4099 a -> balance_ok G4099 12 0 ap4099 b -> 0 <= v < 16 -> 0 <= ac_m G4099 a - v < 16 ->
  covered 12 0 <= ac_m G4099 b + v < order G4099 ->
  payN v a b = Some t -> VerifyCTxN G4099 toyH hexu ap4099 t 5 = Some true -> ac_id G4099 a <> ac_id G4099 b ->
  MinerN G4099 key4099 toyH hexu ap4099 st t a [b] 5 round_robin [round_robin] = None /\
  exists s', ac_m G4099 s' = ac_m G4099 a - v /\ ac_id G4099 s' = ac_id G4099 a /\
    run d (UpdateAccountN_ops G4099 key4099 [] [] ap4099 st t a [b] round_robin [round_robin]) (account_file G4099 s') = Some (SaveAccount G4099 [] [] s').
Proof.
  intros st a b v t d D BA BB R1 X1 X2 E VT NI.
  destruct (C45_one_to_many G4099 toyH hexu ap4099 a [v] [ac_pk G4099 b] mr4 params_4099_2 (proj1 BA) eq_refl eq_refl eq_refl) as [u [E' [PY [PS [PR [ST _]]]]]].
  { constructor; [split; [apply R1|exact (proj2 R1)]|constructor]. }
  { change (zsum [v]) with (v + 0). rewrite Z.add_0_r. split; [apply X1|exact (proj2 X1)]. }
  assert (u = t) by congruence. subst u. assert (CV : 32 < covered 12 0) by (vm_compute; reflexivity).
  assert (BS : 0 <= ac_m G4099 a - zsum [v] < covered 12 0) by (change (zsum [v]) with (v + 0); lia).
  assert (ST' : m_str G4099 t = T_Enc G4099 (a_enc G4099 ap4099) (m_pks G4099 t) (zsum [v]) (mr_r mr4)) by (rewrite PS; exact ST).
  assert (NK : forall k, (k < 0)%nat -> 0 <= ac_m G4099 (nth k [b] (acct0 G4099)) + nth k [v] 0 < covered 12 0) by (intros k K; exfalso; exact (Nat.nlt_0_r k K)).
  destruct (C119_overflow_refuted G4099 key4099 key4099_64 toyH hexu (comp33 G4099) [] [] hash4099 12 0 ap4099 st t [v] a [b] 5 round_robin [round_robin] (mr_r mr4) d 0
    D fair_4099 (Forall_cons _ fair_4099 (Forall_nil _)) eq_refl PY ST' BA (Forall_cons _ BB (Forall_nil _)) PS PR VT BS (Nat.lt_0_succ 0) NK X2)
    as [M [s' [l [SM [LL [_ [ID [A _]]]]]]]].
  { constructor; [intros [X|[]]; apply NI; symmetry; exact X|]. constructor; [intros []|constructor]. }
  split; [exact M|]. exists s'. change (zsum [v]) with (v + 0) in SM. rewrite Z.add_0_r in SM. split; [exact SM|].
  destruct l; [|discriminate]. cbn [map firstn] in ID. split; [congruence|]. apply A. left. reflexivity.
Qed.
Lemma firstR : trueN (payN 3 alice rich_bob) = true.
Proof. vm_compute. reflexivity. Qed.
Example C119_overflow_run : forall d, exists st t s', MinerN G4099 key4099 toyH hexu ap4099 st t alice [rich_bob] 5 round_robin [round_robin] = None /\
  ac_m G4099 s' = ac_m G4099 alice - 3 /\
  run d (UpdateAccountN_ops G4099 key4099 [] [] ap4099 st t alice [rich_bob] round_robin [round_robin]) (account_file G4099 s') = Some (SaveAccount G4099 [] [] s').
Proof.
  intros d. destruct ready_4099 as [st D]. destruct balances as [BA _]. destruct (trueN_ok _ firstR) as [t [E VT]].
  assert (BB : balance_ok G4099 12 0 ap4099 rich_bob) by (apply account_4099; [vm_compute; split; [discriminate|reflexivity]|lia]).
  destruct (stopped st alice rich_bob 3 t d D BA BB ltac:(lia) ltac:(change (0 <= 11 - 3 < 16); lia) ltac:(vm_compute; split; [discriminate|reflexivity]) E VT ltac:(discriminate))
    as [M [s' [A [_ B]]]].
  exists st, t, s'. split; [exact M|]. split; [exact A|exact B].
Qed.

Print Assumptions C119_order_partial.
Print Assumptions C119_between_refuted.
Print Assumptions C119_overflow_refuted.

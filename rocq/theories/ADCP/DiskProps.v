(** Property C114: a crash while the miner writes its files. *)
From Coq Require Import NArith ZArith List Lia Bool Arith.
From Coq Require Import ZifyBool ZifyNat ZifyN.
From Verif.Base Require Import Words ListX.
From Verif.Utility Require Import SerialModel SerialSpec SerialProofs.
From Verif.Crypto Require Import BigIntModel BigIntSpec BigIntProofs.
From Verif.OT Require Import OTProofs.
From Verif.Group Require Import ECModel ECProofs ZqGroup.
From Verif.PKE Require Import DlogModel DlogSpec DlogProps ElGamalModel ElGamalProps CTFileModel.
From Verif.Param Require Import ParamModel ParamProofs ParamProps.
From Verif.Sigma Require Import SigmaModel SigmaProps.
From Verif.Bullet Require Import IPModel BPModel BPSpec BPProps.
From Verif.ADCP Require Import ADCPModel ADCPSpec ADCPProofs ADCPProps ADCPManyProps ADCPSaveProps ADCPFileModel DiskModel DiskProofs.
Import ListNotations.

Lemma last_app : forall (x y : list N) a b, x ++ [a] = y ++ [b] -> a = b.
Proof. intros x y a b E. apply app_inj_tail in E. apply E. Qed.

Section Props.
Variable G : ECGroup.
Variable key : pt G -> N.
Hypothesis key64 : forall P, (key P < 2 ^ 64)%N.
Variable H : list N -> Z.
Variable hex : Z -> list N.
Variable hexp : pt G -> list N.
Variables gb gp : list N.
Local Notation acct accts i := (nth i accts (acct0 G)).
Local Notation bytes a := (SaveAccount G gb gp a).
Local Notation ops1 := (Miner1_ops G key H hex hexp gb gp).
Local Notation ctx1_file t := (ctx_name G hex hexp (c_pks G t) (c_sn G t)).

(** file names: an account file is never a transaction file *)
Lemma names_apart : forall a pk sn, account_file G a <> ctx_name G hex hexp pk sn.
Proof.
  intros a pk sn E. unfold account_file, ctx_name in E.
  assert (X := last_app (ac_id G a ++ [46; 97; 99; 99; 111; 117; 110]%N) (hexp pk ++ [95]%N ++ hex sn ++ [46; 99; 116]%N) 116%N 120%N).
  assert (Y : 116%N = 120%N); [|discriminate Y]. apply X. rewrite <- !app_assoc. exact E.
Qed.
Lemma account_names : forall a b, ac_id G a <> ac_id G b -> account_file G a <> account_file G b.
Proof. intros a b N E. apply N. unfold account_file in E. apply app_inv_tail in E. exact E. Qed.

Lemma accepted_ops : forall pp st t accts i j c s1 s2 accts', i <> j -> (i < length accts)%nat -> (j < length accts)%nat ->
  Miner1 G key H hex pp st t accts i j c s1 s2 = Some (true, accts') ->
  ops1 pp st t accts i j c s1 s2 =
    save_ops (account_file G (acct accts' i)) (bytes (acct accts' i)) ++
    save_ops (account_file G (acct accts' j)) (bytes (acct accts' j)) ++
    save_ops (ctx1_file t) (SaveCTx1 G gb gp t) /\
  ac_id G (acct accts' i) = ac_id G (acct accts i) /\ ac_id G (acct accts' j) = ac_id G (acct accts j) /\
  (exists m, acct accts' i = set_balance G (acct accts i)
     (T_HomoSub G (ac_ct G (acct accts i)) {| tX := nth 0 (tvX G (c_tr G t)) (inf G); tY := tmY G (c_tr G t) |}) m) /\
  (exists m, acct accts' j = set_balance G (acct accts j)
     (T_HomoAdd G (ac_ct G (acct accts j)) {| tX := nth 1 (tvX G (c_tr G t)) (inf G); tY := tmY G (c_tr G t) |}) m).
Proof.
  intros pp st t accts i j c s1 s2 accts' N Hi Hj M. unfold Miner1_ops. rewrite M. unfold Miner1 in M.
  destruct (negb _); [discriminate|]. destruct (negb _); [discriminate|].
  destruct (VerifyCTx1 G H hex pp t c) as [[|]|]; cbn [obind] in M; try discriminate.
  unfold UpdateAccount1 in M. unfold UpdateAccount1_ops. cbv zeta in M |- *.
  destruct (T_Dec G key (a_enc G pp) st _ _ s1) as [m1|]; [|discriminate]. cbn [obind] in M.
  match type of M with context [upd accts i ?a] => set (s' := a) in * end.
  destruct (T_Dec G key (a_enc G pp) st _ _ s2) as [m2|]; [|discriminate]. cbn [obind] in M.
  match type of M with context [upd (upd accts i s') j ?a] => set (r' := a) in * end.
  assert (E : upd (upd accts i s') j r' = accts') by congruence. subst accts'.
  rewrite (nth_upd_same (upd accts i s') j) by (rewrite upd_length; exact Hj).
  rewrite (nth_upd_other (upd accts i s') j i) by congruence. rewrite (nth_upd_same accts i) by exact Hi.
  unfold SaveAccount_ops. rewrite <- app_assoc. split; [reflexivity|]. split; [reflexivity|].
  split; [unfold r'; cbn [set_balance ac_id]; rewrite nth_upd_other by congruence; reflexivity|].
  split; [exists m1; reflexivity|]. exists m2. unfold r'. rewrite (nth_upd_other accts i j) by congruence. reflexivity.
Qed.

(** ** what holds.  At every crash point each file is untouched or a prefix of what was to be written to it, the files
    are written in the order sender, receiver, transaction, no other file changes, and in the end all three are
    complete.  A rejected transaction changes no file. *)
Theorem C114_order_partial : forall pp st t accts i j c s1 s2 accts' d, i <> j -> (i < length accts)%nat -> (j < length accts)%nat ->
  ac_id G (acct accts i) <> ac_id G (acct accts j) ->
  Miner1 G key H hex pp st t accts i j c s1 s2 = Some (true, accts') ->
  let sf := account_file G (acct accts i) in let rf := account_file G (acct accts j) in let tf := ctx1_file t in
  let sb := bytes (acct accts' i) in let rb := bytes (acct accts' j) in let tb := SaveCTx1 G gb gp t in
  let after := crash d (ops1 pp st t accts i j c s1 s2) in
  (forall k, saved_or_cut (d sf) (after k sf) sb /\ saved_or_cut (d rf) (after k rf) rb /\ saved_or_cut (d tf) (after k tf) tb /\
     (after k rf = d rf \/ after k sf = Some sb) /\ (after k tf = d tf \/ after k sf = Some sb /\ after k rf = Some rb) /\
     forall f, f <> sf -> f <> rf -> f <> tf -> after k f = d f) /\
  (let finished := run d (ops1 pp st t accts i j c s1 s2) in finished sf = Some sb /\ finished rf = Some rb /\ finished tf = Some tb).
Proof.
  intros pp st t accts i j c s1 s2 accts' d N Hi Hj NI M sf rf tf sb rb tb after.
  destruct (accepted_ops pp st t accts i j c s1 s2 accts' N Hi Hj M) as [E [I1 [I2 _]]].
  unfold after. rewrite E. replace (account_file G (acct accts' i)) with sf by (unfold account_file, sf; rewrite I1; reflexivity).
  replace (account_file G (acct accts' j)) with rf by (unfold account_file, rf; rewrite I2; reflexivity). fold sb rb tf tb.
  assert (N1 : sf <> rf) by (apply account_names; exact NI).
  assert (N2 : sf <> tf) by apply names_apart. assert (N3 : rf <> tf) by apply names_apart.
  destruct (run_save d sf sb) as [A1 B1]. destruct (run_save (run d (save_ops sf sb)) rf rb) as [A2 B2].
  destruct (run_save (run (run d (save_ops sf sb)) (save_ops rf rb)) tf tb) as [A3 B3]. split.
  - intros k. rewrite crash_app, save_ops_length. destruct (Nat.leb_spec k (S (length sb))).
    + destruct (crash_save d sf sb k) as [_ B].
      split; [apply crash_cut|]. rewrite !B by congruence. split; [left; reflexivity|]. split; [left; reflexivity|]. split; [left; reflexivity|].
      split; [left; reflexivity|]. intros f F _ _. apply B. exact F.
    + rewrite crash_app, save_ops_length. set (k1 := k - S (length sb)) in *. destruct (Nat.leb_spec k1 (S (length rb))).
      * destruct (crash_save (run d (save_ops sf sb)) rf rb k1) as [_ B]. rewrite !(B sf), !(B tf) by congruence. rewrite A1, !B1 by congruence.
        split; [right; exists (length sb); rewrite firstn_all; reflexivity|].
        split; [rewrite <- (B1 rf) by congruence; apply crash_cut|]. split; [left; reflexivity|]. split; [right; reflexivity|].
        split; [left; reflexivity|]. intros f F1 F2 _. rewrite B by exact F2. apply B1. exact F1.
      * set (k2 := k1 - S (length rb)). destruct (crash_save (run (run d (save_ops sf sb)) (save_ops rf rb)) tf tb k2) as [_ B].
        rewrite !(B sf), !(B rf) by congruence. rewrite A2, (B2 sf), A1 by congruence.
        split; [right; exists (length sb); rewrite firstn_all; reflexivity|]. split; [right; exists (length rb); rewrite firstn_all; reflexivity|].
        split; [rewrite <- (B1 tf), <- (B2 tf) by congruence; apply crash_cut|]. split; [right; reflexivity|].
        split; [right; split; reflexivity|]. intros f F1 F2 F3. rewrite B by exact F3. rewrite B2 by exact F2. apply B1. exact F1.
  - cbv zeta. rewrite !run_app. rewrite (B3 sf), (B3 rf), (B2 sf) by congruence. split; [exact A1|]. split; [exact A2|exact A3].
Qed.

Theorem C114_rejected : forall pp st t accts i j c s1 s2 accts' d k,
  Miner1 G key H hex pp st t accts i j c s1 s2 = Some (false, accts') -> crash d (ops1 pp st t accts i j c s1 s2) k = d.
Proof. intros pp st t accts i j c s1 s2 accts' d k M. unfold Miner1_ops. rewrite M. unfold crash. rewrite firstn_nil. reflexivity. Qed.

(** when nothing interrupts the miner, both accounts come back from their files, and their total is what it was *)
Theorem C114_finished : forall pp st t accts i j c s1 s2 accts' d old, i <> j -> (i < length accts)%nat -> (j < length accts)%nat ->
  ac_id G (acct accts i) <> ac_id G (acct accts j) ->
  Miner1 G key H hex pp st t accts i j c s1 s2 = Some (true, accts') ->
  account_storable G (acct accts' i) -> account_storable G (acct accts' j) ->
  exists sb rb, run d (ops1 pp st t accts i j c s1 s2) (account_file G (acct accts i)) = Some sb /\
    run d (ops1 pp st t accts i j c s1 s2) (account_file G (acct accts j)) = Some rb /\
    FetchAccount G old sb = Some (acct accts' i) /\ FetchAccount G old rb = Some (acct accts' j).
Proof.
  intros pp st t accts i j c s1 s2 accts' d old N Hi Hj NI M S1 S2.
  destruct (C114_order_partial pp st t accts i j c s1 s2 accts' d N Hi Hj NI M) as [_ [A [B _]]].
  eexists; eexists. split; [exact A|]. split; [exact B|].
  rewrite <- (app_nil_r (bytes (acct accts' i))), <- (app_nil_r (bytes (acct accts' j))).
  split; apply C83_account_round_trip; assumption.
Qed.

(** ** what is false.  There is a crash point after which the files, read back, hold the sender's new balance and the
    receiver's old one: the amount is gone. *)
Theorem C114_between_refuted : forall hash L T pp st t accts i j c s1 s2 v accts' d old,
  decrypts G key hash L T pp st -> fair L T s1 -> fair L T s2 -> i <> j -> (i < length accts)%nat -> (j < length accts)%nat ->
  Forall (balance_ok G L T pp) accts -> transfers G pp t v -> (0 <= v <= order G - covered L T)%Z ->
  Miner1 G key H hex pp st t accts i j c s1 s2 = Some (true, accts') ->
  ac_id G (acct accts i) <> ac_id G (acct accts j) -> account_storable G (acct accts j) -> account_storable G (acct accts' i) ->
  d (account_file G (acct accts j)) = Some (bytes (acct accts j)) ->
  exists k sb rb s r, crash d (ops1 pp st t accts i j c s1 s2) k (account_file G (acct accts i)) = Some sb /\
    crash d (ops1 pp st t accts i j c s1 s2) k (account_file G (acct accts j)) = Some rb /\
    crash d (ops1 pp st t accts i j c s1 s2) k (ctx1_file t) = d (ctx1_file t) /\
    FetchAccount G old sb = Some s /\ FetchAccount G old rb = Some r /\
    (ac_m G s + ac_m G r = ac_m G (acct accts i) + ac_m G (acct accts j) - v)%Z.
Proof.
  intros hash L T pp st t accts i j c s1 s2 v accts' d old D F1 F2 N Hi Hj BO TR V M NI SR SS ER.
  destruct (accepted_ops pp st t accts i j c s1 s2 accts' N Hi Hj M) as [E [I1 [I2 _]]].
  exists (S (length (bytes (acct accts' i)))), (bytes (acct accts' i)), (bytes (acct accts j)), (acct accts' i), (acct accts j).
  rewrite E, crash_app, save_ops_length, Nat.leb_refl.
  replace (account_file G (acct accts' i)) with (account_file G (acct accts i)) by (unfold account_file; rewrite I1; reflexivity).
  destruct (crash_save d (account_file G (acct accts i)) (bytes (acct accts' i)) (S (length (bytes (acct accts' i))))) as [A B].
  split; [rewrite A, firstn_all; reflexivity|]. split; [rewrite B by (apply account_names; congruence); exact ER|].
  split; [apply B; intros X; exact (names_apart _ _ _ (eq_sym X))|].
  split; [rewrite <- (app_nil_r (bytes (acct accts' i))); apply C83_account_round_trip; exact SS|].
  split; [rewrite <- (app_nil_r (bytes (acct accts j))); apply C83_account_round_trip; exact SR|].
  unfold Miner1 in M.
  destruct (peqb_spec G (c_pks G t) (ac_pk G (acct accts i))) as [PS|_]; cbn [negb] in M; [|discriminate].
  destruct (peqb_spec G (c_pkr G t) (ac_pk G (acct accts j))) as [PR|_]; cbn [negb] in M; [|discriminate].
  destruct (VerifyCTx1 G H hex pp t c) as [[|]|] eqn:VT; cbn [obind] in M; try discriminate.
  destruct (UpdateAccount1 G key pp st t accts i j s1 s2) as [a|] eqn:U; cbn [obind] in M; [|discriminate].
  assert (a = accts') by congruence. subst a.
  destruct (Update1_moves G key key64 hash L T pp st t accts i j s1 s2 v accts' D F1 F2 Hi Hj BO TR V PS PR U) as [_ [_ [_ SA]]].
  destruct (SA i) as [_ Mi]. rewrite Nat.eqb_refl, (proj2 (Nat.eqb_neq i j) N) in Mi. lia.
Qed.

(** No crash is needed when the receiver's new balance is too large to decrypt: the process ends by itself, after the
    sender's file has been written. *)
Theorem C114_overflow_refuted : forall hash L T pp st t accts i j c s1 s2 v d old,
  decrypts G key hash L T pp st -> fair L T s1 -> fair L T s2 -> i <> j -> (i < length accts)%nat -> (j < length accts)%nat ->
  Forall (balance_ok G L T pp) accts -> transfers G pp t v -> (0 <= v <= ac_m G (acct accts i))%Z ->
  (covered L T <= ac_m G (acct accts j) + v < order G)%Z ->
  c_pks G t = ac_pk G (acct accts i) -> c_pkr G t = ac_pk G (acct accts j) -> VerifyCTx1 G H hex pp t c = Some true ->
  ac_id G (acct accts i) <> ac_id G (acct accts j) ->
  account_storable G (set_balance G (acct accts i)
    (T_HomoSub G (ac_ct G (acct accts i)) {| tX := nth 0 (tvX G (c_tr G t)) (inf G); tY := tmY G (c_tr G t) |}) (ac_m G (acct accts i) - v)) ->
  Miner1 G key H hex pp st t accts i j c s1 s2 = None /\
  exists sb s, run d (ops1 pp st t accts i j c s1 s2) (account_file G (acct accts i)) = Some sb /\ FetchAccount G old sb = Some s /\
    ac_m G s = (ac_m G (acct accts i) - v)%Z /\
    forall f, f <> account_file G (acct accts i) -> run d (ops1 pp st t accts i j c s1 s2) f = d f.
Proof.
  intros hash L T pp st t accts i j c s1 s2 v d old D F1 F2 N Hi Hj BO TR V CV PS PR VT NI ST.
  destruct (transfer_parts G _ _ _ TR) as [r [X0 [X1 [_ Y]]]].
  set (s := acct accts i) in *.
  assert (SO : balance_ok G L T pp s) by (apply (proj1 (Forall_nth _ _) BO); exact Hi).
  assert (RO : balance_ok G L T pp (acct accts j)) by (apply (proj1 (Forall_nth _ _) BO); exact Hj).
  assert (P1 := debit_point G pp s _ r v _ (proj1 SO) (eq_trans X0 (f_equal (fun P => pmul G P r) PS)) Y).
  assert (PR' : nth 1 (tvX G (c_tr G t)) (inf G) = pmul G (ac_pk G (acct accts j)) r) by (rewrite X1, PR; reflexivity).
  assert (P2 := credit_point G pp (acct accts j) _ r v _ (proj1 RO) PR' Y).
  set (ct := T_HomoSub G (ac_ct G s) {| tX := nth 0 (tvX G (c_tr G t)) (inf G); tY := tmY G (c_tr G t) |}) in *.
  assert (D1 : T_Dec G key (a_enc G pp) st (ac_sk G s) ct s1 = Some (ac_m G s - v)%Z)
    by (apply (Dec_some G key key64 hash L T pp st _ _ _ _ D F1 P1); destruct SO; lia).
  assert (D2 := Dec_none G key key64 hash L T pp st _ _ _ s2 D F2 P2 CV).
  assert (M : Miner1 G key H hex pp st t accts i j c s1 s2 = None).
  { unfold Miner1. fold s. rewrite PS, PR, !peqb_refl, VT. cbn [negb obind]. unfold UpdateAccount1. fold s. cbv zeta. fold ct. rewrite D1. cbn [obind].
    rewrite nth_upd_other by congruence. rewrite D2. reflexivity. }
  split; [exact M|]. unfold Miner1_ops. rewrite M, VT. unfold UpdateAccount1_ops. cbv zeta. fold s. fold ct. rewrite D1.
  rewrite (nth_upd_other accts i j) by congruence. rewrite D2, app_nil_r. rewrite nth_upd_same by exact Hi.
  set (s' := set_balance G s ct (ac_m G s - v)). unfold SaveAccount_ops.
  change (account_file G s') with (account_file G s).
  destruct (run_save d (account_file G s) (bytes s')) as [A B]. exists (bytes s'), s'. split; [exact A|].
  split; [|split; [reflexivity|exact B]]. rewrite <- (app_nil_r (bytes s')). apply C83_account_round_trip. exact ST.
Qed.
End Props.

(** ** One account file *)
Section One.
Variable G : ECGroup.
Variables g32 g65 : list N.
Hypothesis H65 : length g65 = 65%nat.
Hypothesis H32 : length g32 = 32%nat.
(** While it is being saved, up to the point where the secret key is written, nothing on the disk depends on the secret
    key: neither the one that was in the file before nor the one being saved.  Whatever reads the disk afterwards cannot
    recover it. *)
Theorem C114_key_lost_refuted : forall gb gp a a' d d' k f,
  ac_id G a = ac_id G a' -> ac_pk G a = ac_pk G a' ->
  (forall g, g <> account_file G a -> d g = d' g) ->
  (1 <= k <= 1 + 8 + length (ac_id G a) + length (write_point G gp (ac_pk G a)))%nat ->
  crash d (SaveAccount_ops G gb gp a) k f = crash d' (SaveAccount_ops G gb gp a') k f.
Proof.
  intros gb gp a a' d d' k f EI EP ED K. unfold SaveAccount_ops.
  assert (EF : account_file G a' = account_file G a) by (unfold account_file; rewrite EI; reflexivity). rewrite EF.
  destruct (crash_save d (account_file G a) (SaveAccount G gb gp a) k) as [A B].
  destruct (crash_save d' (account_file G a) (SaveAccount G gb gp a') k) as [A' B'].
  destruct (list_eq_dec N.eq_dec f (account_file G a)) as [->|N]; [|rewrite B, B' by exact N; apply ED; exact N].
  rewrite A, A'. destruct k as [|k]; [exfalso; apply (Nat.nle_succ_0 0); exact (proj1 K)|]. f_equal.
  unfold SaveAccount. rewrite <- EI, <- EP. rewrite !(app_assoc (write_string (ac_id G a))).
  set (x := write_string (ac_id G a) ++ write_point G gp (ac_pk G a)).
  assert (LX : (k <= length x)%nat).
  { unfold x, write_string, write_size. rewrite !app_length, le_bytes_length. clear - K. lia. }
  rewrite !(firstn_app k x). replace (k - length x)%nat with 0%nat by (clear - LX; lia). reflexivity.
Qed.

(** where the fields of an account file end *)
Definition id_end (a : Account G) : nat := 8 + length (ac_id G a).
Definition pk_end (a : Account G) : nat := id_end a + 65.
Definition sk_end (a : Account G) : nat := pk_end a + 32.
Definition ct_end (a : Account G) : nat := sk_end a + 130.
Definition m_end (a : Account G) : nat := ct_end a + 32.
Definition sn_end (a : Account G) : nat := m_end a + 32.
Lemma cut : forall n (x y : list N), (length x <= n)%nat -> firstn n (x ++ y) = x ++ firstn (n - length x) y.
Proof. clear. intros n x y L. rewrite firstn_app, firstn_all2 by exact L. reflexivity. Qed.
Lemma fetch_id : forall glen room old a r, account_storable G a -> (N.of_nat (length (ac_id G a)) <= room)%N ->
  FetchAccountS G glen room g65 g32 old (write_string (ac_id G a) ++ r) =
  (let '(pk, st) := get_point G g65 (ac_pk G old) (mkIfs r true) in
   let '(sk, st) := get_bigint g32 st in
   let '(ct, st) := T_read G g65 (ac_ct G old) st in
   let '(m, st) := get_bigint g32 st in
   let '(sn, st) := get_bigint g32 st in
   Some {| ac_id := ac_id G a; ac_pk := pk; ac_sk := sk; ac_ct := ct; ac_m := m; ac_sn := sn |}).
Proof.
  intros glen room old a r [[_ L] _] R. unfold FetchAccountS, get_string, write_string, write_size.
  rewrite <- app_assoc, read8_write by exact L. rewrite (proj2 (N.leb_le _ _) R), Nat2N.id.
  set (o := firstn (length (ac_id G a)) (ac_id G old) ++ repeat 0%N (length (ac_id G a) - length (ac_id G old))).
  assert (LO : length o = length (ac_id G a)) by (unfold o; rewrite app_length, firstn_length, repeat_length; clear; lia).
  rewrite <- LO at 1. rewrite fill_write by (symmetry; exact LO). reflexivity.
Qed.
Lemma id_length : forall a, length (write_string (ac_id G a)) = id_end a.
Proof. clear. intros a. unfold write_string, write_size, id_end. rewrite app_length, le_bytes_length. reflexivity. Qed.
Lemma wp_length : forall P, P <> inf G -> length (write_point G g65 P) = 65%nat.
Proof. clear. intros P N. unfold write_point. destruct (peqb_spec G P (inf G)); [contradiction|apply unc65_length]. Qed.
Lemma wb_length : forall z, (0 <= z < 2 ^ 256)%Z -> length (write_bigint g32 z) = 32%nat.
Proof. clear. intros z B. rewrite write_bigint_small by exact B. apply be_bytes_length. Qed.

Ltac cutoff n L := rewrite (cut n) by (rewrite L; clear; lia).
(** A file that ends early, once the identity is complete: FetchAccount returns, and every field that is complete in the
    file is right. *)
Theorem C114_cut_fields_partial : forall glen room old a n, account_storable G a -> (N.of_nat (length (ac_id G a)) <= room)%N ->
  (id_end a <= n)%nat ->
  exists b, FetchAccountS G glen room g65 g32 old (firstn n (SaveAccount G g32 g65 a)) = Some b /\
    ac_id G b = ac_id G a /\ ((pk_end a <= n)%nat -> ac_pk G b = ac_pk G a) /\ ((sk_end a <= n)%nat -> ac_sk G b = ac_sk G a) /\
    ((ct_end a <= n)%nat -> ac_ct G b = ac_ct G a) /\ ((m_end a <= n)%nat -> ac_m G b = ac_m G a) /\ ((sn_end a <= n)%nat -> b = a).
Proof.
  intros glen room old a n S R L0. pose proof S as [_ [T1 [T2 [[T3 T4] [T5 T6]]]]]. unfold SaveAccount, write_ct. rewrite <- !app_assoc.
  rewrite cut by (rewrite id_length; exact L0). rewrite fetch_id by assumption. rewrite id_length.
  unfold sn_end, m_end, ct_end, sk_end, pk_end. set (n0 := (n - id_end a)%nat).
  assert (E0 : n = (id_end a + n0)%nat) by (unfold n0; clear - L0; lia). clearbody n0. subst n. generalize (id_end a) as e. intros e. clear L0.
  destruct (Nat.le_gt_cases 65 n0) as [L1|L1].
  2:{ destruct (get_point G g65 _ _) as [P st1]. destruct (get_bigint g32 st1) as [x st2]. destruct (T_read G g65 _ st2) as [c st3].
      destruct (get_bigint g32 st3) as [y st4]. destruct (get_bigint g32 st4) as [z st5]. eexists. split; [reflexivity|].
      split; [reflexivity|]. clear - L1. repeat match goal with |- _ /\ _ => split end; intros; exfalso; lia. }
  rewrite cut by (rewrite wp_length by exact T1; exact L1). rewrite wp_length by exact T1.
  rewrite get_point_write by (try exact H65; exact T1).
  set (n1 := (n0 - 65)%nat). assert (E1 : n0 = (65 + n1)%nat) by (unfold n1; clear - L1; lia). clearbody n1. subst n0. clear L1.
  destruct (Nat.le_gt_cases 32 n1) as [L1|L1].
  2:{ destruct (get_bigint g32 _) as [x st2]. destruct (T_read G g65 _ st2) as [c st3].
      destruct (get_bigint g32 st3) as [y st4]. destruct (get_bigint g32 st4) as [z st5]. eexists. split; [reflexivity|].
      split; [reflexivity|]. split; [reflexivity|]. clear - L1. repeat match goal with |- _ /\ _ => split end; intros; exfalso; lia. }
  rewrite cut by (rewrite wb_length by exact T2; exact L1). rewrite wb_length by exact T2.
  rewrite (get_bigint_write g65 g32 H65 H32) by exact T2.
  set (n2 := (n1 - 32)%nat). assert (E1 : n1 = (32 + n2)%nat) by (unfold n2; clear - L1; lia). clearbody n2. subst n1. clear L1.
  destruct (Nat.le_gt_cases 130 n2) as [L1|L1].
  2:{ destruct (T_read G g65 _ _) as [c st3].
      destruct (get_bigint g32 st3) as [y st4]. destruct (get_bigint g32 st4) as [z st5]. eexists. split; [reflexivity|].
      do 3 (split; [reflexivity|]). clear - L1. repeat match goal with |- _ /\ _ => split end; intros; exfalso; lia. }
  rewrite cut by (rewrite wp_length by exact T3; clear - L1; lia). rewrite wp_length by exact T3.
  rewrite cut by (rewrite wp_length by exact T4; clear - L1; lia). rewrite wp_length by exact T4.
  unfold T_read. rewrite get_point_write by (try exact H65; exact T3). rewrite get_point_write by (try exact H65; exact T4).
  set (n3 := (n2 - 65 - 65)%nat). assert (E1 : n2 = (130 + n3)%nat) by (unfold n3; clear - L1; lia). clearbody n3. subst n2. clear L1.
  assert (EC : {| tX := tX G (ac_ct G a); tY := tY G (ac_ct G a) |} = ac_ct G a) by (destruct (ac_ct G a); reflexivity). rewrite EC.
  destruct (Nat.le_gt_cases 32 n3) as [L1|L1].
  2:{ destruct (get_bigint g32 _) as [y st4]. destruct (get_bigint g32 st4) as [z st5]. eexists. split; [reflexivity|].
      do 4 (split; [reflexivity|]). clear - L1. repeat match goal with |- _ /\ _ => split end; intros; exfalso; lia. }
  rewrite cut by (rewrite wb_length by exact T5; exact L1). rewrite wb_length by exact T5.
  rewrite (get_bigint_write g65 g32 H65 H32) by exact T5.
  set (n4 := (n3 - 32)%nat). assert (E1 : n3 = (32 + n4)%nat) by (unfold n4; clear - L1; lia). clearbody n4. subst n3. clear L1.
  destruct (Nat.le_gt_cases 32 n4) as [L1|L1].
  2:{ destruct (get_bigint g32 _) as [z st5]. eexists. split; [reflexivity|].
      do 5 (split; [reflexivity|]). clear - L1. intros; exfalso; lia. }
  rewrite <- (app_nil_r (write_bigint g32 (ac_sn G a))).
  rewrite cut by (rewrite wb_length by exact T6; exact L1). rewrite (get_bigint_write g65 g32 H65 H32) by exact T6.
  eexists. split; [reflexivity|]. do 5 (split; [reflexivity|]). destruct a; reflexivity.
Qed.
End One.

Lemma be_val_inj : forall l l', length l = length l' -> bytes_ok l -> bytes_ok l' -> be_val l = be_val l' -> l = l'.
Proof.
  intros l l' L B B' E. unfold be_val in E. assert (X : rev l = rev l').
  { rewrite <- (le_bytes_val (rev l)), <- (le_bytes_val (rev l')), E, !rev_length, L by (apply Forall_rev; assumption). reflexivity. }
  rewrite <- (rev_involutive l), X. apply rev_involutive.
Qed.
Lemma be_bytes_ok : forall n x, bytes_ok (be_bytes n x).
Proof. intros n x. apply Forall_rev. apply le_bytes_ok. Qed.
(** A file that lacks its last bytes is read without any sign of it, and the serial number comes out wrong, for some
    content of the uninitialised buffer. *)
Theorem C114_cut_unnoticed_refuted : forall G g65 glen room old a n, length g65 = 65%nat -> account_storable G a ->
  (N.of_nat (length (ac_id G a)) <= room)%N -> (m_end G a <= n < sn_end G a)%nat ->
  exists g32 b, length g32 = 32%nat /\ FetchAccountS G glen room g65 g32 old (firstn n (SaveAccount G g32 g65 a)) = Some b /\
    ac_sn G b <> ac_sn G a.
Proof.
  intros G g65 glen room old a n H65 S R [L0 L1].
  pose proof S as [_ [T1 [T2 [[T3 T4] [T5 T6]]]]].
  set (z := ac_sn G a). set (w := be_bytes 32 (Z.to_N z)).
  set (x := if N.eq_dec (last w 0%N) 0 then 1%N else 0%N).
  set (g32 := repeat x 32). exists g32.
  assert (H32 : length g32 = 32%nat) by (apply repeat_length).
  unfold SaveAccount, write_ct. rewrite <- !app_assoc.
  rewrite cut by (rewrite id_length; unfold m_end, ct_end, sk_end, pk_end in L0; lia). rewrite fetch_id by assumption. rewrite id_length.
  unfold sn_end, m_end, ct_end, sk_end, pk_end in L0, L1. set (n0 := (n - id_end G a)%nat).
  assert (B0 : (65 + 32 + 130 + 32 <= n0 < 65 + 32 + 130 + 32 + 32)%nat) by (unfold n0; lia). clearbody n0. clear L0 L1.
  rewrite cut by (rewrite wp_length by exact T1; lia). rewrite wp_length by exact T1. rewrite get_point_write by (try exact H65; exact T1).
  rewrite cut by (rewrite wb_length by exact T2; lia). rewrite wb_length by exact T2. rewrite (get_bigint_write g65 g32 H65 H32) by exact T2.
  rewrite cut by (rewrite wp_length by exact T3; lia). rewrite wp_length by exact T3.
  rewrite cut by (rewrite wp_length by exact T4; lia). rewrite wp_length by exact T4.
  unfold T_read. rewrite get_point_write by (try exact H65; exact T3). rewrite get_point_write by (try exact H65; exact T4).
  rewrite cut by (rewrite wb_length by exact T5; lia). rewrite wb_length by exact T5. rewrite (get_bigint_write g65 g32 H65 H32) by exact T5.
  set (n1 := (n0 - 65 - 32 - 65 - 65 - 32)%nat). assert (B1 : (n1 < 32)%nat) by (unfold n1; lia). clearbody n1. clear B0 n0.
  destruct (get_bigint g32 _) as [y st] eqn:E. eexists. split; [exact H32|]. split; [reflexivity|]. cbn [ac_sn]. intros EY. fold z in EY.
  rewrite write_bigint_small in E by exact T6. fold z in E. change 32%nat with BN_BYTE_LEN in w. fold w in E.
  unfold get_bigint, fill in E. cbn [good left_] in E.
  assert (LW : length w = 32%nat) by (apply be_bytes_length).
  rewrite firstn_length, LW in E. replace (Nat.min 32 (Nat.min n1 32)) with n1 in E by lia. rewrite firstn_firstn, Nat.min_id in E.
  assert (E' : BN_bin2bn (firstn n1 w ++ skipn n1 g32) = y) by congruence. clear E. rewrite EY in E'.
  assert (VW : BN_bin2bn w = z).
  { unfold BN_bin2bn, w. rewrite be_val_bytes; [destruct T6; unfold z in *; lia|]. rewrite pow_256_32. destruct T6. unfold z. lia. }
  rewrite <- VW in E'. unfold BN_bin2bn in E'. apply N2Z.inj in E'.
  (* the last bytes differ *)
  assert (BW : bytes_ok w) by (apply be_bytes_ok).
  assert (BG : bytes_ok g32) by (apply Forall_forall; intros u U; apply repeat_spec in U; subst u; unfold x; destruct (N.eq_dec _ _); reflexivity).
  assert (LE : firstn n1 w ++ skipn n1 g32 = w).
  { apply be_val_inj; [rewrite app_length, firstn_length, skipn_length; lia| | |exact E'].
    - apply Forall_app. split; [apply Forall_firstn; exact BW|apply Forall_skipn; exact BG].
    - exact BW. }
  assert (LL : last w 0%N = last g32 0%N).
  { rewrite <- LE. rewrite <- (firstn_skipn n1 g32) at 2.
    assert (NE : skipn n1 g32 <> []) by (intros X; apply (f_equal (@length N)) in X; rewrite skipn_length, H32 in X; cbn [length] in X; lia).
    destruct (exists_last NE) as [u [v EV]]. rewrite EV, !app_assoc, !last_last. reflexivity. }
  change (last g32 0%N) with x in LL. unfold x in LL. destruct (N.eq_dec (last w 0%N) 0) as [Q|Q]; [rewrite Q in LL; discriminate|contradiction].
Qed.

(** ** the hypotheses are met by concrete, non-trivial data: alice (11 coins) pays 3 to bob *)
Definition storableb (a : Account G4099) : bool :=
  P_okb (ac_pk _ a) && Z_okb (ac_sk _ a) && P_okb (tX _ (ac_ct _ a)) && P_okb (tY _ (ac_ct _ a)) && Z_okb (ac_m _ a) && Z_okb (ac_sn _ a).
Lemma storableb_ok : forall a, (bytes_ok (ac_id _ a) /\ N.of_nat (length (ac_id _ a)) < 2 ^ 64)%N -> storableb a = true -> account_storable G4099 a.
Proof.
  intros a L E. unfold storableb in E. repeat (apply andb_prop in E; let E2 := fresh "E" in destruct E as [E E2]).
  unfold account_storable, ct_ok. split; [exact L|]. repeat match goal with |- _ /\ _ => split end; solve [apply P_okb_ok; assumption|apply Z_okb_ok; assumption].
Qed.
Lemma bytes_1 : forall b, (b < 256)%N -> (bytes_ok [b] /\ N.of_nat (length [b]) < 2 ^ 64)%N.
Proof. intros b B. split; [constructor; [exact B|constructor]|reflexivity]. Qed.
Definition debited (t : CTx1 G4099) (m : Z) : Account G4099 :=
  set_balance G4099 alice (T_HomoSub G4099 (ac_ct _ alice) {| tX := nth 0 (tvX _ (c_tr _ t)) (inf G4099); tY := tmY _ (c_tr _ t) |}) m.
Definition credited (t : CTx1 G4099) (m : Z) : Account G4099 :=
  set_balance G4099 bob (T_HomoAdd G4099 (ac_ct _ bob) {| tX := nth 1 (tvX _ (c_tr _ t)) (inf G4099); tY := tmY _ (c_tr _ t) |}) m.
(** bob with so many coins that 3 more cannot be decrypted *)
Definition rich_bob : Account G4099 := CreateAccount G4099 toyH ap4099 [66%N] 4093 0 99.

Lemma paid : exists t, CreateCTx1 G4099 toyH toyhex ap4099 alice 3 (ac_pk G4099 bob) cr8 = Some t /\
  transfers G4099 ap4099 t 3 /\ c_pks _ t = ac_pk _ alice /\ c_pkr _ t = ac_pk _ bob /\ VerifyCTx1 G4099 toyH toyhex ap4099 t 5 = Some true /\
  account_storable G4099 (debited t 8) /\ account_storable G4099 (credited t 5).
Proof.
  assert (BA : balance_ok G4099 12 0 ap4099 alice) by (apply account_4099; [vm_compute; split; [discriminate|reflexivity]|lia]).
  destruct (C45_one_to_one G4099 toyH toyhex ap4099 alice 3 (ac_pk G4099 bob) cr8 params_4099_2 (proj1 BA)) as [t [E [TR [PS [PR VF]]]]];
    [split; cbn; lia|split; cbn; lia|].
  assert (X : match CreateCTx1 G4099 toyH toyhex ap4099 alice 3 (ac_pk G4099 bob) cr8 with
      | Some t => good4099 (range_transcript1 G4099 toyH ap4099 t) (c_bp G4099 t) && storableb (debited t 8) && storableb (credited t 5)
      | None => false end = true) by (vm_compute; reflexivity).
  rewrite E in X. apply andb_prop in X. destruct X as [X X3]. apply andb_prop in X. destruct X as [X X2].
  exists t. split; [exact E|]. split; [exact TR|]. split; [exact PS|]. split; [exact PR|]. split; [apply VF; apply good_4099; exact X|].
  split; (apply storableb_ok; [apply bytes_1; reflexivity|assumption]).
Qed.
Local Notation toy_ops := (Miner1_ops G4099 key4099 toyH toyhex (comp33 G4099) [] []).
Example C114_run : forall d old, d (account_file G4099 bob) = Some (SaveAccount G4099 [] [] bob) ->
  exists st t k sb rb s r, let ops := toy_ops ap4099 st t [alice; bob; carol] 0 1 5 round_robin round_robin in
    crash d ops k (account_file G4099 alice) = Some sb /\ crash d ops k (account_file G4099 bob) = Some rb /\
    FetchAccount G4099 old sb = Some s /\ FetchAccount G4099 old rb = Some r /\ (ac_m _ s + ac_m _ r = 11 + 2 - 3)%Z.
Proof.
  intros d old ED. destruct ready_4099 as [st D]. destruct paid as [t [E [TR [PS [PR [VT [S1 S2]]]]]]].
  assert (BA : balance_ok G4099 12 0 ap4099 alice) by (apply account_4099; [vm_compute; split; [discriminate|reflexivity]|lia]).
  assert (BB : balance_ok G4099 12 0 ap4099 bob) by (apply account_4099; [vm_compute; split; [discriminate|reflexivity]|lia]).
  assert (BC : balance_ok G4099 12 0 ap4099 carol) by (apply account_4099; [vm_compute; split; [discriminate|reflexivity]|lia]).
  assert (BO : Forall (balance_ok G4099 12 0 ap4099) [alice; bob; carol]) by exact (Forall_cons _ BA (Forall_cons _ BB (Forall_cons _ BC (Forall_nil _)))).
  destruct (C46_accepted_moves G4099 key4099 key4099_64 toyH toyhex hash4099 12 0 ap4099 st t [alice; bob; carol] 0 1 5 round_robin round_robin 3
    D fair_4099 fair_4099 ltac:(cbn; lia) ltac:(cbn; lia) BO TR) as [accts1 [M1 [L1 [B1 S]]]];
    [vm_compute; split; discriminate|vm_compute; discriminate|intros _; vm_compute; reflexivity|exact PS|exact PR|exact VT|].
  assert (SA : account_storable G4099 (nth 0 accts1 (acct0 G4099))).
  { destruct (accepted_ops G4099 key4099 toyH toyhex (comp33 G4099) [] [] ap4099 st t [alice; bob; carol] 0 1 5 round_robin round_robin accts1
      ltac:(discriminate) ltac:(cbn; lia) ltac:(cbn; lia) M1) as [_ [_ [_ [[m EM] _]]]].
    destruct (S 0%nat) as [_ X]. rewrite EM in X |- *. cbn [set_balance ac_m nth Nat.eqb] in X. change (m = 11 - 3 + 0)%Z in X. subst m. exact S1. }
  assert (SB : account_storable G4099 bob) by (apply storableb_ok; [apply bytes_1; reflexivity|vm_compute; reflexivity]).
  destruct (C114_between_refuted G4099 key4099 key4099_64 toyH toyhex (comp33 G4099) [] [] hash4099 12 0 ap4099 st t [alice; bob; carol] 0 1 5
    round_robin round_robin 3 accts1 d old D fair_4099 fair_4099 ltac:(discriminate) ltac:(cbn; lia) ltac:(cbn; lia) BO TR)
    as [k [sb [rb [s [r [A1 [A2 [_ [A3 [A4 A5]]]]]]]]]]; [vm_compute; split; discriminate|exact M1|discriminate|exact SB|exact SA|exact ED|].
  exists st, t, k, sb, rb, s, r. split; [exact A1|]. split; [exact A2|]. split; [exact A3|]. split; [exact A4|exact A5].
Qed.
Example C114_overflow_run : forall d old, exists st t sb s,
  let ops := toy_ops ap4099 st t [alice; rich_bob; carol] 0 1 5 round_robin round_robin in
  Miner1 G4099 key4099 toyH toyhex ap4099 st t [alice; rich_bob; carol] 0 1 5 round_robin round_robin = None /\
  run d ops (account_file G4099 alice) = Some sb /\ FetchAccount G4099 old sb = Some s /\ ac_m _ s = 8%Z /\
  run d ops (account_file G4099 rich_bob) = d (account_file G4099 rich_bob).
Proof.
  intros d old. destruct ready_4099 as [st D]. destruct paid as [t [E [TR [PS [PR [VT [S1 S2]]]]]]].
  assert (BA : balance_ok G4099 12 0 ap4099 alice) by (apply account_4099; [vm_compute; split; [discriminate|reflexivity]|lia]).
  assert (BB : balance_ok G4099 12 0 ap4099 rich_bob) by (apply account_4099; [vm_compute; split; [discriminate|reflexivity]|lia]).
  assert (BC : balance_ok G4099 12 0 ap4099 carol) by (apply account_4099; [vm_compute; split; [discriminate|reflexivity]|lia]).
  assert (BO : Forall (balance_ok G4099 12 0 ap4099) [alice; rich_bob; carol]) by exact (Forall_cons _ BA (Forall_cons _ BB (Forall_cons _ BC (Forall_nil _)))).
  destruct (C114_overflow_refuted G4099 key4099 key4099_64 toyH toyhex (comp33 G4099) [] [] hash4099 12 0 ap4099 st t [alice; rich_bob; carol] 0 1 5
    round_robin round_robin 3 d old D fair_4099 fair_4099 ltac:(discriminate) ltac:(cbn; lia) ltac:(cbn; lia) BO TR)
    as [A [sb [s [A1 [A2 [A3 A4]]]]]];
    [vm_compute; split; discriminate|vm_compute; split; [discriminate|reflexivity]|exact PS|exact PR|exact VT|discriminate|exact S1|].
  exists st, t, sb, s. split; [exact A|]. split; [exact A1|]. split; [exact A2|]. split; [exact A3|]. apply A4. discriminate.
Qed.
(** the account file of alice without its last 5 bytes *)
Example C114_cut_run : (m_end G4099 alice <= sn_end G4099 alice - 5 < sn_end G4099 alice)%nat /\ account_storable G4099 alice.
Proof. split; [vm_compute; lia|exact C83_hypotheses]. Qed.

Print Assumptions C114_order_partial.
Print Assumptions C114_rejected.
Print Assumptions C114_finished.
Print Assumptions C114_between_refuted.
Print Assumptions C114_overflow_refuted.
Print Assumptions C114_key_lost_refuted.
Print Assumptions C114_cut_fields_partial.
Print Assumptions C114_cut_unnoticed_refuted.

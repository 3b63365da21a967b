(** Properties C104 (parameter files) and C105 (seeds in files). *)
From Coq Require Import NArith ZArith List Bool Arith Lia.
From Coq Require Import ZifyBool ZifyNat ZifyN.
From Verif.Base Require Import Words ListX.
From Verif.Crypto Require Import BigIntModel BigIntProofs BlockModel AESModel PRGModel AESProofs AESKeyProofs.
From Verif.Group Require Import ECModel ECProofs ZqGroup.
From Verif.Param Require Import ParamModel ParamSpec ParamProofs.
Import ListNotations.
Local Open Scope N_scope.

Lemma digit_iff : forall c, is_digit c = true <-> ascii_digit c.
Proof. intros c. unfold is_digit, ascii_digit. lia. Qed.
Lemma digit_not : forall c, ~ ascii_digit c -> is_digit c = false.
Proof. intros c H. destruct (is_digit c) eqn:E; [|reflexivity]. apply digit_iff in E. contradiction. Qed.
Lemma pow2_u64 : forall n p, pow2 n = Some p -> u64 p /\ n < 64.
Proof.
  intros n p H. unfold pow2 in H. destruct (N.ltb_spec n 64); [|discriminate]. assert (E : 2 ^ n = p) by congruence. subst p. split; [|assumption].
  unfold u64. apply N.pow_lt_mono_r; lia.
Qed.
Lemma small_u64 : forall n, n < 64 -> u64 n.
Proof. intros n H. unfold u64. eapply N.lt_trans; [exact H|reflexivity]. Qed.

Lemma read_char_0 : forall old r, read_char old (mkIfs (0 :: r) true) = (0, mkIfs r true).
Proof. reflexivity. Qed.

Ltac step := first [rewrite read8_write by assumption | rewrite read8_end by assumption].

Section Props.
Variable G : ECGroup.
Variable gb : list N.
Hypothesis Hgb : length gb = 65%nat.


(** the five numbers of an mqRPMT *)
Definition mq_ok (p : MQPP) : Prop := u64 (mq_stat p) /\ u64 (mq_logS p) /\ u64 (mq_S p) /\ u64 (mq_logC p) /\ u64 (mq_C p).
Lemma mq_read : forall old p r, mq_ok p -> MQ_read old (mkIfs (MQ_write p ++ r) true) = (p, mkIfs r true).
Proof.
  intros old p r [A [B [C [D E]]]]. unfold MQ_read, MQ_write. rewrite <- !app_assoc. do 5 step. destruct p; reflexivity.
Qed.
Lemma mq_setup_ok : forall stat a b p, u64 stat -> MQ_Setup stat a b = Some p -> mq_ok p /\ mq_stat p = stat.
Proof.
  intros stat a b p Hs H. unfold MQ_Setup in H. destruct (pow2 a) as [x|] eqn:EA; [|discriminate]. destruct (pow2 b) as [y|] eqn:EB; [|discriminate].
  destruct (pow2_u64 _ _ EA), (pow2_u64 _ _ EB). assert (E : mkMQ stat a x b y = p) by congruence. subst p. split; [|reflexivity].
  repeat split; cbn; try assumption; apply small_u64; assumption.
Qed.

(** ** C104: what holds *)
Theorem C104_mqrpmt : forall stat logS logC p, u64 stat -> MQ_Setup stat logS logC = Some p -> found_again any MQ_write MQ_read p.
Proof.
  intros stat logS logC p Hs H old _. destruct (mq_setup_ok _ _ _ _ Hs H) as [OK _]. unfold fetch.
  rewrite <- (app_nil_r (MQ_write p)), mq_read by exact OK. reflexivity.
Qed.
Theorem C104_cwprf_psi : forall comp stat logS logR p, u64 comp -> u64 stat -> CW_Setup comp stat logS logR = Some p ->
  found_again any CW_write CW_read p.
Proof.
  intros comp stat logS logR p Hc Hs H old _. unfold CW_Setup in H. destruct (pow2 logS) as [x|] eqn:EA; [|discriminate]. destruct (pow2 logR) as [y|] eqn:EB; [|discriminate].
  destruct (pow2_u64 _ _ EA) as [U1 L1], (pow2_u64 _ _ EB) as [U2 L2]. apply small_u64 in L1, L2.
  assert (U : u64 (wrap64 (stat + logS + logR + 7) / 8)).
  { unfold u64. apply N.div_lt_upper_bound; [discriminate|]. apply N.lt_le_trans with (2 ^ 64); [apply N.mod_lt; discriminate|discriminate]. }
  assert (E : mkCW stat comp logS x logR y (wrap64 (stat + logS + logR + 7) / 8) = p) by congruence. subst p.
  unfold fetch, CW_read, CW_write. cbn [cw_stat cw_comp cw_logS cw_S cw_logR cw_R cw_trunc].
  revert U. generalize (wrap64 (stat + logS + logR + 7) / 8). intros t U. do 7 step. reflexivity.
Qed.
Theorem C104_base_ot : forall old, fetch (NPOT_read G gb) old (NPOT_write G gb (pgen G)) = pgen G.
Proof.
  intros old. unfold fetch, NPOT_read, NPOT_write. rewrite <- (app_nil_r (write_point G gb (pgen G))), get_point_write by (try exact Hgb; apply pgen_finite). reflexivity.
Qed.
(** the parameters of an OT extension, when [r] follows in the file *)
Lemma ote_read : forall old n r, u64 n -> no_digit r ->
  OTE_read G gb old (mkIfs (OTE_write G gb (mkOTE G 0 (pgen G) n) ++ r) true) = (mkOTE G 0 (pgen G) n, mkIfs r (nonempty r)).
Proof.
  intros old n r Hn Hr. unfold OTE_read, OTE_write, NPOT_write, NPOT_read. cbn [malicious baseOT BASE_LEN]. rewrite <- !app_assoc.
  rewrite get_point_write by (try exact Hgb; apply pgen_finite). cbn [app]. rewrite read_char_0. rewrite read_dec_write by assumption. reflexivity.
Qed.
Theorem C104_iknp : forall len, u64 len -> found_again any (OTE_write G gb) (OTE_read G gb) (IKNP_Setup G len).
Proof.
  intros len H old _. unfold fetch, IKNP_Setup. rewrite <- (app_nil_r (OTE_write G gb _)), ote_read by (try exact I; exact H). reflexivity.
Qed.
Theorem C104_alsz : forall len, found_again any (OTE_write G gb) (OTE_read G gb) (ALSZ_Setup G len).
Proof.
  intros len old _. unfold fetch, ALSZ_Setup. rewrite <- (app_nil_r (OTE_write G gb _)), ote_read by (try exact I; reflexivity). reflexivity.
Qed.

(** ** the composed protocols *)
Definition pso_ok (p : PSOPP G) (stat : N) : Prop :=
  ote_part G p = ALSZ_Setup G 128 /\ mq_ok (mqrpmt_part G p) /\ mq_stat (mqrpmt_part G p) = stat /\
  u64 (ps_logS G p) /\ u64 (ps_logR G p) /\ u64 (ps_S G p) /\ u64 (ps_R G p).
Lemma pso_setup_ok : forall comp stat a b p, u64 stat -> PSO_Setup G comp stat a b = Some p -> pso_ok p stat.
Proof.
  intros comp stat a b p Hs H. unfold PSO_Setup in H. destruct (MQ_Setup stat b a) as [m|] eqn:EM; [|discriminate].
  destruct (pow2 a) as [x|] eqn:EA; [|discriminate]. destruct (pow2 b) as [y|] eqn:EB; [|discriminate].
  destruct (mq_setup_ok _ _ _ _ Hs EM). destruct (pow2_u64 _ _ EA) as [? L1], (pow2_u64 _ _ EB) as [? L2]. apply small_u64 in L1, L2.
  assert (E : mkPSO G (ALSZ_Setup G comp) m a b x y = p) by congruence. subst p. unfold pso_ok. cbn. repeat split; assumption || apply H0.
Qed.
Lemma mq_write_head : forall p r, exists t, MQ_write p ++ r = (mq_stat p mod 256) :: t.
Proof. intros p r. unfold MQ_write. change (le_bytes 8 (mq_stat p)) with ((mq_stat p mod 256) :: le_bytes 7 (mq_stat p / 256)). cbn [app]. eexists. reflexivity. Qed.
Lemma pso_read : forall old p stat r, pso_ok p stat -> ~ ascii_digit (stat mod 256) ->
  PSO_read G gb old (mkIfs (PSO_write G gb p ++ r) true) = (p, mkIfs r true).
Proof.
  intros old p stat r [A [B [C [D [E [F H]]]]]] ND. unfold PSO_read, PSO_write. rewrite A, <- !app_assoc. unfold ALSZ_Setup.
  match goal with |- context [MQ_write ?m ++ ?t] => destruct (mq_write_head m t) as [tl Et] end.
  rewrite ote_read; [|reflexivity|rewrite Et, C; cbn; apply digit_not; exact ND].
  replace (nonempty _) with true by (rewrite Et; reflexivity). rewrite mq_read by exact B. do 4 step. destruct p. cbn in *. rewrite A. reflexivity.
Qed.
Lemma pso_digit : forall old p stat r, pso_ok p stat -> ascii_digit (stat mod 256) ->
  BASE_LEN G (ote_part G (fst (PSO_read G gb old (mkIfs (PSO_write G gb p ++ r) true)))) <> 128.
Proof.
  intros old p stat r [A [B [C _]]] DG. unfold PSO_read, PSO_write. rewrite A, <- !app_assoc. unfold ALSZ_Setup, OTE_read, OTE_write, NPOT_write, NPOT_read.
  cbn [malicious baseOT BASE_LEN]. rewrite <- !app_assoc. rewrite get_point_write by (try exact Hgb; apply pgen_finite).
  cbn [app]. rewrite read_char_0.
  match goal with |- context [MQ_write ?m ++ ?t] => destruct (mq_write_head m t) as [tl Et] end. rewrite Et, C.
  pose proof (read_dec_digit (BASE_LEN G (ote_part G old)) 128 (stat mod 256) tl ltac:(reflexivity) (proj2 (digit_iff _) DG)) as K. cbv zeta in K.
  destruct (read_dec _ _) as [n st]. cbn [fst] in K.
  destruct (MQ_read _ _). destruct (read_raw 8 _ _). destruct (read_raw 8 _ _). destruct (read_raw 8 _ _). destruct (read_raw 8 _ _). cbn [fst ote_part BASE_LEN]. lia.
Qed.
(** PSI, PSI-card and PSU: the parameters are found again exactly when the low byte of the statistical security parameter is not
    the code of a digit *)
Theorem C104_pso_partial : forall comp stat logS logR p, u64 stat -> PSO_Setup G comp stat logS logR = Some p -> ~ ascii_digit (stat mod 256) ->
  found_again any (PSO_write G gb) (PSO_read G gb) p.
Proof.
  intros comp stat logS logR p Hs H ND old _. unfold fetch. rewrite <- (app_nil_r (PSO_write G gb p)).
  rewrite (pso_read old p stat [] (pso_setup_ok _ _ _ _ _ Hs H) ND). reflexivity.
Qed.
Theorem C104_pso_refuted : forall comp stat logS logR p old, u64 stat -> PSO_Setup G comp stat logS logR = Some p -> ascii_digit (stat mod 256) ->
  fetch (PSO_read G gb) old (PSO_write G gb p) <> p.
Proof.
  intros comp stat logS logR p old Hs H DG E. pose proof (pso_setup_ok _ _ _ _ _ Hs H) as OK. apply (pso_digit old p stat [] OK DG).
  rewrite app_nil_r. unfold fetch in E. rewrite E, (proj1 OK). reflexivity.
Qed.
Theorem C104_card_sum_partial : forall comp stat logS logR ls lv p, u64 stat -> u64 ls -> u64 lv -> SUM_Setup G comp stat logS logR ls lv = Some p ->
  ~ ascii_digit (stat mod 256) -> found_again any (SUM_write G gb) (SUM_read G gb) p.
Proof.
  intros comp stat logS logR ls lv p Hs H1 H2 H ND old _. unfold SUM_Setup in H. destruct (PSO_Setup G comp stat logS logR) as [q|] eqn:EQ; [|discriminate].
  destruct (ls mod 8 =? 0); [|discriminate]. assert (E : mkSUM G q ls lv = p) by congruence. subst p. unfold fetch, SUM_read, SUM_write. cbn [sum_pso LOG_SUM_BOUND LOG_VALUE_BOUND].
  rewrite (pso_read (sum_pso G old) q stat _ (pso_setup_ok _ _ _ _ _ Hs EQ) ND). do 2 step. reflexivity.
Qed.
Theorem C104_card_sum_refuted : forall comp stat logS logR ls lv p old, u64 stat -> SUM_Setup G comp stat logS logR ls lv = Some p ->
  ascii_digit (stat mod 256) -> fetch (SUM_read G gb) old (SUM_write G gb p) <> p.
Proof.
  intros comp stat logS logR ls lv p old Hs H DG E. unfold SUM_Setup in H. destruct (PSO_Setup G comp stat logS logR) as [q|] eqn:EQ; [|discriminate].
  destruct (ls mod 8 =? 0); [|discriminate]. assert (E' : mkSUM G q ls lv = p) by congruence. subst p.
  pose proof (pso_setup_ok _ _ _ _ _ Hs EQ) as OK. unfold fetch, SUM_read, SUM_write in E. cbn [sum_pso LOG_SUM_BOUND LOG_VALUE_BOUND] in E.
  apply (pso_digit (sum_pso G old) q stat (le_bytes 8 ls ++ le_bytes 8 lv) OK DG).
  destruct (PSO_read _ _ _ _) as [q' st]. destruct (read_raw 8 _ _). destruct (read_raw 8 _ _). cbn [fst] in *.
  assert (Q : q' = q) by congruence. rewrite Q, (proj1 OK). reflexivity.
Qed.
(** Private-ID: raw bytes, the parameters of the PSU, four numbers *)
Theorem C104_private_id_partial : forall comp stat logS logR psu bytes v, u64 stat -> PSO_Setup G comp stat logS logR = Some psu -> Forall u64 v ->
  ~ ascii_digit (stat mod 256) ->
  found_again (fun old => length (oprf_bytes G old) = length bytes /\ length (pid_sizes G old) = length v) (PID_write G gb) (PID_read G gb) (mkPID G bytes psu v).
Proof.
  intros comp stat logS logR psu bytes v Hs H Hv ND old [L1 L2]. unfold fetch, PID_read, PID_write. cbn [oprf_bytes psu_part pid_sizes].
  rewrite fill_write by congruence. rewrite (pso_read (psu_part G old) psu stat _ (pso_setup_ok _ _ _ _ _ Hs H) ND).
  rewrite <- (app_nil_r (sizes_write v)), sizes_write_read by assumption. reflexivity.
Qed.
Theorem C104_private_id_refuted : forall comp stat logS logR psu bytes v old, u64 stat -> PSO_Setup G comp stat logS logR = Some psu ->
  length (oprf_bytes G old) = length bytes -> ascii_digit (stat mod 256) ->
  fetch (PID_read G gb) old (PID_write G gb (mkPID G bytes psu v)) <> mkPID G bytes psu v.
Proof.
  intros comp stat logS logR psu bytes v old Hs H L1 DG E. pose proof (pso_setup_ok _ _ _ _ _ Hs H) as OK. unfold fetch, PID_read, PID_write in E.
  cbn [oprf_bytes psu_part pid_sizes] in E. rewrite fill_write in E by congruence.
  apply (pso_digit (psu_part G old) psu stat (sizes_write v) OK DG). destruct (PSO_read _ _ _ _) as [q' st]. destruct (sizes_read _ _). cbn [fst] in *.
  assert (Q : q' = psu) by congruence. rewrite Q, (proj1 OK). reflexivity.
Qed.

End Props.

(** ** DDH-OPRF: the two numbers run together *)
Theorem C104_ddh_oprf_refuted : forall old, fetch DDH_read old (DDH_write DDH_Setup) = mkDDH 3232 (dd_RANGE_SIZE old).
Proof. intros old. reflexivity. Qed.
(** whatever the sizes: the key size is wrong and the range size is not touched *)
Theorem C104_ddh_oprf_never : forall k r old, 0 < k < 2 ^ 64 - 1 -> u64 r ->
  let p := fetch DDH_read old (DDH_write (mkDDH k r)) in dd_KEY_SIZE p <> k /\ dd_RANGE_SIZE p = dd_RANGE_SIZE old.
Proof.
  intros k r old Hk Hr p. subst p. unfold fetch, DDH_read, DDH_write. cbn [dd_KEY_SIZE dd_RANGE_SIZE].
  assert (Uk : u64 k) by (unfold u64; lia). destruct (dec_spec k Uk) as [A [B C]]. destruct (dec_spec r Hr) as [A' [B' C']].
  destruct (dec k) as [|d l] eqn:E; [congruence|]. cbn [app]. rewrite read_dec_digits by (inversion A; assumption).
  change (d :: l ++ dec r) with ((d :: l) ++ dec r). rewrite span_all by exact A. rewrite <- (app_nil_r (dec r)), span_all by exact A'. cbn [span fst snd].
  rewrite app_nil_r, digits_val_app, C. pose proof (digits_val_10 (dec r) k B') as K.
  destruct (digits_val k (dec r) <? 2 ^ 64); cbn [nonempty read_dec good fst dd_KEY_SIZE dd_RANGE_SIZE]; split; try reflexivity; lia.
Qed.

(** ** C105: seeds *)
Definition whole_key (k : Key) : Prop := length (roundkey k) = 11%nat /\ Forall (fun b => b < 2 ^ 128) (roundkey k) /\ u64 (N.of_nat (ROUND_NUM k)).
Definition seed_fits (s : Seed) : Prop := length (roundkey (aes_key s)) = 11%nat.
Lemma key_write_head : forall k r, whole_key k -> exists t, Key_write k ++ r = (hd 0 (roundkey k) mod 256) :: t.
Proof.
  intros [rk n] r [L _]. cbn [roundkey ROUND_NUM] in *. destruct rk as [|b rk]; [discriminate|]. unfold Key_write. cbn [roundkey blocks_write hd].
  change (le_bytes 16 b) with ((b mod 256) :: le_bytes 15 (b / 256)). cbn [app]. eexists. reflexivity.
Qed.
Lemma key_read : forall old k r, whole_key k -> length (roundkey old) = 11%nat -> Key_read old (mkIfs (Key_write k ++ r) true) = (k, mkIfs r true).
Proof.
  intros old k r [L [F U]] Lo. unfold Key_read, Key_write. rewrite <- app_assoc, blocks_write_read by (congruence || assumption). step.
  rewrite Nat2N.id. destruct k; reflexivity.
Qed.
Lemma seed_read : forall old s r, u64 (counter s) -> whole_key (aes_key s) -> seed_fits old -> ~ ascii_digit (hd 0 (roundkey (aes_key s)) mod 256) ->
  Seed_read old (mkIfs (Seed_write s ++ r) true) = (s, mkIfs r true).
Proof.
  intros old s r U K L ND. unfold Seed_read, Seed_write. rewrite <- app_assoc. destruct (key_write_head (aes_key s) r K) as [t Et].
  rewrite read_dec_write; [|exact U|rewrite Et; apply digit_not; exact ND]. replace (nonempty _) with true by (rewrite Et; reflexivity).
  rewrite key_read by assumption. destruct s; reflexivity.
Qed.
Lemma seed_found : forall s, u64 (counter s) -> whole_key (aes_key s) -> ~ ascii_digit (hd 0 (roundkey (aes_key s)) mod 256) ->
  found_again seed_fits Seed_write Seed_read s.
Proof.
  intros s U K ND old F. unfold fetch. rewrite <- (app_nil_r (Seed_write s)), seed_read by assumption. reflexivity.
Qed.
Lemma seed_counter : forall s old, 0 < counter s < 2 ^ 64 - 1 -> whole_key (aes_key s) -> ascii_digit (hd 0 (roundkey (aes_key s)) mod 256) ->
  counter (fetch Seed_read old (Seed_write s)) <> counter s.
Proof.
  intros s old U K DG. unfold fetch, Seed_read, Seed_write. destruct (key_write_head (aes_key s) [] K) as [t Et]. rewrite app_nil_r in Et. rewrite Et.
  pose proof (read_dec_digit (counter old) (counter s) _ t ltac:(unfold u64; lia) (proj2 (digit_iff _) DG)) as R. cbv zeta in R.
  destruct (read_dec _ _) as [n st]. destruct (Key_read _ _). cbn [fst counter] in *. lia.
Qed.
Lemma seed_short : forall s old, u64 (counter s) -> whole_key (aes_key s) -> seed_fits old -> ascii_digit (hd 0 (roundkey (aes_key s)) mod 256) ->
  good (snd (Seed_read old (mkIfs (Seed_write s) true))) = false.
Proof.
  intros s old U K L DG. destruct (good _) eqn:GD; [|reflexivity]. exfalso. unfold Seed_read, Seed_write in GD.
  destruct (key_write_head (aes_key s) [] K) as [t Et]. rewrite app_nil_r in Et.
  assert (LT : length (Key_write (aes_key s)) = 184%nat).
  { unfold Key_write. rewrite app_length, le_bytes_length, blocks_write_length. destruct K as [K _]. rewrite K. reflexivity. }
  assert (LS : (length (left_ (snd (read_dec (counter old) (mkIfs (dec (counter s) ++ Key_write (aes_key s)) true)))) < 184)%nat).
  { rewrite Et in *. destruct (dec_spec (counter s) U) as [A [B C]]. destruct (dec (counter s)) as [|d l] eqn:E; [congruence|]. cbn [app].
    rewrite read_dec_digits by (inversion A; assumption). match goal with |- context [d :: l ++ ?x] => change (d :: l ++ x) with ((d :: l) ++ x) end.
    rewrite span_all by exact A. cbn [span]. rewrite (proj2 (digit_iff _) DG). pose proof (span_length is_digit t) as SL.
    destruct (span is_digit t) as [ds rr]. cbn [fst snd length] in *. destruct (_ <? _); cbn [snd left_]; lia. }
  destruct (read_dec _ _) as [c st]. cbn [snd] in LS. unfold Key_read in GD.
  pose proof (blocks_read_short (roundkey (aes_key old)) st) as S1. destruct (blocks_read _ st) as [ks st1]. cbn [snd] in S1.
  pose proof (read_raw_short 8 (N.of_nat (ROUND_NUM (aes_key old))) st1) as S2. destruct (read_raw 8 _ st1) as [n st2]. cbn [snd] in S2, GD.
  destruct (S2 GD) as [G1 E1]. destruct (S1 G1) as [G2 E2]. unfold seed_fits in L. rewrite L in E2. lia.
Qed.

(** The seeds a program has: made by SetSeed from a salt (given, or drawn from the random device) and an id, with any counter
    that drawing from it has led to. *)
Definition seed_of (salt id c : N) : Seed := mkSeed c (aes_key (ReSeed salt id)).
(** the first byte of its key *)
Definition first_byte (salt id : N) : N := N.lxor salt id mod 256.
Lemma seed_of_ok : forall salt id c, blk salt -> u64 id ->
  whole_key (aes_key (seed_of salt id c)) /\ hd 0 (roundkey (aes_key (seed_of salt id c))) mod 256 = first_byte salt id.
Proof.
  intros salt id c B U. unfold seed_of, ReSeed, first_byte. cbn [aes_key counter].
  replace (MakeBlock 0 id) with id by reflexivity.
  assert (BX : blk (N.lxor salt id)) by (apply lxor_lt; [exact B|eapply N.lt_trans; [exact U|reflexivity]]).
  destruct (GenEncKey_ok _ BX) as [R [L F]]. split; [split; [exact L|]; split; [exact F|rewrite R; reflexivity]|]. reflexivity.
Qed.
Theorem C105_seed_partial : forall salt id c, blk salt -> u64 id -> u64 c -> ~ ascii_digit (first_byte salt id) ->
  found_again seed_fits Seed_write Seed_read (seed_of salt id c).
Proof.
  intros salt id c B U C ND. destruct (seed_of_ok salt id c B U) as [K H]. apply seed_found; [exact C|exact K|rewrite H; exact ND].
Qed.
(** When the first byte of the key is the code of a digit: the counter comes back wrong unless it was 0, and in any case the file
    ends before the key is complete, which sets the stream's error flag. *)
Theorem C105_seed_refuted : forall salt id c old, blk salt -> u64 id -> c < 2 ^ 64 - 1 -> seed_fits old -> ascii_digit (first_byte salt id) ->
  (0 < c -> counter (fetch Seed_read old (Seed_write (seed_of salt id c))) <> c) /\
  good (snd (Seed_read old (mkIfs (Seed_write (seed_of salt id c)) true))) = false.
Proof.
  intros salt id c old B U C F DG. destruct (seed_of_ok salt id c B U) as [K H]. rewrite <- H in DG. split.
  - intros P. apply (seed_counter (seed_of salt id c) old); [cbn [seed_of counter]; lia|exact K|exact DG].
  - apply seed_short; [unfold u64; cbn [seed_of counter]; lia|exact K|exact F|exact DG].
Qed.

(** ** OTE-OPRF: the seed is a fixed one whose first byte is 'a' *)
Definition oo_fits (G : ECGroup) (p : OOPP G) : Prop := length (oo_sizes G p) = 8%nat /\ seed_fits (common_seed G p).
Theorem C104_ote_oprf : forall G gb ks logn stat p, length gb = 65%nat -> u64 ks -> stat < 2 ^ 63 -> OO_Setup G ks logn stat = Some p ->
  found_again (oo_fits G) (OO_write G gb) (OO_read G gb) p.
Proof.
  intros G gb ks logn stat p Hgb Hk Hs H old [F1 F2]. unfold OO_Setup in H. destruct (N.ltb_spec logn 31) as [L|L]; [|discriminate].
  match type of H with Some ?x = _ => assert (E : x = p) by congruence end. clear H. subst p. unfold fetch, OO_read, OO_write. cbn [oo_sizes common_seed npot_part].
  assert (P2 : forall n, n < 31 -> u64 (2 ^ n)) by (intros n Hn; unfold u64; apply N.pow_lt_mono_r; lia).
  rewrite sizes_write_read; [|exact F1|].
  - destruct (seed_of_ok fixed_seed 0 0 ltac:(reflexivity) ltac:(reflexivity)) as [K HD].
    rewrite (seed_read (common_seed G old) (ReSeed fixed_seed 0)); [|reflexivity|exact K|exact F2|].
    + unfold NPOT_read, NPOT_write. rewrite <- (app_nil_r (write_point G gb (pgen G))), get_point_write by (try exact Hgb; apply pgen_finite). reflexivity.
    + change (aes_key (ReSeed fixed_seed 0)) with (aes_key (seed_of fixed_seed 0 0)). rewrite HD. unfold ascii_digit. vm_compute. intros [_ A]. apply A. reflexivity.
  - assert (U31 : forall n, n < 1000 -> u64 n) by (intros n Hn; unfold u64; eapply N.lt_trans; [exact Hn|reflexivity]).
    repeat apply Forall_cons; try apply Forall_nil.
    + exact Hk.
    + unfold u64. apply N.div_lt_upper_bound; [discriminate|]. change (2 ^ 63) with 9223372036854775808 in Hs. change (2 ^ 64) with 18446744073709551616. lia.
    + unfold u64. eapply N.lt_trans; [exact Hs|reflexivity].
    + apply P2. exact L.
    + apply P2. exact L.
    + apply U31. lia.
    + repeat match goal with |- context [if ?b then _ else _] => destruct b end; reflexivity.
    + destruct (logn <? 10); [|reflexivity]. apply P2. apply N.div_lt_upper_bound; lia.
Qed.

(** ** ADCP: the public parameters of the payment system.  The vectors of generators are resized before they are read. *)
Section ADCPFile.
Variable G : ECGroup.
Variables gb g32 : list N.
Hypothesis Hgb : length gb = 65%nat.
Hypothesis H32 : length g32 = 32%nat.
(** what Setup makes: points other than infinity, RANGE_LEN * MAX_AGG_NUM generators, numbers that fit *)
Definition finite (P : pt G) : Prop := P <> inf G.
Definition adcp_wf (p : ADCPPP G) : Prop :=
  let b := ad_bullet G p in let e := ad_enc G p in
  u64 (ad_recv G p) /\ u64 (ad_sn G p) /\ (0 <= ad_coins G p < 2 ^ 256)%Z /\ finite (ad_pka G p) /\
  (u64 (bu_range G b) /\ u64 (bu_log G b) /\ u64 (bu_agg G b) /\ u64 (bu_range G b * bu_agg G b) /\
   finite (bu_g G b) /\ finite (bu_h G b) /\ finite (bu_u G b) /\ Forall finite (bu_vg G b) /\ Forall finite (bu_vh G b) /\
   length (bu_vg G b) = N.to_nat (bu_range G b * bu_agg G b) /\ length (bu_vh G b) = N.to_nat (bu_range G b * bu_agg G b)) /\
  (u64 (tw_len G e) /\ u64 (tw_trade G e) /\ (0 <= tw_size G e < 2 ^ 256)%Z /\ finite (tw_g G e) /\ finite (tw_h G e)).
Lemma get_bigint_write : forall a r, (0 <= a < 2 ^ 256)%Z -> get_bigint g32 (mkIfs (write_bigint g32 a ++ r) true) = (a, mkIfs r true).
Proof.
  intros a r Ha. unfold get_bigint. rewrite write_bigint_small by exact Ha. rewrite <- H32 at 1.
  rewrite fill_write by (rewrite be_bytes_length, H32; reflexivity). unfold BN_bin2bn. rewrite be_val_bytes by (rewrite pow_256_32; lia).
  f_equal. lia.
Qed.
Lemma get_points_write : forall v old r, length old = length v -> Forall finite v ->
  get_points G gb old (mkIfs (write_points G gb v ++ r) true) = (v, mkIfs r true).
Proof.
  induction v as [|P v IH]; intros [|o old] r L F; try discriminate; [reflexivity|]. inversion F; subst. cbn [get_points write_points].
  rewrite <- app_assoc, get_point_write by (try exact Hgb; assumption). rewrite IH; [reflexivity|cbn [length] in L; lia|assumption].
Qed.
Lemma resize_length : forall n v, length (resize_points G n v) = n.
Proof. intros n v. unfold resize_points. rewrite app_length, repeat_length, firstn_length. lia. Qed.
Theorem C104_adcp : forall p, adcp_wf p -> found_again any (ADCP_write G gb g32) (ADCP_read G gb g32) p.
Proof.
  intros p [A [B [C [D [[E1 [E2 [E3 [E4 [E5 [E6 [E7 [E8 [E9 [E10 E11]]]]]]]]]] [F1 [F2 [F3 [F4 F5]]]]]]]]] old _.
  unfold fetch, ADCP_read, ADCP_write, Bullet_read, Bullet_write, Twisted_read, Twisted_write. rewrite <- !app_assoc.
  assert (W : wrap64 (bu_range G (ad_bullet G p) * bu_agg G (ad_bullet G p)) = bu_range G (ad_bullet G p) * bu_agg G (ad_bullet G p)) by (apply N.mod_small; exact E4).
  do 2 step. rewrite get_bigint_write by exact C. rewrite get_point_write by (try exact Hgb; assumption). do 3 step.
  do 3 rewrite get_point_write by (try exact Hgb; assumption). rewrite W.
  rewrite get_points_write by (try assumption; rewrite resize_length; congruence).
  rewrite get_points_write by (try assumption; rewrite resize_length; congruence).
  do 2 step. rewrite get_bigint_write by exact F3. rewrite get_point_write by (try exact Hgb; assumption).
  match goal with |- context [mkIfs (write_point G gb ?P) true] => rewrite <- (app_nil_r (write_point G gb P)) end.
  rewrite get_point_write by (try exact Hgb; assumption). cbn [fst]. destruct p as [p1 p2 p3 p4 p5 p6]. cbn [ad_sn ad_recv ad_coins ad_bullet ad_enc ad_pka].
  destruct p4, p5. reflexivity.
Qed.
End ADCPFile.

(** ** Cases *)
Definition gb0 : list N := repeat 7 65.
Definition any_pso : PSOPP G101 := mkPSO G101 (mkOTE G101 9 (pgen G101) 3) (mkMQ 1 2 3 4 5) 6 7 8 9.
Example C104_case : exists p, PSO_Setup G101 128 40 10 12 = Some p /\ ~ ascii_digit (40 mod 256) /\
  fetch (PSO_read G101 gb0) any_pso (PSO_write G101 gb0 p) = p /\ mq_S (mqrpmt_part G101 p) = 4096 /\ ps_S G101 p = 1024.
Proof.
  eexists. split; [reflexivity|]. assert (ND : ~ ascii_digit (40 mod 256)) by (intros [A _]; vm_compute in A; apply A; reflexivity).
  split; [exact ND|]. split; [|split; reflexivity].
  exact (C104_pso_partial G101 gb0 eq_refl 128 40 10 12 _ ltac:(reflexivity) eq_refl ND any_pso I).
Qed.
(** a statistical security parameter of 48: the base OTs are 1280 *)
Example C104_case_48 : exists p, PSO_Setup G101 128 48 10 12 = Some p /\ ascii_digit (48 mod 256) /\
  let f := fetch (PSO_read G101 gb0) any_pso (PSO_write G101 gb0 p) in
  BASE_LEN G101 (ote_part G101 f) = 1280 /\ mq_stat (mqrpmt_part G101 f) = 12 * 2 ^ 56.
Proof.
  eexists. split; [reflexivity|]. split; [split; discriminate|]. split; vm_compute; reflexivity.
Qed.
Example C105_case : ascii_digit (first_byte 48 0) /\ blk 48 /\
  counter (fetch Seed_read (seed_of 1 0 0) (Seed_write (seed_of 48 0 3))) = 30 /\ ~ ascii_digit (first_byte fixed_seed 0).
Proof.
  split; [split; discriminate|]. split; [reflexivity|]. split; [vm_compute; reflexivity|]. intros [_ A]. vm_compute in A. apply A. reflexivity.
Qed.
(** 2 generators in each vector *)
Definition small_adcp : ADCPPP G101 :=
  mkADCP G101 4 1 32 (mkBullet G101 1 0 2 (p101 1) (p101 2) (p101 3) [p101 4; p101 5] [p101 6; p101 7]) (mkTwisted G101 5 32 7 (p101 1) (p101 2)) (p101 9).
Example C104_adcp_case : adcp_wf G101 small_adcp.
Proof.
  assert (F : forall k, (peqb G101 (p101 k) (inf G101)) = false -> finite G101 (p101 k)).
  { intros k E. unfold finite. destruct (peqb_spec G101 (p101 k) (inf G101)); [discriminate|assumption]. }
  unfold adcp_wf, small_adcp. cbn [ad_sn ad_recv ad_coins ad_bullet ad_enc ad_pka bu_range bu_log bu_agg bu_g bu_h bu_u bu_vg bu_vh tw_len tw_size tw_trade tw_g tw_h].
  repeat split; repeat (first [reflexivity | apply F; reflexivity | apply Forall_nil | apply Forall_cons | lia | discriminate]).
Qed.
Print Assumptions C104_adcp.
Print Assumptions C104_mqrpmt.
Print Assumptions C104_cwprf_psi.
Print Assumptions C104_base_ot.
Print Assumptions C104_iknp.
Print Assumptions C104_alsz.
Print Assumptions C104_pso_partial.
Print Assumptions C104_pso_refuted.
Print Assumptions C104_card_sum_partial.
Print Assumptions C104_card_sum_refuted.
Print Assumptions C104_private_id_partial.
Print Assumptions C104_private_id_refuted.
Print Assumptions C104_ddh_oprf_refuted.
Print Assumptions C104_ddh_oprf_never.
Print Assumptions C104_ote_oprf.
Print Assumptions C105_seed_partial.
Print Assumptions C105_seed_refuted.

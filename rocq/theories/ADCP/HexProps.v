(** Property C117: hexadecimal strings and the names of transactions. *)
From Coq Require Import NArith ZArith List Lia Bool Arith.
From Coq Require Import ZifyBool ZifyNat ZifyN.
From Verif.Base Require Import Words ListX.
From Verif.Crypto Require Import BigIntModel BigIntSpec BigIntProofs HexModel.
From Verif.Group Require Import ECModel ECProofs ZqGroup.
From Verif.PKE Require Import DlogModel DlogSpec DlogProps ElGamalModel ElGamalProps.
From Verif.Sigma Require Import SigmaModel SigmaProps.
From Verif.Bullet Require Import IPModel BPModel BPSpec BPProps.
From Verif.ADCP Require Import ADCPModel ADCPSpec ADCPProofs ADCPProps ADCPManyProps ADCPSaveProps ADCPFileModel ADCPGateSpec ADCPGateProps DiskModel DiskProofs DiskProps RecordProps.
Import ListNotations.

(** ** how a hexadecimal string is read: an optional minus, then digits, most significant first *)
Definition digit_value (c : N) : option N :=
  if (48 <=? c)%N && (c <=? 57)%N then Some (c - 48)%N else if (65 <=? c)%N && (c <=? 70)%N then Some (c - 55)%N else None.
Fixpoint digits_value (s : list N) (acc : N) : option N :=
  match s with [] => Some acc | c :: s' => match digit_value c with Some d => digits_value s' (16 * acc + d)%N | None => None end end.
Definition hex_value (s : list N) : option Z :=
  match s with
  | [] => None
  | c :: s' => if (c =? 45)%N then option_map (fun n => (- Z.of_N n)%Z) (digits_value s' 0) else option_map Z.of_N (digits_value s 0)
  end.

Lemma digit_char : forall d, (d < 16)%N -> digit_value (hex_char d) = Some d.
Proof.
  intros d B. unfold hex_char, digit_value. destruct (N.ltb_spec d 10) as [L|L].
  - replace ((48 <=? 48 + d)%N && (48 + d <=? 57)%N) with true by lia. f_equal. lia.
  - replace ((48 <=? 55 + d)%N && (55 + d <=? 57)%N) with false by lia. replace ((65 <=? 55 + d)%N && (55 + d <=? 70)%N) with true by lia. f_equal. lia.
Qed.
Lemma digits_bytes : forall bs acc, bytes_ok bs -> digits_value (flat_map hex_byte bs) acc = Some (fold_left (fun a b => 256 * a + b)%N bs acc).
Proof.
  induction bs as [|b bs IH]; intros acc B; [reflexivity|]. pose proof (Forall_inv B) as B1; pose proof (Forall_inv_tail B) as B2; unfold is_byte in B1; clear B. unfold hex_byte. cbn [flat_map app digits_value fold_left].
  assert (D : (b / 16 < 16)%N) by (apply N.div_lt_upper_bound; lia). assert (M : (b mod 16 < 16)%N) by (apply N.mod_lt; lia).
  rewrite (digit_char _ D). cbn [digits_value]. rewrite (digit_char _ M). fold (flat_map hex_byte bs). rewrite IH by exact B2. f_equal. f_equal.
  pose proof (N.div_mod b 16 ltac:(lia)). lia.
Qed.
Lemma fold_be : forall bs, fold_left (fun a b => 256 * a + b)%N bs 0%N = be_val bs.
Proof.
  induction bs as [|b bs IH] using rev_ind; [reflexivity|]. rewrite fold_left_app. cbn [fold_left]. rewrite IH.
  unfold be_val. rewrite rev_app_distr. cbn [rev app le_val]. lia.
Qed.
Lemma bn2bin_bytes : forall a, bytes_ok (BN_bn2bin a).
Proof. intros a. unfold BN_bn2bin, be_bytes. apply Forall_rev. apply le_bytes_ok. Qed.
Lemma hex_char_range : forall d, (d < 16)%N -> (48 <= hex_char d <= 57 \/ 65 <= hex_char d <= 70)%N.
Proof. intros d B. unfold hex_char. destruct (N.ltb_spec d 10); lia. Qed.
Lemma hex_bytes_range : forall bs, bytes_ok bs -> Forall (fun c => (48 <= c <= 57 \/ 65 <= c <= 70)%N) (flat_map hex_byte bs).
Proof.
  intros bs B. induction B as [|b bs B1 B2 IH]; [constructor|]. unfold is_byte in B1. cbn [flat_map]. apply Forall_app. split; [|exact IH].
  assert (D : (b / 16 < 16)%N) by (apply N.div_lt_upper_bound; lia). assert (M : (b mod 16 < 16)%N) by (apply N.mod_lt; lia).
  unfold hex_byte. constructor; [apply hex_char_range; exact D|]. constructor; [apply hex_char_range; exact M|constructor].
Qed.

(** ** the string of a number is read as that number *)
Theorem C117_number : forall a, hex_value (BN_bn2hex a) = Some a.
Proof.
  intros a. unfold BN_bn2hex. destruct (Z.eqb_spec a 0) as [->|NZ]; [reflexivity|].
  assert (V : digits_value (flat_map hex_byte (BN_bn2bin a)) 0 = Some (Z.abs_N a)).
  { rewrite digits_bytes by apply bn2bin_bytes. rewrite fold_be. unfold BN_bn2bin. f_equal. apply be_val_bytes. apply num_bytes_bound. }
  destruct (Z.ltb_spec a 0) as [L|L]; cbn [app].
  - unfold hex_value. rewrite N.eqb_refl, V. cbn [option_map]. f_equal. lia.
  - pose proof (hex_bytes_range _ (bn2bin_bytes a)) as R. destruct (flat_map hex_byte (BN_bn2bin a)) as [|c s].
    + exfalso. assert (E : Z.abs_N a = 0%N) by (cbn in V; congruence). lia.
    + unfold hex_value. pose proof (Forall_inv R) as C. cbn beta in C. destruct (N.eqb_spec c 45) as [|_]; [lia|]. rewrite V. cbn [option_map]. f_equal. lia.
Qed.
Lemma hex_inj : forall a b, BN_bn2hex a = BN_bn2hex b -> a = b.
Proof. intros a b E. pose proof (C117_number a) as A. rewrite E, C117_number in A. congruence. Qed.
Lemma hex_range : forall a, Forall (fun c => (45 <= c)%N) (BN_bn2hex a).
Proof.
  intros a. unfold BN_bn2hex. destruct (a =? 0)%Z; [constructor; [lia|constructor]|]. apply Forall_app.
  split; [destruct (a <? 0)%Z; [constructor; [lia|constructor]|constructor]|].
  eapply Forall_impl; [|apply hex_bytes_range, bn2bin_bytes]. intros c C. cbn beta in C. lia.
Qed.

Lemma bytes_inj : forall a b, bytes_ok a -> bytes_ok b -> flat_map hex_byte a = flat_map hex_byte b -> a = b.
Proof.
  assert (CI : forall x y, (x < 16)%N -> (y < 16)%N -> hex_char x = hex_char y -> x = y).
  { intros x y X Y E. pose proof (digit_char x X) as A. rewrite E, (digit_char y Y) in A. congruence. }
  induction a as [|x a IH]; intros [|y b] A B E; [reflexivity|discriminate|discriminate|].
  cbn [flat_map hex_byte app] in E. injection E as E1 E2 E3.
  pose proof (Forall_inv A) as A1. pose proof (Forall_inv B) as B1. unfold is_byte in A1, B1.
  assert (D : forall z, (z < 256 -> z / 16 < 16)%N) by (intros z Z; apply N.div_lt_upper_bound; lia).
  assert (M : forall z, (z mod 16 < 16)%N) by (intros z; apply N.mod_lt; lia).
  apply CI in E1; [|apply D; exact A1|apply D; exact B1]. apply CI in E2; [|apply M|apply M].
  f_equal; [|apply IH; [exact (Forall_inv_tail A)|exact (Forall_inv_tail B)|exact E3]].
  rewrite (N.div_mod x 16), (N.div_mod y 16) by lia. rewrite E1, E2. reflexivity.
Qed.

Section Props.
Variable G : ECGroup.
Lemma point_bytes : forall P, bytes_ok (if peqb G P (inf G) then [0%N] else comp33 G P).
Proof. intros P. destruct (peqb G P (inf G)); [constructor; [reflexivity|constructor]|apply comp33_ok]. Qed.
Theorem C117_point : forall P Q, point_hex G P = point_hex G Q -> P = Q.
Proof.
  intros P Q E. unfold point_hex in E. apply bytes_inj in E; [|apply point_bytes|apply point_bytes].
  destruct (peqb_spec G P (inf G)) as [EP|NP], (peqb_spec G Q (inf G)) as [EQ|NQ].
  - congruence.
  - exfalso. pose proof (comp33_length G Q) as L. rewrite <- E in L. discriminate.
  - exfalso. pose proof (comp33_length G P) as L. rewrite E in L. discriminate.
  - apply (comp33_inj G); assumption.
Qed.

(** ** the name of a transaction's file gives the sender's key and the serial number *)
Local Notation file pk sn := (ctx_name G BN_bn2hex (point_hex G) pk sn).
Lemma split_at : forall (c : N) a b x y, ~ In c a -> ~ In c b -> a ++ [c] ++ x = b ++ [c] ++ y -> a = b /\ x = y.
Proof.
  intros c. induction a as [|u a IH]; intros [|v b] x y NA NB E; cbn [app] in E.
  - split; congruence.
  - exfalso. apply NB. left. congruence.
  - exfalso. apply NA. left. congruence.
  - assert (UV : u = v) by congruence. assert (E' : a ++ [c] ++ x = b ++ [c] ++ y) by (cbn [app]; congruence).
    destruct (IH b x y) as [A B]; [intros I; apply NA; right; exact I|intros I; apply NB; right; exact I|exact E'|]. split; congruence.
Qed.
Lemma no_underscore : forall P, ~ In 95%N (point_hex G P).
Proof. intros P I. pose proof (hex_bytes_range _ (point_bytes P)) as R. rewrite Forall_forall in R. specialize (R _ I). cbn beta in R. clear - R. lia. Qed.
Theorem C117_name : forall pk pk' sn sn', file pk sn = file pk' sn' <-> pk = pk' /\ sn = sn'.
Proof.
  intros pk pk' sn sn'. split; [|intros [-> ->]; reflexivity]. intros E. unfold ctx_name in E.
  apply split_at in E; [|apply no_underscore|apply no_underscore]. destruct E as [E1 E2]. apply app_inv_tail in E2.
  split; [apply C117_point; exact E1|apply hex_inj; exact E2].
Qed.

(** ** what C94 assumes about encodings holds of this one, if compressed points begin with a byte below '-' (2 or 3) *)
Theorem C117_encoding : (forall P : pt G, (nth 0 (comp33 G P) 0 < 45)%N) -> encodings_ok G BN_bn2hex.
Proof. intros C. split; [exact C|]. split; [exact hex_range|exact hex_inj]. Qed.

(** ** all accepted one-to-many transactions of any number of senders stay on record.  [cur pk] is the serial number in
    the account with the key pk. *)
Variable key : pt G -> N.
Variable H : list N -> Z.
Variables gb gp : list N.
Local Notation opsN := (MinerN_ops G key BN_bn2hex (point_hex G) gb gp).
Inductive history (pp : APP G) (st : dstate G) : (pt G -> Z) -> list (CTxN G) -> list op -> Prop :=
| history_none cur : history pp st cur [] []
| history_one cur s vs pkr rn t rs c s1 ss s' rs' cur' l ops :
    ac_sn G s = cur (ac_pk G s) -> CreateCTxN G H BN_bn2hex pp s vs pkr rn = Some t ->
    MinerN G key H BN_bn2hex pp st t s rs c s1 ss = Some (true, (s', rs')) ->
    cur' (ac_pk G s') = ac_sn G s' -> (forall pk, pk <> ac_pk G s' -> cur' pk = cur pk) ->
    history pp st cur' l ops -> history pp st cur (t :: l) (opsN pp st t s rs s1 ss ++ ops).

Lemma history_serials : forall pp st cur l ops, history pp st cur l ops -> forall t, In t l -> (cur (m_pks G t) <= m_sn G t)%Z.
Proof.
  intros pp st cur l ops P. induction P as [cur|cur s vs pkr rn t rs c s1 ss s' rs' cur' l ops SN C M U K P IH]; intros u I; [destruct I|].
  destruct (createN_header _ _ _ _ _ _ _ _ _ C) as [P1 S1]. destruct (minerN_serial _ _ _ _ _ _ _ _ _ _ _ _ _ _ M) as [E1 E2]. destruct I as [<-|I].
  - rewrite P1, S1, SN. apply Z.le_refl.
  - specialize (IH u I). destruct (peqb_spec G (m_pks G u) (ac_pk G s')) as [E|E].
    + rewrite E in IH |- *. rewrite U, E1, SN in IH. rewrite E2 in *. apply (Z.le_trans _ (cur (ac_pk G s) + 1)); [apply Z.le_succ_diag_r|exact IH].
    + rewrite <- (K _ E). exact IH.
Qed.
Lemma history_keep : forall pp st cur l ops, history pp st cur l ops -> forall f d, (forall t, In t l -> f <> file (m_pks G t) (m_sn G t)) ->
  (forall a, f <> account_file G a) -> run d ops f = d f.
Proof.
  intros pp st cur l ops P. induction P as [cur|cur s vs pkr rn t rs c s1 ss s' rs' cur' l ops SN C M U K P IH]; intros f d NF NA; [reflexivity|].
  rewrite run_app, IH; [|intros u I; apply NF; right; exact I|exact NA].
  apply (minerN_record G key BN_bn2hex (point_hex G) gb gp pp st t s rs s1 ss d); [apply NF; left; reflexivity|exact NA].
Qed.
Theorem C117_records : forall pp st cur l ops d, history pp st cur l ops ->
  forall t, In t l -> run d ops (file (m_pks G t) (m_sn G t)) = Some (SaveCTxN G gb gp t).
Proof.
  intros pp st cur l ops d P. revert d.
  induction P as [cur|cur s vs pkr rn t rs c s1 ss s' rs' cur' l ops SN C M U K P IH]; intros d u I; [destruct I|]. rewrite run_app.
  destruct I as [<-|I]; [|apply IH; exact I]. rewrite (history_keep _ _ _ _ _ P).
  - apply (minerN_record G key BN_bn2hex (point_hex G) gb gp pp st t s rs s1 ss d).
  - intros w W E. apply C117_name in E. destruct E as [EP ES]. pose proof (history_serials _ _ _ _ _ P w W) as B.
    destruct (createN_header _ _ _ _ _ _ _ _ _ C) as [P1 S1]. destruct (minerN_serial _ _ _ _ _ _ _ _ _ _ _ _ _ _ M) as [E1 E2].
    rewrite <- EP, <- ES, P1, S1, <- E2, U, E1 in B. apply (Z.nle_succ_diag_l (ac_sn G s)). exact B.
  - intros a E. exact (names_apart G BN_bn2hex (point_hex G) a _ _ (eq_sym E)).
Qed.
End Props.

(** ** instances *)
Local Open Scope Z_scope.
Example C117_numbers : map BN_bn2hex [0; 9; -255; 4660]%Z = [[48]; [48; 57]; [45; 70; 70]; [49; 50; 51; 52]]%N.
Proof. vm_compute. reflexivity. Qed.
Lemma stepX : forall st s r v, decrypts G4099 key4099 hash4099 12 0 ap4099 st ->
  balance_ok G4099 12 0 ap4099 s -> balance_ok G4099 12 0 ap4099 r -> 0 <= v < 16 -> 0 <= ac_m G4099 s - v < 16 -> 0 <= ac_m G4099 r < 16 ->
  match CreateCTxN G4099 toyH BN_bn2hex ap4099 s [v] [ac_pk G4099 r] mr4 with
  | Some t => VerifyCTxN G4099 toyH BN_bn2hex ap4099 t 5 | None => None end = Some true ->
  exists t rs', CreateCTxN G4099 toyH BN_bn2hex ap4099 s [v] [ac_pk G4099 r] mr4 = Some t /\
    MinerN G4099 key4099 toyH BN_bn2hex ap4099 st t s [r] 5 round_robin [round_robin] = Some (true, (afterN v t s, rs')) /\
    balance_ok G4099 12 0 ap4099 (afterN v t s).
Proof.
  intros st s r v D BS BR BV B0 B1 X.
  destruct (C45_one_to_many G4099 toyH BN_bn2hex ap4099 s [v] [ac_pk G4099 r] mr4 params_4099_2 (proj1 BS) eq_refl eq_refl eq_refl) as [t [E [PY [PS [PR [ST _]]]]]].
  { constructor; [split; [apply BV|exact (proj2 BV)]|constructor]. }
  { change (zsum [v]) with (v + 0). rewrite Z.add_0_r. split; [apply B0|exact (proj2 B0)]. }
  rewrite E in X. change (zsum [v]) with (v + 0) in ST. rewrite Z.add_0_r in ST.
  assert (CV : 32 < covered 12 0) by (vm_compute; reflexivity).
  destruct (C51_wellformed_partial G4099 key4099 key4099_64 toyH BN_bn2hex hash4099 12 0 ap4099 st t [v] s [r] 5 round_robin [round_robin] (mr_r mr4)
    D fair_4099 (Forall_cons _ fair_4099 (Forall_nil _)) eq_refl PY) as [s' [rs' [M [BO [_ [TT MR]]]]]].
  { change (zsum [v]) with (v + 0). rewrite Z.add_0_r, PS. exact ST. }
  { exact BS. } { exact (Forall_cons _ BR (Forall_nil _)). } { exact PS. } { exact PR. } { exact X. }
  { change (zsum [v]) with (v + 0). lia. }
  { intros [|k] Hk; [cbn [nth]; lia|cbn in Hk; lia]. }
  assert (ES : s' = afterN v t s).
  { destruct (minerN_state G4099 key4099 toyH BN_bn2hex _ _ _ _ _ _ _ _ _ _ M) as [LL ES].
    specialize (MR 0%nat ltac:(cbn [length]; lia)). cbn [nth] in MR.
    destruct rs' as [|r' [|]]; try discriminate LL. cbn [nth] in MR. unfold total in TT. cbn [map zsum] in TT.
    rewrite ES. unfold afterN. f_equal. lia. }
  subst s'. exists t, rs'. split; [exact E|]. split; [exact M|exact BO].
Qed.
Local Notation payX v s r := (CreateCTxN G4099 toyH BN_bn2hex ap4099 s [v] [ac_pk G4099 r] mr4).
Local Notation toy_history := (history G4099 key4099 toyH [] [] ap4099).
(** [a] pays [e], and then [b] pays [a] *)
Lemma two_senders : forall st a b e v1 v2 t1 t2 cur, decrypts G4099 key4099 hash4099 12 0 ap4099 st ->
  balance_ok G4099 12 0 ap4099 a -> balance_ok G4099 12 0 ap4099 b -> balance_ok G4099 12 0 ap4099 e -> 0 <= v1 < 16 -> 0 <= v2 < 16 ->
  0 <= ac_m G4099 a - v1 < 16 -> 0 <= ac_m G4099 b - v2 < 16 -> 0 <= ac_m G4099 e < 16 ->
  ac_pk G4099 a <> ac_pk G4099 b -> cur (ac_pk G4099 a) = ac_sn G4099 a -> cur (ac_pk G4099 b) = ac_sn G4099 b ->
  payX v1 a e = Some t1 -> VerifyCTxN G4099 toyH BN_bn2hex ap4099 t1 5 = Some true ->
  payX v2 b (afterN v1 t1 a) = Some t2 -> VerifyCTxN G4099 toyH BN_bn2hex ap4099 t2 5 = Some true ->
  exists ops, toy_history st cur [t1; t2] ops.
Proof.
  intros st a b e v1 v2 t1 t2 cur D BA BB BE R1 R2 X1 X2 X3 NE U1 U2 E1 V1 E2 V2.
  destruct (stepX st a e v1 D BA BE R1 X1 X3) as [w1 [rs1 [C1 [M1 B1]]]]; [rewrite E1; exact V1|].
  assert (W1 : w1 = t1) by congruence. subst w1.
  destruct (stepX st b (afterN v1 t1 a) v2 D BB B1 R2 X2 X1) as [w2 [rs2 [C2 [M2 _]]]]; [rewrite E2; exact V2|].
  assert (W2 : w2 = t2) by congruence. subst w2.
  set (up := fun (c : pt G4099 -> Z) (x : Account G4099) (p : pt G4099) => if peqb G4099 p (ac_pk G4099 x) then ac_sn G4099 x else c p).
  assert (UP : forall c x, up c x (ac_pk G4099 x) = ac_sn G4099 x /\ forall p, p <> ac_pk G4099 x -> up c x p = c p).
  { intros c x. unfold up. split; [destruct (peqb_spec G4099 (ac_pk G4099 x) (ac_pk G4099 x)); congruence|]. intros p N. destruct (peqb_spec G4099 p (ac_pk G4099 x)); congruence. }
  eexists. refine (history_one G4099 key4099 toyH [] [] ap4099 st cur a _ _ _ _ _ _ _ _ _ _ (up cur (afterN v1 t1 a)) _ _ _ C1 M1 _ _
    (history_one G4099 key4099 toyH [] [] ap4099 st _ b _ _ _ _ _ _ _ _ _ _ (up (up cur (afterN v1 t1 a)) (afterN v2 t2 b)) _ _ _ C2 M2 _ _ (history_none _ _ _ _ _ _ _ _))).
  - symmetry. exact U1.
  - apply UP.
  - apply UP.
  - rewrite (proj2 (UP cur (afterN v1 t1 a))); [symmetry; exact U2|]. change (ac_pk G4099 (afterN v1 t1 a)) with (ac_pk G4099 a). intros X. apply NE. symmetry. exact X.
  - apply UP.
  - apply UP.
Qed.
Definition trueX (o : option (CTxN G4099)) : bool :=
  match o with Some t => match VerifyCTxN G4099 toyH BN_bn2hex ap4099 t 5 with Some b => b | None => false end | None => false end.
Lemma trueX_ok : forall o, trueX o = true -> exists t, o = Some t /\ VerifyCTxN G4099 toyH BN_bn2hex ap4099 t 5 = Some true.
Proof.
  intros [t|] E; [|discriminate]. exists t. split; [reflexivity|]. unfold trueX in E. destruct (VerifyCTxN _ _ _ _ _ _) as [[|]|]; [reflexivity|discriminate|discriminate].
Qed.
Lemma firstX : trueX (payX 3 alice carol) = true.
Proof. vm_compute. reflexivity. Qed.
Lemma secondX : match payX 3 alice carol with Some t1 => trueX (payX 2 bob (afterN 3 t1 alice)) | None => false end = true.
Proof. vm_compute. reflexivity. Qed.
Lemma keys_apart : ac_pk G4099 alice <> ac_pk G4099 bob.
Proof. intros E. assert (X : peqb G4099 (ac_pk G4099 alice) (ac_pk G4099 bob) = false) by (vm_compute; reflexivity). destruct (peqb_spec G4099 (ac_pk G4099 alice) (ac_pk G4099 bob)); congruence. Qed.
Example C117_records_run : forall d, exists st cur t1 t2 ops, toy_history st cur [t1; t2] ops /\
  run d ops (ctx_name G4099 BN_bn2hex (point_hex G4099) (m_pks _ t1) (m_sn _ t1)) = Some (SaveCTxN G4099 [] [] t1) /\
  run d ops (ctx_name G4099 BN_bn2hex (point_hex G4099) (m_pks _ t2) (m_sn _ t2)) = Some (SaveCTxN G4099 [] [] t2).
Proof.
  intros d. destruct ready_4099 as [st D]. destruct balances as [BA [BB BC]].
  destruct (trueX_ok _ firstX) as [t1 [E1 V1]]. pose proof secondX as S2. rewrite E1 in S2. destruct (trueX_ok _ S2) as [t2 [E2 V2]].
  assert (SAME : ac_sn G4099 alice = ac_sn G4099 bob) by reflexivity.
  destruct (two_senders st alice bob carol 3 2 t1 t2 (fun _ => ac_sn G4099 alice) D BA BB BC ltac:(lia) ltac:(lia) ltac:(change (0 <= 11 - 3 < 16); lia)
    ltac:(change (0 <= 2 - 2 < 16); lia) ltac:(change (0 <= 0 < 16); lia) keys_apart eq_refl SAME E1 V1 E2 V2) as [ops R].
  exists st, (fun _ => ac_sn G4099 alice), t1, t2, ops. split; [exact R|].
  split; (eapply C117_records; [exact R|]); [left; reflexivity|right; left; reflexivity].
Qed.
Example C117_file : ctx_name G4099 BN_bn2hex (point_hex G4099) (ac_pk G4099 alice) 1 <> ctx_name G4099 BN_bn2hex (point_hex G4099) (ac_pk G4099 alice) 17.
Proof. intros E. apply C117_name in E. destruct E as [_ E]. discriminate. Qed.
Example C117_encoding_run : encodings_ok G4099 BN_bn2hex.
Proof. apply C117_encoding. exact (proj1 hexu_ok). Qed.

Print Assumptions C117_number.
Print Assumptions C117_point.
Print Assumptions C117_name.
Print Assumptions C117_encoding.
Print Assumptions C117_records.

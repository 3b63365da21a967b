(** Property C107: files of the oblivious key-value store. *)
From Coq Require Import NArith List Bool Lia Arith.
From Coq Require Import ZifyBool ZifyNat ZifyN.
From Verif Require Import Base.Words Base.ListX OKVS.SparseModel OKVS.SparseSpec OKVS.SparseProofs.
From Verif Require Import OKVS.PaxosModel OKVS.PaxosSpec OKVS.PaxosLists OKVS.PaxosSet OKVS.PaxosTri
  OKVS.PaxosSum OKVS.PaxosFC OKVS.PaxosBack OKVS.PaxosSolve OKVS.PaxosEncode OKVS.PaxosProps OKVS.FileModel OKVS.FileProofs.
Import ListNotations.

(** What fits the file: indices of [wi] bytes, loops of less than 2^31 rounds, a weight of one byte. *)
Definition storable (wi : nat) (p : params) (keys : list N) : Prop :=
  bits p = N.mul 8 (N.of_nat wi) /\ N.lt (N.of_nat (length keys)) (2 ^ 31) /\ N.lt (N.of_nat (msize p)) (2 ^ 31) /\ wt p < 256.

Lemma storable_idx wi p keys c : storable wi p keys -> N.lt (N.of_nat c) (2 ^ bits p) -> N.lt (N.of_nat c) (256 ^ N.of_nat wi).
Proof. intros (E & _) H. rewrite E in H. change 256%N with (2 ^ 8)%N. rewrite <- N.pow_mul_r. exact H. Qed.
Lemma key_idx wi p keys c : storable wi p keys -> few_keys p keys -> c <= length keys -> N.lt (N.of_nat c) (256 ^ N.of_nat wi).
Proof. intros S F H. apply (storable_idx wi p keys c S). unfold few_keys in F. lia. Qed.
Lemma col_idx wi p keys c : storable wi p keys -> usable p -> c <= msize p -> N.lt (N.of_nat c) (256 ^ N.of_nat wi).
Proof. intros S (_ & F & _) H. apply (storable_idx wi p keys c S). lia. Qed.

(** ** What holds.  An object that has been encoded without gap rows, written to a file and
    read into a new object of the same sizes: the new object encodes any values for the
    same keys, and they decode.  Written again, it makes the same file.  An object of the
    other kind refuses the file and keeps its state. *)
Theorem C107_no_gaps_partial : forall wi sizes enc vl p keys values t o out t1 junk junk' rest,
  usable p -> storable wi p keys -> few_keys p keys -> keys <> [] -> length values = length keys ->
  blocks_ok enc vl keys values t -> (kind p = binary -> dsize p <= 128) ->
  sizes (length keys) (wt p) (ssp p) = (msize p, glimit p) ->
  store enc vl p keys values t = Some (o, out, t1) -> gap_rows o = [] ->
  exists bytes z x',
    WriteObject wi {| items := length keys; par := p; st := o; w0 := [] |} = Some (bytes, z) /\
    ReadObject wi sizes junk (new_obj junk' (length keys) p) (bytes ++ rest) = Some (true, x') /\ par x' = p /\
    WriteObject wi x' = Some (bytes, z) /\
    (forall n2 p2, kind p2 <> kind p -> exists y,
       ReadObject wi sizes junk (new_obj junk' n2 p2) (bytes ++ rest) = Some (false, y) /\ st y = st (new_obj junk' n2 p2)) /\
    forall values2 t2, length values2 = length keys -> blocks_ok enc vl keys values2 t2 ->
    (t2 <> None -> match kind p with binary => vl <= 1 | gf_128 => 1 <= dsize p end) ->
    exists o2 out2 t3, encode_any vl x' values2 t2 = Some (o2, out2, t3) /\
      lookup enc vl p out2 keys = Some values2 /\
      forall i, i < length keys -> lookup_1 enc vl p out2 (nth i keys 0%N) = Some (nth i values2 0%N).
Proof.
  intros wi sizes enc vl p keys values t o out t1 junk junk' rest U St FK NE LV BO DB SZ H NG.
  assert (HK : kind p = gf_128 -> blocks_ok enc vl keys values t /\ length (gap_rows o) < 256).
  { intros _. split; [exact BO|]. rewrite NG. cbn. lia. }
  destruct (store_encoded _ _ _ _ _ _ _ _ _ U FK LV HK H)
    as (o1 & Dn & Eg & _ & Same & _).
  rewrite NG in Eg. destruct (Same (eq_sym Eg)) as (-> & GC0 & FC0 & EM0). clear Same Eg.
  destruct (usable_good p U) as (G & Sz & Wp & Mp).
  set (ds := set_dense enc keys) in *.
  assert (Lds : length ds = length keys) by apply map_length.
  assert (DsB : Forall (fun d => N.lt d (2 ^ 128)) ds).
  { apply Forall_forall. intros d Hd. apply in_map_iff in Hd. destruct Hd as (k & <- & Hk). apply BO. exact Hk. }
  destruct (zeros_ok p ds o1 Dn) as (h & l & Eh & Ew & ND & Hl).
  assert (Ll : length l <= msize p).
  { assert (X : length l <= length (seq 0 (msize p))).
    { apply NoDup_incl_length; [exact ND|]. intros x Hx. apply Hl in Hx. apply in_seq. lia. }
    rewrite seq_length in X. exact X. }
  assert (LR : length (rows o1) = length keys) by (rewrite (rows_len p ds o1 Dn); exact Lds).
  assert (LT : length (tri_rows o1) = length keys).
  { pose proof (row_count p ds o1 Dn) as X. rewrite NG in X. cbn in X. lia. }
  assert (TR : forall r, In r (tri_rows o1) -> r < length keys).
  { intros r Hr. rewrite <- Lds. apply (d_all _ _ _ Dn). rewrite NG, app_nil_r. exact Hr. }
  assert (RW : Forall (fun x => length x = wt p) (rows o1)).
  { rewrite (d_rows _ _ _ Dn). apply Forall_forall. intros r Hr. apply in_map_iff in Hr. destruct Hr as (d & <- & _).
    apply (row_of_ok p d G). }
  assert (RC : Forall (Forall (fun c => N.lt (N.of_nat c) (256 ^ N.of_nat wi))) (rows o1)).
  { rewrite (d_rows _ _ _ Dn). apply Forall_forall. intros r Hr. apply in_map_iff in Hr. destruct Hr as (d & <- & _).
    destruct (row_of_ok p d G) as (_ & _ & F). apply Forall_forall. intros c Hc. rewrite Forall_forall in F.
    apply (col_idx wi p keys c St U). specialize (F c Hc). lia. }
  assert (GF0 : gap_first o1 = []).
  { pose proof (d_gf _ _ _ Dn) as X. rewrite NG in X. destruct (gap_first o1); [reflexivity|discriminate]. }
  pose proof (d_dense _ _ _ Dn) as DD. pose proof (d_cols _ _ _ Dn) as DC. pose proof (d_ltc _ _ _ Dn) as DL.
  pose proof St as (Sb & S1 & S2 & S3).
  eexists _, l, _. split.
  { unfold WriteObject. cbn [items par st w0].
    assert (GCt : gap_count o1 = 0) by (unfold gap_count; rewrite NG; reflexivity).
    rewrite GCt, NG, GF0, GC0.
    rewrite prefix_full by (auto; lia). cbn [bind].
    rewrite prefix_rows by (auto; lia). cbn [bind].
    rewrite prefix_full by (rewrite ?DD; lia). cbn [bind].
    rewrite prefix_full by lia. cbn [bind].
    rewrite prefix_full by lia. cbn [bind].
    do 2 (rewrite prefix_full by (cbn; lia); cbn [bind]).
    rewrite Eh. cbn [bind]. rewrite Ew. cbn [bind app].
    rewrite prefix_full by lia. cbn [bind]. reflexivity. }
  split.
  { unfold ReadObject, new_obj. cbn [items par st w0]. rewrite <- !app_assoc.
    unfold idx at 1. rewrite take_le by (apply (key_idx wi p keys); auto). cbn [bind fst snd].
    unfold byte at 1. rewrite take_le by (cbn; lia). cbn [bind fst snd].
    rewrite take_le by (destruct (kind p); reflexivity). cbn [bind fst snd].
    rewrite N.eqb_refl. cbn [negb]. rewrite !Nat2N.id, SZ.
    unfold idx at 1. rewrite take_le by (apply (key_idx wi p keys); auto; lia). cbn [bind fst snd].
    unfold byte at 1. rewrite take_le by reflexivity. cbn [bind fst snd].
    rewrite Nat.ltb_irrefl, !Nat2N.id, LT.
    unfold counts. destruct (N.ltb_spec (N.of_nat (length keys)) (2 ^ 31)); [|lia]. cbn [andb negb].
    rewrite <- LR at 1. rewrite take_rows_ok by assumption. cbn [bind fst snd].
    rewrite DD. rewrite <- Lds at 1. rewrite takes_le by exact DsB. cbn [bind fst snd].
    rewrite takes_idx; [|auto|apply Forall_forall; intros c Hc; apply (key_idx wi p keys); auto; apply TR in Hc; lia]. cbn [bind fst snd].
    rewrite takes_idx; [|congruence|eapply Forall_impl; [|exact DL]; intros c Hc; apply (col_idx wi p keys); auto; cbv beta in Hc; lia]. cbn [bind fst snd].
    change (N.to_nat (N.of_nat 0)) with 0. cbn [takes index bind fst snd map concat app gap_first length Nat.ltb Nat.leb].
    unfold idx at 1. rewrite take_le by (apply (col_idx wi p keys); auto). cbn [bind fst snd].
    rewrite Nat2N.id, takes_idx; [|auto|apply Forall_forall; intros c Hc; apply (col_idx wi p keys); auto; apply Hl in Hc; lia].
    cbn [bind fst snd]. reflexivity. }
  split; [destruct p; reflexivity|].
  split.
  { unfold WriteObject. cbn [items par st w0 rows dense tri_rows tri_cols gap_rows gap_first gap_cols lsts fst snd wt kind gap_count length
      firstn repeat app rd nth_error skipn].
    rewrite prefix_full by (auto; lia). cbn [bind].
    rewrite prefix_rows by (auto; lia). cbn [bind].
    rewrite DD. rewrite prefix_full by (rewrite ?DD; lia). cbn [bind].
    rewrite prefix_full by lia. cbn [bind].
    rewrite prefix_full by lia. cbn [bind].
    repeat (rewrite prefix_full by (cbn; lia); cbn [bind]).
    cbn [walk bind]. rewrite app_nil_r. rewrite prefix_full by lia. cbn [bind]. reflexivity. }
  split.
  { intros n2 p2 K2. unfold ReadObject, new_obj. cbn [items par st w0]. rewrite <- !app_assoc.
    unfold idx at 1. rewrite take_le by (apply (key_idx wi p keys); auto). cbn [bind fst snd].
    unfold byte at 1. rewrite take_le by (cbn; lia). cbn [bind fst snd].
    rewrite take_le by (destruct (kind p); reflexivity). cbn [bind fst snd].
    destruct (N.eqb_spec (kind_code (kind p)) (kind_code (kind p2))) as [EK|_];
      [exfalso; apply K2; destruct (kind p), (kind p2); (reflexivity || discriminate)|].
    cbn [negb]. eexists. split; reflexivity. }
  intros values2 t2 LV2 BO2 CR2.
  match goal with |- exists o2 out2 t3, encode_any vl ?x _ _ = _ /\ _ => set (x' := x) end.
  assert (AL : alike o1 (st x')).
  { unfold alike, x'. cbn [st rows dense tri_rows tri_cols gap_rows gap_cols]. rewrite NG, GC0, DD. repeat split. }
  assert (PX : par x' = p) by (destruct p; reflexivity).
  assert (NT : is_nil (tri_rows (st x')) = false).
  { unfold x'. cbn [st tri_rows]. destruct (tri_rows o1) eqn:ET; [|reflexivity].
    exfalso. destruct keys; [apply NE; reflexivity|discriminate LT]. }
  assert (DO : dense_ok p) by (unfold dense_ok; destruct (kind p); auto).
  assert (Rep : forall c, nth c (repeat 0%N (total p)) 0%N = 0%N).
  { intros c. destruct (Nat.ltb_spec c (total p)).
    - apply nth_repeat.
    - apply nth_overflow. rewrite repeat_length. assumption. }
  assert (Z : exists outz tz, (match t2 with
       | None => Some (repeat 0%N (total p), None)
       | Some t => r <- zero_fill_any vl (st x') (w0 x') (repeat 0%N (total p)) t ;; Some (fst r, Some (snd r))
       end) = Some (outz, tz) /\ length outz = total p
       /\ (tape_ok t2 -> tape_ok tz) /\ is_some tz = is_some t2
       /\ (forall x, In x (tri_cols o1) \/ msize p <= x -> nth x outz 0%N = 0%N)
       /\ (t2 = None -> forall x, nth x outz 0%N = 0%N)).
  { destruct t2 as [t2|].
    - unfold zero_fill_any. unfold x' at 1. cbn [st lsts fst snd repeat rd nth_error firstn app bind].
      assert (Ez : w0 x' = l) by reflexivity. rewrite Ez. destruct l as [|c l].
      + cbn [bind fst snd]. eexists _, _. split; [reflexivity|]. split; [apply repeat_length|]. split; [auto|].
        split; [reflexivity|]. split; [auto|discriminate].
      + unfold draw. destruct (zero_list_ok vl (c :: l) 0 (map t2 (seq 0 (length (c :: l) * vl))) (repeat 0%N (total p)))
          as (oz & E & L & HZ).
        * apply Forall_forall. intros x Hx. apply Hl in Hx. rewrite repeat_length. unfold total. lia.
        * rewrite map_length, seq_length. cbn [plus]. apply Nat.le_refl.
        * rewrite E. cbn [bind fst snd]. eexists _, _. split; [reflexivity|]. rewrite repeat_length in L. split; [exact L|].
          split; [intros T i; apply T|]. split; [reflexivity|]. split; [|discriminate].
          intros x Hx. rewrite HZ; [apply Rep|]. intros I. apply Hl in I. destruct Hx; [tauto|lia].
    - eexists _, _. split; [reflexivity|]. split; [apply repeat_length|]. auto. }
  destruct Z as (outz & tz & EZ & Lz & TZ & SZ2 & HZ & HN).
  assert (CZ : can_randomise vl p tz).
  { destruct tz as [tz|]; [|exact I]. destruct t2; [|discriminate SZ2]. apply CR2. discriminate. }
  destruct (fill_in_total vl p ds o1 values2 outz tz G Sz Dn) as (out2 & t3 & EF); auto; [lia|].
  exists (st x'), out2, t3. split.
  { unfold encode_any. rewrite NT. cbn [bind]. rewrite PX, EZ. cbn [bind].
    exact (fill_in_alike vl p o1 (st x') values2 outz tz out2 t3 AL NG EF). }
  eapply encoded_lookup with (o1 := o1) (random := is_some t2); auto.
  apply (fill_in_encoded vl p ds o1 values2 outz tz o1 out2 t3); auto; [lia| |].
  - intros K. destruct BO2 as (B1 & B2 & B3). split; [apply TZ; destruct t2; exact B3|]. split; [exact DsB|].
    apply Forall_forall. exact B2.
  - intros B. apply HN. destruct t2; [discriminate|reflexivity].
Qed.
Print Assumptions C107_no_gaps_partial.

Example C107_hypotheses : forall k, exists o out t1,
  let p := ex_q k in let keys := firstn 8 ex_keys in
  usable p /\ storable 1 p keys /\ few_keys p keys /\ keys <> [] /\ length (firstn 8 ex_values) = length keys /\
  blocks_ok ex_enc 1 keys (firstn 8 ex_values) None /\ (kind p = binary -> dsize p <= 128) /\
  (fun n w s => (msize p, glimit p)) (length keys) (wt p) (ssp p) = (msize p, glimit p) /\
  store ex_enc 1 p keys (firstn 8 ex_values) None = Some (o, out, t1) /\ gap_rows o = [].
Proof.
  intros k. destruct (C67_random_example k) as (U & FK & _).
  assert (S : shows (ex_q k) (firstn 8 ex_keys)
        (store ex_enc 1 (ex_q k) (firstn 8 ex_keys) (firstn 8 ex_values) None) = Some ([], Some (firstn 8 ex_values))).
  { destruct k; vm_compute; reflexivity. }
  apply shows_inv in S. destruct S as (o & out & t' & E & Eg & _). exists o, out, t'. cbv zeta.
  split; [exact U|]. split.
  { unfold storable. destruct k; cbn; repeat split; lia. }
  split; [exact FK|]. split; [discriminate|]. split; [reflexivity|]. split.
  { destruct (C67_plain_example k) as (_ & _ & _ & B & _). exact B. }
  split; [destruct k; cbn; [lia|discriminate]|]. split; [reflexivity|]. split; [exact E|exact Eg].
Qed.

(** ** What fails.  No file with gap rows can be read into a new object: the reader stores
    their first rows in an array that it does not enlarge. *)
Theorem C107_read_gaps_refuted : forall wi sizes junk junk' n p s b x',
  ReadObject wi sizes junk (new_obj junk' n p) s = Some (b, x') -> gap_rows (st x') = [].
Proof.
  intros wi sizes junk junk' n p s b x' H. unfold ReadObject, new_obj in H. cbn [items par st w0 gap_first length] in H.
  destruct (take wi s) as [n0|]; [|discriminate]. cbn [bind] in H.
  destruct (take 1 (snd n0)) as [w|]; [|discriminate]. cbn [bind] in H.
  destruct (take 4 (snd w)) as [kd|]; [|discriminate]. cbn [bind] in H.
  destruct (negb (N.eqb (fst kd) (kind_code (kind p)))).
  { assert (E : x' = snd (b, x')) by reflexivity. rewrite E. match type of H with Some ?a = _ => assert (F : (b, x') = a) by congruence end.
    rewrite F. reflexivity. }
  destruct (sizes _ _ _) as [m gl].
  destruct (take wi (snd kd)) as [d|]; [|discriminate]. cbn [bind] in H.
  destruct (take 1 (snd d)) as [g|]; [|discriminate]. cbn [bind] in H.
  destruct (Nat.ltb _ _); [discriminate|]. destruct (negb _); [discriminate|].
  destruct (take_rows _ _ _ _) as [sp|]; [|discriminate]. cbn [bind] in H.
  destruct (takes _ 16 _) as [ds|]; [|discriminate]. cbn [bind] in H.
  destruct (index (takes (N.to_nat (fst d)) wi (snd ds))) as [tr|]; [|discriminate]. cbn [bind] in H.
  destruct (index (takes (N.to_nat (fst d)) wi (snd tr))) as [tc|]; [|discriminate]. cbn [bind] in H.
  destruct (N.to_nat (fst g)) as [|g'] eqn:EG.
  - cbn [takes index bind fst snd map Nat.ltb Nat.leb] in H.
    destruct (take wi (snd tc)) as [zn|]; [|discriminate]. cbn [bind] in H.
    destruct (index _) as [z|]; [|discriminate]. cbn [bind] in H.
    match type of H with Some ?a = _ => assert (F : (b, x') = a) by congruence end.
    change x' with (snd (b, x')). rewrite F. reflexivity.
  - destruct (index (takes (S g') wi (snd tc))) as [gr|]; [|discriminate]. cbn [bind] in H.
    destruct (index (takes (S g') wi (snd gr))) as [gf|]; [|discriminate]. cbn [bind] in H.
    cbn [Nat.ltb Nat.leb] in H. discriminate.
Qed.
Print Assumptions C107_read_gaps_refuted.

Lemma backfill_gf_cols vl p o values out t o' out' t' :
  backfill_gf128 vl p o values out t = Some (o', out', t') -> gap_cols o' = gap_cols o /\ gap_rows o' = gap_rows o.
Proof.
  unfold backfill_gf128. intros H.
  destruct (negb _ && _).
  - destruct (solve_gf _ _ _ _ _ _ _) as [[[[fc E] out1] t1]|]; [|discriminate]. cbn [bind] in H.
    destruct (triangle _ _ _ _ _); [|discriminate]. cbn [bind] in H.
    match type of H with Some ?a = _ => assert (F : (o', out', t') = a) by congruence end.
    change o' with (fst (fst (o', out', t'))). rewrite F. split; reflexivity.
  - destruct t as [t|].
    + unfold draw in H. destruct (random_all _ _ _ _ _); [|discriminate]. cbn [bind] in H.
      destruct (triangle _ _ _ _ _); [|discriminate]. cbn [bind] in H.
      assert (F : o' = o) by congruence. rewrite F. split; reflexivity.
    + cbn [bind] in H. destruct (triangle _ _ _ _ _); [|discriminate]. cbn [bind] in H.
      assert (F : o' = o) by congruence. rewrite F. split; reflexivity.
Qed.

(** An encoding over GF(2^128) with gap rows cannot even be written: the writer reads the
    gap columns, which only the binary kind has. *)
Theorem C107_write_gaps_refuted : forall wi enc vl p keys values t o out t1 z,
  usable p -> few_keys p keys -> kind p = gf_128 ->
  store enc vl p keys values t = Some (o, out, t1) -> gap_count o <> 0 ->
  WriteObject wi {| items := length keys; par := p; st := o; w0 := z |} = None.
Proof.
  intros wi enc vl p keys values t o out t1 z U FK K H NG.
  destruct (usable_good p U) as (G & Sz & Wp & Mp).
  unfold store in H. set (ds := set_dense enc keys) in *.
  assert (Lds : length ds = length keys) by apply map_length.
  destruct (set_keys p ds) as [o0|] eqn:E0; [|discriminate]. cbn [bind] in H.
  destruct (set_keys_spec p ds G Mp) as [S1 S2]; [rewrite Lds; exact FK|].
  assert (Fr : fresh p ds o0).
  { destruct (S1 (S2 o0 E0)) as (o2 & E2 & F2). congruence. }
  rewrite encode_unfold in H.
  assert (N0 : tri_rows o0 = []) by apply Fr.
  rewrite N0 in H. cbn [is_nil] in H.
  assert (T := triangulate_spec p ds o0 G Wp Fr).
  destruct (triangulate p o0) as [o1|]; [|discriminate]. cbn [bind] in H.
  destruct T as (_ & GC0 & _). rewrite K in H.
  assert (X : gap_cols o = []).
  { destruct t as [t|].
    - destruct (zero_fill _ _ _ _) as [[oz tz]|]; [|discriminate]. cbn [bind fst snd] in H.
      apply backfill_gf_cols in H. destruct H as [-> _]. exact GC0.
    - cbn [bind] in H. apply backfill_gf_cols in H. destruct H as [-> _]. exact GC0. }
  unfold WriteObject. cbn [items par st w0]. rewrite X.
  assert (P : prefix (gap_count o) (@nil N) = None).
  { unfold prefix. destruct (gap_count o); [contradiction|]. cbn [length Nat.leb]. rewrite andb_false_r. reflexivity. }
  rewrite P.
  repeat match goal with |- bind ?a _ = None => destruct a; [|reflexivity]; cbn [bind] end.
  reflexivity.
Qed.
Print Assumptions C107_write_gaps_refuted.

(** Both happen: 8 keys in 11 columns leave one gap row.  The binary kind writes a file that
    a new object of the same sizes cannot read. *)
Theorem C107_gaps_refuted :
  (exists o out t1, ex_run gf_128 None = Some (o, out, t1) /\
     WriteObject 1 {| items := 8; par := ex_p gf_128; st := o; w0 := [] |} = None) /\
  (exists o out t1 bytes z, ex_run binary None = Some (o, out, t1) /\
     lookup ex_enc 1 (ex_p binary) out ex_keys = Some ex_values /\
     WriteObject 1 {| items := 8; par := ex_p binary; st := o; w0 := [] |} = Some (bytes, z) /\
     forall junk junk', ReadObject 1 (fun _ _ _ => (11, 2)) junk (new_obj junk' 8 (ex_p binary)) bytes = None).
Proof.
  split.
  - destruct (C67_plain_example gf_128) as (U & FK & _ & _ & o & out & t' & E & Eg).
    exists o, out, t'. split; [exact E|]. change 8 with (length ex_keys).
    apply (C107_write_gaps_refuted 1 ex_enc 1 (ex_p gf_128) ex_keys ex_values None o out t' []); auto.
    unfold gap_count. rewrite Eg. discriminate.
  - assert (S : exists o bytes z, (r <- ex_run binary None ;; Some (fst (fst r), lookup ex_enc 1 (ex_p binary) (snd (fst r)) ex_keys,
        WriteObject 1 {| items := 8; par := ex_p binary; st := fst (fst r); w0 := [] |})) = Some (o, Some ex_values, Some (bytes, z)) /\
        forall junk junk', ReadObject 1 (fun _ _ _ => (11, 2)) junk (new_obj junk' 8 (ex_p binary)) bytes = None).
    { eexists _, _, _. split; [vm_compute; reflexivity|]. intros junk junk'. reflexivity. }
    destruct S as (o & bytes & z & S & R). destruct (ex_run binary None) as [[[o1 out] t1]|]; [|discriminate].
    cbn [bind fst snd] in S. exists o1, out, t1, bytes, z. split; [reflexivity|].
    split; [congruence|]. split; [congruence|exact R].
Qed.
Print Assumptions C107_gaps_refuted.

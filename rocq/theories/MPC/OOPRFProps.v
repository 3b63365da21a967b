(** C57, C87: the OT-based OPRF. *)
From Coq Require Import NArith ZArith List Bool Arith Lia.
From Coq Require Import ZifyBool ZifyNat ZifyN.
From Verif.Base Require Import Words ListX.
From Verif.Crypto Require Import AESModel PRGModel PRGProofs.
From Verif.Group Require Import ECModel ZqGroup.
From Verif.PKE Require Import ElGamalModel.
From Verif.Net Require Import ChannelModel PartyModel PartyProofs.
From Verif.OT Require Import OTModel OTProps.
From Verif.MPC Require Import OOPRFModel OOPRFSpec OOPRFProofs OOPRFRun.
Import ListNotations.

(** What Setup returns is proper. *)
Theorem C57_setup_proper : forall LOG ssp p s, 3 <= LOG -> ssp + 2 * LOG <= 256 -> Setup LOG ssp = Some (p, s) ->
  proper p /\ OOPRFModel.LOG p = LOG /\ (counter s < 2 ^ 64)%N.
Proof.
  intros LOG ssp p s H3 HS E. unfold Setup in E. destruct (Nat.leb_spec LOG 30) as [H30|]; [|discriminate E].
  apply (f_equal (fun o => match o with Some x => x | None => (p, s) end)) in E. apply pair_equal_spec in E. destruct E as [<- <-].
  split; [|split; [reflexivity|reflexivity]]. unfold proper, HEIGHT. cbn [OOPRFModel.LOG BATCH RANGE]. split; [lia|].
  assert (HM : forall a b, a <= b -> 2 ^ b mod 2 ^ a = 0).
  { intros a b H. replace b with (a + (b - a)) by lia. rewrite Nat.pow_add_r, Nat.mul_comm. apply Nat.mod_mul, Nat.pow_nonzero. lia. }
  split; [|split].
  - destruct (LOG <? 10); apply Nat.neq_0_lt_0, Nat.pow_nonzero; lia.
  - destruct (Nat.ltb_spec LOG 10); [apply HM|apply (HM 9); lia]. apply Nat.div_le_upper_bound; lia.
  - assert ((ssp + 2 * LOG + 7) / 8 < 33) by (apply Nat.div_lt_upper_bound; lia); lia.
Qed.
Print Assumptions C57_setup_proper.

(** C57. Both parties start with the same common seed s. For all randomness, sets Y of the client
    and X of the server: there is one function F such that the client ends with F on its
    items and the server with a key with which the next call of Evaluate gives F on X.
    (Both results are filled up to 2^LOG entries with one constant.) Client and Evaluate
    leave the same new common seed s', so that further pairs of a run and one evaluation work the same way. *)
Theorem C57_first_call_partial :
  forall G hash, (forall s, length (hash s) = 32%nat /\ bytes_ok (hash s)) ->
  forall g p s d r sk Y, proper p -> (counter s < 2 ^ 64)%N -> inputs p Y ->
  exists F c s' key, (counter s' < 2 ^ 64)%N /\
    ends (Client G hash g p s d r Y (length Y)) (Server G hash g p sk) (filled p (map F Y) c, s') key /\
    forall X, inputs p X -> Evaluate hash p s key X (length X) = Some (filled p (map F X) c, s').
Proof.
  intros G hash HH g p s d r sk Y OK HS HY. destruct (oprf_run G hash HH g p OK s Y HS HY) as (C & LC & FC & E & _ & V).
  exists (value hash p (salt_of p s) (fun i => nth i C [])), (nothing hash p), (next_seed p s), (flatten p C).
  split; [apply next_ok, HS|]. split.
  - rewrite <- (map_ext_in _ _ Y V). apply E.
  - intros X HX. apply (evaluate_ok hash HH p OK s C X HS HX LC FC).
Qed.
Print Assumptions C57_first_call_partial.

(** C87 refuted: selection bits and masks come from a fixed seed. For every set Y the client's output and the
    server's key are always the same, whatever randomness the parties have: everyone who knows Y
    (the client does) knows the key of the server. *)
Theorem C87_key_constant_refuted :
  forall G hash, (forall s, length (hash s) = 32%nat /\ bytes_ok (hash s)) ->
  forall g p s Y, proper p -> (counter s < 2 ^ 64)%N -> inputs p Y ->
  exists out key, forall d r sk, ends (Client G hash g p s d r Y (length Y)) (Server G hash g p sk) out key.
Proof.
  intros G hash HH g p s Y OK HS HY. destruct (oprf_run G hash HH g p OK s Y HS HY) as (C & _ & _ & E & _). eauto.
Qed.
Print Assumptions C87_key_constant_refuted.
(** And the client's values are one function of the items, the same in all executions and for all sets, that everyone
    can compute: the key plays no role in it. *)
Theorem C87_values_public_refuted :
  forall G hash, (forall s, length (hash s) = 32%nat /\ bytes_ok (hash s)) ->
  forall p s, proper p -> (counter s < 2 ^ 64)%N ->
  exists F c s', forall g d r sk Y, inputs p Y ->
  exists key, ends (Client G hash g p s d r Y (length Y)) (Server G hash g p sk) (filled p (map F Y) c, s') key.
Proof.
  intros G hash HH p s OK HS. exists (value hash p (salt_of p s) (A_row p (client_K0 p))), (nothing hash p), (next_seed p s).
  intros g d r sk Y HY. destruct (oprf_run G hash HH g p OK s Y HS HY) as (C & _ & _ & E & _). eauto.
Qed.
Print Assumptions C87_values_public_refuted.

(** Outside the proper sizes nothing works: a set size that is no multiple of the batch size, with LOG >= 3,
    or more than 2^LOG inputs leave the arrays. *)
Theorem C57_odd_size_refuted : forall hash p s key X, proper p -> length X mod BATCH p <> 0 -> 0 < WIDTH p ->
  Evaluate hash p s key X (length X) = None.
Proof.
  intros hash p s key X OK HX HW. unfold Evaluate. destruct (key_rows p key) as [C|]; [|reflexivity]. cbn [SparseModel.bind].
  destruct (split_ok p OK) as (ES & S4 & _). rewrite ES. cbn [SparseModel.bind]. destruct (salts p (spn p) s) as [salt s'].
  destruct (PaxosModel.rd salt 0) as [k0|]; [|reflexivity]. cbn [SparseModel.bind].
  replace (eval_parts p (spn p) (length X) salt C (Encode hash X k0) (no_rows p (spn p) (length X)) (lefts p (spn p))) with (@None (list (list N))); [reflexivity|].
  unfold lefts. assert (exists t, (WIDTH p + spn p - 1) / spn p = S t) as [t Et].
  { assert (1 <= (WIDTH p + spn p - 1) / spn p) by (apply Nat.div_le_lower_bound; lia). exists ((WIDTH p + spn p - 1) / spn p - 1). revert H. generalize ((WIDTH p + spn p - 1) / spn p). lia. }
  rewrite Et. cbn [seq map eval_parts]. destruct (PaxosModel.rd salt _) as [k|]; [|reflexivity]. cbn [SparseModel.bind].
  rewrite Encode_map. unfold enc_batches. rewrite map_length.
  destruct OK as (_ & HB & _). replace (batches p (length X) * BATCH p <=? length X) with false; [reflexivity|].
  symmetry. apply Nat.leb_gt. unfold batches. pose proof (Nat.div_mod (length X) (BATCH p) ltac:(lia)) as D.
  pose proof (Nat.mod_upper_bound (length X) (BATCH p) ltac:(lia)) as M. set (q := length X / BATCH p) in *. set (r := length X mod BATCH p) in *.
  assert (E : (length X + BATCH p - 1) / BATCH p = S q).
  { symmetry. apply (Nat.div_unique _ _ _ (r - 1)); nia. }
  rewrite E. nia.
Qed.
Print Assumptions C57_odd_size_refuted.

(** C57 refuted for later calls: Evaluate draws its AES keys from the common seed and changes it. The key of one
    execution, the same item in two calls, two different values. *)
Definition echo (s : list N) : list N := map (fun b => N.modulo b 256) (firstn 32 (s ++ repeat 0%N 32)).
Lemma echo_ok : forall s, length (echo s) = 32%nat /\ bytes_ok (echo s).
Proof.
  intros s. unfold echo. split.
  - rewrite map_length, firstn_length, app_length, repeat_length. lia.
  - apply Forall_forall. intros b Hb. apply in_map_iff in Hb. destruct Hb as (x & <- & _). apply N.mod_lt. discriminate.
Qed.
Definition ex_p : params := mkPP 3 591 2 6.
Definition ex_s : Seed := SetSeed 0 (Some fixed_seed) 0.
Lemma ex_setup : Setup 3 40 = Some (ex_p, ex_s).
Proof. reflexivity. Qed.
Lemma ex_proper : proper ex_p.
Proof. repeat split; cbn; lia. Qed.
Lemma ex_inputs : inputs ex_p [7; 100]%N.
Proof. split; [reflexivity|cbn; lia]. Qed.
Lemma block_nth s n i : (counter s < 2 ^ 64)%N -> i < n -> nth i (fst (GenRandomBlocks s n)) 0%N = Enc (aes_key s) (wrap64 (counter s + N.of_nat i)).
Proof.
  intros H L. rewrite GenRandomBlocks_spec by exact H. cbn [fst]. unfold stream. rewrite (nth_map' _ _ _ 0) by (rewrite seq_length; exact L).
  rewrite seq_nth by exact L. reflexivity.
Qed.
Lemma bit_nth s n i : (counter s < 2 ^ 64)%N -> i < n -> i < 16 ->
  nth i (fst (GenRandomBits s n)) 0%N = N.land (nth i (le_bytes 16 (Enc (aes_key s) (wrap64 (counter s)))) 0%N) 1.
Proof.
  intros H L L16. unfold GenRandomBits, GenRandomBytes. rewrite GenRandomBlocks_spec by exact H.
  assert (E : exists m, (n + 15) / 16 = S m).
  { assert (1 <= (n + 15) / 16) by (apply Nat.div_le_lower_bound; lia). exists ((n + 15) / 16 - 1). lia. }
  destruct E as [m ->]. cbn [fst]. unfold stream. cbn [seq map flat_map]. rewrite N.add_0_r. generalize (Enc (aes_key s) (wrap64 (counter s))). intros b.
  rewrite (nth_map' _ _ _ 0%N). 2:{ rewrite firstn_length, app_length, le_bytes_length. lia. }
  rewrite nth_firstn_lt by exact L. rewrite app_nth1 by (rewrite le_bytes_length; exact L16). reflexivity.
Qed.
Local Notation ex_bit s :=
  (vb (A_row ex_p (client_K0 ex_p) 6) (place ex_p (salt_of ex_p s) 6 (encode1 echo (nth 0 (salt_of ex_p s) 0%N) 7%N))).
Definition ex_fast (k : Key) (c : N) : bool :=
  vb (expand (Enc k 6) 1) (loc ex_p 6 (Enc (GenEncKey (Enc k (c + 1))) (encode1 echo (Enc k c) 7%N))).
Lemma ex_place (salt : list N) (k1 x : N) : nth 1 salt 0%N = k1 -> place ex_p salt 6 x = loc ex_p 6 (Enc (GenEncKey k1) x).
Proof. intros <-. unfold place. change (6 mod spn ex_p) with 6. change (6 / spn ex_p) with 0. cbn [chain]. reflexivity. Qed.
Lemma ex_bit_fast s : (counter s < 1000)%N -> aes_key s = aes_key ex_s -> ex_bit s = ex_fast (aes_key ex_s) (counter s).
Proof.
  intros H HK. assert (H' : (counter s < 2 ^ 64)%N) by (eapply N.lt_trans; [exact H|reflexivity]).
  assert (W : forall i, (i < 1000)%N -> wrap64 (counter s + i) = (counter s + i)%N).
  { intros i Hi. unfold wrap64. apply wrap_small. assert (counter s + i < 2000)%N by lia. eapply N.lt_trans; [eassumption|reflexivity]. }
  unfold ex_fast. apply (f_equal2 vb).
  - unfold A_row. change (hb ex_p) with 1. apply (f_equal (fun z => expand z 1)). unfold client_K0. fold ex_s. rewrite block_nth; [|reflexivity|cbn [WIDTH ex_p]; lia]. reflexivity.
  - assert (S0 : nth 0 (salt_of ex_p s) 0%N = Enc (aes_key ex_s) (counter s)).
    { unfold salt_of, salts. change (WIDTH ex_p / spn ex_p + 2) with 38. rewrite block_nth; [|exact H'|lia]. rewrite HK, W by reflexivity. rewrite N.add_0_r. reflexivity. }
    rewrite S0. apply ex_place. unfold salt_of, salts. change (WIDTH ex_p / spn ex_p + 2) with 38. rewrite block_nth; [|exact H'|lia]. rewrite HK, W by reflexivity. reflexivity.
Qed.
Lemma ex_bits : let k := aes_key ex_s in
  (N.eqb (N.land (nth 6 (le_bytes 16 (Enc k 0)) 0%N) 1) 0 && ex_fast k 0 && negb (ex_fast k 38))%bool = true.
Proof. vm_compute. reflexivity. Qed.
Lemma echo_bit p f i : i < WIDTH p -> i / 8 < RANGE p -> RANGE p <= 32 -> vb (digest echo p f) i = f i.
Proof.
  intros HW HR H32. destruct (packed_some echo p f) as (_ & L & V). specialize (V i). replace (i <? WIDTH p) with true in V by lia. cbn [andb] in V.
  rewrite <- V. unfold vb, digest, echo. set (w := packed p f) in *.
  assert (HL : i / 8 < length w) by (rewrite L; apply Nat.div_lt_upper_bound; [lia|]; pose proof (Nat.div_mod (WIDTH p + 7) 8 ltac:(lia)); pose proof (Nat.mod_upper_bound (WIDTH p + 7) 8 ltac:(lia)); lia).
  rewrite nth_firstn_lt by exact HR. rewrite (nth_map' _ _ _ 0%N) by (rewrite firstn_length, app_length, repeat_length; lia).
  rewrite nth_firstn_lt by lia. rewrite app_nth1 by exact HL. change 256%N with (2 ^ 8)%N. apply N.mod_pow2_bits_low.
  pose proof (Nat.mod_upper_bound i 8 ltac:(lia)). lia.
Qed.
Lemma ex_value salt M x : vb (value echo ex_p salt M x) 6 = vb (M 6) (place ex_p salt 6 (encode1 echo (nth 0 salt 0%N) x)).
Proof. apply (echo_bit ex_p (fun i => vb (M i) (place ex_p salt i (encode1 echo (nth 0 salt 0%N) x))) 6); cbn [WIDTH RANGE ex_p]; [lia| |lia]. change (6 / 8) with 0. lia. Qed.
Lemma ex_first : ex_bit ex_s = true.
Proof.
  rewrite ex_bit_fast by reflexivity. assert (X := ex_bits). cbv zeta in X. apply andb_prop in X. destruct X as [X _]. apply andb_prop in X. exact (proj2 X).
Qed.
Lemma ex_next : next_seed ex_p ex_s = mkSeed 38 (aes_key ex_s).
Proof.
  unfold next_seed, salts. change (WIDTH ex_p / spn ex_p + 2) with 38. rewrite GenRandomBlocks_spec by reflexivity. generalize (aes_key ex_s). intros k. cbn [snd]. reflexivity.
Qed.
Lemma ex_second : ex_bit (next_seed ex_p ex_s) = false.
Proof.
  rewrite ex_next, ex_bit_fast; [|reflexivity|reflexivity]. cbn [counter]. assert (X := ex_bits). cbv zeta in X. apply andb_prop in X. destruct X as [_ X].
  apply negb_true_iff in X. exact X.
Qed.
Lemma ex_sel : nth 6 (server_bits ex_p) 0%N = 0%N.
Proof.
  unfold server_bits. fold ex_s. rewrite bit_nth; [|reflexivity|cbn [WIDTH ex_p]; lia|lia].
  assert (X := ex_bits). cbv zeta in X. apply andb_prop in X. destruct X as [X _]. apply andb_prop in X. destruct X as [X _]. apply N.eqb_eq in X. exact X.
Qed.
Theorem C57_later_call_refuted : forall d r sk, exists out s' key out2 s'',
  ends (Client G101 echo (p101 1) ex_p ex_s d r [7; 100]%N 2) (Server G101 echo (p101 1) ex_p sk) (out, s') key /\
  Evaluate echo ex_p ex_s key [7; 100]%N 2 = Some (out, s') /\
  Evaluate echo ex_p s' key [7; 100]%N 2 = Some (out2, s'') /\ nth 0 out2 [] <> nth 0 out [].
Proof.
  intros d r sk. assert (HS : (counter ex_s < 2 ^ 64)%N) by reflexivity.
  destruct (oprf_run G101 echo echo_ok (p101 1) ex_p ex_proper ex_s [7; 100]%N HS ex_inputs) as (C & LC & FC & E & A6 & V).
  assert (B1 := ex_first). assert (B2 := ex_second).
  assert (W6 : 6 < WIDTH ex_p) by (cbn [WIDTH ex_p]; lia). specialize (A6 6 W6 ex_sel).
  assert (X1 := evaluate_ok echo echo_ok ex_p ex_proper ex_s C [7; 100]%N HS ex_inputs LC FC).
  assert (X2 := evaluate_ok echo echo_ok ex_p ex_proper (next_seed ex_p ex_s) C [7; 100]%N (next_ok ex_p ex_s HS) ex_inputs LC FC).
  rewrite <- (map_ext_in _ _ _ V) in X1. specialize (E d r sk).
  revert E X1 X2 B1 B2 A6. clear V HS. cbn [length].
  generalize (next_seed ex_p ex_s) (A_row ex_p (client_K0 ex_p)) (salt_of ex_p ex_s). intros s1 A sa E X1 X2 B1 B2 A6.
  do 5 eexists. split; [exact E|]. split; [exact X1|]. split; [exact X2|].
  unfold filled. rewrite !app_nth1 by (rewrite map_length; cbn [length]; lia). cbn [map nth]. intros Q.
  apply (f_equal (fun l => vb l 6)) in Q. rewrite !ex_value, A6, B1, B2 in Q. discriminate Q.
Qed.
Print Assumptions C57_later_call_refuted.
Example C57_run : forall d r sk, exists F c s' key,
  ends (Client G101 toy_hash (p101 1) ex_p ex_s d r [7; 100]%N 2) (Server G101 toy_hash (p101 1) ex_p sk) (filled ex_p (map F [7; 100]%N) c, s') key /\
  Evaluate toy_hash ex_p ex_s key [3; 7; 100; 4]%N 4 = Some (filled ex_p (map F [3; 7; 100; 4]%N) c, s').
Proof.
  intros d r sk. destruct (C57_first_call_partial G101 toy_hash toy_hash_ok (p101 1) ex_p ex_s d r sk [7; 100]%N ex_proper eq_refl ex_inputs) as (F & c & s' & key & _ & E & W).
  exists F, c, s', key. split; [exact E|]. apply (W [3; 7; 100; 4]%N). split; [reflexivity|cbn; lia].
Qed.

(** C88, C89: the mqRPMT from re-randomisable encryption. *)
From Coq Require Import NArith ZArith List Bool Arith Lia.
From Coq Require Import ZifyBool ZifyNat ZifyN.
From Verif.Base Require Import Words ListX.
From Verif.Group Require Import ECModel ECProofs ZqGroup.
From Verif.PKE Require Import ElGamalModel ElGamalProofs ElGamalProps.
From Verif.Net Require Import ChannelModel PartyModel PartyProofs.
From Verif.OKVS Require Import SparseModel PaxosModel PaxosSpec PaxosBack
  BaxosModel BaxosSpec BaxosProps PaxosClosed.
From Verif.MPC Require Import VOPRFSpec RRModel RRSpec RRProofs.
From Verif.MPC Require OOPRFProofs.
Import ListNotations.

(** the values the server stores *)
Definition server_values (G : ECGroup) (g : pt G) (sk k : Z) (r : nat -> Z) (n : nat) : list N :=
  map (rr_value G g sk k r) (seq 0 n).

Lemma server_values_ok G g sk k r n : Forall (value_ok 9) (server_values G g sk k r n).
Proof.
  apply Forall_forall. intros v I. apply in_map_iff in I. destruct I as (i & <- & _). apply value_ok_9. apply value_lt.
Qed.
Lemma server_values_in G g sk k r n v : In v (server_values G g sk k r n) ->
  exists i, v = CTtoBlockArrayValue G (G_Enc G g (pmul G g sk) (pmul G g k) (r i)).
Proof. intros I. apply in_map_iff in I. destruct I as (i & <- & _). exists i. reflexivity. Qed.

Lemma in_map_In (f : N -> N) Y values x : map f Y = values -> In x Y -> In (f x) values.
Proof. intros <- I. apply in_map. exact I. Qed.

(** C88, for every group, generator, hash, OKVS object of usable sizes, number of threads,
    sets, randomness and schedules with which the OKVS encodes and decodes: both sides
    end, the server has one bit per item of the client, the bit is 1 for the items in
    the server's set, and for every item it says whether the value decoded for it
    decrypts to the server's point.  (Missing: that it does not, for an item that is not
    in the set, which is a matter of probability.) *)
Theorem C88_mqrpmt_partial : forall G g enc B T sk k r r' Y X s1 s2 s D dec,
  let values := server_values G g sk k r (length Y) in
  rr_sizes enc B T Y values X ->
  solve enc 9 B T s1 s2 (fun _ => None) Y values (repeat 0%N (nbins B * btotal B)) = Some D ->
  bdecode enc 9 B T s X (repeat 0%N (length X)) D = Some dec ->
  exists bits,
    ends (rr_Server G g enc B T (length Y) (length X) sk k r s1 s2 Y)
         (rr_Client G g enc B T (length X) r' s X) bits (dec, D)
    /\ length bits = length X
    /\ (forall i, i < length X -> In (nth i X 0%N) Y -> nth i bits 0%N = 1%N)
    /\ (forall i ct, i < length X -> BlockArrayValueToCT G (nth i dec 0%N) = Some ct ->
          nth i bits 0%N = if peqb G (pmul G g k) (G_Dec G sk ct) then 1%N else 0%N).
Proof.
  intros G g enc B T sk k r r' Y X s1 s2 s D dec values (U & K & R & GB & CT) HS HD.
  assert (LV : length values = length Y) by (unfold values, server_values; rewrite map_length, seq_length; reflexivity).
  destruct (stored enc 9 B T Y values U R LV GB (server_values_ok _ _ _ _ _ _) s1 s2 D HS) as (f & LD & VD & FY & DEC & _).
  assert (HT : 0 < T) by apply R.
  assert (ED : dec = map f X) by (apply (DEC X (repeat 0%N (length X)) T s dec CT); [apply repeat_length|exact HT|exact HD]).
  set (ctof := fun v => match BlockArrayValueToCT G v with Some ct => ct | None => {| gX := inf G; gY := inf G |} end).
  set (out := map (fun i => CTtoBlockArrayValue G (G_ReRand G g (pmul G g sk) (ctof (nth i dec 0%N)) (r' i))) (seq 0 (length X))).
  set (bits := map (fun i => if peqb G (pmul G g k) (G_Dec G sk (ctof (nth i dec 0%N))) then 1%N else 0%N) (seq 0 (length X))).
  assert (CO : forall v, BlockArrayValueToCT G v = Some (ctof v)).
  { intros v. unfold ctof. destruct (to_ct_total G v) as [ct ->]. reflexivity. }
  exists bits. split; [|split; [|split]].
  - unfold rr_Server, rr_Client. rewrite !Nat.eqb_refl. cbn [negb].
    apply ab_points; [reflexivity|]. cbv beta iota zeta.
    unfold rr_out, VLEN. fold (server_values G g sk k r (length Y)). fold values. rewrite HS. cbn [local].
    apply ab_bytes; [rewrite value_bytes_length, LD; reflexivity|]. cbv beta.
    rewrite <- LD, bytes_value_bytes by (revert VD; apply Forall_impl; intros v; apply value_ok_9).
    rewrite HD. cbn [local].
    rewrite (all_some_map _ (fun i => CTtoBlockArrayValue G (G_ReRand G g (pmul G g sk) (ctof (nth i dec 0%N)) (r' i)))).
    2: { intros i _. unfold rr_rerand. rewrite CO. reflexivity. }
    cbn [local]. fold out. apply ends_sym.
    assert (LO : length out = length X) by (unfold out; rewrite map_length, seq_length; reflexivity).
    apply ab_bytes; [rewrite value_bytes_length, LO; reflexivity|]. cbv beta.
    rewrite <- LO, bytes_value_bytes.
    2: { apply Forall_forall. intros v I. apply in_map_iff in I. destruct I as (i & <- & _). apply value_lt. }
    unfold out. rewrite map_map.
    rewrite (all_some_map _ (fun i => if peqb G (pmul G g k) (G_Dec G sk (ctof (nth i dec 0%N))) then 1%N else 0%N)).
    2: { intros i _. unfold rr_bit. rewrite value_ct. rewrite (C25_rerand_any G g sk _ _ _ eq_refl). reflexivity. }
    cbn [local]. apply ends_ret.
  - unfold bits. rewrite map_length, seq_length. reflexivity.
  - intros i Hi I. unfold bits. rewrite (nth_map' _ _ _ 0) by (rewrite seq_length; exact Hi). rewrite seq_nth by exact Hi. cbn [Nat.add].
    assert (V := in_map_In f Y values _ FY I). destruct (server_values_in _ _ _ _ _ _ _ V) as (j & EJ).
    rewrite ED, (nth_map' _ _ _ 0%N) by exact Hi. rewrite EJ. unfold ctof. rewrite value_ct.
    rewrite (proj1 (C25_dec_enc G g sk _ _ _ 0%Z eq_refl)).
    destruct (peqb_spec G (pmul G g k) (pmul G g k)) as [_|N]; [reflexivity|contradiction].
  - intros i ct Hi EC. unfold bits. rewrite (nth_map' _ _ _ 0) by (rewrite seq_length; exact Hi). rewrite seq_nth by exact Hi. cbn [Nat.add].
    unfold ctof. rewrite EC. reflexivity.
Qed.
Print Assumptions C88_mqrpmt_partial.

(** ... and there are schedules with which the OKVS decodes: whatever the client's items,
    a run that got through the encoding ends. *)
Theorem C88_returns : forall G g enc B T sk k r r' Y X s1 s2 D,
  let values := server_values G g sk k r (length Y) in
  rr_sizes enc B T Y values X ->
  solve enc 9 B T s1 s2 (fun _ => None) Y values (repeat 0%N (nbins B * btotal B)) = Some D ->
  exists s dec bits,
    ends (rr_Server G g enc B T (length Y) (length X) sk k r s1 s2 Y)
         (rr_Client G g enc B T (length X) r' s X) bits (dec, D).
Proof.
  intros G g enc B T sk k r r' Y X s1 s2 D values S HS. assert (S' := S). destruct S' as (U & K & R & GB & CT).
  assert (LV : length values = length Y) by (unfold values, server_values; rewrite map_length, seq_length; reflexivity).
  destruct (stored enc 9 B T Y values U R LV GB (server_values_ok _ _ _ _ _ _) s1 s2 D HS) as (f & _ & _ & _ & _ & DEC).
  destruct (DEC X (repeat 0%N (length X)) T CT) as (s & E); [apply repeat_length|apply R|].
  destruct (C88_mqrpmt_partial G g enc B T sk k r r' Y X s1 s2 s D _ S HS E) as (bits & H & _).
  exists s, (map f X), bits. exact H.
Qed.
Print Assumptions C88_returns.

(** An item for which no point comes out of the OKVS gets the bit 0: the server's point is
    not the one at infinity. *)
Theorem C88_no_points : forall G enc B T sk k r r' Y X s1 s2 s D dec bits i,
  let values := server_values G (pgen G) sk k r (length Y) in
  (1 <= k < order G)%Z ->
  rr_sizes enc B T Y values X ->
  solve enc 9 B T s1 s2 (fun _ => None) Y values (repeat 0%N (nbins B * btotal B)) = Some D ->
  bdecode enc 9 B T s X (repeat 0%N (length X)) D = Some dec ->
  ends (rr_Server G (pgen G) enc B T (length Y) (length X) sk k r s1 s2 Y)
       (rr_Client G (pgen G) enc B T (length X) r' s X) bits (dec, D) ->
  i < length X ->
  (let bytes := le_bytes 144 (nth i dec 0%N) in
   oct65 G (firstn 65 bytes) = None /\ oct65 G (firstn 65 (skipn 65 bytes)) = None) ->
  nth i bits 0%N = 0%N.
Proof.
  intros G enc B T sk k r r' Y X s1 s2 s D dec bits i values Hk S HS HD HE Hi. cbv zeta. intros [O1 O2].
  destruct (C88_mqrpmt_partial G (pgen G) enc B T sk k r r' Y X s1 s2 s D dec S HS HD) as (bits' & HE' & _ & _ & C).
  destruct (ends_unique _ _ _ _ _ _ _ _ _ HE HE') as [-> _].
  rewrite (C i {| gX := inf G; gY := inf G |} Hi).
  - unfold G_Dec. cbn [gX gY]. unfold psub. rewrite inf_mul, padd_neg.
    destruct (peqb_spec G (pmul G (pgen G) k) (inf G)) as [E|_]; [|reflexivity]. exfalso.
    rewrite <- (pmul_0 G (pgen G)) in E. apply gmul_inj in E. destruct E as [z E].
    destruct (Z_le_gt_dec z 0); nia.
  - unfold BlockArrayValueToCT, ByteArraytoCT, VBYTES. rewrite firstn_length, le_bytes_length.
    change (Nat.min 130 144 <? 130) with false. cbv iota.
    rewrite firstn_firstn. change (Nat.min 65 130) with 65.
    rewrite skipn_firstn_comm, firstn_firstn. change (Nat.min 65 (130 - 65)) with 65.
    unfold slot_point. rewrite O1, O2. reflexivity.
Qed.
Print Assumptions C88_no_points.

(** C89 (refuted): the client does not learn which items are in the server's set.  With
    the OKVS the client ends with, everybody can decode any list of keys, at any time;
    each key that is in the server's set decodes to the encoding of a ciphertext: two
    points of the curve and 14 zero bytes. *)
Theorem C89_client_recognises_members_refuted : forall G g enc B T sk k r Y X s1 s2 D,
  let values := server_values G g sk k r (length Y) in
  rr_sizes enc B T Y values X ->
  solve enc 9 B T s1 s2 (fun _ => None) Y values (repeat 0%N (nbins B * btotal B)) = Some D ->
  forall guess T' s dec, countable enc B guess -> 0 < T' ->
  bdecode enc 9 B T' s guess (repeat 0%N (length guess)) D = Some dec ->
  forall i, i < length guess -> In (nth i guess 0%N) Y ->
  looks_like_ct G (nth i dec 0%N) /\ (nth i dec 0 < 2 ^ 1040)%N.
Proof.
  intros G g enc B T sk k r Y X s1 s2 D values (U & K & R & GB & _) HS guess T' s dec CT HT' HD i Hi I.
  assert (LV : length values = length Y) by (unfold values, server_values; rewrite map_length, seq_length; reflexivity).
  destruct (stored enc 9 B T Y values U R LV GB (server_values_ok _ _ _ _ _ _) s1 s2 D HS) as (f & _ & _ & FY & DEC & _).
  assert (ED : dec = map f guess) by (apply (DEC guess (repeat 0%N (length guess)) T' s dec CT); [apply repeat_length|exact HT'|exact HD]).
  assert (V := in_map_In f Y values _ FY I). destruct (server_values_in _ _ _ _ _ _ _ V) as (j & EJ).
  rewrite ED, (nth_map' _ _ _ 0%N) by exact Hi. rewrite EJ. split; [apply value_looks|].
  unfold CTtoBlockArrayValue. rewrite OOPRFProofs.le_val_app. replace (le_val (repeat 0%N 14)) with 0%N by reflexivity.
  rewrite N.mul_0_r, N.add_0_r.
  assert (H := le_val_lt (CTtoByteArray G (G_Enc G g (pmul G g sk) (pmul G g k) (r j)))).
  rewrite (proj2 (ct_roundtrip G _)) in H. apply H. unfold CTtoByteArray. apply Forall_app. split; apply point_slot_ok.
Qed.
Print Assumptions C89_client_recognises_members_refuted.

(** Fewer than 32 items per thread: the server reads behind its items.  Below 2^7 items
    the bin size itself is undefined; with 2^7 items there are 128 bins, and the 8
    threads of include/global.hpp have 16 items each. *)
Theorem C88_small_set_refuted : forall G g enc B T sk k r r' Y X s1 s2 s,
  2 <= nbins B -> N.lt (N.of_nat (nbins B)) (2 ^ 64) -> N.lt (N.of_nat (length Y)) (2 ^ 56) ->
  0 < T -> length Y < 32 * T ->
  crashes (rr_Server G g enc B T (length Y) (length X) sk k r s1 s2 Y)
          (rr_Client G g enc B T (length X) r' s X).
Proof.
  intros G g enc B T sk k r r' Y X s1 s2 s Hn H64 H56 HT HL. unfold rr_Server, rr_Client. rewrite !Nat.eqb_refl. cbn [negb].
  rewrite (C72_short_thread_refuted _ _ _ _ 0); auto.
  - cbv zeta. cbn [local]. eexists 1, _. split; [apply steps_one, a_puts|]. left. reflexivity.
  - rewrite thread_keys_length by assumption. unfold t_len, t_begin.
    rewrite Nat.mul_0_r, Nat.div_0_l by lia. rewrite Nat.mul_1_r, Nat.sub_0_r. apply Nat.div_lt_upper_bound; lia.
Qed.
Print Assumptions C88_small_set_refuted.

Theorem C88_bins : forall LOG,
  (LOG < 7 -> rr_bins LOG = None) /\ (7 <= LOG < 38 -> rr_bins LOG = Some 128%N) /\ (38 <= LOG -> rr_bins LOG = None).
Proof.
  intros LOG. unfold rr_bins, rr_bin_size. split; [|split]; intros H.
  - replace (7 <=? LOG) with false by lia. reflexivity.
  - replace (7 <=? LOG) with true by lia. replace (LOG - 7 <? 31) with true by lia. cbn [andb]. f_equal.
    set (s := (2 ^ N.of_nat (LOG - 7))%N).
    assert (P : (0 < s)%N) by (apply N.neq_0_lt_0, N.pow_nonzero; discriminate).
    replace (2 ^ N.of_nat LOG)%N with (128 * s)%N.
    + replace (128 * s + s - 1)%N with ((s - 1) + 128 * s)%N by lia. rewrite N.div_add by lia. rewrite N.div_small by lia. reflexivity.
    + unfold s. change 128%N with (2 ^ 7)%N. rewrite <- N.pow_add_r. f_equal. lia.
  - replace (7 <=? LOG) with true by lia. replace (LOG - 7 <? 31) with false by lia. reflexivity.
Qed.
Print Assumptions C88_bins.

(** *** A concrete case: 66 items in 2 bins, 2 threads, a group of order 101; the client
    has two of the items and one other. *)
Definition rr_ex_values : list N := Eval vm_compute in
  server_values G101 (pgen G101) 17 29 (fun i => Z.of_nat (3 * i + 2)) 66.
Lemma rr_ex_values_eq : server_values G101 (pgen G101) 17 29 (fun i => Z.of_nat (3 * i + 2)) (length bx_keys) = rr_ex_values.
Proof. vm_compute. reflexivity. Qed.
Definition rr_ex_X : list N := [105; 7; 160]%N.

Example C88_example :
  let values := server_values G101 (pgen G101) 17 29 (fun i => Z.of_nat (3 * i + 2)) (length bx_keys) in
  rr_sizes bx_enc (ex_B gf_128) 2 bx_keys values rr_ex_X
  /\ exists s1 s2 D, solve bx_enc 9 (ex_B gf_128) 2 s1 s2 (fun _ => None) bx_keys values
       (repeat 0%N (nbins (ex_B gf_128) * btotal (ex_B gf_128))) = Some D.
Proof.
  cbv zeta. rewrite rr_ex_values_eq.
  assert (GS : forall b, b < 2 -> exists n, n < 256 /\ gaps_of (bin_store bx_enc 9 (ex_B gf_128) b bx_keys rr_ex_values None) = Some n).
  { intros b Hb. assert (Eb : b = 0 \/ b = 1) by lia.
    destruct Eb as [->| ->]; eexists; (split; [|vm_compute; reflexivity]); repeat constructor. }
  assert (BK : blocks_ok bx_enc 9 bx_keys rr_ex_values None).
  { assert (A : forallb (fun k => N.ltb (key_hash bx_enc k) (2 ^ 128)) bx_keys = true) by (vm_compute; reflexivity).
    rewrite forallb_forall in A. split; [|split; [|exact I]].
    + intros x Hx. apply N.ltb_lt. apply A. exact Hx.
    + intros v Hv. rewrite <- rr_ex_values_eq in Hv. assert (F := server_values_ok G101 (pgen G101) 17 29 (fun i => Z.of_nat (3 * i + 2)) (length bx_keys)).
      rewrite Forall_forall in F. apply F, Hv. }
  assert (LD : forall b, b < 2 -> load bx_enc (ex_B gf_128) b bx_keys <= 48).
  { assert (X : forallb (fun b => load bx_enc (ex_B gf_128) b bx_keys <=? 48) (seq 0 2) = true) by (vm_compute; reflexivity).
    intros b Hb. apply Nat.leb_le. apply (forall_below 2 _ X b Hb). }
  assert (R : roomy bx_enc (ex_B gf_128) 2 bx_keys) by (apply ex_roomy; right; reflexivity).
  split.
  - split; [apply ex_B_usable|]. split; [reflexivity|]. split; [exact R|]. split.
    + intros b Hb o out t' E. split; [left; reflexivity|]. intros _. destruct (GS b Hb) as (n & Hn & Eg).
      split; [apply bin_blocks; exact BK|]. rewrite (gaps_of_len _ _ _ _ _ Eg E). exact Hn.
    + intros b Hb. assert (W : bits (binp (ex_B gf_128)) = 8%N) by (vm_compute; reflexivity). rewrite W.
      assert (L3 : load bx_enc (ex_B gf_128) b rr_ex_X <= length rr_ex_X).
      { unfold load. generalize (key_bin bx_enc (ex_B gf_128)). intros kb. induction rr_ex_X as [|x l IH]; [reflexivity|]. cbn [filter].
        destruct (kb x =? b); cbn [length]; lia. }
      change (length rr_ex_X) with 3 in L3. change (2 ^ 8)%N with 256%N. lia.
  - apply C72_total; auto; [apply ex_B_usable|]. intros b Hb. split; [apply LD; exact Hb|].
    destruct (GS b Hb) as (n & _ & Eg). apply (gaps_of_not _ _ Eg).
Qed.

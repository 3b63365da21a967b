(** Proofs about the rrPKE-based mqRPMT. *)
From Coq Require Import NArith ZArith List Bool Arith Lia.
From Coq Require Import ZifyBool ZifyNat ZifyN.
From Verif.Base Require Import Words ListX.
From Verif.Group Require Import ECModel ECProofs.
From Verif.PKE Require Import ElGamalModel ElGamalProofs ElGamalProps.
From Verif.Net Require Import ChannelModel PartyModel PartyProofs.
From Verif.OKVS Require Import SparseModel SparseSpec PaxosModel PaxosSpec PaxosBack PaxosEncode PaxosProps
  BaxosModel BaxosSpec BaxosLists BaxosSort BaxosBins BaxosSolve BaxosDecode BaxosProps PaxosClosed.
From Verif.MPC Require Import VOPRFSpec RRModel RRSpec.
Import ListNotations.

(** ** Values and bytes *)
Section Bytes.
Variable G : ECGroup.

Lemma point_slot_ok P : bytes_ok (point_slot G P).
Proof.
  unfold point_slot. destruct (peqb G P (inf G)); [|apply unc65_ok].
  apply Forall_forall. intros x I. apply repeat_spec in I. subst x. reflexivity.
Qed.
Definition ct_roundtrip := C25_bytes_roundtrip G (fun _ => 0%N) (fun _ => eq_refl).
Lemma ct_bytes_ok ct : bytes_ok (CTtoByteArray G ct ++ repeat 0%N 14).
Proof.
  apply Forall_app. split.
  - unfold CTtoByteArray. apply Forall_app. split; apply point_slot_ok.
  - apply Forall_forall. intros x I. apply repeat_spec in I. subst x. reflexivity.
Qed.
Lemma ct_bytes_length ct : length (CTtoByteArray G ct ++ repeat 0%N 14) = 144.
Proof. rewrite app_length, repeat_length, (proj2 (ct_roundtrip ct)). reflexivity. Qed.

Lemma value_lt ct : (CTtoBlockArrayValue G ct < 256 ^ N.of_nat 144)%N.
Proof. unfold CTtoBlockArrayValue. assert (H := le_val_lt _ (ct_bytes_ok ct)). rewrite ct_bytes_length in H. exact H. Qed.
Lemma value_le ct : le_bytes 144 (CTtoBlockArrayValue G ct) = CTtoByteArray G ct ++ repeat 0%N 14.
Proof. unfold CTtoBlockArrayValue. assert (H := le_bytes_val _ (ct_bytes_ok ct)). rewrite ct_bytes_length in H. exact H. Qed.
Lemma value_ct ct : BlockArrayValueToCT G (CTtoBlockArrayValue G ct) = Some ct.
Proof.
  unfold BlockArrayValueToCT. unfold VBYTES. rewrite value_le.
  rewrite firstn_app_exact' by (symmetry; apply (ct_roundtrip ct)). apply ct_roundtrip.
Qed.
Lemma value_looks ct : looks_like_ct G (CTtoBlockArrayValue G ct).
Proof. exists (gX G ct), (gY G ct). rewrite value_le. unfold CTtoByteArray. rewrite <- app_assoc. reflexivity. Qed.

Lemma to_ct_total v : exists ct, BlockArrayValueToCT G v = Some ct.
Proof.
  unfold BlockArrayValueToCT, ByteArraytoCT. rewrite firstn_length, le_bytes_length.
  change (Nat.min 130 VBYTES <? 130) with false. cbv iota. eauto.
Qed.
End Bytes.

Lemma value_bytes_length l : length (value_bytes l) = length l * VBYTES.
Proof. unfold value_bytes. induction l as [|v l IH]; [reflexivity|]. cbn [flat_map length]. rewrite app_length, IH, le_bytes_length. reflexivity. Qed.
Lemma bytes_value_bytes : forall l, Forall (fun v => (v < 256 ^ N.of_nat VBYTES)%N) l -> bytes_value (length l) (value_bytes l) = l.
Proof.
  induction 1 as [|v l H F IH]; [reflexivity|]. cbn [length bytes_value value_bytes flat_map]. fold (value_bytes l).
  rewrite firstn_app_exact', skipn_app_exact' by (rewrite le_bytes_length; reflexivity). rewrite IH, le_val_bytes by exact H. reflexivity.
Qed.
Lemma value_ok_9 v : value_ok 9 v <-> (v < 256 ^ N.of_nat VBYTES)%N.
Proof.
  unfold value_ok, VBYTES. replace (2 ^ (128 * N.of_nat 9))%N with (256 ^ N.of_nat 144)%N; [reflexivity|].
  change 256%N with (2 ^ 8)%N. rewrite <- N.pow_mul_r. reflexivity.
Qed.

Lemma all_some_map {A B} (f : A -> option B) (h : A -> B) l : (forall x, In x l -> f x = Some (h x)) -> all_some (map f l) = Some (map h l).
Proof.
  induction l as [|x l IH]; intros H; [reflexivity|]. cbn [map all_some]. rewrite (H x (or_introl eq_refl)). cbn [bind].
  rewrite IH by (intros y Hy; apply H; right; exact Hy). reflexivity.
Qed.

(** ** The OKVS *)
Section Store.
Variable enc : N -> N.
Variable vl : nat.
Variable B : baxos.
Variable T : nat.
Variables Y values : list N.
Hypothesis U : usable (binp B).
Hypothesis R : roomy enc B T Y.
Hypothesis LV : length values = length Y.
Hypothesis GB : forall b, b < nbins B -> good_bin enc vl B b Y values None.
Hypothesis VO : Forall (value_ok vl) values.
Variables s1 s2 : list nat.
Variable D : list N.
Hypothesis SO : solve enc vl B T s1 s2 (fun _ => None) Y values (repeat 0%N (nbins B * btotal B)) = Some D.

(** What [D] says about a key *)
Lemma stored : exists f : N -> N,
  length D = nbins B * btotal B /\ Forall (value_ok vl) D
  /\ map f Y = values
  /\ (forall X vals T' s dec, countable enc B X -> length vals = length X -> 0 < T' ->
        bdecode enc vl B T' s X vals D = Some dec -> dec = map f X)
  /\ (forall X vals T', countable enc B X -> length vals = length X -> 0 < T' ->
        exists s, bdecode enc vl B T' s X vals D = Some (map f X)).
Proof.
  destruct (solve_ok _ _ _ _ _ _ _ (roomy_fits _ _ _ _ _ U LV R) LV _ _ _ SO) as (cur & -> & BO).
  destruct R as (R1 & R2 & R3 & R4 & R5 & R6 & R7). destruct (usable_good _ U) as (Gd & Sz & Wp & Mp).
  assert (HG : bglimit B + bssp B < 256) by apply U.
  set (curp := padded (nbins B) (total (binp B)) cur).
  assert (BOp : forall b, b < nbins B -> bin_out enc vl B Y values (fun _ => None) b = Some (curp b)).
  { intros b Hb. unfold curp, padded. replace (b <? nbins B) with true by lia. apply BO. exact Hb. }
  assert (CL : forall b, length (curp b) = total (binp B)).
  { intros b. unfold curp, padded. destruct (Nat.ltb_spec b (nbins B)) as [Hb|Hb]; [|apply repeat_length].
    apply (bin_out_length _ _ _ _ _ _ _ _ (BO b Hb)). }
  destruct (bin_values_ok enc vl B (fun _ => None) Y values U LV R7 GB _ BOp 0 ltac:(lia)) as [DO _].
  assert (N64 : (N.of_nat (nbins B) < 2 ^ 64)%N) by (assert ((256 < 2 ^ 64)%N) by reflexivity; lia).
  exists (fun k => value_of vl B curp (key_hash enc k)).
  rewrite <- (whole_padded (nbins B) (total (binp B)) cur). fold curp. split; [|split; [|split; [|split]]].
  - rewrite (btotal_is B HG). unfold whole.
    assert (X0 : forall k s, length (concat (map curp (seq s k))) = k * total (binp B)).
    { induction k as [|k IH]; intros s; [reflexivity|]. cbn [seq map concat]. rewrite app_length, IH, CL. lia. }
    apply X0.
  - unfold whole. apply Forall_forall. intros x I. apply in_concat in I. destruct I as (l & I & Ix).
    apply in_map_iff in I. destruct I as (b & <- & I). apply in_seq in I.
    destruct (bin_out_store _ _ _ _ _ _ _ _ LV (BOp b ltac:(lia))) as (_ & o & t' & E).
    unfold bin_store, store in E. apply bind_inv in E. destruct E as (o1 & _ & E).
    apply encode_values in E.
    + rewrite Forall_forall in E. apply E, Ix.
    + apply Forall_forall. intros v Hv. unfold bin_values in Hv. apply in_map_iff in Hv. destruct Hv as ((x' & v') & <- & Hv).
      unfold bin_pairs in Hv. apply filter_In in Hv. destruct Hv as [Hv _]. apply in_combine_r in Hv.
      rewrite Forall_forall in VO. apply VO, Hv.
  - assert (H := all_values enc vl B (fun _ => None) Y values U LV R7 GB curp BOp ltac:(lia)).
    unfold set_dense in H. rewrite map_map in H. exact H.
  - intros X vals T' s dec CT Lv HT' HD.
    apply bdecode_ok in HD; auto; try lia.
    + rewrite HD. unfold set_dense. rewrite map_map. reflexivity.
    + intros b Hb. rewrite load_hashes. apply CT, Hb.
  - intros X vals T' CT Lv HT'.
    destruct (bdecode_total enc vl B Gd Wp Mp DO ltac:(lia) N64 HG curp CL X) with (T := T') (vals := vals) as (s & E); auto; try lia.
    + intros b Hb. rewrite load_hashes. apply CT, Hb.
    + exists s. rewrite E. unfold set_dense. rewrite map_map. reflexivity.
Qed.
End Store.

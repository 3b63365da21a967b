(** C76: VOLE end to end. *)
From Coq Require Import NArith ZArith List Bool Arith Lia.
From Coq Require Import ZifyBool ZifyNat ZifyN.
From Verif.Base Require Import Words ListX Mem.
From Verif.Utility Require Import SerialModel.
From Verif.Group Require Import ECModel ECProofs ZqGroup.
From Verif.Net Require Import PartyModel PartyProofs.
From Verif.OT Require Import OTModel OTSpec OTProofs OTProps.
From Verif.OKVS Require Import GFModel GFProofs.
From Verif.VOLE Require Import BVModel BVProofs GGMModel VOLEModel VOLESpec VOLEProofs.
Import ListNotations.

(** the system randomness and the memory hold 128-bit blocks *)
Definition random_ok (r : vole_random) : Prop :=
  ot_ok (ot1 r) /\ ot_ok (ot2 r) /\
  (base_entropy r < 2 ^ 128 /\ seed_k r < 2 ^ 128 /\ seed_1 r < 2 ^ 128 /\ seed_2 r < 2 ^ 128)%N /\
  Forall (fun x => (x < 2 ^ 128)%N) (behind_m0 r) /\ Forall (fun x => (x < 2 ^ 128)%N) (behind_m1 r).

Lemma spare_dims : forall n t D, dims_of n t = Some D -> extend_len D - select_len D = spare n t.
Proof.
  intros n t D. unfold dims_of. destruct (_ || _); [discriminate|].
  assert (X : forall a b : dims, Some a = Some b -> a = b) by congruence. intros E. apply X in E. rewrite <- E. clear E.
  cbn [extend_len select_len]. unfold spare, transfers.
  set (s := Nat.log2_up (2 * n / t) * (t - 1) + Nat.log2_up ((2 * n) mod t + 2 * n / t)).
  clearbody s. pose proof (Nat.mod_upper_bound s 128 ltac:(lia)).
  destruct (Nat.eqb_spec (s mod 128) 0) as [E|E].
  - rewrite E. change ((128 - 0) mod 128) with 0. lia.
  - rewrite (Nat.mod_small (128 - s mod 128)) by lia. lia.
Qed.

(** C76, for every number n of correlations, t trees with t <= n and n below
    2^32 / 48, every delta and all random choices: both parties end with n
    128-bit elements each and B = C + A * delta at every position (+ is xor).  For n < 256
    nothing else is required (the base protocol is used).  Otherwise the transfer
    reads [spare n t] elements behind three vectors: whatever these are, the
    results are correct, provided that this memory can be read. *)
Theorem C76_vole_partial :
  forall G hash, (forall s, length (hash s) = 32%nat /\ bytes_ok (hash s)) ->
  forall g r n t delta, random_ok r -> (delta < 2 ^ 128)%N ->
  n < 256 \/ (1 <= t <= n /\ (48 * N.of_nat n < 2 ^ 32)%N /\
              spare n t <= length (behind_m0 r) /\ spare n t <= length (behind_m1 r) /\ spare n t <= length (behind_bits r)) ->
  exists A C B, ends (VOLE_A G hash g r n t) (VOLE_B G hash g r n t delta) (A, C) B /\
    blocks n A /\ blocks n C /\ blocks n B /\
    forall i, i < n -> nth i B 0%N = N.lxor (nth i C 0%N) (gf128_mul (nth i A 0%N) delta).
Proof.
  intros G hash HH g r n t delta (O1 & O2 & (HB & HK & H1 & H2) & F0 & F1) Hd Hc. unfold VOLE_A, VOLE_B.
  destruct (Nat.ltb_spec n 256) as [Hn|Hn].
  - destruct (base_t_run G hash HH g (ot1 r) (base_entropy r) n delta O1 HB Hd) as (us & ws & vs & E & Bu & Bw & Bv & CO).
    exists us, ws, vs. split; [exact E|]. split; [exact Bu|]. split; [exact Bw|]. split; [exact Bv|].
    intros i Hi. rewrite <- CO by exact Hi. rewrite (N.lxor_comm (nth i vs 0%N)), <- N.lxor_assoc, N.lxor_nilpotent.
    symmetry. apply N.lxor_0_l.
  - destruct Hc as [Hc|(Ht & Hs & L0 & L1 & Lb)]; [lia|].
    destruct (base_t_run G hash HH g (ot1 r) (base_entropy r) t delta O1 HB Hd) as (us & ws & vs & E & Bu & Bw & Bv & CO).
    destruct (dims_exist n t Ht) as (D & ED & OK). rewrite <- (spare_dims n t D ED) in L0, L1, Lb.
    destruct (tmp_run G hash HH g (ot2 r) (seed_k r) (seed_1 r) (seed_2 r) (behind_m0 r) (behind_m1 r) (behind_bits r) n t D us ws vs delta
      O2 HK H1 H2 Ht ltac:(lia) Hs ED OK F0 F1 L0 L1 Lb Bu Bw Bv CO) as (A & C & B & EN & LA & LC & EB).
    exists A, C, B. split; [eapply ends_bind; [exact E|exact EN]|]. split; [exact LA|]. split; [exact LC|].
    destruct LA as [LA FA], LC as [LC FC].
    assert (NB : forall i, i < n -> nth i B 0%N = N.lxor (nth i C 0%N) (gf128_mul (nth i A 0%N) delta)).
    { intros i Hi. rewrite EB, (map2_nth _ _ _ i 0%N 0%N) by lia. reflexivity. }
    split; [|exact NB]. assert (LB : length B = n) by (rewrite EB, map2_length; lia). split; [exact LB|].
    apply Forall_forall. intros v I. apply (In_nth _ _ 0%N) in I. destruct I as (i & Hi & <-). rewrite NB by lia.
    apply lxor_lt; [apply OTProofs.nth_blk, FC|apply gf128_mul_lt].
Qed.
Print Assumptions C76_vole_partial.

(** With the default t = 128 nothing is read behind the vectors when the last tree
    is as deep as the others, for example for every multiple of 64. *)
Theorem C76_default_no_spare : forall n, Nat.log2_up ((2 * n) mod 128 + 2 * n / 128) = Nat.log2_up (2 * n / 128) -> spare n 128 = 0.
Proof.
  intros n H. unfold spare, transfers. rewrite H. set (l := Nat.log2_up (2 * n / 128)).
  replace (l * (128 - 1) + l) with (l * 128) by lia. rewrite Nat.mod_mul by discriminate. reflexivity.
Qed.
Theorem C76_multiples_of_64 : forall k, spare (64 * k) 128 = 0.
Proof.
  intros k. apply C76_default_no_spare. replace (2 * (64 * k)) with (k * 128) by lia. rewrite Nat.mod_mul by discriminate. reflexivity.
Qed.

(** Refuted for the other lengths: the sender reads vec_m0 and vec_m1 and the
    receiver reads vec_select_bit beyond their ends.  When nothing can be read
    behind vec_select_bit, the run fails, for every group, randomness and delta. *)
Theorem C76_spare_refuted :
  forall G hash, (forall s, length (hash s) = 32%nat /\ bytes_ok (hash s)) ->
  forall g r n t delta, random_ok r -> (delta < 2 ^ 128)%N ->
  256 <= n -> 1 <= t <= n -> (48 * N.of_nat n < 2 ^ 32)%N -> spare n t <> 0 -> behind_bits r = [] ->
  crashes (VOLE_A G hash g r n t) (VOLE_B G hash g r n t delta).
Proof.
  intros G hash HH g r n t delta (O1 & O2 & (HB & HK & H1 & H2) & F0 & F1) Hd Hn Ht Hs SP HE. unfold VOLE_A, VOLE_B.
  destruct (Nat.ltb_spec n 256) as [Hl|_]; [lia|].
  destruct (base_t_run G hash HH g (ot1 r) (base_entropy r) t delta O1 HB Hd) as (us & ws & vs & E & Bu & Bw & Bv & CO).
  destruct (dims_exist n t Ht) as (D & ED & OK). rewrite <- (spare_dims n t D ED) in SP.
  eapply crashes_bind; [exact E|]. rewrite HE.
  apply (tmp_crash G hash HH g (ot2 r) (seed_k r) (seed_1 r) (seed_2 r) (behind_m0 r) (behind_m1 r) n t D us ws vs delta); auto. lia.
Qed.
Print Assumptions C76_spare_refuted.

(** The hypotheses are met: 256 and 2^20 correlations (nothing is read behind the
    vectors), and 1000 of them (125 elements are) *)
Definition example_ot (x : N) : ot_random := mkOT x (x + 1) (fun i => Z.of_nat (i + 3)) 3 (fun i => Z.of_nat (2 * i)) [] [].
Definition example_random : vole_random := mkVR (example_ot 1) (example_ot 5) 11 12 13 14 [] [] [].
Example C76_hypotheses : random_ok example_random /\ spare 256 128 = 0 /\ spare 1000 128 = 125.
Proof.
  split; [|split; vm_compute; reflexivity]. repeat split; constructor.
Qed.
Example C76_run : exists A C B,
  ends (VOLE_A G101 toy_hash (p101 1) example_random 256 128) (VOLE_B G101 toy_hash (p101 1) example_random 256 128 77) (A, C) B /\
  forall i, i < 256 -> nth i B 0%N = N.lxor (nth i C 0%N) (gf128_mul (nth i A 0%N) 77).
Proof.
  destruct (C76_vole_partial G101 toy_hash toy_hash_ok (p101 1) example_random 256 128 77) as (A & C & B & E & _ & _ & _ & K).
  - apply C76_hypotheses.
  - reflexivity.
  - right. split; [lia|]. split; [reflexivity|]. change (spare 256 128) with (spare (64 * 4) 128). rewrite C76_multiples_of_64.
    cbn [example_random behind_m0 behind_m1 behind_bits length]. lia.
  - exists A, C, B. split; [exact E|exact K].
Qed.

Print Assumptions C76_default_no_spare.
Print Assumptions C76_multiples_of_64.

(** Property C108: what the 8-byte keys of the discrete-log table identify. *)
From Coq Require Import NArith ZArith List Lia Bool Arith Permutation.
From Coq Require Import ZifyBool ZifyNat ZifyN.
From Verif.Base Require Import Words ListX.
From Verif.Utility Require Import Murmur2Model Murmur2Proofs.
From Verif.Group Require Import ECModel ECProofs ZqGroup.
From Verif.PKE Require Import DlogModel DlogSpec DlogProofs DlogProps ElGamalModel ElGamalProofs ElGamalProps.
Import ListNotations.

(** ** What holds: strings of one length that differ in one aligned word of 8 bytes have
    different hashes. *)
Theorem C108_one_word_partial : forall seed pre w w' post,
  (seed < 2 ^ 64)%N -> Nat.modulo (length pre) 8 = 0 -> length w = 8 -> length w' = 8 -> bytes_ok w -> bytes_ok w' ->
  MurmurHash64A (pre ++ w ++ post) (length (pre ++ w ++ post)) seed =
  MurmurHash64A (pre ++ w' ++ post) (length (pre ++ w' ++ post)) seed -> w = w'.
Proof.
  intros seed pre w w' post Hs Hp L L' B B' E.
  destruct (hash_of_word seed pre post Hs Hp) as (f & g & I & H). rewrite !H in E by assumption.
  assert (E' : f (le_val w) = f (le_val w')) by congruence.
  assert (V : w64 (le_val w)) by (pose proof (le_val_lt w B) as X; rewrite L in X; exact X).
  assert (V' : w64 (le_val w')) by (pose proof (le_val_lt w' B') as X; rewrite L' in X; exact X).
  destruct (I _ V) as (_ & _ & I1 & _). destruct (I _ V') as (_ & _ & I1' & _).
  assert (X : le_val w = le_val w') by congruence.
  rewrite <- (le_bytes_val w B), <- (le_bytes_val w' B'), X, L, L'. reflexivity.
Qed.
Print Assumptions C108_one_word_partial.

(** ** What fails: whatever the rest of the string is, one word makes the hash any value. *)
Theorem C108_preimage_refuted : forall seed pre post t,
  (seed < 2 ^ 64)%N -> Nat.modulo (length pre) 8 = 0 -> (t < 2 ^ 64)%N ->
  exists w, length w = 8 /\ bytes_ok w /\
    MurmurHash64A (pre ++ w ++ post) (length (pre ++ w ++ post)) seed = Some t.
Proof.
  intros seed pre post t Hs Hp Ht. destruct (hash_of_word seed pre post Hs Hp) as (f & g & I & H).
  destruct (I t Ht) as (_ & Lg & _ & E).
  exists (le_bytes 8 (g t)). split; [apply le_bytes_length|]. split; [apply le_bytes_ok|].
  rewrite H by apply le_bytes_length. rewrite le_val_bytes by exact Lg. rewrite E. reflexivity.
Qed.
Print Assumptions C108_preimage_refuted.

(** *** Two points of the curve prime256v1 (the default of the library), the first being its
    generator, with one key *)
Local Open Scope Z_scope.
Definition p256 : Z := 2 ^ 256 - 2 ^ 224 + 2 ^ 192 + 2 ^ 96 - 1.
Definition b256 : Z := 0x5ac635d8aa3a93e7b3ebbd55769886bc651d06b0cc53b0f63bce3c3e27d2604b.
(** the curve equation y^2 = x^3 - 3 x + b *)
Definition on_curve (P : Z * Z) : Prop :=
  let '(x, y) := P in 0 <= x < p256 /\ 0 <= y < p256 /\ (y * y) mod p256 = (x * x * x - 3 * x + b256) mod p256.
(** the compressed encoding (SEC 1): the parity of y and x *)
Definition compressed (P : Z * Z) : list N :=
  (Z.to_N (2 + snd P mod 2)) :: be_bytes 32 (Z.to_N (fst P)).
Definition generator256 : Z * Z :=
  (0x6b17d1f2e12c4247f8bce6e563a440f277037d812deb33a0f4a13945d898c296,
   0x4fe342e2fe1a7f9b8ee7eb4a7c0f9e162bce33576b315ececbb6406837bf51f5).
Definition other256 : Z * Z :=
  (0x6b17d1f2e12c44b4f87c51dd30db99f277037d812deb33a0f4a13945d898c296,
   0x1ab6b9d56462ed718e0c7e55238a9b49f036306247f3c3beb42584111c16bf72).
Theorem C108_points_refuted :
  on_curve generator256 /\ on_curve other256 /\ compressed generator256 <> compressed other256 /\
  length (compressed generator256) = 33%nat /\
  ToUint64 (compressed generator256) = ToUint64 (compressed other256) /\
  ToUint64 (compressed generator256) = Some 0xc321ff7966de02db%N.
Proof.
  split; [repeat split; vm_compute; try reflexivity; discriminate|].
  split; [repeat split; vm_compute; try reflexivity; discriminate|].
  split; [intros E; apply (f_equal (fun l => nth 7 l 0%N)) in E; vm_compute in E; discriminate|].
  split; [reflexivity|].
  assert (A : ToUint64 (compressed generator256) = Some 0xc321ff7966de02db%N) by (vm_compute; reflexivity).
  split; [|exact A]. rewrite A. vm_compute. reflexivity.
Qed.
Print Assumptions C108_points_refuted.

(** ** The consequence: a hit in the table is not checked.  For every group and key function, a
    point that shares its key with one of the table and is no power in the range is reported
    with a wrong logarithm, by every interleaving. *)
Lemma wrong_hit : forall (G : ECGroup) (key : pt G -> N) g h R T st b x0 sched,
  CheckDlogParameters R T = true -> loaded G key g R T st -> (b < BABYSTEP_NUM R T)%nat ->
  key h = key (pmul G g (Z.of_nat b)) ->
  (forall y, 0 <= y < covered R T -> ~ is_dlog G g h y) ->
  finished G (run G key st h R T x0 sched) = true ->
  exists x, ShanksDLOG G key st h R T x0 sched = Some (true, x) /\ 0 <= x < covered R T /\ ~ is_dlog G g h x.
Proof.
  intros G key g h R T st b x0 sched C LD Hb HK Out F.
  assert (Hf : exists b', hfind (index_map G st) (key h) = Some b').
  { rewrite HK. apply (ld_complete _ _ _ _ _ _ LD). exact Hb. }
  assert (T0 : tgt G g h R T (0 * SLICED_GIANTSTEP_NUM R T + 0)%nat = h).
  { unfold tgt. cbn [Nat.mul Nat.add]. change (Z.of_nat 0) with 0%Z. rewrite Z.mul_0_l, pmul_0.
    unfold psub. rewrite pneg_inf. apply padd_inf. }
  pose proof (run_result G key st g h R T x0 (ld_giant _ _ _ _ _ _ LD) (ld_anchors _ _ _ _ _ _ LD) C sched F) as [S N].
  cbv zeta in S, N.
  destruct (check_facts R T C) as [_ [_ [_ [Pg _]]]].
  assert (FT : FIND G (run G key st h R T x0 sched) = true).
  { destruct (FIND G _) eqn:E; [reflexivity|]. exfalso. destruct (N eq_refl) as [_ M].
    specialize (M 0%nat 0%nat ltac:(unfold SEARCH_TASK_NUM, LOG_TASK_NUM; cbn; lia) Pg).
    unfold miss in M. rewrite T0 in M. destruct Hf as [b' Hf]. congruence. }
  assert (X : 0 <= xval G (run G key st h R T x0 sched) < covered R T).
  { destruct (S FT) as [i [j [b' [Hi [[Hj Hh] ->]]]]].
    assert (Bb : (b' < BABYSTEP_NUM R T)%nat) by (apply (ld_sound _ _ _ _ _ _ LD) in Hh; apply Hh).
    pose proof (index_bound R T C i j Hi Hj) as Bk. unfold hitval, covered.
    assert (Z.of_nat j + Z.of_nat i * Z.of_nat (SLICED_GIANTSTEP_NUM R T)
            = Z.of_nat (i * SLICED_GIANTSTEP_NUM R T + j))%Z as -> by lia. nia. }
  exists (xval G (run G key st h R T x0 sched)). split; [|split; [exact X|apply Out; exact X]].
  unfold ShanksDLOG. destruct (index_map G st) eqn:E.
  - exfalso. destruct Hf as [b' Hf]. discriminate Hf.
  - rewrite FT. reflexivity.
Qed.
Theorem C108_search_refuted : forall (G : ECGroup) (key : pt G -> N), (forall P, (key P < 2 ^ 64)%N) ->
  forall g h R T st b x0 sched,
  good_params G g R T -> after_load G key g R T st -> (b < BABYSTEP_NUM R T)%nat -> key h = key (pmul G g (Z.of_nat b)) ->
  (forall y, 0 <= y < covered R T -> ~ is_dlog G g h y) ->
  finished G (run G key st h R T x0 sched) = true ->
  exists x, ShanksDLOG G key st h R T x0 sched = Some (true, x) /\ 0 <= x < covered R T /\ ~ is_dlog G g h x.
Proof.
  intros G key K64 g h R T st b x0 sched GP AL.
  apply wrong_hit; [apply GP|]. exact (after_load_loaded G key K64 g R T st GP AL).
Qed.
Print Assumptions C108_search_refuted.

(** For exponential ElGamal, whose table is the one of the generator: a ciphertext of such a
    point, made by anybody from the public key, decrypts to a number instead of being refused. *)
Theorem C108_decryption_refuted : forall (G : ECGroup) (key : pt G -> N), (forall P, (key P < 2 ^ 64)%N) ->
  forall L T pp st sk pk r Q b sched,
  e_ready G key L T pp st -> E_KeyGen G pp sk = (pk, sk) -> (b < BABYSTEP_NUM L T)%nat ->
  key Q = key (pmul G (pgen G) (Z.of_nat b)) ->
  (forall y, 0 <= y < covered L T -> ~ is_dlog G (pgen G) Q y) ->
  finished G (run G key st Q L T 0 sched) = true ->
  exists m, E_Dec G key pp st sk {| eX := pmul G (e_g G pp) r; eY := padd G (pmul G pk r) Q |} sched = Some m /\
    pmul G (pgen G) m <> Q.
Proof.
  intros G key K64 L T pp st sk pk r Q b sched R K Hb HK Out F.
  destruct (e_ready_loaded G key K64 _ _ _ _ R) as [C LD]. destruct R as [-> [Cov _]].
  inversion K; subst pk; clear K. unfold E_Dec. cbn [eX eY e_len e_trade e_g E_Setup].
  assert (E : psub G (padd G (pmul G (pmul G (pgen G) sk) r) Q) (pmul G (pmul G (pgen G) r) sk) = Q) by (logs G; gring).
  rewrite E. destruct (wrong_hit G key _ _ _ _ _ _ 0 sched C LD Hb HK Out F) as (x & S & _ & N).
  exists x. rewrite S. split; [reflexivity|]. intros D. apply N. exact D.
Qed.
Print Assumptions C108_decryption_refuted.

(** The hypotheses of both are met, in a group of 4099 elements by a key that is the number of the
    point modulo 4096: the point 4097, no power below 4096, has the key of the point 1. *)
Definition key4096 (P : pt G4099) : N := (key4099 P mod 4096)%N.
Lemma key4096_64 : forall P, (key4096 P < 2 ^ 64)%N.
Proof.
  intros P. unfold key4096. pose proof (N.mod_lt (key4099 P) 4096). change (2 ^ 64)%N with 18446744073709551616%N. lia.
Qed.
Example C108_hypotheses : exists st x,
  after_load G4099 key4096 (pgen G4099) 12 0 st /\
  (forall y, 0 <= y < covered 12 0 -> ~ is_dlog G4099 (pgen G4099) (pmul G4099 (pgen G4099) 4097) y) /\
  ShanksDLOG G4099 key4096 st (pmul G4099 (pgen G4099) 4097) 12 0 0 round_robin = Some (true, x) /\
  ~ is_dlog G4099 (pgen G4099) (pmul G4099 (pgen G4099) 4097) x /\
  e_ready G4099 key4096 12 0 (E_Setup G4099 12 0) st.
Proof.
  pose proof (params_4099 (pgen G4099) (pgen_finite G4099)) as GP.
  destruct (C27_load_succeeds G4099 key4096 key4096_64 (pgen G4099) 12 0 (repeat 7%N 65) _ GP eq_refl bs_ok) as [st E].
  assert (AL : after_load G4099 key4096 (pgen G4099) 12 0 st)
    by (exists (repeat 7%N 65), (rev (seq 0 BUILD_TASK_NUM)); split; [reflexivity|]; split; [apply bs_ok|exact E]).
  assert (Out : forall y, 0 <= y < covered 12 0 -> ~ is_dlog G4099 (pgen G4099) (pmul G4099 (pgen G4099) 4097) y).
  { intros y B D. unfold is_dlog in D. apply (f_equal (@proj1_sig _ _)) in D.
    assert (P1 : proj1_sig (pmul G4099 (pgen G4099) y) = ((1 * y) mod 4099)%Z) by reflexivity.
    assert (P2 : proj1_sig (pmul G4099 (pgen G4099) 4097) = 4097%Z) by reflexivity.
    change (covered 12 0) with 4096%Z in B. rewrite P1, P2 in D.
    rewrite Z.mul_1_l, Z.mod_small in D by lia. lia. }
  destruct (C108_search_refuted G4099 key4096 key4096_64 (pgen G4099) (pmul G4099 (pgen G4099) 4097) 12 0 st 1 0 round_robin GP AL)
    as (x & S & _ & N).
  - vm_compute. lia.
  - reflexivity.
  - exact Out.
  - apply C27_search_terminates. apply round_robin_long.
  - exists st, x. split; [exact AL|]. split; [exact Out|]. split; [exact S|]. split; [exact N|].
    split; [reflexivity|]. split; [apply GP|].
    exists (repeat 7%N 65), (rev (seq 0 BUILD_TASK_NUM)),
      (Some (table_file G4099 key4096 (repeat 7%N 65) (pgen G4099) 12 0 (rev (seq 0 BUILD_TASK_NUM)))).
    split; [reflexivity|]. split; [apply bs_ok|]. split.
    + right. exists (repeat 7%N 65), (rev (seq 0 BUILD_TASK_NUM)). split; [reflexivity|]. split; [apply bs_ok|reflexivity].
    + exact E.
Qed.

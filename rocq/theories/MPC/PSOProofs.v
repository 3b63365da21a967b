From Coq Require Import NArith ZArith List Bool Arith Lia Permutation.
From Coq Require Import ZifyBool ZifyNat ZifyN.
From Verif.Base Require Import Words ListX.
From Verif.Crypto Require Import BigIntModel BigIntProofs BigIntProps PRGModel PRGProofs AESProps.
From Verif.Group Require Import ECModel ECProofs.
From Verif.Net Require Import ChannelModel ChannelSpec PartyModel PartyProofs.
From Verif.OT Require Import OTModel OTSpec OTProofs OTRun OTProps.
From Verif.MPC Require Import PSOModel PSOSpec.
Import ListNotations.

Lemma correct_up_to : forall X Y bits, correct_bits X Y bits <-> bits_up_to (fun _ => False) X Y bits.
Proof.
  intros X Y bits. split; intros [L H]; (split; [exact L|]); intros i Hi; specialize (H i Hi).
  - destruct H as [[E I]|[E I]]; rewrite E; (split; [auto|split]); auto; try contradiction; discriminate.
  - destruct H as [B [A C]]. destruct B as [E|E]; [left; split; [exact E|]; destruct (C E); [assumption|contradiction]|].
    right. split; [exact E|]. intros I. specialize (A I). congruence.
Qed.
Lemma up_to_tail : forall Err x X Y b bits, bits_up_to Err (x :: X) Y (b :: bits) -> bits_up_to Err X Y bits.
Proof.
  intros Err x X Y b bits [L H]. split; [cbn [length] in L; lia|]. intros i Hi. apply (H (S i)). cbn [length]. lia.
Qed.
Lemma up_to_bits : forall Err X Y bits, bits_up_to Err X Y bits -> bit_vector (length X) bits.
Proof.
  intros Err X Y bits [L H]. split; [exact L|]. apply Forall_forall. intros b I. apply In_nth with (d := 2%N) in I. destruct I as [i [Hi <-]].
  rewrite L in Hi. destruct (H i Hi) as [[|] _]; auto.
Qed.
Lemma picked_up_to : forall Err X Y bits, bits_up_to Err X Y bits -> forall z,
  (In z X -> In z Y -> In z (picked bits X)) /\ (In z (picked bits X) -> In z X /\ (In z Y \/ Err z)).
Proof.
  intros Err. induction X as [|x X IH]; intros Y [|b bits] H z.
  - split; [intros []|intros []].
  - split; [intros []|intros []].
  - destruct H as [L _]; discriminate.
  - assert (T := IH Y bits (up_to_tail _ _ _ _ _ _ H) z). destruct T as [T1 T2]. destruct H as [_ H]. specialize (H 0%nat ltac:(cbn [length]; lia)).
    cbn [nth] in H. destruct H as [B [A C]]. cbn [picked]. destruct (N.eqb_spec b 1) as [E|E]; split.
    + intros [->|I] IY; [left; reflexivity|right; exact (T1 I IY)].
    + intros [->|I]; [split; [left; reflexivity|exact (C E)]|]. destruct (T2 I) as [I1 I2]. split; [right; exact I1|exact I2].
    + intros [->|I] IY; [exfalso; exact (E (A IY))|exact (T1 I IY)].
    + intros I. destruct (T2 I) as [I1 I2]. split; [right; exact I1|exact I2].
Qed.
Lemma flipped_up_to : forall (A : Type) (f : A -> N) Err X Y bits, bits_up_to Err (map f X) (map f Y) bits -> forall z,
  (In z (picked (flip_bits bits) X) -> In z X /\ ~ In (f z) (map f Y)) /\
  (In z X -> ~ In (f z) (map f Y) -> In z (picked (flip_bits bits) X) \/ Err (f z)).
Proof.
  intros A f Err. induction X as [|x X IH]; intros Y [|b bits] H z.
  - split; [intros []|intros []].
  - split; [intros []|intros []].
  - destruct H as [L _]; discriminate.
  - assert (T := IH Y bits (up_to_tail _ _ _ _ _ _ H) z). destruct T as [T1 T2]. destruct H as [_ H]. specialize (H 0%nat ltac:(cbn [map length]; lia)).
    cbn [map nth] in H. destruct H as [B [A1 C]]. cbn [flip_bits map picked]. fold (flip_bits bits).
    destruct B as [-> | ->]; cbn [N.lxor N.eqb Pos.eqb]; split.
    + intros I. destruct (T1 I) as [I1 I2]. split; [right; exact I1|exact I2].
    + intros [->|I] IY; [destruct (C eq_refl); [contradiction|right; assumption]|exact (T2 I IY)].
    + intros [->|I]; [split; [left; reflexivity|]; intros IY; specialize (A1 IY); discriminate|]. destruct (T1 I) as [I1 I2]. split; [right; exact I1|exact I2].
    + intros [->|I] IY; [left; left; reflexivity|]. destruct (T2 I IY); [left; right; assumption|right; assumption].
Qed.
Lemma picked_correct : forall X Y bits, correct_bits X Y bits -> picked bits X = common N.eq_dec X Y.
Proof.
  induction X as [|x X IH]; intros Y [|b bits] H.
  - reflexivity.
  - reflexivity.
  - destruct H as [L _]; discriminate.
  - destruct H as [L H]. cbn [picked common filter]. pose proof (H 0%nat ltac:(cbn [length]; lia)) as H0. cbn [nth] in H0.
    assert (T : picked bits X = common N.eq_dec X Y).
    { apply IH. split; [cbn [length] in L; lia|]. intros i Hi. apply (H (S i)). cbn [length]. lia. }
    rewrite T. unfold common. destruct (in_dec N.eq_dec x Y) as [I|I]; destruct H0 as [[-> I']|[-> I']]; try contradiction; reflexivity.
Qed.
Lemma flipped_correct : forall (A : Type) (dec : @eq_dec A) (f : A -> N) (X Y : list A) bits,
  (forall x y, In x X -> In y Y -> f x = f y -> x = y) ->
  correct_bits (map f X) (map f Y) bits -> picked (flip_bits bits) X = only dec X Y.
Proof.
  intros A dec f. induction X as [|x X IH]; intros Y [|b bits] INJ H.
  - reflexivity.
  - reflexivity.
  - destruct H as [L _]; discriminate.
  - destruct H as [L H]. cbn [flip_bits map picked only filter]. fold (flip_bits bits). pose proof (H 0%nat ltac:(cbn [map length]; lia)) as H0. cbn [map nth] in H0.
    assert (T : picked (flip_bits bits) X = only dec X Y).
    { apply IH; [intros a c Ia Ic; apply INJ; [right; exact Ia|exact Ic]|]. split; [cbn [map length] in L; lia|]. intros i Hi. apply (H (S i)). cbn [map length]. lia. }
    rewrite T. unfold only. destruct (in_dec dec x Y) as [I|I]; destruct H0 as [[-> I']|[-> I']]; cbn [N.lxor N.eqb Pos.eqb]; try reflexivity; exfalso.
    + apply I'. apply in_map. exact I.
    + apply I. apply in_map_iff in I'. destruct I' as [y [E Iy]]. rewrite (INJ x y); [exact Iy|left; reflexivity|exact Iy|symmetry; exact E].
Qed.
Lemma flip_length : forall bits, length (flip_bits bits) = length bits.
Proof. intros. unfold flip_bits. apply map_length. Qed.
Lemma picked_pad : forall A (bits : list N) (X : list A) k P, length bits = length X -> picked (bits ++ repeat 0%N k) (X ++ P) = picked bits X.
Proof.
  intros A. induction bits as [|b bits IH]; intros [|x X] k P L; try discriminate.
  - cbn [app]. revert P. induction k as [|k IHk]; intros P; [reflexivity|]. destruct P as [|p P]; [reflexivity|]. cbn [repeat picked N.eqb]. rewrite IHk. reflexivity.
  - cbn [app picked]. rewrite IH by (cbn [length] in L; lia). reflexivity.
Qed.
Lemma cardinality_sum : forall bits n, bit_vector n bits -> (N.of_nat n < 2 ^ 64)%N -> cardinality bits = N.of_nat (length (picked bits bits)).
Proof.
  intros bits n [L F] B. unfold cardinality.
  assert (X : forall l c, Forall (fun b => b = 0 \/ b = 1)%N l -> (c + N.of_nat (length l) < 2 ^ 64)%N ->
    fold_left (fun c b => wrap64 (c + b)) l c = (c + N.of_nat (length (picked l l)))%N).
  { clear. induction l as [|b l IH]; intros c F B; [cbn [fold_left picked length]; lia|]. inversion F as [|? ? Fb Fl]; subst. cbn [length] in B. cbn [fold_left picked].
    unfold wrap64, wrap. rewrite N.mod_small by lia. destruct Fb as [->| ->]; cbn [N.eqb Pos.eqb]; rewrite IH by (try exact Fl; lia); cbn [length]; lia. }
  rewrite X by (try exact F; rewrite L; lia). lia.
Qed.
Lemma picked_length : forall A B (bits : list N) (X : list A) (Y : list B), length X = length Y -> length (picked bits X) = length (picked bits Y).
Proof.
  intros A B. induction bits as [|b bits IH]; intros [|x X] [|y Y] L; try discriminate; try reflexivity.
  cbn [picked]. destruct (b =? 1)%N; cbn [length]; rewrite (IH X Y) by (cbn [length] in L; lia); reflexivity.
Qed.

(** sums *)
Fixpoint zsum (f : nat -> Z) (n : nat) : Z := match n with O => 0%Z | S m => (zsum f m + f m)%Z end.
Lemma zsum_ext : forall f g n, (forall i, (i < n)%nat -> f i = g i) -> zsum f n = zsum g n.
Proof. intros f g. induction n as [|n IH]; intros H; [reflexivity|]. cbn [zsum]. rewrite IH, H by (try intros; try apply H; lia). reflexivity. Qed.
Lemma zsum_front : forall f n, zsum f (S n) = (f 0%nat + zsum (fun i => f (S i)) n)%Z.
Proof. intros f. induction n as [|n IH]; [cbn [zsum]; lia|]. cbn [zsum] in *. lia. Qed.
Lemma zsum_add : forall f g n, (zsum f n + zsum g n)%Z = zsum (fun i => f i + g i)%Z n.
Proof. intros f g. induction n as [|n IH]; [reflexivity|]. cbn [zsum]. lia. Qed.
Lemma zsum_cong : forall B f g n, (0 < B)%Z -> (forall i, (i < n)%nat -> (f i mod B = g i mod B)%Z) -> (zsum f n mod B = zsum g n mod B)%Z.
Proof.
  intros B f g n HB. induction n as [|n IH]; intros H; [reflexivity|]. cbn [zsum]. rewrite Z.add_mod, IH, H, <- Z.add_mod by (try intros; try apply H; lia). reflexivity.
Qed.
Lemma zsum_bounds : forall f n, (forall i, (i < n)%nat -> (0 <= f i)%Z) -> (0 <= zsum f n)%Z.
Proof. intros f. induction n as [|n IH]; intros H; [reflexivity|]. cbn [zsum]. specialize (IH ltac:(intros; apply H; lia)). specialize (H n ltac:(lia)). lia. Qed.
Lemma fold_zsum : forall f n s, fold_left (fun s i => (s + f i)%Z) (seq 0 n) s = (s + zsum f n)%Z.
Proof.
  intros f. induction n as [|n IH]; intros s; [cbn; lia|]. rewrite seq_S, fold_left_app. cbn [fold_left zsum]. rewrite IH. rewrite Nat.add_0_l. lia.
Qed.
Lemma fold_map_zsum : forall f n, fold_left Z.add (map f (seq 0 n)) 0%Z = zsum f n.
Proof.
  intros f n. rewrite <- (Z.add_0_l (zsum f n)), <- fold_zsum. generalize 0%Z. generalize (seq 0 n). induction l as [|i l IH]; intros s; [reflexivity|]. cbn [map fold_left]. apply IH.
Qed.
Lemma sum_common_zsum : forall X v Y, (length X <= length v)%nat ->
  sum_common X v Y = zsum (fun i => if in_dec N.eq_dec (nth i X 0%N) Y then nth i v 0%Z else 0%Z) (length X).
Proof.
  induction X as [|x X IH]; intros [|a v] Y L; try reflexivity; [cbn [length] in L; lia|]. cbn [length]. rewrite zsum_front. cbn [sum_common nth].
  rewrite IH by (cbn [length] in L; lia). reflexivity.
Qed.

(** Property C52: the message channel. *)
From Coq Require Import NArith ZArith List Lia Arith Bool.
From Coq Require Import ZifyBool ZifyNat ZifyN.
From Verif.Base Require Import Words ListX.
From Verif.Utility Require Import SerialModel SerialProofs.
From Verif.Crypto Require Import BigIntModel BigIntProofs.
From Verif.Group Require Import ECModel ECProofs ZqGroup.
From Verif.Net Require Import ChannelModel ChannelSpec ChannelProofs.
Import ListNotations.

Section Props.
Variable G : ECGroup.

(** However the reads and writes are fragmented and interleaved, a receiver that has
    finished has the messages that were sent, in order. *)
Theorem C52_received_is_sent : forall gb ms ts bufs s got, length gb = 65%nat -> Forall2 (fits G) ms ts ->
  sends G gb ms = Some bufs -> rp (run_turns (start bufs (recvs G ts)) s) = Done got -> got = ms.
Proof.
  intros gb ms ts bufs s got LG F E R. destruct (recvs_sends G gb ms ts [] LG F) as [bufs' [E' X]].
  assert (bufs' = bufs) by congruence. subst bufs'. rewrite app_nil_r in X.
  destruct (run_eat _ s (start bufs (recvs G ts)) (start_inv _ _ _)) as [Y _]. rewrite R in Y. cbn [eat] in Y.
  unfold stream in Y. cbn [start have pipe todo rp app] in Y. rewrite X in Y. congruence.
Qed.

(** And it finishes, once both parties have had enough turns in which something can be
    transferred. *)
Theorem C52_finishes : forall gb ms ts, length gb = 65%nat -> Forall2 (fits G) ms ts ->
  exists bufs, sends G gb ms = Some bufs /\
  exists bound, forall rounds, Forall round rounds -> (bound < length rounds)%nat ->
    rp (run_turns (start bufs (recvs G ts)) (concat rounds)) = Done ms.
Proof.
  intros gb ms ts LG F. destruct (recvs_sends G gb ms ts [] LG F) as [bufs [E X]]. exists bufs. split; [exact E|].
  exists (mu _ (start bufs (recvs G ts))). intros rounds FR L.
  assert (D := rounds_done _ rounds (start bufs (recvs G ts)) (start_inv _ _ _)).
  destruct D as [got D].
  - unfold stream. cbn [start have pipe todo rp app]. rewrite app_nil_r in X. rewrite X. discriminate.
  - exact FR.
  - exact L.
  - rewrite D. f_equal. exact (C52_received_is_sent gb ms ts bufs _ got LG F E D).
Qed.

(** What is false for a peer that stops early: the receiver never finishes, whatever the
    schedule (the loop of ReceiveDataInternal has no end-of-file case). *)
Theorem C52_short_stream_hangs : forall A bufs (p : prog A) n f s,
  p = Recv n f -> (length (concat bufs) < n)%nat -> forall a, rp (run_turns (start bufs p) s) <> Done a.
Proof.
  intros A bufs p n f s -> L a R. destruct (run_eat _ s (start bufs (Recv n f)) (start_inv _ _ _)) as [Y _]. rewrite R in Y.
  cbn [eat start rp] in Y. unfold stream in Y at 1 2 3 4. cbn [start have pipe todo app] in Y.
  destruct (Nat.leb_spec n (length (concat bufs))); [lia|discriminate].
Qed.

(** What is false without [fits]: a number that needs more than its LEN bytes arrives as
    0, a negative number as its absolute value, and the items of a vector are cut to the
    length of the first one. *)
Theorem C52_large_number_refuted : forall gb LEN a bufs rest, (256 ^ Z.of_nat LEN <= Z.abs a)%Z ->
  send G gb (MBigInt G LEN a) = Some bufs -> eat (recv G (TBigInt G LEN)) (concat bufs ++ rest) = Some (MBigInt G LEN 0, rest).
Proof.
  intros gb LEN a bufs rest B E. cbn [send] in E. injection E as <-. unfold bigint_buffer. rewrite binpad_none.
  2: { assert (X : Z.of_N (256 ^ N.of_nat LEN) = (256 ^ Z.of_nat LEN)%Z) by (rewrite N2Z.inj_pow; f_equal; lia). lia. }
  cbn [concat recv]. rewrite app_nil_r, eat_exact by (symmetry; apply repeat_length). cbn [eat]. do 3 f_equal.
  unfold BN_bin2bn, be_val. clear. assert (R : forall n, rev (repeat 0%N n) = repeat 0%N n).
  { intros n. apply list_eq_nth with (d := 0%N); [rewrite rev_length; reflexivity|]. intros i Hi. rewrite rev_length, repeat_length in Hi.
    rewrite rev_nth by (rewrite repeat_length; exact Hi). rewrite !nth_repeat. reflexivity. }
  rewrite R. induction LEN as [|n IH]; [reflexivity|]. cbn [repeat le_val]. lia.
Qed.
Theorem C52_sign_refuted : forall gb LEN a bufs rest, (- 256 ^ Z.of_nat LEN < a < 0)%Z ->
  send G gb (MBigInt G LEN a) = Some bufs -> eat (recv G (TBigInt G LEN)) (concat bufs ++ rest) = Some (MBigInt G LEN (- a), rest).
Proof.
  intros gb LEN a bufs rest B E. apply (recv_send G (repeat 0%N 65)); [reflexivity|cbn [fits]; lia|].
  cbn [send] in *. rewrite <- E. unfold bigint_buffer. assert (X : Z.of_N (256 ^ N.of_nat LEN) = (256 ^ Z.of_nat LEN)%Z) by (rewrite N2Z.inj_pow; f_equal; lia).
  rewrite !binpad_some by lia. replace (Z.abs_N (- a)) with (Z.abs_N a) by lia. reflexivity.
Qed.
Theorem C52_uneven_items_refuted : forall gb d1 d2 bufs rest, (length d1 < length d2)%nat -> (N.of_nat (length d1) * 2 < 2 ^ 64)%N ->
  send G gb (MBytesVec G [d1; d2]) = Some bufs ->
  eat (recv G (TBytesVec G)) (concat bufs ++ rest) = Some (MBytesVec G [d1; firstn (length d1) d2], rest).
Proof.
  intros gb d1 d2 bufs rest L B E.
  assert (L2 : length (firstn (length d1) d2) = length d1) by (rewrite firstn_length; lia).
  apply (recv_send G (repeat 0%N 65)); [reflexivity| |].
  - cbn [fits]. split; [discriminate|]. exists (length d1). split; [repeat constructor; exact L2|]. cbn [length]. lia.
  - rewrite <- E. cbn [send pack]. rewrite L2.
    destruct (Nat.ltb_spec (length d1) (length d1)); [lia|]. destruct (Nat.ltb_spec (length d2) (length d1)); [lia|].
    rewrite firstn_firstn, Nat.min_id. reflexivity.
Qed.
End Props.

(** ** the hypotheses are met by concrete, non-trivial data *)
Definition msgs52 : list (msg G101) :=
  [MInt G101 8 300; MPoints G101 [p101 5; inf G101; p101 17]; MBlocks G101 [1; 2 ^ 127]; MBytesVec G101 [[1; 2]; [3; 4]; [5; 6]];
   MBigInt G101 32 123456789; MBytes G101 []; MStringVec G101 3 [[65; 66; 67]; [68; 69; 70]]]%N.
Definition targets52 : list (target G101) :=
  [TInt G101 8; TPoints G101 [inf G101; inf G101; inf G101]; TBlocks G101 2; TBytesVec G101; TBigInt G101 32; TBytes G101 0; TStringVec G101 3].
Example C52_hypotheses : Forall2 (fits G101) msgs52 targets52.
Proof.
  apply Forall2_cons; [split; reflexivity|].
  apply Forall2_cons; [cbn [fits]; repeat constructor; intros _; reflexivity|].
  apply Forall2_cons; [split; [reflexivity|]; repeat constructor|].
  apply Forall2_cons; [split; [discriminate|]; exists 2%nat; repeat constructor|].
  apply Forall2_cons; [split; [reflexivity|]; split; [discriminate|reflexivity]|].
  apply Forall2_cons; [reflexivity|].
  apply Forall2_cons; [repeat constructor|].
  apply Forall2_nil.
Qed.
(** a schedule with fragments of at most three bytes *)
Example C52_run : match sends G101 (repeat 9%N 65) msgs52 with
  | Some bufs => match rp (run_turns (start bufs (recvs G101 targets52)) (concat (repeat [Rcv 2; Snd 3; Rcv 1; Snd 1] 200))) with
                 | Done got => map (fun m => match m with MBytes _ d => length d | MBytesVec _ v => length v | _ => 0%nat end) got
                               = [0; 0; 0; 3; 0; 0; 0]%nat
                 | Recv _ _ => False end
  | None => False end.
Proof. vm_compute. reflexivity. Qed.

Print Assumptions C52_received_is_sent.
Print Assumptions C52_finishes.
Print Assumptions C52_short_stream_hangs.
Print Assumptions C52_large_number_refuted.
Print Assumptions C52_sign_refuted.
Print Assumptions C52_uneven_items_refuted.

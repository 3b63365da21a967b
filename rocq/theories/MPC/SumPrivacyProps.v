(** Property C111: what the two parties of the private sum learn, where the oblivious transfer
    gives the receiver the chosen messages and nothing else. *)
From Coq Require Import NArith ZArith List Lia Bool Arith.
From Coq Require Import ZifyBool ZifyNat ZifyN.
From Verif.Base Require Import Words ListX Draws.
From Verif.Crypto Require Import BigIntModel BigIntProofs.
From Verif.Group Require Import ECModel.
From Verif.Net Require Import ChannelModel PartyModel.
From Verif.OT Require Import OTModel OTSpec OTProofs OTRun.
From Verif.MPC Require Import PSOModel PSOSpec PSOProofs PSOProps.
Import ListNotations.
Local Open Scope Z_scope.

(** ** Specification *)
(** the draws of the sender: n numbers below the bound *)
Definition masks (n : nat) (B : Z) (r : list Z) : Prop := length r = n /\ forall i, (i < n)%nat -> 0 <= nth i r 0 < B.
(** the sum of the values at the positions of the bits that are set *)
Fixpoint selected_sum (bits : list N) (v : list Z) : Z :=
  match bits, v with
  | b :: bits', x :: v' => (if (b =? 0)%N then 0 else x) + selected_sum bits' v'
  | _, _ => 0
  end.

(** ** The pairs of messages the sender puts into the transfer, and the number the receiver
    sends back, as the programs compute them *)
(** /repo mpc/pso/mqrpmt_psi_card_sum.hpp:139-151 *)
Definition sum_m0 (n LOG : nat) (r : list Z) : list (list N) :=
  map (fun i => ToByteVector (nth i r 0) (LOG / 8)) (seq 0 n).
Definition sum_m1 (n LOG : nat) (v r : list Z) : list (list N) :=
  map (fun i => ToByteVector (BigInt_Mod (nth i v 0 + nth i r 0) (2 ^ Z.of_nat LOG)) (LOG / 8)) (seq 0 n).
(** :196-209 *)
Definition answer (n LOG : nat) (result : list (list N)) : Z :=
  BigInt_Mod (fold_left (fun s i => s + FromByteVector (nth i result [])) (seq 0 n) 0) (2 ^ Z.of_nat LOG).

(** They are the ones of the programs. *)
Lemma Sum_Send_messages : forall (G : ECGroup) hash g D mqClient n LOG LOGV r X v, length X = n -> (n <= length v)%nat ->
  (LOG < 64 /\ LOGV < 64)%nat ->
  Sum_Send G hash g D mqClient n LOG LOGV (fun i => nth i r 0) X v =
  pbind (mqClient X) (fun _ =>
    pbind (OTE_SendByteVector G (ot_send G hash g D n) (sum_m0 n LOG r) (sum_m1 n LOG v r) n) (fun _ =>
    get_int 8 (fun CARDINALITY => get_bigint (LOG / 8) (fun SUM =>
    Ret ((CARDINALITY, BigInt_Mod (SUM - fold_left Z.add (map (fun i => nth i r 0) (seq 0 n)) 0) (2 ^ Z.of_nat LOG)),
      map (fun i => BigInt_Mod (nth i v 0 + nth i r 0) (2 ^ Z.of_nat LOG)) (seq 0 n) ++ skipn n v))))).
Proof.
  intros G hash g D mqClient n LOG LOGV r X v LX LV [L1 L2]. unfold Sum_Send.
  rewrite LX, Nat.eqb_refl, !two_to_some by assumption. cbn [local].
  replace (has n v) with true by (symmetry; apply Nat.leb_le; exact LV). cbv zeta.
  assert (E : map (fun i => ToByteVector (nth i (map (fun i0 => BigInt_Mod (nth i0 v 0 + nth i0 r 0) (2 ^ Z.of_nat LOG)) (seq 0 n) ++ skipn n v) 0) (LOG / 8)) (seq 0 n)
              = sum_m1 n LOG v r).
  { apply map_ext_in. intros i Hi. apply in_seq in Hi. rewrite app_nth1 by (rewrite map_length, seq_length; lia).
    rewrite nth_map_seq by lia. reflexivity. }
  rewrite E. reflexivity.
Qed.
Lemma Sum_Receive_answer : forall (G : ECGroup) hash g D mqServer n LOG Y, length Y = n -> (LOG < 64)%nat ->
  Sum_Receive G hash g D mqServer n LOG Y =
  pbind (mqServer Y) (fun bits =>
    pbind (OTE_ReceiveByteVector G (ot_recv G hash g D (length bits)) bits (length bits)) (fun result =>
    if has n result then Put (MInt G 8 (cardinality bits)) (Put (MBigInt G (LOG / 8) (answer n LOG result)) (Ret (cardinality bits))) else Fail)).
Proof.
  intros G hash g D mqServer n LOG Y LY L. unfold Sum_Receive. rewrite LY, Nat.eqb_refl, !two_to_some by assumption. reflexivity.
Qed.

Lemma mod_B : forall a LOG, BigInt_Mod a (2 ^ Z.of_nat LOG) = a mod 2 ^ Z.of_nat LOG.
Proof.
  intros a LOG. assert (0 < 2 ^ Z.of_nat LOG) by (apply Z.pow_pos_nonneg; lia).
  unfold BigInt_Mod, BN_nnmod, checked. destruct (Z.eqb_spec (2 ^ Z.of_nat LOG) 0); [lia|]. rewrite Z.abs_eq by lia. reflexivity.
Qed.
Lemma received_map : forall n LOG v r bits, length bits = n ->
  chosen bits (sum_m0 n LOG r) (sum_m1 n LOG v r) =
  map (fun i => ToByteVector (if (nth i bits 0 =? 0)%N then nth i r 0 else (nth i v 0 + nth i r 0) mod 2 ^ Z.of_nat LOG) (LOG / 8)) (seq 0 n).
Proof.
  intros n LOG v r bits L. symmetry. apply map_seq_chosen with (d := []); [exact L| | |].
  - unfold sum_m0. rewrite map_length, seq_length. reflexivity.
  - unfold sum_m1. rewrite map_length, seq_length. reflexivity.
  - intros i Hi. unfold sum_m0, sum_m1. rewrite !nth_map_seq, mod_B by exact Hi. destruct (nth i bits 0 =? 0)%N; reflexivity.
Qed.

(** The receiver: whatever bits it has, what the transfer gives it is distributed in the same way
    for every two vectors of values.  So it learns nothing about the values, common or not. *)
Theorem C111_values_hidden : forall n LOG v v' bits, length bits = n ->
  equally_distributed (masks n (2 ^ Z.of_nat LOG)) (masks n (2 ^ Z.of_nat LOG))
    (fun r => chosen bits (sum_m0 n LOG r) (sum_m1 n LOG v r))
    (fun r => chosen bits (sum_m0 n LOG r) (sum_m1 n LOG v' r)).
Proof.
  intros n LOG v v' bits L. set (B := 2 ^ Z.of_nat LOG). assert (HB : 0 < B) by (apply Z.pow_pos_nonneg; lia).
  set (F := fun (v v' r : list Z) => map (fun i => if (nth i bits 0 =? 0)%N then nth i r 0 else (nth i v 0 + nth i r 0 - nth i v' 0) mod B) (seq 0 n)).
  assert (K : forall v v' r, masks n B r ->
    masks n B (F v v' r) /\
    chosen bits (sum_m0 n LOG (F v v' r)) (sum_m1 n LOG v' (F v v' r)) = chosen bits (sum_m0 n LOG r) (sum_m1 n LOG v r) /\
    F v' v (F v v' r) = r).
  { clear v v'. intros v v' r [Lr Br]. split; [|split].
    - split; [unfold F; rewrite map_length, seq_length; reflexivity|]. intros i Hi. unfold F. rewrite nth_map_seq by exact Hi.
      destruct (nth i bits 0 =? 0)%N; [apply Br, Hi|apply Z.mod_pos_bound, HB].
    - rewrite !received_map by exact L. apply map_ext_in. intros i Hi. apply in_seq in Hi. unfold F. rewrite nth_map_seq by lia.
      destruct (nth i bits 0 =? 0)%N; [reflexivity|]. fold B. f_equal.
      rewrite Z.add_mod_idemp_r by lia. f_equal. lia.
    - apply (nth_ext _ _ 0 0); [unfold F; rewrite map_length, seq_length; congruence|].
      intros i Hi. unfold F in Hi at 1. rewrite map_length, seq_length in Hi. unfold F. rewrite !nth_map_seq by exact Hi.
      destruct (nth i bits 0 =? 0)%N; [reflexivity|].
      replace (nth i v' 0 + (nth i v 0 + nth i r 0 - nth i v' 0) mod B - nth i v 0)
        with ((nth i v' 0 - nth i v 0) + (nth i v 0 + nth i r 0 - nth i v' 0) mod B) by lia.
      rewrite Z.add_mod_idemp_r by lia.
      replace (nth i v' 0 - nth i v 0 + (nth i v 0 + nth i r 0 - nth i v' 0)) with (nth i r 0) by lia.
      apply Z.mod_small, Br, Hi. }
  exists (F v v'), (F v' v). split; intros r M; apply K, M.
Qed.
Print Assumptions C111_values_hidden.

(** The sender: what it receives is the selected sum plus its own masks, so that it learns nothing
    more than the sum modulo the bound. *)
Lemma selected_zsum : forall bits v, length v = length bits ->
  selected_sum bits v = zsum (fun i => if (nth i bits 0 =? 0)%N then 0 else nth i v 0) (length bits).
Proof.
  induction bits as [|b bits IH]; intros [|x v] L; cbn [length] in L; try lia; [reflexivity|].
  cbn [selected_sum length]. rewrite zsum_front. cbn [nth]. rewrite (IH v) by lia. reflexivity.
Qed.
Theorem C111_answer : forall n LOG v r bits, length bits = n -> length v = n -> (LOG mod 8 = 0)%nat -> masks n (2 ^ Z.of_nat LOG) r ->
  answer n LOG (chosen bits (sum_m0 n LOG r) (sum_m1 n LOG v r)) =
  (selected_sum bits v + selected_sum (repeat 1%N n) r) mod 2 ^ Z.of_nat LOG.
Proof.
  intros n LOG v r bits L Lv L8 [Lr Br].
  assert (P : 256 ^ Z.of_nat (LOG / 8) = 2 ^ Z.of_nat LOG).
  { change 256 with (2 ^ 8). rewrite <- Z.pow_mul_r by lia. f_equal. pose proof (Nat.div_mod LOG 8 ltac:(lia)). lia. }
  unfold answer. rewrite mod_B. set (B := 2 ^ Z.of_nat LOG) in *. assert (HB : 0 < B) by (apply Z.pow_pos_nonneg; lia).
  rewrite fold_zsum, Z.add_0_l, (received_map n LOG v r bits L). fold B.
  rewrite !selected_zsum by (rewrite ?repeat_length; congruence). rewrite repeat_length, L, zsum_add.
  apply zsum_cong; [exact HB|]. intros i Hi. rewrite nth_map_seq by exact Hi.
  assert (R1 : nth i (repeat 1%N n) 0%N = 1%N) by (rewrite (nth_indep _ 0%N 1%N) by (rewrite repeat_length; exact Hi); apply nth_repeat). rewrite R1. cbn [N.eqb].
  destruct (nth i bits 0 =? 0)%N.
  - rewrite byte_back by (rewrite P; apply Br, Hi). reflexivity.
  - rewrite byte_back by (rewrite P; apply Z.mod_pos_bound, HB). rewrite Z.mod_mod by lia. reflexivity.
Qed.
Print Assumptions C111_answer.
(** Two receivers and two vectors of values with one sum: the sender receives the same number. *)
Theorem C111_only_the_sum : forall n LOG v v' r bits bits', length bits = n -> length bits' = n -> length v = n -> length v' = n ->
  (LOG mod 8 = 0)%nat -> masks n (2 ^ Z.of_nat LOG) r ->
  selected_sum bits v mod 2 ^ Z.of_nat LOG = selected_sum bits' v' mod 2 ^ Z.of_nat LOG ->
  answer n LOG (chosen bits (sum_m0 n LOG r) (sum_m1 n LOG v r)) = answer n LOG (chosen bits' (sum_m0 n LOG r) (sum_m1 n LOG v' r)).
Proof.
  intros n LOG v v' r bits bits' L L' Lv Lv' L8 M E. rewrite !C111_answer by assumption.
  assert (0 < 2 ^ Z.of_nat LOG) by (apply Z.pow_pos_nonneg; lia).
  rewrite Z.add_mod, E, <- Z.add_mod by lia. reflexivity.
Qed.
Print Assumptions C111_only_the_sum.

(** The hypotheses are met. *)
Example C111_hypotheses :
  masks 3 (2 ^ Z.of_nat 16) [1000; 65535; 7] /\
  chosen [1; 0; 1]%N (sum_m0 3 16 [1000; 65535; 7]) (sum_m1 3 16 [5; 6; 65530] [1000; 65535; 7]) = [[3; 237]; [255; 255]; [0; 1]]%N /\
  answer 3 16 [[3; 237]; [255; 255]; [0; 1]]%N = 1005 /\ selected_sum [1; 0; 1]%N [5; 6; 65530] = 65535 /\
  selected_sum [0; 1; 0]%N [5; 65535; 65530] = 65535.
Proof.
  split; [split; [reflexivity|]; intros [|[|[|i]]] Hi; cbn [nth]; change (2 ^ Z.of_nat 16) with 65536; lia|].
  repeat split; vm_compute; reflexivity.
Qed.

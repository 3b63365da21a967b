(** Properties C98 (privacy of the base OT) and C99 (blinding of the DDH-OPRF client). *)
From Coq Require Import NArith ZArith List Lia Bool Arith Setoid Morphisms.
From Coq Require Import ZifyBool ZifyNat ZifyN.
From Verif.Base Require Import Words ListX.
From Verif.Crypto Require Import BigIntModel BigIntSpec BigIntProofs.
From Verif.Group Require Import ECModel ECProofs ZqGroup.
From Verif.Net Require Import ChannelModel PartyModel.
From Verif.OT Require Import OTModel OTProps PrivacySpec.
From Verif.MPC Require Import HashModel DDHModel.
Import ListNotations.
Local Open Scope Z_scope.

Section Privacy.
Variable G : ECGroup.
Variable hash : list N -> list N.
Local Notation q := (order G).
Local Infix "+p" := (padd G) (at level 50, left associativity).
Local Notation "P *p k" := (pmul G P k%Z) (at level 40, left associativity).
Local Notation "a == b" := (cong q a b) (at level 70).

(** ** C98 *)
(** mirror the keys of the positions where the choices differ *)
Definition flip (c : Z) (b b' : list N) (LEN : nat) (l : list Z) : list Z :=
  map (fun i => if Bool.eqb (nth i b 0 =? 1)%N (nth i b' 0 =? 1)%N then ith l i else modq G (c - ith l i)) (seq 0 LEN).

Lemma ith_map : forall (f : nat -> Z) n i, (i < n)%nat -> ith (map f (seq 0 n)) i = f i.
Proof.
  intros f n i Hi. unfold ith. rewrite (nth_map' _ _ _ 0%nat) by (rewrite seq_length; exact Hi). rewrite seq_nth by exact Hi. reflexivity.
Qed.
Lemma scalars_ith : forall n l i, scalars G n l -> (i < n)%nat -> 0 <= ith l i < q.
Proof. intros n l i [L F] Hi. rewrite Forall_forall in F. apply F. apply nth_In. lia. Qed.
Lemma scalars_map : forall f n, (forall i, (i < n)%nat -> 0 <= f i < q) -> scalars G n (map f (seq 0 n)).
Proof.
  intros f n B. split; [rewrite map_length, seq_length; reflexivity|]. apply Forall_forall. intros a I. apply in_map_iff in I.
  destruct I as [i [<- I]]. apply in_seq in I. apply B. lia.
Qed.
Lemma map_ith : forall n l, length l = n -> map (ith l) (seq 0 n) = l.
Proof.
  intros n l L. apply nth_ext with (d := 0) (d' := 0); [rewrite map_length, seq_length; auto|]. intros i Hi.
  rewrite map_length, seq_length in Hi. exact (ith_map (ith l) n i Hi).
Qed.

Lemma flip_scalars : forall c b b' n l, scalars G n l -> scalars G n (flip c b b' n l).
Proof.
  intros c b b' n l S. apply scalars_map. intros i Hi. destruct (Bool.eqb _ _); [apply (scalars_ith n); assumption|apply modq_range].
Qed.
Lemma flip_back : forall c b b' n l, scalars G n l -> flip c b' b n (flip c b b' n l) = l.
Proof.
  intros c b b' n l S. rewrite <- (map_ith n l (proj1 S)) at 2. unfold flip at 1. apply map_ext_in. intros i I. apply in_seq in I.
  unfold flip. rewrite ith_map by lia. replace (Bool.eqb (nth i b' 0 =? 1)%N (nth i b 0 =? 1)%N) with (Bool.eqb (nth i b 0 =? 1)%N (nth i b' 0 =? 1)%N) by (destruct (nth i b 0 =? 1)%N, (nth i b' 0 =? 1)%N; reflexivity).
  destruct (Bool.eqb _ _); [reflexivity|]. rewrite <- (modq_small G (ith l i)) at 2 by (apply (scalars_ith n); [exact S|lia]).
  apply cong_modq. rewrite modq_cong. apply cong_eq. ring.
Qed.

(** Whatever the other side sends, what it sees of the receiver has the same distribution for
    all choices. *)
Theorem C98_receiver_private : forall g bits bits' LEN inbox, g <> inf G ->
  (LEN <= length bits)%nat -> (LEN <= length bits')%nat ->
  equally_distributed (scalars G LEN) (scalars G LEN)
    (fun sk => sends (NP_Receive G hash g (ith sk) bits LEN) inbox)
    (fun sk => sends (NP_Receive G hash g (ith sk) bits' LEN) inbox).
Proof.
  intros g bits bits' LEN inbox Ng Lb Lb'.
  assert (C0 : exists c, forall v rest, inbox = MPoints G v :: rest -> nth 0 v (inf G) = g *p c).
  { destruct inbox as [|[ | | |v| | | | ] rest]; try (exists 0; intros ? ? QQ; discriminate QQ).
    destruct (point_log G g (nth 0 v (inf G)) Ng) as [c E]. exists c. intros ? ? QQ. injection QQ as <- _. exact E. }
  destruct C0 as [c HC].
  assert (HALF : forall b b' sk, (LEN <= length b)%nat -> (LEN <= length b')%nat ->
     sends (NP_Receive G hash g (ith (flip c b b' LEN sk)) b' LEN) inbox = sends (NP_Receive G hash g (ith sk) b LEN) inbox).
  { intros b b' sk B B'. unfold NP_Receive, get_points, get_blocks. cbn [sends].
    destruct inbox as [|[ | | |v| | | | ] rest]; cbn [sends]; try reflexivity.
    specialize (HC v rest eq_refl).
    destruct rest as [|[ | | |X| | | | ] rest]; cbn [sends]; try reflexivity.
    unfold has. rewrite (proj2 (Nat.leb_le _ _) B), (proj2 (Nat.leb_le _ _) B'). cbn [sends]. f_equal.
    - f_equal. apply map_ext_in. intros i I. apply in_seq in I. unfold flip. rewrite ith_map by lia. rewrite HC.
      assert (M : forall s, psub G (g *p c) (g *p s) = g *p modq G (c - s)).
      { intros s. rewrite (pmul_cong G _ _ _ (modq_cong G _)). clear. logs G. gring. }
      destruct (nth i b 0 =? 1)%N, (nth i b' 0 =? 1)%N; cbn [Bool.eqb]; [reflexivity| | |reflexivity].
      + symmetry. apply M.
      + rewrite M. apply pmul_cong. rewrite !modq_cong. apply cong_eq. ring.
    - repeat (match goal with |- context [match ?m with _ => _ end] => is_var m; destruct m; cbn [sends]; try reflexivity end). }
  exists (flip c bits bits' LEN), (flip c bits' bits LEN). split; intros sk S; (split; [apply flip_scalars; exact S|split; [apply HALF; assumption|apply flip_back; exact S]]).
Qed.

(** Whatever the receiver sends as its keys, the two masks of a position are the hashes of two
    points that add up to the Diffie-Hellman value g^(d r) of the sender's C = g^d and X = g^r:
    whoever can unmask both messages of a position has computed it. *)
Theorem C98_sender_keys : forall g d r m0 m1 LEN pk0, (LEN <= length m0)%nat -> (LEN <= length m1)%nat ->
  exists K0 K1 : nat -> pt G,
    sends (NP_Send G hash g d r m0 m1 LEN) [MPoints G pk0] =
      [MPoints G [g *p d]; MPoints G (map (fun i => g *p r i) (seq 0 LEN));
       MBlocks G (map (fun i => N.lxor (ECPointToBlock G hash (K0 i)) (nth i m0 0%N)) (seq 0 LEN));
       MBlocks G (map (fun i => N.lxor (ECPointToBlock G hash (K1 i)) (nth i m1 0%N)) (seq 0 LEN))] /\
    (forall i, (i < LEN)%nat -> K0 i +p K1 i = g *p (d * r i)) /\
    (* the first one is the receiver's own key raised to r: only it can be known in advance *)
    (forall i, (i < LEN)%nat -> K0 i = nth i pk0 (inf G) *p r i).
Proof.
  intros g d r m0 m1 LEN pk0 L0 L1.
  exists (fun i => nth i pk0 (inf G) *p r i), (fun i => psub G (g *p d *p r i) (nth i pk0 (inf G) *p r i)). split; [|split].
  - unfold NP_Send, get_points, has. cbn [sends]. rewrite (proj2 (Nat.leb_le _ _) L0), (proj2 (Nat.leb_le _ _) L1). cbn [andb sends]. reflexivity.
  - intros i _. generalize (r i) (nth i pk0 (inf G)). clear. intros. logs G. gring.
  - reflexivity.
Qed.

(** ** C99 *)
Variable H : N -> pt G.

(** The request for one input, with a mask drawn below the order, has the same distribution
    for all inputs whose hash is not the point at infinity, whatever the server answers. *)
Theorem C99_single_input_blinded : forall garbage x x' inbox, H x <> inf G -> H x' <> inf G ->
  equally_distributed (fun r => 0 <= r < q) (fun r => 0 <= r < q)
    (fun r => sends (DDHOPRF_Client G H hash garbage r [x] 1) inbox)
    (fun r => sends (DDHOPRF_Client G H hash garbage r [x'] 1) inbox).
Proof.
  intros garbage x x' inbox N N'.
  destruct (point_log G (H x') (H x) N') as [k E].
  assert (NK : ~ k == 0) by (intros Z0; apply N; rewrite E, (pmul_cong G _ _ _ Z0); apply pmul_0).
  assert (S : forall r y, sends (DDHOPRF_Client G H hash garbage r [y] 1) inbox = [MPoints G [H y *p r]]).
  { intros r y. unfold DDHOPRF_Client, get_points. cbn [has length Nat.leb sends map seq nth]. f_equal.
    destruct inbox as [|m rest]; [reflexivity|]. destruct m; reflexivity. }
  exists (fun r => modq G (r * k)), (fun r => modq G (r * ModInverse k q)). split; intros r B; cbv beta.
  - split; [apply modq_range|]. rewrite !S. split.
    + rewrite E, pmul_mul, (pmul_cong G (H x') _ _ (modq_cong G _)), Z.mul_comm. reflexivity.
    + rewrite <- (modq_small G r B) at 2. apply cong_modq. rewrite modq_cong, <- Z.mul_assoc, (inv_cong G k NK). apply cong_eq. ring.
  - split; [apply modq_range|]. rewrite !S.
    assert (X : modq G (modq G (r * ModInverse k q) * k) = r).
    { rewrite <- (modq_small G r B) at 2. apply cong_modq. rewrite modq_cong, <- Z.mul_assoc, (Z.mul_comm (ModInverse k q)), (inv_cong G k NK). apply cong_eq. ring. }
    split; [|exact X]. rewrite E, pmul_mul. f_equal. f_equal. f_equal. apply pmul_cong. rewrite modq_cong.
    transitivity (r * (k * ModInverse k q)); [apply cong_eq; ring|]. rewrite (inv_cong G k NK). apply cong_eq. ring.
Qed.
End Privacy.

(** the hypotheses are met: a sender whose C is 5 g, three positions, two different choices *)
Example C98_case : p101 1 <> inf G101 /\ scalars G101 3 [7; 50; 100] /\
  sends (NP_Receive G101 toy_hash (p101 1) (ith [7; 50; 100]) [0; 1; 1]%N 3) [MPoints G101 [p101 5]; MPoints G101 [p101 3; p101 4; p101 6]]
    = [MPoints G101 [p101 7; p101 56; p101 6]] /\
  sends (NP_Receive G101 toy_hash (p101 1) (ith [99; 50; 6]) [1; 1; 0]%N 3) [MPoints G101 [p101 5]; MPoints G101 [p101 3; p101 4; p101 6]]
    = [MPoints G101 [p101 7; p101 56; p101 6]].
Proof.
  split; [discriminate|]. split; [split; [reflexivity|repeat constructor; change (order G101) with 101; lia]|].
  split; reflexivity.
Qed.
Example C99_case : let H (x : N) := p101 (Z.of_N x + 1) in H 3%N <> inf G101 /\ H 8%N <> inf G101 /\
  sends (DDHOPRF_Client G101 H toy_hash (fun _ => []) 9 [3%N] 1) [] = sends (DDHOPRF_Client G101 H toy_hash (fun _ => []) 4 [8%N] 1) [].
Proof. split; [discriminate|]. split; [discriminate|]. reflexivity. Qed.

Print Assumptions C98_receiver_private.
Print Assumptions C98_sender_keys.
Print Assumptions C99_single_input_blinded.

(** C56: the DDH-based OPRF; C64: the DDH-based private equality test. *)
From Coq Require Import NArith ZArith List Bool Arith Lia Permutation.
From Coq Require Import ZifyBool ZifyNat ZifyN.
From Verif.Base Require Import Words ListX.
From Verif.Crypto Require Import BigIntModel BigIntProofs BigIntProps.
From Verif.Group Require Import ECModel ECProofs ZqGroup.
From Verif.PKE Require Import DlogProps.
From Verif.Net Require Import ChannelModel ChannelSpec PartyModel PartyProofs.
From Verif.OT Require Import OTModel OTSpec OTProofs OTRun.
From Verif.MPC Require Import HashModel DDHModel DDHProofs.
Import ListNotations.

Section Props.
Variable G : ECGroup.
Variable set_compressed : list N -> N -> option (pt G).
Variable H : N -> pt G.
Variable hash : list N -> list N.
(** EC_POINT_set_compressed_coordinates never gives the point at infinity *)
Hypothesis set_finite : forall x y P, set_compressed x y = Some P -> P <> inf G.
(** H is the function computed by BlockToECPoint *)
Hypothesis H_value : hashes_to G set_compressed H.
Local Notation isblock x := (x < 2 ^ 128)%N.
Local Notation exponent z := (1 <= z < order G)%Z.

Lemma loop_finite : forall fuel b y P, point_loop G set_compressed fuel b y = Some P -> P <> inf G.
Proof.
  induction fuel as [|f IH]; intros b y P E; cbn [point_loop] in E; [discriminate|]. cbv zeta in E.
  destruct (set_compressed (octets (PRGModel.Dedicated_CBCAES b)) y) as [Q|] eqn:S; [|exact (IH _ _ _ E)].
  injection E as <-. exact (set_finite _ _ _ S).
Qed.
Lemma H_finite : forall x, isblock x -> H x <> inf G.
Proof. intros x B. destruct (H_value x B) as [fuel E]. exact (loop_finite _ _ _ _ E). Qed.
Lemma nth_block : forall X i, Forall (fun x => isblock x) X -> isblock (nth i X 0%N).
Proof.
  intros X i F. destruct (Nat.lt_ge_cases i (length X)) as [L|L]; [|rewrite nth_overflow by exact L; reflexivity].
  rewrite Forall_forall in F. apply F, nth_In, L.
Qed.
Lemma bytes_of_finite : forall g P, P <> inf G -> ECPointToBytes G hash g P = hash (comp33 G P).
Proof. intros g P F. unfold ECPointToBytes. destruct (peqb_spec G P (inf G)); [contradiction|reflexivity]. Qed.
Lemma key_back : forall k, exponent k -> FromByteVector (ToByteVector k BN_BYTE_LEN) = k.
Proof.
  intros k Hk. apply C17_bytes_round_trip_partial; [lia|]. pose proof (order_256 G). change (256 ^ Z.of_nat BN_BYTE_LEN)%Z with (2 ^ 256)%Z. lia.
Qed.

(** C56.  For every permutation, keys and masks other than 0, whatever the schedule, both parties end;
    the client's output at the permuted position of x is what Evaluate gives on x with the key the server
    got, in every later call, on every vector, at every position at which x occurs. *)
Theorem C56_client_equals_evaluate : forall k r permutation_map X n gc,
  exponent k -> exponent r -> length X = n -> Forall (fun x => isblock x) X -> Permutation permutation_map (seq 0 n) ->
  exists key out, ends (DDHOPRF_Server G k permutation_map n) (DDHOPRF_Client G H hash gc r X n) key out /\ length out = n /\
  forall ge Z m, (m <= length Z)%nat -> exists values, DDHOPRF_Evaluate G H hash ge key Z m = Some values /\ length values = m /\
  forall i j, (i < n)%nat -> (j < m)%nat -> nth i X 0%N = nth j Z 0%N -> nth (nth i permutation_map 0%nat) out [] = nth j values [].
Proof.
  intros k r pm X n gc Hk Hr L B P.
  destruct (scatter_spec (pt G) (inf G) n pm (fun i => pmul G (nth i (map (fun i => pmul G (H (nth i X 0%N)) r) (seq 0 n)) (inf G)) k) P) as [v [E [Lv Hv]]].
  exists (ToByteVector k BN_BYTE_LEN). eexists. split; [|split].
  - unfold DDHOPRF_Server, DDHOPRF_Client. rewrite has_true by exact L. flip.
    apply ab_points; [rewrite map_length, seq_length; reflexivity|]. rewrite E. cbn [local]. flip.
    apply ab_points; [exact Lv|]. apply ends_ret.
  - rewrite map_length, seq_length. reflexivity.
  - intros ge Z m Hm. unfold DDHOPRF_Evaluate. rewrite key_back by exact Hk.
    assert (Em : has m Z = true) by (apply Nat.leb_le, Hm). rewrite Em. eexists. split; [reflexivity|].
    split; [rewrite map_length, seq_length; reflexivity|]. intros i j Hi Hj EX.
    rewrite !nth_map_seq by (try exact Hj; apply perm_nth_lt; assumption).
    rewrite Hv by exact Hi. rewrite nth_map_seq by exact Hi. rewrite unmask by exact Hr. rewrite <- EX.
    assert (F : pmul G (H (nth i X 0%N)) k <> inf G) by (apply mul_finite; [apply H_finite, nth_block, B|exact Hk]).
    rewrite !bytes_of_finite by exact F. reflexivity.
Qed.
(** C56.  With the identity map the two vectors are equal. *)
Corollary C56_identity_map : forall k r X n gc ge, exponent k -> exponent r -> length X = n -> Forall (fun x => isblock x) X ->
  exists key out, ends (DDHOPRF_Server G k (seq 0 n) n) (DDHOPRF_Client G H hash gc r X n) key out /\
  DDHOPRF_Evaluate G H hash ge key X n = Some out.
Proof.
  intros k r X n gc ge Hk Hr L B.
  destruct (C56_client_equals_evaluate k r (seq 0 n) X n gc Hk Hr L B (Permutation_refl _)) as [key [out [E [Lo V]]]].
  exists key, out. split; [exact E|]. destruct (V ge X n ltac:(lia)) as [values [Ev [Lv Hv]]]. rewrite Ev. f_equal.
  apply list_eq_nth with (d := []); [congruence|]. intros i Hi. rewrite Lv in Hi. rewrite <- (Hv i i Hi Hi eq_refl). rewrite seq_nth by exact Hi. reflexivity.
Qed.
(** C56 fails at the edge: GenRandomBigIntLessThan may return 0, and with the mask 0 the client's outputs
    depend neither on its inputs nor on the key, only on uninitialised memory. *)
Theorem C56_zero_mask_refuted : forall k permutation_map X n gc, length X = n -> Permutation permutation_map (seq 0 n) ->
  ends (DDHOPRF_Server G k permutation_map n) (DDHOPRF_Client G H hash gc 0 X n) (ToByteVector k BN_BYTE_LEN)
    (map (fun i => hash (0%N :: skipn 1 (gc i))) (seq 0 n)).
Proof.
  intros k pm X n gc L P.
  destruct (scatter_spec (pt G) (inf G) n pm (fun i => pmul G (nth i (map (fun i => pmul G (H (nth i X 0%N)) 0) (seq 0 n)) (inf G)) k) P) as [v [E [Lv Hv]]].
  unfold DDHOPRF_Server, DDHOPRF_Client. rewrite has_true by exact L. flip.
  apply ab_points; [rewrite map_length, seq_length; reflexivity|]. rewrite E. cbn [local]. flip.
  apply ab_points; [exact Lv|].
  assert (M : map (fun i => ECPointToBytes G hash (gc i) (pmul G (nth i v (inf G)) (ModInverse 0 (order G)))) (seq 0 n) =
              map (fun i => hash (0%N :: skipn 1 (gc i))) (seq 0 n)).
  { apply map_ext_in. intros p Hp. apply in_seq in Hp. destruct (perm_onto n pm p P ltac:(lia)) as [i [Hi <-]].
    rewrite Hv by exact Hi. rewrite nth_map_seq by exact Hi. rewrite pmul_0, !inf_mul.
    unfold ECPointToBytes. destruct (peqb_spec G (inf G) (inf G)); [reflexivity|contradiction]. }
  cbv zeta. rewrite M. apply ends_ret.
Qed.

(** C64.  For every grid, every pair of shuffles and every non-zero key and mask, whatever the schedule, both
    parties end, the sender with the map (i,j) -> (row_map i, column_map j), the receiver with a 0/1 vector
    whose entry at the mapped position of (i,j) is 1 exactly when the two items hash to the same point. *)
Theorem C64_grid : forall k r row_map column_map X Y R C, exponent k -> exponent r ->
  length X = (R * C)%nat -> length Y = (R * C)%nat -> Permutation row_map (seq 0 R) -> Permutation column_map (seq 0 C) ->
  exists pm res, ends (PEQT_Send G H k row_map column_map Y R C) (PEQT_Receive G H r X R C) pm res /\
  Permutation pm (seq 0 (R * C)) /\ length res = (R * C)%nat /\
  forall i j, (i < R)%nat -> (j < C)%nat ->
    nth (i * C + j) pm 0%nat = (nth i row_map 0 * C + nth j column_map 0)%nat /\
    nth (nth (i * C + j) pm 0%nat) res 2%N = if peqb G (H (nth (i * C + j) X 0%N)) (H (nth (i * C + j) Y 0%N)) then 1%N else 0%N.
Proof.
  intros k r rm cm X Y R C Hk Hr LX LY PR PC.
  destruct (grid_map_spec rm cm R C PR PC) as [pm [Em [Pm Vm]]].
  destruct (scatter_spec (pt G) (inf G) (R * C) pm (fun i => pmul G (H (nth i Y 0%N)) k) Pm) as [fy [Ey [Ly Hy]]].
  destruct (scatter_spec (pt G) (inf G) (R * C) pm (fun i => pmul G (nth i (map (fun i => pmul G (H (nth i X 0%N)) r) (seq 0 (R * C))) (inf G)) k) Pm) as [fx [Ex [Lx Hx]]].
  exists pm. eexists. split; [|split; [exact Pm|]].
  - unfold PEQT_Send, PEQT_Receive. rewrite LX, LY. rewrite Em. cbn [local]. rewrite Ey. cbn [local]. flip.
    apply ab_points; [rewrite map_length, seq_length; reflexivity|]. flip. apply ab_points; [exact Ly|].
    rewrite Ex. cbn [local]. apply ab_points; [exact Lx|]. apply ends_ret.
  - split; [rewrite map_length, seq_length; reflexivity|]. intros i j Hi Hj. split; [apply Vm; assumption|].
    assert (Hk' : (i * C + j < R * C)%nat) by nia.
    rewrite nth_map_seq by (apply perm_nth_lt; assumption). rewrite Hy, Hx by exact Hk'. rewrite nth_map_seq by exact Hk'.
    rewrite unmask by exact Hr.
    destruct (peqb_spec G (H (nth (i * C + j) X 0%N)) (H (nth (i * C + j) Y 0%N))) as [Q|Q].
    + rewrite Q. destruct (peqb_spec G (pmul G (H (nth (i * C + j) Y 0%N)) k) (pmul G (H (nth (i * C + j) Y 0%N)) k)); [reflexivity|contradiction].
    + match goal with |- (if peqb G ?A ?B then _ else _) = _ => destruct (peqb_spec G A B) as [Q'|Q'] end; [|reflexivity].
      exfalso. apply Q. symmetry. exact (mul_key_inj G _ _ k Hk Q').
Qed.
(** C64.  If BlockToECPoint is injective on blocks, the bit is 1 exactly when the items are equal. *)
Corollary C64_equality : forall k r row_map column_map X Y R C, exponent k -> exponent r ->
  (forall x y, isblock x -> isblock y -> H x = H y -> x = y) -> Forall (fun x => isblock x) X -> Forall (fun x => isblock x) Y ->
  length X = (R * C)%nat -> length Y = (R * C)%nat -> Permutation row_map (seq 0 R) -> Permutation column_map (seq 0 C) ->
  exists pm res, ends (PEQT_Send G H k row_map column_map Y R C) (PEQT_Receive G H r X R C) pm res /\
  forall i j, (i < R)%nat -> (j < C)%nat ->
    (nth (nth (i * C + j) pm 0%nat) res 2%N = 1%N /\ nth (i * C + j) X 0%N = nth (i * C + j) Y 0%N \/
     nth (nth (i * C + j) pm 0%nat) res 2%N = 0%N /\ nth (i * C + j) X 0%N <> nth (i * C + j) Y 0%N).
Proof.
  intros k r rm cm X Y R C Hk Hr Inj BX BY LX LY PR PC.
  destruct (C64_grid k r rm cm X Y R C Hk Hr LX LY PR PC) as [pm [res [E [_ [_ V]]]]]. exists pm, res. split; [exact E|].
  intros i j Hi Hj. destruct (V i j Hi Hj) as [_ ->].
  destruct (peqb_spec G (H (nth (i * C + j) X 0%N)) (H (nth (i * C + j) Y 0%N))) as [Q|Q].
  - left. split; [reflexivity|]. apply Inj in Q; auto using nth_block.
  - right. split; [reflexivity|]. intros Z. apply Q. congruence.
Qed.
(** C64 fails at the edge: with the key 0, or with the mask 0 and any finite hashes, the bits are constant. *)
Theorem C64_zero_key_refuted : forall r row_map column_map X Y R C,
  length X = (R * C)%nat -> length Y = (R * C)%nat -> Permutation row_map (seq 0 R) -> Permutation column_map (seq 0 C) ->
  exists pm res, ends (PEQT_Send G H 0 row_map column_map Y R C) (PEQT_Receive G H r X R C) pm res /\
  forall p, (p < R * C)%nat -> nth p res 2%N = 1%N.
Proof.
  intros r rm cm X Y R C LX LY PR PC.
  destruct (grid_map_spec rm cm R C PR PC) as [pm [Em [Pm Vm]]].
  destruct (scatter_spec (pt G) (inf G) (R * C) pm (fun i => pmul G (H (nth i Y 0%N)) 0) Pm) as [fy [Ey [Ly Hy]]].
  destruct (scatter_spec (pt G) (inf G) (R * C) pm (fun i => pmul G (nth i (map (fun i => pmul G (H (nth i X 0%N)) r) (seq 0 (R * C))) (inf G)) 0) Pm) as [fx [Ex [Lx Hx]]].
  exists pm. eexists. split.
  - unfold PEQT_Send, PEQT_Receive. rewrite LX, LY. rewrite Em. cbn [local]. rewrite Ey. cbn [local]. flip.
    apply ab_points; [rewrite map_length, seq_length; reflexivity|]. flip. apply ab_points; [exact Ly|].
    rewrite Ex. cbn [local]. apply ab_points; [exact Lx|]. apply ends_ret.
  - intros p Hp. rewrite nth_map_seq by exact Hp. destruct (perm_onto _ pm p Pm Hp) as [i [Hi <-]].
    rewrite Hy, Hx by exact Hi. rewrite !pmul_0, inf_mul. destruct (peqb_spec G (inf G) (inf G)); [reflexivity|contradiction].
Qed.
End Props.

(** A concrete case for the hypotheses: the group of order 4099, a "curve" that accepts every x coordinate, three
    inputs, a non-trivial permutation, a 2 x 2 grid. *)
Definition toy_curve (x : list N) (y : N) : option (pt G4099) :=
  Some (pmul G4099 (pgen G4099) (1 + Z.of_N (nth 0 x 0 * 16 + y)%N mod 4098)%Z).
Definition toy_H (var : N) : pt G4099 :=
  match BlockToECPoint G4099 toy_curve 1 var with Some P => P | None => inf G4099 end.
Example DDH_hypotheses :
  (forall x y P, toy_curve x y = Some P -> P <> inf G4099) /\ hashes_to G4099 toy_curve toy_H /\
  (1 <= 77 < order G4099)%Z /\ Permutation [2; 0; 1]%nat (seq 0 3) /\ Permutation [1; 0]%nat (seq 0 2).
Proof.
  split; [|split; [|split; [|split]]].
  - intros x y P E. unfold toy_curve in E.
    assert (E' : P = pmul G4099 (pgen G4099) (1 + Z.of_N (nth 0 x 0 * 16 + y)%N mod 4098)%Z) by congruence. rewrite E'. apply mul_finite; [apply pgen_finite|]. change (order G4099) with 4099%Z.
    pose proof (Z.mod_pos_bound (Z.of_N (nth 0 x 0 * 16 + y)%N) 4098 eq_refl). lia.
  - intros var B. exists 1%nat. reflexivity.
  - change (order G4099) with 4099%Z. lia.
  - cbn [seq]. apply perm_trans with [0; 2; 1]%nat; [apply perm_swap|]. apply perm_skip, perm_swap.
  - cbn [seq]. apply perm_swap.
Qed.
Print Assumptions C56_client_equals_evaluate.
Print Assumptions C56_identity_map.
Print Assumptions C56_zero_mask_refuted.
Print Assumptions C64_grid.
Print Assumptions C64_equality.
Print Assumptions C64_zero_key_refuted.

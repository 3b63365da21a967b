(** Encoding without a generator stays inside every set of values that is closed
    under XOR and multiplication; in particular the output consists of values of
    [vl] blocks. *)
From Coq Require Import NArith List Bool Lia Arith.
From Coq Require Import ZifyBool ZifyNat ZifyN.
From Verif Require Import Base.Words Base.ListX OKVS.GFModel OKVS.GFProofs OKVS.DivModel OKVS.MatModel OKVS.SparseModel OKVS.PaxosModel
  OKVS.PaxosSpec OKVS.PaxosSet.
Import ListNotations.

Section Closed.
Variable vl : nat.
Variable P : N -> Prop.
Hypothesis P0 : P 0%N.
Hypothesis PX : forall a b, P a -> P b -> P (N.lxor a b).
Hypothesis PM : forall a e, P a -> P (vmul vl a e).

Lemma rd_P l i v : Forall P l -> rd l i = Some v -> P v.
Proof. intros Z H. apply nth_error_In in H. rewrite Forall_forall in Z. auto. Qed.
Lemma wr_P l i v l' : Forall P l -> P v -> wr l i v = Some l' -> Forall P l'.
Proof.
  unfold wr. intros Z Hv H. destruct (i <? length l); [|discriminate]. injection H as <-. apply Forall_upd; auto.
Qed.
Lemma add_cols_P out : Forall P out -> forall cols a v, P a -> add_cols out cols a = Some v -> P v.
Proof.
  intros Z. induction cols as [|c cols IH]; intros a v Ha H; cbn [add_cols] in H; [congruence|].
  destruct (rd out c) as [x|] eqn:E; [|discriminate]. cbn [bind] in H. apply (IH _ _ (PX _ _ Ha (rd_P _ _ _ Z E)) H).
Qed.
Lemma add_bits_P out : Forall P out -> forall bit m cols a v, P a -> add_bits bit m out cols a = Some v -> P v.
Proof.
  intros Z bit m. induction cols as [|c cols IH]; intros a v Ha H; cbn [add_bits] in H; [congruence|].
  destruct (rd out (m + c)) as [x|] eqn:E; [|discriminate]. cbn [bind] in H.
  apply (IH _ _) in H; [exact H|]. destruct (bit c); [apply PX; [exact Ha|apply (rd_P _ _ _ Z E)]|exact Ha].
Qed.
Lemma add_powers_P out : Forall P out -> forall m ds j a v, P a -> add_powers vl m out j ds a = Some v -> P v.
Proof.
  intros Z m. induction ds as [|d ds IH]; intros j a v Ha H; cbn [add_powers] in H; [congruence|].
  destruct (rd out (m + j)) as [x|] eqn:E; [|discriminate]. cbn [bind] in H.
  apply (IH _ _ _ (PX _ _ Ha (PM _ d (rd_P _ _ _ Z E))) H).
Qed.
Lemma add_all_P values : Forall P values -> forall l a v, P a -> add_all values l a = Some v -> P v.
Proof.
  intros Z. induction l as [|c l IH]; intros a v Ha H; cbn [add_all] in H; [congruence|].
  destruct (rd values c) as [x|] eqn:E; [|discriminate]. cbn [bind] in H. apply (IH _ _ (PX _ _ Ha (rd_P _ _ _ Z E)) H).
Qed.
Lemma gap_value_P o fc values i v : Forall P values -> gap_value o fc values i = Some v -> P v.
Proof.
  intros Z H. unfold gap_value in H. destruct (rd (gap_rows o) i) as [r|]; [|discriminate]. cbn [bind] in H.
  destruct (rd values r) as [x|] eqn:E; [|discriminate]. cbn [bind] in H. apply (add_all_P _ Z _ _ _ (rd_P _ _ _ Z E) H).
Qed.
Lemma all_some_P (f : nat -> option N) : (forall i v, f i = Some v -> P v) -> forall l vs, all_some (map f l) = Some vs -> Forall P vs.
Proof.
  intros Hf. induction l as [|i l IH]; intros vs H; cbn [map all_some] in H; [injection H as <-; constructor|].
  destruct (f i) as [v|] eqn:E; [|discriminate]. cbn [bind] in H. destruct (all_some (map f l)) as [r|]; [|discriminate].
  cbn [bind] in H. injection H as <-. constructor; [exact (Hf i v E)|apply IH; reflexivity].
Qed.
Lemma vsum_P l : Forall P l -> P (vsum l).
Proof. induction 1 as [|x l H F IH]; [exact P0|]. cbn [vsum fold_right]. fold (vsum l). apply PX; assumption. Qed.
Lemma map2_P (f : N -> N -> N) : (forall e v, P v -> P (f e v)) -> forall r vs, Forall P vs -> Forall P (map2 f r vs).
Proof.
  intros H. induction r as [|e r IH]; intros [|v vs] Z; cbn [map2]; try constructor.
  - inversion Z. apply H. assumption.
  - apply IH. inversion Z. assumption.
Qed.
Lemma times_bits_P E vs : Forall P vs -> Forall P (times_bits E vs).
Proof.
  intros Z. unfold times_bits. apply Forall_forall. intros x I. apply in_map_iff in I. destruct I as (r & <- & _).
  apply vsum_P, map2_P; [|exact Z]. intros e v Hv. destruct (e =? 0)%N; assumption.
Qed.
Lemma times_gf_P E vs : Forall P vs -> Forall P (times_gf vl E vs).
Proof.
  intros Z. unfold times_gf. apply Forall_forall. intros x I. apply in_map_iff in I. destruct I as (r & <- & _).
  apply vsum_P, map2_P; [|exact Z]. intros e v Hv. apply PM, Hv.
Qed.
Lemma add_outputs_P m : forall cs vs out out', Forall P vs -> Forall P out -> add_outputs m cs vs out = Some out' -> Forall P out'.
Proof.
  induction cs as [|c cs IH]; intros [|v vs] out out' ZV Z H; cbn [add_outputs] in H; try (injection H as <-; exact Z).
  destruct (rd out (m + c)) as [x|] eqn:E; [|discriminate]. cbn [bind] in H. inversion ZV as [|? ? A B]. subst.
  destruct (wr out (m + c) (N.lxor x v)) as [o|] eqn:W; [|discriminate]. cbn [bind] in H.
  apply (IH vs o out' B); [|exact H]. apply (wr_P _ _ _ _ Z) in W; [exact W|]. apply PX; [apply (rd_P _ _ _ Z E)|exact A].
Qed.
Lemma triangle_P o part values : Forall P values -> (forall d out a v, Forall P out -> P a -> part d out a = Some v -> P v) ->
  forall iter out out', Forall P out -> triangle o part values iter out = Some out' -> Forall P out'.
Proof.
  intros ZV HP. induction iter as [|iter IH]; intros out out' Z H; cbn [triangle] in H; [injection H as <-; exact Z|].
  destruct (rd (tri_rows o) iter) as [row|]; [|discriminate]. cbn [bind] in H.
  destruct (rd (tri_cols o) iter) as [col|]; [|discriminate]. cbn [bind] in H.
  destruct (rd values row) as [v|] eqn:EV; [|discriminate]. cbn [bind] in H. apply (rd_P _ _ _ ZV) in EV.
  destruct (rd (rows o) row) as [cols|]; [|discriminate]. cbn [bind] in H.
  destruct (add_cols out cols v) as [w|] eqn:EC; [|discriminate]. cbn [bind] in H. apply (add_cols_P _ Z _ _ _ EV) in EC.
  destruct (rd (dense o) row) as [d|]; [|discriminate]. cbn [bind] in H.
  destruct (part d out w) as [y|] eqn:EP; [|discriminate]. cbn [bind] in H. apply (HP _ _ _ _ Z EC) in EP.
  destruct (wr out col y) as [o1|] eqn:W; [|discriminate]. cbn [bind] in H.
  apply (IH o1 out' (wr_P _ _ _ _ Z EP W) H).
Qed.

Lemma solve_binary_P p o g values out gc fc E out' t' : Forall P values -> Forall P out ->
  solve_binary vl p o g values out None = Some (gc, fc, E, out', t') -> Forall P out' /\ t' = None.
Proof.
  intros ZV Z H. unfold solve_binary in H. destruct (_ <? _); [discriminate|].
  destruct (get_FC_1 p o g) as [fc0|]; [|discriminate]. cbn [bind] in H.
  destruct (all_some _) as [erow|]; [|discriminate]. cbn [bind] in H.
  destruct (find_combination p erow) as [[gc0 E0]|]; [|discriminate]. cbn [bind] in H.
  destruct (all_some (map (gap_value o fc0 values) (seq 0 g))) as [vs|] eqn:EV; [|discriminate]. cbn [bind] in H.
  destruct (add_outputs _ _ _ out) as [o2|] eqn:EO; [|discriminate]. cbn [bind] in H.
  split; [|congruence]. apply add_outputs_P in EO; [congruence| |exact Z].
  apply times_bits_P. apply (all_some_P (gap_value o fc0 values)) in EV; [exact EV|]. intros i v. apply gap_value_P, ZV.
Qed.
Lemma solve_gf_P p o g values out fc E out' t' : Forall P values -> Forall P out ->
  solve_gf vl p o g values out None = Some (fc, E, out', t') -> Forall P out' /\ t' = None.
Proof.
  intros ZV Z H. unfold solve_gf in H. destruct (_ <? _); [discriminate|].
  destruct (get_FC_1 p o g) as [fc0|]; [|discriminate]. cbn [bind] in H. cbv zeta in H.
  destruct (_ <? _); [discriminate|].
  destruct (all_some _) as [top|]; [|discriminate]. cbn [bind] in H.
  destruct (check_invert_gf128 top) as [E0|]; [|discriminate]. cbn [bind] in H.
  destruct (all_some (map (gap_value o fc0 values) (seq 0 g))) as [vs|] eqn:EV; [|discriminate]. cbn [bind] in H.
  destruct (add_outputs _ _ _ out) as [o2|] eqn:EO; [|discriminate]. cbn [bind] in H.
  split; [|congruence]. apply add_outputs_P in EO; [congruence| |exact Z].
  apply times_gf_P. rewrite app_nil_r. apply (all_some_P (gap_value o fc0 values)) in EV; [exact EV|]. intros i v. apply gap_value_P, ZV.
Qed.

Lemma encode_into_P p o values out o' out' t' : Forall P values -> Forall P out ->
  encode_into vl p o values out None = Some (o', out', t') -> Forall P out'.
Proof.
  intros ZV Z H. unfold encode_into in H.
  destruct (if is_nil (tri_rows o) then triangulate p o else Some o) as [o1|]; [|discriminate]. cbn [bind] in H.
  destruct (kind p).
  - unfold backfill_binary in H. destruct (_ <? _); [discriminate|].
    destruct (_ && _).
    + destruct (solve_binary vl p o1 _ values out None) as [[[[[gc fc] E] o2] t2]|] eqn:ES; [|discriminate]. cbn [bind] in H.
      destruct (solve_binary_P _ _ _ _ _ _ _ _ _ _ ZV Z ES) as [Z2 ->].
      destruct (_ <? _); [discriminate|]. destruct (triangle _ _ _ _ o2) as [o3|] eqn:ET; [|discriminate]. cbn [bind] in H.
      apply triangle_P in ET; [congruence|exact ZV| |exact Z2]. intros d u a v ZU. apply add_bits_P, ZU.
    + cbn [bind] in H. destruct (_ <? _); [discriminate|]. destruct (triangle _ _ _ _ out) as [o3|] eqn:ET; [|discriminate]. cbn [bind] in H.
      apply triangle_P in ET; [congruence|exact ZV| |exact Z]. intros d u a v ZU. apply add_bits_P, ZU.
  - assert (DP : forall g d u a v, Forall P u -> P a -> dense_part_gf vl p g None d u a = Some v -> P v).
    { intros g d u a v ZU Ha. unfold dense_part_gf. destruct (_ && _); [congruence|]. apply add_powers_P; assumption. }
    unfold backfill_gf128 in H. destruct (_ && _).
    + destruct (solve_gf vl p o1 _ values out None) as [[[[fc E] o2] t2]|] eqn:ES; [|discriminate]. cbn [bind] in H.
      destruct (solve_gf_P _ _ _ _ _ _ _ _ _ ZV Z ES) as [Z2 ->].
      destruct (triangle _ _ _ _ o2) as [o3|] eqn:ET; [|discriminate]. cbn [bind] in H.
      apply triangle_P in ET; [congruence|exact ZV| |exact Z2]. apply DP.
    + cbn [bind] in H. destruct (triangle _ _ _ _ out) as [o3|] eqn:ET; [|discriminate]. cbn [bind] in H.
      apply triangle_P in ET; [congruence|exact ZV| |exact Z]. apply DP.
Qed.

Lemma encode_P p o values o' out' t' : Forall P values -> encode vl p o values None = Some (o', out', t') -> Forall P out'.
Proof. intros ZV H. apply encode_into_P in H; [exact H|exact ZV|]. apply Forall_forall. intros x I. apply repeat_spec in I. subst x. exact P0. Qed.
End Closed.

(** ** Values of [vl] blocks *)
Lemma vmul_lt : forall vl v c, (vmul vl v c < 2 ^ (128 * N.of_nat vl))%N.
Proof.
  induction vl as [|vl IH]; intros v c; [reflexivity|]. cbn [vmul].
  replace (128 * N.of_nat (S vl))%N with (128 * N.of_nat vl + 128)%N by lia.
  apply lxor_lt.
  - apply N.lt_le_trans with (2 ^ 128)%N; [apply gf128_mul_lt|]. apply N.pow_le_mono_r; [discriminate|lia].
  - rewrite N.shiftl_mul_pow2, N.pow_add_r. apply N.mul_lt_mono_pos_r; [reflexivity|apply IH].
Qed.

Definition value_ok (vl : nat) (v : N) : Prop := (v < 2 ^ (128 * N.of_nat vl))%N.
Lemma encode_values vl p o values o' out' t' : Forall (value_ok vl) values ->
  encode vl p o values None = Some (o', out', t') -> Forall (value_ok vl) out'.
Proof.
  apply encode_P.
  - unfold value_ok. apply N.neq_0_lt_0, N.pow_nonzero. discriminate.
  - intros a b. apply lxor_lt.
  - intros a e _. apply vmul_lt.
Qed.

(** Backfilling: the triangle, the gap rows, and decoding. *)
From Coq Require Import NArith List Bool Lia Arith Sorting.Sorted Sorting.Permutation.
From Coq Require Import ZifyBool ZifyNat ZifyN.
From Verif Require Import Base.Words Base.ListX OKVS.SparseModel OKVS.SparseSpec OKVS.SparseProofs.
From Verif Require Import OKVS.GFModel OKVS.GFProofs OKVS.MatModel OKVS.MatSpec OKVS.MatProofs
  OKVS.MatProps.
From Verif Require Import OKVS.PaxosModel OKVS.PaxosLists OKVS.PaxosSet OKVS.PaxosTri
  OKVS.PaxosSum OKVS.PaxosFC.
Import ListNotations.

Notation at_ out c := (nth c out 0%N) (only parsing).

Ltac xor_bits :=
  clear; apply N.bits_inj; let k := fresh in intros k; rewrite ?N.lxor_spec, ?N.bits_0;
  repeat match goal with |- context [N.testbit ?a ?b] => destruct (N.testbit a b) end;
  reflexivity.

(** ** Sums of the code *)
Lemma add_cols_ok out : forall cols acc, Forall (fun c => c < length out) cols ->
  add_cols out cols acc = Some (N.lxor acc (xs (fun c => nth c out 0%N) cols)).
Proof.
  induction cols as [|c cols IH]; intros acc F.
  - cbn. rewrite N.lxor_0_r. reflexivity.
  - inversion_clear F. cbn [add_cols]. rewrite rd_nth with (d := 0%N) by assumption.
    cbn [bind]. rewrite IH by assumption. rewrite xs_cons, N.lxor_assoc. reflexivity.
Qed.

Lemma add_all_ok values : forall l acc, Forall (fun c => c < length values) l ->
  add_all values l acc = Some (N.lxor acc (xs (fun c => nth c values 0%N) l)).
Proof. exact (add_cols_ok values). Qed.

Lemma xor_dense_ok ds : forall l acc, Forall (fun c => c < length ds) l ->
  xor_dense ds l acc = Some (N.lxor acc (xs (fun c => nth c ds 0%N) l)).
Proof. exact (add_cols_ok ds). Qed.

Lemma add_bits_ok bit m out : forall cols acc, Forall (fun i => m + i < length out) cols ->
  add_bits bit m out cols acc
  = Some (N.lxor acc (xs (fun i => if bit i then nth (m + i) out 0%N else 0%N) cols)).
Proof.
  induction cols as [|c cols IH]; intros acc F.
  - cbn. rewrite N.lxor_0_r. reflexivity.
  - inversion_clear F. cbn [add_bits]. rewrite rd_nth with (d := 0%N) by assumption.
    cbn [bind]. rewrite IH by assumption. rewrite xs_cons.
    destruct (bit c); [rewrite N.lxor_assoc|rewrite N.lxor_0_l]; reflexivity.
Qed.

Lemma add_powers_ok vl m out : forall pw j acc, m + j + length pw <= length out ->
  add_powers vl m out j pw acc
  = Some (N.lxor acc (xs (fun i => vmul vl (nth (m + j + i) out 0%N) (nth i pw 0%N))
                         (seq 0 (length pw)))).
Proof.
  induction pw as [|e pw IH]; intros j acc H.
  - cbn. rewrite N.lxor_0_r. reflexivity.
  - cbn [length] in H. cbn [add_powers]. rewrite rd_nth with (d := 0%N) by lia.
    cbn [bind]. rewrite IH by lia. cbn [length seq]. rewrite xs_cons, N.lxor_assoc.
    rewrite <- seq_shift, xs_map. rewrite Nat.add_0_r. cbn [nth].
    f_equal. f_equal. f_equal. apply xs_ext. intros i _.
    replace (m + S j + i) with (m + j + S i) by lia. reflexivity.
Qed.

(** d^(k+1) *)
Fixpoint gpow (d : N) (k : nat) : N :=
  match k with O => d | S k => gf128_mul (gpow d k) d end.

Lemma powers_length k d : forall cur, length (powers k d cur) = k.
Proof. induction k; intros; cbn [powers length]; auto. Qed.

Lemma powers_nth d : forall k j i, i < k -> nth i (powers k d (gpow d j)) 0%N = gpow d (j + i).
Proof.
  induction k as [|k IH]; intros j i Hi; [lia|]. cbn [powers].
  destruct i as [|i]; [rewrite Nat.add_0_r; reflexivity|].
  change (gf128_mul (gpow d j) d) with (gpow d (S j)). cbn [nth].
  rewrite IH by lia. f_equal. lia.
Qed.

Lemma powers_nth0 d k i : i < k -> nth i (powers k d d) 0%N = gpow d i.
Proof. intros H. apply (powers_nth d k 0 i H). Qed.

Lemma gpow_lt d k : N.lt d (2 ^ 128) -> N.lt (gpow d k) (2 ^ 128).
Proof. intros H. destruct k; [exact H|]. apply gf128_mul_lt. Qed.

Lemma bit_byte_testbit d i : bit_byte d i = N.testbit d (N.of_nat i).
Proof.
  unfold bit_byte. change 256%N with (2 ^ 8)%N.
  rewrite N.mod_pow2_bits_low.
  - rewrite N.shiftr_spec'. f_equal.
    rewrite (Nat.div_mod i 8) at 3 by lia. lia.
  - assert (i mod 8 < 8) by (apply Nat.mod_upper_bound; lia). lia.
Qed.

Lemma bit_low64_testbit d i : i < 64 -> bit_low64 d i = N.testbit d (N.of_nat i).
Proof. intros H. unfold bit_low64. apply N.mod_pow2_bits_low. lia. Qed.

Lemma dense_bit_testbit p d i : i < dsize p -> dense_bit p d i = N.testbit d (N.of_nat i).
Proof.
  intros H. unfold dense_bit. destruct (Nat.ltb_spec 64 (dsize p)).
  - apply bit_byte_testbit.
  - apply bit_low64_testbit. lia.
Qed.

Lemma dense_bit'_testbit p d i : i < dsize p -> dense_bit' p d i = N.testbit d (N.of_nat i).
Proof.
  intros H. unfold dense_bit'. destruct (Nat.leb_spec 64 (dsize p)).
  - apply bit_byte_testbit.
  - apply bit_low64_testbit. lia.
Qed.

(** ** What decoding computes *)
Definition dense_sum (vl : nat) (p : params) (out : list N) (d : N) : N :=
  match kind p with
  | binary => xs (fun k => if N.testbit d (N.of_nat k) then nth (msize p + k) out 0%N else 0%N)
                 (seq 0 (dsize p))
  | gf_128 => xs (fun k => vmul vl (nth (msize p + k) out 0%N) (gpow d k)) (seq 0 (dsize p))
  end.

Definition decode_value vl p out d : N :=
  N.lxor (xs (fun c => nth c out 0%N) (row_of p d)) (dense_sum vl p out d).

Definition dense_ok (p : params) : Prop :=
  match kind p with binary => dsize p <= 128 | gf_128 => True end.

Lemma seq_bound m k (out : list N) : m + k <= length out ->
  Forall (fun i => m + i < length out) (seq 0 k).
Proof. intros H. apply Forall_forall. intros i Hi. apply in_seq in Hi. lia. Qed.

Lemma decode_dense_ok vl p d out acc : dense_ok p -> length out = total p ->
  decode_dense vl p d out acc = Some (N.lxor acc (dense_sum vl p out d)).
Proof.
  intros K L. unfold decode_dense, dense_sum, dense_ok, total in *. destruct (kind p).
  - destruct (Nat.ltb_spec 128 (dsize p)); [lia|].
    rewrite add_bits_ok by (apply seq_bound; lia). f_equal. f_equal.
    apply xs_ext. intros k Hk. apply in_seq in Hk. rewrite dense_bit_testbit by lia. reflexivity.
  - rewrite add_powers_ok by (rewrite powers_length; lia). f_equal. f_equal.
    rewrite powers_length. apply xs_ext. intros k Hk. apply in_seq in Hk.
    rewrite powers_nth0 by lia. rewrite Nat.add_0_r. reflexivity.
Qed.

Lemma decode_dense_32_ok vl p d out acc : dense_ok p -> length out = total p ->
  decode_dense_32 vl p d out acc = Some (N.lxor acc (dense_sum vl p out d)).
Proof.
  intros K L. rewrite <- decode_dense_ok by assumption.
  unfold decode_dense_32, decode_dense, dense_bit. destruct (kind p); [|reflexivity].
  destruct (Nat.ltb 128 (dsize p)); [reflexivity|].
  destruct (Nat.ltb_spec 64 (dsize p)) as [H|H]; [reflexivity|].
  unfold total in L.
  rewrite !add_bits_ok by (apply seq_bound; lia). f_equal. f_equal. apply xs_ext.
  intros k _. unfold bit_low64. rewrite <- N.bit0_odd, N.shiftr_spec', N.add_0_l. reflexivity.
Qed.

Section Decode.
Variables (vl : nat) (p : params) (out : list N).
Hypothesis G : good p.
Hypothesis Wp : 0 < wt p.
Hypothesis K : dense_ok p.
Hypothesis L : length out = total p.

Lemma row_read d : Forall (fun c => c < length out) (row_of p d).
Proof.
  destruct (row_of_ok p d G) as (_ & _ & F). apply Forall_impl with (2 := F).
  rewrite L. unfold total. intros; lia.
Qed.

Lemma the_row_some d :
  set_sparse_1 (bits p) (wt p) (N.of_nat (msize p)) d
  = Some (the_row (bits p) (wt p) (N.of_nat (msize p)) d).
Proof.
  destruct G as [G1 _]. unfold the_row. destruct (sparse_1_ok _ _ _ d G1) as (r & -> & _).
  reflexivity.
Qed.

Lemma decode_row_ok dec d :
  (forall acc, dec acc = Some (N.lxor acc (dense_sum vl p out d))) ->
  match row_of p d with
  | [] => None
  | c :: cols => v <- rd out c ;; v <- add_cols out cols v ;; dec v
  end = Some (decode_value vl p out d).
Proof.
  intros HD. assert (F := row_read d). unfold decode_value.
  destruct (row_of_ok p d G) as (Lr & _ & _).
  destruct (row_of p d) as [|c cols]; [cbn in Lr; lia|].
  inversion_clear F. rewrite rd_nth with (d := 0%N) by assumption. cbn [bind].
  rewrite add_cols_ok by assumption. cbn [bind]. rewrite HD, xs_cons. reflexivity.
Qed.

Lemma decode_1_ok d : decode_1 vl p out d = Some (decode_value vl p out d).
Proof.
  unfold decode_1. rewrite the_row_some. cbn [bind]. unfold decode_row. fold (row_of p d).
  apply decode_row_ok. intros. apply decode_dense_ok; assumption.
Qed.

Lemma decode_32_ok ds : length ds = 32 ->
  decode_32 vl p out ds = Some (map (decode_value vl p out) ds).
Proof.
  intros H. unfold decode_32. destruct G as [G1 G2].
  rewrite sparse_32_ok by assumption. cbn [bind].
  assert (E : forall l, map2 (decode_row_32 vl p out) l
     (map (the_row (bits p) (wt p) (N.of_nat (msize p))) l)
     = map (fun d => Some (decode_value vl p out d)) l).
  { induction l as [|d l IH]; [reflexivity|]. cbn [map map2]. rewrite IH. f_equal.
    unfold decode_row_32. fold (row_of p d). apply decode_row_ok.
    intros. apply decode_dense_32_ok; assumption. }
  rewrite E. apply all_some_map. reflexivity.
Qed.

Lemma decode_loop_ok : forall fuel ds, length ds < fuel ->
  decode_loop vl fuel p out ds = Some (map (decode_value vl p out) ds).
Proof.
  induction fuel as [|fuel IH]; intros ds H; [lia|]. cbn [decode_loop].
  destruct (Nat.leb_spec 32 (length ds)) as [H32|H32].
  - rewrite decode_32_ok by (apply firstn_length_le; exact H32). cbn [bind].
    rewrite IH by (rewrite skipn_length; lia). cbn [bind].
    rewrite <- map_app, firstn_skipn. reflexivity.
  - apply all_some_map. intros d _. apply decode_1_ok.
Qed.

(** [decode] is [decode_1] on every key, as long as the number of keys fits in
    the index type *)
Lemma decode_ok ds : 0 < msize p -> N.lt (N.of_nat (length ds)) (2 ^ bits p) ->
  decode vl p out ds = Some (map (decode_value vl p out) ds).
Proof.
  intros M H. unfold decode. destruct (Nat.eqb_spec (msize p) 0); [lia|].
  unfold idx. rewrite N.mod_small by exact H. rewrite Nat2N.id.
  rewrite firstn_all, decode_loop_ok by lia. cbn [bind].
  rewrite Nat.sub_diag. cbn [repeat]. rewrite app_nil_r. reflexivity.
Qed.
End Decode.

(** ** The triangle *)
Lemma xs_upd out c v l : NoDup l -> In c l -> c < length out -> nth c out 0%N = 0%N ->
  xs (fun x => nth x (upd out c v) 0%N) l = N.lxor v (xs (fun x => nth x out 0%N) l).
Proof.
  intros ND HI HL H0.
  assert (E : forall x, nth x (upd out c v) 0%N
                        = N.lxor (if Nat.eqb x c then v else 0%N) (nth x out 0%N)).
  { intros x. destruct (Nat.eqb_spec x c) as [->|N].
    - rewrite nth_upd_same by exact HL. rewrite H0, N.lxor_0_r. reflexivity.
    - rewrite nth_upd_other by auto. reflexivity. }
  rewrite (xs_ext _ _ l (fun x _ => E x)), xs_add. f_equal.
  rewrite xs_one with (a := c); auto.
  - rewrite Nat.eqb_refl. reflexivity.
  - intros x _ N. destruct (Nat.eqb_spec x c); [contradiction|reflexivity].
Qed.

Lemma xs_upd_out out c v l : ~ In c l ->
  xs (fun x => nth x (upd out c v) 0%N) l = xs (fun x => nth x out 0%N) l.
Proof.
  intros N. apply xs_ext. intros x Hx. apply nth_upd_other. intros ->. contradiction.
Qed.

Section Back.
Variables (vl : nat) (p : params) (ds : list N) (o : okvs) (values : list N).
Hypothesis G : good p.
Hypothesis Dn : done p ds o.
Hypothesis LV : length ds <= length values.
Notation delta := (length (tri_rows o)).
Notation row r := (nth r (rows o) []).
Notation val r := (nth r values 0%N).
Notation hashed r := (nth r ds 0%N).

Lemma tri_lt i : i < delta -> nth i (tri_rows o) 0 < length ds.
Proof.
  intros H. apply (d_all _ _ _ Dn). apply in_or_app. left. apply nth_In. exact H.
Qed.

Lemma gap_lt i : i < length (gap_rows o) -> nth i (gap_rows o) 0 < length ds.
Proof.
  intros H. apply (d_all _ _ _ Dn). apply in_or_app. right. apply nth_In. exact H.
Qed.

Lemma rows_len : length (rows o) = length ds.
Proof. rewrite (d_rows _ _ _ Dn). apply map_length. Qed.

Lemma row_is r : r < length ds -> row r = row_of p (hashed r).
Proof.
  intros H. rewrite (d_rows _ _ _ Dn). apply nth_map'. exact H.
Qed.

Definition row_eq (out : list N) (Dv : N -> N) (r : nat) : Prop :=
  N.lxor (xs (fun c => nth c out 0%N) (row r)) (Dv (hashed r)) = val r.

Lemma triangle_spec part Dv out0 :
  (forall d out acc, length out = total p ->
     (forall c, msize p <= c -> nth c out 0%N = nth c out0 0%N) ->
     part d out acc = Some (N.lxor acc (Dv d))) ->
  forall iter out, iter <= delta -> length out = total p ->
  (forall c, ~ In c (tri_cols o) -> nth c out 0%N = nth c out0 0%N) ->
  (forall i, i < iter -> nth (nth i (tri_cols o) 0) out 0%N = 0%N) ->
  (forall i, iter <= i < delta -> row_eq out Dv (nth i (tri_rows o) 0)) ->
  exists out', triangle o part values iter out = Some out' /\ length out' = total p
    /\ (forall c, ~ In c (tri_cols o) -> nth c out' 0%N = nth c out0 0%N)
    /\ forall i, i < delta -> row_eq out' Dv (nth i (tri_rows o) 0).
Proof.
  intros HP. induction iter as [|k IH]; intros out Hk L Hn Hz He.
  - exists out. split; [reflexivity|]. split; [exact L|]. split; [exact Hn|].
    intros i Hi. apply He. lia.
  - cbn [triangle]. rewrite rd_nth with (d := 0) by lia. cbn [bind].
    rewrite rd_nth with (d := 0) by (rewrite (d_cols _ _ _ Dn); lia). cbn [bind].
    assert (Hr : nth k (tri_rows o) 0 < length ds) by (apply tri_lt; lia).
    set (r := nth k (tri_rows o) 0) in *. set (c := nth k (tri_cols o) 0).
    assert (Hc : In c (tri_cols o)) by (apply nth_In; rewrite (d_cols _ _ _ Dn); lia).
    assert (Hcm : c < msize p).
    { assert (F := d_ltc _ _ _ Dn). rewrite Forall_forall in F. apply F. exact Hc. }
    rewrite rd_nth with (d := 0%N) by lia. cbn [bind].
    rewrite rd_nth with (d := []) by (rewrite rows_len; exact Hr). cbn [bind].
    destruct (row_good p ds o G Dn r) as [ND FR].
    rewrite add_cols_ok by (rewrite L; exact FR). cbn [bind].
    rewrite rd_nth with (d := 0%N) by (rewrite (d_dense _ _ _ Dn); exact Hr). cbn [bind].
    rewrite (d_dense _ _ _ Dn).
    rewrite HP; [|exact L|].
    2:{ intros c' Hc'. apply Hn. intros I. assert (F := d_ltc _ _ _ Dn).
        rewrite Forall_forall in F. specialize (F _ I). lia. }
    cbn [bind].
    assert (Hct : c < length out) by (rewrite L; unfold total; lia).
    rewrite wr_ok by exact Hct. cbn [bind].
    apply IH.
    + lia.
    + rewrite upd_length. exact L.
    + intros c' Hc'. rewrite nth_upd_other; [apply Hn; exact Hc'|]. intros <-. contradiction.
    + intros i Hi. rewrite nth_upd_other; [apply Hz; lia|].
      unfold c. intros E. apply (NoDup_nth _ 0) in E; try lia.
      * apply (d_ndc _ _ _ Dn).
      * rewrite (d_cols _ _ _ Dn). lia.
      * rewrite (d_cols _ _ _ Dn). lia.
    + intros i Hi. unfold row_eq. destruct (Nat.eq_dec i k) as [->|N].
      * fold r. rewrite xs_upd; auto.
        -- xor_bits.
        -- apply (d_tri _ _ _ Dn). lia.
        -- apply Hz. lia.
      * rewrite xs_upd_out; [apply He; lia|]. apply (d_tri2 _ _ _ Dn); lia.
Qed.

(** ** The gap rows *)
Definition off_tri (f : nat -> N) (c : nat) : N := if mem c (tri_cols o) then 0%N else f c.

Definition residual (out : list N) (i : nat) (L : list nat) : N :=
  N.lxor (xs (off_tri (fun c => nth c out 0%N)) (row (nth i (gap_rows o) 0)))
         (xs (fun r => xs (off_tri (fun c => nth c out 0%N)) (row r)) L).

Lemma on_off f l : xs f l = N.lxor (xs (on_tri o f) l) (xs (off_tri f) l).
Proof. apply (xs_split f (fun c => mem c (tri_cols o)) l). Qed.

Lemma gap_spec out Dv i L :
  i < length (gap_rows o) -> cancels o i L ->
  (forall i, i < delta -> row_eq out Dv (nth i (tri_rows o) 0)) ->
  N.lxor (Dv (hashed (nth i (gap_rows o) 0))) (xs (fun r => Dv (hashed r)) L)
  = N.lxor (val (nth i (gap_rows o) 0)) (xs (fun r => val r) L) ->
  N.lxor (xs (fun c => nth c out 0%N) (row (nth i (gap_rows o) 0)))
         (Dv (hashed (nth i (gap_rows o) 0)))
  = N.lxor (val (nth i (gap_rows o) 0)) (residual out i L).
Proof.
  intros Hi [IL HL] HE HS. set (r0 := nth i (gap_rows o) 0) in *.
  set (f := fun c => nth c out 0%N) in *.
  assert (E1 : xs (fun r => xs (on_tri o f) (row r)) L
    = N.lxor (N.lxor (xs (fun r => val r) L) (xs (fun r => Dv (hashed r)) L))
             (xs (fun r => xs (off_tri f) (row r)) L)).
  { rewrite <- !xs_add. apply xs_ext. intros r Hr.
    apply IL in Hr. apply In_nth with (d := 0) in Hr. destruct Hr as (k & Hk & <-).
    specialize (HE k Hk). unfold row_eq in HE. fold f in HE. rewrite on_off in HE.
    set (a := xs (on_tri o f) _) in *. set (b := xs (off_tri f) _) in *.
    rewrite <- HE. xor_bits. }
  rewrite (on_off f (row r0)), (HL f), E1. unfold residual. fold r0 f.
  set (V := xs (fun r => val r) L) in *. set (DD := xs (fun r => Dv (hashed r)) L) in *.
  set (R := xs (fun r => xs (off_tri f) (row r)) L). set (R0 := xs (off_tri f) (row r0)).
  assert (E2 : Dv (hashed r0) = N.lxor (N.lxor (val r0) V) DD).
  { rewrite <- HS. rewrite N.lxor_assoc, N.lxor_nilpotent, N.lxor_0_r. reflexivity. }
  rewrite E2. set (v := val r0).
  xor_bits.
Qed.

Lemma cancels_lt i L : cancels o i L -> Forall (fun r => r < length ds) L.
Proof.
  intros [IL _]. apply Forall_forall. intros r Hr. apply (d_all _ _ _ Dn).
  apply in_or_app. left. apply IL. exact Hr.
Qed.

Lemma gap_value_ok fcl i L : i < length (gap_rows o) -> nth i fcl [] = L -> cancels o i L ->
  gap_value o fcl values i
  = Some (N.lxor (val (nth i (gap_rows o) 0)) (xs (fun r => val r) L)).
Proof.
  intros Hi E C. assert (F := cancels_lt _ _ C). assert (H := gap_lt i Hi). unfold gap_value.
  rewrite rd_nth with (d := 0) by exact Hi. cbn [bind].
  rewrite rd_nth with (d := 0%N) by lia. cbn [bind]. rewrite E. apply add_all_ok.
  apply Forall_impl with (2 := F). intros; lia.
Qed.

Lemma gap_dense_ok fcl i L : i < length (gap_rows o) -> nth i fcl [] = L -> cancels o i L ->
  gap_dense o fcl i
  = Some (N.lxor (hashed (nth i (gap_rows o) 0)) (xs (fun r => hashed r) L)).
Proof.
  intros Hi E C. assert (F := cancels_lt _ _ C). assert (H := gap_lt i Hi). unfold gap_dense.
  rewrite rd_nth with (d := 0) by exact Hi. cbn [bind].
  rewrite (d_dense _ _ _ Dn).
  rewrite rd_nth with (d := 0%N) by lia. cbn [bind]. rewrite E. apply xor_dense_ok. exact F.
Qed.

Lemma xor_powers_ok len : forall L acc, length acc = len -> Forall (fun r => r < length ds) L ->
  exists r, xor_powers ds len L acc = Some r /\ length r = len
    /\ forall k, k < len -> nth k r 0%N
         = N.lxor (nth k acc 0%N) (xs (fun r => gpow (hashed r) k) L).
Proof.
  induction L as [|j L IH]; intros acc LA F.
  - exists acc. split; [reflexivity|]. split; [exact LA|]. intros. cbn.
    rewrite N.lxor_0_r. reflexivity.
  - inversion_clear F. cbn [xor_powers]. rewrite rd_nth with (d := 0%N) by assumption. cbn [bind].
    assert (LM : length (map2 N.lxor acc (powers len (hashed j) (hashed j))) = len).
    { rewrite map2_length, powers_length. lia. }
    destruct (IH (map2 N.lxor acc (powers len (hashed j) (hashed j)))) as (r & E & Lr & Hr); auto.
    exists r. split; [exact E|]. split; [exact Lr|]. intros k Hk. rewrite Hr by exact Hk.
    rewrite map2_nth with (a := 0%N) (b := 0%N) by (rewrite ?powers_length; lia).
    rewrite powers_nth0 by exact Hk. rewrite xs_cons, N.lxor_assoc. reflexivity.
Qed.

Lemma gap_powers_ok fcl len i L :
  i < length (gap_rows o) -> nth i fcl [] = L -> cancels o i L ->
  exists r, gap_powers o fcl len i = Some r /\ length r = len
    /\ forall k, k < len -> nth k r 0%N
       = N.lxor (gpow (hashed (nth i (gap_rows o) 0)) k) (xs (fun r => gpow (hashed r) k) L).
Proof.
  intros Hi E C. assert (F := cancels_lt _ _ C). assert (H := gap_lt i Hi). unfold gap_powers.
  rewrite rd_nth with (d := 0) by exact Hi. cbn [bind].
  rewrite (d_dense _ _ _ Dn).
  rewrite rd_nth with (d := 0%N) by lia. cbn [bind]. rewrite E.
  destruct (xor_powers_ok len L (powers len (hashed (nth i (gap_rows o) 0))
             (hashed (nth i (gap_rows o) 0)))) as (r & Er & Lr & Hr).
  - apply powers_length.
  - exact F.
  - exists r. split; [exact Er|]. split; [exact Lr|]. intros k Hk. rewrite Hr by exact Hk.
    rewrite powers_nth0 by exact Hk. reflexivity.
Qed.
End Back.

(** ** Linear systems *)
Lemma all_some_inv {A B} (f : A -> option B) l : forall r, all_some (map f l) = Some r ->
  Forall2 (fun x y => f x = Some y) l r.
Proof.
  induction l as [|x l IH]; intros r H; cbn [map all_some] in H.
  - injection H as <-. constructor.
  - destruct (f x) as [y|] eqn:E; [|discriminate]. cbn [bind] in H.
    destruct (all_some (map f l)) as [r'|] eqn:E'; [|discriminate]. cbn [bind] in H.
    injection H as <-. constructor; auto.
Qed.

Lemma all_some_seq_inv {B} (f : nat -> option B) n r d : all_some (map f (seq 0 n)) = Some r ->
  length r = n /\ forall i, i < n -> f i = Some (nth i r d).
Proof.
  intros H. apply all_some_inv in H. destruct (Forall2_nth _ _ _ 0 d H) as [L F].
  rewrite seq_length in *. split; [exact L|]. intros i Hi. specialize (F i Hi).
  rewrite seq_nth in F by exact Hi. exact F.
Qed.

Lemma repeat_pos_inv {A B} (P : A -> Prop) (Q : B -> Prop) (f : A -> A + B) :
  (forall a, P a -> match f a with inl a' => P a' | inr b => Q b end) ->
  forall n a, P a -> match repeat_pos n f a with inl a' => P a' | inr b => Q b end.
Proof.
  intros H. induction n as [n IH|n IH|]; intros a Pa; cbn [repeat_pos].
  - specialize (H a Pa). destruct (f a) as [a1|b]; [|exact H].
    specialize (IH a1 H) as I1. destruct (repeat_pos n f a1) as [a2|b]; [|exact I1].
    apply IH. exact I1.
  - specialize (IH a Pa) as I1. destruct (repeat_pos n f a) as [a2|b]; [|exact I1].
    apply IH. exact I1.
  - apply H. exact Pa.
Qed.

Definition bit_matrix (p : params) (erow comb : list N) : list (list N) :=
  map (fun d => map (fun c => N.b2n (dense_bit p d (N.to_nat c))) comb) erow.

Lemma StronglySorted_seq : forall n k,
  StronglySorted N.lt (map N.of_nat (seq k n)).
Proof.
  induction n as [|n IH]; intros k; [constructor|]. cbn [seq map].
  constructor; [apply IH|]. apply Forall_forall. intros x Hx. apply in_map_iff in Hx.
  destruct Hx as (j & <- & Hj). apply in_seq in Hj. lia.
Qed.

Lemma find_combination_inv p erow gc E : length erow <= dsize p ->
  find_combination p erow = Some (gc, E) ->
  is_subset (length erow) (N.of_nat (dsize p)) gc
  /\ check_invert (bit_matrix p erow gc) = Some E.
Proof.
  intros Hg H. unfold find_combination in H.
  assert (D256 : dsize p < 256) by (unfold dsize; apply Nat.mod_upper_bound; lia).
  set (P := is_subset (length erow) (N.of_nat (dsize p))).
  set (Q := fun r : option (list N * list (list N)) =>
    match r with
    | None => True
    | Some (gc, E) => P gc /\ check_invert (bit_matrix p erow gc) = Some E
    end).
  assert (Step : forall a, P a ->
    match combination_step p erow a with inl a' => P a' | inr b => Q b end).
  { intros a Pa. unfold combination_step.
    assert (C := C71_successor (length erow) (N.of_nat (dsize p)) a Pa).
    destruct (prev_combination a (N.of_nat (dsize p))) as [c|]; [|exact I].
    assert (Pc : P c) by (apply C; lia).
    fold (bit_matrix p erow c).
    destruct (check_invert (bit_matrix p erow c)) as [inv|] eqn:EI; [|exact Pc].
    split; [exact Pc|exact EI]. }
  assert (P0 : P (map N.of_nat (seq 0 (length erow)))).
  { split; [rewrite map_length, seq_length; reflexivity|]. split.
    - apply StronglySorted_seq.
    - apply Forall_forall. intros x Hx. apply in_map_iff in Hx.
      destruct Hx as (j & <- & Hj). apply in_seq in Hj. lia. }
  assert (X := repeat_pos_inv P Q (combination_step p erow) Step
                 (2 ^ Pos.of_nat (S (dsize p))) _ P0).
  destruct (repeat_pos _ _ _) as [a'|b]; [discriminate|]. subst b. exact X.
Qed.

Lemma bit_matrix_square p erow gc : length gc = length erow ->
  square 2 (length erow) (bit_matrix p erow gc).
Proof.
  intros L. unfold bit_matrix. split; [apply map_length|]. apply Forall_forall.
  intros r Hr. apply in_map_iff in Hr. destruct Hr as (d & <- & _). split.
  - rewrite map_length. exact L.
  - apply Forall_forall. intros x Hx. apply in_map_iff in Hx. destruct Hx as (c & <- & _).
    destruct (dense_bit p d (N.to_nat c)); cbn; lia.
Qed.

Lemma xs_perm {A} (f : A -> N) l l' : Permutation l l' -> xs f l = xs f l'.
Proof.
  induction 1; auto.
  - rewrite !xs_cons. f_equal. assumption.
  - rewrite !xs_cons. apply lxor_swap.
  - congruence.
Qed.

Lemma xs_nth {A} (f : A -> N) l d : xs f l = xsum (length l) (fun k => f (nth k l d)).
Proof.
  rewrite xs_xsum. unfold xs. f_equal.
  rewrite <- (map_nth_seq l d) at 1. rewrite map_map. reflexivity.
Qed.

Lemma sorted_lt_NoDup l : StronglySorted N.lt l -> NoDup l.
Proof.
  induction 1 as [|x l S IH F]; constructor; auto.
  intros H. rewrite Forall_forall in F. specialize (F x H). lia.
Qed.

Lemma subset_nat k n gc : is_subset k (N.of_nat n) gc ->
  NoDup (map N.to_nat gc) /\ Forall (fun c => c < n) (map N.to_nat gc)
  /\ length (map N.to_nat gc) = k.
Proof.
  intros (L & S & F). split; [|split].
  - apply FinFun.Injective_map_NoDup; [intros x y; lia|]. apply sorted_lt_NoDup. exact S.
  - apply Forall_forall. intros x Hx. apply in_map_iff in Hx. destruct Hx as (y & <- & Hy).
    rewrite Forall_forall in F. specialize (F y Hy). lia.
  - rewrite map_length. exact L.
Qed.

Lemma is_gap_col_In gc i : is_gap_col gc i = true <-> In i (map N.to_nat gc).
Proof.
  unfold is_gap_col. rewrite existsb_exists, in_map_iff. split.
  - intros (x & Hx & E). exists x. split; [|exact Hx]. lia.
  - intros (x & E & Hx). exists x. split; [exact Hx|]. lia.
Qed.

Lemma seq_split k n gc (f : nat -> N) : is_subset k (N.of_nat n) gc ->
  xs f (seq 0 n) = N.lxor (xs f (map N.to_nat gc))
                          (xs f (filter (fun c => negb (is_gap_col gc c)) (seq 0 n))).
Proof.
  intros S. destruct (subset_nat _ _ _ S) as (ND & FB & L).
  rewrite (xs_split f (is_gap_col gc)). f_equal.
  - rewrite <- xs_filter. apply xs_perm. apply NoDup_Permutation.
    + apply NoDup_filter. apply seq_NoDup.
    + exact ND.
    + intros x. rewrite filter_In, in_seq, is_gap_col_In.
      rewrite Forall_forall in FB. split; [tauto|]. intros H. split; [|exact H].
      specialize (FB x H). lia.
  - rewrite xs_filter. apply xs_ext. intros x _. destruct (is_gap_col gc x); reflexivity.
Qed.

Lemma add_outputs_spec m : forall cs vs out, NoDup cs -> length vs = length cs ->
  Forall (fun c => m + c < length out) cs ->
  exists out', add_outputs m cs vs out = Some out' /\ length out' = length out
    /\ (forall k, k < length cs -> nth (m + nth k cs 0) out' 0%N
          = N.lxor (nth (m + nth k cs 0) out 0%N) (nth k vs 0%N))
    /\ (forall x, (forall c, In c cs -> x <> m + c) -> nth x out' 0%N = nth x out 0%N).
Proof.
  induction cs as [|c cs IH]; intros vs out ND LV F.
  - exists out. split; [destruct vs; reflexivity|]. repeat split; auto. cbn. intros; lia.
  - destruct vs as [|v vs]; [discriminate|]. inversion_clear ND as [|? ? N ND'].
    inversion_clear F as [|? ? F1 F2]. cbn [add_outputs].
    rewrite rd_nth with (d := 0%N) by exact F1. cbn [bind].
    rewrite wr_ok by exact F1. cbn [bind].
    destruct (IH vs (upd out (m + c) (N.lxor (nth (m + c) out 0%N) v))) as (out' & E & L & H1 & H2).
    + exact ND'.
    + cbn in LV. lia.
    + rewrite upd_length. exact F2.
    + exists out'. rewrite upd_length in L. split; [exact E|]. split; [exact L|]. split.
      * intros [|k] Hk; cbn [nth].
        -- rewrite H2.
           ++ apply nth_upd_same. exact F1.
           ++ intros c' Hc'. assert (c <> c') by (intros ->; contradiction). lia.
        -- cbn in Hk. rewrite H1 by lia. f_equal. apply nth_upd_other.
           assert (c <> nth k cs 0); [|lia]. intros ->. apply N. apply nth_In. lia.
      * intros x Hx. rewrite H2 by (intros; apply Hx; right; auto).
        apply nth_upd_other. assert (x <> m + c) by (apply Hx; left; auto). lia.
Qed.

Lemma add_outputs_bound m : forall cs vs out out',
  add_outputs m cs vs out = Some out' -> length vs = length cs ->
  Forall (fun c => m + c < length out) cs.
Proof.
  induction cs as [|c cs IH]; intros vs out out' H LV; [constructor|].
  destruct vs as [|v vs]; [discriminate|]. cbn [add_outputs] in H.
  unfold rd in H. destruct (nth_error out (m + c)) as [x|] eqn:E; [|discriminate].
  cbn [bind] in H. apply nth_error_lt in E. rewrite wr_ok in H by exact E. cbn [bind] in H.
  constructor; [exact E|]. apply IH in H; [|cbn in LV; lia].
  rewrite upd_length in H. exact H.
Qed.

Lemma random_dense_inv vl m gc : forall cols iter blocks out out',
  random_dense vl m gc cols iter blocks out = Some out' ->
  length out' = length out
  /\ forall x, (forall c, In c cols -> is_gap_col gc c = false -> x <> m + c) ->
     nth x out' 0%N = nth x out 0%N.
Proof.
  induction cols as [|c cols IH]; intros iter blocks out out' H; cbn [random_dense] in H.
  - injection H as <-. auto.
  - destruct (is_gap_col gc c) eqn:EC.
    + destruct (IH _ _ _ _ H) as [L HX]. split; [exact L|]. intros x Hx. apply HX.
      intros c' Hc'. apply Hx. right. exact Hc'.
    + destruct (value_at vl blocks iter) as [v|]; [|discriminate]. cbn [bind] in H.
      unfold wr in H. destruct (Nat.ltb_spec (m + c) (length out)); [|discriminate].
      cbn [bind] in H. destruct (IH _ _ _ _ H) as [L HX]. rewrite upd_length in L.
      split; [exact L|]. intros x Hx. rewrite HX.
      * apply nth_upd_other. intros E. apply (Hx c); auto. left; auto.
      * intros c' Hc'. apply Hx. right. exact Hc'.
Qed.

Lemma random_all_inv vl m : forall cols blocks out out',
  random_all vl m cols blocks out = Some out' ->
  length out' = length out
  /\ forall x, (forall c, In c cols -> x <> m + c) -> nth x out' 0%N = nth x out 0%N.
Proof.
  induction cols as [|c cols IH]; intros blocks out out' H; cbn [random_all] in H.
  - injection H as <-. auto.
  - destruct (value_at vl blocks (c * vl)) as [v|]; [|discriminate]. cbn [bind] in H.
    unfold wr in H. destruct (Nat.ltb_spec (m + c) (length out)); [|discriminate].
    cbn [bind] in H. destruct (IH _ _ _ H) as [L HX]. rewrite upd_length in L.
    split; [exact L|]. intros x Hx. rewrite HX.
    + apply nth_upd_other. intros E. apply (Hx c); auto. left; auto.
    + intros c' Hc'. apply Hx. right. exact Hc'.
Qed.

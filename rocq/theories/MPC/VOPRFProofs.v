(** Proofs about the VOLE-based OPRF. *)
From Coq Require Import NArith ZArith List Bool Arith Lia Permutation.
From Coq Require Import ZifyBool ZifyNat ZifyN.
From Verif.Base Require Import Words ListX.
From Verif.Crypto Require Import BlockModel AESModel PRGModel.
From Verif.OKVS Require Import GFModel GFProofs DivModel SparseModel SparseSpec PaxosModel PaxosSpec PaxosBack PaxosEncode PaxosProps
  BaxosModel BaxosSpec BaxosLists BaxosSort BaxosBins BaxosSolve BaxosDecode BaxosProps PaxosZero.
From Verif.MPC Require Import VOPRFModel VOPRFSpec.
Import ListNotations.

Lemma byte_blocks : forall v, Forall (fun x => (x < 2 ^ 128)%N) v -> ByteToBlock (BlockToByte v) = v.
Proof.
  intros v F. unfold ByteToBlock.
  assert (L : length (BlockToByte v) = length v * 16).
  { unfold BlockToByte. clear. induction v as [|x v IH]; [reflexivity|]. cbn [flat_map length]. rewrite app_length, IH, le_bytes_length. reflexivity. }
  rewrite L, Nat.div_mul by discriminate. clear L. induction F as [|x v H F IH]; [reflexivity|].
  cbn [length BlockToByte flat_map ByteToBlock_n]. fold (BlockToByte v).
  rewrite firstn_app_exact', skipn_app_exact' by (rewrite le_bytes_length; reflexivity). rewrite IH. f_equal.
  apply le_val_bytes. exact H.
Qed.

Lemma interleave_single {A} : forall sched (l r : list A), interleave sched [l] = Some r -> sched = repeat 0 (length l) /\ r = l.
Proof.
  induction sched as [|t sched IH]; intros l r H; cbn [interleave] in H.
  - cbn [forallb] in H. destruct l; [|discriminate]. injection H as <-. auto.
  - destruct t as [|t]; [|destruct t; discriminate]. cbn [nth] in H. destruct l as [|w l]; [discriminate|].
    apply bind_inv in H. destruct H as (r0 & E & H). injection H as <-. cbn [upd] in E.
    destruct (IH _ _ E) as [-> ->]. auto.
Qed.
Lemma interleave_alone {A} (l : list A) : interleave (repeat 0 (length l)) [l] = Some l.
Proof. rewrite <- (app_nil_r (repeat 0 (length l))). rewrite (interleave_one l [] [l] 0 eq_refl). cbn. rewrite app_nil_r. reflexivity. Qed.

(** The parts of a vector of nb * tot elements *)
Definition cut (nb tot : nat) (C : list N) (b : nat) : list N :=
  if b <? nb then firstn tot (skipn (b * tot) C) else repeat 0%N tot.
Lemma cut_length nb tot C b : length C = nb * tot -> length (cut nb tot C b) = tot.
Proof.
  intros L. unfold cut. destruct (Nat.ltb_spec b nb); [|apply repeat_length]. rewrite firstn_length, skipn_length. nia.
Qed.
Lemma whole_cut nb tot C : length C = nb * tot -> whole nb (cut nb tot C) = C.
Proof.
  intros L. unfold whole.
  assert (X : forall k, k <= nb -> concat (map (cut nb tot C) (seq 0 k)) = firstn (k * tot) C).
  { induction k as [|k IH]; intros H; [reflexivity|]. rewrite seq_S, map_app, concat_app, IH by lia. cbn [Nat.add map concat].
    rewrite app_nil_r. unfold cut. replace (k <? nb) with true by lia.
    replace (S k * tot) with (k * tot + tot) by lia. rewrite <- (firstn_skipn (k * tot) C) at 3.
    rewrite firstn_app, firstn_firstn, firstn_length. replace (Nat.min (k * tot + tot) (k * tot)) with (k * tot) by lia.
    f_equal. f_equal. nia. }
  rewrite X by lia. rewrite <- L. apply firstn_all.
Qed.

Lemma load_one enc B Y : nbins B = 1 -> load enc B 0 Y = length Y.
Proof.
  intros H. unfold load. induction Y as [|y Y IH]; [reflexivity|]. cbn [filter].
  assert (E : key_bin enc B y = 0) by (unfold key_bin; rewrite H; change (N.of_nat 1) with 1%N; rewrite N.mod_1_r; reflexivity).
  rewrite E. cbn [Nat.eqb length]. rewrite IH. reflexivity.
Qed.

(** What a vector C means: decoding is the same function on every list. *)
Definition meaning (enc : N -> N) (B : baxos) (C : list N) (k : N) : N :=
  value_of 1 B (cut (nbins B) (total (binp B)) C) (key_hash enc k).

Lemma decode1_ok enc B C Y : vole_okvs B -> length C = nbins B * btotal B -> countable enc B Y ->
  decode1 B enc Y (repeat 0%N (length Y)) C = Some (map (meaning enc B C) Y).
Proof.
  intros (U & K & N0 & N64) LC CT. destruct (usable_good _ U) as (Gd & Sz & Wp & Mp).
  assert (HG : bglimit B + bssp B < 256) by apply U.
  assert (D : dense_ok (binp B)) by (unfold dense_ok; cbn [kind binp]; rewrite K; exact I).
  assert (BT : btotal B = total (binp B)) by (apply btotal_is; assumption). rewrite BT in LC.
  assert (EM : map (meaning enc B C) Y = map (value_of 1 B (cut (nbins B) (total (binp B)) C)) (set_dense enc Y)).
  { unfold set_dense. rewrite map_map. reflexivity. }
  unfold decode1. destruct (Nat.eq_dec (nbins B) 1) as [N1|N1].
  - unfold bdecode. rewrite N1. cbn [Nat.eqb]. rewrite N1, Nat.mul_1_l in LC.
    assert (Ld : length (set_dense enc Y) = length Y) by apply map_length.
    rewrite (decode_buf_ok 1 B Gd Wp Mp D) by (try assumption; rewrite Ld, <- (load_one enc B Y N1); apply CT; lia).
    cbn [bind]. rewrite repeat_length. replace (length Y <? length Y) with false by lia.
    rewrite Ld, skipn_all2 by (rewrite repeat_length; lia). rewrite app_nil_r, EM. f_equal. apply map_ext. intros h.
    unfold value_of. f_equal. assert (E : bin_of B h = 0) by (unfold bin_of; rewrite N1; change (N.of_nat 1) with 1%N; rewrite N.mod_1_r; reflexivity).
    rewrite E. unfold cut. rewrite N1. cbn [Nat.ltb Nat.leb Nat.mul skipn]. rewrite <- LC, firstn_all. reflexivity.
  - assert (CT' : forall b, b < nbins B -> N.lt (N.of_nat (length (filter (fun h => bin_of B h =? b) (set_dense enc Y)))) (2 ^ bits (binp B))).
    { intros b Hb. rewrite load_hashes. apply CT, Hb. }
    assert (CL : forall b, length (cut (nbins B) (total (binp B)) C b) = total (binp B)) by (intros b; apply cut_length, LC).
    unfold bdecode. replace (nbins B =? 1) with false by lia. cbn [Nat.eqb].
    rewrite <- (whole_cut (nbins B) (total (binp B)) C LC) at 1.
    destruct (threads_ok enc 1 B Gd Wp Mp D ltac:(lia) N64 HG _ CL Y CT' 1 ltac:(lia)) as (wss & E & P & V).
    rewrite E. cbn [bind]. apply BaxosLists.all_some_inv in E. cbn [seq map] in E.
    destruct wss as [|w [|? ?]]; try discriminate. cbn [concat] in P, V. rewrite app_nil_r in P, V.
    assert (LW : length w = length Y) by (rewrite <- (map_length fst w), (Permutation_length P), seq_length; reflexivity).
    rewrite <- LW at 1. rewrite interleave_alone. cbn [bind]. rewrite EM.
    apply (apply_all enc 1 B Wp Mp N0 N64 HG _ CL Y CT' 1 ltac:(lia)); [apply repeat_length|exact P|exact V].
Qed.

(** The result of the client's encoding: zero *)
Lemma solve1_zero enc B X out n k : solve1 B enc X (repeat 0%N n) (repeat 0%N k) = Some out -> zeros out.
Proof. apply solve_0; apply zeros_repeat. Qed.

Lemma place_length B T t : forall es sizes ws sz, place B T t es sizes = Some (ws, sz) -> length ws = length es.
Proof.
  induction es as [|e es IH]; intros sizes ws sz H; cbn [place] in H; [injection H as <- <-; reflexivity|].
  apply bind_inv in H. destruct H as (k & _ & H). apply bind_inv in H. destruct H as (s1 & _ & H).
  destruct (_ && _); [discriminate|]. apply bind_inv in H. destruct H as ([w0 s0] & E0 & H). cbn [fst snd] in H. injection H as <- <-.
  cbn [length]. f_equal. apply (IH _ _ _ E0).
Qed.

Lemma solve1_total enc B X : vole_okvs B -> encodable enc B X ->
  exists out, solve1 B enc X (repeat 0%N (length X)) (repeat 0%N (nbins B * btotal B)) = Some out /\ length out = nbins B * btotal B.
Proof.
  intros (U & K & N0 & N64) E. unfold encodable in E. cbv zeta in E. set (zero := repeat 0%N (length X)) in *.
  assert (LZ : length zero = length X) by apply repeat_length.
  assert (HG : bglimit B + bssp B < 256) by apply U.
  assert (BT : btotal B = total (binp B)) by (apply btotal_is; assumption).
  destruct E as [(N1 & LI & ST)|(RM & LD)].
  - unfold solve1, solve. rewrite N1. cbn [Nat.eqb]. rewrite slice_ok by lia. cbn [bind skipn]. rewrite <- LI, firstn_all.
    unfold store in ST. destruct (set_keys (binp B) (set_dense enc X)) as [o|]; [|contradiction]. cbn [bind] in *.
    destruct (encode 1 (binp B) o zero None) as [[[o' v] t']|] eqn:EE; [|contradiction]. cbn [bind fst snd].
    exists v. split; [reflexivity|]. apply encode_into_length in EE. rewrite repeat_length in EE. rewrite BT. lia.
  - destruct (C72_total enc 1 B 1 (fun _ => None) X zero U RM LZ LD) as (s1 & s2 & out & H).
    assert (FT := roomy_fits enc B 1 X zero U LZ RM).
    destruct (solve_ok _ _ _ _ _ _ _ FT LZ _ _ _ H) as (cur & EW & BO).
    destruct RM as (R1 & R2 & R3 & R4 & R5 & R6 & R7).
    exists out. split.
    + rewrite <- H. unfold solve1. unfold solve in *. replace (nbins B =? 1) with false in * by lia. cbn [Nat.eqb] in *.
      apply bind_inv in H. destruct H as (rs & ER & H). rewrite ER. cbn [bind].
      assert (ER' := ER). apply BaxosLists.all_some_inv in ER'. cbn [seq map] in ER'.
      destruct rs as [|[w s] [|? ?]]; try discriminate. cbn [map] in ER'. injection ER' as EW0. cbn [map fst snd] in *.
      assert (LW : length w = length X).
      { unfold thread_writes in EW0. apply bind_inv in EW0. destruct EW0 as (es & EE & EP). rewrite (place_length _ _ _ _ _ _ _ EP).
        assert (TL : t_len (length X) 1 0 = length X) by (unfold t_len, t_begin; rewrite !Nat.div_1_r; lia).
        destruct (entries_ok enc B ltac:(lia) N64 X zero 1 0) as (es' & EE' & EQ); try lia; try assumption.
        { rewrite TL. specialize (R5 0 ltac:(lia)). rewrite thread_keys_length, TL in R5 by lia. exact R5. }
        rewrite EE in EE'. injection EE' as <-. apply (f_equal (@length _)) in EQ. rewrite !map_length, seq_length, TL in EQ. exact EQ. }
      apply bind_inv in H. destruct H as (ws & EI & H). destruct (interleave_single _ _ _ EI) as [ES1 ->]. rewrite ES1, LW.
      rewrite <- LW, interleave_alone. cbn [bind]. apply bind_inv in H. destruct H as (tab & ET & H). rewrite ET. cbn [bind].
      apply bind_inv in H. destruct H as (bs & EB & H). rewrite EB. cbn [bind].
      destruct (all_bins B 1 ltac:(lia) R3) as (bs' & EB' & PB). rewrite EB in EB'. injection EB' as <-.
      apply BaxosLists.all_some_inv in EB. cbn [seq map] in EB. destruct bs as [|b0 [|? ?]]; try discriminate.
      apply bind_inv in H. destruct H as (order & EO & H). destruct (interleave_single _ _ _ EO) as [ES2 ->].
      assert (LB : length b0 = nbins B) by (cbn [concat] in PB; rewrite app_nil_r in PB; rewrite (Permutation_length PB), seq_length; reflexivity).
      rewrite ES2, LB. reflexivity.
    + rewrite EW. unfold whole. rewrite BT.
      assert (X0 : forall k s, s + k <= nbins B -> length (concat (map cur (seq s k))) = k * total (binp B)).
      { induction k as [|k IH]; intros s Hs; [reflexivity|]. cbn [seq map concat]. rewrite app_length, IH by lia.
        rewrite (bin_out_length _ _ _ _ _ _ _ _ (BO s ltac:(lia))). lia. }
      apply X0. lia.
Qed.

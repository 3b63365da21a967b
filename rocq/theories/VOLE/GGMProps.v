(** C74: the GGM tree. *)
From Coq Require Import NArith List Bool Arith Lia.
From Verif.Base Require Import Words ListX.
From Verif.OT Require Import OTModel OTSpec.
From Verif.VOLE Require Import GGMModel GGMSpec GGMProofs.
Import ListNotations.

(** C74.  For every depth, root key k, leaf number alpha, correction beta, and
    whatever the two message vectors contained before (m0, m1) and whatever lies
    behind the messages and selection bits in memory: FullEval ends with the
    leaves of the tree and appends one message pair per level; PuncEval, given
    the messages chosen by the selection bits of alpha, returns all these leaves,
    except that leaf alpha is shifted by FullEval's result plus beta. *)
Theorem C74_punctured : forall d k alpha beta m0 m1 ms bits, 1 <= d -> alpha < 2 ^ d ->
  let all := leaves GGM_PRG k d in
  let sel := TransToBitVec (N.of_nat alpha) [] d in
  exists s0 s1,
    length sel = d /\ length s0 = d /\ length s1 = d /\
    FullEval GGM_PRG d k m0 m1 = Some (xors all, all, m0 ++ s0, m1 ++ s1) /\
    PuncEval GGM_PRG d beta (chosen sel s0 s1 ++ ms) (sel ++ bits) =
    Some (upd all alpha (N.lxor (nth alpha all 0%N) (N.lxor (xors all) beta))).
Proof.
  intros d k alpha beta m0 m1 ms bits Hd Ha. cbv zeta. generalize GGM_PRG as prg. intros prg.
  exists (map (sum0 prg k) (seq 0 d)), (map (sum1 prg k) (seq 0 d)).
  rewrite trans_sel by exact Ha. rewrite app_nil_r. rewrite !map_length, seq_length.
  split; [reflexivity|]. split; [reflexivity|]. split; [reflexivity|]. split.
  - destruct d as [|d]; [lia|]. apply full_ok.
  - rewrite chosen_sel. apply punc_ok; assumption.
Qed.
Print Assumptions C74_punctured.

(** the leaves: 2^d of them; leaf 0 is obtained from the root by taking the first
    half of the generator d times, and the two children of a node are the two
    halves of the generator on it *)
Theorem C74_leaves : forall prg k d,
  length (leaves prg k d) = 2 ^ d /\
  leaves prg k (S d) = flat_map (fun x => [fst (prg x); snd (prg x)]) (leaves prg k d) /\
  leaves prg k 0 = [k].
Proof.
  intros prg k d. split; [apply leaves_length|]. split; [|reflexivity].
  assert (H : forall n s, 1 <= s -> map (heap prg k) (seq (2 * s) (2 * n)) =
              flat_map (fun x => [fst (prg x); snd (prg x)]) (map (heap prg k) (seq s n))).
  { induction n as [|n IH]; intros s Hs; [reflexivity|]. replace (2 * S n) with (S (S (2 * n))) by lia.
    cbn [seq map flat_map app]. rewrite <- IH by lia. replace (2 * S s) with (S (S (2 * s))) by lia.
    f_equal; [apply heap_even; exact Hs|]. f_equal.
    rewrite <- heap_odd by exact Hs. f_equal. lia. }
  rewrite !leaves_heap, <- H by apply pow_pos. reflexivity.
Qed.
Print Assumptions C74_leaves.

(** depth 0: no leaves on either side *)
Theorem C74_depth_zero : forall k beta m0 m1 ms bits,
  FullEval GGM_PRG 0 k m0 m1 = Some (0%N, [], m0, m1) /\ PuncEval GGM_PRG 0 beta ms bits = Some [].
Proof.
  intros. unfold FullEval. destruct (GGM_PRG k) as [l r]. split; reflexivity.
Qed.
Print Assumptions C74_depth_zero.

(** The hypotheses are met: depth 3, leaf 5 of the tree with root key 7; eight
    different leaves *)
Example C74_run :
  match FullEval GGM_PRG 3 7 [] [] with
  | Some (ret, all, s0, s1) =>
      let sel := TransToBitVec 5 [] 3 in
      match PuncEval GGM_PRG 3 9 (chosen sel s0 s1) sel with
      | Some l => (length all =? 8) && (length (nodup N.eq_dec all) =? 8) &&
                  forallb (fun i => Bool.eqb (nth i l 0 =? nth i all 0)%N (negb (i =? 5))) (seq 0 8)
      | None => false
      end
  | None => false
  end = true.
Proof. vm_compute. reflexivity. Qed.

(** Vocabulary of property C97: what it means that a proof does not depend on the witness. *)
From Coq Require Import NArith ZArith List.
From Verif.Base Require Export Draws.
From Verif.Group Require Import ECModel.
From Verif.Bullet Require Import IPModel BPModel BPSpec.
Import ListNotations.
Local Open Scope Z_scope.

Section Spec.
Variable G : ECGroup.

(** a number below the order, as GenRandomBigIntLessThan returns it *)
Definition below (a : Z) : Prop := 0 <= a < order G.

(** what Prove can draw for [n] commitments *)
Definition draws (pp : BPPP G) (n : nat) (rn : BPRand) : Prop :=
  below (rd_alpha rn) /\ below (rd_rho rn) /\ below (rd_tau1 rn) /\ below (rd_tau2 rn) /\
  length (rd_sL rn) = (bp_range G pp * n)%nat /\ Forall below (rd_sL rn) /\
  length (rd_sR rn) = (bp_range G pp * n)%nat /\ Forall below (rd_sR rn).

(** the run ends with a proof whose challenge x is not 0 *)
Definition regular (H : list N -> Z) (tr : list N) (o : option (BPProof G * list N)) : Prop :=
  exists p tr', o = Some (p, tr') /\ unit_mod G (x_of G H tr p).
End Spec.

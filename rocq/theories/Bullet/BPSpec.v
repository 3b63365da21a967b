(** Vocabulary of properties C40-C44. *)
From Coq Require Import NArith ZArith List.
From Verif.Base Require Import ListX.
From Verif.Crypto Require Import BigIntSpec.
From Verif.Crypto Require Import BigIntModel BigIntProofs.
From Verif.Group Require Import ECModel ECProofs.
From Verif.Bullet Require Import IPModel BPModel.
Import ListNotations.
Local Open Scope Z_scope.

Section Spec.
Variable G : ECGroup.
Local Notation q := (order G).
Local Infix "+p" := (padd G) (at level 50, left associativity).
Local Notation "P *p k" := (pmul G P k%Z) (at level 40, left associativity).

(** P = g^a h^b u^<a,b>: what the inner-product argument is about *)
Definition ip_statement (g h : list (pt G)) (u P : pt G) (a b : list Z) : Prop :=
  P = msum G g a +p msum G h b +p u *p dot a b.

(** a is a unit modulo the group order *)
Definition unit_mod (a : Z) : Prop := ~ cong q a 0.

(** v is representable on R bits *)
Definition in_range (R : nat) (v : Z) : Prop := 0 <= v < 2 ^ Z.of_nat R.

(** C_j = g^{r_j} h^{v_j} for all j *)
Definition commits (g h : pt G) (C : list (pt G)) (r v : list Z) : Prop :=
  length r = length C /\ length v = length C /\
  forall j, (j < length C)%nat -> nth j C (inf G) = g *p nth j r 0 +p h *p nth j v 0.

(** The challenges of a range proof: y, z from the transcript and (A, S); then those of
    the inner-product part. *)
Definition y_of (H : list N -> Z) (tr : list N) (p : BPProof G) : Z := H (tr ++ ToByteString G (bpA G p)).
Definition z_of (H : list N -> Z) (tr : list N) (p : BPProof G) : Z :=
  H (tr ++ ToByteString G (bpA G p) ++ ToByteString G (bpS G p)).
Definition x_of (H : list N -> Z) (tr : list N) (p : BPProof G) : Z :=
  H (tr ++ ToByteString G (bpA G p) ++ ToByteString G (bpS G p) ++ ToByteString G (bpT1 G p) ++ ToByteString G (bpT2 G p)).
Definition ip_challenges_of (H : list N -> Z) (tr : list N) (p : BPProof G) : list Z :=
  let tr := tr ++ ToByteString G (bpA G p) ++ ToByteString G (bpS G p) ++ ToByteString G (bpT1 G p) ++ ToByteString G (bpT2 G p) in
  fst (IP_challenges G H (tr ++ BigInt_ToByteString (H tr)) (ipL G (bpip G p)) (ipR G (bpip G p))).
(** no challenge that has to be inverted is 0 modulo the order *)
Definition good_challenges (H : list N -> Z) (tr : list N) (p : BPProof G) : Prop :=
  unit_mod (y_of H tr p) /\ Forall unit_mod (ip_challenges_of H tr p).
End Spec.

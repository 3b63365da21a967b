(** Specification side for the sigma protocols. *)
From Coq Require Import NArith ZArith List Lia Bool Arith.
From Verif.Crypto Require Import BigIntModel BigIntSpec BigIntProofs.
From Verif.Group Require Import ECModel.
Import ListNotations.
Local Open Scope Z_scope.

Section Spec.
Variable G : ECGroup.

(** Challenges are used as exponents, so they differ when they differ modulo the order. *)
Definition distinct_challenges (e e' : Z) : Prop := ~ cong (order G) e e'.

(** The witness computed from two answers [z], [z'] to challenges [e], [e'] for the
    same first message: a function of the four numbers only. *)
Definition extracted (z z' e e' : Z) : Z := (z - z') * ModInverse (e - e') (order G).

(** a random value as drawn by GenRandomBigIntLessThan(order) *)
Definition in_Zq (a : Z) : Prop := 0 <= a < order G.

(** [c] are the coefficients of a linear relation between the points [P]: the
    combination is the point at infinity although not all coefficients vanish *)
Definition nontrivial_relation (P : list (pt G)) (c : list Z) : Prop :=
  length c = length P /\ msum G P c = inf G /\ Exists (fun x => ~ cong (order G) x 0) c.
End Spec.

(** vectors of different length are compared after padding with zeros *)
Definition pad (n : nat) (m : list Z) : list Z := m ++ repeat 0 (n - length m).

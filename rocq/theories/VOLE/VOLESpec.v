(** Specification of VOLE: what is read beyond the vectors. *)
From Coq Require Import Arith.

(** number of oblivious transfers of a run for n correlations with t trees:
    the 2n leaves are cut into t trees, of which the last one takes the rest *)
Definition transfers (n t : nat) : nat :=
  Nat.log2_up (2 * n / t) * (t - 1) + Nat.log2_up ((2 * n) mod t + 2 * n / t).
(** the transfers are done in multiples of 128: how many are added *)
Definition spare (n t : nat) : nat := (128 - transfers n t mod 128) mod 128.

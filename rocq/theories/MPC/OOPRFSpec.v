(** What a user of the OT-based OPRF relies on. *)
From Coq Require Import NArith List Bool Arith.
From Verif.MPC Require Import OOPRFModel.
Import ListNotations.

(** Parameters for which the protocol is defined: all that Setup makes for 3 <= LOG <= 30 *)
Definition proper (p : params) : Prop :=
  3 <= LOG p <= 30 /\ 0 < BATCH p /\ HEIGHT p mod BATCH p = 0 /\ RANGE p <= 32.

(** A set of inputs: at most 2^LOG, and a multiple of the batch size *)
Definition inputs (p : params) (X : list N) : Prop := length X mod BATCH p = 0 /\ length X <= HEIGHT p.

(** The functions return MATRIX_HEIGHT values: after those of the inputs, a constant *)
Definition filled (p : params) (l : list (list N)) (c : list N) : list (list N) := l ++ repeat c (HEIGHT p - length l).

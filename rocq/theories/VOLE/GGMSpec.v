(** Specification of the GGM tree: the nodes of a complete binary tree in heap
    numbering.  The root is node 1, the children of node h are 2h and 2h+1; the
    leaves of a tree of depth d are the nodes 2^d .. 2^(d+1)-1. *)
From Coq Require Import Arith NArith PArith List.
Import ListNotations.

Section Tree.
Variable prg : N -> N * N.
Variable k : N.
Fixpoint node (h : positive) : N :=
  match h with
  | xH => k
  | xO h => fst (prg (node h))
  | xI h => snd (prg (node h))
  end.
Definition heap (h : nat) : N := node (Pos.of_nat h).
(** leaf number j of the tree of depth d *)
Definition leaf (d j : nat) : N := heap (2 ^ d + j).
Definition leaves (d : nat) : list N := map (leaf d) (seq 0 (2 ^ d)).
End Tree.

(** xor of a list *)
Definition xors (l : list N) : N := fold_right N.lxor 0%N l.

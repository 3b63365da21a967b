(** Specification side for the discrete-log search. *)
From Coq Require Import NArith ZArith List Lia Bool Arith Permutation.
From Verif.Base Require Import Words ListX.
From Verif.Group Require Import ECModel.
From Verif.PKE Require Import DlogModel.
Import ListNotations.

Section DlogSpec.
Variable G : ECGroup.
Variable key : pt G -> N.

(** [x] is a discrete log of [h] to base [g] *)
Definition is_dlog (g h : pt G) (x : Z) : Prop := pmul G g x = h.

(** the number of exponents the table and the giant steps cover together *)
Definition covered (R T : nat) : Z := Z.of_nat (BABYSTEP_NUM R T) * Z.of_nat (GIANTSTEP_NUM R T).

(** The 8-byte keys separate the points the search compares: none of the points
    h - g^(k*babysteps) has the key of a different baby step.  (Keys are 64-bit
    hashes of points, so this cannot hold for all points at once.) *)
Definition keys_separate (g h : pt G) (R T : nat) : Prop :=
  forall k b, (k < GIANTSTEP_NUM R T)%nat -> (b < BABYSTEP_NUM R T)%nat ->
    let target := psub G h (pmul G g (Z.of_nat k * Z.of_nat (BABYSTEP_NUM R T))) in
    key target = key (pmul G g (Z.of_nat b)) -> target = pmul G g (Z.of_nat b).

(** the parallel build loop executes every task once, in some order *)
Definition build_schedule (s : list nat) : Prop := Permutation s (seq 0 BUILD_TASK_NUM).

(** a process in which no table has been loaded yet, or only tables written by
    BuildSaveTable (whose first anchor is the point at infinity) *)
Definition anchor0_ok (st : dstate G) : Prop :=
  match anchors G st with [] => True | a :: _ => a = inf G end.
End DlogSpec.

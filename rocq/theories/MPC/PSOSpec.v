(** Vocabulary of the properties about set operations (C60 - C62). *)
From Coq Require Import NArith ZArith List.
Import ListNotations.

Definition eq_dec {A} := forall x y : A, {x = y} + {x <> y}.
(** the items of X that are in Y; those that are not *)
Definition common {A} (dec : @eq_dec A) (X Y : list A) : list A := filter (fun x => if in_dec dec x Y then true else false) X.
Definition only {A} (dec : @eq_dec A) (X Y : list A) : list A := filter (fun x => if in_dec dec x Y then false else true) X.

(** correct indication bits *)
Definition correct_bits (X Y : list N) (bits : list N) : Prop :=
  length bits = length X /\ forall i, i < length X ->
    (nth i bits 2%N = 1%N /\ In (nth i X 0%N) Y) \/ (nth i bits 2%N = 0%N /\ ~ In (nth i X 0%N) Y).
(** indication bits that may be wrongly set on the items of Err *)
Definition bits_up_to (Err : N -> Prop) (X Y : list N) (bits : list N) : Prop :=
  length bits = length X /\ forall i, i < length X ->
    (nth i bits 2%N = 1%N \/ nth i bits 2%N = 0%N) /\
    (In (nth i X 0%N) Y -> nth i bits 2%N = 1%N) /\
    (nth i bits 2%N = 1%N -> In (nth i X 0%N) Y \/ Err (nth i X 0%N)).

(** the sum of the values attached to the items of X that are in Y *)
Fixpoint sum_common (X : list N) (v : list Z) (Y : list N) : Z :=
  match X, v with
  | x :: X', a :: v' => ((if in_dec N.eq_dec x Y then a else 0) + sum_common X' v' Y)%Z
  | _, _ => 0%Z
  end.

(** the values after the masks have been added modulo B to the first n of them *)
Definition masked (v : list Z) (r : nat -> Z) (B : Z) (n : nat) : list Z :=
  map (fun i => (nth i v 0 + r i) mod B)%Z (seq 0 n) ++ skipn n v.

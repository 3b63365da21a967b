(** Interpolation modulo a prime, used by the extractors of properties C90-C92: from the
    values of a polynomial at n points to its coefficients. *)
From Coq Require Import ZArith List Arith.
From Verif.Crypto Require Import BigIntModel BigIntSpec BigIntProofs.
Import ListNotations.
Local Open Scope Z_scope.

(** f 0 + ... + f (n-1) *)
Definition sum (n : nat) (f : nat -> Z) : Z := zsum (map f (seq 0 n)).

(** coefficients of p * (X - r), lowest first *)
Definition mul_root (p : list Z) (r : Z) : list Z :=
  map (fun k => nth k (0 :: p) 0 - r * nth k p 0) (seq 0 (S (length p))).
(** coefficients of the product of all (X - r) *)
Fixpoint of_roots (rs : list Z) : list Z :=
  match rs with [] => [1] | r :: rs' => mul_root (of_roots rs') r end.

(** the points y 0 .. y (n-1) without y i *)
Definition others (n : nat) (y : nat -> Z) (i : nat) : list Z :=
  map y (filter (fun j => negb (j =? i)%nat) (seq 0 n)).
(** k-th coefficient of the polynomial that is 1 at y i and 0 at the other points *)
Definition lag (q : Z) (n : nat) (y : nat -> Z) (i k : nat) : Z :=
  ModInverse (zprod (map (fun r => y i - r) (others n y i))) q * nth k (of_roots (others n y i)) 0.
(** k-th coefficient of the polynomial of degree below n with value v i at y i *)
Definition coef (q : Z) (n : nat) (y v : nat -> Z) (k : nat) : Z :=
  sum n (fun i => lag q n y i k * v i).

(** pairwise different modulo q *)
Definition distinct (q : Z) (n : nat) (y : nat -> Z) : Prop :=
  forall i j, (i < n)%nat -> (j < n)%nat -> i <> j -> ~ cong q (y i) (y j).

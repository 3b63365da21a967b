(** Polynomials over GF(2), coefficient by coefficient: bit i of a number is
    the coefficient of X^i. Nothing here refers to the code. *)
From Coq Require Import NArith List Bool.
Import ListNotations.
Local Open Scope N_scope.

(** Coefficient of X^k in the product: the sum of x_i * y_(k-i). *)
Definition coefficient (x y : N) (k : nat) : bool :=
  fold_right xorb false
    (map (fun i => N.testbit x (N.of_nat i) && N.testbit y (N.of_nat (k - i)))
         (seq 0 (S k))).

(** [p] is the product of the polynomials [x] and [y]. *)
Definition product (x y p : N) : Prop :=
  forall k, N.testbit p (N.of_nat k) = coefficient x y k.

(** X^128 + X^7 + X^2 + X + 1 *)
Definition field_polynomial : N := 2 ^ 128 + 2 ^ 7 + 2 ^ 2 + 2 ^ 1 + 2 ^ 0.

(** [r] is the remainder of the product of [x] and [y] modulo the field
    polynomial: degree below 128, and product = quotient * polynomial + r. *)
Definition field_product (x y r : N) : Prop :=
  r < 2 ^ 128 /\
  exists p q m, product x y p /\ product q field_polynomial m /\
                p = N.lxor m r.

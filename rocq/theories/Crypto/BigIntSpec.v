(** Specification side for the BigInt and polynomial properties. *)
From Coq Require Import ZArith List.
Import ListNotations.
Local Open Scope Z_scope.

(** the canonical representative of [v] modulo [m] *)
Definition canonical (m v r : Z) : Prop := 0 <= r < m /\ (r - v) mod m = 0.

(** value of a polynomial given by its coefficients, lowest first *)
Fixpoint peval (P : list Z) (x : Z) : Z :=
  match P with [] => 0 | c :: P' => c + x * peval P' x end.

(** sum of a finite family *)
Fixpoint zsum (l : list Z) : Z := match l with [] => 0 | a :: r => a + zsum r end.
Fixpoint zprod (l : list Z) : Z := match l with [] => 1 | a :: r => a * zprod r end.

(** k-th coefficient of the product of two polynomials *)
Definition conv (A B : list Z) (k : nat) : Z :=
  zsum (map (fun i => nth i A 0 * nth (k - i) B 0) (seq 0 (S k))).

(** ordinary inner product *)
Definition dot (a b : list Z) : Z := zsum (map (fun p => fst p * snd p) (combine a b)).

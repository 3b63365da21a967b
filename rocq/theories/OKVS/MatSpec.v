(** Square matrices over a field of characteristic 2 whose addition is xor;
    [mul] is the multiplication. Nothing here refers to the code. *)
From Coq Require Import NArith List Bool Sorting.Sorted.
Import ListNotations.
Local Open Scope N_scope.

Section Spec.
Variable mul : N -> N -> N.
Variable size : N.      (* entries are below this *)

Definition vector (n : nat) (v : list N) : Prop :=
  length v = n /\ Forall (fun x => x < size) v.

Definition square (n : nat) (m : list (list N)) : Prop :=
  length m = n /\ Forall (vector n) m.

(** Sum of f 0, ..., f (n-1) *)
Definition xsum (n : nat) (f : nat -> N) : N :=
  fold_right N.lxor 0 (map f (seq 0 n)).

(** Matrix times vector *)
Definition apply (m : list (list N)) (v : list N) : list N :=
  map (fun r => xsum (length v) (fun k => mul (nth k r 0) (nth k v 0))) m.

(** [b] is the two-sided inverse of [m] *)
Definition inverse_of (n : nat) (m b : list (list N)) : Prop :=
  square n b /\
  forall v, vector n v -> apply b (apply m v) = v /\ apply m (apply b v) = v.

Definition invertible (n : nat) (m : list (list N)) : Prop :=
  exists b, inverse_of n m b.

(** The upper left block of size k+1 sends some non-zero vector to 0 *)
Definition singular_block (k : nat) (m : list (list N)) : Prop :=
  exists v, vector (S k) v /\ (exists i, nth i v 0 <> 0) /\
    forall r, (r <= k)%nat ->
      xsum (S k) (fun c => mul (nth c (nth r m []) 0) (nth c v 0)) = 0.
End Spec.

(** ** Subsets *)

(** [c] lists a k-element subset of {0..n-1}, increasingly *)
Definition is_subset (k : nat) (n : N) (c : list N) : Prop :=
  length c = k /\ StronglySorted N.lt c /\ Forall (fun x => x < n) c.

(** Lexicographic order of lists of equal length *)
Fixpoint lex_lt (a b : list N) : Prop :=
  match a, b with
  | x :: a, y :: b => x < y \/ (x = y /\ lex_lt a b)
  | _, _ => False
  end.

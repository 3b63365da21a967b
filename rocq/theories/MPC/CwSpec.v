(** Vocabulary of the properties about cwPRF-based mqRPMT (C59) and PSI (C63). *)
From Coq Require Import NArith List Permutation.
From Verif.Filter Require Import BloomModel.
Import ListNotations.
Local Open Scope N_scope.

(** the i-th bit position of an element in filters with the parameters of f *)
Definition position (FastKeyedHash : N -> list N -> N) (f : BloomFilter) (x : list N) (i : nat) : N :=
  FastKeyedHash (nth i (bf_vec_salt f) 0) x mod bf_table_size f.
(** all bit positions of z are positions of inserted elements: the filter answers yes *)
Definition covered (FastKeyedHash : N -> list N -> N) (f : BloomFilter) (inserted : list (list N)) (z : list N) : Prop :=
  forall i, (i < N.to_nat (bf_hash_num f))%nat -> exists y j, In y inserted /\ (j < N.to_nat (bf_hash_num f))%nat /\
    position FastKeyedHash f y j = position FastKeyedHash f z i.
(** a false positive *)
Definition false_positive (FastKeyedHash : N -> list N -> N) (f : BloomFilter) (inserted : list (list N)) (z : list N) : Prop :=
  ~ In z inserted /\ covered FastKeyedHash f inserted z.

(** the threads perform all insertion steps, in some order *)
Definition any_order (order_of : list insert_step -> list insert_step) : Prop := forall l, Permutation (order_of l) l.
(** every Contain call returns what some interleaving of its threads returns *)
Definition any_answer (FastKeyedHash : N -> list N -> N) (contain : BloomFilter -> nat -> list N -> bool) : Prop :=
  forall f i x, (exists b, PlainContain FastKeyedHash f x b) -> PlainContain FastKeyedHash f x (contain f i x).

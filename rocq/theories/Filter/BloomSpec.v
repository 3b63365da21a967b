(** Specification vocabulary for the Bloom filter properties: operation
    histories and the set of elements a user expects to be present. *)
From Coq Require Import NArith List Permutation.
From Verif.Filter Require Import BloomModel.
Import ListNotations.

(** Operations a user can call. [OpInsert xs] is a (parallel) insertion of a
    container; a single insertion is a one-element container. *)
Inductive bop :=
| OpInsert (xs : list (list N))
| OpClear.

(** One operation: insertions may execute their atomic steps in any order. *)
Inductive bop_exec (H : N -> list N -> N) : BloomFilter -> bop -> BloomFilter -> Prop :=
| BE_insert : forall f xs sched f',
    Permutation sched (Insert_steps f xs) ->
    exec_insert_steps H f sched = Some f' ->
    bop_exec H f (OpInsert xs) f'
| BE_clear : forall f, bop_exec H f OpClear (bloom_Clear f).

Inductive bhist_exec (H : N -> list N -> N) : BloomFilter -> list bop -> BloomFilter -> Prop :=
| BH_nil : forall f, bhist_exec H f [] f
| BH_cons : forall f o f' os f'',
    bop_exec H f o f' -> bhist_exec H f' os f'' -> bhist_exec H f (o :: os) f''.

(** Elements inserted since the last Clear. *)
Definition live_elements (os : list bop) : list (list N) :=
  fold_left (fun acc o => match o with OpInsert xs => acc ++ xs | OpClear => [] end) os [].

(** The salt generator branch for more than 128 hash functions returns as many
    salts as requested (it loops until it does, bloom_filter.hpp:58). *)
Definition salts_total (big_salt : N -> N -> list N) : Prop :=
  forall h s, (128 < h)%N -> length (big_salt h s) = N.to_nat h.

(** What a user of the VOLE-based OPRF relies on. *)
From Coq Require Import NArith ZArith List Bool Arith.
From Verif.OKVS Require Import PaxosModel PaxosSpec BaxosModel BaxosSpec.
Import ListNotations.

(** The number of items in every bin is a value of the index type. *)
Definition countable (enc : N -> N) (B : baxos) (Y : list N) : Prop :=
  forall b, b < nbins B -> N.lt (N.of_nat (load enc B b Y)) (2 ^ bits (binp B)).

(** The client's items can be encoded with zero values: one bin, and as many
    items as the object was made for; or several bins and room in each. *)
Definition encodable (enc : N -> N) (B : baxos) (X : list N) : Prop :=
  let zero := repeat 0%N (length X) in
  (nbins B = 1 /\ length X = items B /\ store enc 1 (binp B) X zero None <> None)
  \/ (roomy enc B 1 X /\ forall b, b < nbins B -> load enc B b X <= per_bin B /\ bin_store enc 1 B b X zero None <> None).

(** The OKVS object: usable sizes, GF(2^128) *)
Definition vole_okvs (B : baxos) : Prop :=
  usable (binp B) /\ bkind B = gf_128 /\ 0 < nbins B /\ N.lt (N.of_nat (nbins B)) (2 ^ 64).

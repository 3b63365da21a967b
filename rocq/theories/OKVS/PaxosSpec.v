(** What a user of the oblivious key-value store calls and relies on. *)
From Coq Require Import NArith List Bool.
From Verif Require Import OKVS.SparseModel OKVS.SparseSpec OKVS.SparseProofs OKVS.PaxosModel.
Import ListNotations.

(** The hash of one key *)
Definition key_hash (enc : N -> N) (k : N) : N := N.lxor (enc k) k.

(** [set_keys(keys)] and then [encode(values, prng)]; the result is the object,
    the output vector and what is left of the generator. *)
Definition store (enc : N -> N) (vl : nat) (p : params) (keys values : list N) (t : tape) :
  option (okvs * list N * tape) :=
  o <- set_keys p (set_dense enc keys) ;; encode vl p o values t.

(** [decode(keys)], and [decode_1] of one key *)
Definition lookup (enc : N -> N) (vl : nat) (p : params) (out keys : list N) : option (list N) :=
  decode vl p out (set_dense enc keys).
Definition lookup_1 (enc : N -> N) (vl : nat) (p : params) (out : list N) (k : N) : option N :=
  decode_1 vl p out (key_hash enc k).

(** Sizes the constructor may be given: [sparse_size] is a value of the index
    type of width [bits], the weight is positive and at most [sparse_size]
    (for 16-bit indices and weight 3 at most 2^15, see C66), [dense_size] does
    not wrap around its uint8_t. *)
Definition usable (p : params) : Prop :=
  int_width (bits p) /\ N.lt (N.of_nat (msize p)) (2 ^ bits p)
  /\ N.lt (N.of_nat (msize p) + 2) (2 ^ 63)
  /\ 0 < wt p <= msize p
  /\ (wt p = 3 -> bits p = 16%N -> N.le (N.of_nat (msize p)) (2 ^ 15))
  /\ glimit p + ssp p < 256.

(** The number of keys is a value of the index type. *)
Definition few_keys (p : params) (keys : list N) : Prop :=
  N.lt (N.of_nat (length keys)) (2 ^ bits p).

(** Hashes and randomness are blocks, a value is [vl] blocks. *)
Definition blocks_ok (enc : N -> N) (vl : nat) (keys values : list N) (t : tape) : Prop :=
  (forall k, In k keys -> N.lt (key_hash enc k) (2 ^ 128))
  /\ (forall v, In v values -> N.lt v (2 ^ (128 * N.of_nat vl)))
  /\ match t with None => True | Some t => forall i, N.lt (t i) (2 ^ 128) end.

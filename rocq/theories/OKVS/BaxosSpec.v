(** What a user of the binned oblivious key-value store relies on. *)
From Coq Require Import NArith List Bool Arith.
From Verif Require Import OKVS.SparseModel OKVS.PaxosModel OKVS.PaxosSpec OKVS.BaxosModel.
Import ListNotations.

(** The bin of a key, and the keys of a bin with their values, in order *)
Definition key_bin (enc : N -> N) (B : baxos) (k : N) : nat :=
  N.to_nat (N.modulo (get_bin_idx (key_hash enc k)) (N.of_nat (nbins B))).
Definition bin_pairs (enc : N -> N) (B : baxos) (b : nat) (keys values : list N) : list (N * N) :=
  filter (fun kv => key_bin enc B (fst kv) =? b) (combine keys values).
Definition bin_keys enc B b keys values := map fst (bin_pairs enc B b keys values).
Definition bin_values enc B b keys values := map snd (bin_pairs enc B b keys values).

(** The number of keys of a list in a bin, and the keys a thread works on *)
Definition load (enc : N -> N) (B : baxos) (b : nat) (keys : list N) : nat :=
  length (filter (fun k => key_bin enc B k =? b) keys).
Definition thread_keys (T t : nat) (keys : list N) : list N :=
  firstn (t_len (length keys) T t) (skipn (t_begin (length keys) T t) keys).

(** [T] threads can sort [keys] into several bins: every thread has 32 keys,
    and its keys in a bin fit into its part of the table; the bin number, also
    plus the number of threads, is a uint8_t. *)
Definition roomy (enc : N -> N) (B : baxos) (T : nat) (keys : list N) : Prop :=
  2 <= nbins B /\ 0 < T /\ nbins B + T <= 256
  /\ N.lt (N.of_nat (length keys)) (2 ^ 56)
  /\ (forall t, t < T -> 32 <= length (thread_keys T t keys))
  /\ (forall t b, t < T -> b < nbins B -> load enc B b (thread_keys T t keys) <= per_thread B T)
  /\ (forall b, b < nbins B -> N.lt (N.of_nat (load enc B b keys)) (2 ^ bits (binp B))).

(** What one bin would store *)
Definition bin_store enc vl B b keys values t :=
  store enc vl (binp B) (bin_keys enc B b keys values) (bin_values enc B b keys values) t.

(** Every bin is one for which C67 holds: not randomised, or no gap row; with the
    GF(2^128) kind, blocks of 128 bits and fewer than 256 gap rows. *)
Definition good_bin enc vl B b keys values (t : tape) : Prop :=
  forall o out t', bin_store enc vl B b keys values t = Some (o, out, t') ->
  (t = None \/ gap_rows o = [])
  /\ (bkind B = gf_128 ->
      blocks_ok enc vl (bin_keys enc B b keys values) (bin_values enc B b keys values) t
      /\ length (gap_rows o) < 256).

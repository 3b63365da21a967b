(** MurmurHash64A, the hash of a point to the 8-byte key of the discrete-log table. *)
From Coq Require Import NArith List Bool.
From Verif.Base Require Import Words.
Import ListNotations.
Local Open Scope N_scope.

(** products of uint64_t *)
Definition mul64 (a b : N) : N := wrap64 (a * b).

(** /repo utility/murmurhash2.hpp:133 *)
Definition fixed_salt64 : N := 0xAAAAAAAA.
(** /repo utility/murmurhash2.hpp:136-137 *)
Definition mm : N := 0xc6a4a7935bd1e995.
Definition rr : N := 47.

(** /repo utility/murmurhash2.hpp:148-150 *)
Definition mix (k : N) : N :=
  let k := mul64 k mm in
  let k := N.lxor k (N.shiftr k rr) in
  mul64 k mm.

(** /repo utility/murmurhash2.hpp:144-154: the loop over [n] words of 8 bytes; the machine
    is little-endian (getblock, lines 55-66). What is left of the key is [data2]. *)
Fixpoint words (n : nat) (data : list N) (h : N) : N * list N :=
  match n with
  | O => (h, data)
  | S n => words n (skipn 8 data) (mul64 (N.lxor h (mix (le_val (firstn 8 data)))) mm)
  end.

(** /repo utility/murmurhash2.hpp:158-168: the cases from len & 7 downwards *)
Fixpoint tail_bytes (i : nat) (data2 : list N) (h : N) : N :=
  match i with
  | O => h
  | S i => tail_bytes i data2 (N.lxor h (wrap64 (N.shiftl (nth i data2 0) (8 * N.of_nat i))))
  end.
Definition tail (i : nat) (data2 : list N) (h : N) : N :=
  match i with O => h | _ => mul64 (tail_bytes i data2 h) mm end.

(** /repo utility/murmurhash2.hpp:170-172 *)
Definition finish (h : N) : N :=
  let h := N.lxor h (N.shiftr h rr) in
  let h := mul64 h mm in
  N.lxor h (N.shiftr h rr).

(** /repo utility/murmurhash2.hpp:134-175; None: [key] is shorter than [len] *)
Definition MurmurHash64A (key : list N) (len : nat) (seed : N) : option N :=
  if Nat.ltb (length key) len then None
  else
    let '(h, data2) := words (Nat.div len 8) key (N.lxor seed (mul64 (N.of_nat len) mm)) in
    Some (finish (tail (Nat.modulo len 8) data2 h)).

(** /repo crypto/ec_point.hpp:242-251 ECPoint::ToUint64 of a point whose compressed encoding is
    [enc]: 33 bytes, or the single byte 0 of the point at infinity in a buffer of zeros *)
Definition ToUint64 (enc : list N) : option N :=
  MurmurHash64A (enc ++ repeat 0 (33 - length enc)) 33 fixed_salt64.

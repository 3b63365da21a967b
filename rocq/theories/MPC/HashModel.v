(** Model of the hash functions between blocks, points and bytes in crypto/hash.hpp that the
    two-party protocols use. *)
From Coq Require Import NArith ZArith List Bool.
From Verif.Base Require Import Words ListX.
From Verif.Crypto Require Import PRGModel.
From Verif.Group Require Import ECModel.
Import ListNotations.
Local Open Scope N_scope.

Section Hash.
Variable G : ECGroup.
(** EC_POINT_set_compressed_coordinates(group, P, x, y_bit): x is the big-endian number in
    the 32 octets; None when there is no such point on the curve *)
Variable set_compressed : list N -> N -> option (pt G).

(** the 32-byte buffer as octets *)
Definition octets (b : N * N) : list N := le_bytes 16 (fst b) ++ le_bytes 16 (snd b).

(** /repo crypto/hash.hpp:237-242  the loop of BlockToECPoint; at most [fuel] iterations *)
Fixpoint point_loop (fuel : nat) (buffer : N * N) (y_bit : N) : option (pt G) :=
  match fuel with
  | O => None
  | S f => let buffer' := Dedicated_CBCAES buffer in
           match set_compressed (octets buffer') y_bit with
           | Some P => Some P
           | None => point_loop f buffer' y_bit
           end
  end.
(** /repo crypto/hash.hpp:226-245.  [None]: not finished after [fuel] iterations *)
Definition BlockToECPoint (fuel : nat) (var : N) : option (pt G) :=
  let buffer := Dedicated_CBCAES (var, 0) in
  point_loop fuel buffer (N.land 1 (nth 0 (octets buffer) 0)).

(** BlockToECPoint as a function: it terminates on every block, with value H *)
Definition hashes_to (H : N -> pt G) : Prop :=
  forall var, var < 2 ^ 128 -> exists fuel, BlockToECPoint fuel var = Some (H var).

Variable hash : list N -> list N.   (* BasicHash, crypto/hash.hpp:17-18: 32 bytes *)
(** /repo crypto/hash.hpp:150-164  ECPointToBytes (and :136-148 ECPointToString): the 33-byte
    buffer is an uninitialised local array; for the point at infinity only its first byte
    is written *)
Definition ECPointToBytes (garbage : list N) (A : pt G) : list N :=
  hash (if peqb G A (inf G) then 0 :: skipn 1 garbage else comp33 G A).
End Hash.

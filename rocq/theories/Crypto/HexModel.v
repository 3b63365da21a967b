(** The hexadecimal strings of numbers and points, as lists of ASCII codes. *)
From Coq Require Import NArith ZArith List Bool Arith.
From Verif.Base Require Import Words ListX.
From Verif.Crypto Require Import BigIntModel.
From Verif.Group Require Import ECModel.
Import ListNotations.

(** the digits "0123456789ABCDEF" of OpenSSL *)
Definition hex_char (d : N) : N := if (d <? 10)%N then (48 + d)%N else (55 + d)%N.
Definition hex_byte (b : N) : list N := [hex_char (b / 16); hex_char (b mod 16)].

(** /repo crypto/bigint.hpp:300-305 (BigInt::ToHexString): BN_bn2hex gives "0" for zero, otherwise a sign and two digits
    for each byte of the magnitude, without leading zero bytes *)
Definition BN_bn2hex (a : Z) : list N :=
  if (a =? 0)%Z then [48%N] else (if (a <? 0)%Z then [45%N] else []) ++ flat_map hex_byte (BN_bn2bin a).

(** /repo crypto/ec_point.hpp:233-239 (ECPoint::ToHexString): EC_POINT_point2hex gives two digits for each byte of the
    compressed encoding, which is the single byte 0 for the point at infinity *)
Definition point_hex (G : ECGroup) (P : pt G) : list N :=
  flat_map hex_byte (if peqb G P (inf G) then [0%N] else comp33 G P).

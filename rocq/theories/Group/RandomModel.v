(** Random numbers, generators and the number-theoretic helpers: crypto/bigint.hpp, crypto/ec_point.hpp,
    utility/routines.hpp.  A random source is an explicit argument: the integer drawn. *)
From Coq Require Import NArith ZArith List Bool Arith.
From Verif.Crypto Require Import BigIntModel.
From Verif.Group Require Import ECModel.
Import ListNotations.
Local Open Scope Z_scope.

(** OpenSSL's BN_rand_range fails unless the range is positive; d is what the source gives.  Taking it modulo the range
    stands for the rejection of values outside. *)
Definition BN_rand_range (d range : Z) : option Z := if 0 <? range then Some (d mod range) else None.
(** BN_gcd: never negative, and the other number if one is zero *)
Definition BN_gcd (a b : Z) : option Z := Some (Z.gcd a b).

(** /repo crypto/bigint.hpp:520-533: a failed check only prints, and the new result is zero *)
Definition GenRandomBigIntLessThan (d max : Z) : Z := checked (BN_rand_range d max).
(** /repo crypto/bigint.hpp:536-541: an invalid range only prints *)
Definition GenRandomBigIntBetween (d start end_ : Z) : Z := GenRandomBigIntLessThan d (end_ - start) + start.
(** /repo crypto/bigint.hpp:499-504 *)
Definition BigInt_GCD (a b : Z) : Z := checked (BN_gcd a b).
(** /repo crypto/bigint.hpp:554-560: ds i is the i-th draw; fuel bounds the number of repetitions, None: still running *)
Fixpoint coprime_loop (fuel : nat) (ds : nat -> Z) (i : nat) (num rand_num : Z) : option Z :=
  if 1 <? BigInt_GCD rand_num num then
    match fuel with O => None | S fuel' => coprime_loop fuel' ds (S i) num (GenRandomBigIntLessThan (ds i) num) end
  else Some rand_num.
Definition GenCoPrimeLessThan (fuel : nat) (ds : nat -> Z) (num : Z) : option Z :=
  coprime_loop fuel ds 1 num (GenRandomBigIntLessThan (ds O) num).
(** /repo crypto/bigint.hpp:515-517; test is IsPrime, OpenSSL's probabilistic test *)
Definition IsSafePrime (test : Z -> bool) (a : Z) : bool := test a && test (BigInt_Div (a - 1) 2).

(** /repo crypto/ec_point.hpp:342-347 *)
Definition GenRandomGenerator (G : ECGroup) (d : Z) : pt G := pmul G (pgen G) (GenRandomBigIntBetween d 1 (order G)).
(** /repo crypto/ec_point.hpp:439-447: one draw for every element, in any order of the threads *)
Definition GenRandomECPointVector (G : ECGroup) (LEN : nat) (ds : nat -> Z) : list (pt G) :=
  map (fun i => GenRandomGenerator G (ds i)) (seq 0 LEN).
(** /repo crypto/ec_point.hpp:449-452 *)
Definition GenRandomECPoint (G : ECGroup) (d : Z) : pt G := GenRandomGenerator G d.

(** /repo utility/routines.hpp:46-55: rand s i is the i-th value of rand() after srand(s), an int between 0 and
    RAND_MAX; now is time(0).  None: the remainder by zero is undefined. *)
Definition GenRandomNaturalIntegerVectorLessThan (rand : Z -> nat -> Z) (now : Z) (LEN : nat) (MAX : Z) : option (list Z) :=
  if (MAX =? 0) && negb (LEN =? 0)%nat then None else Some (map (fun i => Z.rem (rand now i) MAX) (seq 0 LEN)).
(** /repo utility/routines.hpp:58-66: 2*MAX and the subtraction are in int64_t, whose overflow is undefined *)
Definition int64_ok (a : Z) : bool := (- 2 ^ 63 <=? a) && (a <? 2 ^ 63).
Definition GenRandomIntegerVectorAbsoluteLessThan (rand : Z -> nat -> Z) (now : Z) (LEN : nat) (MAX : Z) : option (list Z) :=
  if int64_ok (2 * MAX) then
    match GenRandomNaturalIntegerVectorLessThan rand now LEN (2 * MAX) with
    | Some v => if forallb (fun r => int64_ok (r - MAX)) v then Some (map (fun r => r - MAX) v) else None
    | None => None
    end
  else None.

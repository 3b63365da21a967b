(** Hashing a string to a curve point, over the affine coordinates of the curve
    y^2 = x^3 + a x + b modulo p.  The default curve prime256v1 has p = 3 modulo 4. *)
From Coq Require Import NArith ZArith List Lia Bool.
From Verif.Base Require Import Words.
From Verif.Crypto Require Import BigIntModel.
Import ListNotations.
Local Open Scope Z_scope.

(** the loop is still running, the process has exited, or the point is returned *)
Inductive outcome : Type := Running | Exit | Point (P : Z * Z).

Section StringHash.
(** curve_params_p, curve_params_a, curve_params_b (/repo crypto/ec_group.hpp:49-53) *)
Variables p a b : Z.
(** BasicHash, abstract: 32 bytes *)
Variable BasicHash : list N -> list N.

(** /repo crypto/hash.hpp:91-100 *)
Definition StringToBigInt (str_input : list N) : Z := BN_bin2bn (BasicHash str_input).
(** /repo crypto/ec_group.hpp:58-59 *)
Definition curve_params_q : Z := BN_rshift p 1.
(** /repo crypto/ec_point.hpp:357-359 *)
Definition IsSquare (v : Z) : bool := ModExp v curve_params_q p =? 1.
(** /repo crypto/bigint.hpp:466-471.  BN_mod_sqrt for p = 3 modulo 4: the power (p+1)/4, checked
    by squaring; [None] is the failed CRYPTO_CHECK *)
Definition ModSquareRoot (v : Z) : option Z :=
  let r := ModExp v ((p + 1) / 4) p in
  if ModSquare r p =? BigInt_Mod v p then Some r else None.
(** /repo crypto/ec_point.hpp:332-340, 120-124, 189-194.  EC_POINT_set_affine_coordinates reduces
    the coordinates; [None] is the exit for a pair that is not on the curve *)
Definition CreateECPoint (x y : Z) : option (Z * Z) :=
  let x' := BigInt_Mod x p in
  let y' := BigInt_Mod y p in
  if BigInt_Mod (y' * y') p =? BigInt_Mod (x' * x' * x' + a * x' + b) p then Some (x', y') else None.
(** the right side of the curve equation, hash.hpp:113 *)
Definition y_square (x : Z) : Z := BigInt_Mod (x ^ 3 + a * x + b) p.

(** /repo crypto/hash.hpp:111-126: at most [fuel] rounds of the loop *)
Fixpoint hash_loop (fuel : nat) (x : Z) : outcome :=
  match fuel with
  | O => Running
  | S f =>
    if IsSquare (y_square x) then
      match ModSquareRoot (y_square x) with
      | None => Exit
      | Some y =>
        (* lines 117-119 *)
        match (if Z.odd y then CreateECPoint x (ModNegate y p) else Some (0, 0)) with
        | None => Exit
        | Some _ =>
          (* line 120 *)
          match CreateECPoint x y with
          | None => Exit
          | Some P => Point P
          end
        end
      end
    else hash_loop f (StringToBigInt (BigInt_ToByteString x))
  end.
(** /repo crypto/hash.hpp:102-129 *)
Definition StringToECPoint (fuel : nat) (input : list N) : outcome :=
  hash_loop fuel (BigInt_Mod (StringToBigInt input) p).
End StringHash.

(** Bit tricks (utility/bit_operation.hpp, utility/routines.hpp). *)
From Coq Require Import NArith Bool.
From Verif.Base Require Import Words.
Local Open Scope N_scope.

(* utility/bit_operation.hpp:20-29  uint32_t upperpower2(uint32_t x) *)
Definition upperpower2 (x : N) : N :=
  let x := sub32 x 1 in
  let x := N.lor x (shr32 x 1) in
  let x := N.lor x (shr32 x 2) in
  let x := N.lor x (shr32 x 4) in
  let x := N.lor x (shr32 x 8) in
  let x := N.lor x (shr32 x 16) in
  add32 x 1.

(* utility/routines.hpp:41-44  bool IsPowerOfTwo(size_t x) *)
Definition IsPowerOfTwo (x : N) : bool :=
  negb (x =? 0) && (N.land x (sub64 x 1) =? 0).

(* utility/bit_operation.hpp:16-18  (((x) - 0x0001000100010001) & ~(x) & 0x8000800080008000) *)
Definition haszero16 (x : N) : N :=
  N.land (N.land (sub64 x 0x0001000100010001) (not64 x)) 0x8000800080008000.
Definition hasvalue16 (x n : N) : N :=
  haszero16 (N.lxor x (wrap64 (0x0001000100010001 * n))).

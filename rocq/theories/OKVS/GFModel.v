(** Arithmetic in GF(2^128): mpc/okvs/okvs_utility.hpp and
    mpc/vole/basevole.hpp. A block is a number below 2^128. *)
From Coq Require Import NArith List Bool.
From Verif Require Import Base.Words.
Import ListNotations.
Local Open Scope N_scope.

(** Carry-less product, the arithmetic of the instruction
    [_mm_clmulepi64_si128] (Intel SDM, PCLMULQDQ). *)
Fixpoint clmul_pos (x : N) (p : positive) : N :=
  match p with
  | xH => x
  | xO p => N.double (clmul_pos x p)
  | xI p => N.lxor x (N.double (clmul_pos x p))
  end.

Definition clmul (x y : N) : N :=
  match y with N0 => 0 | Npos p => clmul_pos x p end.

Definition lo64 (x : N) : N := x mod 2 ^ 64.
Definition hi64 (x : N) : N := x / 2 ^ 64 mod 2 ^ 64.

(** [_mm_clmulepi64_si128(x, y, imm)]: bit 0 of imm selects the half of x, bit
    4 the half of y. *)
Definition clmul_00 (x y : N) : N := clmul (lo64 x) (lo64 y).
Definition clmul_01 (x y : N) : N := clmul (hi64 x) (lo64 y).
Definition clmul_10 (x y : N) : N := clmul (lo64 x) (hi64 y).
Definition clmul_11 (x y : N) : N := clmul (hi64 x) (hi64 y).

(** [_mm_slli_si128(x, 8)] and [_mm_srli_si128(x, 8)]: shift by 8 bytes *)
Definition slli8 (x : N) : N := N.shiftl x 64 mod 2 ^ 128.
Definition srli8 (x : N) : N := N.shiftr x 64.

(** /repo mpc/okvs/okvs_utility.hpp:467-495 [gf128_mul] on blocks, and the
    same statements in /repo mpc/vole/basevole.hpp:351-378. *)
Definition gf128_mul (x y : N) : N :=
  let x0y0 := clmul_00 x y in
  let x1y0 := clmul_10 x y in
  let x0y1 := clmul_01 x y in
  let x1y1 := clmul_11 x y in
  let x1y0 := N.lxor x1y0 x0y1 in
  let x0y1 := slli8 x1y0 in
  let x1y0 := srli8 x1y0 in
  let x0y0 := N.lxor x0y0 x0y1 in
  let x1y1 := N.lxor x1y1 x1y0 in
  let low := x0y0 in
  let high := x1y1 in
  let modulus := 135 in
  let impact := clmul_01 high modulus in
  let low := N.lxor low (slli8 impact) in
  let high := N.lxor high (srli8 impact) in
  let impact := clmul_00 high modulus in
  N.lxor low impact.

(** /repo mpc/okvs/okvs_utility.hpp:497-507 [gf128_mul] on a [BlockArrayValue]:
    each of its 9 blocks is multiplied. *)
Definition gf128_mul_array (x : list N) (y : N) : list N :=
  map (fun b => gf128_mul b y) x.

(** Inner loop of [gf128_inv]: k squarings. *)
Fixpoint squarings (k : nat) (b : N) : N :=
  match k with
  | O => b
  | S k => squarings k (gf128_mul b b)
  end.

(** Outer loop of [gf128_inv], from counter i, [k] rounds left. *)
Fixpoint inv_rounds (k i : nat) (a result : N) : N :=
  match k with
  | O => result
  | S k =>
      let b := squarings (Nat.pow 2 i) a in
      let a := gf128_mul a b in
      let result := if Nat.eqb i 0 then b else gf128_mul result b in
      inv_rounds k (S i) a result
  end.

(** /repo mpc/okvs/okvs_utility.hpp:511-547 [gf128_inv]: rounds i = 0..6 *)
Definition gf128_inv (x : N) : N := inv_rounds 7 0 x 0.

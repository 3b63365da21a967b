(** Division by a precomputed multiplier: mpc/okvs/okvs_utility.hpp.
    64-bit words are numbers below 2^64; every addition, subtraction and
    multiplication of the code that may wrap is wrapped here. *)
From Coq Require Import NArith List Bool.
From Verif Require Import Base.Words.
Import ListNotations.
Local Open Scope N_scope.

Definition two32 : N := 2 ^ 32.
Definition two64 : N := 2 ^ 64.

Definition add64 (a b : N) : N := (a + b) mod two64.
Definition sub64 (a b : N) : N := (a + two64 - b) mod two64.
Definition mul64 (a b : N) : N := (a * b) mod two64.

(** /repo mpc/okvs/okvs_utility.hpp:63-67 [struct divider] *)
Record divider := { magic : N; more : N }.

(** /repo mpc/okvs/okvs_utility.hpp:68-72 [divide_mullhi_u32] *)
Definition divide_mullhi_u32 (x y : N) : N := mul64 x y / two32 mod two32.

(** /repo mpc/okvs/okvs_utility.hpp:74-81 [divide_mullhi_u64], the branch of a
    compiler with 128-bit integers. *)
Definition divide_mullhi_u64 (x y : N) : N := (x * y) / two64 mod two64.

(** /repo mpc/okvs/okvs_utility.hpp:82-99 [divide_mullhi_u64], the portable
    branch. *)
Definition divide_mullhi_u64_portable (x y : N) : N :=
  let x0 := x mod two32 in let x1 := x / two32 in
  let y0 := y mod two32 in let y1 := y / two32 in
  let x0y0_hi := divide_mullhi_u32 x0 y0 in
  let x0y1 := mul64 x0 y1 in
  let x1y0 := mul64 x1 y0 in
  let x1y1 := mul64 x1 y1 in
  let temp := add64 x1y0 x0y0_hi in
  let temp_lo := temp mod two32 in
  let temp_hi := temp / two32 in
  add64 (add64 x1y1 temp_hi) (add64 temp_lo x0y1 / two32).

(** One 64-bit lane of the AVX2 instructions used below:
    [_mm256_mul_epu32] multiplies the low halves, [_mm256_shuffle_epi32] with
    (3,3,1,1) copies the high half over the low half. *)
Definition mul_epu32 (x y : N) : N := (x mod two32) * (y mod two32).
Definition shuffle_3311 (x : N) : N := (x / two32) * two32 + x / two32.

(** /repo mpc/okvs/okvs_utility.hpp:102-122 [divide_mullhi_uint64_t_vec256],
    one lane. *)
Definition divide_mullhi_lane (x y : N) : N :=
  let x0y0 := mul_epu32 x y in
  let x0y0_hi := x0y0 / two32 in
  let x1 := shuffle_3311 x in
  let y1 := shuffle_3311 y in
  let x0y1 := mul_epu32 x y1 in
  let x1y0 := mul_epu32 x1 y in
  let x1y1 := mul_epu32 x1 y1 in
  let temp := add64 x1y0 x0y0_hi in
  let temp_lo := temp mod two32 in
  let temp_hi := temp / two32 in
  let temp_lo := add64 temp_lo x0y1 / two32 in
  let temp_hi := add64 x1y1 temp_hi in
  add64 temp_lo temp_hi.

(** /repo mpc/okvs/okvs_utility.hpp:124-150 [divide_u64_do]; [mulhi] is the
    branch of [divide_mullhi_u64] the compiler takes. A shift by more than 63
    would be undefined; [gen_divider] never produces one (C65). *)
Definition divide_u64_do (mulhi : N -> N -> N) (numer : N) (d : divider) : N :=
  if magic d =? 0 then N.shiftr numer (more d)
  else
    let q := mulhi (magic d) numer in
    if negb (N.land (more d) 64 =? 0)
    then let t := add64 (N.shiftr (sub64 numer q) 1) q in
         N.shiftr t (N.land (more d) 63)
    else N.shiftr q (more d).

(** /repo mpc/okvs/okvs_utility.hpp:152-176 [divide_u64_do_vec256], one lane *)
Definition divide_lane (numer : N) (d : divider) : N :=
  if magic d =? 0 then N.shiftr numer (more d)
  else
    let q := divide_mullhi_lane numer (magic d) in
    if negb (N.land (more d) 64 =? 0)
    then let t := add64 (N.shiftr (sub64 numer q) 1) q in
         N.shiftr t (N.land (more d) 63)
    else N.shiftr q (more d).

(** /repo mpc/okvs/okvs_utility.hpp:203-221 [count_leading_zeros64] (the
    builtin; undefined on 0). *)
Definition count_leading_zeros64 (v : N) : N := 63 - N.log2 v.

(** /repo mpc/okvs/okvs_utility.hpp:232-243 [divide_128_div_64_to_64], the
    x86-64 branch: one [divq], which faults ([None]) unless the quotient
    fits. *)
Definition divq (numhi numlo den : N) : option (N * N) :=
  if den <=? numhi then None
  else Some ((numhi * two64 + numlo) / den, (numhi * two64 + numlo) mod den).

(** One quotient digit: /repo mpc/okvs/okvs_utility.hpp:306-311 and 317-322.
    [n] are the two high digits, [num] the third one. *)
Definition digit (n num den : N) : N :=
  let den1 := den / two32 in
  let den0 := den mod two32 in
  let qhat := n / den1 in
  let rhat := n mod den1 in
  let c1 := mul64 qhat den0 in
  let c2 := add64 (mul64 rhat two32) num in
  let qhat := if c2 <? c1
              then sub64 qhat (if den <? sub64 c1 c2 then 2 else 1)
              else qhat in
  qhat mod two32.

(** /repo mpc/okvs/okvs_utility.hpp:244-327 [divide_128_div_64_to_64], the
    portable branch. The mask of line 295 is all ones for a positive shift and
    zero for shift 0. *)
Definition div128_portable (numhi numlo den : N) : option (N * N) :=
  if den <=? numhi then Some (two64 - 1, two64 - 1)
  else
    let shift := count_leading_zeros64 den in
    let den := N.shiftl den shift mod two64 in
    let numhi := N.shiftl numhi shift mod two64 in
    let numhi := N.lor numhi
                   (if shift =? 0 then 0 else N.shiftr numlo (64 - shift)) in
    let numlo := N.shiftl numlo shift mod two64 in
    let num1 := numlo / two32 in
    let num0 := numlo mod two32 in
    let q1 := digit numhi num1 den in
    let rem := sub64 (add64 (mul64 numhi two32) num1) (mul64 q1 den) in
    let q0 := digit rem num0 den in
    Some (N.lor (N.shiftl q1 32) q0,
          N.shiftr (sub64 (add64 (mul64 rem two32) num0) (mul64 q0 den)) shift).

(** /repo mpc/okvs/okvs_utility.hpp:330-397 [gen_divider]; [div128] is the
    branch of [divide_128_div_64_to_64]. [None]: the exception on 0, a
    faulting [divq], or the assertion of line 359. *)
Definition gen_divider (div128 : N -> N -> N -> option (N * N)) (d : N) :
  option divider :=
  if d =? 0 then None
  else
    let l := 63 - count_leading_zeros64 d in
    if N.land d (d - 1) =? 0 then Some {| magic := 0; more := l |}
    else
      match div128 (N.shiftl 1 l) 0 d with
      | None => None
      | Some (m, rem) =>
          if (0 <? rem) && (rem <? d) then
            let e := d - rem in
            if e <? N.shiftl 1 l
            then Some {| magic := add64 1 m; more := l |}
            else
              let m := add64 m m in
              let twice := add64 rem rem in
              let m := if (d <=? twice) || (twice <? rem)
                       then add64 m 1 else m in
              Some {| magic := add64 1 m; more := N.lor l 64 |}
          else None
      end.

(** /repo mpc/okvs/okvs_utility.hpp:399-463 [doMod32]: the first 32 entries
    are replaced by [v - (v / d) * modVal]. *)
Definition doMod32 (vals : list N) (d : divider) (modVal : N) : option (list N) :=
  if Nat.ltb (length vals) 32 then None
  else Some (map (fun v => sub64 v (mul64 (divide_lane v d) modVal))
                 (firstn 32 vals) ++ skipn 32 vals).

(** /repo mpc/okvs/okvs_utility.hpp:705-712 [log2_floor], [log2_ceil];
    [log2_ceil 1] would count the leading zeros of 0. *)
Definition log2_floor (x : N) : N := 64 - count_leading_zeros64 x - 1.
Definition log2_ceil (x : N) : N := 64 - count_leading_zeros64 (x - 1).

(** Model of crypto/bigint.hpp and utility/polymul.hpp.

    A BigInt wraps an OpenSSL BIGNUM: an unbounded signed integer, [Z].  The BN_*
    functions are part of the trusted base; each is written here from its
    documentation, including its failure case.  CRYPTO_CHECK only prints
    (include/global.hpp), so after a failing BN_* call the freshly constructed
    result, whose value is 0, is returned.  Functions that call exit() return
    [None]. *)
From Coq Require Import NArith ZArith List Lia Bool Arith.
From Verif.Base Require Import Words ListX.
From Verif.Utility Require Import SerialModel.
Import ListNotations.
Local Open Scope Z_scope.

(** ** OpenSSL *)

(** BN_num_bits / BN_num_bytes: size of the magnitude *)
Definition BN_num_bits (a : Z) : N := N.size (Z.abs_N a).
Definition BN_num_bytes (a : Z) : nat := N.to_nat ((BN_num_bits a + 7) / 8)%N.
(** BN_bin2bn: big-endian magnitude, never negative *)
Definition BN_bin2bn (bs : list N) : Z := Z.of_N (be_val bs).
(** BN_bn2bin: the minimal big-endian magnitude; the sign is dropped *)
Definition BN_bn2bin (a : Z) : list N := be_bytes (BN_num_bytes a) (Z.abs_N a).
(** BN_bn2binpad: fixed length, fails (and writes nothing) if it does not fit *)
Definition BN_bn2binpad (a : Z) (len : nat) : option (list N) :=
  if (BN_num_bytes a <=? len)%nat then Some (be_bytes len (Z.abs_N a)) else None.
(** BN_get_word: all-ones when the magnitude does not fit a word *)
Definition BN_get_word (a : Z) : N :=
  if (Z.abs_N a <? 2 ^ 64)%N then Z.abs_N a else (2 ^ 64 - 1)%N.
(** BN_nnmod: remainder in [0,|d|); fails for d = 0 *)
Definition BN_nnmod (a d : Z) : option Z := if d =? 0 then None else Some (a mod Z.abs d).
(** BN_div: truncated division *)
Definition BN_div (a d : Z) : option (Z * Z) :=
  if d =? 0 then None else Some (Z.quot a d, Z.rem a d).
(** BN_mask_bits: keep the low n bits of the magnitude; fails if shorter *)
Definition BN_mask_bits (a : Z) (n : N) : Z :=
  if (BN_num_bits a <? n)%N then a else Z.sgn a * (Z.abs a mod 2 ^ Z.of_N n).
(** BN_rshift / BN_lshift: shift the magnitude *)
Definition BN_rshift (a : Z) (n : N) : Z := Z.sgn a * (Z.abs a / 2 ^ Z.of_N n).
Definition BN_lshift (a : Z) (n : N) : Z := a * 2 ^ Z.of_N n.

(** extended Euclid: [egcd fuel a b = (g, x)] with g = gcd a b and g = x*a mod b *)
Fixpoint egcd (fuel : nat) (a b : Z) (x0 x1 : Z) : Z * Z :=
  match fuel with
  | O => (a, x0)
  | S f => if b =? 0 then (a, x0) else egcd f b (a mod b) x1 (x0 - a / b * x1)
  end.
(** BN_mod_inverse: the inverse in [0,|n|), NULL when there is none or |n| <= 1 *)
Definition BN_mod_inverse (a n : Z) : option Z :=
  let m := Z.abs n in
  if m <=? 1 then None
  else
    let '(g, x) := egcd (2 * (S (N.to_nat (N.size (Z.to_N m))))) (a mod m) m 1 0 in
    if g =? 1 then Some (x mod m) else None.

(** BN_mod_exp: square and multiply on the magnitude of the exponent *)
Fixpoint modexp_pos (a : Z) (e : positive) (m : Z) : Z :=
  match e with
  | xH => a mod m
  | xO e' => let t := modexp_pos a e' m in (t * t) mod m
  | xI e' => let t := modexp_pos a e' m in ((t * t) mod m * a) mod m
  end.
Definition BN_mod_exp (a e n : Z) : option Z :=
  if n =? 0 then None
  else
    let m := Z.abs n in
    match Z.abs e with
    | Zpos p => Some (modexp_pos (a mod m) p m)
    | _ => Some (1 mod m)
    end.

(** the value of [result] after a call that may have failed *)
Definition checked (r : option Z) : Z := match r with Some v => v | None => 0 end.

(** ** class BigInt *)

(** /repo crypto/bigint.hpp:266-270 *)
Definition ToUint64 (a : Z) : N := BN_get_word a.
(** /repo crypto/bigint.hpp:273-282: both overloads of FromByteString *)
Definition FromByteString (str : list N) : Z := BN_bin2bn str.
(** /repo crypto/bigint.hpp:290-298: ToByteString() *)
Definition BigInt_ToByteString (a : Z) : list N := BN_bn2bin a.
(** /repo crypto/bigint.hpp:285-288: ToByteString(buffer, LEN): the LEN argument
    is ignored, the minimal encoding is stored at the front of the buffer; None:
    the buffer is too small (out-of-bounds write) *)
Definition BigInt_ToByteStringBuf (a : Z) (buffer : list N) : option (list N) :=
  let bs := BN_bn2bin a in
  if (length bs <=? length buffer)%nat then Some (bs ++ skipn (length bs) buffer) else None.
(** /repo crypto/bigint.hpp:307-310 *)
Definition FromByteVector (v : list N) : Z := BN_bin2bn v.
(** /repo crypto/bigint.hpp:312-317: the vector is pre-filled with '0' = 48, the
    result of BN_bn2binpad is not checked *)
Definition ToByteVector (a : Z) (LEN : nat) : list N :=
  match BN_bn2binpad a LEN with Some bs => bs | None => repeat 48%N LEN end.

(** /repo crypto/ec_group.hpp:70: BN_BYTE_LEN for the 256-bit curve *)
Definition BN_BYTE_LEN : nat := 32.

(** /repo crypto/bigint.hpp:628-634: operator<<; [garbage] is the uninitialised
    stack buffer, which is what gets written when BN_bn2binpad fails *)
Definition write_bigint (garbage : list N) (a : Z) : list N :=
  match BN_bn2binpad a BN_BYTE_LEN with Some bs => bs | None => garbage end.
(** /repo crypto/bigint.hpp:636-642: operator>> *)
Definition read_bigint (s : list N) : option (Z * list N) :=
  match fin_read BN_BYTE_LEN s with Some (b, r) => Some (BN_bin2bn b, r) | None => None end.
(** /repo crypto/bigint.hpp:644-650 *)
Fixpoint write_bigints (garbage : list N) (v : list Z) : list N :=
  match v with [] => [] | a :: r => write_bigint garbage a ++ write_bigints garbage r end.
(** /repo crypto/bigint.hpp:652-658: as many as the target vector holds *)
Fixpoint read_bigints (n : nat) (s : list N) : option (list Z * list N) :=
  match n with
  | O => Some ([], s)
  | S n' =>
      match read_bigint s with
      | Some (a, s') =>
          match read_bigints n' s' with Some (v, s'') => Some (a :: v, s'') | None => None end
      | None => None
      end
  end.

(** /repo crypto/bigint.hpp:323-327 *)
Definition BigInt_Negate (a : Z) : Z := - a.
(** /repo crypto/bigint.hpp:356-365 (Div) and 369-375 (DivAndTruncate): same value *)
Definition BigInt_Div (a b : Z) : Z :=
  match BN_div a b with Some (q, _) => q | None => 0 end.
(** /repo crypto/bigint.hpp:401-406 *)
Definition BigInt_Mod (a m : Z) : Z := checked (BN_nnmod a m).
(** /repo crypto/bigint.hpp:410-415 *)
Definition ModAdd (a b m : Z) : Z := checked (BN_nnmod (a + b) m).
(** /repo crypto/bigint.hpp:419-424 *)
Definition ModSub (a b m : Z) : Z := checked (BN_nnmod (a - b) m).
(** /repo crypto/bigint.hpp:427-432 *)
Definition ModMul (a b m : Z) : Z := checked (BN_nnmod (a * b) m).
(** /repo crypto/bigint.hpp:436-444: a negative exponent is only reported *)
Definition ModExp (a e m : Z) : Z := checked (BN_mod_exp a e m).
(** /repo crypto/bigint.hpp:448-453 *)
Definition ModSquare (a m : Z) : Z := checked (BN_nnmod (a * a) m).
(** /repo crypto/bigint.hpp:457-462 *)
Definition ModInverse (a m : Z) : Z := checked (BN_mod_inverse a m).
(** /repo crypto/bigint.hpp:475-480 *)
Definition ModNegate (a m : Z) : Z := if a =? 0 then a else m - BigInt_Mod a m.
(** /repo crypto/bigint.hpp:483-487 and 491-495 *)
Definition Lshift (a : Z) (n : N) : Z := BN_lshift a n.
Definition Rshift (a : Z) (n : N) : Z := BN_rshift a n.
(** /repo crypto/bigint.hpp:195-199 *)
Definition GetLastNBits (a : Z) (n : N) : Z := BN_mask_bits a n.
(** /repo crypto/bigint.hpp:616-625 *)
Definition GetTheNthBit (a : Z) (j : N) : N :=
  let a := Rshift a j in
  let a := GetLastNBits a 1 in
  if a =? 1 then 1%N else 0%N.

(** ** vectors *)

(** the size check that precedes the pointwise loops: exit(EXIT_FAILURE) *)
Definition same_size {A B : Type} (a : list A) (b : list B) : bool := (length a =? length b)%nat.

(** /repo crypto/bigint.hpp:671-684 *)
Definition BigIntVectorModAdd (a b : list Z) (m : Z) : option (list Z) :=
  if same_size a b then Some (map2 (fun x y => BigInt_Mod (x + y) m) a b) else None.
(** /repo crypto/bigint.hpp:687-700 *)
Definition BigIntVectorModSub (a b : list Z) (m : Z) : option (list Z) :=
  if same_size a b then Some (map2 (fun x y => BigInt_Mod (x - y) m) a b) else None.
(** /repo crypto/bigint.hpp:703-716 *)
Definition BigIntVectorModProduct (a b : list Z) (m : Z) : option (list Z) :=
  if same_size a b then Some (map2 (fun x y => BigInt_Mod (x * y) m) a b) else None.
(** /repo crypto/bigint.hpp:720-733 *)
Definition BigIntVectorProduct (a b : list Z) : option (list Z) :=
  if same_size a b then Some (map2 Z.mul a b) else None.
(** /repo crypto/bigint.hpp:737-747 *)
Definition BigIntVectorModInverse (a : list Z) (m : Z) : list Z := map (fun x => ModInverse x m) a.
(** /repo crypto/bigint.hpp:751-760 *)
Definition BigIntVectorModScalar (a : list Z) (c m : Z) : list Z :=
  map (fun x => BigInt_Mod (x * c) m) a.
(** /repo crypto/bigint.hpp:763-772 *)
Definition BigIntVectorScalar (a : list Z) (c : Z) : list Z := map (fun x => x * c) a.
(** /repo crypto/bigint.hpp:775-784 *)
Definition BigIntVectorModNegate (a : list Z) (m : Z) : list Z := map (fun x => ModNegate x m) a.
(** the accumulation loop of the two inner products *)
Fixpoint inner_acc (acc : Z) (a b : list Z) : Z :=
  match a, b with
  | x :: a', y :: b' => inner_acc (acc + x * y) a' b'
  | _, _ => acc
  end.
(** /repo crypto/bigint.hpp:788-802 and 805-818 *)
Definition BigIntVectorModInnerProduct (a b : list Z) (m : Z) : option Z :=
  if same_size a b then Some (BigInt_Mod (inner_acc 0 a b) m) else None.

(** the loop of GenBigIntPowerVector *)
Fixpoint power_loop (n : nat) (prev a q : Z) : list Z :=
  match n with
  | O => []
  | S n' => let v := BigInt_Mod (prev * a) q in v :: power_loop n' v a q
  end.
(** /repo zkp/bulletproofs/bullet_proof.hpp:86-95; None: vec_result[0] of an empty
    vector *)
Definition GenBigIntPowerVector (LEN : nat) (a q : Z) : option (list Z) :=
  match LEN with
  | O => None
  | S n => Some (1 :: power_loop n 1 a q)
  end.

(** ** utility/polymul.hpp; [q] is the global group order *)

(** the inner loop over j: C[i+j] = (C[i+j] + A[i]*B[j]) % order *)
Fixpoint polymul_inner (C : list Z) (ij : nat) (ai : Z) (B : list Z) (q : Z) : list Z :=
  match B with
  | [] => C
  | bj :: B' =>
      polymul_inner (upd C ij (BigInt_Mod (nth ij C 0 + ai * bj) q)) (S ij) ai B' q
  end.
(** the outer loop over i *)
Fixpoint polymul_outer (C : list Z) (i : nat) (A B : list Z) (q : Z) : list Z :=
  match A with
  | [] => C
  | ai :: A' => polymul_outer (polymul_inner C i ai B q) (S i) A' B q
  end.
(** /repo utility/polymul.hpp:7-21; None: both sizes are 0 and A.size()+B.size()-1
    wraps, so the vector constructor throws *)
Definition PolyMul (A B : list Z) (q : Z) : option (list Z) :=
  match (length A + length B)%nat with
  | O => None
  | S n => Some (polymul_outer (repeat 0 n) 0 A B q)
  end.
(** /repo utility/polymul.hpp:24-31: product of a vector of polynomials *)
Fixpoint PolyMulVec_loop (result : list Z) (P : list (list Z)) (q : Z) : option (list Z) :=
  match P with
  | [] => Some result
  | p :: P' => match PolyMul result p q with Some r => PolyMulVec_loop r P' q | None => None end
  end.
Definition PolyMulVec (P : list (list Z)) (q : Z) : option (list Z) := PolyMulVec_loop [1] P q.
(** /repo utility/polymul.hpp:45-54 *)
Fixpoint EvalPoly_loop (result carry : Z) (P : list Z) (x q : Z) : Z :=
  match P with
  | [] => BigInt_Mod result q
  | p :: P' => EvalPoly_loop (result + BigInt_Mod (p * carry) q) (carry * x) P' x q
  end.
Definition EvalPoly (P : list Z) (x q : Z) : Z := EvalPoly_loop 0 1 P x q.

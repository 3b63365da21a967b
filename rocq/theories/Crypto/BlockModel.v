(** Model of crypto/block.hpp.  A block (__m128i) is an N below 2^128; byte 0 is
    the least significant one (little-endian memory order). *)
From Coq Require Import Arith NArith List Bool.
From Verif.Base Require Import Words ListX Mem.
Import ListNotations.
Local Open Scope N_scope.

(** ** The SSE2 intrinsics used *)
Definition lane_lo (x : N) : N := wrap64 x.
Definition lane_hi (x : N) : N := wrap64 (N.shiftr x 64).
Definition of_lanes (hi lo : N) : N := N.lor (N.shiftl hi 64) lo.
(** _mm_slli_epi64, _mm_srli_epi64: shifts of both 64-bit lanes *)
Definition slli_epi64 (x n : N) : N := of_lanes (wrap64 (N.shiftl (lane_hi x) n)) (wrap64 (N.shiftl (lane_lo x) n)).
Definition srli_epi64 (x n : N) : N := of_lanes (N.shiftr (lane_hi x) n) (N.shiftr (lane_lo x) n).
(** _mm_slli_si128, _mm_srli_si128: byte shifts of the register *)
Definition slli_si128 (x n : N) : N := wrap 128 (N.shiftl x (8 * n)).
Definition srli_si128 (x n : N) : N := N.shiftr x (8 * n).
(** _mm_andnot_si128(a, b) = ~a & b *)
Definition andnot (a b : N) : N := N.land (N.lxor a (2 ^ 128 - 1)) b.
(** value of a little-endian bit list *)
Fixpoint bits_val (l : list bool) : N :=
  match l with [] => 0 | b :: r => (if b then 1 else 0) + 2 * bits_val r end.
(** _mm_movemask_epi8: most significant bit of each of the 16 bytes *)
Definition movemask (x : N) : N :=
  bits_val (map (fun k => N.testbit x (8 * N.of_nat k + 7)) (seq 0 16)).

(* crypto/block.hpp:32-33 *)
Definition zero_block : N := 0.
Definition all_one_block : N := 2 ^ 128 - 1.

(* crypto/block.hpp:41-46 *)
Definition GenMaskBlock (n : N) : N :=
  let onesLowHigh := slli_epi64 all_one_block 63 in
  let singleOne := if n <? 64 then slli_si128 onesLowHigh 8 else srli_si128 onesLowHigh 8 in
  srli_epi64 singleOne (N.land n 63).

(* crypto/block.hpp:49-52 *)
Definition SetBit (a n : N) : N := N.lor a (GenMaskBlock n).
(* crypto/block.hpp:55-58 *)
Definition ClearBit (a n : N) : N := andnot a (GenMaskBlock n).

(* crypto/block.hpp:60-97  vector operations; the loop runs over vec_a and reads
   vec_b at the same index, None when vec_b is shorter (read out of bounds) *)
Definition blocks_map2 (op : N -> N -> N) (a b : list N) : option (list N) :=
  if Nat.leb (length a) (length b) then Some (map2 op a b) else None.
Definition AND (a b : list N) := blocks_map2 N.land a b.
Definition XOR (a b : list N) := blocks_map2 N.lxor a b.
Definition FixXOR (a : list N) (b : N) : list N := map (fun x => N.lxor x b) a.

(* crypto/block.hpp:118-123  testz of the xor *)
Definition Compare (a b : N) : bool := N.lxor a b =? 0.

(* crypto/block.hpp:127-138.  Bytes are compared as signed integers. *)
Definition block_bytes (a : N) : list N := le_bytes 16 a.
Definition sbyte_lt (x y : N) : bool := N.lxor x 128 <? N.lxor y 128.
Definition IsLessThan (a b : N) : bool :=
  let less := bits_val (map2 sbyte_lt (block_bytes a) (block_bytes b)) in
  let greater := bits_val (map2 (fun x y => sbyte_lt y x) (block_bytes a) (block_bytes b)) in
  greater <? less.

(* crypto/block.hpp:148-161  one output block: byte j sets bit k = 127 - j in the
   numbering of SetBit; sp is the 128-byte slice *)
Fixpoint sparse_loop (sp : list N) (k : nat) (acc : N) : N :=
  match sp with
  | [] => acc
  | b :: r => sparse_loop r (k - 1) (if b =? 0 then acc else SetBit acc (N.of_nat k))
  end.
Definition FromSparseBlock (sp : list N) : N := sparse_loop sp 127 zero_block.
Fixpoint FromSparseBytes (n : nat) (bytes : list N) : list N :=
  match n with
  | O => []
  | S n' => FromSparseBlock (firstn 128 bytes) :: FromSparseBytes n' (skipn 128 bytes)
  end.

(* crypto/block.hpp:192-226  stream operators: 16 little-endian bytes per block *)
Definition write_block (a : N) : list N := le_bytes 16 a.
Definition read_block (s : list N) : option (N * list N) :=
  if Nat.leb 16 (length s) then Some (le_val (firstn 16 s), skipn 16 s) else None.
Definition write_blocks (v : list N) : list N := flat_map write_block v.
(** reading into a vector that already has size n *)
Fixpoint read_blocks (n : nat) (s : list N) : option (list N * list N) :=
  match n with
  | O => Some ([], s)
  | S n' => match read_block s with
            | None => None
            | Some (b, s') => match read_blocks n' s' with
                              | None => None
                              | Some (v, s'') => Some (b :: v, s'')
                              end
            end
  end.

(** ** std::set<block, BlockCompare> and std::set_difference
    (crypto/block.hpp:242-265).  A std::set is the sorted list of its elements;
    insert keeps it sorted by the comparator and does nothing when an equivalent
    element is present.  set_difference is the algorithm of [set.difference]. *)
Section SetDiff.
Variable lt : N -> N -> bool.
Fixpoint set_insert (x : N) (s : list N) : list N :=
  match s with
  | [] => [x]
  | y :: r => if lt x y then x :: s else if lt y x then y :: set_insert x r else s
  end.
Definition set_of (v : list N) : list N := fold_left (fun s x => set_insert x s) v [].
Fixpoint set_difference (a : list N) {struct a} : list N -> list N :=
  match a with
  | [] => fun _ => []
  | x :: a' =>
      fix go (b : list N) : list N :=
        match b with
        | [] => x :: a'
        | y :: b' => if lt x y then x :: set_difference a' b
                     else if lt y x then go b'
                     else set_difference a' b'
        end
  end.
End SetDiff.
(* crypto/block.hpp:250-265; the result is inserted one by one into a std::set *)
Definition ComputeSetDifference (A B : list N) : list N :=
  set_of IsLessThan (set_difference IsLessThan (set_of IsLessThan A) (set_of IsLessThan B)).

(** ** BitMatrixTranspose (crypto/block.hpp:277-342).  Indices are natural numbers:
    simplification, the int/uint64_t index arithmetic is taken to be exact, which
    needs ROW_NUM, COLUMN_NUM <= 2^31 - 16 and ROW_NUM*COLUMN_NUM < 2^64. *)
Section Transpose.
Variables (input : list N) (R C : nat).   (* ROW_NUM, COLUMN_NUM *)

(* 277  INPUT(x, y) *)
Definition IN (x y : nat) : option N := nth_error input (x * C / 8 + y / 8)%nat.
(* 278  index of OUTPUT(x, y) *)
Definition OUT (x y : nat) : nat := (y * R / 8 + x / 8)%nat.
Definition put (out : list N) (i : nat) (v : N) : option (list N) :=
  if Nat.ltb i (length out) then Some (upd out i v) else None.

Fixpoint read_col (f : nat -> option N) (l : list nat) : option (list N) :=
  match l with
  | [] => Some []
  | k :: r => match f k, read_col f r with Some b, Some bs => Some (b :: bs) | _, _ => None end
  end.
Definition obind {A B} (o : option A) (k : A -> option B) : option B :=
  match o with Some a => k a | None => None end.
Fixpoint fold_opt {A S} (f : S -> A -> option S) (l : list A) (s : S) : option S :=
  match l with [] => Some s | a :: r => obind (f s a) (fold_opt f r) end.

(* 297-298  for (i = 8; --i >= 0; vec <<= 1) store the 16-bit movemask at OUTPUT(rr, cc+i);
   n = i + 1 *)
Fixpoint store16 (rr cc : nat) (n : nat) (vec : N) (out : list N) : option (list N) :=
  match n with
  | O => Some out
  | S i =>
      let h := movemask vec in
      obind (put out (OUT rr (cc + i)%nat) (h mod 256)) (fun out1 =>
      obind (put out1 (OUT rr (cc + i) + 1)%nat (h / 256)) (fun out2 =>
      store16 rr cc i (slli_epi64 vec 1) out2))
  end.
(* 289-300 *)
Definition block16 (rr : nat) (out : list N) (cc : nat) : option (list N) :=
  obind (read_col (fun k => IN (rr + k)%nat cc) (seq 0 16)) (fun bs => store16 rr cc 8 (le_val bs) out).
Definition main_loop (out : list N) : option (list N) :=
  fold_opt (fun o r => fold_opt (fun o c => block16 (16 * r)%nat o (8 * c)%nat) (seq 0 (C / 8)%nat) o) (seq 0 (R / 16)%nat) out.

(* 313-316  OUTPUT(rr, cc+i) = h; OUTPUT(rr, cc+i+8) = h >> 8 *)
Fixpoint store8x2 (rr cc : nat) (n : nat) (vec : N) (out : list N) : option (list N) :=
  match n with
  | O => Some out
  | S i =>
      let h := movemask vec in
      obind (put out (OUT rr (cc + i)%nat) (h mod 256)) (fun out1 =>
      obind (put out1 (OUT rr (cc + i + 8)%nat) (h / 256)) (fun out2 =>
      store8x2 rr cc i (slli_epi64 vec 1) out2))
  end.
(* 309-316; the 16-bit load reads INPUT(rr+i, cc) and the byte after it *)
Definition block8x16 (rr : nat) (out : list N) (cc : nat) : option (list N) :=
  obind (read_col (fun k => IN (rr + k)%nat cc) (seq 0 8)) (fun lo =>
  obind (read_col (fun k => nth_error input ((rr + k) * C / 8 + cc / 8 + 1)%nat) (seq 0 8)) (fun hi =>
  store8x2 rr cc 8 (le_val (lo ++ hi)) out)).
(* 340-341 *)
Fixpoint store8 (rr cc : nat) (n : nat) (vec : N) (out : list N) : option (list N) :=
  match n with
  | O => Some out
  | S i => obind (put out (OUT rr (cc + i)%nat) (movemask vec mod 256)) (fun out1 =>
           store8 rr cc i (slli_epi64 vec 1) out1)
  end.
(* 338-341; stale: bytes 8..15 of tmp, left over from the previous loop *)
Definition block8x8 (rr : nat) (stale : list N) (out : list N) (cc : nat) : option (list N) :=
  obind (read_col (fun k => IN (rr + k)%nat cc) (seq 0 8)) (fun lo =>
  store8 rr cc 8 (le_val (lo ++ stale)) out).

(* 281-342.  None: the assertion fails, or one of the loop bounds ROW_NUM - 16,
   COLUMN_NUM - 16 wraps around below zero and the loop runs out of the matrix.
   The else branch 319-334 is dead: line 301 returned unless ROW_NUM % 16 = 8. *)
Definition BitMatrixTranspose (stale : list N) (out : list N) : option (list N) :=
  if negb (Nat.eqb (R mod 8)%nat 0 && Nat.eqb (C mod 8)%nat 0) then None
  else if Nat.ltb R 16 then None
  else obind (main_loop out) (fun out1 =>
    if Nat.eqb (R mod 16)%nat 0 then Some out1
    else if Nat.ltb C 16 then None
    else let rr := (16 * (R / 16))%nat in
      obind (fold_opt (fun o c => block8x16 rr o (16 * c)%nat) (seq 0 (C / 16)%nat) out1) (fun out2 =>
      if Nat.eqb (C mod 16)%nat 0 then Some out2
      else block8x8 rr stale out2 (16 * (C / 16))%nat)).
End Transpose.

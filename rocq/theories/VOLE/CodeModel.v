(** Model of mpc/vole/exconvcode.hpp: the expand-convolute code.
    [None] is an access outside a vector or a division by zero. *)
From Coq Require Import NArith ZArith List Bool Arith.
From Verif.Base Require Import Words ListX.
From Verif.Crypto Require Import BlockModel AESModel PRGModel.
Import ListNotations.

(** :32-39, :76-85 the parameters set by config: R, expanderWeight,
    accumulatorSize (uint32_t).  mSeed is a separate argument because drawing
    from it changes it. *)
Record config := mkConfig { R : nat; weight : nat; acc : nat }.
(** the default arguments of config *)
Definition default_config : config := mkConfig 2 21 24.

(** size * accumulatorSize and messageSize * expanderWeight in uint32_t *)
Definition mul32 (a b : nat) : nat := N.to_nat (wrap32 (N.of_nat a * N.of_nat b)).

(** :59-74 GenRandomMod; the seed is passed by value *)
Definition GenRandomMod (mmod : nat) (len : nat) (seed : Seed) : option (list nat) :=
  let bytes := flat_map (le_bytes 16) (fst (GenRandomBlocks seed (len / 4 + 1))) in
  let word i := le_val (firstn 4 (skipn (4 * i) bytes)) in
  if (mmod =? 0)%nat && negb (len =? 0)%nat then None
  else Some (map (fun i => N.to_nat (word i mod N.of_nat mmod)) (seq 0 len)).

(** the inner loops of accumulate: n iterations of
    if ( *rrnd == 1) x[j] ^= x[i]; ++j, ++rrnd *)
Fixpoint acc_row (n : nat) (i j : nat) (x rnd : list N) : option (list N * nat * list N) :=
  match n with
  | O => Some (x, j, rnd)
  | S n =>
      match rnd with
      | [] => None
      | b :: rnd =>
          if (b =? 1)%N then
            if ((i <? length x) && (j <? length x))%nat
            then acc_row n i (S j) (upd x j (N.lxor (nth j x 0%N) (nth i x 0%N))) rnd
            else None
          else acc_row n i (S j) x rnd
      end
  end.

(** :133-143 the loop over i < main; accumulatorSize - 1 inner iterations, then
    the unconditional x[j] ^= x[i] *)
Fixpoint acc_main (n : nat) (a : nat) (i : nat) (x rnd : list N) : option (nat * list N * list N) :=
  match n with
  | O => Some (i, x, rnd)
  | S n =>
      match acc_row (N.to_nat (wrap32 (N.of_nat a + 2 ^ 32 - 1))) i (S i) x rnd with
      | None => None
      | Some (x, j, rnd) =>
          if ((i <? length x) && (j <? length x))%nat
          then acc_main n a (S i) (upd x j (N.lxor (nth j x 0%N) (nth i x 0%N))) rnd
          else None
      end
  end.

(** :145-153 the loop over the remaining i < size; n of them *)
Fixpoint acc_tail (n : nat) (size i : nat) (x rnd : list N) : option (list N) :=
  match n with
  | O => Some x
  | S n =>
      match acc_row (size - S i) i (S i) x rnd with
      | None => None
      | Some (x, _, rnd) => acc_tail n size (S i) x rnd
      end
  end.

(** :130 (uint32_t)std::max<int32_t>(0, size - accumulatorSize): the difference
    is computed in uint32_t and then converted to int32_t *)
Definition main_int32 (size a : nat) : nat :=
  let w := wrap32 (N.of_nat size + 2 ^ 32 - N.of_nat a) in
  if (w <? 2 ^ 31)%N then N.to_nat w else 0.
(** :165 (uint32_t)std::max<int64_t>(0, size - accumulatorSize): the uint32_t
    difference is never negative *)
Definition main_int64 (size a : nat) : nat := N.to_nat (wrap32 (N.of_nat size + 2 ^ 32 - N.of_nat a)).

(** :124-155 accumulate; returns x and the advanced mSeed *)
Definition accumulate (c : config) (seed : Seed) (x : list N) : option (list N * Seed) :=
  let size := length x in
  let '(rnd, seed) := GenRandomBits seed (mul32 size (acc c)) in
  match acc_main (main_int32 size (acc c)) (acc c) 0 x rnd with
  | None => None
  | Some (i, x, rnd) =>
      match acc_tail (size - i) size i x rnd with Some x => Some (x, seed) | None => None end
  end.

(** the same loops on two vectors *)
Fixpoint acc_row2 (n : nat) (i j : nat) (x0 x1 rnd : list N) : option (list N * list N * nat * list N) :=
  match n with
  | O => Some (x0, x1, j, rnd)
  | S n =>
      match rnd with
      | [] => None
      | b :: rnd =>
          if (b =? 1)%N then
            if ((i <? length x0) && (j <? length x0) && (i <? length x1) && (j <? length x1))%nat
            then acc_row2 n i (S j) (upd x0 j (N.lxor (nth j x0 0%N) (nth i x0 0%N)))
                                    (upd x1 j (N.lxor (nth j x1 0%N) (nth i x1 0%N))) rnd
            else None
          else acc_row2 n i (S j) x0 x1 rnd
      end
  end.
(** :167-181 *)
Fixpoint acc_main2 (n : nat) (a : nat) (i : nat) (x0 x1 rnd : list N) : option (nat * list N * list N * list N) :=
  match n with
  | O => Some (i, x0, x1, rnd)
  | S n =>
      match acc_row2 (N.to_nat (wrap32 (N.of_nat a + 2 ^ 32 - 1))) i (S i) x0 x1 rnd with
      | None => None
      | Some (x0, x1, j, rnd) =>
          if ((i <? length x0) && (j <? length x0) && (i <? length x1) && (j <? length x1))%nat
          then acc_main2 n a (S i) (upd x0 j (N.lxor (nth j x0 0%N) (nth i x0 0%N)))
                                   (upd x1 j (N.lxor (nth j x1 0%N) (nth i x1 0%N))) rnd
          else None
      end
  end.
(** :184-195 *)
Fixpoint acc_tail2 (n : nat) (size i : nat) (x0 x1 rnd : list N) : option (list N * list N) :=
  match n with
  | O => Some (x0, x1)
  | S n =>
      match acc_row2 (size - S i) i (S i) x0 x1 rnd with
      | None => None
      | Some (x0, x1, _, rnd) => acc_tail2 n size (S i) x0 x1 rnd
      end
  end.
(** :158-196 accumulate2 *)
Definition accumulate2 (c : config) (seed : Seed) (x0 x1 : list N) : option (list N * list N * Seed) :=
  let size := length x0 in
  let '(rnd, seed) := GenRandomBits seed (mul32 size (acc c)) in
  match acc_main2 (main_int64 size (acc c)) (acc c) 0 x0 x1 rnd with
  | None => None
  | Some (i, x0, x1, rnd) =>
      match acc_tail2 (size - i) size i x0 x1 rnd with
      | Some (x0, x1) => Some (x0, x1, seed) | None => None end
  end.

(** one row of the expander: e[rnd[0]] ^ ... ^ e[rnd[w-1]]; the first position is
    read whatever the weight *)
Fixpoint exp_more (n : nat) (e : list N) (wv : N) (rnd : list nat) : option (N * list nat) :=
  match n with
  | O => Some (wv, rnd)
  | S n =>
      match rnd with
      | [] => None
      | p :: rnd => if (p <? length e)%nat then exp_more n e (N.lxor wv (nth p e 0%N)) rnd else None
      end
  end.
Definition exp_row (w : nat) (e : list N) (rnd : list nat) : option (N * list nat) :=
  match rnd with
  | [] => None
  | p :: rnd => if (p <? length e)%nat then exp_more (w - 1) e (nth p e 0%N) rnd else None
  end.
(** :207-215 the loop over i < messageSize *)
Fixpoint exp_rows (n : nat) (w : nat) (e : list N) (rnd : list nat) : option (list N) :=
  match n with
  | O => Some []
  | S n =>
      match exp_row w e rnd with
      | None => None
      | Some (v, rnd) => match exp_rows n w e rnd with Some r => Some (v :: r) | None => None end
      end
  end.
(** :200-216 expand *)
Definition expand (c : config) (seed : Seed) (codeSize messageSize : nat) (e : list N) : option (list N) :=
  match GenRandomMod codeSize (mul32 messageSize (weight c)) seed with
  | None => None
  | Some rnd => exp_rows messageSize (weight c) e rnd
  end.

Fixpoint exp_more2 (n : nat) (e1 e2 : list N) (wv1 wv2 : N) (rnd : list nat) : option (N * N * list nat) :=
  match n with
  | O => Some (wv1, wv2, rnd)
  | S n =>
      match rnd with
      | [] => None
      | p :: rnd => if ((p <? length e1) && (p <? length e2))%nat
                    then exp_more2 n e1 e2 (N.lxor wv1 (nth p e1 0%N)) (N.lxor wv2 (nth p e2 0%N)) rnd else None
      end
  end.
Definition exp_row2 (w : nat) (e1 e2 : list N) (rnd : list nat) : option (N * N * list nat) :=
  match rnd with
  | [] => None
  | p :: rnd => if ((p <? length e1) && (p <? length e2))%nat
                then exp_more2 (w - 1) e1 e2 (nth p e1 0%N) (nth p e2 0%N) rnd else None
  end.
Fixpoint exp_rows2 (n : nat) (w : nat) (e1 e2 : list N) (rnd : list nat) : option (list N * list N) :=
  match n with
  | O => Some ([], [])
  | S n =>
      match exp_row2 w e1 e2 rnd with
      | None => None
      | Some (v1, v2, rnd) =>
          match exp_rows2 n w e1 e2 rnd with Some (r1, r2) => Some (v1 :: r1, v2 :: r2) | None => None end
      end
  end.
(** :220-241 expand2 *)
Definition expand2 (c : config) (seed : Seed) (codeSize messageSize : nat) (e1 e2 : list N) : option (list N * list N) :=
  match GenRandomMod codeSize (mul32 messageSize (weight c)) seed with
  | None => None
  | Some rnd => exp_rows2 messageSize (weight c) e1 e2 rnd
  end.

(** :87-103 dualEncode; codeSize is a uint32_t, so a vector of 2^32 or more
    elements fails the assertion of expand *)
Definition dualEncode (c : config) (seed : Seed) (e : list N) : option (list N) :=
  if (R c =? 0)%nat || (2 ^ 32 <=? N.of_nat (length e))%N then None
  else match accumulate c seed e with
       | None => None
       | Some (d, seed) => expand c seed (length e) (length e / R c) d
       end.
(** :105-121 dualEncode2; the vectors must have the same size (assertion) *)
Definition dualEncode2 (c : config) (seed : Seed) (e0 e1 : list N) : option (list N * list N) :=
  if (R c =? 0)%nat || (2 ^ 32 <=? N.of_nat (length e0))%N || negb (length e0 =? length e1)%nat then None
  else match accumulate2 c seed e0 e1 with
       | None => None
       | Some (d0, d1, seed) => expand2 c seed (length e0) (length e0 / R c) d0 d1
       end.

(** Model of the GGM tree of mpc/vole/vole.hpp: FullEval, PuncEval, GGM_PRG and
    TransToBitVec.  [None] is an access outside an array or the use of an
    uninitialised variable.

    Simplification: loop counters are natural numbers; in the code some of them
    are int, which overflows for trees of 31 or more levels (32 GB of leaves). *)
From Coq Require Import NArith List Bool Arith.
From Verif.Base Require Import Words ListX.
From Verif.Crypto Require Import BlockModel AESModel PRGModel.
Import ListNotations.

(** :503-512 GGM_PRG: the blocks 1 and 2 encrypted under the key [x] *)
Definition GGM_PRG (x : N) : N * N :=
  let v := FastECBEnc (GenEncKey x) [1%N; 2%N] in (nth 0 v 0%N, nth 1 v 0%N).

(** :515-525 TransToBitVec: inserts the complemented low LEN bits of num before
    vec_bit, highest bit first *)
Fixpoint TransToBitVec (num : N) (vec_bit : list N) (LEN : nat) : list N :=
  match LEN with
  | O => vec_bit
  | S LEN => TransToBitVec (N.shiftr num 1) ((if (num mod 2 =? 1)%N then 0%N else 1%N) :: vec_bit) LEN
  end.

(** checked array accesses *)
Definition get {A} (l : list A) (i : nat) : option A := nth_error l i.
Definition set {A} (l : list A) (i : nat) (x : A) : option (list A) :=
  if (i <? length l)%nat then Some (upd l i x) else None.

Section Tree.
(** the 1-to-2 generator; GGM_PRG in the code *)
Variable prg : N -> N * N.

(** :336-341 n iterations of the loop that fills vec_inner *)
Fixpoint fill (n parent : nat) (inner : list N) : option (list N) :=
  match n with
  | O => Some inner
  | S n =>
      match get inner parent with
      | None => None
      | Some x =>
          match set inner (2 * parent + 2) (fst (prg x)) with
          | None => None
          | Some inner =>
              match set inner (2 * parent + 3) (snd (prg x)) with
              | None => None
              | Some inner => fill n (S parent) inner
              end
          end
      end
  end.
(** :344-348 n iterations of the loop that appends to vec_leaf *)
Fixpoint leaves_from (n parent : nat) (inner : list N) : option (list N) :=
  match n with
  | O => Some []
  | S n =>
      match get inner parent with
      | None => None
      | Some x =>
          match leaves_from n (S parent) inner with
          | None => None
          | Some l => Some (fst (prg x) :: snd (prg x) :: l)
          end
      end
  end.
(** :360-363, :370-373 n iterations of temp_m0 ^= v[left]; temp_m1 ^= v[left+1] *)
Fixpoint pair_sums (n left : nat) (m0 m1 : N) (v : list N) : option (N * N) :=
  match n with
  | O => Some (m0, m1)
  | S n =>
      match get v left, get v (left + 1) with
      | Some a, Some b => pair_sums n (left + 2) (N.lxor m0 a) (N.lxor m1 b) v
      | _, _ => None
      end
  end.
(** :356-366 the loop for (i = 1; i < depth - 1; ++i); n iterations left *)
Fixpoint level_sums (n i left : nat) (inner : list N) (m0 m1 : list N) : option (list N * list N) :=
  match n with
  | O => Some (m0, m1)
  | S n =>
      match pair_sums (2 ^ i) left 0%N 0%N inner with
      | None => None
      | Some (a, b) => level_sums n (S i) (left + 2 * 2 ^ i) inner (m0 ++ [a]) (m1 ++ [b])
      end
  end.

(** :307-379 FullEval; returns the result and the new vec_leaf, vec_m0, vec_m1 *)
Definition FullEval (depth : nat) (k : N) (m0 m1 : list N) : option (N * list N * list N * list N) :=
  let '(l, r) := prg k in
  match depth with
  | O => Some (0%N, [], m0, m1)
  | S O => Some (N.lxor l r, [l; r], m0 ++ [l], m1 ++ [r])
  | _ =>
      let leaf_num := (2 ^ depth)%nat in
      let inner_num := (leaf_num - 2)%nat in
      let steps := ((inner_num - 2) / 2)%nat in
      match set (repeat 0%N inner_num) 0 l with None => None | Some inner =>
      match set inner 1 r with None => None | Some inner =>
      match fill steps 0 inner with None => None | Some inner =>
      match leaves_from (inner_num - steps) steps inner with None => None | Some leaf =>
      match get inner 0, get inner 1 with
      | Some a, Some b =>
          match level_sums (depth - 2) 1 2 inner (m0 ++ [a]) (m1 ++ [b]) with None => None | Some (m0, m1) =>
          match get leaf 0, get leaf 1 with
          | Some a, Some b =>
              match pair_sums ((leaf_num - 2) / 2) 2 a b leaf with
              | None => None
              | Some (a, b) => Some (N.lxor a b, leaf, m0 ++ [a], m1 ++ [b])
              end
          | _, _ => None
          end
          end
      | _, _ => None
      end end end end end
  end.

(** :382-385 a Punc_Node is [Some node] when its flag is set *)
(** :432-452 n iterations of the loop over the nodes of one level *)
Fixpoint punc_row (n parent : nat) (inner : list (option N)) (ls rs : N) (alpha : option nat)
  : option (nat * list (option N) * N * N * option nat) :=
  match n with
  | O => Some (parent, inner, ls, rs, alpha)
  | S n =>
      match get inner parent with
      | None => None
      | Some None => punc_row n (S parent) inner ls rs (Some parent)
      | Some (Some x) =>
          match set inner (2 * parent + 2) (Some (fst (prg x))) with
          | None => None
          | Some inner =>
              match set inner (2 * parent + 3) (Some (snd (prg x))) with
              | None => None
              | Some inner =>
                  punc_row n (S parent) inner (N.lxor ls (fst (prg x))) (N.lxor rs (snd (prg x))) alpha
              end
          end
      end
  end.
(** :427-464 the loop for (i = 1; i < depth - 1; ++i); n iterations left; the
    pointers ptr_m and ptr_selection_bit are the rest of the arrays *)
Fixpoint punc_levels (n i parent : nat) (inner : list (option N)) (alpha : option nat) (ms bits : list N)
  : option (nat * list (option N) * option nat * list N * list N) :=
  match n with
  | O => Some (parent, inner, alpha, ms, bits)
  | S n =>
      match punc_row (2 ^ i) parent inner 0%N 0%N alpha with
      | None => None
      | Some (parent, inner, ls, rs, alpha) =>
          match alpha, ms, bits with
          | Some a, m :: ms, b :: bits =>
              match (if (b =? 0)%N then set inner (2 * a + 2) (Some (N.lxor m ls))
                     else set inner (2 * a + 3) (Some (N.lxor m rs))) with
              | None => None
              | Some inner => punc_levels n (S i) parent inner alpha ms bits
              end
          | _, _, _ => None
          end
      end
  end.
(** :469-481 n iterations of the loop over the parents of the leaves *)
Fixpoint punc_leaves (n i parent : nat) (inner : list (option N)) (leaf : list N) (ls rs : N) (alpha : option nat)
  : option (list N * N * N * option nat) :=
  match n with
  | O => Some (leaf, ls, rs, alpha)
  | S n =>
      match get inner parent with
      | None => None
      | Some None => punc_leaves n (S i) (S parent) inner leaf ls rs (Some i)
      | Some (Some x) =>
          match set leaf (2 * i) (fst (prg x)) with
          | None => None
          | Some leaf =>
              match set leaf (2 * i + 1) (snd (prg x)) with
              | None => None
              | Some leaf =>
                  punc_leaves n (S i) (S parent) inner leaf (N.lxor ls (fst (prg x))) (N.lxor rs (snd (prg x))) alpha
              end
          end
      end
  end.

(** :388-500 PuncEval *)
Definition PuncEval (depth : nat) (beta : N) (ms bits : list N) : option (list N) :=
  match depth with
  | O => Some []
  | S O =>
      match ms, bits with
      | m :: _, b :: _ => Some (if (b =? 0)%N then [m; N.lxor m beta] else [N.lxor m beta; m])
      | _, _ => None
      end
  | _ =>
      let leaf_num := (2 ^ depth)%nat in
      match ms, bits with
      | m :: ms, b :: bits =>
          match set (repeat None (leaf_num - 2)) (if (b =? 0)%N then 0%nat else 1%nat) (Some m) with
          | None => None
          | Some inner =>
              match punc_levels (depth - 2) 1 0 inner None ms bits with
              | None => None
              | Some (parent, inner, alpha, ms, bits) =>
                  match punc_leaves (2 ^ (depth - 1)) 0 parent inner (repeat 0%N leaf_num) 0%N 0%N alpha with
                  | Some (leaf, ls, rs, Some a) =>
                      match ms, bits with
                      | m :: _, b :: _ =>
                          let l := if (b =? 0)%N then N.lxor m ls else N.lxor (N.lxor m ls) beta in
                          let r := if (b =? 0)%N then N.lxor (N.lxor m rs) beta else N.lxor m rs in
                          match set leaf (2 * a) l with
                          | None => None
                          | Some leaf => set leaf (2 * a + 1) r
                          end
                      | _, _ => None
                      end
                  | _ => None
                  end
              end
          end
      | _, _ => None
      end
  end.
End Tree.

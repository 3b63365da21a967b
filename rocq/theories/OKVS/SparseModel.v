(** The sparse positions of a hashed key: mpc/okvs/paxos.hpp. A block is a
    number below 2^128, a column index is a value of [idx_type], an unsigned
    integer of [b] bits (8, 16, 32 or 64). *)
From Coq Require Import NArith ZArith List Bool.
From Verif Require Import Base.Words Base.ListX OKVS.DivModel OKVS.GFModel.
Import ListNotations.
Local Open Scope N_scope.

(** The 8 bytes at the i-th 32-bit word of a block:
    /repo mpc/okvs/paxos.hpp:691, 949-952, 1002, 1024 *)
Definition word64 (dense : N) (i : N) : N := N.shiftr dense (32 * i) mod two64.

(** Conversion to [idx_type] *)
Definition idx (b x : N) : N := x mod 2 ^ b.

(** [Row[i] * mModVals[i]]: the operands have [b] bits; below 32 bits they are
    promoted to int, whose overflow is undefined ([None]). *)
Definition idx_mul (b x y : N) : option N :=
  if b <? 32 then (if x * y <? 2 ^ 31 then Some (x * y) else None)
  else Some ((x * y) mod 2 ^ b).

(** [mMods[i]], [mModVals[i]]: /repo mpc/okvs/paxos.hpp:640-647 (and
    mpc/okvs/baxos.hpp:286-291, 378-383). The divider of a modulus that is not
    positive is not made. *)
Definition mod_val (b m i : N) : N := idx b (m - i).
Definition mod_div (m i : N) : option divider :=
  if m <=? i then None else gen_divider divq (m - i).

(** One of the three remainders: /repo mpc/okvs/paxos.hpp:956-962 *)
Definition remainder (b m dense i : N) : option N :=
  match mod_div m i with
  | None => None
  | Some d =>
      let rr := word64 dense i in
      let q := idx b (divide_u64_do divide_mullhi_u64 rr d) in
      match idx_mul b q (mod_val b m i) with
      | None => None
      | Some p => Some (idx b (sub64 rr p))
      end
  end.

(** /repo mpc/okvs/paxos.hpp:971-984. The sum of line 972 may wrap in
    [idx_type] (from 32 bits on); the difference is then right again. *)
Definition spread (b r0 r1 r2 : N) : list N :=
  let mn := N.min r0 r1 in
  let mx := if b <? 32 then r0 + r1 - mn else idx b (idx b (r0 + r1) + 2 ^ b - mn) in
  let hit := mx =? r1 in
  let r1 := if hit then idx b (r1 + 1) else r1 in
  let mx := if hit then (if b <? 32 then mx + 1 else idx b (mx + 1)) else mx in
  let r2 := if mn <=? r2 then idx b (r2 + 1) else r2 in
  let r2 := if mx <=? r2 then idx b (r2 + 1) else r2 in
  [r0; r1; r2].

(** The search for the position of a column among the columns found so far, and
    its insertion there: /repo mpc/okvs/paxos.hpp:1004-1016 and 1026-1038 *)
Fixpoint insert_col (b : N) (sparse : list N) (col : N) : list N :=
  match sparse with
  | [] => [idx b col]
  | s :: rest => if s <=? col then s :: insert_col b rest (col + 1)
                 else idx b col :: sparse
  end.

(** One column: /repo mpc/okvs/paxos.hpp:1001-1016, 1024-1038. The modulus of
    column [iter] is [sparse_size - iter]; division by zero or by a wrapped
    difference is [None]. *)
Definition next_col (b m : N) (dense : N) (word iter : nat) (sparse : list N) :
  option (list N) :=
  if m <=? N.of_nat iter then None
  else Some (insert_col b sparse
               (word64 dense (N.of_nat word) mod (m - N.of_nat iter))).

Definition bind {A B} (x : option A) (f : A -> option B) : option B :=
  match x with None => None | Some a => f a end.

(** The columns [iter], ..., [iter + k - 1] from the words [word], ... *)
Fixpoint next_cols (b m dense : N) (k word iter : nat) (sparse : list N) :
  option (list N) :=
  match k with
  | O => Some sparse
  | S k => bind (next_col b m dense word iter sparse)
             (next_cols b m dense k (S word) (S iter))
  end.

(** The two loops of /repo mpc/okvs/paxos.hpp:995-1041. In the second one
    [j % 3] starts at 0, as j is a multiple of 3, and stays below 3. *)
Fixpoint sparse_loop (fuel : nat) (b m dense : N) (w j : nat) (sparse : list N) :
  option (list N) :=
  match fuel with
  | O => None
  | S fuel =>
      if Nat.ltb (j + 3) w then
        bind (next_cols b m dense 3 0 j sparse)
          (sparse_loop fuel b m (gf128_mul dense dense) w (j + 3))
      else next_cols b m dense (w - j) (Nat.modulo j 3) j sparse
  end.

(** /repo mpc/okvs/paxos.hpp:945-1043 [set_sparse_1], without the update of
    [col_weights] (see PaxosModel). *)
Definition set_sparse_1 (b : N) (w : nat) (m dense : N) : option (list N) :=
  if Nat.eqb w 3 then
    bind (remainder b m dense 0) (fun r0 =>
    bind (remainder b m dense 1) (fun r1 =>
    bind (remainder b m dense 2) (fun r2 => Some (spread b r0 r1 r2))))
  else sparse_loop (S w) b m dense w 0 [].

(** ** The vectorised path *)

(** One 64-bit lane of [_mm_cmpgt_epi64] (signed) and [_mm_cmpeq_epi64] *)
Definition signed64 (x : N) : Z :=
  if x <? 2 ^ 63 then Z.of_N x else (Z.of_N x - 2 ^ 64)%Z.
Definition ones64 : N := 2 ^ 64 - 1.
Definition cmpgt (x y : N) : N :=
  if (signed64 y <? signed64 x)%Z then ones64 else 0.
Definition cmpeq (x y : N) : N := if x =? y then ones64 else 0.

(** One lane of /repo mpc/okvs/paxos.hpp:699-844; the code treats 2 x 8 x 2
    lanes alike. *)
Definition lane (w0 w1 w2 : N) : N * N * N :=
  let mask := cmpgt w0 w1 in
  let mn := N.lxor w0 w1 in
  let mx := N.land mn mask in
  let mx := N.lxor mx w1 in
  let mn := N.lxor mn mx in
  let mask := cmpeq mx w1 in
  let w1 := sub64 w1 mask in
  let mx := sub64 mx mask in
  let mask := N.lxor (cmpgt mn w2) ones64 in
  let w2 := sub64 w2 mask in
  let mask := N.lxor (cmpgt mx w2) ones64 in
  let w2 := sub64 w2 mask in
  (w0, w1, w2).

(** The words of the 32 blocks reduced by [mod32]:
    /repo mpc/okvs/paxos.hpp:685-695 and 352-357 *)
Definition reduced (b m : N) (dense : list N) (i : N) : option (list N) :=
  bind (mod_div m i)
    (fun d => doMod32 (map (fun x => word64 x i) dense) d (mod_val b m i)).

Fixpoint map3 (f : N -> N -> N -> list N) (x y z : list N) : list (list N) :=
  match x, y, z with
  | a :: x, c :: y, e :: z => f a c e :: map3 f x y z
  | _, _, _ => []
  end.

(** /repo mpc/okvs/paxos.hpp:679-935 [set_sparse_32] on the 32 blocks [dense];
    the rows are written one behind the other (lines 857-925). *)
Fixpoint all_some {A} (l : list (option A)) : option (list A) :=
  match l with
  | [] => Some []
  | x :: l => bind x (fun a => bind (all_some l) (fun r => Some (a :: r)))
  end.

Definition set_sparse_32 (b : N) (w : nat) (m : N) (dense : list N) :
  option (list (list N)) :=
  if Nat.eqb w 3 then
    bind (reduced b m dense 0) (fun l0 =>
    bind (reduced b m dense 1) (fun l1 =>
    bind (reduced b m dense 2) (fun l2 =>
      Some (map3 (fun a c e => let '(x, y, z) := lane a c e in
                               [idx b x; idx b y; idx b z]) l0 l1 l2))))
  else all_some (map (set_sparse_1 b w m) dense).

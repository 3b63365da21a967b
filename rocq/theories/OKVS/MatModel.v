(** The matrix inversion helpers and the enumeration of combinations:
    mpc/okvs/okvs_utility.hpp. A matrix is the list of its rows. *)
From Coq Require Import NArith List Bool.
From Verif Require Import Base.Words Base.ListX OKVS.GFModel.
Import ListNotations.
Local Open Scope N_scope.

Definition row (m : list (list N)) (i : nat) : list N := nth i m [].
Definition entry (m : list (list N)) (i j : nat) : N := nth j (row m i) 0.

(** [mat[i].swap(mat[j])] *)
Definition swap_rows (m : list (list N)) (i j : nat) : list (list N) :=
  upd (upd m i (row m j)) j (row m i).

(** The initial right half: /repo mpc/okvs/okvs_utility.hpp:565-568, 666-668 *)
Definition unit_row (n i : nat) : list N :=
  map (fun j => if Nat.eqb i j then 1 else 0) (seq 0 n).
Definition unit_matrix (n : nat) : list (list N) := map (unit_row n) (seq 0 n).

(** The search for a row to swap with:
    /repo mpc/okvs/okvs_utility.hpp:572-582 and 672-683. Only an entry equal to
    1 is accepted. *)
Definition with_pivot (n i : nat) (mat inv : list (list N)) :
  list (list N) * list (list N) :=
  if entry mat i i =? 0 then
    match find (fun j => entry mat j i =? 1) (seq (S i) (n - S i)) with
    | Some j => (swap_rows mat i j, swap_rows inv i j)
    | None => (mat, inv)
    end
  else (mat, inv).

(** The elimination loop of [check_invert]:
    /repo mpc/okvs/okvs_utility.hpp:689-700. The code updates row after row;
    each update reads row i only, which the loop skips, so all rows may be
    updated at once. [other] is the half being updated ([mat] or [Inv]), the
    condition always reads [mat]. *)
Definition eliminate (n i : nat) (mat other : list (list N)) : list (list N) :=
  map (fun j => if negb (Nat.eqb j i) && negb (entry mat j i =? 0)
                then map2 N.lxor (row other j) (row other i)
                else row other j) (seq 0 n).

(** Round i of /repo mpc/okvs/okvs_utility.hpp:670-701; [None]: return false *)
Definition invert_round (n i : nat) (mat inv : list (list N)) :
  option (list (list N) * list (list N)) :=
  let (mat, inv) := with_pivot n i mat inv in
  if entry mat i i =? 0 then None
  else Some (eliminate n i mat mat, eliminate n i mat inv).

Fixpoint rounds (round : nat -> list (list N) -> list (list N) ->
                         option (list (list N) * list (list N)))
  (k i : nat) (mat inv : list (list N)) : option (list (list N)) :=
  match k with
  | O => Some inv
  | S k => match round i mat inv with
           | None => None
           | Some (mat, inv) => rounds round k (S i) mat inv
           end
  end.

(** /repo mpc/okvs/okvs_utility.hpp:663-704 [check_invert]: [Some] of the
    matrix that replaces the argument, [None] for false. *)
Definition check_invert (mat : list (list N)) : option (list (list N)) :=
  let n := length mat in
  rounds (invert_round n) n 0 mat (unit_matrix n).

(** The scaling of row i: /repo mpc/okvs/okvs_utility.hpp:588-600 *)
Definition scale_mat (n i : nat) (c : N) (mat : list (list N)) : list (list N) :=
  upd mat i (map (fun j => if Nat.eqb i j then 1
                           else gf128_mul (entry mat i j) c) (seq 0 n)).
Definition scale_inv (n i : nat) (c : N) (inv : list (list N)) : list (list N) :=
  upd inv i (map (fun j => gf128_mul (entry inv i j) c) (seq 0 n)).

(** The elimination of /repo mpc/okvs/okvs_utility.hpp:602-613, all rows at
    once as above. *)
Definition eliminate_gf128 (n i : nat) (mat other : list (list N)) : list (list N) :=
  map (fun j => if Nat.eqb j i then row other j
                else map2 N.lxor (row other j)
                       (map (fun b => gf128_mul b (entry mat j i)) (row other i)))
      (seq 0 n).

(** Round i of /repo mpc/okvs/okvs_utility.hpp:570-614 *)
Definition invert_round_gf128 (n i : nat) (mat inv : list (list N)) :
  option (list (list N) * list (list N)) :=
  let (mat, inv) := with_pivot n i mat inv in
  if entry mat i i =? 0 then None
  else
    let c := gf128_inv (entry mat i i) in
    let mat := scale_mat n i c mat in
    let inv := scale_inv n i c inv in
    Some (eliminate_gf128 n i mat mat, eliminate_gf128 n i mat inv).

(** /repo mpc/okvs/okvs_utility.hpp:562-619 [check_invert_gf128] *)
Definition check_invert_gf128 (mat : list (list N)) : option (list (list N)) :=
  let n := length mat in
  rounds (invert_round_gf128 n) n 0 mat (unit_matrix n).

(** The loop of [prev_combination] over i, downwards; entries are uint8_t, the
    comparison is done in 64 bits (k is an int converted to 64 bits, so
    [n - k + i] wraps if k > n + i). *)
Fixpoint refill (comb : list N) (j k : nat) : list N :=
  match k with
  | O => comb
  | S k => refill (upd comb j ((nth (j - 1) comb 0 + 1) mod 256)) (S j) k
  end.

Fixpoint combination_loop (i : nat) (comb : list N) (n : N) : option (list N) :=
  let k := length comb in
  if nth i comb 0 <? wrap 64 (n + 2 ^ 64 - N.of_nat k + N.of_nat i)
  then Some (refill (upd comb i ((nth i comb 0 + 1) mod 256)) (S i) (k - S i))
  else match i with O => None | S i => combination_loop i comb n end.

(** /repo mpc/okvs/okvs_utility.hpp:548-560 [prev_combination]: [None] for
    false (the vector is then unchanged). *)
Definition prev_combination (comb : list N) (n : N) : option (list N) :=
  match length comb with
  | O => None
  | S i => combination_loop i comb n
  end.

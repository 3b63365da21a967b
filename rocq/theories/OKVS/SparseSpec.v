(** What a row of the matrix must look like. Nothing here refers to the code. *)
From Coq Require Import NArith List.
Import ListNotations.
Local Open Scope N_scope.

(** [w] different columns, each below [m] *)
Definition is_row (w : nat) (m : N) (row : list N) : Prop :=
  length row = w /\ NoDup row /\ Forall (fun c => c < m) row.

(** The widths of the unsigned integer types *)
Definition int_width (b : N) : Prop := b = 8 \/ b = 16 \/ b = 32 \/ b = 64.

(** What saving parameters to a file and fetching them must do. *)
From Coq Require Import NArith List.
From Verif.Param Require Import ParamModel.
Import ListNotations.
Local Open Scope N_scope.

(** Saved parameters [p] are found again: fetching the file, into any object that can be fetched into, gives p. *)
Definition found_again {A} (fits : A -> Prop) (wr : A -> list N) (rd : A -> ifs -> A * ifs) (p : A) : Prop :=
  forall old, fits old -> fetch rd old (wr p) = p.
(** objects of a type without arrays *)
Definition any {A} (x : A) : Prop := True.
(** the characters '0' to '9' *)
Definition ascii_digit (c : N) : Prop := 48 <= c <= 57.

(** Vocabulary of the privacy properties: equality of distributions over random draws. *)

(** [f] on the draws [A] and [g] on the draws [B] have the same outcomes equally often: there
    is a one-to-one correspondence between the draws that preserves the outcome. *)
Definition equally_distributed {D R : Type} (A B : D -> Prop) (f g : D -> R) : Prop :=
  exists F F' : D -> D,
    (forall d, A d -> B (F d) /\ g (F d) = f d /\ F' (F d) = d) /\
    (forall d, B d -> A (F' d) /\ f (F' d) = g d /\ F (F' d) = d).

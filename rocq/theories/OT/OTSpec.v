(** Vocabulary of the properties about oblivious transfer (C53 - C55). *)
From Coq Require Import NArith List.
Import ListNotations.

(** n 128-bit messages *)
Definition blocks (n : nat) (v : list N) : Prop := length v = n /\ Forall (fun x => (x < 2 ^ 128)%N) v.
(** n selection bits *)
Definition bit_vector (n : nat) (bits : list N) : Prop := length bits = n /\ Forall (fun b => b = 0%N \/ b = 1%N) bits.
(** the messages the bits choose *)
Fixpoint chosen {A} (bits : list N) (m0 m1 : list A) : list A :=
  match bits, m0, m1 with
  | b :: bits', x :: m0', y :: m1' => (if (b =? 0)%N then x else y) :: chosen bits' m0' m1'
  | _, _, _ => []
  end.
(** the messages whose bit is 1 *)
Fixpoint picked {A} (bits : list N) (m : list A) : list A :=
  match bits, m with
  | b :: bits', x :: m' => if (b =? 1)%N then x :: picked bits' m' else picked bits' m'
  | _, _ => []
  end.
(** byte strings of one length *)
Definition byte_items (n LEN : nat) (v : list (list N)) : Prop := length v = n /\ Forall (fun d => length d = LEN) v.

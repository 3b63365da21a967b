(** Vocabulary of properties C98 and C99: what the other side of a protocol sees. *)
From Coq Require Import NArith ZArith List.
From Verif.Base Require Export Draws.
From Verif.Group Require Import ECModel.
From Verif.Net Require Import ChannelModel PartyModel.
Import ListNotations.

Section Spec.
Variable G : ECGroup.

(** Everything party [p] sends when the messages it receives are those of [inbox], in order;
    [inbox] may come from anyone, honest or not. *)
Fixpoint sends {A} (p : party G A) (inbox : list (msg G)) : list (msg G) :=
  match p with
  | Ret _ => []
  | Fail => []
  | Put m k => m :: sends k inbox
  | Get _ k => match inbox with [] => [] | m :: rest => sends (k m) rest end
  end.

(** [n] numbers drawn below the group order *)
Definition scalars (n : nat) (l : list Z) : Prop := length l = n /\ Forall (fun a => 0 <= a < order G)%Z l.
(** the i-th of them *)
Definition ith (l : list Z) (i : nat) : Z := nth i l 0%Z.
End Spec.
Arguments sends {G A}.

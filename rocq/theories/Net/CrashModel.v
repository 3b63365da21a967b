(** A party whose peer stops in the middle of a protocol.

    The peer may stop after any number of steps of any schedule.  Of the messages it had sent, the first [j] arrive in full;
    of the next one some bytes may arrive.  ReceiveDataInternal (/repo netio/stream_channel.hpp:217-226) does not leave its
    loop for those: RECEIVE_LEN is a size_t, so that the branch for an error is never taken, and at the end of the stream
    fread returns 0 for ever (`C52_short_stream_hangs`).  A call that sends to a stopped peer is taken to succeed; the
    operating system may end the process instead (SIGPIPE), which is no return either. *)
From Coq Require Import List.
From Verif.Group Require Import ECModel.
From Verif.Net Require Import ChannelModel ChannelSpec PartyModel.
Import ListNotations.

Section Crash.
Variable G : ECGroup.
Context {A B : Type}.

(** the steps of the party that goes on *)
Inductive alone : net G A B -> net G A B -> Prop :=
| alone_puts m p q x y : alone (mkNet (Put m p) q x y) (mkNet p q (x ++ [m]) y)
| alone_gets t k q x m y : fits G m t -> alone (mkNet (Get t k) q x (m :: y)) (mkNet (k m) q x y).
Inductive alones : nat -> net G A B -> net G A B -> Prop :=
| alones_0 s : alones 0 s s
| alones_S n s t u : alone s t -> alones n t u -> alones (S n) s u.
(** the peer stops in state s and the first j of its messages under way arrive *)
Definition stopped (j : nat) (s : net G A B) : net G A B := mkNet (pa s) (pb s) (ab s) (firstn j (ba s)).
End Crash.
Arguments alone {G A B}. Arguments alones {G A B}. Arguments stopped {G A B}.

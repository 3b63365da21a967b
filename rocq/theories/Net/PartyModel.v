(** Two-party protocols over NetIO.

    A protocol function of the library that takes a NetIO object is a [party]: it sends
    messages, waits for messages and finally returns.  The two directions of the socket
    are FIFO queues of whole messages; that a message put into a queue is what the other
    side takes out, for every fragmentation of the byte stream, is property C52. *)
From Coq Require Import NArith ZArith List.
From Verif.Base Require Import Words.
From Verif.Group Require Import ECModel.
From Verif.Net Require Import ChannelModel ChannelSpec.
Import ListNotations.

Section Party.
Variable G : ECGroup.

Inductive party (A : Type) : Type :=
| Ret (a : A)
| Fail                                              (* exit(), an exception or undefined behaviour *)
| Put (m : msg G) (k : party A)
| Get (t : target G) (k : msg G -> party A).
Arguments Ret {A}. Arguments Fail {A}. Arguments Put {A}. Arguments Get {A}.

(** calling one protocol function after (or inside) another *)
Fixpoint pbind {A B} (p : party A) (f : A -> party B) : party B :=
  match p with
  | Ret a => f a
  | Fail => Fail
  | Put m k => Put m (pbind k f)
  | Get t k => Get t (fun m => pbind (k m) f)
  end.
(** a local computation that may have no defined result *)
Definition local {A B} (o : option A) (f : A -> party B) : party B :=
  match o with Some a => f a | None => Fail end.

(** the Receive calls of netio/stream_channel.hpp on newly created objects *)
Definition get_points {A} (n : nat) (k : list (pt G) -> party A) : party A :=
  Get (TPoints G (repeat (inf G) n)) (fun m => match m with MPoints _ v => k v | _ => Fail end).
Definition get_blocks {A} (n : nat) (k : list N -> party A) : party A :=
  Get (TBlocks G n) (fun m => match m with MBlocks _ v => k v | _ => Fail end).
Definition get_bytes {A} (n : nat) (k : list N -> party A) : party A :=
  Get (TBytes G n) (fun m => match m with MBytes _ d => k d | _ => Fail end).
Definition get_int {A} (w : nat) (k : N -> party A) : party A :=
  Get (TInt G w) (fun m => match m with MInt _ _ x => k x | _ => Fail end).
Definition get_points25519 {A} (n : nat) (k : list (list N) -> party A) : party A :=
  Get (TPoints25519 G n) (fun m => match m with MPoints25519 _ v => k v | _ => Fail end).
Definition get_bigint {A} (LEN : nat) (k : Z -> party A) : party A :=
  Get (TBigInt G LEN) (fun m => match m with MBigInt _ _ a => k a | _ => Fail end).
Definition get_bytesvec {A} (k : list (list N) -> party A) : party A :=
  Get (TBytesVec G) (fun m => match m with MBytesVec _ v => k v | _ => Fail end).

(** ** asynchronous execution: at each step either party may move *)
Record net (A B : Type) := mkNet { pa : party A; pb : party B; ab : list (msg G); ba : list (msg G) }.
Arguments mkNet {A B}.
Inductive step {A B} : net A B -> net A B -> Prop :=
| a_puts m p q x y : step (mkNet (Put m p) q x y) (mkNet p q (x ++ [m]) y)
| a_gets t k q x m y : fits G m t -> step (mkNet (Get t k) q x (m :: y)) (mkNet (k m) q x y)
| b_puts m p q x y : step (mkNet p (Put m q) x y) (mkNet p q x (y ++ [m]))
| b_gets t k p m x y : fits G m t -> step (mkNet p (Get t k) (m :: x) y) (mkNet p (k m) x y).
Inductive steps {A B} : nat -> net A B -> net A B -> Prop :=
| steps_0 s : steps 0 s s
| steps_S n s t u : step s t -> steps n t u -> steps (S n) s u.

(** Whatever the schedule, the two parties end after the same number of steps, with these
    results and nothing left on the wire; in particular no schedule reaches a deadlock, an
    error, or a state from which the end can be missed. *)
Definition ends {A B} (p : party A) (q : party B) (a : A) (b : B) : Prop :=
  exists n, forall k s, steps k (mkNet p q [] []) s -> k <= n /\ steps (n - k) s (mkNet (Ret a) (Ret b) [] []).
(** Some schedule leads a party into an error ([Fail]). *)
Definition crashes {A B} (p : party A) (q : party B) : Prop :=
  exists n s, steps n (mkNet p q [] []) s /\ (pa _ _ s = Fail \/ pb _ _ s = Fail).
End Party.
Arguments crashes {G A B}.
Arguments Ret {G A}. Arguments Fail {G A}. Arguments Put {G A}. Arguments Get {G A}.
Arguments pbind {G A B}. Arguments local {G A B}. Arguments ends {G A B}.
Arguments get_points {G A}. Arguments get_blocks {G A}. Arguments get_bytes {G A}. Arguments get_int {G A}.
Arguments get_points25519 {G A}. Arguments get_bigint {G A}. Arguments get_bytesvec {G A}.
Arguments mkNet {G A B}. Arguments step {G A B}. Arguments steps {G A B}.
Arguments pa {G A B}. Arguments pb {G A B}. Arguments ab {G A B}. Arguments ba {G A B}.

(** Vocabulary of the property about the message channel (C52). *)
From Coq Require Import NArith ZArith List.
From Verif.Base Require Import Words.
From Verif.Group Require Import ECModel.
From Verif.Net Require Import ChannelModel.
Import ListNotations.

Section Spec.
Variable G : ECGroup.
(** The receiving call is the one that belongs to the sending call, with the same
    lengths, and the value is one that the format can hold.  A point at infinity needs a
    target that is at infinity already, as a new ECPoint is. *)
Definition fits (m : msg G) (t : target G) : Prop :=
  match m, t with
  | MBytes _ d, TBytes _ n => n = length d
  | MBlocks _ v, TBlocks _ n => n = length v /\ Forall (fun b => (b < 2 ^ 128)%N) v
  | MInt _ w x, TInt _ w' => w' = w /\ (x < 256 ^ N.of_nat w)%N
  | MPoints _ v, TPoints _ old => Forall2 (fun P o => P = inf G -> o = inf G) v old
  | MPoints25519 _ v, TPoints25519 _ n => n = length v /\ Forall (fun d => length d = 32) v
  | MBigInt _ LEN a, TBigInt _ LEN' => LEN' = LEN /\ (0 <= a < 256 ^ Z.of_nat LEN)%Z
  | MBytesVec _ v, TBytesVec _ =>
      v <> [] /\ exists LEN, Forall (fun d => length d = LEN) v /\
        (N.of_nat (length v) < 2 ^ 64 /\ N.of_nat LEN < 2 ^ 64 /\ N.of_nat LEN * N.of_nat (length v) < 2 ^ 64)%N
  | MStringVec _ LEN v, TStringVec _ LEN' =>
      LEN' = LEN /\ Forall (fun d => length d = LEN) v /\
      (N.of_nat (length v) < 2 ^ 64 /\ N.of_nat LEN * N.of_nat (length v) < 2 ^ 64)%N
  | _, _ => False
  end.
End Spec.

(** A round: each party gets at least one turn that transfers something if it can. *)
Definition round (s : list turn) : Prop := (exists k, In (Snd (S k)) s) /\ (exists k, In (Rcv (S k)) s).

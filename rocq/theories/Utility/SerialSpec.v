(** Specification side of the stream properties: which C++ values exist, and
    which reading program matches a writing program. *)
From Coq Require Import NArith List.
From Verif.Base Require Import Words.
From Verif.Utility Require Import SerialModel.
Import ListNotations.
Local Open Scope N_scope.

(** an object a C++ program can hold: each value fits its type, a string is made
    of bytes and its length is a size_t *)
Definition representable (o : object) : Prop :=
  match o with
  | OSize x => x < 2 ^ 64
  | OPod w x => x < 256 ^ N.of_nat w
  | OVec w v => Forall (fun x => x < 256 ^ N.of_nat w) v
  | OString s => bytes_ok s /\ N.of_nat (length s) < 2 ^ 64
  | OBlock b => b < 2 ^ 128
  | OBlocks v => Forall (fun b => b < 2 ^ 128) v
  end.

(** the reading program declares a target of the same type; vectors have been
    given the right size beforehand, whatever their content *)
Definition matching (o : object) (t : target) : Prop :=
  match o, t with
  | OSize _, TSize => True
  | OPod w _, TPod w' => w = w'
  | OVec w v, TVec w' old => w = w' /\ length old = length v
  | OString _, TString => True
  | OBlock _, TBlock => True
  | OBlocks v, TBlocks old => length old = length v
  | _, _ => False
  end.

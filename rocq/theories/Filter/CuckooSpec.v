(** Specification side of the cuckoo filter: histories of calls and the notion of
    two elements sharing their fingerprint and buckets. *)
From Coq Require Import NArith List Bool.
From Verif.Base Require Import Words.
From Verif.Filter Require Import MurmurModel CuckooModel.
Import ListNotations.
Local Open Scope N_scope.

(** One API call; rnd are the values rand() returns during the call. *)
Inductive cop := CInsert (x : list N) (rnd : N -> N) | CDelete (x : list N).

(** Run a history, collecting the returned booleans; None = undefined behaviour. *)
Fixpoint crun (H : N -> list N -> N) (f : cuckoo) (ops : list cop) : option (cuckoo * list bool) :=
  match ops with
  | [] => Some (f, [])
  | o :: r =>
      match (match o with
             | CInsert x rnd => PlainInsert H rnd f x
             | CDelete x => PlainDelete H f x
             end) with
      | None => None
      | Some (f', b) => option_map (fun p => (fst p, b :: snd p)) (crun H f' r)
      end
  end.

Definition insert_only (ops : list cop) : Prop :=
  forall x, ~ In (CDelete x) ops.

(** The hash function returns 32-bit words, as FastHash does. *)
Definition hash32 (H : N -> list N -> N) : Prop := forall x, H fixed_salt32 x < 2 ^ 32.

(** Fingerprint of an element: top 16 hash bits, 0 replaced by 1. *)
Definition fingerprint (H : N -> list N -> N) (x : list N) : N :=
  let t := H fixed_salt32 x / 2 ^ 16 in if t =? 0 then 1 else t.

(** The two buckets of an element in a table of bn (a power of two) buckets. *)
Definition bucket1 (H : N -> list N -> N) (bn : N) (x : list N) : N := H fixed_salt32 x mod bn.
Definition bucket2 (H : N -> list N -> N) (bn : N) (x : list N) : N :=
  N.lxor (bucket1 H bn x) ((fingerprint H x * 0x5bd1e995) mod bn).

(** x and y cannot be told apart by the filter. *)
Definition collide (H : N -> list N -> N) (bn : N) (x y : list N) : Prop :=
  fingerprint H x = fingerprint H y /\
  (bucket1 H bn y = bucket1 H bn x \/ bucket1 H bn y = bucket2 H bn x).

(** Capacities for which the constructor allocates a non-empty table. *)
Definition capacity_ok (projected : N) : Prop := projected / 4 <= 2 ^ 31.

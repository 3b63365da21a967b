(** Special soundness of the one-out-of-many proof and of the ring signature (properties
    C100, C101): several accepted proofs with the same first message and different
    challenges, and the extractor, which computes on numbers only. *)
From Coq Require Import NArith ZArith List Arith Bool.
From Verif.Crypto Require Import BigIntModel BigIntSpec BigIntProofs.
From Verif.Group Require Import ECModel.
From Verif.PKE Require Import ElGamalModel.
From Verif.Bullet Require Import LagSpec ExtractSpec.
From Verif.Ring Require Import RingModel RingSpec.
Import ListNotations.
Local Open Scope Z_scope.

(** number of challenges that have to be answered *)
Definition answers (m : nat) : nat := Nat.max 3 (S m).

(** how far the k-th value is from the straight line through the first two *)
Definition off_line (q : Z) (y v : nat -> Z) (k : nat) : Z := v k - (coef q 2 y v 1 * y k + coef q 2 y v 0).

(** the number with the given digits, lowest first *)
Fixpoint compose (n : nat) (ds : list nat) : nat := match ds with [] => 0 | d :: r => d + n * compose n r end.

Inductive er_found : Type :=
| ErIndex (l : nat) (r : Z)          (** ciphertext l encrypts zero with randomness r *)
| ErRelation (v : list Z).           (** exponents of a relation between the Pedersen bases *)

Section Spec.
Variable G : ECGroup.
Local Notation q := (order G).

(** The proofs share everything the prover sends before the challenge. *)
Definition same_first (p p' : ERProof G) : Prop :=
  erB G p = erB G p' /\ erA G p = erA G p' /\ erC G p = erC G p' /\ erD G p = erD G p' /\ erG G p = erG G p'.
(** the proof is accepted when the challenge is x *)
Definition er_accepted (pp : ERPP G) (m : nat) (cts : list (TCT G)) (ek : pt G) (x : Z) (p : ERProof G) : Prop :=
  exists (H : list N -> Z) (tr tr' : list N), ER_Verify G H pp m cts ek tr p = Some (true, tr') /\ H tr' = x.

(** ** the extractor; [y k] is the k-th challenge, [p k] its proof *)
Section Extractor.
Variables (pp : ERPP G) (m : nat) (y : nat -> Z) (p : nat -> ERProof G).
Let n := er_n G pp.
Let M := length (er_h G pp).
(** the exponents of the two commitment equations, the base g first *)
Definition exps1 (k i : nat) : Z := match i with O => erzA G (p k) | S i => nth i (erf G (p k)) 0 end.
Definition exps2 (k i : nat) : Z :=
  match i with
  | O => erzC G (p k)
  | S i => if (i <? m * n)%nat then nth i (erf G (p k)) 0 * (y k - nth i (erf G (p k)) 0) else 0
  end.
Definition gap (e : nat -> nat -> Z) (k : nat) : list Z := tab (S M) (fun i => off_line q y (fun k => e k i) k).
(** the bit committed to at position i of column j *)
Definition ebit (j i : nat) : Z := coef q 2 y (fun k => nth (j * n + i) (erf G (p k)) 0) 1.
Definition edigit (j : nat) : nat :=
  match find (fun i => (ebit j i mod q =? 1)%Z) (seq 0 n) with Some i => i | None => 0%nat end.
Definition er_extract : er_found :=
  match find (fun v => negb (zeros q v)) (map (gap exps1) (seq 0 (answers m)) ++ map (gap exps2) (seq 0 (answers m))) with
  | Some v => ErRelation v
  | None => ErIndex (compose n (map edigit (seq 0 m))) (coef q (answers m) y (fun k => erz G (p k)) m)
  end.
End Extractor.

(** what the extractor promises *)
Definition er_good (pp : ERPP G) (cts : list (TCT G)) (ek : pt G) (f : er_found) : Prop :=
  match f with
  | ErIndex l r => (l < length cts)%nat /\ encrypts_with G (t_g G (er_enc G pp)) ek (inf G) r (nth l cts (ct_inf G))
  | ErRelation v => relation G (er_g G pp :: er_h G pp) v
  end.

(** ** ring signatures *)
Definition same_start (s s' : ARSSig G) : Prop :=
  same_first (as_proof G s) (as_proof G s') /\ as_vk G s = as_vk G s' /\ as_s G s = as_s G s'.
Definition ars_accepted (pp : ARSPP G) (m : nat) (R : list (pt G)) (x : Z) (s : ARSSig G) : Prop :=
  exists (H : list N -> Z) (message : list N),
    ARS_Verify G H pp m R message s = Some true /\
    H (er_transcript G message (erB G (as_proof G s)) (erA G (as_proof G s)) (erC G (as_proof G s)) (erD G (as_proof G s))) = x.
(** the secret key of the signer *)
Definition ars_key (y : nat -> Z) (s : nat -> ARSSig G) : Z := coef q 2 y (fun k => as_zs G (s k)) 1.
End Spec.

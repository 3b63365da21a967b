(** Specification side for C102: naming the signer of an accountable ring signature from public
    data only.  Prove does not reduce its answer z = r x^m - sum rho_k x^k modulo the group
    order (/repo zkp/nizk/nizk_enc_relation.hpp:179-187), so z / x^m is r up to a small error. *)
From Coq Require Import NArith ZArith List Arith Bool.
From Verif.Group Require Import ECModel.
From Verif.PKE Require Import ElGamalModel.
From Verif.Ring Require Import RingModel.
Import ListNotations.
Local Open Scope Z_scope.

(** number of candidates for a challenge x and the group order q *)
Definition tries (q x : Z) : nat := Z.to_nat ((q - 1) / (x - 1) + 1).
(** the integers from the rounded-up quotient z / x^m on *)
Definition candidates (q x : Z) (m : nat) (z : Z) : list Z :=
  map (fun i => - ((- z) / x ^ Z.of_nat m) + Z.of_nat i) (seq 0 (tries q x)).

Section Spec.
Variable G : ECGroup.
Variable H : list N -> Z.
(** the challenge anybody recomputes from the message and the signature *)
Definition challenge_of (message : list N) (sg : ARSSig G) : Z :=
  let p := as_proof G sg in H (er_transcript G message (erB G p) (erA G p) (erC G p) (erD G p)).
(** try the candidates for the randomness of the encrypted key; remove it when it fits *)
Definition name_signer (pp : ARSPP G) (m : nat) (message : list N) (sg : ARSSig G) : option (pt G) :=
  match find (fun r => peqb G (pmul G (ar_ek G pp) r) (tX G (as_vk G sg)))
             (candidates (order G) (challenge_of message sg) m (erz G (as_proof G sg))) with
  | Some r => Some (psub G (tY G (as_vk G sg)) (pmul G (t_g G (ar_enc G pp)) r))
  | None => None
  end.
End Spec.

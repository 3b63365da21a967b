(** C73: base VOLE. *)
From Coq Require Import NArith ZArith List Bool Arith Lia.
From Verif.Base Require Import Words ListX Mem.
From Verif.Utility Require Import SerialModel.
From Verif.Group Require Import ECModel ECProofs ZqGroup.
From Verif.Net Require Import PartyModel PartyProofs.
From Verif.OT Require Import OTModel OTSpec OTProps.
From Verif.OKVS Require Import GFModel.
From Verif.VOLE Require Import BVModel BVProofs.
Import ListNotations.
Local Open Scope N_scope.

(** C73, one instance.  For every group, hash function, generator, all random
    choices of the two parties, and every u and delta (given by the caller or
    drawn at random): both parties end, A with u and w, B with delta and v, and
    v + w = u * delta.  The addition is xor; [gf128_mul] is the product of
    GF(2^128) by C70. *)
Theorem C73_base_vole :
  forall G hash, (forall s, length (hash s) = 32%nat /\ bytes_ok (hash s)) ->
  forall g eA eB d r sk u delta, eA < 2 ^ 128 -> eB < 2 ^ 128 ->
  (forall x, u = Some x -> x < 2 ^ 128) -> (forall x, delta = Some x -> x < 2 ^ 128) ->
  exists u' w delta' v,
    ends (baseVOLE_A G hash g eA d r u) (baseVOLE_B G hash g eB sk delta) (u', w) (delta', v) /\
    u' < 2 ^ 128 /\ w < 2 ^ 128 /\ delta' < 2 ^ 128 /\ v < 2 ^ 128 /\
    N.lxor v w = gf128_mul u' delta' /\
    (forall x, u = Some x -> u' = x) /\ (forall x, delta = Some x -> delta' = x).
Proof. intros G hash H g. apply base_run, H. Qed.
Print Assumptions C73_base_vole.

(** C73, t instances with one delta, over the OT extension; any t, also 0 *)
Theorem C73_base_vole_many :
  forall G hash, (forall s, length (hash s) = 32%nat /\ bytes_ok (hash s)) ->
  forall g o eA t delta, ot_ok o -> eA < 2 ^ 128 -> delta < 2 ^ 128 ->
  exists us ws vs,
    ends (baseVOLE_tA G hash g o eA t) (baseVOLE_tB G hash g o t delta) (us, ws) vs /\
    blocks t us /\ blocks t ws /\ blocks t vs /\
    forall i, (i < t)%nat -> N.lxor (nth i vs 0) (nth i ws 0) = gf128_mul (nth i us 0) delta.
Proof. intros G hash H g. apply base_t_run, H. Qed.
Print Assumptions C73_base_vole_many.

(** The hypotheses are met: u = x^2+x+1 and delta = x^3+x+1, whose product is
    x^5+x^4+1 *)
Example C73_run : exists w v,
  ends (baseVOLE_A G101 toy_hash (p101 1) 12345 5 (fun i => 3 + Z.of_nat i)%Z (Some 7))
       (baseVOLE_B G101 toy_hash (p101 1) 6789 (fun i => 7 * Z.of_nat i)%Z (Some 11)) (7, w) (11, v) /\
  N.lxor v w = 49.
Proof.
  destruct (C73_base_vole G101 toy_hash toy_hash_ok (p101 1) 12345 6789 5 (fun i => 3 + Z.of_nat i)%Z
    (fun i => 7 * Z.of_nat i)%Z (Some 7) (Some 11)) as (u & w & d & v & E & _ & _ & _ & _ & P & U & D).
  - reflexivity.
  - reflexivity.
  - intros x X. injection X as <-. reflexivity.
  - intros x X. injection X as <-. reflexivity.
  - specialize (U 7 eq_refl). specialize (D 11 eq_refl). subst u d. exists w, v.
    split; [exact E|]. rewrite P. vm_compute. reflexivity.
Qed.

Example C73_many_hypotheses :
  ot_ok (mkOT 1 2 (fun i => Z.of_nat i) 3 (fun i => Z.of_nat (2 * i)) [] []).
Proof. repeat split; constructor. Qed.

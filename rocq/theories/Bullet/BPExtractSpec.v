(** Special soundness of the aggregated range proof: trees of accepted proofs and the
    extractor.  As in ExtractSpec, the extractor computes on numbers only. *)
From Coq Require Import NArith ZArith List Arith Bool.
From Verif.Crypto Require Import BigIntModel BigIntSpec BigIntProofs.
From Verif.Group Require Import ECModel ECProofs.
From Verif.Bullet Require Import IPModel BPModel BPSpec LagSpec BPProofs ExtractSpec.
Import ListNotations.
Local Open Scope Z_scope.

Section Spec.
Variable G : ECGroup.
Local Notation q := (order G).

(** ** trees of proofs
    One first message A; for every challenge y_i a second message S_i; for every z_ij the
    messages T1_ij, T2_ij; for every x_ijk the challenge e_ijkl; for each of those the numbers
    taux, mu, tx and a tree of inner-product proofs.  (The code hashes x before it derives e,
    but not taux, mu and tx, so these may depend on e.) *)
Record bp_tree (d : nat) := {
  tA : pt G;
  ty : nat -> Z; tS : nat -> pt G;
  tz : nat -> nat -> Z; tT1 : nat -> nat -> pt G; tT2 : nat -> nat -> pt G;
  tch : nat -> nat -> nat -> Z;
  te : nat -> nat -> nat -> nat -> Z;
  ttaux : nat -> nat -> nat -> nat -> Z; tmu : nat -> nat -> nat -> nat -> Z; ttx : nat -> nat -> nat -> nat -> Z;
  tip : nat -> nat -> nat -> nat -> ip_tree G d }.
Arguments tA {d}. Arguments ty {d}. Arguments tS {d}. Arguments tz {d}. Arguments tT1 {d}. Arguments tT2 {d}.
Arguments tch {d}. Arguments te {d}. Arguments ttaux {d}. Arguments tmu {d}. Arguments ttx {d}. Arguments tip {d}.

(** the proof along one branch *)
Definition bp_branch {d} (t : bp_tree d) (i j k l : nat) (w : list nat) : BPProof G :=
  {| bpA := tA t; bpS := tS t i; bpT1 := tT1 t i j; bpT2 := tT2 t i j;
     bptaux := ttaux t i j k l; bpmu := tmu t i j k l; bptx := ttx t i j k l;
     bpip := fst (branch G d (tip t i j k l) w) |}.

(** the challenge e of a proof, drawn after x *)
Definition e_of (H : list N -> Z) (tr : list N) (p : BPProof G) : Z :=
  H (tr ++ ToByteString G (bpA G p) ++ ToByteString G (bpS G p) ++ ToByteString G (bpT1 G p) ++ ToByteString G (bpT2 G p)
        ++ BigInt_ToByteString (x_of G H tr p)).

(** every branch is accepted, for some hash function that gives its challenges: R*n
    challenges y, n+2 challenges z, three x, two e *)
Definition bp_accepted (pp : BPPP G) (C : list (pt G)) {d} (t : bp_tree d) : Prop :=
  forall i j k l w, (i < bp_range G pp * length C)%nat -> (j < length C + 2)%nat -> (k < 3)%nat -> (l < 2)%nat -> is_branch d w ->
  exists (H : list N -> Z) (tr tr' : list N),
    let p := bp_branch t i j k l w in
    y_of G H tr p = ty t i /\ z_of G H tr p = tz t i j /\ x_of G H tr p = tch t i j k /\ e_of H tr p = te t i j k l /\
    ip_challenges_of G H tr p = snd (branch G d (tip t i j k l) w) /\
    BP_Verify G H pp C tr p = Some (true, tr').

(** the challenges of one kind below the same messages are different, those that are
    inverted are units *)
Definition bp_good (pp : BPPP G) (C : list (pt G)) {d} (t : bp_tree d) : Prop :=
  let n := length C in let N := (bp_range G pp * n)%nat in
  distinct q N (ty t) /\
  (forall i, (i < N)%nat -> unit_mod G (ty t i) /\ distinct q (n + 2) (tz t i)) /\
  (forall i j, (i < N)%nat -> (j < n + 2)%nat -> distinct q 3 (tch t i j)) /\
  (forall i j k, (i < N)%nat -> (j < n + 2)%nat -> (k < 3)%nat -> distinct q 2 (te t i j k)) /\
  (forall i j k l, (i < N)%nat -> (j < n + 2)%nat -> (k < 3)%nat -> (l < 2)%nat ->
     unit_mod G (te t i j k l) /\ good_tree G d (tip t i j k l)).

(** ** the extractor *)
(** exponents of vec_g, vec_h, g, h, u as one vector *)
Definition flat (N : nat) (a b : nat -> Z) (cg ch cu : Z) (p : nat) : Z :=
  if (p <? N)%nat then a p else if (p <? 2 * N)%nat then b (p - N)%nat
  else if (p =? 2 * N)%nat then cg else if (p =? 2 * N + 1)%nat then ch else cu.
(** value v at x minus the polynomial through n points *)
Definition miss (n : nat) (y w : nat -> Z) (x v : Z) : Z := v - sum n (fun k => coef q n y w k * x ^ Z.of_nat k).

Section Extract.
Variables (R n d : nat) (t : bp_tree d).
Local Notation N := (R * n)%nat.
Local Notation M := (2 * N + 3)%nat.
Definition none : nat -> Z := fun _ => 0.

Definition ipf (i j k l : nat) : ip_found := ip_extract G d (tip t i j k l).
Definition yinv (i p : nat) : Z := ModInverse (ty t i) q ^ Z.of_nat p.

(** a relation from an inner-product tree, for the original generators *)
Definition rel1 (i j k l : nat) : list Z :=
  let f := ipf i j k l in
  if is_relation f
  then tab M (flat N (el (fst_of f)) (fun p => yinv i p * el (snd_of f) p) 0 0 (te t i j k l * exp_of f))
  else [].

(** exponents of A S^x *)
Definition repAS (i j k l : nat) : nat -> Z :=
  let z := tz t i j in let lv := fst_of (ipf i j k l) in let rv := snd_of (ipf i j k l) in
  flat N (fun p => el lv p + z)
         (fun p => yinv i p * (el rv p - (ty t i ^ Z.of_nat p * z + zblock R z p)))
         0 (tmu t i j k l) (te t i j k l * (sum N (fun p => el lv p * el rv p) - ttx t i j k l)).
(** exponents of A *)
Definition repA (i j p : nat) : Z := coef q 2 (tch t i j) (fun k => repAS i j k 0 p) 0.
Definition rel2 (i j k l : nat) : list Z :=
  tab M (fun p => miss 2 (tch t i j) (fun k => repAS i j k 0 p) (tch t i j k) (repAS i j k l p)).
Definition rel3 (i j k l : nat) : list Z := tab M (fun p => repA i j p - repA 0 0 p).

(** the polynomials in x *)
Definition rel4 (i j k l : nat) : list Z :=
  tab M (flat N none none (miss 3 (tch t i j) (fun k => ttaux t i j k 0) (tch t i j k) (ttaux t i j k l))
                          (miss 3 (tch t i j) (fun k => ttx t i j k 0) (tch t i j k) (ttx t i j k l)) 0).
Definition tau0 (i j : nat) : Z := coef q 3 (tch t i j) (fun k => ttaux t i j k 0%nat) 0.
Definition t0 (i j : nat) : Z := coef q 3 (tch t i j) (fun k => ttx t i j k 0%nat) 0 - delta_val R n (ty t i) (tz t i j).

(** the openings of the commitments *)
Definition rho (c : nat) : Z := coef q (n + 2) (tz t 0) (tau0 0) (c + 2).
Definition val (c : nat) : Z := coef q (n + 2) (tz t 0) (t0 0) (c + 2).
Definition rel5 (i j k l : nat) : list Z :=
  tab M (flat N none none (tau0 i j - sum n (fun c => rho c * tz t i j ^ Z.of_nat (c + 2)))
                          (t0 i j - sum n (fun c => val c * tz t i j ^ Z.of_nat (c + 2))) 0).

Definition all4 (f : nat -> nat -> nat -> nat -> list Z) : list (list Z) :=
  flat_map (fun i => flat_map (fun j => flat_map (fun k => map (f i j k) (seq 0 2)) (seq 0 3)) (seq 0 (n + 2))) (seq 0 N).
Definition bad (l : list (list Z)) : option (list Z) := find (fun v => negb (zeros q v)) l.

Inductive bp_found : Type := BpWitness (r v : list Z) | BpRelation (e : list Z).
Definition bp_extract : bp_found :=
  match bad (all4 rel1) with
  | Some e => BpRelation e
  | None =>
      match bad (all4 rel2 ++ all4 rel3 ++ all4 rel4 ++ all4 rel5) with
      | Some e => BpRelation e
      | None => BpWitness (tab n rho) (tab n (fun c => sum R (fun i => repA 0 0 (c * R + i) mod q * 2 ^ Z.of_nat i)))
      end
  end.
End Extract.

(** the extractor's result is right: openings of all the commitments to values of R bits, or
    a relation between the generators *)
Definition bp_found_ok (pp : BPPP G) (C : list (pt G)) (f : bp_found) : Prop :=
  let N := (bp_range G pp * length C)%nat in
  match f with
  | BpWitness r v => commits G (bp_g G pp) (bp_h G pp) C r v /\ Forall (in_range (bp_range G pp)) v
  | BpRelation e => relation G (firstn N (bp_vg G pp) ++ firstn N (bp_vh G pp) ++ [bp_g G pp; bp_h G pp; bp_u G pp]) e
  end.
End Spec.
Arguments tA G {d}. Arguments ty G {d}. Arguments tS G {d}. Arguments tz G {d}. Arguments tT1 G {d}. Arguments tT2 G {d}.
Arguments tch G {d}. Arguments te G {d}. Arguments ttaux G {d}. Arguments tmu G {d}. Arguments ttx G {d}. Arguments tip G {d}.

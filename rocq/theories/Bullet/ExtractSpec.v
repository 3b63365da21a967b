(** Special soundness of the inner-product argument: what a tree of accepted proofs is, and
    the extractor.  The extractor computes on numbers only (challenges and the last messages
    of the proofs); it returns either a witness or exponents of a relation between the
    generators.  Since every list of points has representations in a cyclic group, a theorem
    that only said "a witness exists" would say nothing. *)
From Coq Require Import NArith ZArith List Arith Bool.
From Verif.Crypto Require Import BigIntModel BigIntSpec BigIntProofs.
From Verif.Group Require Import ECModel ECProofs.
From Verif.Bullet Require Import IPModel BPModel BPSpec LagSpec.
Import ListNotations.
Local Open Scope Z_scope.

(** tables *)
Definition tab (n : nat) (f : nat -> Z) : list Z := map f (seq 0 n).
Definition el (v : list Z) (p : nat) : Z := nth p v 0.
(** all entries are 0 modulo q *)
Definition zeros (q : Z) (v : list Z) : bool := forallb (fun c => (c mod q =? 0)%Z) v.

(** how far the value at the fourth point is from the polynomial through the first three *)
Definition misfit (q : Z) (y v : nat -> Z) : Z := v 3%nat - sum 3 (fun k => coef q 3 y v k * y 3%nat ^ Z.of_nat k).

Section Spec.
Variable G : ECGroup.
Local Notation q := (order G).

(** the exponents v, not all 0 modulo the order, give the point at infinity *)
Definition relation (bases : list (pt G)) (v : list Z) : Prop :=
  length v = length bases /\ msum G bases v = inf G /\ zeros q v = false.

(** ** trees of proofs that answer four challenges in every round *)
Record node (T : Type) := { nL : pt G; nR : pt G; nx : nat -> Z; nt : nat -> T }.
Arguments nL {T}. Arguments nR {T}. Arguments nx {T}. Arguments nt {T}.
Fixpoint ip_tree (k : nat) : Type :=
  match k with O => (Z * Z)%type | S k' => node (ip_tree k') end.

(** the proof along the branch w, and its challenges *)
Fixpoint branch (k : nat) : ip_tree k -> list nat -> IPProof G * list Z :=
  match k with
  | O => fun t _ => ({| ipL := []; ipR := []; ipa := fst t; ipb := snd t |}, [])
  | S k' => fun t w =>
      let i := nth 0 w 0%nat in let r := branch k' (nt t i) (skipn 1 w) in
      ({| ipL := nL t :: ipL G (fst r); ipR := nR t :: ipR G (fst r); ipa := ipa G (fst r); ipb := ipb G (fst r) |},
       nx t i :: snd r)
  end.
Definition is_branch (k : nat) (w : list nat) : Prop := length w = k /\ Forall (fun i => (i < 4)%nat) w.

(** at every node the four challenges are units and their squares differ *)
Fixpoint good_tree (k : nat) : ip_tree k -> Prop :=
  match k with
  | O => fun _ => True
  | S k' => fun t => (forall i, (i < 4)%nat -> unit_mod G (nx t i)) /\
      distinct q 4 (fun i => nx t i * nx t i) /\ forall i, (i < 4)%nat -> good_tree k' (nt t i)
  end.

(** every branch is accepted, for some hash function that gives its challenges *)
Definition ip_accepted (pp : IPPP G) (P : pt G) (k : nat) (t : ip_tree k) : Prop :=
  forall w, is_branch k w -> exists (H : list N -> Z) (tr tr' : list N),
    fst (IP_challenges G H tr (ipL G (fst (branch k t w))) (ipR G (fst (branch k t w)))) = snd (branch k t w) /\
    IP_Verify G H pp P tr (fst (branch k t w)) = Some (true, tr').

(** ** the extractor *)
Inductive ip_found : Type := IpWitness (a b : list Z) | IpRelation (a b : list Z) (c : Z).
Definition is_relation (f : ip_found) : bool := match f with IpRelation _ _ _ => true | _ => false end.
Definition fst_of (f : ip_found) : list Z := match f with IpWitness a _ => a | IpRelation a _ _ => a end.
Definition snd_of (f : ip_found) : list Z := match f with IpWitness _ b => b | IpRelation _ b _ => b end.
Definition exp_of (f : ip_found) : Z := match f with IpWitness _ _ => 0 | IpRelation _ _ c => c end.

(** Exponents of the generators g, h of length 2n from those of the folded generators
    g' = g_left^(1/x) g_right^x, h' = h_left^x h_right^(1/x), all multiplied by s x. *)
Definition unfold_g (n : nat) (s x : Z) (a : list Z) (p : nat) : Z :=
  if (p <? n)%nat then s * el a p else s * (x * x) * el a (p - n).
Definition unfold_h (n : nat) (s x : Z) (b : list Z) (p : nat) : Z :=
  if (p <? n)%nat then s * (x * x) * el b p else s * el b (p - n).

(** one round: x the four challenges, ch what was extracted below them *)
Definition extract_node (n : nat) (x : nat -> Z) (ch : nat -> ip_found) : ip_found :=
  match find (fun i => is_relation (ch i)) (seq 0 4) with
  | Some i =>
      IpRelation (tab (2 * n) (unfold_g n 1 (x i) (fst_of (ch i))))
                 (tab (2 * n) (unfold_h n 1 (x i) (snd_of (ch i)))) (x i * exp_of (ch i))
  | None =>
      let y := fun i => x i * x i in
      let A := fun p i => unfold_g n (x i) (x i) (fst_of (ch i)) p in
      let B := fun p i => unfold_h n (x i) (x i) (snd_of (ch i)) p in
      let C := fun i => y i * dot (fst_of (ch i)) (snd_of (ch i)) in
      let dA := tab (2 * n) (fun p => misfit q y (A p)) in
      let dB := tab (2 * n) (fun p => misfit q y (B p)) in
      if zeros q (dA ++ dB ++ [misfit q y C])
      then IpWitness (tab (2 * n) (fun p => coef q 3 y (A p) 1)) (tab (2 * n) (fun p => coef q 3 y (B p) 1))
      else IpRelation dA dB (misfit q y C)
  end.
Fixpoint ip_extract (k : nat) : ip_tree k -> ip_found :=
  match k with
  | O => fun t => IpWitness [fst t] [snd t]
  | S k' => fun t => extract_node (2 ^ k') (nx t) (fun i => ip_extract k' (nt t i))
  end.

(** the extractor's result is right *)
Definition ip_found_ok (g h : list (pt G)) (u P : pt G) (f : ip_found) : Prop :=
  match f with
  | IpWitness a b => length a = length g /\ length b = length h /\ ip_statement G g h u P a b
  | IpRelation a b c => relation (g ++ h ++ [u]) (a ++ b ++ [c])
  end.
End Spec.
Arguments nL G {T}. Arguments nR G {T}. Arguments nx G {T}. Arguments nt G {T}.

(** Model of the aggregated logarithmic range proof (/repo zkp/bulletproofs/bullet_proof.hpp).
    [H] is Hash::StringToBigInt; random draws are arguments. *)
From Coq Require Import NArith ZArith List Lia Bool Arith.
From Verif.Base Require Import Words ListX.
From Verif.Crypto Require Import BigIntModel.
From Verif.Group Require Import ECModel.
From Verif.Bullet Require Import IPModel.
Import ListNotations.
Local Open Scope Z_scope.

(** /repo zkp/bulletproofs/bullet_proof.hpp:151-162: the bits of all the values *)
Definition bits_of (R n : nat) (v : list Z) : list Z :=
  flat_map (fun i => map (fun j => if (GetTheNthBit (nth i v 0%Z) (N.of_nat j) =? 1)%N then 1 else 0) (seq 0 R)) (seq 0 n).

(** /repo zkp/bulletproofs/bullet_proof.hpp:208-213: vec_adjust_z_power[0..n] *)
Fixpoint adjust_loop (n : nat) (prev z q : Z) : list Z :=
  match n with
  | O => []
  | S n' => let v := BigInt_Mod (z * prev) q in v :: adjust_loop n' v z q
  end.
Definition adjust_z (n : nat) (z q : Z) : list Z := z :: adjust_loop n z z q.

(** /repo zkp/bulletproofs/bullet_proof.hpp:233-243: the vector written for one j: 2^i in
    block j-1, zero elsewhere *)
Definition two_block (R n j : nat) (two : list Z) : list Z :=
  repeat 0 ((j - 1) * R) ++ two ++ repeat 0 ((n - j) * R).
(** :231-245 the loop over j that adds z^{j+1} 2^n into poly_rr0 *)
Fixpoint rr0_loop (js : list nat) (R n : nat) (two zp rr0 : list Z) (q : Z) : option (list Z) :=
  match js with
  | [] => Some rr0
  | j :: js' =>
      do rr <- BigIntVectorModAdd rr0 (BigIntVectorModScalar (two_block R n j two) (nth j zp 0) q) q;
      rr0_loop js' R n two zp rr q
  end.

(** /repo zkp/bulletproofs/bullet_proof.hpp:443-451 (and 636-641): the loop over j that
    adds z^{j+1} 2^i into block j-1 of vec_rr *)
Definition rr_inner (R j : nat) (temp : list Z) (q : Z) (rr : list Z) : list Z :=
  fold_left (fun rr i => upd rr ((j - 1) * R + i) (BigInt_Mod (nth ((j - 1) * R + i) rr 0 + nth i temp 0) q)) (seq 0 R) rr.
Definition rr_loop (R n : nat) (two zp rr : list Z) (q : Z) : list Z :=
  fold_left (fun rr j => rr_inner R j (BigIntVectorModScalar two (nth j zp 0) q) q rr) (seq 1 n) rr.

Section BP.
Variable G : ECGroup.
Variable H : list N -> Z.
Local Notation q := (order G).
Local Infix "+p" := (padd G) (at level 50, left associativity).
Local Notation "P *p k" := (pmul G P k%Z) (at level 40, left associativity).

(** /repo zkp/bulletproofs/bullet_proof.hpp:15-23 *)
Record BPPP := { bp_range : nat; bp_g : pt G; bp_h : pt G; bp_u : pt G; bp_vg : list (pt G); bp_vh : list (pt G) }.
(** /repo zkp/bulletproofs/bullet_proof.hpp:60-65 *)
Record BPProof := { bpA : pt G; bpS : pt G; bpT1 : pt G; bpT2 : pt G; bptaux : Z; bpmu : Z; bptx : Z; bpip : IPProof G }.
(** the draws of Prove, in order: alpha (:172), vec_sL, vec_sR (:187-188), rho (:191),
    tau1, tau2 (:258-259) *)
Record BPRand := { rd_alpha : Z; rd_sL : list Z; rd_sR : list Z; rd_rho : Z; rd_tau1 : Z; rd_tau2 : Z }.

(** The inner-product parameters both sides use: vec_g, vec_h scaled by powers of y^{-1},
    and u^e.  /repo zkp/bulletproofs/bullet_proof.hpp:290-305, 416-432; Setup (:290, :416)
    exits unless LEN is a power of two *)
Definition bp_ip (pp : BPPP) (LEN : nat) (yi e : Z) : option (IPPP G) :=
  if is_pow2 LEN then
    do yip <- GenBigIntPowerVector LEN yi q;
    do h' <- ECPointVectorProduct G (firstn LEN (bp_vh pp)) yip;
    Some {| ip_len := LEN; ip_g := firstn LEN (bp_vg pp); ip_h := h'; ip_u := bp_u pp *p e |}
  else None.

(** /repo zkp/bulletproofs/bullet_proof.hpp:139-331; None also if the statement, the
    witness or the generator vectors are too short *)
Definition BP_Prove (pp : BPPP) (C : list (pt G)) (r v : list Z) (tr : list N) (rn : BPRand)
  : option (BPProof * list N) :=
  let n := length C in
  let LEN := (bp_range pp * n)%nat in
  if ((LEN <=? length (bp_vg pp)) && (LEN <=? length (bp_vh pp)) && (n <=? length r) && (n <=? length v))%nat then
    let aL := bits_of (bp_range pp) n v in
    do aR <- BigIntVectorModSub aL (repeat 1 LEN) q;
    let bases := firstn LEN (bp_vg pp) ++ firstn LEN (bp_vh pp) ++ [bp_h pp] in
    do A <- ECPointVectorMul G bases (aL ++ aR ++ [rd_alpha rn]);
    do S <- ECPointVectorMul G bases (rd_sL rn ++ rd_sR rn ++ [rd_rho rn]);
    let tr := tr ++ ToByteString G A in
    let y := H tr in
    let yi := ModInverse y q in
    let tr := tr ++ ToByteString G S in
    let z := H tr in
    let zp := adjust_z n z q in
    do ll0 <- BigIntVectorModSub aL (repeat z LEN) q;
    let ll1 := rd_sL rn in
    do yp <- GenBigIntPowerVector LEN y q;
    do zz <- BigIntVectorModAdd (repeat z LEN) aR q;
    do rr0' <- BigIntVectorModProduct yp zz q;
    do two <- GenBigIntPowerVector (bp_range pp) 2 q;
    do rr0 <- rr0_loop (seq 1 n) (bp_range pp) n two zp rr0' q;
    do rr1 <- BigIntVectorModProduct yp (rd_sR rn) q;
    do t1a <- BigIntVectorModInnerProduct ll1 rr0 q;
    do t1b <- BigIntVectorModInnerProduct ll0 rr1 q;
    let t1 := BigInt_Mod (t1a + t1b) q in
    do t2 <- BigIntVectorModInnerProduct ll1 rr1 q;
    let T1 := msum G [bp_g pp; bp_h pp] [rd_tau1 rn; t1] in
    let T2 := msum G [bp_g pp; bp_h pp] [rd_tau2 rn; t2] in
    let tr := tr ++ ToByteString G T1 ++ ToByteString G T2 in
    let x := H tr in
    do llx <- BigIntVectorModAdd ll0 (BigIntVectorModScalar ll1 x q) q;
    do rrx <- BigIntVectorModAdd rr0 (BigIntVectorModScalar rr1 x q) q;
    do tx <- BigIntVectorModInnerProduct llx rrx q;
    let taux := fold_left (fun t j => BigInt_Mod (t + nth j zp 0 * nth (j - 1) r 0) q) (seq 1 n)
                  (BigInt_Mod (rd_tau1 rn * x + rd_tau2 rn * ModSquare x q) q) in
    let mu := BigInt_Mod (rd_alpha rn + rd_rho rn * x) q in
    let tr := tr ++ BigInt_ToByteString x in
    let e := H tr in
    do ip <- bp_ip pp LEN yi e;
    do P <- ECPointVectorMul G (ip_g G ip ++ ip_h G ip ++ [ip_u G ip]) (llx ++ rrx ++ [tx]);
    do ipr <- IP_Prove G H ip P llx rrx tr;
    Some ({| bpA := A; bpS := S; bpT1 := T1; bpT2 := T2; bptaux := taux; bpmu := mu; bptx := tx; bpip := fst ipr |}, snd ipr)
  else None.

(** /repo zkp/bulletproofs/bullet_proof.hpp:369-387 (and 528-546): sum_z and delta_yz *)
Definition delta_yz (R n : nat) (y z : Z) : option Z :=
  let LEN := (R * n)%nat in
  let zp := adjust_z n z q in
  let sum_z := BigInt_Mod (fold_left (fun s j => s + nth j zp 0) (seq 1 n) 0 * z) q in
  do yp <- GenBigIntPowerVector LEN y q;
  do two <- GenBigIntPowerVector R 2 q;
  do b1 <- BigIntVectorModInnerProduct (repeat 1 LEN) yp q;
  do b2 <- BigIntVectorModInnerProduct (repeat 1 R) two q;
  Some (ModSub (ModSub z (ModSquare z q) q * b1) (sum_z * b2) q).

(** /repo zkp/bulletproofs/bullet_proof.hpp:442-451: vec_rr *)
Definition bp_rr (R n : nat) (y z : Z) : option (list Z) :=
  do yp <- GenBigIntPowerVector (R * n) y q;
  do two <- GenBigIntPowerVector (R * n) 2 q;
  Some (rr_loop R n two (adjust_z n z q) (BigIntVectorModScalar yp z q) q).

(** /repo zkp/bulletproofs/bullet_proof.hpp:333-486 *)
Definition BP_Verify (pp : BPPP) (C : list (pt G)) (tr : list N) (p : BPProof) : option (bool * list N) :=
  let n := length C in
  let LEN := (bp_range pp * n)%nat in
  if ((LEN <=? length (bp_vg pp)) && (LEN <=? length (bp_vh pp)))%nat then
    let tr := tr ++ ToByteString G (bpA p) in
    let y := H tr in
    let yi := ModInverse y q in
    let tr := tr ++ ToByteString G (bpS p) in
    let z := H tr in
    let tr := tr ++ ToByteString G (bpT1 p) ++ ToByteString G (bpT2 p) in
    let x := H tr in
    let tr := tr ++ BigInt_ToByteString x in
    let e := H tr in
    do delta <- delta_yz (bp_range pp) n y z;
    let LEFT := bp_g pp *p bptaux p +p bp_h pp *p bptx p in
    do RIGHT <- ECPointVectorMul G (C ++ [bp_h pp; bpT1 p; bpT2 p])
                  (skipn 1 (adjust_z n z q) ++ [delta; x; ModSquare x q]);
    let V1 := peqb G LEFT RIGHT in
    do ip <- bp_ip pp LEN yi e;
    do rr <- bp_rr (bp_range pp) n y z;
    do P <- ECPointVectorMul G (ip_g G ip ++ ip_h G ip ++ [bpA p; bpS p; bp_h pp; ip_u G ip])
              (repeat (ModNegate z q) LEN ++ rr ++ [1; x; - bpmu p; bptx p]);
    do V2 <- IP_FastVerify G H ip P tr (bpip p);
    Some (V1 && fst V2, snd V2)
  else None.

(** /repo zkp/bulletproofs/bullet_proof.hpp:489-680; [c] is the random combiner of :577 *)
Definition BP_FastVerify (pp : BPPP) (C : list (pt G)) (tr : list N) (p : BPProof) (c : Z) : option (bool * list N) :=
  let n := length C in
  let LEN := (bp_range pp * n)%nat in
  let LOG := Nat.log2 LEN in
  if ((LEN <=? length (bp_vg pp)) && (LEN <=? length (bp_vh pp)))%nat && is_pow2 LEN &&
     ((length (ipL G (bpip p)) =? LOG)%nat && (length (ipR G (bpip p)) =? LOG)%nat) then
    let tr := tr ++ ToByteString G (bpA p) in
    let y := H tr in
    let yi := ModInverse y q in
    let tr := tr ++ ToByteString G (bpS p) in
    let z := H tr in
    let tr := tr ++ ToByteString G (bpT1 p) ++ ToByteString G (bpT2 p) in
    let x := H tr in
    let tr := tr ++ BigInt_ToByteString x in
    let e := H tr in
    do delta <- delta_yz (bp_range pp) n y z;
    let first := map (fun a => a * c) (skipn 1 (adjust_z n z q) ++ [x; ModSquare x q; - bptaux p; delta - bptx p]) in
    do yip <- GenBigIntPowerVector LEN yi q;
    do h' <- ECPointVectorProduct G (firstn LEN (bp_vh pp)) yip;
    let xs := fst (IP_challenges G H tr (ipL G (bpip p)) (ipR G (bpip p))) in
    let tr := snd (IP_challenges G H tr (ipL G (bpip p)) (ipR G (bpip p))) in
    let xi := map (fun c => ModInverse c q) xs in
    let xsq := map (fun c => ModSquare c q) xs in
    let xisq := map (fun c => ModSquare c q) xi in
    let s0 := FastComputeVectorSS xsq xi q in
    let s := BigIntVectorScalar s0 (ipa G (bpip p)) in
    let si := BigIntVectorScalar (BigIntVectorModInverse s0 q) (ipb G (bpip p)) in
    do rr <- bp_rr (bp_range pp) n y z;
    do Result <- ECPointVectorMul G
      (C ++ [bpT1 p; bpT2 p; bp_g pp; bp_h pp] ++ firstn LEN (bp_vg pp) ++ h' ++
       [bpA p; bpS p; bp_h pp; bp_u pp *p e] ++ ipL G (bpip p) ++ ipR G (bpip p))
      (first ++ map2 Z.add s (repeat z LEN) ++ map2 Z.sub si rr ++
       [- 1; - x; bpmu p; ipa G (bpip p) * ipb G (bpip p) - bptx p] ++ map Z.opp xsq ++ map Z.opp xisq);
    Some (peqb G Result (inf G), tr)
  else None.
End BP.

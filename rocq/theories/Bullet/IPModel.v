(** Model of the inner-product argument (/repo zkp/bulletproofs/innerproduct_proof.hpp).
    [H] is Hash::StringToBigInt.  None is an exit(EXIT_FAILURE) or an access outside a
    vector.  ECPoint and BigInt declare only copy assignment, so the std::move loops of the
    verifiers copy.  The Proof object given to Prove is taken to be empty (Prove appends to
    its vectors). *)
From Coq Require Import NArith ZArith List Lia Bool Arith.
From Verif.Base Require Import Words ListX.
From Verif.Utility Require Import BitOpModel.
From Verif.Crypto Require Import BigIntModel.
From Verif.Group Require Import ECModel.
Import ListNotations.
Local Open Scope Z_scope.

Definition obind {A B : Type} (o : option A) (k : A -> option B) : option B :=
  match o with Some a => k a | None => None end.
Notation "'do' x <- e ; k" := (obind e (fun x => k)) (at level 200, x name, e at level 100, k at level 200).

(** IsPowerOfTwo(VECTOR_LEN) *)
Definition is_pow2 (n : nat) : bool := IsPowerOfTwo (N.of_nat n).

(** /repo zkp/bulletproofs/innerproduct_proof.hpp:119-128 and 131-140 *)
Definition left_half {A : Type} (v : list A) : list A := firstn (length v / 2) v.
Definition right_half {A : Type} (v : list A) : list A := firstn (length v / 2) (skipn (length v / 2) v).

(** /repo zkp/bulletproofs/innerproduct_proof.hpp:110-115; the shift of the int 1 is exact
    for LEN <= 31 *)
Definition GetTheNthBitofInt (i j LEN : nat) : bool := Nat.testbit i (LEN - j - 1).

(** /repo zkp/bulletproofs/innerproduct_proof.hpp:155-163: the inner loop of
    ComputeVectorSS *)
Fixpoint SS_loop (i j m : nat) (x xi : list Z) (s q : Z) : Z :=
  match x, xi with
  | a :: x', b :: xi' =>
      SS_loop i (S j) m x' xi' (BigInt_Mod (s * (if GetTheNthBitofInt i j m then a else b)) q) q
  | _, _ => s
  end.
(** /repo zkp/bulletproofs/innerproduct_proof.hpp:143-165 *)
Definition ComputeVectorSS (n : nat) (x xi : list Z) (q : Z) : list Z :=
  map (fun i => SS_loop i 0 (length x) x xi 1 q) (seq 0 n).

(** /repo zkp/bulletproofs/innerproduct_proof.hpp:445-448: one step of the loop over i; the
    list holds vec_s[0..i-1] *)
Definition FastSS_step (m : nat) (xsq : list Z) (q : Z) (s : list Z) (i : nat) : list Z :=
  let k := Nat.log2 i in
  s ++ [BigInt_Mod (nth (i - 2 ^ k) s 0 * nth (m - 1 - k) xsq 0) q].
(** /repo zkp/bulletproofs/innerproduct_proof.hpp:416-451 *)
Definition FastComputeVectorSS (xsq xi : list Z) (q : Z) : list Z :=
  let m := length xi in
  fold_left (FastSS_step m xsq q) (seq 1 (2 ^ m - 1)) [BigInt_Mod (fold_left Z.mul xi 1) q].

Section IP.
Variable G : ECGroup.
Variable H : list N -> Z.
Local Notation q := (order G).
Local Infix "+p" := (padd G) (at level 50, left associativity).
Local Notation "P *p k" := (pmul G P k%Z) (at level 40, left associativity).

(** /repo zkp/bulletproofs/innerproduct_proof.hpp:17-26 (LOG_VECTOR_LEN is log2 of
    VECTOR_LEN, :179) *)
Record IPPP := { ip_len : nat; ip_g : list (pt G); ip_h : list (pt G); ip_u : pt G }.
(** /repo zkp/bulletproofs/innerproduct_proof.hpp:41-48 *)
Record IPProof := { ipL : list (pt G); ipR : list (pt G); ipa : Z; ipb : Z }.

(** /repo zkp/bulletproofs/innerproduct_proof.hpp:206-328: the body of Prove, after the
    checks, by recursion on LOG_VECTOR_LEN *)
Fixpoint IP_rounds (k : nat) (g h : list (pt G)) (u P : pt G) (a b : list Z) (tr : list N)
  : option (IPProof * list N) :=
  match k with
  | O => Some ({| ipL := []; ipR := []; ipa := nth 0 a 0; ipb := nth 0 b 0 |}, tr)
  | S k' =>
      let aL := left_half a in let aR := right_half a in
      let bL := left_half b in let bR := right_half b in
      let gL := left_half g in let gR := right_half g in
      let hL := left_half h in let hR := right_half h in
      do cL <- BigIntVectorModInnerProduct aL bR q;
      do cR <- BigIntVectorModInnerProduct aR bL q;
      do L <- ECPointVectorMul G (gR ++ hL ++ [u]) (aL ++ bR ++ [cL]);
      do R <- ECPointVectorMul G (gL ++ hR ++ [u]) (aR ++ bL ++ [cR]);
      let tr := tr ++ ToByteString G L ++ ToByteString G R in
      let x := H tr in
      let xi := ModInverse x q in
      do g' <- ECPointVectorAdd G (ECPointVectorScalar G gL xi) (ECPointVectorScalar G gR x);
      do h' <- ECPointVectorAdd G (ECPointVectorScalar G hL x) (ECPointVectorScalar G hR xi);
      do P' <- ECPointVectorMul G [L; P; R] [ModSquare x q; 1; ModSquare xi q];
      do a' <- BigIntVectorModAdd (BigIntVectorModScalar aL x q) (BigIntVectorModScalar aR xi q) q;
      do b' <- BigIntVectorModAdd (BigIntVectorModScalar bL xi q) (BigIntVectorModScalar bR x q) q;
      do r <- IP_rounds k' g' h' u P' a' b' tr;
      Some ({| ipL := L :: ipL (fst r); ipR := R :: ipR (fst r); ipa := ipa (fst r); ipb := ipb (fst r) |}, snd r)
  end.

(** /repo zkp/bulletproofs/innerproduct_proof.hpp:193-328 *)
Definition IP_Prove (pp : IPPP) (P : pt G) (a b : list Z) (tr : list N) : option (IPProof * list N) :=
  let n := ip_len pp in
  if same_size (ip_g pp) (ip_h pp) && is_pow2 n &&
     ((length a =? n)%nat && (length b =? n)%nat && (length (ip_g pp) =? n)%nat)
  then IP_rounds (Nat.log2 n) (ip_g pp) (ip_h pp) (ip_u pp) P a b tr
  else None.

(** /repo zkp/bulletproofs/innerproduct_proof.hpp:348-351: the challenges, and the
    transcript after them *)
Fixpoint IP_challenges (tr : list N) (L R : list (pt G)) : list Z * list N :=
  match L, R with
  | l :: L', r :: R' =>
      let tr := tr ++ ToByteString G l ++ ToByteString G r in
      (H tr :: fst (IP_challenges tr L' R'), snd (IP_challenges tr L' R'))
  | _, _ => ([], tr)
  end.

(** sizes for which the copies of the two verifiers stay in bounds; shorter or longer
    vec_L, vec_R are accesses outside a vector or overwrite each other: None *)
Definition ip_sizes (pp : IPPP) (p : IPProof) : bool :=
  (length (ip_g pp) =? ip_len pp)%nat && (length (ip_h pp) =? ip_len pp)%nat &&
  (length (ipL p) =? Nat.log2 (ip_len pp))%nat && (length (ipR p) =? Nat.log2 (ip_len pp))%nat.

(** /repo zkp/bulletproofs/innerproduct_proof.hpp:331-411 *)
Definition IP_Verify (pp : IPPP) (P : pt G) (tr : list N) (p : IPProof) : option (bool * list N) :=
  if is_pow2 (ip_len pp) && ip_sizes pp p then
    let x := fst (IP_challenges tr (ipL p) (ipR p)) in
    let tr := snd (IP_challenges tr (ipL p) (ipR p)) in
    let xi := map (fun c => ModInverse c q) x in
    let xsq := map (fun c => ModSquare c q) x in
    let xisq := map (fun c => ModSquare c q) xi in
    let s := ComputeVectorSS (ip_len pp) x xi q in
    let si := BigIntVectorModInverse s q in
    do LEFT <- ECPointVectorMul G (ip_g pp ++ ip_h pp ++ [ip_u pp])
                 (BigIntVectorScalar s (ipa p) ++ BigIntVectorScalar si (ipb p) ++ [ipa p * ipb p]);
    do RIGHT <- ECPointVectorMul G (ipL p ++ ipR p ++ [P]) (xsq ++ xisq ++ [1]);
    Some (peqb G LEFT RIGHT, tr)
  else None.

(** /repo zkp/bulletproofs/innerproduct_proof.hpp:455-528 *)
Definition IP_FastVerify (pp : IPPP) (P : pt G) (tr : list N) (p : IPProof) : option (bool * list N) :=
  if is_pow2 (ip_len pp) && ip_sizes pp p then
    let x := fst (IP_challenges tr (ipL p) (ipR p)) in
    let tr := snd (IP_challenges tr (ipL p) (ipR p)) in
    let xi := map (fun c => ModInverse c q) x in
    let xsq := map (fun c => ModSquare c q) x in
    let xisq := map (fun c => ModSquare c q) xi in
    let s := FastComputeVectorSS xsq xi q in
    let si := BigIntVectorModInverse s q in
    do LEFT <- ECPointVectorMul G (ip_g pp ++ ip_h pp ++ ipL p ++ ipR p ++ [ip_u pp])
                 (BigIntVectorScalar s (ipa p) ++ BigIntVectorScalar si (ipb p) ++
                  map Z.opp xsq ++ map Z.opp xisq ++ [ipa p * ipb p]);
    Some (peqb G LEFT P, tr)
  else None.
End IP.

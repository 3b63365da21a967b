(** Model of signature/schnorr.hpp, commitment/pedersen.hpp and the sigma protocols
    of zkp/nizk made non-interactive with a hash.  Random draws are explicit
    arguments.  [H] is Hash::StringToBigInt (crypto/hash.hpp:91-100), an arbitrary
    function from byte strings to integers.  The transcript string the prover and
    the verifier append to is passed in and out. *)
From Coq Require Import NArith ZArith List Lia Bool Arith.
From Verif.Base Require Import Words ListX.
From Verif.Utility Require Import SerialModel.
From Verif.Crypto Require Import BigIntModel.
From Verif.Group Require Import ECModel.
From Verif.PKE Require Import ElGamalModel.
Import ListNotations.
Local Open Scope Z_scope.

Section Sigma.
Variable G : ECGroup.
Variable H : list N -> Z.
Local Infix "+p" := (padd G) (at level 50, left associativity).
Local Notation "P *p k" := (pmul G P k%Z) (at level 40, left associativity).
Local Notation bytes := (ToByteString G).

(** ** Schnorr signatures *)
(** /repo signature/schnorr.hpp:17-21 *)
Record SIG : Type := { sigA : pt G; sigz : Z }.
(** /repo signature/schnorr.hpp:75-87 *)
Definition Schnorr_KeyGen (g : pt G) (sk : Z) : pt G * Z := (g *p sk, sk).
(** /repo signature/schnorr.hpp:91-107; [r] is the random draw *)
Definition Schnorr_Sign (g : pt G) (sk : Z) (message : list N) (r : Z) : SIG :=
  let A := g *p r in
  let e := H (bytes A ++ message) in
  {| sigA := A; sigz := modq G (r + sk * e) |}.
(** /repo signature/schnorr.hpp:111-131 *)
Definition Schnorr_Verify (g pk : pt G) (message : list N) (s : SIG) : bool :=
  let e := H (bytes (sigA s) ++ message) in
  peqb G (g *p sigz s) (pk *p e +p sigA s).

(** ** Pedersen commitments *)
(** /repo commitment/pedersen.hpp:30-39; vec_h has N_max elements (Setup, 16-27).
    None: the iterators of subvec_h run past the end (the size check only prints). *)
Definition Commit (g : pt G) (vec_h : list (pt G)) (m : list Z) (r : Z) : option (pt G) :=
  if (length m <=? length vec_h)%nat
  then match ECPointVectorMul G (firstn (length m) vec_h) m with
       | Some P => Some (g *p r +p P)
       | None => None
       end
  else None.

(** ** knowledge of a discrete logarithm *)
(** /repo zkp/nizk/nizk_dlog_knowledge.hpp:32-36 *)
Record DLKProof : Type := { dlkA : pt G; dlkz : Z }.
(** /repo zkp/nizk/nizk_dlog_knowledge.hpp:88-111 *)
Definition DLK_Prove (g h : pt G) (w : Z) (tr : list N) (a : Z) : DLKProof * list N :=
  let tr1 := tr ++ bytes g ++ bytes h in
  let A := g *p a in
  let tr2 := tr1 ++ bytes A in
  let e := H tr2 in
  ({| dlkA := A; dlkz := modq G (a + e * w) |}, tr2).
(** /repo zkp/nizk/nizk_dlog_knowledge.hpp:117-145 *)
Definition DLK_Verify (g h : pt G) (tr : list N) (p : DLKProof) : bool * list N :=
  let tr1 := tr ++ bytes g ++ bytes h in
  let tr2 := tr1 ++ bytes (dlkA p) in
  let e := H tr2 in
  (peqb G (g *p dlkz p) (dlkA p +p h *p e), tr2).
(** /repo zkp/nizk/nizk_dlog_knowledge.hpp:71-75 *)
Definition DLK_ProofToByteString (p : DLKProof) : list N := bytes (dlkA p) ++ BigInt_ToByteString (dlkz p).

(** ** equality of discrete logarithms *)
(** /repo zkp/nizk/nizk_dlog_equality.hpp:32-36 *)
Record DLEProof : Type := { dleA1 : pt G; dleA2 : pt G; dlez : Z }.
(** /repo zkp/nizk/nizk_dlog_equality.hpp:94-96, 124-127 *)
Definition DLE_instance (g1 h1 g2 h2 : pt G) : list N := bytes g1 ++ bytes g2 ++ bytes h1 ++ bytes h2.
(** /repo zkp/nizk/nizk_dlog_equality.hpp:92-117 *)
Definition DLE_Prove (g1 h1 g2 h2 : pt G) (w : Z) (tr : list N) (a : Z) : DLEProof * list N :=
  let tr1 := tr ++ DLE_instance g1 h1 g2 h2 in
  let A1 := g1 *p a in
  let A2 := g2 *p a in
  let tr2 := tr1 ++ bytes A1 ++ bytes A2 in
  let e := H tr2 in
  ({| dleA1 := A1; dleA2 := A2; dlez := modq G (a + e * w) |}, tr2).
(** /repo zkp/nizk/nizk_dlog_equality.hpp:123-163 *)
Definition DLE_Verify (g1 h1 g2 h2 : pt G) (tr : list N) (p : DLEProof) : bool * list N :=
  let tr1 := tr ++ DLE_instance g1 h1 g2 h2 in
  let tr2 := tr1 ++ bytes (dleA1 p) ++ bytes (dleA2 p) in
  let e := H tr2 in
  let condition1 := peqb G (g1 *p dlez p) (dleA1 p +p h1 *p e) in
  let condition2 := peqb G (g2 *p dlez p) (dleA2 p +p h2 *p e) in
  (condition1 && condition2, tr2).
(** /repo zkp/nizk/nizk_dlog_equality.hpp:75-79 *)
Definition DLE_ProofToByteString (p : DLEProof) : list N :=
  bytes (dleA1 p) ++ bytes (dleA2 p) ++ BigInt_ToByteString (dlez p).

(** ** knowledge of the plaintext of a twisted ElGamal ciphertext *)
(** /repo zkp/nizk/nizk_plaintext_knowledge.hpp:38-42 *)
Record PKProof : Type := { pkA : pt G; pkB : pt G; pkz1 : Z; pkz2 : Z }.
(** /repo zkp/nizk/nizk_plaintext_knowledge.hpp:108-139; g, h are the public
    parameters, (v, r) the witness, (a, b) the random draws *)
Definition PK_Prove (g h pk : pt G) (ct : TCT G) (v r : Z) (tr : list N) (a b : Z) : PKProof * list N :=
  let tr1 := tr ++ bytes pk ++ bytes (tX G ct) ++ bytes (tY G ct) in
  let A := pk *p a in
  let B := msum G [g; h] [a; b] in
  let tr2 := tr1 ++ bytes A ++ bytes B in
  let e := H tr2 in
  ({| pkA := A; pkB := B; pkz1 := modq G (a + e * r); pkz2 := modq G (b + e * v) |}, tr2).
(** /repo zkp/nizk/nizk_plaintext_knowledge.hpp:143-188 *)
Definition PK_Verify (g h pk : pt G) (ct : TCT G) (tr : list N) (p : PKProof) : bool * list N :=
  let tr1 := tr ++ bytes pk ++ bytes (tX G ct) ++ bytes (tY G ct) in
  let tr2 := tr1 ++ bytes (pkA p) ++ bytes (pkB p) in
  let e := H tr2 in
  let c0 := peqb G (pk *p pkz1 p) (pkA p +p tX G ct *p e) in
  let c1 := peqb G (msum G [g; h] [pkz1 p; pkz2 p]) (pkB p +p tY G ct *p e) in
  (c0 && c1, tr2).
(** /repo zkp/nizk/nizk_plaintext_knowledge.hpp:83-87 *)
Definition PK_ProofToByteString (p : PKProof) : list N :=
  bytes (pkA p) ++ bytes (pkB p) ++ BigInt_ToByteString (pkz1 p) ++ BigInt_ToByteString (pkz2 p).

(** ** equality of the plaintext for all recipients *)
(** /repo zkp/nizk/nizk_plaintext_equality.hpp:40-45 *)
Record PTEProof : Type := { pteA : list (pt G); pteB : pt G; ptez : Z; ptet : Z }.
Definition cat_points (v : list (pt G)) : list N := concat (map bytes v).
(** /repo zkp/nizk/nizk_plaintext_equality.hpp:128-137, 175-184; the loop over vec_X
    runs to vec_pk.size() *)
Definition PTE_instance (pks : list (pt G)) (ct : TMRCT G) : list N :=
  cat_points pks ++ cat_points (firstn (length pks) (tvX G ct)) ++ bytes (tmY G ct).
(** /repo zkp/nizk/nizk_plaintext_equality.hpp:125-169; None: reads past the end of
    ct.vec_X *)
Definition PTE_Prove (g h : pt G) (pks : list (pt G)) (ct : TMRCT G) (v r : Z) (tr : list N) (a b : Z)
  : option (PTEProof * list N) :=
  if (length pks <=? length (tvX G ct))%nat then
    let tr1 := tr ++ PTE_instance pks ct in
    let A := map (fun pk => pk *p a) pks in
    let B := msum G [g; h] [a; b] in
    let tr2 := tr1 ++ cat_points A ++ bytes B in
    let e := H tr2 in
    Some ({| pteA := A; pteB := B; ptez := modq G (a + e * r); ptet := modq G (b + e * v) |}, tr2)
  else None.
(** /repo zkp/nizk/nizk_plaintext_equality.hpp:199-203 *)
Fixpoint PTE_conditions (pks A X : list (pt G)) (z e : Z) : bool :=
  match pks, A, X with
  | pk :: pks', Ai :: A', Xi :: X' => peqb G (pk *p z) (Ai +p Xi *p e) && PTE_conditions pks' A' X' z e
  | _, _, _ => true
  end.
(** /repo zkp/nizk/nizk_plaintext_equality.hpp:173-234; None: reads past the end of
    ct.vec_X or proof.vec_A *)
Definition PTE_Verify (g h : pt G) (pks : list (pt G)) (ct : TMRCT G) (tr : list N) (p : PTEProof)
  : option (bool * list N) :=
  if ((length pks <=? length (tvX G ct)) && (length pks <=? length (pteA p)))%nat then
    let tr1 := tr ++ PTE_instance pks ct in
    let tr2 := tr1 ++ cat_points (firstn (length pks) (pteA p)) ++ bytes (pteB p) in
    let e := H tr2 in
    let last := peqb G (msum G [g; h] [ptez p; ptet p]) (pteB p +p tmY G ct *p e) in
    Some (PTE_conditions pks (pteA p) (tvX G ct) (ptez p) e && last, tr2)
  else None.
(** /repo zkp/nizk/nizk_plaintext_equality.hpp:102-112; the encodings of B, z and t are
    computed and dropped *)
Definition PTE_ProofToByteString (p : PTEProof) : list N := cat_points (pteA p).

End Sigma.

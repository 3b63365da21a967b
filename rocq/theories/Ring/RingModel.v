(** Model of zkp/nizk/nizk_enc_relation.hpp (one of N ciphertexts encrypts zero) and
    signature/accountable_ring_sig.hpp.  Random draws are explicit arguments.  [H] is
    Hash::StringToBigInt.  None = undefined behaviour (access out of bounds). *)
From Coq Require Import NArith ZArith List Lia Bool Arith.
From Verif.Base Require Import Words ListX.
From Verif.Utility Require Import SerialModel.
From Verif.Crypto Require Import BigIntModel.
From Verif.Group Require Import ECModel.
From Verif.PKE Require Import ElGamalModel.
From Verif.Sigma Require Import SigmaModel.
Import ListNotations.
Local Open Scope Z_scope.

(** /repo zkp/nizk/nizk_enc_relation.hpp:69-77 *)
Fixpoint Decompose (l n m : nat) : list nat :=
  match m with
  | O => []
  | S m' => (l mod n)%nat :: Decompose (l / n) n m'
  end.

(** /repo zkp/nizk/nizk_enc_relation.hpp:87-93: the indicator columns of the digits *)
Definition unit_column (n k : nat) : list Z := upd (repeat 0 n) k 1.
Definition vec_delta_of (n : nat) (index : list nat) : list Z := concat (map (unit_column n) index).
(** /repo zkp/nizk/nizk_enc_relation.hpp:102-109: the drawn column with its first
    element replaced by minus the sum of the others *)
Definition column_a (c : list Z) : list Z :=
  match c with
  | [] => []
  | _ :: rest => fold_left (fun s a => s + - a) rest 0 :: rest
  end.
Definition vec_a_of (cols : list (list Z)) : list Z := concat (map column_a cols).
(** /repo zkp/nizk/nizk_enc_relation.hpp:113-117, 121-125 *)
Definition vec_c_of (a delta : list Z) : list Z := map2 (fun x d => x * (1 - 2 * d)) a delta.
Definition vec_d_of (a : list Z) : list Z := map (fun x => - x * x) a.
(** /repo zkp/nizk/nizk_enc_relation.hpp:137-140 *)
Definition vec_f_of (delta a : list Z) (x : Z) : list Z := map2 (fun d y => d * x + y) delta a.
(** /repo zkp/nizk/nizk_enc_relation.hpp:160-166: the factors of the polynomial p_i *)
Definition factors (n : nat) (a : list Z) (star index : list nat) : list (list Z) :=
  map (fun j => [nth (j * n + nth j index 0%nat) a 0;
                 if (nth j star 0 =? nth j index 0)%nat then 1 else 0]) (seq 0 (length index)).
(** /repo zkp/nizk/nizk_enc_relation.hpp:178-182, 256-260: exp_x[0..k-1] *)
Fixpoint powers (k : nat) (cur x : Z) : list Z :=
  match k with O => [] | S k' => cur :: powers k' (cur * x) x end.

Section Ring.
Variable G : ECGroup.
Variable H : list N -> Z.
Local Infix "+p" := (padd G) (at level 50, left associativity).
Local Infix "-p" := (psub G) (at level 50, left associativity).
Local Notation "P *p k" := (pmul G P k%Z) (at level 40, left associativity).
Local Notation bytes := (ToByteString G).

(** /repo zkp/nizk/nizk_enc_relation.hpp:22-27; [er_g], [er_h] are com_part.g and
    com_part.vec_h *)
Record ERPP : Type := { er_g : pt G; er_h : list (pt G); er_enc : TPP G; er_n : nat }.
(** /repo zkp/nizk/nizk_enc_relation.hpp:45-54 *)
Record ERProof : Type := {
  erB : pt G; erz : Z; erG : list (TCT G); erA : pt G; erC : pt G; erD : pt G;
  erf : list Z; erzA : Z; erzC : Z }.
(** the random draws of Prove, in the order they are made *)
Record ERRand : Type := { rn_B : Z; rn_A : Z; rn_cols : list (list Z); rn_C : Z; rn_D : Z; rn_rho : list Z }.
(** the shapes of the drawn vectors *)
Definition rand_shape (n m : nat) (rn : ERRand) : Prop :=
  length (rn_cols rn) = m /\ Forall (fun c => length c = n) (rn_cols rn) /\ length (rn_rho rn) = m.

(** a default-constructed ciphertext: both points at infinity *)
Definition ct_inf : TCT G := {| tX := inf G; tY := inf G |}.
(** /repo zkp/nizk/nizk_enc_relation.hpp:172-176, 241-253: the accumulated product *)
Definition ct_lincomb (cts : list (TCT G)) (c : list Z) : TCT G :=
  fold_left (fun acc p => T_HomoAdd G acc (T_ScalarMul G (fst p) (snd p))) (combine cts c) ct_inf.

(** the part of the transcript the proof adds: /repo zkp/nizk/nizk_enc_relation.hpp:128-131, 202-205 *)
Definition er_transcript (tr : list N) (B A C D : pt G) : list N :=
  tr ++ bytes B ++ bytes A ++ bytes C ++ bytes D.

(** /repo zkp/nizk/nizk_enc_relation.hpp:156-169: all the polynomials p_i *)
Fixpoint polys (n m : nat) (a : list Z) (star : list nat) (is_ : list nat) : option (list (list Z)) :=
  match is_ with
  | [] => Some []
  | i :: r =>
      match PolyMulVec (factors n a star (Decompose i n m)) (order G), polys n m a star r with
      | Some p, Some ps => Some (p :: ps)
      | _, _ => None
      end
  end.

(** /repo zkp/nizk/nizk_enc_relation.hpp:79-193.  [m] is the value of log(N)/log(n)
    computed in floating point and truncated (line 83). *)
Definition ER_Prove (pp : ERPP) (m : nat) (cts : list (TCT G)) (ek : pt G) (l : nat) (r : Z)
  (tr : list N) (rn : ERRand) : option (ERProof * list N) :=
  let n := er_n pp in
  let star := Decompose l n m in
  let delta := vec_delta_of n star in
  let a := vec_a_of (rn_cols rn) in
  match Commit G (er_g pp) (er_h pp) delta (rn_B rn),
        Commit G (er_g pp) (er_h pp) a (rn_A rn),
        Commit G (er_g pp) (er_h pp) (vec_c_of a delta) (rn_C rn),
        Commit G (er_g pp) (er_h pp) (vec_d_of a) (rn_D rn),
        polys n m a star (seq 0 (length cts)) with
  | Some B, Some A, Some C, Some D, Some P =>
      let tr' := er_transcript tr B A C D in
      let x := H tr' in
      let mask k := T_EncPoint G (er_enc pp) ek (inf G) (nth k (rn_rho rn) 0) in
      let vG := map (fun k => T_HomoAdd G (ct_lincomb cts (map (fun p => nth k p 0) P)) (mask k)) (seq 0 m) in
      let ex := powers (S m) 1 x in
      let z := fold_left (fun s k => s - nth k (rn_rho rn) 0 * nth k ex 0) (seq 0 m) (r * nth m ex 0) in
      Some ({| erB := B; erz := z; erG := vG; erA := A; erC := C; erD := D;
               erf := vec_f_of delta a x;
               erzA := modq G (rn_B rn * x + rn_A rn);
               erzC := modq G (rn_C rn * x + rn_D rn) |}, tr')
  | _, _, _, _, _ => None
  end.

(** /repo zkp/nizk/nizk_enc_relation.hpp:212-218 *)
Definition er_condition0 (n m : nat) (f : list Z) (x : Z) : bool :=
  forallb (fun j => nth (j * n) f 0 =? fold_left (fun s i => s + - nth (j * n + i) f 0) (seq 1 (n - 1)) x)
    (seq 0 m).
(** /repo zkp/nizk/nizk_enc_relation.hpp:246-250 *)
Definition er_product (n m : nat) (f : list Z) (i : nat) : Z :=
  let index := Decompose i n m in
  fold_left (fun s j => modq G (s * nth (j * n + nth j index 0%nat) f 0)) (seq 0 m) 1.

(** /repo zkp/nizk/nizk_enc_relation.hpp:197-287.  None: exp_x[0] of an empty vector
    when m = 0, vec_f or vec_G too short, or more values than Pedersen bases. *)
Definition ER_Verify (pp : ERPP) (m : nat) (cts : list (TCT G)) (ek : pt G) (tr : list N) (p : ERProof)
  : option (bool * list N) :=
  let n := er_n pp in
  if ((1 <=? m) && (m * n <=? length (erf p)) && (m <=? length (erG p)))%nat then
    let tr' := er_transcript tr (erB p) (erA p) (erC p) (erD p) in
    let x := H tr' in
    let c0 := er_condition0 n m (erf p) x in
    match Commit G (er_g pp) (er_h pp) (erf p) (erzA p),
          Commit G (er_g pp) (er_h pp) (map (fun i => nth i (erf p) 0 * (x - nth i (erf p) 0)) (seq 0 (m * n))) (erzC p) with
    | Some R1, Some R2 =>
        let c1 := peqb G (erB p *p x +p erA p) R1 in
        let c2 := peqb G (erC p *p x +p erD p) R2 in
        let ct_right := T_EncPoint G (er_enc pp) ek (inf G) (erz p) in
        let left1 := ct_lincomb cts (map (er_product n m (erf p)) (seq 0 (length cts))) in
        let ex := powers m 1 x in
        let ct_left := fold_left (fun acc k =>
             T_HomoSub G acc (T_ScalarMul G (nth k (erG p) ct_inf) (nth k ex 0))) (seq 0 m) left1 in
        let c3 := T_eqb G ct_left ct_right in
        Some (c0 && c1 && c2 && c3, tr')
    | _, _ => None
    end
  else None.

(** ** accountable ring signatures *)
(** /repo signature/accountable_ring_sig.hpp:15-20; Setup (44-57) draws the
    decryption key: ek = g * dk *)
Record ARSPP : Type := { ar_g : pt G; ar_h : list (pt G); ar_enc : TPP G; ar_ek : pt G }.
(** /repo signature/accountable_ring_sig.hpp:35-40 *)
Record ARSSig : Type := { as_proof : ERProof; as_zs : Z; as_zt : Z; as_vk : TCT G; as_s : TCT G }.

(** /repo signature/accountable_ring_sig.hpp:75-80, 174-179: first position of vk, N if absent *)
Fixpoint ring_index (R : list (pt G)) (vk : pt G) : nat :=
  match R with
  | [] => 0
  | P :: R' => if peqb G P vk then 0 else S (ring_index R' vk)
  end.
(** /repo signature/accountable_ring_sig.hpp:91-95, 126-130 *)
Definition ring_cts (pp : ARSPP) (R : list (pt G)) (ct_vk : TCT G) : list (TCT G) :=
  map (fun P => T_HomoSub G ct_vk (T_EncPoint G (ar_enc pp) (ar_ek pp) P 0)) R.
(** /repo signature/accountable_ring_sig.hpp:97-98, 132-133: n = 2 *)
Definition ars_er (pp : ARSPP) : ERPP :=
  {| er_g := ar_g pp; er_h := ar_h pp; er_enc := ar_enc pp; er_n := 2 |}.

(** /repo signature/accountable_ring_sig.hpp:59-64 *)
Definition ARS_KeyGen (pp : ARSPP) (sk : Z) : pt G * Z := (t_g G (ar_enc pp) *p sk, sk).

(** /repo signature/accountable_ring_sig.hpp:67-117; draws r, t, s and those of the
    proof; [m] as in ER_Prove.  A key that is not in the ring is only reported. *)
Definition ARS_Sign (pp : ARSPP) (m : nat) (sk : Z) (R : list (pt G)) (message : list N)
  (r t s : Z) (rn : ERRand) : option ARSSig :=
  let vk := t_g G (ar_enc pp) *p sk in
  let l := ring_index R vk in
  let ct_vk := T_EncPoint G (ar_enc pp) (ar_ek pp) vk r in
  let ct_s := T_EncPoint G (ar_enc pp) (ar_ek pp) (t_g G (ar_enc pp) *p s) t in
  match ER_Prove (ars_er pp) m (ring_cts pp R ct_vk) (ar_ek pp) l r message rn with
  | Some (pi, tr) =>
      let x := H tr in
      Some {| as_proof := pi; as_zs := modq G (sk * x + s); as_zt := modq G (r * x + t);
              as_vk := ct_vk; as_s := ct_s |}
  | None => None
  end.

(** /repo signature/accountable_ring_sig.hpp:121-167 *)
Definition ARS_Verify (pp : ARSPP) (m : nat) (R : list (pt G)) (message : list N) (sg : ARSSig) : option bool :=
  match ER_Verify (ars_er pp) m (ring_cts pp R (as_vk sg)) (ar_ek pp) message (as_proof sg) with
  | Some (c0, tr) =>
      let x := H tr in
      let left := T_HomoAdd G (T_ScalarMul G (as_vk sg) x) (as_s sg) in
      let right := T_EncPoint G (ar_enc pp) (ar_ek pp) (t_g G (ar_enc pp) *p as_zs sg) (as_zt sg) in
      Some (c0 && T_eqb G left right)
  | None => None
  end.

(** /repo signature/accountable_ring_sig.hpp:169-200; [a] is the draw of the equality proof *)
Definition ARS_Open (pp : ARSPP) (dk : Z) (sg : ARSSig) (a : Z) : pt G * DLEProof G :=
  let vk := T_DecECPoint G dk (as_vk sg) in
  (vk, fst (DLE_Prove G H (t_g G (ar_enc pp)) (ar_ek pp) (tY G (as_vk sg) -p vk) (tX G (as_vk sg)) dk [] a)).

(** /repo signature/accountable_ring_sig.hpp:203-226 *)
Definition ARS_Justify (pp : ARSPP) (sg : ARSSig) (vk : pt G) (p : DLEProof G) : bool :=
  fst (DLE_Verify G H (t_g G (ar_enc pp)) (ar_ek pp) (tY G (as_vk sg) -p vk) (tX G (as_vk sg)) [] p).
End Ring.

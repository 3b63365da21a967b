(** Specification side for the one-out-of-many proof and the accountable ring
    signature: what the statements mean, and the two forging algorithms, which use
    public data only. *)
From Coq Require Import NArith ZArith List Lia Bool Arith.
From Verif.Base Require Import Words ListX.
From Verif.Crypto Require Import BigIntModel BigIntSpec BigIntProofs.
From Verif.Group Require Import ECModel.
From Verif.PKE Require Import ElGamalModel.
From Verif.Sigma Require Import SigmaModel.
From Verif.Ring Require Import RingModel.
Import ListNotations.
Local Open Scope Z_scope.

Section Spec.
Variable G : ECGroup.
Variable H : list N -> Z.

(** [ct] is an encryption of the point [M] under [ek] with randomness [r] *)
Definition encrypts_with (g ek M : pt G) (r : Z) (ct : TCT G) : Prop :=
  tX G ct = pmul G ek r /\ tY G ct = padd G (pmul G g r) M.

(** what [ct] decrypts to under the key [dk] with ek = g * dk *)
Definition encrypts_point (g : pt G) (dk : Z) (M : pt G) (ct : TCT G) : Prop :=
  exists r, encrypts_with g (pmul G g dk) M r ct.

(** Forging a one-out-of-many proof without a witness: everything except vec_G is
    prepared as by an honest prover for position 0; the first element of vec_G, which is
    not hashed, is then solved for. *)
Definition er_forge (pp : ERPP G) (m : nat) (cts : list (TCT G)) (ek : pt G) (tr : list N) (rn : ERRand) (z : Z)
  : option (ERProof G) :=
  let n := er_n G pp in
  let delta := vec_delta_of n (Decompose 0 n m) in
  let a := vec_a_of (rn_cols rn) in
  match Commit G (er_g G pp) (er_h G pp) delta (rn_B rn),
        Commit G (er_g G pp) (er_h G pp) a (rn_A rn),
        Commit G (er_g G pp) (er_h G pp) (vec_c_of a delta) (rn_C rn),
        Commit G (er_g G pp) (er_h G pp) (vec_d_of a) (rn_D rn) with
  | Some B, Some A, Some C, Some D =>
      let x := H (er_transcript G tr B A C D) in
      let f := vec_f_of delta a x in
      let G0 := T_HomoSub G (ct_lincomb G cts (map (er_product G n m f) (seq 0 (length cts))))
                            (T_EncPoint G (er_enc G pp) ek (inf G) z) in
      Some {| erB := B; erz := z; erG := G0 :: repeat (ct_inf G) (m - 1); erA := A; erC := C; erD := D;
              erf := f; erzA := modq G (rn_B rn * x + rn_A rn); erzC := modq G (rn_C rn * x + rn_D rn) |}
  | _, _, _, _ => None
  end.

(** Forging a ring signature in the name of member l: encrypt the member's public key,
    prove that honestly, and solve for ct_s, which is not hashed. *)
Definition ars_forge (pp : ARSPP G) (m : nat) (R : list (pt G)) (l : nat) (message : list N)
  (r zs zt : Z) (rn : ERRand) : option (ARSSig G) :=
  let ct_vk := T_EncPoint G (ar_enc G pp) (ar_ek G pp) (nth l R (inf G)) r in
  match ER_Prove G H (ars_er G pp) m (ring_cts G pp R ct_vk) (ar_ek G pp) l r message rn with
  | Some (pi, tr) =>
      Some {| as_proof := pi; as_zs := zs; as_zt := zt; as_vk := ct_vk;
              as_s := T_HomoSub G (T_EncPoint G (ar_enc G pp) (ar_ek G pp) (pmul G (t_g G (ar_enc G pp)) zs) zt)
                                  (T_ScalarMul G ct_vk (H tr)) |}
  | None => None
  end.
End Spec.

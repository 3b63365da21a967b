(** Model of operator<< and operator>> of the ciphertexts, signatures and parameters of pke/elgamal.hpp,
    pke/exponential_elgamal.hpp, pke/twisted_exponential_elgamal.hpp and signature/schnorr.hpp.

    For an ECPoint, a BigInt and a vector<ECPoint> overload resolution prefers the functions of crypto/ec_point.hpp and
    crypto/bigint.hpp to the templates of utility/serialization.hpp.  Streams are those of Param/ParamModel. *)
From Coq Require Import NArith ZArith List Bool Arith.
From Verif.Base Require Import Words ListX.
From Verif.Crypto Require Import BigIntModel.
From Verif.Group Require Import ECModel.
From Verif.PKE Require Import ElGamalModel.
From Verif.Sigma Require Import SigmaModel.
From Verif.Param Require Import ParamModel.
Import ListNotations.
Local Open Scope N_scope.

Section Files.
Variable G : ECGroup.
Variable garbage : list N.     (* the uninitialised buffers of crypto/ec_point.hpp:284, 301 *)
Variable garbage32 : list N.   (* the uninitialised buffers of crypto/bigint.hpp:630, 638 *)
Local Notation wp := (write_point G garbage).
Local Notation rp := (get_point G garbage).

(** /repo pke/elgamal.hpp:37-47: the parameters are one point; signature/schnorr.hpp:36-46 the same *)
Definition gen_write (g : pt G) : list N := wp g.
Definition gen_read (old : pt G) (st : ifs) : pt G * ifs := rp old st.

(** /repo pke/elgamal.hpp:49-53 *)
Definition G_write (ct : GCT G) : list N := wp (gX G ct) ++ wp (gY G ct).
(** /repo pke/elgamal.hpp:55-59 *)
Definition G_read (old : GCT G) (st : ifs) : GCT G * ifs :=
  let '(X, st) := rp (gX G old) st in
  let '(Y, st) := rp (gY G old) st in ({| gX := X; gY := Y |}, st).

(** /repo pke/exponential_elgamal.hpp:35-41 *)
Definition EPP_write (p : EPP G) : list N :=
  le_bytes 8 (N.of_nat (e_len G p)) ++ le_bytes 8 (N.of_nat (e_trade G p)) ++ write_bigint garbage32 (e_size G p) ++ wp (e_g G p).
(** /repo pke/exponential_elgamal.hpp:43-49 *)
Definition EPP_read (old : EPP G) (st : ifs) : EPP G * ifs :=
  let '(a, st) := read_raw 8 (N.of_nat (e_len G old)) st in
  let '(b, st) := read_raw 8 (N.of_nat (e_trade G old)) st in
  let '(z, st) := get_bigint garbage32 st in
  let '(g, st) := rp (e_g G old) st in
  ({| e_len := N.to_nat a; e_size := z; e_trade := N.to_nat b; e_g := g |}, st).
(** /repo pke/exponential_elgamal.hpp:52-56 *)
Definition E_write (ct : ECT G) : list N := wp (eX G ct) ++ wp (eY G ct).
(** /repo pke/exponential_elgamal.hpp:58-62 *)
Definition E_read (old : ECT G) (st : ifs) : ECT G * ifs :=
  let '(X, st) := rp (eX G old) st in
  let '(Y, st) := rp (eY G old) st in ({| eX := X; eY := Y |}, st).
(** /repo pke/exponential_elgamal.hpp:64-68: the number of receivers is not written *)
Definition EM_write (ct : EMRCT G) : list N := wp (emX G ct) ++ write_points G garbage (evY G ct).
(** /repo pke/exponential_elgamal.hpp:70-74: as many points as vec_Y already has *)
Definition EM_read (old : EMRCT G) (st : ifs) : EMRCT G * ifs :=
  let '(X, st) := rp (emX G old) st in
  let '(v, st) := get_points G garbage (evY G old) st in ({| emX := X; evY := v |}, st).

(** /repo pke/twisted_exponential_elgamal.hpp:102-106 *)
Definition T_write (ct : TCT G) : list N := wp (tX G ct) ++ wp (tY G ct).
(** /repo pke/twisted_exponential_elgamal.hpp:108-112 *)
Definition T_read (old : TCT G) (st : ifs) : TCT G * ifs :=
  let '(X, st) := rp (tX G old) st in
  let '(Y, st) := rp (tY G old) st in ({| tX := X; tY := Y |}, st).
(** /repo pke/twisted_exponential_elgamal.hpp:114-118 *)
Definition TM_write (ct : TMRCT G) : list N := write_points G garbage (tvX G ct) ++ wp (tmY G ct).
(** /repo pke/twisted_exponential_elgamal.hpp:120-124 *)
Definition TM_read (old : TMRCT G) (st : ifs) : TMRCT G * ifs :=
  let '(v, st) := get_points G garbage (tvX G old) st in
  let '(Y, st) := rp (tmY G old) st in ({| tvX := v; tmY := Y |}, st).

(** /repo signature/schnorr.hpp:48-53 *)
Definition SIG_write (s : SIG G) : list N := wp (sigA G s) ++ write_bigint garbage32 (sigz G s).
(** /repo signature/schnorr.hpp:55-60 *)
Definition SIG_read (old : SIG G) (st : ifs) : SIG G * ifs :=
  let '(A, st) := rp (sigA G old) st in
  let '(z, st) := get_bigint garbage32 st in ({| sigA := A; sigz := z |}, st).

(** default-constructed objects: crypto/ec_point.hpp:106-108 (EC_POINT_new: the point at infinity), an empty vector,
    BN_new (zero) *)
Definition new_GCT : GCT G := {| gX := inf G; gY := inf G |}.
Definition new_ECT : ECT G := {| eX := inf G; eY := inf G |}.
Definition new_TCT : TCT G := {| tX := inf G; tY := inf G |}.
Definition new_EMRCT : EMRCT G := {| emX := inf G; evY := [] |}.
Definition new_TMRCT : TMRCT G := {| tvX := []; tmY := inf G |}.
Definition new_SIG : SIG G := {| sigA := inf G; sigz := 0%Z |}.
End Files.

(** ** ElGamal over X25519 *)
(** /repo pke/elgamal.hpp:236-240: crypto/ec_25519.hpp:128 takes a reference that is not const, so that the template of
    utility/serialization.hpp:29-34 is chosen; it writes the 32 bytes of the object *)
Definition X_write (ct : XCT) : list N := xX ct ++ xY ct.
(** /repo pke/elgamal.hpp:242-246, crypto/ec_25519.hpp:134-138 *)
Definition X_read (old : XCT) (st : ifs) : XCT * ifs :=
  let '(X, st) := fill 32 (xX old) st in
  let '(Y, st) := fill 32 (xY old) st in ({| xX := X; xY := Y |}, st).
(** /repo crypto/ec_25519.hpp:72-74: the character '0' *)
Definition new_XCT : XCT := {| xX := repeat 48 32; xY := repeat 48 32 |}.

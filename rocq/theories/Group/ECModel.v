(** Model of crypto/ec_group.hpp and crypto/ec_point.hpp.

    The elliptic curve arithmetic itself is OpenSSL (prime256v1) and is trusted:
    the curve is represented by a record holding the operations together with the
    laws of a cyclic group of prime order (prime256v1 has cofactor 1, so every
    point is a multiple of the generator).  Everything proved about a protocol
    holds for every such group; [Group/ZqGroup.v] exhibits instances, so the laws
    are consistent.  No secrecy or hardness statement is derived from this. *)
From Coq Require Import NArith ZArith List Bool Znumtheory.
From Verif.Base Require Import Words ListX.
From Verif.Utility Require Import SerialModel.
From Verif.Crypto Require Import BigIntModel.
Import ListNotations.
Local Open Scope Z_scope.

Record ECGroup : Type := mkECGroup {
  pt : Type;                      (* ECPoint values *)
  inf : pt;                       (* the point at infinity *)
  padd : pt -> pt -> pt;          (* EC_POINT_add *)
  pneg : pt -> pt;                (* EC_POINT_invert *)
  pmul : pt -> Z -> pt;           (* EC_POINT_mul; any integer scalar *)
  pgen : pt;                      (* EC_GROUP_get0_generator *)
  order : Z;                      (* EC_GROUP_get_order *)
  peqb : pt -> pt -> bool;        (* EC_POINT_cmp == 0 *)
  comp33 : pt -> list N;          (* compressed octets of a finite point *)
  unc65 : pt -> list N;           (* uncompressed octets of a finite point *)
  oct65 : list N -> option pt;    (* EC_POINT_oct2point on 65 octets *)

  order_prime : prime order;
  order_256 : order < 2 ^ 256;
  padd_assoc : forall P Q R, padd P (padd Q R) = padd (padd P Q) R;
  padd_comm : forall P Q, padd P Q = padd Q P;
  padd_inf : forall P, padd P inf = P;
  padd_neg : forall P, padd P (pneg P) = inf;
  pmul_0 : forall P, pmul P 0 = inf;
  pmul_succ : forall P k, pmul P (k + 1) = padd (pmul P k) P;
  pmul_order : pmul pgen order = inf;
  pgen_finite : pgen <> inf;
  pgen_all : forall P, exists k, P = pmul pgen k;
  peqb_spec : forall P Q, reflect (P = Q) (peqb P Q);
  comp33_length : forall P, length (comp33 P) = 33%nat;
  comp33_ok : forall P, bytes_ok (comp33 P);
  comp33_head : forall P, P <> inf -> nth 0 (comp33 P) 0%N <> 0%N;
  comp33_inj : forall P Q, P <> inf -> Q <> inf -> comp33 P = comp33 Q -> P = Q;
  unc65_length : forall P, length (unc65 P) = 65%nat;
  unc65_ok : forall P, bytes_ok (unc65 P);
  oct65_unc65 : forall P, P <> inf -> oct65 (unc65 P) = Some P;
  oct65_head0 : forall s, length s = 65%nat -> nth 0 s 1%N = 0%N -> oct65 s = None
}.

Section EC.
Variable G : ECGroup.

(** /repo crypto/ec_point.hpp:155-161 (Invert), 146-152 (Add), 132-143 (Mul: both
    branches compute the same multiple) and 165-170 (Sub) *)
Definition psub (P Q : pt G) : pt G := padd G P (pneg G Q).

(** /repo crypto/ec_point.hpp:223-230 (ToByteString): the string is pre-filled
    with '0'; for the point at infinity EC_POINT_point2oct writes a single zero
    octet *)
Definition ToByteString (P : pt G) : list N :=
  if peqb G P (inf G) then 0%N :: repeat 48%N 32 else comp33 G P.

(** /repo crypto/ec_point.hpp:277-291 (operator<<, ECPOINT_COMPRESSED off): the
    buffer is an uninitialised local array ([garbage], 65 bytes); infinity only
    overwrites its first byte *)
Definition write_point (garbage : list N) (P : pt G) : list N :=
  if peqb G P (inf G) then 0%N :: skipn 1 garbage else unc65 G P.
(** /repo crypto/ec_point.hpp:293-306 (operator>>): the result of
    EC_POINT_oct2point is ignored, so on failure the target keeps its value [old] *)
Definition read_point (old : pt G) (s : list N) : option (pt G * list N) :=
  match fin_read 65 s with
  | Some (b, r) => Some (match oct65 G b with Some P => P | None => old end, r)
  | None => None
  end.
(** /repo crypto/ec_point.hpp:315-321 *)
Fixpoint write_points (garbage : list N) (v : list (pt G)) : list N :=
  match v with [] => [] | P :: r => write_point garbage P ++ write_points garbage r end.
(** /repo crypto/ec_point.hpp:323-329: fills the elements the target already has *)
Fixpoint read_points (old : list (pt G)) (s : list N) : option (list (pt G) * list N) :=
  match old with
  | [] => Some ([], s)
  | o :: old' =>
      match read_point o s with
      | Some (P, s') =>
          match read_points old' s' with Some (v, s'') => Some (P :: v, s'') | None => None end
      | None => None
      end
  end.

(** sum of P_i * a_i, the value of EC_POINTs_mul *)
Fixpoint msum (A : list (pt G)) (a : list Z) : pt G :=
  match A, a with
  | P :: A', x :: a' => padd G (pmul G P x) (msum A' a')
  | _, _ => inf G
  end.
(** /repo crypto/ec_point.hpp:365-376: exit on a size mismatch *)
Definition ECPointVectorMul (A : list (pt G)) (a : list Z) : option (pt G) :=
  if same_size A a then Some (msum A a) else None.
(** /repo crypto/ec_point.hpp:379-383: the sub-vectors [start,end); iterators out
    of range are undefined behaviour *)
Definition ECPointVectorMulRange (A : list (pt G)) (a : list Z) (start stop : nat) : option (pt G) :=
  if ((start <=? stop) && (stop <=? length A) && (stop <=? length a))%nat
  then ECPointVectorMul (firstn (stop - start) (skipn start A)) (firstn (stop - start) (skipn start a))
  else None.
(** /repo crypto/ec_point.hpp:387-401 *)
Definition ECPointVectorAdd (A B : list (pt G)) : option (list (pt G)) :=
  if same_size A B then Some (map2 (padd G) A B) else None.
(** /repo crypto/ec_point.hpp:405-415 *)
Definition ECPointVectorScalar (A : list (pt G)) (a : Z) : list (pt G) := map (fun P => pmul G P a) A.
(** /repo crypto/ec_point.hpp:420-435 *)
Definition ECPointVectorProduct (A : list (pt G)) (a : list Z) : option (list (pt G)) :=
  if same_size A a then Some (map2 (pmul G) A a) else None.

(** x % order for BigInt x *)
Definition modq (x : Z) : Z := BigInt_Mod x (order G).

End EC.

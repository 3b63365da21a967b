(** One-to-many transactions and the supervisor's key in files: adcp/adcp.hpp. *)
From Coq Require Import NArith ZArith List.
From Verif.Crypto Require Import BigIntModel.
From Verif.Group Require Import ECModel.
From Verif.PKE Require Import ElGamalModel.
From Verif.Sigma Require Import SigmaModel.
From Verif.Bullet Require Import IPModel BPModel.
From Verif.ADCP Require Import ADCPModel.
Import ListNotations.

Section File.
Variable G : ECGroup.
(** /repo adcp/adcp.hpp:971-1006: the members in the order in which they are written;
    [gb], [gp] are the bytes the stream operators of BigInt and ECPoint leave in the file
    when the value does not fit. sender_balance_ct and balance_proof are not written, and
    the header has no function that reads such a file. The report of the file's size is
    left out. *)
Definition SaveCTxN (gb gp : list N) (t : CTxN G) : list N :=
  write_bigint gb (m_sn G t) ++ write_point G gp (m_pks G t) ++ write_ct G gp (m_str G t) ++
  concat (map (write_point G gp) (m_pkr G t)) ++ concat (map (write_mrct G gp) (m_rtr G t)) ++
  concat (map (write_pte G gb gp) (m_pte G t)) ++ write_ct G gp (m_ref G t) ++ write_dle G gb gp (m_dle G t) ++
  write_bp G gb gp (m_bp G t) ++ write_pk G gb gp (m_pk G t).

(** /repo adcp/adcp.hpp:140-146; SP has one member, ska (line 39) *)
Definition SaveSP (gb : list N) (ska : Z) : list N := write_bigint gb ska.
(** /repo adcp/adcp.hpp:148-154 *)
Definition FetchSP (s : list N) : option Z := match read_bigint s with Some (x, _) => Some x | None => None end.
End File.

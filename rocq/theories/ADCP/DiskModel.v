(** The files Miner writes, one operation at a time, so that the process can be cut off between any two of them:
    adcp/adcp.hpp.  A file system is the contents of its files; an operation opens a file for writing (which empties
    it) or appends one byte to it.  Between two operations the contents are those of the operations so far: the
    buffering of std::ofstream and of the operating system only merges neighbouring crash points. *)
From Coq Require Import NArith ZArith List Bool.
From Verif.Base Require Import Words ListX.
From Verif.Utility Require Import SerialModel.
From Verif.Crypto Require Import BigIntModel.
From Verif.Group Require Import ECModel.
From Verif.PKE Require Import DlogModel ElGamalModel CTFileModel.
From Verif.Param Require Import ParamModel.
From Verif.ADCP Require Import ADCPModel ADCPFileModel.
Import ListNotations.

Definition name := list N.
Definition disk := name -> option (list N).
Inductive op := Create (f : name) | Append (f : name) (b : N).
Definition put (d : disk) (f : name) (c : list N) : disk := fun g => if list_eq_dec N.eq_dec g f then Some c else d g.
(** std::ofstream::open with std::ios::binary truncates; write adds at the end *)
Definition exec (d : disk) (o : op) : disk :=
  match o with
  | Create f => put d f []
  | Append f b => put d f (match d f with Some c => c ++ [b] | None => [b] end)
  end.
Definition run (d : disk) (l : list op) : disk := fold_left exec l d.
(** the files after a crash at point k *)
Definition crash (d : disk) (l : list op) (k : nat) : disk := run d (firstn k l).
(** fout.open(f); fout << ...; fout.close() *)
Definition save_ops (f : name) (bytes : list N) : list op := Create f :: map (Append f) bytes.

Section Disk.
Variable G : ECGroup.
Variable key : pt G -> N.
Variable H : list N -> Z.
Variable hex : Z -> list N.
Variable hexp : pt G -> list N.          (* ECPoint::ToHexString, crypto/ec_point.hpp:233-239 *)
Variables gb gp : list N.                (* what an unwritten buffer of operator<< holds *)

(** identity + ".account" (adcp/adcp.hpp:341, 346, 1403, 1412) *)
Definition account_file (a : Account G) : name := ac_id G a ++ [46; 97; 99; 99; 111; 117; 110; 116]%N.
(** GetCTxFileName, adcp/adcp.hpp:67-72 *)
Definition ctx_name (pks : pt G) (sn : Z) : name := hexp pks ++ [95]%N ++ hex sn ++ [46; 99; 116; 120]%N.
(** adcp/adcp.hpp:188-199 *)
Definition SaveAccount_ops (a : Account G) : list op := save_ops (account_file a) (SaveAccount G gb gp a).

(** adcp/adcp.hpp:328-349: the sender's file is written before the receiver's balance is decrypted; a decryption that
    fails ends the process *)
Definition UpdateAccount1_ops (pp : APP G) (st : dstate G) (t : CTx1 G) (accts : list (Account G)) (i j : nat) (s1 s2 : list nat) : list op :=
  let c_out := {| tX := nth 0 (tvX G (c_tr G t)) (inf G); tY := tmY G (c_tr G t) |} in
  let c_in := {| tX := nth 1 (tvX G (c_tr G t)) (inf G); tY := tmY G (c_tr G t) |} in
  let s := nth i accts (acct0 G) in
  let ct := T_HomoSub G (ac_ct G s) c_out in
  match T_Dec G key (a_enc G pp) st (ac_sk G s) ct s1 with
  | None => []
  | Some m =>
      let accts := upd accts i (set_balance G s ct m) in
      SaveAccount_ops (nth i accts (acct0 G)) ++
      let r := nth j accts (acct0 G) in
      let ct := T_HomoAdd G (ac_ct G r) c_in in
      match T_Dec G key (a_enc G pp) st (ac_sk G r) ct s2 with
      | None => []
      | Some m => SaveAccount_ops (nth j (upd accts j (set_balance G r ct m)) (acct0 G))
      end
  end.

(** adcp/adcp.hpp:618-642: the accounts first, then the transaction *)
Definition Miner1_ops (pp : APP G) (st : dstate G) (t : CTx1 G) (accts : list (Account G)) (i j : nat) (c : Z) (s1 s2 : list nat) : list op :=
  match Miner1 G key H hex pp st t accts i j c s1 s2 with
  | Some (true, _) => UpdateAccount1_ops pp st t accts i j s1 s2 ++ save_ops (ctx_name (c_pks G t) (c_sn G t)) (SaveCTx1 G gb gp t)
  | Some (false, _) => []
  | None =>
      (* VerifyCTx stopped, or UpdateAccount did *)
      match VerifyCTx1 G H hex pp t c with Some true => UpdateAccount1_ops pp st t accts i j s1 s2 | _ => [] end
  end.

(** adcp/adcp.hpp:1396-1416: the receivers one after the other *)
Fixpoint credit_ops (pp : APP G) (st : dstate G) (rtr : list (TMRCT G)) (rs : list (Account G)) (ss : list (list nat)) : list op :=
  match rs, rtr with
  | r :: rs', x :: rtr' =>
      let ct := T_HomoAdd G (ac_ct G r) {| tX := nth 0 (tvX G x) (inf G); tY := tmY G x |} in
      match T_Dec G key (a_enc G pp) st (ac_sk G r) ct (hd [] ss) with
      | None => []
      | Some m => SaveAccount_ops (set_balance G r ct m) ++ credit_ops pp st rtr' rs' (tl ss)
      end
  | _, _ => []
  end.
(** adcp/adcp.hpp:1396-1416, when the transaction is accepted *)
Definition UpdateAccountN_ops (pp : APP G) (st : dstate G) (t : CTxN G) (s : Account G) (rs : list (Account G)) (s1 : list nat) (ss : list (list nat)) : list op :=
  let ct := T_HomoSub G (ac_ct G s) (m_str G t) in
  match T_Dec G key (a_enc G pp) st (ac_sk G s) ct s1 with
  | None => []
  | Some m =>
      SaveAccount_ops {| ac_id := ac_id G s; ac_pk := ac_pk G s; ac_sk := ac_sk G s; ac_ct := ct; ac_m := m; ac_sn := (ac_sn G s + 1)%Z |} ++
      credit_ops pp st (m_rtr G t) rs ss
  end.
(** adcp/adcp.hpp:1420-1444, when the transaction is accepted *)
Definition MinerN_ops (pp : APP G) (st : dstate G) (t : CTxN G) (s : Account G) (rs : list (Account G)) (s1 : list nat) (ss : list (list nat)) : list op :=
  UpdateAccountN_ops pp st t s rs s1 ss ++ save_ops (ctx_name (m_pks G t) (m_sn G t)) (SaveCTxN G gb gp t).

(** ** reading a file that may end early *)
Variable glen : N.                       (* the uninitialised LEN of utility/serialization.hpp:70 *)
(** utility/serialization.hpp:67-75; None: resize throws ([room] is what it can allocate) *)
Variable room : N.
Definition get_string (old : list N) (st : ifs) : option (list N * ifs) :=
  let '(n, st) := read_raw 8 glen st in
  if (n <=? room)%N then let n := N.to_nat n in Some (fill n (firstn n old ++ repeat 0%N (n - length old)) st) else None.
Variables g65 g32 : list N.              (* the uninitialised buffers of crypto/ec_point.hpp:295 and crypto/bigint.hpp:638 *)
(** adcp/adcp.hpp:201-212: the state of the stream is never looked at *)
Definition FetchAccountS (old : Account G) (file : list N) : option (Account G) :=
  match get_string (ac_id G old) (mkIfs file true) with
  | None => None
  | Some (id, st) =>
      let '(pk, st) := get_point G g65 (ac_pk G old) st in
      let '(sk, st) := get_bigint g32 st in
      let '(ct, st) := T_read G g65 (ac_ct G old) st in
      let '(m, st) := get_bigint g32 st in
      let '(sn, st) := get_bigint g32 st in
      Some {| ac_id := id; ac_pk := pk; ac_sk := sk; ac_ct := ct; ac_m := m; ac_sn := sn |}
  end.
End Disk.

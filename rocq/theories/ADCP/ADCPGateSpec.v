(** Vocabulary of C94: the string whose hash is the challenge of the sender's proof, the last
    proof of a transaction. *)
From Coq Require Import NArith ZArith List.
From Verif.Group Require Import ECModel ECProofs.
From Verif.PKE Require Import ElGamalModel.
From Verif.Sigma Require Import SigmaModel.
From Verif.Bullet Require Import IPModel BPModel.
From Verif.ADCP Require Import ADCPModel ADCPSpec.
Import ListNotations.
Local Open Scope Z_scope.

Section Spec.
Variable G : ECGroup.
Variable H : list N -> Z.
Variable hex : Z -> list N.
Local Infix "-p" := (psub G) (at level 50, left associativity).

(** the transcript after the range proof does not depend on the combiner *)
Definition owner_input1 (pp : APP G) (t : CTx1 G) : option (list N) :=
  let uX := tX G (c_bal G t) -p nth 0 (tvX G (c_tr G t)) (inf G) in
  let uY := tY G (c_bal G t) -p tmY G (c_tr G t) in
  match BP_FastVerify G H (a_bullet G pp) [tmY G (c_tr G t); tY G (c_ref G t)] (range_transcript1 G H pp t) (c_bp G t) 1 with
  | Some (_, tr) =>
      Some (snd (DLE_Verify G H (uY -p tY G (c_ref G t)) (uX -p tX G (c_ref G t)) (t_g G (a_enc G pp)) (c_pks G t)
                   (tr ++ ToSign1 G hex t) (c_dle G t)))
  | None => None
  end.

Definition owner_inputN (pp : APP G) (t : CTxN G) : option (list N) :=
  let n := length (m_pkr G t) in
  let hb := fold_left (fun acc x => acc -p tmY G x) (firstn n (m_rtr G t)) (tY G (m_str G t)) in
  let u := T_HomoSub G (m_bal G t) (m_str G t) in
  match BP_FastVerify G H (a_bullet G pp) (map (tmY G) (firstn n (m_rtr G t)) ++ [tY G (m_ref G t)]) (range_transcriptN G H pp t) (m_bp G t) 1 with
  | Some (_, tr) =>
      let tr := snd (DLK_Verify G H (t_g G (a_enc G pp)) hb tr (m_dlk G t)) in
      Some (snd (DLE_Verify G H (tY G u -p tY G (m_ref G t)) (tX G u -p tX G (m_ref G t)) (t_g G (a_enc G pp)) (m_pks G t)
                   (tr ++ ToSignN G hex t) (m_dle G t)))
  | None => None
  end.

(** facts about OpenSSL's encodings: a point starts with an octet below '-', hexadecimal
    numbers use '-' and larger characters, and different numbers have different digits *)
Definition encodings_ok : Prop :=
  (forall P : pt G, (nth 0 (comp33 G P) 0 < 45)%N) /\ (forall z, Forall (fun c => (45 <= c)%N) (hex z)) /\
  (forall a b, hex a = hex b -> a = b).
End Spec.

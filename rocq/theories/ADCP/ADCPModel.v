(** Model of adcp/adcp.hpp: accounts, confidential transactions (one-to-one and
    one-to-many), the miner, the supervisor, the policies, and the transaction and account
    files.  [H] is Hash::StringToBigInt, [hex] BigInt::ToHexString (BN_bn2hex), [st] the
    loaded decryption table; random draws, the combiner of Bullet::FastVerify and the
    interleavings of the search tasks are arguments.  Printing and timing are left out. *)
From Coq Require Import NArith ZArith List Bool.
From Verif.Base Require Import Words ListX.
From Verif.Utility Require Import SerialModel.
From Verif.Crypto Require Import BigIntModel.
From Verif.Group Require Import ECModel.
From Verif.PKE Require Import DlogModel ElGamalModel.
From Verif.Sigma Require Import SigmaModel.
From Verif.Bullet Require Import IPModel BPModel GadgetModel.
Import ListNotations.
Local Open Scope Z_scope.

Section ADCP.
Variable G : ECGroup.
Variable key : pt G -> N.
Variable H : list N -> Z.
Variable hex : Z -> list N.
Local Infix "+p" := (padd G) (at level 50, left associativity).
Local Infix "-p" := (psub G) (at level 50, left associativity).
Local Notation "P *p k" := (pmul G P k%Z) (at level 40, left associativity).
Local Notation bytes := (ToByteString G).

(** /repo adcp/adcp.hpp:26-35 *)
Record APP := { a_snlen : N; a_maxrecv : N; a_coins : Z; a_bullet : BPPP G; a_enc : TPP G; a_pka : pt G }.
(** /repo adcp/adcp.hpp:42-49 *)
Record Account := { ac_id : list N; ac_pk : pt G; ac_sk : Z; ac_ct : TCT G; ac_m : Z; ac_sn : Z }.
(** /repo adcp/adcp.hpp:52-65 *)
Record CTx1 := { c_sn : Z; c_bal : TCT G; c_pks : pt G; c_pkr : pt G; c_tr : TMRCT G;
  c_pte : PTEProof G; c_bp : BPProof G; c_ref : TCT G; c_pk : PKProof G; c_dle : DLEProof G }.

(** /repo adcp/adcp.hpp:302-326; [sk] is the draw of KeyGen *)
Definition CreateAccount (pp : APP) (identity : list N) (init_balance init_sn sk : Z) : Account :=
  let k := T_KeyGen G (a_enc pp) sk in
  {| ac_id := identity; ac_pk := fst k; ac_sk := snd k; ac_m := init_balance; ac_sn := init_sn;
     ac_ct := T_Enc G (a_enc pp) (fst k) init_balance (H identity) |}.

(** ** one-to-one transactions *)
(** /repo zkp/bulletproofs/innerproduct_proof.hpp:65-77, bullet_proof.hpp:111-118 *)
Definition BP_ProofToByteString (p : BPProof G) : list N :=
  bytes (bpA G p) ++ bytes (bpS G p) ++ bytes (bpT1 G p) ++ bytes (bpT2 G p) ++
  BigInt_ToByteString (bptaux G p) ++ BigInt_ToByteString (bpmu G p) ++ BigInt_ToByteString (bptx G p) ++
  cat_points G (ipL G (bpip G p)) ++ cat_points G (ipR G (bpip G p)) ++
  BigInt_ToByteString (ipa G (bpip G p)) ++ BigInt_ToByteString (ipb G (bpip G p)).

(** /repo adcp/adcp.hpp:379-390; every field but correct_refresh_proof *)
Definition ToSign1 (t : CTx1) : list N :=
  hex (c_sn t) ++ bytes (c_pks t) ++ bytes (c_pkr t) ++ T_CTToByteString G (c_bal t) ++
  T_MRCTToByteString G (c_tr t) ++ PTE_ProofToByteString G (c_pte t) ++ BP_ProofToByteString (c_bp t) ++
  T_CTToByteString G (c_ref t) ++ PK_ProofToByteString G (c_pk t).

(** the draws of CreateCTx, in order *)
Record CRand := { cr_r : Z; cr_a1 : Z; cr_b1 : Z; cr_star : Z; cr_a2 : Z; cr_b2 : Z; cr_bp : BPRand; cr_w : Z }.

(** /repo adcp/adcp.hpp:393-521; None: Bullet::Prove stops *)
Definition CreateCTx1 (pp : APP) (s : Account) (v : Z) (pkr : pt G) (rn : CRand) : option CTx1 :=
  let g := t_g G (a_enc pp) in
  let h := t_h G (a_enc pp) in
  let vec_pk := [ac_pk s; pkr; a_pka pp] in
  let tr := T_MREnc G (a_enc pp) vec_pk v (cr_r rn) in
  do pte <- PTE_Prove G H g h vec_pk tr v (cr_r rn) [] (cr_a1 rn) (cr_b1 rn);
  let upd_ct := {| tX := tX G (ac_ct s) -p nth 0 (tvX G tr) (inf G); tY := tY G (ac_ct s) -p tmY G tr |} in
  let ref := T_ReEnc G (a_enc pp) (ac_pk s) (ac_sk s) upd_ct (cr_star rn) in
  let k := PK_Prove G H g h (ac_pk s) ref (ac_m s - v) (cr_star rn) (snd pte) (cr_a2 rn) (cr_b2 rn) in
  do bp <- BP_Prove G H (a_bullet pp) [tmY G tr; tY G ref] [cr_r rn; cr_star rn] [v; ac_m s - v] (snd k) (cr_bp rn);
  let ctx d := {| c_sn := ac_sn s; c_bal := ac_ct s; c_pks := ac_pk s; c_pkr := pkr; c_tr := tr; c_pte := fst pte;
                  c_bp := fst bp; c_ref := ref; c_pk := fst k; c_dle := d |} in
  let blank := {| dleA1 := inf G; dleA2 := inf G; dlez := 0 |} in
  let d := DLE_Prove G H (tY G upd_ct -p tY G ref) (tX G upd_ct -p tX G ref) g (ac_pk s) (ac_sk s)
             (snd bp ++ ToSign1 (ctx blank)) (cr_w rn) in
  Some (ctx (fst d)).

(** /repo adcp/adcp.hpp:524-616; [c]: combiner; None: reads past the end of a vector of the
    transaction, or Bullet::FastVerify stops *)
Definition VerifyCTx1 (pp : APP) (t : CTx1) (c : Z) : option bool :=
  let g := t_g G (a_enc pp) in
  let h := t_h G (a_enc pp) in
  do c1 <- PTE_Verify G H g h [c_pks t; c_pkr t; a_pka pp] (c_tr t) [] (c_pte t);
  let c2 := PK_Verify G H g h (c_pks t) (c_ref t) (snd c1) (c_pk t) in
  do c3 <- BP_FastVerify G H (a_bullet pp) [tmY G (c_tr t); tY G (c_ref t)] (snd c2) (c_bp t) c;
  let uX := tX G (c_bal t) -p nth 0 (tvX G (c_tr t)) (inf G) in
  let uY := tY G (c_bal t) -p tmY G (c_tr t) in
  let c4 := DLE_Verify G H (uY -p tY G (c_ref t)) (uX -p tX G (c_ref t)) g (c_pks t) (snd c3 ++ ToSign1 t) (c_dle t) in
  Some (fst c1 && fst c2 && fst c3 && fst c4).

Definition acct0 : Account :=
  {| ac_id := []; ac_pk := inf G; ac_sk := 0; ac_ct := {| tX := inf G; tY := inf G |}; ac_m := 0; ac_sn := 0 |}.
(** balance_ct and m assigned, the other fields kept *)
Definition set_balance (a : Account) (ct : TCT G) (m : Z) : Account :=
  {| ac_id := ac_id a; ac_pk := ac_pk a; ac_sk := ac_sk a; ac_ct := ct; ac_m := m; ac_sn := ac_sn a |}.

(** /repo adcp/adcp.hpp:329-349; the accounts are the elements [i] (sender) and [j]
    (receiver) of a list, so that both may be the same object; None: Dec exits *)
Definition UpdateAccount1 (pp : APP) (st : dstate G) (t : CTx1) (accts : list Account) (i j : nat) (s1 s2 : list nat)
  : option (list Account) :=
  let c_out := {| tX := nth 0 (tvX G (c_tr t)) (inf G); tY := tmY G (c_tr t) |} in
  let c_in := {| tX := nth 1 (tvX G (c_tr t)) (inf G); tY := tmY G (c_tr t) |} in
  let s := nth i accts acct0 in
  let ct := T_HomoSub G (ac_ct s) c_out in
  do m <- T_Dec G key (a_enc pp) st (ac_sk s) ct s1;
  let accts := upd accts i (set_balance s ct m) in
  let r := nth j accts acct0 in
  let ct := T_HomoAdd G (ac_ct r) c_in in
  do m <- T_Dec G key (a_enc pp) st (ac_sk r) ct s2;
  Some (upd accts j (set_balance r ct m)).

(** /repo adcp/adcp.hpp:619-642 *)
Definition Miner1 (pp : APP) (st : dstate G) (t : CTx1) (accts : list Account) (i j : nat) (c : Z) (s1 s2 : list nat)
  : option (bool * list Account) :=
  if negb (peqb G (c_pks t) (ac_pk (nth i accts acct0))) then Some (false, accts)
  else if negb (peqb G (c_pkr t) (ac_pk (nth j accts acct0))) then Some (false, accts)
  else do v <- VerifyCTx1 pp t c;
       if v then do a <- UpdateAccount1 pp st t accts i j s1 s2; Some (true, a) else Some (false, accts).

(** /repo adcp/adcp.hpp:352-355 *)
Definition RevealBalance (pp : APP) (st : dstate G) (a : Account) (s : list nat) : option Z :=
  T_Dec G key (a_enc pp) st (ac_sk a) (ac_ct a) s.

(** /repo adcp/adcp.hpp:358-377 *)
Definition SuperviseCTx1 (pp : APP) (st : dstate G) (ska : Z) (t : CTx1) (s : list nat) : option Z :=
  T_Dec G key (a_enc pp) st ska {| tX := nth 2 (tvX G (c_tr t)) (inf G); tY := tmY G (c_tr t) |} s.

(** ** policies *)
(** the instance both sides build: /repo adcp/adcp.hpp:673-682, 713-722 *)
Definition open_instance (pp : APP) (pk : pt G) (t : CTx1) (v : Z) : pt G * pt G * pt G * pt G :=
  let g1 := tmY G (c_tr t) -p t_h G (a_enc pp) *p v in
  if peqb G pk (c_pks t) then (g1, nth 0 (tvX G (c_tr t)) (inf G), t_g G (a_enc pp), c_pks t)
  else (g1, nth 1 (tvX G (c_tr t)) (inf G), t_g G (a_enc pp), c_pkr t).
(** /repo adcp/adcp.hpp:661-698; None: exit, the user is not a party *)
Definition JustifyOpen (pp : APP) (u : Account) (t : CTx1) (v w : Z) : option (DLEProof G) :=
  if negb (peqb G (ac_pk u) (c_pks t)) && negb (peqb G (ac_pk u) (c_pkr t)) then None
  else let '(g1, h1, g2, h2) := open_instance pp (ac_pk u) t v in
       Some (fst (DLE_Prove G H g1 h1 g2 h2 (ac_sk u) [] w)).
(** /repo adcp/adcp.hpp:701-742 *)
Definition AuditOpen (pp : APP) (u : Account) (t : CTx1) (v : Z) (p : DLEProof G) : bool :=
  if negb (peqb G (ac_pk u) (c_pks t)) && negb (peqb G (ac_pk u) (c_pkr t)) then false
  else let '(g1, h1, g2, h2) := open_instance pp (ac_pk u) t v in
       fst (DLE_Verify G H g1 h1 g2 h2 [] p).

(** /repo adcp/adcp.hpp:762-778, 811-827: t1 * incoming - t2 * outgoing *)
Definition rate_diff (t1 t2 : CTx1) (r1 r2 : Z) : TCT G :=
  T_HomoSub G (T_ScalarMul G {| tX := nth 1 (tvX G (c_tr t1)) (inf G); tY := tmY G (c_tr t1) |} r1)
              (T_ScalarMul G {| tX := nth 0 (tvX G (c_tr t2)) (inf G); tY := tmY G (c_tr t2) |} r2).
(** /repo adcp/adcp.hpp:749-794 *)
Definition JustifyRate (pp : APP) (u : Account) (t1 t2 : CTx1) (r1 r2 w : Z) : option (DLEProof G) :=
  if negb (peqb G (ac_pk u) (c_pkr t1)) || negb (peqb G (ac_pk u) (c_pks t2)) then None
  else let d := rate_diff t1 t2 r1 r2 in
       Some (fst (DLE_Prove G H (t_g G (a_enc pp)) (ac_pk u) (tY G d) (tX G d) (ac_sk u) [] w)).
(** /repo adcp/adcp.hpp:797-848 *)
Definition AuditRate (pp : APP) (pk : pt G) (t1 t2 : CTx1) (r1 r2 : Z) (p : DLEProof G) : bool :=
  if negb (peqb G pk (c_pkr t1)) || negb (peqb G pk (c_pks t2)) then false
  else let d := rate_diff t1 t2 r1 r2 in
       fst (DLE_Verify G H (t_g G (a_enc pp)) pk (tY G d) (tX G d) [] p).

(** /repo adcp/adcp.hpp:867-883, 906-922 *)
Definition limit_sum (ts : list CTx1) : TCT G :=
  fold_left (fun acc t => T_HomoAdd G acc {| tX := nth 0 (tvX G (c_tr t)) (inf G); tY := tmY G (c_tr t) |}) ts
    {| tX := inf G; tY := inf G |}.
Definition gadget_pp (pp : APP) : RPP G := {| rp_enc := a_enc pp; rp_bullet := a_bullet pp |}.
(** /repo adcp/adcp.hpp:857-895; outer None: exit; inner None: returns false *)
Definition JustifyLimit (pp : APP) (st : dstate G) (u : Account) (ts : list CTx1) (L R : Z)
  (sched : list nat) (rstar w a b : Z) (rn : BPRand) : option (option (RP2 G)) :=
  if forallb (fun t => peqb G (ac_pk u) (c_pks t)) ts then
    do p <- RP2_Prove G key H (gadget_pp pp) st (ac_pk u) (limit_sum ts) L R (ac_sk u) [] sched rstar w a b rn;
    Some (Some (fst p))
  else Some None.
(** /repo adcp/adcp.hpp:898-942 *)
Definition AuditLimit (pp : APP) (pk : pt G) (ts : list CTx1) (L R : Z) (p : RP2 G) (c : Z) : option bool :=
  if forallb (fun t => peqb G pk (c_pks t)) ts then
    do v <- RP2_Verify G H (gadget_pp pp) pk (limit_sum ts) L R [] p c; Some (fst v)
  else Some false.

(** ** one-to-many transactions *)
(** /repo adcp/adcp.hpp:950-968 *)
Record CTxN := { m_sn : Z; m_bal : TCT G; m_pks : pt G; m_str : TCT G; m_pkr : list (pt G); m_rtr : list (TMRCT G);
  m_ref : TCT G; m_pk : PKProof G; m_dle : DLEProof G; m_pte : list (PTEProof G); m_bp : BPProof G; m_dlk : DLKProof G }.

(** /repo adcp/adcp.hpp:1008-1033 *)
Definition ToSignN (t : CTxN) : list N :=
  hex (m_sn t) ++ bytes (m_pks t) ++ cat_points G (m_pkr t) ++ T_CTToByteString G (m_bal t) ++
  T_CTToByteString G (m_str t) ++ concat (map (T_MRCTToByteString G) (m_rtr t)) ++
  concat (map (PTE_ProofToByteString G) (m_pte t)) ++ BP_ProofToByteString (m_bp t) ++
  T_CTToByteString G (m_ref t) ++ PK_ProofToByteString G (m_pk t) ++ DLK_ProofToByteString G (m_dlk t).

(** the draws of CreateCTx, in order: r; then for every receiver r_i; then for every
    receiver (a_i, b_i) of its equality proof; ... *)
Record MRand := { mr_r : Z; mr_rs : list Z; mr_ab : list (Z * Z); mr_star : Z; mr_a2 : Z; mr_b2 : Z; mr_bp : BPRand;
  mr_k : Z; mr_w : Z }.

(** /repo adcp/adcp.hpp:1081-1097: the equality proofs, one receiver after the other *)
Fixpoint PTE_proves (g h pka : pt G) (pkr : list (pt G)) (cts : list (TMRCT G)) (vs rs : list Z) (ab : list (Z * Z))
  (tr : list N) : option (list (PTEProof G) * list N) :=
  match pkr, cts, vs, rs, ab with
  | pk :: pkr', ct :: cts', v :: vs', r :: rs', x :: ab' =>
      do p <- PTE_Prove G H g h [pk; pka] ct v r tr (fst x) (snd x);
      do ps <- PTE_proves g h pka pkr' cts' vs' rs' ab' (snd p);
      Some (fst p :: fst ps, snd ps)
  | [], [], [], [], [] => Some ([], tr)
  | _, _, _, _, _ => None
  end.
(** /repo adcp/adcp.hpp:1229-1238; the loop runs over vec_pkr *)
Fixpoint PTE_verifies (g h pka : pt G) (pkr : list (pt G)) (cts : list (TMRCT G)) (ps : list (PTEProof G)) (tr : list N)
  : option (bool * list N) :=
  match pkr with
  | [] => Some (true, tr)
  | pk :: pkr' =>
      match cts, ps with
      | ct :: cts', p :: ps' =>
          do v <- PTE_Verify G H g h [pk; pka] ct tr p;
          do w <- PTE_verifies g h pka pkr' cts' ps' (snd v);
          Some (fst v && fst w, snd w)
      | _, _ => None
      end
  end.

(** /repo adcp/adcp.hpp:1038-1208; None: the vectors of the arguments have different
    lengths, or Bullet::Prove stops *)
Definition CreateCTxN (pp : APP) (s : Account) (vs : list Z) (pkr : list (pt G)) (rn : MRand) : option CTxN :=
  let g := t_g G (a_enc pp) in
  let h := t_h G (a_enc pp) in
  let v := fold_left Z.add vs 0 in
  let str := T_Enc G (a_enc pp) (ac_pk s) v (mr_r rn) in
  let rtr := map2 (fun pk x => T_MREnc G (a_enc pp) [pk; a_pka pp] (fst x) (snd x)) pkr (combine vs (mr_rs rn)) in
  do pte <- PTE_proves g h (a_pka pp) pkr rtr vs (mr_rs rn) (mr_ab rn) [];
  let upd_ct := T_HomoSub G (ac_ct s) str in
  let ref := T_ReEnc G (a_enc pp) (ac_pk s) (ac_sk s) upd_ct (mr_star rn) in
  let k := PK_Prove G H g h (ac_pk s) ref (ac_m s - v) (mr_star rn) (snd pte) (mr_a2 rn) (mr_b2 rn) in
  do bp <- BP_Prove G H (a_bullet pp) (map (tmY G) rtr ++ [tY G ref]) (mr_rs rn ++ [mr_star rn]) (vs ++ [ac_m s - v])
             (snd k) (mr_bp rn);
  let hb := fold_left (fun acc x => acc -p tmY G x) rtr (tY G str) in
  let w := fold_left Z.sub (mr_rs rn) (mr_r rn) in
  let dk := DLK_Prove G H g hb w (snd bp) (mr_k rn) in
  let ctx d := {| m_sn := ac_sn s; m_bal := ac_ct s; m_pks := ac_pk s; m_str := str; m_pkr := pkr; m_rtr := rtr;
                  m_ref := ref; m_pk := fst k; m_dle := d; m_pte := fst pte; m_bp := fst bp; m_dlk := fst dk |} in
  let blank := {| dleA1 := inf G; dleA2 := inf G; dlez := 0 |} in
  let d := DLE_Prove G H (tY G upd_ct -p tY G ref) (tX G upd_ct -p tX G ref) g (ac_pk s) (ac_sk s)
             (snd dk ++ ToSignN (ctx blank)) (mr_w rn) in
  Some (ctx (fst d)).

(** /repo adcp/adcp.hpp:1211-1336; the loops run to vec_pkr.size() *)
Definition VerifyCTxN (pp : APP) (t : CTxN) (c : Z) : option bool :=
  let g := t_g G (a_enc pp) in
  let h := t_h G (a_enc pp) in
  let n := length (m_pkr t) in
  do c1 <- PTE_verifies g h (a_pka pp) (m_pkr t) (m_rtr t) (m_pte t) [];
  let c2 := PK_Verify G H g h (m_pks t) (m_ref t) (snd c1) (m_pk t) in
  do c3 <- BP_FastVerify G H (a_bullet pp) (map (tmY G) (firstn n (m_rtr t)) ++ [tY G (m_ref t)]) (snd c2) (m_bp t) c;
  let hb := fold_left (fun acc x => acc -p tmY G x) (firstn n (m_rtr t)) (tY G (m_str t)) in
  let c4 := DLK_Verify G H g hb (snd c3) (m_dlk t) in
  let u := T_HomoSub G (m_bal t) (m_str t) in
  let c5 := DLE_Verify G H (tY G u -p tY G (m_ref t)) (tX G u -p tX G (m_ref t)) g (m_pks t) (snd c4 ++ ToSignN t) (m_dle t) in
  Some (fst c1 && fst c2 && fst c3 && fst c4 && fst c5).

(** /repo adcp/adcp.hpp:1406-1413: the loop over vec_Acct_receiver *)
Fixpoint credit (pp : APP) (st : dstate G) (rtr : list (TMRCT G)) (rs : list Account) (ss : list (list nat))
  : option (list Account) :=
  match rs with
  | [] => Some []
  | r :: rs' =>
      match rtr with
      | [] => None
      | x :: rtr' =>
          let ct := T_HomoAdd G (ac_ct r) {| tX := nth 0 (tvX G x) (inf G); tY := tmY G x |} in
          do m <- T_Dec G key (a_enc pp) st (ac_sk r) ct (hd [] ss);
          do l <- credit pp st rtr' rs' (tl ss);
          Some (set_balance r ct m :: l)
      end
  end.

(** /repo adcp/adcp.hpp:1396-1416; the receivers are copies in a vector of their own *)
Definition UpdateAccountN (pp : APP) (st : dstate G) (t : CTxN) (s : Account) (rs : list Account) (s1 : list nat)
  (ss : list (list nat)) : option (Account * list Account) :=
  let ct := T_HomoSub G (ac_ct s) (m_str t) in
  do m <- T_Dec G key (a_enc pp) st (ac_sk s) ct s1;
  do l <- credit pp st (m_rtr t) rs ss;
  Some ({| ac_id := ac_id s; ac_pk := ac_pk s; ac_sk := ac_sk s; ac_ct := ct; ac_m := m; ac_sn := ac_sn s + 1 |}, l).

(** /repo adcp/adcp.hpp:1426-1431; None: reads past the end of vec_pkr *)
Fixpoint receivers_match (pkr : list (pt G)) (rs : list Account) : option bool :=
  match rs with
  | [] => Some true
  | r :: rs' => match pkr with
                | [] => None
                | pk :: pkr' => if peqb G pk (ac_pk r) then receivers_match pkr' rs' else Some false
                end
  end.
(** /repo adcp/adcp.hpp:1420-1444 *)
Definition MinerN (pp : APP) (st : dstate G) (t : CTxN) (s : Account) (rs : list Account) (c : Z) (s1 : list nat)
  (ss : list (list nat)) : option (bool * (Account * list Account)) :=
  if negb (peqb G (m_pks t) (ac_pk s)) then Some (false, (s, rs))
  else do k <- receivers_match (m_pkr t) rs;
       if negb k then Some (false, (s, rs))
       else do v <- VerifyCTxN pp t c;
            if v then do a <- UpdateAccountN pp st t s rs s1 ss; Some (true, a) else Some (false, (s, rs)).

(** /repo adcp/adcp.hpp:1448-1472 *)
Fixpoint supervise_loop (pp : APP) (st : dstate G) (ska : Z) (pkr : list (pt G)) (rtr : list (TMRCT G)) (ss : list (list nat))
  : option (list Z) :=
  match pkr with
  | [] => Some []
  | _ :: pkr' =>
      match rtr with
      | [] => None
      | x :: rtr' =>
          do v <- T_Dec G key (a_enc pp) st ska {| tX := nth 1 (tvX G x) (inf G); tY := tmY G x |} (hd [] ss);
          do l <- supervise_loop pp st ska pkr' rtr' (tl ss);
          Some (v :: l)
      end
  end.
Definition SuperviseCTxN (pp : APP) (st : dstate G) (ska : Z) (t : CTxN) (ss : list (list nat)) : option (list Z) :=
  supervise_loop pp st ska (m_pkr t) (m_rtr t) ss.

(** ** files.  [gb], [gp]: uninitialised buffers of the BigInt and point writers *)
(** /repo pke/twisted_exponential_elgamal.hpp:101-123 *)
Definition write_ct (gp : list N) (ct : TCT G) : list N := write_point G gp (tX G ct) ++ write_point G gp (tY G ct).
Definition read_ct (old : TCT G) (s : list N) : option (TCT G * list N) :=
  do x <- read_point G (tX G old) s; do y <- read_point G (tY G old) (snd x);
  Some ({| tX := fst x; tY := fst y |}, snd y).
Definition write_mrct (gp : list N) (ct : TMRCT G) : list N := write_points G gp (tvX G ct) ++ write_point G gp (tmY G ct).
Definition read_mrct (old : TMRCT G) (s : list N) : option (TMRCT G * list N) :=
  do x <- read_points G (tvX G old) s; do y <- read_point G (tmY G old) (snd x);
  Some ({| tvX := fst x; tmY := fst y |}, snd y).
(** /repo zkp/nizk/nizk_plaintext_equality.hpp:47-59 *)
Definition write_pte (gb gp : list N) (p : PTEProof G) : list N :=
  write_points G gp (pteA G p) ++ write_point G gp (pteB G p) ++ write_bigint gb (ptez G p) ++ write_bigint gb (ptet G p).
Definition read_pte (old : PTEProof G) (s : list N) : option (PTEProof G * list N) :=
  do a <- read_points G (pteA G old) s; do b <- read_point G (pteB G old) (snd a);
  do z <- read_bigint (snd b); do t <- read_bigint (snd z);
  Some ({| pteA := fst a; pteB := fst b; ptez := fst z; ptet := fst t |}, snd t).
(** /repo zkp/nizk/nizk_plaintext_knowledge.hpp:44-54 *)
Definition write_pk (gb gp : list N) (p : PKProof G) : list N :=
  write_point G gp (pkA G p) ++ write_point G gp (pkB G p) ++ write_bigint gb (pkz1 G p) ++ write_bigint gb (pkz2 G p).
Definition read_pk (old : PKProof G) (s : list N) : option (PKProof G * list N) :=
  do a <- read_point G (pkA G old) s; do b <- read_point G (pkB G old) (snd a);
  do z <- read_bigint (snd b); do t <- read_bigint (snd z);
  Some ({| pkA := fst a; pkB := fst b; pkz1 := fst z; pkz2 := fst t |}, snd t).
(** /repo zkp/nizk/nizk_dlog_equality.hpp:39-49 *)
Definition write_dle (gb gp : list N) (p : DLEProof G) : list N :=
  write_point G gp (dleA1 G p) ++ write_point G gp (dleA2 G p) ++ write_bigint gb (dlez G p).
Definition read_dle (old : DLEProof G) (s : list N) : option (DLEProof G * list N) :=
  do a <- read_point G (dleA1 G old) s; do b <- read_point G (dleA2 G old) (snd a); do z <- read_bigint (snd b);
  Some ({| dleA1 := fst a; dleA2 := fst b; dlez := fst z |}, snd z).
(** /repo zkp/bulletproofs/innerproduct_proof.hpp:50-62 *)
Definition write_ip (gb gp : list N) (p : IPProof G) : list N :=
  write_points G gp (ipL G p) ++ write_points G gp (ipR G p) ++ write_bigint gb (ipa G p) ++ write_bigint gb (ipb G p).
Definition read_ip (old : IPProof G) (s : list N) : option (IPProof G * list N) :=
  do l <- read_points G (ipL G old) s; do r <- read_points G (ipR G old) (snd l);
  do a <- read_bigint (snd r); do b <- read_bigint (snd a);
  Some ({| ipL := fst l; ipR := fst r; ipa := fst a; ipb := fst b |}, snd b).
(** /repo zkp/bulletproofs/bullet_proof.hpp:67-82 *)
Definition write_bp (gb gp : list N) (p : BPProof G) : list N :=
  write_point G gp (bpA G p) ++ write_point G gp (bpS G p) ++ write_point G gp (bpT1 G p) ++ write_point G gp (bpT2 G p) ++
  write_bigint gb (bptaux G p) ++ write_bigint gb (bpmu G p) ++ write_bigint gb (bptx G p) ++ write_ip gb gp (bpip G p).
Definition read_bp (old : BPProof G) (s : list N) : option (BPProof G * list N) :=
  do a <- read_point G (bpA G old) s; do ss <- read_point G (bpS G old) (snd a);
  do t1 <- read_point G (bpT1 G old) (snd ss); do t2 <- read_point G (bpT2 G old) (snd t1);
  do x <- read_bigint (snd t2); do y <- read_bigint (snd x); do z <- read_bigint (snd y);
  do ip <- read_ip (bpip G old) (snd z);
  Some ({| bpA := fst a; bpS := fst ss; bpT1 := fst t1; bpT2 := fst t2; bptaux := fst x; bpmu := fst y; bptx := fst z;
           bpip := fst ip |}, snd ip).

(** /repo adcp/adcp.hpp:215-241: sender_balance_ct is not written *)
Definition SaveCTx1 (gb gp : list N) (t : CTx1) : list N :=
  write_bigint gb (c_sn t) ++ write_point G gp (c_pks t) ++ write_point G gp (c_pkr t) ++ write_mrct gp (c_tr t) ++
  write_pte gb gp (c_pte t) ++ write_ct gp (c_ref t) ++ write_dle gb gp (c_dle t) ++ write_pk gb gp (c_pk t) ++
  write_bp gb gp (c_bp t).
(** /repo adcp/adcp.hpp:244-265 into the object [old]; None: the file is too short *)
Definition FetchCTx1 (old : CTx1) (s : list N) : option CTx1 :=
  do sn <- read_bigint s; do pks <- read_point G (c_pks old) (snd sn); do pkr <- read_point G (c_pkr old) (snd pks);
  do tr <- read_mrct (c_tr old) (snd pkr); do pte <- read_pte (c_pte old) (snd tr);
  do ref <- read_ct (c_ref old) (snd pte); do dle <- read_dle (c_dle old) (snd ref);
  do pk <- read_pk (c_pk old) (snd dle); do bp <- read_bp (c_bp old) (snd pk);
  Some {| c_sn := fst sn; c_bal := c_bal old; c_pks := fst pks; c_pkr := fst pkr; c_tr := fst tr; c_pte := fst pte;
          c_bp := fst bp; c_ref := fst ref; c_pk := fst pk; c_dle := fst dle |}.
(** a default-constructed transaction: points at infinity, empty vectors, zeros *)
Definition ctx0 : CTx1 :=
  let ct := {| tX := inf G; tY := inf G |} in
  {| c_sn := 0; c_bal := ct; c_pks := inf G; c_pkr := inf G; c_tr := {| tvX := []; tmY := inf G |};
     c_pte := {| pteA := []; pteB := inf G; ptez := 0; ptet := 0 |};
     c_bp := {| bpA := inf G; bpS := inf G; bpT1 := inf G; bpT2 := inf G; bptaux := 0; bpmu := 0; bptx := 0;
                bpip := {| ipL := []; ipR := []; ipa := 0; ipb := 0 |} |};
     c_ref := ct; c_pk := {| pkA := inf G; pkB := inf G; pkz1 := 0; pkz2 := 0 |};
     c_dle := {| dleA1 := inf G; dleA2 := inf G; dlez := 0 |} |}.

(** /repo adcp/adcp.hpp:187-199 *)
Definition SaveAccount (gb gp : list N) (a : Account) : list N :=
  write_string (ac_id a) ++ write_point G gp (ac_pk a) ++ write_bigint gb (ac_sk a) ++ write_ct gp (ac_ct a) ++
  write_bigint gb (ac_m a) ++ write_bigint gb (ac_sn a).
(** /repo adcp/adcp.hpp:201-212 *)
Definition FetchAccount (old : Account) (s : list N) : option Account :=
  do id <- read_string s; do pk <- read_point G (ac_pk old) (snd id); do sk <- read_bigint (snd pk);
  do ct <- read_ct (ac_ct old) (snd sk); do m <- read_bigint (snd ct); do sn <- read_bigint (snd m);
  Some {| ac_id := fst id; ac_pk := fst pk; ac_sk := fst sk; ac_ct := fst ct; ac_m := fst m; ac_sn := fst sn |}.
End ADCP.

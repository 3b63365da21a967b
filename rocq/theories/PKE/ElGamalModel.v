(** Model of pke/twisted_exponential_elgamal.hpp, pke/exponential_elgamal.hpp and
    pke/elgamal.hpp.  Random draws (GenRandomBigIntLessThan(order)) are explicit
    arguments.  BigInts are integers. *)
From Coq Require Import NArith ZArith List Lia Bool Arith.
From Verif.Base Require Import Words ListX.
From Verif.Utility Require Import SerialModel.
From Verif.Crypto Require Import BigIntModel PRGModel.
From Verif.Group Require Import ECModel.
From Verif.PKE Require Import DlogModel.
Import ListNotations.
Local Open Scope Z_scope.

(** ** Twisted exponential ElGamal *)
Section Twisted.
Variable G : ECGroup.
Variable key : pt G -> N.
Local Infix "+p" := (padd G) (at level 50, left associativity).
Local Infix "-p" := (psub G) (at level 50, left associativity).
Local Notation "P *p k" := (pmul G P k%Z) (at level 40, left associativity).

(** /repo pke/twisted_exponential_elgamal.hpp:12-18 *)
Record TPP : Type := { t_len : nat; t_size : Z; t_trade : nat; t_g : pt G; t_h : pt G }.
(** /repo pke/twisted_exponential_elgamal.hpp:21-25 *)
Record TCT : Type := { tX : pt G; tY : pt G }.
(** /repo pke/twisted_exponential_elgamal.hpp:28-32 *)
Record TMRCT : Type := { tvX : list (pt G); tmY : pt G }.

(** /repo pke/twisted_exponential_elgamal.hpp:132-156; [hash] is Hash::StringToECPoint.
    size_t(pow(2, MSG_LEN)) is 2^MSG_LEN below 2^64 (undefined above). *)
Definition T_Setup (hash : list N -> pt G) (MSG_LEN TRADEOFF_NUM : nat) : TPP :=
  {| t_len := MSG_LEN; t_size := 2 ^ Z.of_nat MSG_LEN; t_trade := TRADEOFF_NUM;
     t_g := pgen G; t_h := hash (ToByteString G (pgen G)) |}.

(** /repo pke/twisted_exponential_elgamal.hpp:160-177; [file] is the content of the
    table file for these parameters if it exists; [garbage] and [bs] are the write
    buffer and the order of the build tasks.  None = exit(EXIT_FAILURE). *)
Definition T_Initialize (garbage : list N) (bs : list nat) (pp : TPP) (st : dstate G) (file : option (list N))
  : option (dstate G) :=
  if CheckDlogParameters (t_len pp) (t_trade pp) then
    let '(st', content) := match file with
                   | Some f => (st, f)
                   | None => BuildSaveTable G key garbage st (t_h pp) (t_len pp) (t_trade pp) bs
                   end in
    LoadTable G st' content (t_len pp) (t_trade pp)
  else None.

(** /repo pke/twisted_exponential_elgamal.hpp:179-192 *)
Definition T_KeyGen (pp : TPP) (sk : Z) : pt G * Z := (t_g pp *p sk, sk).

(** /repo pke/twisted_exponential_elgamal.hpp:195-215 (random r), 218-234; the two
    vectors have size 2, so ECPointVectorMul does not exit *)
Definition T_Enc (pp : TPP) (pk : pt G) (m r : Z) : TCT :=
  {| tX := pk *p r; tY := msum G [t_g pp; t_h pp] [r; m] |}.

(** /repo pke/twisted_exponential_elgamal.hpp:255-262 *)
Definition T_EncPoint (pp : TPP) (pk m : pt G) (r : Z) : TCT :=
  {| tX := pk *p r; tY := t_g pp *p r +p m |}.

(** /repo pke/twisted_exponential_elgamal.hpp:266-269 *)
Definition T_DecECPoint (sk : Z) (ct : TCT) : pt G := tY ct -p tX ct *p ModInverse sk (order G).

(** /repo pke/twisted_exponential_elgamal.hpp:238-251; [sched] is the interleaving of
    the search tasks.  None = exit(EXIT_FAILURE). *)
Definition T_Dec (pp : TPP) (st : dstate G) (sk : Z) (ct : TCT) (sched : list nat) : option Z :=
  let M := tY ct -p tX ct *p ModInverse sk (order G) in
  match ShanksDLOG G key st M (t_len pp) (t_trade pp) 0 sched with
  | Some (true, m) => Some m
  | _ => None
  end.

(** /repo pke/twisted_exponential_elgamal.hpp:276-292 *)
Definition T_ReEnc (pp : TPP) (pk : pt G) (sk : Z) (ct : TCT) (r : Z) : TCT :=
  let M := tY ct -p tX ct *p ModInverse sk (order G) in
  {| tX := pk *p r; tY := t_g pp *p r +p M |}.

(** /repo pke/twisted_exponential_elgamal.hpp:298-313 *)
Definition T_ReRand (pp : TPP) (pk : pt G) (ct : TCT) (r : Z) : TCT :=
  {| tX := tX ct +p pk *p r; tY := tY ct +p t_g pp *p r |}.

(** /repo pke/twisted_exponential_elgamal.hpp:317-341 *)
Definition T_HomoAdd (a b : TCT) : TCT := {| tX := tX a +p tX b; tY := tY a +p tY b |}.
Definition T_HomoSub (a b : TCT) : TCT := {| tX := tX a -p tX b; tY := tY a -p tY b |}.
Definition T_ScalarMul (a : TCT) (k : Z) : TCT := {| tX := tX a *p k; tY := tY a *p k |}.

(** /repo pke/twisted_exponential_elgamal.hpp:351-369 *)
Definition T_MREnc (pp : TPP) (pks : list (pt G)) (m r : Z) : TMRCT :=
  {| tvX := map (fun pk => pk *p r) pks; tmY := t_g pp *p r +p t_h pp *p m |}.

(** /repo pke/twisted_exponential_elgamal.hpp:37-40 *)
Definition T_eqb (a b : TCT) : bool := peqb G (tX a) (tX b) && peqb G (tY a) (tY b).

(** /repo pke/twisted_exponential_elgamal.hpp:68-72, 75-83 *)
Definition T_CTToByteString (ct : TCT) : list N := ToByteString G (tX ct) ++ ToByteString G (tY ct).
Definition T_MRCTToByteString (ct : TMRCT) : list N :=
  concat (map (ToByteString G) (tvX ct)) ++ ToByteString G (tmY ct).
End Twisted.

(** ** Exponential ElGamal *)
Section Exponential.
Variable G : ECGroup.
Variable key : pt G -> N.
Local Infix "+p" := (padd G) (at level 50, left associativity).
Local Infix "-p" := (psub G) (at level 50, left associativity).
Local Notation "P *p k" := (pmul G P k%Z) (at level 40, left associativity).

(** /repo pke/exponential_elgamal.hpp:12-18, 21-25, 29-33 *)
Record EPP : Type := { e_len : nat; e_size : Z; e_trade : nat; e_g : pt G }.
Record ECT : Type := { eX : pt G; eY : pt G }.
Record EMRCT : Type := { emX : pt G; evY : list (pt G) }.

(** /repo pke/exponential_elgamal.hpp:129-150 *)
Definition E_Setup (MSG_LEN TRADEOFF_NUM : nat) : EPP :=
  {| e_len := MSG_LEN; e_size := 2 ^ Z.of_nat MSG_LEN; e_trade := TRADEOFF_NUM; e_g := pgen G |}.
(** /repo pke/exponential_elgamal.hpp:154-170 *)
Definition E_Initialize (garbage : list N) (bs : list nat) (pp : EPP) (st : dstate G) (file : option (list N))
  : option (dstate G) :=
  if CheckDlogParameters (e_len pp) (e_trade pp) then
    let '(st', content) := match file with
                   | Some f => (st, f)
                   | None => BuildSaveTable G key garbage st (e_g pp) (e_len pp) (e_trade pp) bs
                   end in
    LoadTable G st' content (e_len pp) (e_trade pp)
  else None.
(** /repo pke/exponential_elgamal.hpp:173-185 *)
Definition E_KeyGen (pp : EPP) (sk : Z) : pt G * Z := (e_g pp *p sk, sk).
(** /repo pke/exponential_elgamal.hpp:189-209, 212-227 *)
Definition E_Enc (pp : EPP) (pk : pt G) (m r : Z) : ECT :=
  {| eX := e_g pp *p r; eY := msum G [pk; e_g pp] [r; m] |}.
(** /repo pke/exponential_elgamal.hpp:230-243 *)
Definition E_Dec (pp : EPP) (st : dstate G) (sk : Z) (ct : ECT) (sched : list nat) : option Z :=
  let M := eY ct -p eX ct *p sk in
  match ShanksDLOG G key st M (e_len pp) (e_trade pp) 0 sched with
  | Some (true, m) => Some m
  | _ => None
  end.
(** /repo pke/exponential_elgamal.hpp:250-266 *)
Definition E_ReEnc (pp : EPP) (pk : pt G) (sk : Z) (ct : ECT) (r : Z) : ECT :=
  let M := eY ct -p eX ct *p sk in
  {| eX := e_g pp *p r; eY := pk *p r +p M |}.
(** /repo pke/exponential_elgamal.hpp:272-287 *)
Definition E_ReRand (pp : EPP) (pk : pt G) (ct : ECT) (r : Z) : ECT :=
  {| eX := eX ct +p e_g pp *p r; eY := eY ct +p pk *p r |}.
(** /repo pke/exponential_elgamal.hpp:291-315 *)
Definition E_HomoAdd (a b : ECT) : ECT := {| eX := eX a +p eX b; eY := eY a +p eY b |}.
Definition E_HomoSub (a b : ECT) : ECT := {| eX := eX a -p eX b; eY := eY a -p eY b |}.
Definition E_ScalarMul (a : ECT) (k : Z) : ECT := {| eX := eX a *p k; eY := eY a *p k |}.
(** /repo pke/exponential_elgamal.hpp:325-340 *)
Definition E_MREnc (pp : EPP) (pks : list (pt G)) (m r : Z) : EMRCT :=
  {| emX := e_g pp *p r; evY := map (fun pk => pk *p r +p e_g pp *p m) pks |}.
End Exponential.

(** ** ElGamal over the curve (pke/elgamal.hpp without X25519 acceleration) *)
Section Plain.
Variable G : ECGroup.
Local Infix "+p" := (padd G) (at level 50, left associativity).
Local Infix "-p" := (psub G) (at level 50, left associativity).
Local Notation "P *p k" := (pmul G P k%Z) (at level 40, left associativity).

(** /repo pke/elgamal.hpp:30-34 *)
Record GCT : Type := { gX : pt G; gY : pt G }.
(** /repo pke/elgamal.hpp:98-111 *)
Definition G_KeyGen (g : pt G) (sk : Z) : pt G * Z := (g *p sk, sk).
(** /repo pke/elgamal.hpp:114-130, 133-146 *)
Definition G_Enc (g pk m : pt G) (r : Z) : GCT := {| gX := g *p r; gY := pk *p r +p m |}.
(** /repo pke/elgamal.hpp:152-167 *)
Definition G_ReRand (g pk : pt G) (ct : GCT) (r : Z) : GCT :=
  {| gX := gX ct +p g *p r; gY := gY ct +p pk *p r |}.
(** /repo pke/elgamal.hpp:170-173 *)
Definition G_Dec (sk : Z) (ct : GCT) : pt G := gY ct -p gX ct *p sk.
(** EC_POINT_point2oct into a zero-filled slot of 65 bytes: infinity writes one zero *)
Definition point_slot (P : pt G) : list N :=
  if peqb G P (inf G) then repeat 0%N 65 else unc65 G P.
(** EC_POINT_oct2point into a default-constructed point, result code ignored *)
Definition slot_point (s : list N) : pt G :=
  match oct65 G s with Some P => P | None => inf G end.
(** /repo pke/elgamal.hpp:176-191 *)
Definition CTtoByteArray (ct : GCT) : list N := point_slot (gX ct) ++ point_slot (gY ct).
(** /repo pke/elgamal.hpp:193-206; None = read past the end of the buffer *)
Definition ByteArraytoCT (buffer : list N) : option GCT :=
  if (length buffer <? 130)%nat then None
  else Some {| gX := slot_point (firstn 65 buffer); gY := slot_point (firstn 65 (skipn 65 buffer)) |}.
End Plain.

(** ** ElGamal over X25519 (the default) *)

(** The external routine x25519_scalar_mulx, with the law Diffie-Hellman relies on. *)
Record X25519 : Type := mkX25519 {
  xmul : list N -> list N -> list N;      (* scalar, u-coordinate *)
  xmul_length : forall a P, length (xmul a P) = 32%nat;
  xmul_bytes : forall a P, bytes_ok (xmul a P);
  xmul_comm : forall a b P, xmul a (xmul b P) = xmul b (xmul a P)
}.

Section XElGamal.
Variable X : X25519.
(** /repo crypto/ec_25519.hpp:83-87 (Mul) *)
Definition XMul (P scalar : list N) : list N := xmul X scalar P.
(** /repo crypto/ec_25519.hpp:89-97 (XOR of the 32 bytes; the parallel iterations write
    disjoint bytes) *)
Definition XXor (P Q : list N) : list N := map2 N.lxor P Q.

(** /repo crypto/prg.hpp:18 fixed_seed, as the block SetSeed loads from it *)
Definition fixed_seed : N :=
  le_val [0x61; 0x7e; 0x8d; 0xa2; 0xa0; 0x51; 0x1e; 0x96; 0x5e; 0x41; 0xc2; 0x9b; 0x15; 0x3f; 0xc7; 0x7a]%N.
(** the two lines PRG::SetSeed(fixed_seed, 0); GenRandomBytes(seed, _, 32) of Setup,
    KeyGen and Enc: pke/elgamal.hpp:267-268, 283-284, 303-304.  [entropy] is what the
    system's random device would have returned. *)
Definition draw32 (entropy : N) : list N :=
  fst (GenRandomBytes (SetSeed entropy (Some fixed_seed) 0) 32).

Record XCT : Type := { xX : list N; xY : list N }.
(** /repo pke/elgamal.hpp:263-276 *)
Definition X_Setup (entropy : N) : list N := draw32 entropy.
(** /repo pke/elgamal.hpp:280-294 *)
Definition X_KeyGen (g : list N) (entropy : N) : list N * list N :=
  let sk := draw32 entropy in (XMul g sk, sk).
(** /repo pke/elgamal.hpp:319-332: explicit randomness *)
Definition X_EncWith (g pk m r : list N) : XCT := {| xX := XMul g r; xY := XXor (XMul pk r) m |}.
(** /repo pke/elgamal.hpp:298-316 *)
Definition X_Enc (g pk m : list N) (entropy : N) : XCT := X_EncWith g pk m (draw32 entropy).
(** /repo pke/elgamal.hpp:335-338 *)
Definition X_Dec (sk : list N) (ct : XCT) : list N := XXor (xY ct) (XMul (xX ct) sk).
End XElGamal.

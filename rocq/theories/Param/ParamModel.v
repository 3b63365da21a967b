(** Model of the parameter files: operator<<, operator>>, Setup, SavePP and FetchPP of the protocols.

    Which operator a field goes through is decided by name lookup.  The namespaces with
    "using Serialization::operator<<" write a size_t as 8 raw bytes.  NPOT, IKNPOTE, ALSZOTE, PRG and DDHOPRF declare their
    own operator<< without that using-declaration; it hides the one of Serialization, so that a size_t is written
    by std::ostream as decimal text and a uint8_t as one character.

    The C++ library (libstdc++, classic locale) is modelled by [ifs]: the bytes left and whether the stream is good.
    On a stream that is not good every operation leaves its target alone. *)
From Coq Require Import NArith ZArith List Bool Arith.
From Verif.Base Require Import Words ListX.
From Verif.Crypto Require Import BlockModel AESModel PRGModel BigIntModel.
From Verif.Group Require Import ECModel.
Import ListNotations.
Local Open Scope N_scope.

Record ifs := mkIfs { left_ : list N; good : bool }.

(** fin.read(p, w) into an object of w bytes (utility/serialization.hpp:22-26, 36-41): a short read changes the first bytes *)
Definition fill (w : nat) (old : list N) (st : ifs) : list N * ifs :=
  if good st then
    let n := Nat.min w (length (left_ st)) in
    (firstn n (left_ st) ++ skipn n old, mkIfs (skipn n (left_ st)) (w <=? length (left_ st))%nat)
  else (old, st).
(** the same for a number of w bytes *)
Definition read_raw (w : nat) (old : N) (st : ifs) : N * ifs :=
  let '(b, st) := fill w (le_bytes w old) st in (le_val b, st).

(** ** decimal text: std::ostream::operator<<(unsigned long), std::istream::operator>>(unsigned long&) *)
Fixpoint dec_aux (fuel : nat) (x : N) (acc : list N) : list N :=
  match fuel with
  | O => acc
  | S f => let acc := (48 + x mod 10) :: acc in if x / 10 =? 0 then acc else dec_aux f (x / 10) acc
  end.
(** a 64-bit number has at most 20 digits *)
Definition dec (x : N) : list N := dec_aux 20 x [].
Definition is_digit (c : N) : bool := (48 <=? c) && (c <=? 57).
(** isspace *)
Definition is_space (c : N) : bool := ((9 <=? c) && (c <=? 13)) || (c =? 32).
Fixpoint span (p : N -> bool) (s : list N) : list N * list N :=
  match s with
  | c :: r => if p c then let '(a, b) := span p r in (c :: a, b) else ([], s)
  | [] => ([], [])
  end.
Definition digits_val (a : N) (ds : list N) : N := fold_left (fun v d => 10 * v + (d - 48)) ds a.
(** 45 is '-', 43 '+' *)
Definition sign (s : list N) : bool * list N :=
  match s with
  | c :: r => if c =? 45 then (true, r) else if c =? 43 then (false, r) else (false, s)
  | [] => (false, [])
  end.
Definition nonempty {A} (s : list A) : bool := match s with [] => false | _ => true end.
Definition read_dec (old : N) (st : ifs) : N * ifs :=
  if good st then
    let s := snd (span is_space (left_ st)) in
    if nonempty s then
      let '(neg, s) := sign s in
      let '(ds, r) := span is_digit s in
      if nonempty ds then
        let v := digits_val 0 ds in
        if v <? 2 ^ 64 then ((if neg : bool then (2 ^ 64 - v) mod 2 ^ 64 else v), mkIfs r (nonempty r)) else (2 ^ 64 - 1, mkIfs r false)
      else (0, mkIfs r false)
    else (old, mkIfs [] false)
  else (old, st).
(** std::operator>>(istream&, unsigned char&): one character that is not white space *)
Definition read_char (old : N) (st : ifs) : N * ifs :=
  if good st then
    match snd (span is_space (left_ st)) with
    | c :: r => (c, mkIfs r true)
    | [] => (old, mkIfs [] false)
    end
  else (old, st).

Section Params.
Variable G : ECGroup.
Variable garbage : list N.     (* the uninitialised buffers of 65 bytes in crypto/ec_point.hpp:279, 295 *)
(** crypto/ec_point.hpp:293-306 on such a stream *)
Definition get_point (old : pt G) (st : ifs) : pt G * ifs :=
  let '(b, st) := fill 65 garbage st in ((match oct65 G b with Some P => P | None => old end), st).

(** ** mpc/ot/naor_pinkas_ot.hpp:21-83: the parameters are one point; Setup: the generator *)
Definition NPOT_write (g : pt G) : list N := write_point G garbage g.
Definition NPOT_read : pt G -> ifs -> pt G * ifs := get_point.

(** ** mpc/ot/iknp_ote.hpp:24-95 and mpc/ot/alsz_ote.hpp:27-97 *)
Record OTEPP := mkOTE { malicious : N; baseOT : pt G; BASE_LEN : N }.
(** iknp_ote.hpp:40-46, alsz_ote.hpp:42-48: a point, a character, decimal text *)
Definition OTE_write (p : OTEPP) : list N := NPOT_write (baseOT p) ++ [malicious p] ++ dec (BASE_LEN p).
(** iknp_ote.hpp:50-56, alsz_ote.hpp:52-58 *)
Definition OTE_read (old : OTEPP) (st : ifs) : OTEPP * ifs :=
  let '(g, st) := NPOT_read (baseOT old) st in
  let '(m, st) := read_char (malicious old) st in
  let '(n, st) := read_dec (BASE_LEN old) st in (mkOTE m g n, st).
(** iknp_ote.hpp:58-65 *)
Definition IKNP_Setup (len : N) : OTEPP := mkOTE 0 (pgen G) len.
(** alsz_ote.hpp:61-67: the argument is not used *)
Definition ALSZ_Setup (len : N) : OTEPP := mkOTE 0 (pgen G) 128.

(** ** mpc/rpmt/cwprf_mqrpmt.hpp:25-91 and mpc/rpmt/rrpke_mqrpmt.hpp:35-105 *)
Record MQPP := mkMQ { mq_stat : N; mq_logS : N; mq_S : N; mq_logC : N; mq_C : N }.
(** cwprf_mqrpmt.hpp:34-43, rrpke_mqrpmt.hpp:45-55 *)
Definition MQ_write (p : MQPP) : list N :=
  le_bytes 8 (mq_stat p) ++ le_bytes 8 (mq_logS p) ++ le_bytes 8 (mq_S p) ++ le_bytes 8 (mq_logC p) ++ le_bytes 8 (mq_C p).
(** cwprf_mqrpmt.hpp:46-55, rrpke_mqrpmt.hpp:58-69 *)
Definition MQ_read (old : MQPP) (st : ifs) : MQPP * ifs :=
  let '(a, st) := read_raw 8 (mq_stat old) st in
  let '(b, st) := read_raw 8 (mq_logS old) st in
  let '(c, st) := read_raw 8 (mq_S old) st in
  let '(d, st) := read_raw 8 (mq_logC old) st in
  let '(e, st) := read_raw 8 (mq_C old) st in (mkMQ a b c d e, st).
(** size_t(pow(2, n)); None: the conversion is undefined *)
Definition pow2 (n : N) : option N := if n <? 64 then Some (2 ^ n) else None.
(** cwprf_mqrpmt.hpp:57-66, rrpke_mqrpmt.hpp:71-82 *)
Definition MQ_Setup (stat logS logC : N) : option MQPP :=
  match pow2 logS, pow2 logC with Some a, Some b => Some (mkMQ stat logS a logC b) | _, _ => None end.

(** ** mpc/psi/cwprf_psi.hpp:37-118 *)
Record CWPP := mkCW { cw_stat : N; cw_comp : N; cw_logS : N; cw_S : N; cw_logR : N; cw_R : N; cw_trunc : N }.
(** cwprf_psi.hpp:49-59 *)
Definition CW_write (p : CWPP) : list N :=
  le_bytes 8 (cw_stat p) ++ le_bytes 8 (cw_comp p) ++ le_bytes 8 (cw_logS p) ++ le_bytes 8 (cw_S p) ++ le_bytes 8 (cw_logR p) ++
  le_bytes 8 (cw_R p) ++ le_bytes 8 (cw_trunc p).
(** cwprf_psi.hpp:62-73 *)
Definition CW_read (old : CWPP) (st : ifs) : CWPP * ifs :=
  let '(a, st) := read_raw 8 (cw_stat old) st in
  let '(b, st) := read_raw 8 (cw_comp old) st in
  let '(c, st) := read_raw 8 (cw_logS old) st in
  let '(d, st) := read_raw 8 (cw_S old) st in
  let '(e, st) := read_raw 8 (cw_logR old) st in
  let '(f, st) := read_raw 8 (cw_R old) st in
  let '(h, st) := read_raw 8 (cw_trunc old) st in (mkCW a b c d e f h, st).
(** cwprf_psi.hpp:75-94 *)
Definition CW_Setup (comp stat logS logR : N) : option CWPP :=
  match pow2 logS, pow2 logR with
  | Some a, Some b => Some (mkCW stat comp logS a logR b (wrap64 (stat + logS + logR + 7) / 8))
  | _, _ => None
  end.

(** ** mpc/pso/mqrpmt_psi.hpp:18-103, mqrpmt_psi_card.hpp:17-101, mqrpmt_psu.hpp:17-101 *)
Record PSOPP := mkPSO { ote_part : OTEPP; mqrpmt_part : MQPP; ps_logS : N; ps_logR : N; ps_S : N; ps_R : N }.
(** mqrpmt_psi.hpp:47-59, mqrpmt_psi_card.hpp:45-57, mqrpmt_psu.hpp:45-57 *)
Definition PSO_write (p : PSOPP) : list N :=
  OTE_write (ote_part p) ++ MQ_write (mqrpmt_part p) ++
  le_bytes 8 (ps_logS p) ++ le_bytes 8 (ps_logR p) ++ le_bytes 8 (ps_S p) ++ le_bytes 8 (ps_R p).
(** mqrpmt_psi.hpp:78-89, mqrpmt_psi_card.hpp:76-87, mqrpmt_psu.hpp:76-87 *)
Definition PSO_read (old : PSOPP) (st : ifs) : PSOPP * ifs :=
  let '(o, st) := OTE_read (ote_part old) st in
  let '(m, st) := MQ_read (mqrpmt_part old) st in
  let '(a, st) := read_raw 8 (ps_logS old) st in
  let '(b, st) := read_raw 8 (ps_logR old) st in
  let '(c, st) := read_raw 8 (ps_S old) st in
  let '(d, st) := read_raw 8 (ps_R old) st in (mkPSO o m a b c d, st).
(** mqrpmt_psi.hpp:30-44, mqrpmt_psi_card.hpp:28-43, mqrpmt_psu.hpp:28-43: the receiver is the server of the mqRPMT *)
Definition PSO_Setup (comp stat logS logR : N) : option PSOPP :=
  match MQ_Setup stat logR logS, pow2 logS, pow2 logR with
  | Some m, Some a, Some b => Some (mkPSO (ALSZ_Setup comp) m logS logR a b)
  | _, _, _ => None
  end.

(** ** mpc/pso/mqrpmt_psi_card_sum.hpp:17-116: the same and two more *)
Record SUMPP := mkSUM { sum_pso : PSOPP; LOG_SUM_BOUND : N; LOG_VALUE_BOUND : N }.
(** mqrpmt_psi_card_sum.hpp:56-70 *)
Definition SUM_write (p : SUMPP) : list N := PSO_write (sum_pso p) ++ le_bytes 8 (LOG_SUM_BOUND p) ++ le_bytes 8 (LOG_VALUE_BOUND p).
(** mqrpmt_psi_card_sum.hpp:89-102 *)
Definition SUM_read (old : SUMPP) (st : ifs) : SUMPP * ifs :=
  let '(p, st) := PSO_read (sum_pso old) st in
  let '(a, st) := read_raw 8 (LOG_SUM_BOUND old) st in
  let '(b, st) := read_raw 8 (LOG_VALUE_BOUND old) st in (mkSUM p a b, st).
(** mqrpmt_psi_card_sum.hpp:30-53 *)
Definition SUM_Setup (comp stat logS logR logsum logval : N) : option SUMPP :=
  match PSO_Setup comp stat logS logR with
  | Some p => if logsum mod 8 =? 0 then Some (mkSUM p logsum logval) else None
  | None => None
  end.

(** ** mpc/oprf/ddh_oprf.hpp:19-73: two numbers as decimal text, nothing between them *)
Record DDHPP := mkDDH { dd_KEY_SIZE : N; dd_RANGE_SIZE : N }.
(** ddh_oprf.hpp:26-31 *)
Definition DDH_write (p : DDHPP) : list N := dec (dd_KEY_SIZE p) ++ dec (dd_RANGE_SIZE p).
(** ddh_oprf.hpp:34-39 *)
Definition DDH_read (old : DDHPP) (st : ifs) : DDHPP * ifs :=
  let '(a, st) := read_dec (dd_KEY_SIZE old) st in
  let '(b, st) := read_dec (dd_RANGE_SIZE old) st in (mkDDH a b, st).
(** ddh_oprf.hpp:41-47: BN_BYTE_LEN and HASH_OUTPUT_LEN *)
Definition DDH_Setup : DDHPP := mkDDH 32 32.

(** ** crypto/prg.hpp:35-49 and crypto/aes.hpp:34-51: the counter as decimal text, then 11 round keys and the number of rounds *)
Fixpoint blocks_write (v : list N) : list N := match v with [] => [] | b :: r => le_bytes 16 b ++ blocks_write r end.
Fixpoint blocks_read (old : list N) (st : ifs) : list N * ifs :=
  match old with
  | [] => ([], st)
  | o :: r => let '(b, st) := read_raw 16 o st in let '(l, st) := blocks_read r st in (b :: l, st)
  end.
Definition Key_write (k : Key) : list N := blocks_write (roundkey k) ++ le_bytes 8 (N.of_nat (ROUND_NUM k)).
Definition Key_read (old : Key) (st : ifs) : Key * ifs :=
  let '(l, st) := blocks_read (roundkey old) st in
  let '(n, st) := read_raw 8 (N.of_nat (ROUND_NUM old)) st in (mkKey l (N.to_nat n), st).
Definition Seed_write (s : Seed) : list N := dec (counter s) ++ Key_write (aes_key s).
Definition Seed_read (old : Seed) (st : ifs) : Seed * ifs :=
  let '(c, st) := read_dec (counter old) st in
  let '(k, st) := Key_read (aes_key old) st in (mkSeed c k, st).

(** ** mpc/oprf/ote_oprf.hpp:35-151 *)
Record OOPP := mkOO { oo_sizes : list N;  (* KEY_SIZE, RANGE_SIZE, STATISTICAL_SECURITY_PARAMETER, INPUT_NUM, MATRIX_HEIGHT,
                                            LOG_MATRIX_HEIGHT, MATRIX_WIDTH, BATCH_SIZE *)
  common_seed : Seed; npot_part : pt G }.
Fixpoint sizes_write (v : list N) : list N := match v with [] => [] | x :: r => le_bytes 8 x ++ sizes_write r end.
Fixpoint sizes_read (old : list N) (st : ifs) : list N * ifs :=
  match old with
  | [] => ([], st)
  | o :: r => let '(x, st) := read_raw 8 o st in let '(l, st) := sizes_read r st in (x :: l, st)
  end.
(** ote_oprf.hpp:85-101 *)
Definition OO_write (p : OOPP) : list N := sizes_write (oo_sizes p) ++ Seed_write (common_seed p) ++ NPOT_write (npot_part p).
(** ote_oprf.hpp:104-120 *)
Definition OO_read (old : OOPP) (st : ifs) : OOPP * ifs :=
  let '(v, st) := sizes_read (oo_sizes old) st in
  let '(s, st) := Seed_read (common_seed old) st in
  let '(g, st) := NPOT_read (npot_part old) st in (mkOO v s g, st).
(** fixed_seed, crypto/prg.hpp:18, as a little-endian number *)
Definition fixed_seed : N := le_val [97; 126; 141; 162; 160; 81; 30; 150; 94; 65; 194; 155; 21; 63; 199; 122].
(** ote_oprf.hpp:54-82; KEY_SIZE is not assigned ([key_size]); 1 << n is an int, defined up to n = 30 *)
Definition OO_Setup (key_size logn stat : N) : option OOPP :=
  if logn <? 31 then
    Some (mkOO [key_size; (stat + 2 * logn + 7) / 8; stat; 2 ^ logn; 2 ^ logn; logn;
                if logn <=? 10 then 591 else if logn <=? 12 then 597 else if logn <=? 14 then 603 else if logn <=? 16 then 609
                else if logn <=? 18 then 615 else if logn <=? 20 then 621 else 633;
                if logn <? 10 then 2 ^ (logn / 2) else 512]
               (ReSeed fixed_seed 0) (pgen G))
  else None.

(** ** mpc/pso/mqrpmt_private_id.hpp:20-91: VOLEOPRF::PP (mpc/oprf/vole_oprf.hpp:45-66) has no operators of its own, so the
    template of utility/serialization.hpp copies its bytes; it holds no pointers.  [oprf_bytes]: its object representation *)
Record PIDPP := mkPID { oprf_bytes : list N; psu_part : PSOPP; pid_sizes : list N }.
(** mqrpmt_private_id.hpp:52-71 *)
Definition PID_write (p : PIDPP) : list N := oprf_bytes p ++ PSO_write (psu_part p) ++ sizes_write (pid_sizes p).
(** mqrpmt_private_id.hpp:74-94 *)
Definition PID_read (old : PIDPP) (st : ifs) : PIDPP * ifs :=
  let '(b, st) := fill (length (oprf_bytes old)) (oprf_bytes old) st in
  let '(p, st) := PSO_read (psu_part old) st in
  let '(v, st) := sizes_read (pid_sizes old) st in (mkPID b p v, st).

(** ** zkp/bulletproofs/bullet_proof.hpp:14-54, pke/twisted_exponential_elgamal.hpp:12-19, 83-97, adcp/adcp.hpp:26-40, 140-185 *)
Variable garbage32 : list N.   (* the uninitialised buffers of crypto/bigint.hpp:630, 638 *)
(** crypto/bigint.hpp:636-642 on such a stream *)
Definition get_bigint (st : ifs) : Z * ifs := let '(b, st) := fill 32 garbage32 st in (BN_bin2bn b, st).
(** crypto/ec_point.hpp:323-329 *)
Fixpoint get_points (old : list (pt G)) (st : ifs) : list (pt G) * ifs :=
  match old with
  | [] => ([], st)
  | o :: r => let '(P, st) := get_point o st in let '(l, st) := get_points r st in (P :: l, st)
  end.
(** std::vector<ECPoint>::resize: new points are at infinity *)
Definition resize_points (n : nat) (v : list (pt G)) : list (pt G) := firstn n v ++ repeat (inf G) (n - length v).
Record BulletPP := mkBullet { bu_range : N; bu_log : N; bu_agg : N; bu_g : pt G; bu_h : pt G; bu_u : pt G;
  bu_vg : list (pt G); bu_vh : list (pt G) }.
(** bullet_proof.hpp:32-39 *)
Definition Bullet_write (p : BulletPP) : list N :=
  le_bytes 8 (bu_range p) ++ le_bytes 8 (bu_log p) ++ le_bytes 8 (bu_agg p) ++
  write_point G garbage (bu_g p) ++ write_point G garbage (bu_h p) ++ write_point G garbage (bu_u p) ++
  write_points G garbage (bu_vg p) ++ write_points G garbage (bu_vh p).
(** bullet_proof.hpp:41-53 *)
Definition Bullet_read (old : BulletPP) (st : ifs) : BulletPP * ifs :=
  let '(a, st) := read_raw 8 (bu_range old) st in
  let '(b, st) := read_raw 8 (bu_log old) st in
  let '(c, st) := read_raw 8 (bu_agg old) st in
  let '(g, st) := get_point (bu_g old) st in
  let '(h, st) := get_point (bu_h old) st in
  let '(u, st) := get_point (bu_u old) st in
  let n := N.to_nat (wrap64 (a * c)) in
  let '(vg, st) := get_points (resize_points n (bu_vg old)) st in
  let '(vh, st) := get_points (resize_points n (bu_vh old)) st in (mkBullet a b c g h u vg vh, st).
Record TwistedPP := mkTwisted { tw_len : N; tw_size : Z; tw_trade : N; tw_g : pt G; tw_h : pt G }.
(** twisted_exponential_elgamal.hpp:83-89 *)
Definition Twisted_write (p : TwistedPP) : list N :=
  le_bytes 8 (tw_len p) ++ le_bytes 8 (tw_trade p) ++ write_bigint garbage32 (tw_size p) ++
  write_point G garbage (tw_g p) ++ write_point G garbage (tw_h p).
(** twisted_exponential_elgamal.hpp:91-97 *)
Definition Twisted_read (old : TwistedPP) (st : ifs) : TwistedPP * ifs :=
  let '(a, st) := read_raw 8 (tw_len old) st in
  let '(b, st) := read_raw 8 (tw_trade old) st in
  let '(z, st) := get_bigint st in
  let '(g, st) := get_point (tw_g old) st in
  let '(h, st) := get_point (tw_h old) st in (mkTwisted a z b g h, st).
Record ADCPPP := mkADCP { ad_sn : N; ad_recv : N; ad_coins : Z; ad_bullet : BulletPP; ad_enc : TwistedPP; ad_pka : pt G }.
(** adcp.hpp:156-170 *)
Definition ADCP_write (p : ADCPPP) : list N :=
  le_bytes 8 (ad_recv p) ++ le_bytes 8 (ad_sn p) ++ write_bigint garbage32 (ad_coins p) ++ write_point G garbage (ad_pka p) ++
  Bullet_write (ad_bullet p) ++ Twisted_write (ad_enc p).
(** adcp.hpp:172-185 *)
Definition ADCP_read (old : ADCPPP) (st : ifs) : ADCPPP * ifs :=
  let '(r, st) := read_raw 8 (ad_recv old) st in
  let '(s, st) := read_raw 8 (ad_sn old) st in
  let '(c, st) := get_bigint st in
  let '(k, st) := get_point (ad_pka old) st in
  let '(b, st) := Bullet_read (ad_bullet old) st in
  let '(e, st) := Twisted_read (ad_enc old) st in (mkADCP s r c b e k, st).
End Params.

(** FetchPP opens the file and reads the object [old] from it (the same function in every namespace, e.g.
    mqrpmt_psi.hpp:92-103); SavePP writes one object to an empty file *)
Definition fetch {A} (rd : A -> ifs -> A * ifs) (old : A) (file : list N) : A := fst (rd old (mkIfs file true)).

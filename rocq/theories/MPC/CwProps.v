(** C59: mqRPMT answers membership; C63: cwPRF-PSI outputs the intersection; C85: what the messages reveal. *)
From Coq Require Import NArith ZArith List Bool Arith Lia Permutation.
From Coq Require Import ZifyBool ZifyNat ZifyN.
From Verif.Base Require Import Words ListX.
From Verif.Filter Require Import MurmurModel BloomModel BloomSpec BloomProofs BloomProps.
From Verif.Crypto Require Import BigIntModel BigIntProofs PRGModel PRGProofs AESProps.
From Verif.Group Require Import ECModel ECProofs ZqGroup.
From Verif.PKE Require Import DlogProps ElGamalModel ElGamalProps.
From Verif.Net Require Import ChannelModel ChannelSpec PartyModel PartyProofs.
From Verif.OT Require Import OTModel OTSpec OTProofs OTRun.
From Verif.MPC Require Import HashModel DDHModel DDHProofs DDHProps CwModel CwSpec CwProofs.
Import ListNotations.
Local Open Scope N_scope.

Lemma bytes_eqb_reflect : forall a b, reflect (a = b) (bytes_eqb a b).
Proof. intros a b. unfold bytes_eqb. destruct (list_eq_dec N.eq_dec a b); constructor; assumption. Qed.

(** ** the prime256v1 variant *)
Section EC.
Variable G : ECGroup.
Variable set_compressed : list N -> N -> option (pt G).
Variable H : N -> pt G.
Hypothesis set_finite : forall x y P, set_compressed x y = Some P -> P <> inf G.
Hypothesis H_value : hashes_to G set_compressed H.
Variable FK : N -> list N -> N.
Variable big_salt : N -> N -> list N.
Variable raw_bits : N -> N -> N.
Variable order_of : list insert_step -> list insert_step.
Variable contain : BloomFilter -> nat -> list N -> bool.
Hypothesis ORD : any_order order_of.
Hypothesis SALT : salts_total big_salt.
Hypothesis ANS : any_answer FK contain.
Local Notation isblock x := (x < 2 ^ 128).
Local Notation exponent z := (1 <= z < order G)%Z.
(** the bytes of H(x)^(k1 k2) *)
Definition tag (k1 k2 : Z) (x : N) : list N := unc65 G (pmul G (H x) (k1 * k2)%Z).

Lemma point_bytes_finite : forall P, P <> inf G -> point_bytes G P = unc65 G P.
Proof. intros P F. unfold point_bytes. destruct (peqb_spec G P (inf G)); [contradiction|reflexivity]. Qed.
Lemma unc65_inj : forall P Q, P <> inf G -> Q <> inf G -> unc65 G P = unc65 G Q -> P = Q.
Proof. intros P Q FP FQ E. pose proof (oct65_unc65 G P FP) as A. rewrite E, (oct65_unc65 G Q FQ) in A. congruence. Qed.
Lemma twice_finite : forall k1 k2 x, exponent k1 -> exponent k2 -> isblock x -> pmul G (pmul G (H x) k1) k2 <> inf G.
Proof. intros. apply mul_finite; [|assumption]. apply mul_finite; [|assumption]. apply (H_finite G set_compressed H set_finite H_value). assumption. Qed.
Lemma twice_tag : forall k1 k2 x, exponent k1 -> exponent k2 -> isblock x -> point_bytes G (pmul G (pmul G (H x) k1) k2) = tag k1 k2 x.
Proof. intros. rewrite point_bytes_finite by (apply twice_finite; assumption). unfold tag. rewrite pmul_mul. reflexivity. Qed.
Lemma twice_tag' : forall k1 k2 x, exponent k1 -> exponent k2 -> isblock x -> point_bytes G (pmul G (pmul G (H x) k2) k1) = tag k1 k2 x.
Proof. intros. rewrite point_bytes_finite by (apply twice_finite; assumption). unfold tag. rewrite pmul_mul. do 2 f_equal. lia. Qed.
Lemma tag_inj : forall k1 k2 x y, exponent k1 -> exponent k2 -> isblock x -> isblock y -> tag k1 k2 x = tag k1 k2 y -> H x = H y.
Proof.
  intros k1 k2 x y K1 K2 Bx By E. unfold tag in E. rewrite <- !pmul_mul in E.
  apply unc65_inj in E; [|apply twice_finite; assumption|apply twice_finite; assumption].
  apply mul_key_inj in E; [|exact K2]. apply mul_key_inj in E; assumption.
Qed.

(** C59, prime256v1 with the Bloom filter.  For all sets, nonzero keys, insertion orders and interleavings,
    whatever the schedule of the two parties: the bit of x_i is 1 when x_i is in the server's set; when it is
    1 otherwise, then two different items have the same hash or the filter has a false positive. *)
Theorem C59_ec_bloom : forall k1 k2 ssp X Y m n, exponent k1 -> exponent k2 -> length Y = m -> length X = n ->
  Forall (fun x => isblock x) X -> Forall (fun y => isblock y) Y ->
  1 <= raw_bits (N.of_nat m) ssp <= 2 ^ 32 - 8 -> N.of_nat m < 2 ^ 64 ->
  exists bits, ends (EC_Server G big_salt contain H k1 m n Y) (EC_Client G FK big_salt raw_bits order_of H k2 m n ssp X) bits tt /\
  length bits = n /\ forall i, (i < n)%nat -> let x := nth i X 0 in
    (nth i bits 2 = 1 \/ nth i bits 2 = 0) /\
    (In x Y -> nth i bits 2 = 1) /\
    (nth i bits 2 = 1 -> In x Y \/ (exists y, In y Y /\ y <> x /\ H y = H x) \/
       false_positive FK (bloom_new big_salt (N.of_nat m) ssp (raw_bits (N.of_nat m) ssp)) (map (tag k1 k2) Y) (tag k1 k2 x)).
Proof.
  intros k1 k2 ssp X Y m n K1 K2 LY LX BX BY R M.
  destruct (mq_run G (pt G) (inf G) H (fun P => pmul G P k1) (fun P => pmul G P k2) (point_bytes G) (MPoints G) (fun A => get_points) (fun _ => True)
    ltac:(intros; apply ab_points; assumption) ltac:(constructor) ltac:(constructor) FK big_salt raw_bits order_of contain ORD SALT ANS ssp X Y m n LY LX R M)
    as [bits [E [L B]]].
  exists bits. split; [exact E|]. split; [exact L|]. intros i Hi x. destruct (B i Hi) as [B01 BC]. split; [exact B01|].
  assert (Bx : isblock x) by (apply nth_block; exact BX).
  fold x in BC. rewrite (twice_tag' k1 k2 x K1 K2 Bx) in BC.
  assert (EM : map (fun y => point_bytes G (pmul G (pmul G (H y) k1) k2)) Y = map (tag k1 k2) Y).
  { apply map_ext_in. intros y Iy. apply twice_tag; [assumption|assumption|]. rewrite Forall_forall in BY. apply BY, Iy. }
  rewrite EM in BC. split.
  - intros I. apply BC. apply covered_in, in_map, I.
  - intros E1. apply BC in E1. destruct (in_dec N.eq_dec x Y) as [I|NI]; [left; exact I|]. right.
    destruct (in_dec (list_eq_dec N.eq_dec) (tag k1 k2 x) (map (tag k1 k2) Y)) as [IT|NT]; [left|right; split; assumption].
    apply in_map_iff in IT. destruct IT as [y [Ey Iy]]. exists y. split; [exact Iy|]. split; [intros ->; contradiction|].
    rewrite Forall_forall in BY. exact (tag_inj k1 k2 y x K1 K2 (BY _ Iy) Bx Ey).
Qed.
(** C59, prime256v1 without the Bloom filter: exact up to collisions of the hash. *)
Theorem C59_ec_set : forall k1 k2 shuffle X Y m n, exponent k1 -> exponent k2 -> length Y = m -> length X = n -> (forall l, Permutation (shuffle l) l) ->
  exists bits, ends (EC_Server_set G H k1 m n Y) (EC_Client_set G H k2 shuffle m n X) bits tt /\
  length bits = n /\ forall i, (i < n)%nat ->
    (nth i bits 2 = 1 \/ nth i bits 2 = 0) /\ (nth i bits 2 = 1 <-> exists y, In y Y /\ H y = H (nth i X 0)).
Proof.
  intros k1 k2 shuffle X Y m n K1 K2 LY LX SH.
  destruct (mq_set_run G (pt G) (inf G) H (fun P => pmul G P k1) (fun P => pmul G P k2) (peqb G) (MPoints G) (fun A => get_points) (fun _ => True)
    ltac:(intros; apply ab_points; assumption) ltac:(constructor) ltac:(constructor) shuffle X Y m n LY LX SH (peqb_spec G)) as [bits [E [L B]]].
  exists bits. split; [exact E|]. split; [exact L|]. intros i Hi. destruct (B i Hi) as [B01 BC]. split; [exact B01|]. rewrite BC.
  split; intros [y [Iy Ey]]; exists y; split; try exact Iy.
  - rewrite !pmul_mul in Ey. rewrite (Z.mul_comm k2 k1) in Ey. rewrite <- !pmul_mul in Ey.
    apply mul_key_inj in Ey; [|exact K2]. apply mul_key_inj in Ey; [|exact K1]. symmetry. exact Ey.
  - rewrite Ey, !pmul_mul. f_equal. lia.
Qed.
(** C59 fails at the edge: the keys may be drawn as 0; then every bit is 1. *)
Theorem C59_zero_key_refuted : forall k2 ssp X Y m n, length Y = m -> length X = n -> Y <> [] ->
  1 <= raw_bits (N.of_nat m) ssp <= 2 ^ 32 - 8 -> N.of_nat m < 2 ^ 64 ->
  ends (EC_Server G big_salt contain H 0 m n Y) (EC_Client G FK big_salt raw_bits order_of H k2 m n ssp X) (repeat 1 n) tt.
Proof.
  intros k2 ssp X Y m n LY LX NE R M.
  destruct (mq_run G (pt G) (inf G) H (fun P => pmul G P 0) (fun P => pmul G P k2) (point_bytes G) (MPoints G) (fun A => get_points) (fun _ => True)
    ltac:(intros; apply ab_points; assumption) ltac:(constructor) ltac:(constructor) FK big_salt raw_bits order_of contain ORD SALT ANS ssp X Y m n LY LX R M)
    as [bits [E [L B]]].
  assert (EB : bits = repeat 1 n); [|rewrite <- EB; exact E].
  apply list_eq_nth with (d := 2); [rewrite repeat_length; exact L|]. intros i Hi. rewrite L in Hi.
  rewrite (nth_indep (repeat 1 n) 2 1) by (rewrite repeat_length; exact Hi). rewrite nth_repeat. apply (B i Hi). apply covered_in. destruct Y as [|y Y']; [contradiction|].
  left. cbv beta. rewrite !pmul_0, inf_mul. reflexivity.
Qed.
End EC.

(** ** the X25519 variant (the default) *)
Section X.
Variable G : ECGroup.
Variable C : X25519.
Variable FK : N -> list N -> N.
Variable big_salt : N -> N -> list N.
Variable raw_bits : N -> N -> N.
Variable order_of : list insert_step -> list insert_step.
Variable contain : BloomFilter -> nat -> list N -> bool.
(** the PRF under both keys, applied to the hash of an item *)
Definition xtag (e1 e2 : N) (x : N) : list N := xmul C (draw32 e2) (xmul C (draw32 e1) (hash32 x)).

Lemma xrecv : forall A B (v : list (list N)) n (p : party G A) (k : list (list N) -> party G B) a b, length v = n -> Forall (fun d => length d = 32%nat) v ->
  ends p (k v) a b -> ends (Put (MPoints25519 G v) p) (get_points25519 n k) a b.
Proof. intros. apply ab_points25519; assumption. Qed.

Theorem C59_x25519_set : forall e1 e2 shuffle X Y m n, length Y = m -> length X = n -> (forall l, Permutation (shuffle l) l) ->
  exists bits, ends (X_Server_set G C e1 m n Y) (X_Client_set G C e2 shuffle m n X) bits tt /\
  length bits = n /\ forall i, (i < n)%nat ->
    (nth i bits 2 = 1 \/ nth i bits 2 = 0) /\ (nth i bits 2 = 1 <-> exists y, In y Y /\ xtag e1 e2 y = xtag e1 e2 (nth i X 0)).
Proof.
  intros e1 e2 shuffle X Y m n LY LX SH.
  destruct (mq_set_run G (list N) [] hash32 (fun P => XMul C P (draw32 e1)) (fun P => XMul C P (draw32 e2)) bytes_eqb (MPoints25519 G) (fun A => get_points25519)
    (fun d => length d = 32%nat) xrecv ltac:(intros; apply xmul_length) ltac:(intros; apply xmul_length) shuffle X Y m n LY LX SH bytes_eqb_reflect) as [bits [E [L B]]].
  exists bits. split; [exact E|]. split; [exact L|]. intros i Hi. destruct (B i Hi) as [B01 BC]. split; [exact B01|]. rewrite BC.
  unfold XMul, xtag. rewrite (xmul_comm C (draw32 e1) (draw32 e2) (hash32 (nth i X 0))).
  split; intros [y [Iy Ey]]; exists y; split; try exact Iy; symmetry; exact Ey.
Qed.

Hypothesis ORD : any_order order_of.
Hypothesis SALT : salts_total big_salt.
Hypothesis ANS : any_answer FK contain.
Theorem C59_x25519_bloom : forall e1 e2 ssp X Y m n, length Y = m -> length X = n ->
  1 <= raw_bits (N.of_nat m) ssp <= 2 ^ 32 - 8 -> N.of_nat m < 2 ^ 64 ->
  exists bits, ends (X_Server G big_salt contain C e1 m n Y) (X_Client G FK big_salt raw_bits order_of C e2 m n ssp X) bits tt /\
  length bits = n /\ forall i, (i < n)%nat -> let x := nth i X 0 in
    (nth i bits 2 = 1 \/ nth i bits 2 = 0) /\
    (In x Y -> nth i bits 2 = 1) /\
    (nth i bits 2 = 1 -> In x Y \/ (exists y, In y Y /\ y <> x /\ xtag e1 e2 y = xtag e1 e2 x) \/
       false_positive FK (bloom_new big_salt (N.of_nat m) ssp (raw_bits (N.of_nat m) ssp)) (map (xtag e1 e2) Y) (xtag e1 e2 x)).
Proof.
  intros e1 e2 ssp X Y m n LY LX R M.
  destruct (mq_run G (list N) [] hash32 (fun P => XMul C P (draw32 e1)) (fun P => XMul C P (draw32 e2)) (fun P => P) (MPoints25519 G) (fun A => get_points25519)
    (fun d => length d = 32%nat) xrecv ltac:(intros; apply xmul_length) ltac:(intros; apply xmul_length) FK big_salt raw_bits order_of contain ORD SALT ANS ssp X Y m n LY LX R M)
    as [bits [E [L B]]].
  exists bits. split; [exact E|]. split; [exact L|]. intros i Hi x. destruct (B i Hi) as [B01 BC]. split; [exact B01|].
  fold x in BC. unfold XMul in BC. rewrite (xmul_comm C (draw32 e1) (draw32 e2) (hash32 x)) in BC.
  change (map (fun y => xmul C (draw32 e2) (xmul C (draw32 e1) (hash32 y))) Y) with (map (xtag e1 e2) Y) in BC.
  change (xmul C (draw32 e2) (xmul C (draw32 e1) (hash32 x))) with (xtag e1 e2 x) in BC. split.
  - intros I. apply BC. apply covered_in, in_map, I.
  - intros E1. apply BC in E1. destruct (in_dec N.eq_dec x Y) as [I|NI]; [left; exact I|]. right.
    destruct (in_dec (list_eq_dec N.eq_dec) (xtag e1 e2 x) (map (xtag e1 e2) Y)) as [IT|NT]; [left|right; split; assumption].
    apply in_map_iff in IT. destruct IT as [y [Ey Iy]]. exists y. split; [exact Iy|]. split; [intros ->; contradiction|exact Ey].
Qed.
End X.

(** ** PSI *)
Section PSI.
Variable G : ECGroup.
Variable C : X25519.

Lemma ab_stringvec : forall A B LEN v (p : party G A) (k : list (list N) -> party G B) a b, fits G (MStringVec G LEN v) (TStringVec G LEN) ->
  ends p (k v) a b -> ends (Put (MStringVec G LEN v) p) (get_stringvec G LEN k) a b.
Proof. intros A B LEN v p k a b F K. apply ends_ab; [exact F|exact K]. Qed.
Lemma all_truncated : forall LEN (f : nat -> list N) n, (LEN <= 32)%nat ->
  all_some (fun i => truncate LEN (f i)) (seq 0 n) = Some (map (fun i => firstn LEN (f i)) (seq 0 n)).
Proof.
  intros LEN f n L. generalize (seq 0 n). induction l as [|a l IH]; [reflexivity|]. cbn [all_some map].
  unfold truncate at 1. rewrite (proj2 (Nat.leb_le _ _) L). rewrite IH. reflexivity.
Qed.
Lemma filter_combine : forall A B (f : B -> A) (p : A -> bool) l, map snd (filter (fun q => p (fst q)) (combine (map f l) l)) = filter (fun x => p (f x)) l.
Proof.
  intros A B f p. induction l as [|x l IH]; [reflexivity|]. cbn [map combine filter fst]. destruct (p (f x)); cbn [map snd]; rewrite IH; reflexivity.
Qed.

(** C63.  For all sets of the configured sizes and every truncation length up to 32 bytes, whatever the
    schedule: the output consists of the receiver's items, in order, whose truncated tag is the truncated tag
    of an item of the sender. *)
Theorem C63_receive : forall e1 e2 pp X Y, length Y = SENDER_ITEM_NUM pp -> length X = RECEIVER_ITEM_NUM pp -> (TRUNCATE_LEN pp <= 32)%nat ->
  N.of_nat (RECEIVER_ITEM_NUM pp) < 2 ^ 59 ->
  exists keep, ends (PSI_Send G C e1 pp Y) (PSI_Receive G C e2 pp X) tt (filter keep X) /\
  forall x, keep x = true <-> exists y, In y Y /\ firstn (TRUNCATE_LEN pp) (xtag C e1 e2 y) = firstn (TRUNCATE_LEN pp) (xtag C e1 e2 x).
Proof.
  intros e1 e2 pp X Y LY LX LT LN.
  set (T := TRUNCATE_LEN pp) in *.
  set (S := map (fun y => firstn T (xtag C e1 e2 y)) Y).
  exists (fun x => existsb (bytes_eqb (firstn T (xtag C e1 e2 x))) S). split.
  - unfold PSI_Send, PSI_Receive. fold T. rewrite LY, LX, !Nat.eqb_refl. cbv zeta.
    apply xrecv; [rewrite map_length; exact LY|apply Forall_map, Forall_forall; intros; apply xmul_length|].
    flip. apply xrecv; [rewrite map_length; exact LX|apply Forall_map, Forall_forall; intros; apply xmul_length|].
    rewrite !all_truncated by exact LT. cbn [local].
    assert (E1 : map (fun i => firstn T (XMul C (nth i (map (fun x => XMul C (hash32 x) (draw32 e2)) X) []) (draw32 e1))) (seq 0 (RECEIVER_ITEM_NUM pp))
      = map (fun x => firstn T (xtag C e1 e2 x)) X).
    { rewrite (map_nth_fun _ _ (fun P => firstn T (XMul C P (draw32 e1)))) by (rewrite map_length; exact LX). rewrite map_map.
      apply map_ext. intros x. unfold XMul, xtag. rewrite xmul_comm. reflexivity. }
    rewrite E1. flip. apply ab_stringvec.
    { cbn [fits]. split; [reflexivity|]. split.
      - apply Forall_map, Forall_forall. intros x _. unfold xtag. rewrite firstn_length, xmul_length. lia.
      - rewrite map_length, LX. change (2 ^ 64) with (32 * 2 ^ 59). nia. }
    assert (E2 : map (fun i => firstn T (XMul C (nth i (map (fun y => XMul C (hash32 y) (draw32 e1)) Y) []) (draw32 e2))) (seq 0 (SENDER_ITEM_NUM pp)) = S).
    { rewrite (map_nth_fun _ _ (fun P => firstn T (XMul C P (draw32 e2)))) by (rewrite map_length; exact LY). rewrite map_map. reflexivity. }
    rewrite E2. rewrite has_true by (rewrite map_length; exact LX).
    rewrite (filter_combine _ _ (fun x => firstn T (xtag C e1 e2 x)) (fun t => existsb (bytes_eqb t) S)). apply ends_ret.
  - intros x. rewrite existsb_exists. split.
    + intros [t [It Et]]. apply in_map_iff in It. destruct It as [y [<- Iy]]. exists y. split; [exact Iy|].
      destruct (bytes_eqb_reflect (firstn T (xtag C e1 e2 x)) (firstn T (xtag C e1 e2 y))) as [Q|]; [symmetry; exact Q|discriminate].
    + intros [y [Iy Ey]]. exists (firstn T (xtag C e1 e2 y)). split; [apply in_map_iff; exists y; auto|]. rewrite Ey.
      destruct (bytes_eqb_reflect (firstn T (xtag C e1 e2 x)) (firstn T (xtag C e1 e2 x))); [reflexivity|contradiction].
Qed.
(** C63.  In particular: every common item is output; every output item is common or collides. *)
Corollary C63_intersection : forall e1 e2 pp X Y, length Y = SENDER_ITEM_NUM pp -> length X = RECEIVER_ITEM_NUM pp -> (TRUNCATE_LEN pp <= 32)%nat ->
  N.of_nat (RECEIVER_ITEM_NUM pp) < 2 ^ 59 ->
  exists out, ends (PSI_Send G C e1 pp Y) (PSI_Receive G C e2 pp X) tt out /\
  (forall x, In x X -> In x Y -> In x out) /\
  (forall x, In x out -> In x X /\ (In x Y \/ exists y, In y Y /\ y <> x /\ firstn (TRUNCATE_LEN pp) (xtag C e1 e2 y) = firstn (TRUNCATE_LEN pp) (xtag C e1 e2 x))) /\
  (NoDup X -> NoDup out).
Proof.
  intros e1 e2 pp X Y LY LX LT LN. destruct (C63_receive e1 e2 pp X Y LY LX LT LN) as [keep [E K]].
  exists (filter keep X). split; [exact E|]. split; [|split].
  - intros x IX IY. apply filter_In. split; [exact IX|]. apply K. exists x. auto.
  - intros x I. apply filter_In in I. destruct I as [IX KX]. split; [exact IX|]. apply K in KX. destruct KX as [y [Iy Ey]].
    destruct (N.eq_dec y x) as [->|NE]; [left; exact Iy|right; exists y; auto].
  - intros ND. apply NoDup_filter, ND.
Qed.
(** C63 fails for parameters whose truncation length is above the 32 bytes of a point: the strings are then
    built from memory behind the points. *)
Theorem C63_long_truncation_refuted : forall e1 e2 pp X Y, length Y = SENDER_ITEM_NUM pp -> length X = RECEIVER_ITEM_NUM pp -> (32 < TRUNCATE_LEN pp)%nat ->
  X <> [] -> crashes (PSI_Send G C e1 pp Y) (PSI_Receive G C e2 pp X).
Proof.
  intros e1 e2 pp X Y LY LX LT NE. unfold PSI_Send, PSI_Receive. rewrite LY, LX, !Nat.eqb_refl. cbv zeta.
  apply crashes_ab with (t := TPoints25519 G (SENDER_ITEM_NUM pp)).
  { split; [rewrite map_length; symmetry; exact LY|apply Forall_map, Forall_forall; intros; apply xmul_length]. }
  cbv beta iota. apply crashes_sym. apply crashes_ab with (t := TPoints25519 G (RECEIVER_ITEM_NUM pp)).
  { split; [rewrite map_length; symmetry; exact LX|apply Forall_map, Forall_forall; intros; apply xmul_length]. }
  apply crashes_sym. cbv beta iota.
  replace (all_some _ (seq 0 (RECEIVER_ITEM_NUM pp))) with (@None (list (list N))); [apply crashes_now|].
  rewrite <- LX. destruct X as [|x X']; [contradiction|]. cbn [length seq all_some]. unfold truncate at 1.
  destruct (Nat.leb_spec (TRUNCATE_LEN pp) 32); [lia|reflexivity].
Qed.
End PSI.

(** ** C85 *)
Section Privacy.
Variable G : ECGroup.
Variable C : X25519.
(** a value anyone can compute from an item, without any secret *)
Definition public_tag (x : N) : list N := xmul C (draw32 0) (hash32 x).
Lemma constant_key : forall e, draw32 e = draw32 0.
Proof. reflexivity. Qed.
Definition first_message {A} (p : party G A) : option (msg G) := match p with Put m _ => Some m | _ => None end.

(** C85 is refuted: the first message of the server (mqRPMT) and of the sender (PSI) is the vector of the public
    tags of its items, whatever the random device gives; so is the message of the other party. *)
Theorem C85_server_items_exposed_refuted : forall big_salt contain e1 m n Y, length Y = m ->
  first_message (X_Server G big_salt contain C e1 m n Y) = Some (MPoints25519 G (map public_tag Y)).
Proof. intros bs ct e1 m n Y L. unfold X_Server, mq_Server. rewrite L, Nat.eqb_refl. reflexivity. Qed.
Theorem C85_client_items_exposed_refuted : forall FK big_salt raw_bits order_of e2 m n ssp X, length X = n ->
  exists k, X_Client G FK big_salt raw_bits order_of C e2 m n ssp X = get_points25519 m (fun FY => Put (MPoints25519 G (map public_tag X)) (k FY)).
Proof. intros FK bs rb oo e2 m n ssp X L. unfold X_Client, mq_Client. rewrite L, Nat.eqb_refl. eexists. reflexivity. Qed.
Theorem C85_psi_sender_items_exposed_refuted : forall e1 pp Y, length Y = SENDER_ITEM_NUM pp ->
  first_message (PSI_Send G C e1 pp Y) = Some (MPoints25519 G (map public_tag Y)).
Proof. intros e1 pp Y L. unfold PSI_Send. rewrite L, Nat.eqb_refl. reflexivity. Qed.
(** with it anyone can test whether a candidate is an item: the test never misses an item, and accepts others
    only if their tags collide *)
Theorem C85_membership_test : forall Y z, (In z Y -> In (public_tag z) (map public_tag Y)) /\
  (In (public_tag z) (map public_tag Y) -> In z Y \/ exists y, In y Y /\ y <> z /\ public_tag y = public_tag z).
Proof.
  intros Y z. split; [apply in_map|]. intros I. apply in_map_iff in I. destruct I as [y [E I]].
  destruct (N.eq_dec y z) as [<-|NE]; [left; exact I|right; exists y; auto].
Qed.
End Privacy.

(** ** the hypotheses are satisfiable *)
Definition one_order (l : list insert_step) : list insert_step := rev l.
Example one_order_ok : any_order one_order.
Proof. intros l. apply Permutation_sym, Permutation_rev. Qed.
(** an answer for every filter *)
Definition some_answer (FK : N -> list N -> N) (f : BloomFilter) (i : nat) (x : list N) : bool :=
  forallb (fun j => match probe FK f x j with Some true => true | _ => false end) (seq 0 (N.to_nat (bf_hash_num f))).
Lemma no_miss : forall FK f x w r flag b, contain_exec FK f x w r flag b -> flag = true ->
  (forall j, In j (w ++ r) -> probe FK f x j <> Some false) -> forall j, In j (w ++ r) -> probe FK f x j = Some true.
Proof.
  intros FK f x w r flag b E. induction E as [flag|w1 i w2 r b E IH|w1 i w2 r b E IH|w r1 i r2 flag hit b T E IH]; intros F A j I.
  - destruct I.
  - discriminate.
  - apply (IH eq_refl).
    + intros k K. apply A. rewrite !in_app_iff in *. cbn [In] in *. tauto.
    + rewrite !in_app_iff in *. cbn [In] in *. tauto.
  - assert (hit = true) as -> by (destruct hit; [reflexivity|]; exfalso; apply (A i); [rewrite !in_app_iff; cbn [In]; tauto|exact T]).
    destruct (Nat.eq_dec j i) as [->|NE]; [exact T|]. apply (IH F).
    + intros k K. apply A. rewrite !in_app_iff in *. cbn [In] in *. tauto.
    + rewrite !in_app_iff in *. cbn [In] in *. destruct I as [|[|[|]]]; [tauto|tauto|congruence|tauto].
Qed.
Lemma skip_all : forall FK f x w, contain_exec FK f x w [] false false.
Proof. intros FK f x. induction w as [|i w IH]; [constructor|]. apply (CE_skip FK f x [] i w []). exact IH. Qed.
Lemma take_all : forall FK f x w, (forall j, In j w -> probe FK f x j = Some true) -> contain_exec FK f x w [] true true.
Proof.
  intros FK f x. induction w as [|i w IH]; intros A; [constructor|]. apply (CE_enter FK f x [] i w []).
  apply (CE_test FK f x w [] i [] true true); [apply A; left; reflexivity|]. apply IH. intros j J. apply A. right. exact J.
Qed.
Example some_answer_ok : forall FK, any_answer FK (some_answer FK).
Proof.
  intros FK f i x [b E]. unfold some_answer. destruct (forallb _ _) eqn:F.
  - rewrite forallb_forall in F. apply take_all. intros j J. specialize (F j J). cbv beta in F.
    destruct (probe FK f x j) as [[|]|]; [reflexivity|discriminate|discriminate].
  - destruct (existsb (fun j => match probe FK f x j with Some false => true | _ => false end) (seq 0 (N.to_nat (bf_hash_num f)))) eqn:M.
    + apply existsb_exists in M. destruct M as [j [J T]]. cbv beta in T. unfold PlainContain. apply in_split in J. destruct J as [w1 [w2 ->]].
      apply CE_enter. apply (CE_test FK f x (w1 ++ w2) [] j [] true false); [destruct (probe FK f x j) as [[|]|]; [discriminate|reflexivity|discriminate]|].
      apply skip_all.
    + exfalso. assert (X : forallb (fun j => match probe FK f x j with Some true => true | _ => false end) (seq 0 (N.to_nat (bf_hash_num f))) = true); [|congruence].
      apply forallb_forall. intros j J. rewrite (no_miss FK f x _ _ _ _ E eq_refl); [reflexivity| |rewrite app_nil_r; exact J].
      intros k K C. rewrite app_nil_r in K.
      assert (Y : existsb (fun j => match probe FK f x j with Some false => true | _ => false end) (seq 0 (N.to_nat (bf_hash_num f))) = true); [|congruence].
      apply existsb_exists. exists k. split; [exact K|]. rewrite C. reflexivity.
Qed.
(** a run with three items against two, on a group of 4099 elements *)
Example C59_run : exists bits, ends (EC_Server G4099 ex_salt (some_answer LiteMurmurHash) toy_H 77 2 3 [5; 6])
    (EC_Client G4099 LiteMurmurHash ex_salt (fun _ _ => 100) one_order toy_H 91 2 3 40 [6; 7; 5]) bits tt /\ nth 0 bits 2 = 1 /\ nth 2 bits 2 = 1.
Proof.
  destruct DDH_hypotheses as [F [V _]].
  destruct (C59_ec_bloom G4099 toy_curve toy_H F V LiteMurmurHash ex_salt (fun _ _ => 100) one_order (some_answer LiteMurmurHash) one_order_ok ex_salts_total
    (some_answer_ok LiteMurmurHash) 77 91 40 [6; 7; 5] [5; 6] 2 3) as [bits [E [L B]]].
  - change (order G4099) with 4099%Z. lia.
  - change (order G4099) with 4099%Z. lia.
  - reflexivity.
  - reflexivity.
  - repeat constructor.
  - repeat constructor.
  - split; [discriminate|]. vm_compute. discriminate.
  - reflexivity.
  - exists bits. split; [exact E|]. split.
    + apply (B 0%nat); [lia|]. right. left. reflexivity.
    + apply (B 2%nat); [lia|]. left. reflexivity.
Qed.
Example C63_run : exists out, ends (PSI_Send G4099 toyX 1 (PSI_Setup 40 1 1) [5; 6]) (PSI_Receive G4099 toyX 2 (PSI_Setup 40 1 1) [6; 7]) tt out /\ In 6 out.
Proof.
  destruct (C63_intersection G4099 toyX 1 2 (PSI_Setup 40 1 1) [6; 7] [5; 6]) as [out [E [A _]]].
  - reflexivity.
  - reflexivity.
  - vm_compute. lia.
  - vm_compute. reflexivity.
  - exists out. split; [exact E|]. apply A; cbn [In]; auto.
Qed.
Print Assumptions C59_ec_bloom.
Print Assumptions C59_ec_set.
Print Assumptions C59_zero_key_refuted.
Print Assumptions C59_x25519_bloom.
Print Assumptions C59_x25519_set.
Print Assumptions C63_receive.
Print Assumptions C63_intersection.
Print Assumptions C63_long_truncation_refuted.
Print Assumptions C85_server_items_exposed_refuted.
Print Assumptions C85_client_items_exposed_refuted.
Print Assumptions C85_psi_sender_items_exposed_refuted.
Print Assumptions C85_membership_test.

(** Properties C29-C35 and C79-C81: Schnorr, Pedersen and the sigma protocols. *)
From Coq Require Import NArith ZArith List Lia Bool Arith Setoid.
From Coq Require Import ZifyBool ZifyNat ZifyN.
From Verif.Base Require Import Words ListX.
From Verif.Utility Require Import SerialModel SerialProofs.
From Verif.Crypto Require Import BigIntModel BigIntSpec BigIntProofs.
From Verif.Group Require Import ECModel ECProofs ZqGroup.
From Verif.PKE Require Import ElGamalModel ElGamalProofs.
From Verif.Sigma Require Import SigmaModel SigmaSpec SigmaProofs.
Import ListNotations.
Local Open Scope Z_scope.

Section Props.
Variable G : ECGroup.
Local Notation q := (order G).
Local Infix "+p" := (padd G) (at level 50, left associativity).
Local Infix "-p" := (psub G) (at level 50, left associativity).
Local Notation "P *p k" := (pmul G P k%Z) (at level 40, left associativity).

(** ** C29 Schnorr *)
Theorem C29_signatures_verify : forall (H : list N -> Z) g sk pk message r,
  Schnorr_KeyGen G g sk = (pk, sk) ->
  Schnorr_Verify G H g pk message (Schnorr_Sign G H g sk message r) = true.
Proof.
  intros H g sk pk message r K. inversion K; subst pk; clear K.
  unfold Schnorr_Verify, Schnorr_Sign. cbn [sigA sigz]. apply peqb_true.
  generalize (H (ToByteString G (g *p r) ++ message)). intros e. logs G. gring.
Qed.

(** the converse of signing: with the first message fixed, the verifier accepts exactly
    one answer *)
Theorem C29_answer_unique : forall (H : list N -> Z) g sk message r z,
  g <> inf G -> in_Zq G z ->
  Schnorr_Verify G H g (g *p sk) message {| sigA := g *p r; sigz := z |} = true ->
  z = sigz G (Schnorr_Sign G H g sk message r).
Proof.
  intros H g sk message r z F Hz V. unfold Schnorr_Verify in V. cbn [sigA sigz] in V.
  apply peqb_true in V. cbn [sigz Schnorr_Sign].
  set (e := H (ToByteString G (g *p r) ++ message)) in *. clearbody e.
  rewrite <- (modq_small G z Hz). apply cong_modq. apply (pmul_inj G g); [exact F|].
  rewrite V, pmul_add, pmul_mul. apply padd_comm.
Qed.

Theorem C29_special_soundness : forall (H H' : list N -> Z) g pk m m' A z z',
  Schnorr_Verify G H g pk m {| sigA := A; sigz := z |} = true ->
  Schnorr_Verify G H' g pk m' {| sigA := A; sigz := z' |} = true ->
  let e := H (ToByteString G A ++ m) in
  let e' := H' (ToByteString G A ++ m') in
  distinct_challenges G e e' ->
  Schnorr_KeyGen G g (extracted G z z' e e') = (pk, extracted G z z' e e').
Proof.
  intros H H' g pk m m' A z z' V V' e e' D. unfold Schnorr_Verify in V, V'. cbn [sigA sigz] in V, V'.
  apply peqb_true in V, V'. fold e in V. fold e' in V'. unfold Schnorr_KeyGen. f_equal.
  apply (extract_one G g pk A); [exact D| |]; rewrite padd_comm; assumption.
Qed.

(** ** C30 Pedersen *)
Theorem C30_homomorphic : forall g hs m m' r r' C C', length m = length m' ->
  Commit G g hs m r = Some C -> Commit G g hs m' r' = Some C' ->
  Commit G g hs (map2 Z.add m m') (r + r') = Some (C +p C').
Proof.
  intros g hs m m' r r' C C' L E E'.
  assert (B : (length m <= length hs)%nat).
  { unfold Commit in E. destruct (Nat.leb_spec (length m) (length hs)); [assumption|discriminate]. }
  rewrite Commit_some in E by exact B. rewrite Commit_some in E' by lia.
  rewrite Commit_some by (rewrite map2_length, <- L, Nat.min_id; exact B).
  inversion E; subst C. inversion E'; subst C'. f_equal. rewrite <- msum_add by exact L.
  generalize (msum G hs m) (msum G hs m'). intros P Q. clear. logs G. gring.
Qed.

(** perfectly hiding: every commitment opens to every message vector with exactly one
    randomness *)
Theorem C30_perfectly_hiding : forall g hs m C, g <> inf G -> (length m <= length hs)%nat ->
  exists! r, in_Zq G r /\ Commit G g hs m r = Some C.
Proof.
  intros g hs m C F L. destruct (point_log G g (C -p msum G hs m) F) as [k Hk].
  exists (modq G k). split; [split; [apply modq_range|]|].
  - rewrite Commit_some by exact L. f_equal. rewrite pmul_modq, <- Hk.
    generalize (msum G hs m). intros P. clear. logs G. gring.
  - intros r [Hr E]. rewrite Commit_some in E by exact L. inversion E as [E'].
    rewrite <- (modq_small G r Hr). apply cong_modq. apply (pmul_inj G g); [exact F|].
    rewrite <- Hk, <- E'. generalize (msum G hs m). intros P. clear. logs G. gring.
Qed.

(** binding: two different openings give a relation between the bases *)
Theorem C30_binding : forall g hs m m' r r' C,
  Commit G g hs m r = Some C -> Commit G g hs m' r' = Some C ->
  let n := Nat.max (length m) (length m') in
  let c := (r - r') :: map2 Z.sub (pad n m) (pad n m') in
  Exists (fun x => ~ cong q x 0) c ->
  nontrivial_relation G (g :: firstn n hs) c.
Proof.
  intros g hs m m' r r' C E E' n c X.
  assert (B : (length m <= length hs)%nat).
  { unfold Commit in E. destruct (Nat.leb_spec (length m) (length hs)); [assumption|discriminate]. }
  assert (B' : (length m' <= length hs)%nat).
  { unfold Commit in E'. destruct (Nat.leb_spec (length m') (length hs)); [assumption|discriminate]. }
  rewrite Commit_some in E by exact B. rewrite Commit_some in E' by exact B'.
  assert (Ln : (n <= length hs)%nat) by (unfold n; lia).
  assert (L1 : length (pad n m) = n) by (apply pad_length; unfold n; lia).
  assert (L2 : length (pad n m') = n) by (apply pad_length; unfold n; lia).
  split; [|split; [|exact X]].
  - unfold c. cbn [length]. rewrite map2_length, L1, L2, firstn_length. lia.
  - unfold c. cbn [msum].
    assert (T : forall v, length v = n -> msum G (firstn n hs) v = msum G hs v).
    { intros v Lv. pose proof (Commit_some G (inf G) hs v 0 ltac:(lia)) as S1.
      unfold Commit in S1. rewrite Lv in S1. destruct (Nat.leb_spec n (length hs)); [|lia].
      unfold ECPointVectorMul, same_size in S1.
      rewrite firstn_length, Nat.min_l, Lv, Nat.eqb_refl in S1 by lia.
      inversion S1 as [S2]. apply (padd_cancel_l G) in S2. exact S2. }
    rewrite T by (rewrite map2_length, L1, L2; lia).
    rewrite msum_sub, !msum_pad by (rewrite L1, L2; reflexivity).
    inversion E as [E1]. inversion E' as [E2]. rewrite <- E2 in E1. clear - E1.
    revert E1. generalize (msum G hs m) (msum G hs m'). intros P Q E1.
    transitivity (psub G (g *p r +p P) (g *p r' +p Q)).
    + clear. logs G. gring.
    + rewrite E1. apply padd_neg.
Qed.

(** What commitments do not bind: the length.  Trailing zeros can be added freely. *)
Theorem C30_length_not_bound : forall g hs m r k, (length m + k <= length hs)%nat ->
  Commit G g hs (m ++ repeat 0 k) r = Commit G g hs m r.
Proof.
  intros g hs m r k L. rewrite !Commit_some by (rewrite ?app_length, ?repeat_length; lia).
  do 2 f_equal. pose proof (msum_pad G hs m (length m + k)) as M. unfold pad in M.
  replace (length m + k - length m)%nat with k in M by lia. exact M.
Qed.

(** ** C31 discrete-log knowledge *)
Theorem C31_complete : forall (H : list N -> Z) g h w tr a p tr',
  h = g *p w -> DLK_Prove G H g h w tr a = (p, tr') ->
  DLK_Verify G H g h tr p = (true, tr').
Proof.
  intros H g h w tr a p tr' -> E. unfold DLK_Prove in E. inversion E; subst; clear E.
  unfold DLK_Verify. cbn [dlkA dlkz]. f_equal. apply peqb_true. apply answer_ok.
Qed.

Theorem C31_special_soundness : forall (H H' : list N -> Z) g h tr tr' A z z',
  fst (DLK_Verify G H g h tr {| dlkA := A; dlkz := z |}) = true ->
  fst (DLK_Verify G H' g h tr' {| dlkA := A; dlkz := z' |}) = true ->
  let e := H (snd (DLK_Verify G H g h tr {| dlkA := A; dlkz := z |})) in
  let e' := H' (snd (DLK_Verify G H' g h tr' {| dlkA := A; dlkz := z' |})) in
  distinct_challenges G e e' -> g *p extracted G z z' e e' = h.
Proof.
  intros H H' g h tr tr' A z z' V V' e e' D. unfold DLK_Verify in V, V'. cbn [fst dlkA dlkz] in V, V'.
  apply peqb_true in V, V'. apply (extract_one G g h A); assumption.
Qed.

(** ** C32 discrete-log equality *)
Theorem C32_complete : forall (H : list N -> Z) g1 h1 g2 h2 w tr a p tr',
  h1 = g1 *p w -> h2 = g2 *p w -> DLE_Prove G H g1 h1 g2 h2 w tr a = (p, tr') ->
  DLE_Verify G H g1 h1 g2 h2 tr p = (true, tr').
Proof.
  intros H g1 h1 g2 h2 w tr a p tr' -> -> E. unfold DLE_Prove in E. inversion E; subst; clear E.
  unfold DLE_Verify. cbn [dleA1 dleA2 dlez]. f_equal. rewrite andb_true_iff, !peqb_true.
  split; apply answer_ok.
Qed.

Theorem C32_special_soundness : forall (H H' : list N -> Z) g1 h1 g2 h2 tr tr' A1 A2 z z',
  fst (DLE_Verify G H g1 h1 g2 h2 tr {| dleA1 := A1; dleA2 := A2; dlez := z |}) = true ->
  fst (DLE_Verify G H' g1 h1 g2 h2 tr' {| dleA1 := A1; dleA2 := A2; dlez := z' |}) = true ->
  let e := H (snd (DLE_Verify G H g1 h1 g2 h2 tr {| dleA1 := A1; dleA2 := A2; dlez := z |})) in
  let e' := H' (snd (DLE_Verify G H' g1 h1 g2 h2 tr' {| dleA1 := A1; dleA2 := A2; dlez := z' |})) in
  distinct_challenges G e e' ->
  g1 *p extracted G z z' e e' = h1 /\ g2 *p extracted G z z' e e' = h2.
Proof.
  intros H H' g1 h1 g2 h2 tr tr' A1 A2 z z' V V' e e' D.
  unfold DLE_Verify in V, V'. cbn [fst dleA1 dleA2 dlez] in V, V'.
  rewrite andb_true_iff, !peqb_true in V, V'. destruct V as [V1 V2], V' as [V1' V2'].
  split; [apply (extract_one G g1 h1 A1)|apply (extract_one G g2 h2 A2)]; assumption.
Qed.

(** stated without extraction: if the logarithms differ, then for a given first message at
    most one challenge (modulo the order) can be answered *)
Theorem C32_unequal_logs_one_challenge : forall (H H' : list N -> Z) g1 h1 g2 h2 tr tr' A1 A2 z z',
  (forall w, ~ (g1 *p w = h1 /\ g2 *p w = h2)) ->
  fst (DLE_Verify G H g1 h1 g2 h2 tr {| dleA1 := A1; dleA2 := A2; dlez := z |}) = true ->
  fst (DLE_Verify G H' g1 h1 g2 h2 tr' {| dleA1 := A1; dleA2 := A2; dlez := z' |}) = true ->
  ~ distinct_challenges G (H (snd (DLE_Verify G H g1 h1 g2 h2 tr {| dleA1 := A1; dleA2 := A2; dlez := z |})))
      (H' (snd (DLE_Verify G H' g1 h1 g2 h2 tr' {| dleA1 := A1; dleA2 := A2; dlez := z' |}))).
Proof.
  intros H H' g1 h1 g2 h2 tr tr' A1 A2 z z' N V V' D.
  exact (N _ (C32_special_soundness H H' g1 h1 g2 h2 tr tr' A1 A2 z z' V V' D)).
Qed.

(** ** C33 plaintext knowledge *)
Theorem C33_complete : forall (H : list N -> Z) pp pk v r tr a b p tr',
  PK_Prove G H (t_g G pp) (t_h G pp) pk (T_Enc G pp pk v r) v r tr a b = (p, tr') ->
  PK_Verify G H (t_g G pp) (t_h G pp) pk (T_Enc G pp pk v r) tr p = (true, tr').
Proof.
  intros H pp pk v r tr a b p tr' E. unfold PK_Prove in E. inversion E; subst; clear E.
  unfold PK_Verify. cbn [pkA pkB pkz1 pkz2]. f_equal. rewrite andb_true_iff, !peqb_true. split.
  - apply answer_ok'. reflexivity.
  - apply answer2_ok. reflexivity.
Qed.

Theorem C33_special_soundness : forall (H H' : list N -> Z) pp pk ct tr tr' A B z1 z2 z1' z2',
  let p := {| pkA := A; pkB := B; pkz1 := z1; pkz2 := z2 |} in
  let p' := {| pkA := A; pkB := B; pkz1 := z1'; pkz2 := z2' |} in
  fst (PK_Verify G H (t_g G pp) (t_h G pp) pk ct tr p) = true ->
  fst (PK_Verify G H' (t_g G pp) (t_h G pp) pk ct tr' p') = true ->
  let e := H (snd (PK_Verify G H (t_g G pp) (t_h G pp) pk ct tr p)) in
  let e' := H' (snd (PK_Verify G H' (t_g G pp) (t_h G pp) pk ct tr' p')) in
  distinct_challenges G e e' ->
  ct = T_Enc G pp pk (extracted G z2 z2' e e') (extracted G z1 z1' e e').
Proof.
  intros H H' pp pk ct tr tr' A B z1 z2 z1' z2' p p' V V' e e' D.
  unfold PK_Verify in V, V'. cbn [fst p p' pkA pkB pkz1 pkz2] in V, V'.
  rewrite andb_true_iff, !peqb_true in V, V'. destruct V as [V1 V2], V' as [V1' V2'].
  destruct ct as [X Y]. unfold T_Enc. f_equal; symmetry.
  - apply (extract_one G pk X A); assumption.
  - apply (extract_two G _ _ Y B); assumption.
Qed.

(** ** C34 plaintext equality *)
Theorem C34_complete : forall (H : list N -> Z) pp pks v r tr a b,
  exists p tr',
  PTE_Prove G H (t_g G pp) (t_h G pp) pks (T_MREnc G pp pks v r) v r tr a b = Some (p, tr') /\
  PTE_Verify G H (t_g G pp) (t_h G pp) pks (T_MREnc G pp pks v r) tr p = Some (true, tr').
Proof.
  intros H pp pks v r tr a b. unfold PTE_Prove, PTE_Verify.
  assert (L : length (tvX G (T_MREnc G pp pks v r)) = length pks) by (cbn [tvX T_MREnc]; apply map_length).
  rewrite L, Nat.leb_refl. eexists. eexists. split; [reflexivity|].
  cbn [pteA pteB ptez ptet]. rewrite map_length, Nat.leb_refl. cbn [andb].
  rewrite firstn_all2 by (rewrite map_length; lia). do 2 f_equal.
  rewrite andb_true_iff, peqb_true. split.
  - apply PTE_conditions_spec; rewrite ?map_length; try lia.
    intros i Hi. rewrite nth_map' with (d := inf G) by exact Hi.
    cbn [tvX T_MREnc]. rewrite nth_map' with (d := inf G) by exact Hi. apply answer_ok.
  - apply answer2_ok. cbn [tmY T_MREnc]. rewrite msum2. reflexivity.
Qed.

Theorem C34_special_soundness : forall (H H' : list N -> Z) pp pks ct tr tr' A B z t z' t' out out',
  length (tvX G ct) = length pks ->
  PTE_Verify G H (t_g G pp) (t_h G pp) pks ct tr {| pteA := A; pteB := B; ptez := z; ptet := t |} = Some (true, out) ->
  PTE_Verify G H' (t_g G pp) (t_h G pp) pks ct tr' {| pteA := A; pteB := B; ptez := z'; ptet := t' |} = Some (true, out') ->
  distinct_challenges G (H out) (H' out') ->
  ct = T_MREnc G pp pks (extracted G t t' (H out) (H' out')) (extracted G z z' (H out) (H' out')).
Proof.
  intros H H' pp pks ct tr tr' A B z t z' t' out out' LX V V' D.
  unfold PTE_Verify in V, V'. cbn [pteA pteB ptez ptet] in V, V'.
  destruct ((length pks <=? length (tvX G ct)) && (length pks <=? length A))%nat eqn:L; [|discriminate].
  apply andb_prop in L. destruct L as [_ LA]. apply Nat.leb_le in LA.
  assert (Eout := f_equal (fun o => match o with Some (_, x) => x | None => [] end) V). cbv beta iota in Eout.
  assert (Eout' := f_equal (fun o => match o with Some (_, x) => x | None => [] end) V'). cbv beta iota in Eout'.
  assert (Vb := f_equal (fun o => match o with Some (x, _) => x | None => false end) V). cbv beta iota in Vb.
  assert (Vb' := f_equal (fun o => match o with Some (x, _) => x | None => false end) V'). cbv beta iota in Vb'.
  rewrite Eout in Vb. rewrite Eout' in Vb'. clear V V' Eout Eout'.
  set (e := H out) in *. set (e' := H' out') in *.
  apply andb_prop in Vb, Vb'. destruct Vb as [C1 C2], Vb' as [C1' C2'].
  apply peqb_true in C2, C2'.
  rewrite PTE_conditions_spec in C1, C1' by lia.
  destruct ct as [X Y]. unfold T_MREnc. cbn [tvX tmY] in *. f_equal.
  - apply list_eq_nth with (d := inf G); [rewrite map_length; exact LX|].
    intros i Hi. rewrite nth_map' with (d := inf G) by lia. symmetry.
    apply (extract_one G _ _ (nth i A (inf G))); [exact D|apply C1; lia|apply C1'; lia].
  - symmetry. rewrite <- msum2. apply (extract_two G _ _ Y B); assumption.
Qed.

(** C34: every recipient gets the same plaintext: stated through decryption *)
Theorem C34_same_plaintext : forall (H H' : list N -> Z) pp sks ct tr tr' A B z t z' t' out out' i,
  let pks := map (fun sk => t_g G pp *p sk) sks in
  length (tvX G ct) = length pks ->
  PTE_Verify G H (t_g G pp) (t_h G pp) pks ct tr {| pteA := A; pteB := B; ptez := z; ptet := t |} = Some (true, out) ->
  PTE_Verify G H' (t_g G pp) (t_h G pp) pks ct tr' {| pteA := A; pteB := B; ptez := z'; ptet := t' |} = Some (true, out') ->
  distinct_challenges G (H out) (H' out') ->
  (i < length sks)%nat -> ~ cong q (nth i sks 0) 0 ->
  T_DecECPoint G (nth i sks 0) {| tX := nth i (tvX G ct) (inf G); tY := tmY G ct |}
  = t_h G pp *p extracted G t t' (H out) (H' out').
Proof.
  intros H H' pp sks ct tr tr' A B z t z' t' out out' i pks LX V V' D Hi I.
  rewrite (C34_special_soundness H H' pp pks ct tr tr' A B z t z' t' out out' LX V V' D).
  unfold T_MREnc, T_DecECPoint, pks. cbn [tvX tmY tX tY]. rewrite map_map.
  rewrite nth_map' with (d := 0) by exact Hi. apply T_Dec_point. exact I.
Qed.

(** ** C35: false; only the first components enter the encoding *)
Theorem C35_encoding_refuted : forall A B B' z z' t t',
  PTE_ProofToByteString G {| pteA := A; pteB := B; ptez := z; ptet := t |}
  = PTE_ProofToByteString G {| pteA := A; pteB := B'; ptez := z'; ptet := t' |}.
Proof. reflexivity. Qed.

Theorem C35_encoding_binds_A_partial : forall p p',
  PTE_ProofToByteString G p = PTE_ProofToByteString G p' -> pteA G p = pteA G p'.
Proof.
  intros p p' E. unfold PTE_ProofToByteString in E. apply cat_points_inj in E; [exact E|].
  apply (f_equal (@length N)) in E. rewrite !cat_points_length in E. lia.
Qed.

(** ** C79 zero knowledge of the honest prover: for every challenge, the proofs an honest
    prover can output are exactly those a simulator computes without the witness by
    choosing the answers first, each for exactly one value of the prover's random draws *)
Theorem C79_dlk_zero_knowledge : forall e g h w tr A z, h = g *p w ->
  ((exists! a, in_Zq G a /\ fst (DLK_Prove G (fun _ => e) g h w tr a) = {| dlkA := A; dlkz := z |})
   <-> in_Zq G z /\ A = g *p z -p h *p e).
Proof.
  intros e g h w tr A z ->. unfold DLK_Prove. cbn [fst]. split.
  - intros [a [[Ha E] _]]. inversion E; subst. split; [apply modq_range|].
    clear. logs G. gring.
  - intros [Hz ->]. destruct (blind_unique G (e * w) z Hz) as [R [S U]].
    exists (modq G (z - e * w)). split; [split; [exact R|]|].
    + f_equal; [|exact S]. clear. logs G. gring.
    + intros a [Ha E]. injection E as E1 E2. symmetry. apply U; assumption.
Qed.

Theorem C79_dle_zero_knowledge : forall e g1 h1 g2 h2 w tr A1 A2 z, h1 = g1 *p w -> h2 = g2 *p w ->
  ((exists! a, in_Zq G a /\
      fst (DLE_Prove G (fun _ => e) g1 h1 g2 h2 w tr a) = {| dleA1 := A1; dleA2 := A2; dlez := z |})
   <-> in_Zq G z /\ A1 = g1 *p z -p h1 *p e /\ A2 = g2 *p z -p h2 *p e).
Proof.
  intros e g1 h1 g2 h2 w tr A1 A2 z -> ->. unfold DLE_Prove. cbn [fst]. split.
  - intros [a [[Ha E] _]]. inversion E; subst. split; [apply modq_range|].
    clear. logs G. split; gring.
  - intros [Hz [-> ->]]. destruct (blind_unique G (e * w) z Hz) as [R [S U]].
    exists (modq G (z - e * w)). split; [split; [exact R|]|].
    + f_equal; [| |exact S]; clear; logs G; gring.
    + intros a [Ha E]. injection E as E1 E2 E3. symmetry. apply U; assumption.
Qed.

Theorem C79_pk_zero_knowledge : forall e pp pk v r tr A B z1 z2,
  let ct := T_Enc G pp pk v r in
  ((exists! ab, in_Zq G (fst ab) /\ in_Zq G (snd ab) /\
      fst (PK_Prove G (fun _ => e) (t_g G pp) (t_h G pp) pk ct v r tr (fst ab) (snd ab))
      = {| pkA := A; pkB := B; pkz1 := z1; pkz2 := z2 |})
   <-> in_Zq G z1 /\ in_Zq G z2 /\ A = pk *p z1 -p tX G ct *p e /\
       B = msum G [t_g G pp; t_h G pp] [z1; z2] -p tY G ct *p e).
Proof.
  intros e pp pk v r tr A B z1 z2 ct. unfold PK_Prove. cbn [fst]. unfold ct, T_Enc. cbn [tX tY].
  rewrite !msum2. split.
  - intros [[a b] [[Ha [Hb E]] _]]. cbn [fst snd] in *. rewrite msum2 in E.
    inversion E; subst. split; [apply modq_range|]. split; [apply modq_range|].
    generalize (t_g G pp) (t_h G pp). clear. intros g h. logs G. split; gring.
  - intros [Hz1 [Hz2 [-> ->]]]. destruct (blind_unique G (e * r) z1 Hz1) as [R [S U]].
    destruct (blind_unique G (e * v) z2 Hz2) as [R' [S' U']].
    exists (modq G (z1 - e * r), modq G (z2 - e * v)). cbn [fst snd].
    split; [split; [exact R|split; [exact R'|]]|].
    + cbn [fst snd]. rewrite msum2, S, S'. f_equal; generalize (t_g G pp) (t_h G pp); clear; intros g h; logs G; gring.
    + intros [a b] [Ha [Hb E]]. cbn [fst snd] in *. injection E as E1 E2 E3 E4.
      rewrite (U a Ha E3), (U' b Hb E4). reflexivity.
Qed.

Theorem C79_pte_zero_knowledge : forall e pp pks v r tr A B z t,
  let ct := T_MREnc G pp pks v r in
  ((exists! ab, in_Zq G (fst ab) /\ in_Zq G (snd ab) /\
      option_map fst (PTE_Prove G (fun _ => e) (t_g G pp) (t_h G pp) pks ct v r tr (fst ab) (snd ab))
      = Some {| pteA := A; pteB := B; ptez := z; ptet := t |})
   <-> in_Zq G z /\ in_Zq G t /\ A = map2 (fun pk X => pk *p z -p X *p e) pks (tvX G ct) /\
       B = msum G [t_g G pp; t_h G pp] [z; t] -p tmY G ct *p e).
Proof.
  intros e pp pks v r tr A B z t ct.
  assert (LE : (length pks <=? length (tvX G ct))%nat = true).
  { unfold ct, T_MREnc. cbn [tvX]. rewrite map_length. apply Nat.leb_refl. }
  unfold PTE_Prove. rewrite LE. cbn [option_map fst]. unfold ct, T_MREnc. cbn [tvX tmY].
  assert (AA : forall a, map (fun pk => pk *p a) pks
             = map2 (fun pk X => pk *p modq G (a + e * r) -p X *p e) pks (map (fun pk => pk *p r) pks)).
  { intros a. induction pks as [|pk pks' IH]; [reflexivity|]. cbn [map map2].
    f_equal; [clear; logs G; gring|]. apply IH. exact LE. }
  rewrite !msum2. split.
  - intros [[a b] [[Ha [Hb E]] _]]. cbn [fst snd] in *. rewrite msum2 in E.
    injection E as <- <- <- <-. split; [apply modq_range|]. split; [apply modq_range|].
    split; [apply AA|]. generalize (t_g G pp) (t_h G pp). clear. intros g h. logs G. gring.
  - intros [Hz [Ht [-> ->]]]. destruct (blind_unique G (e * r) z Hz) as [R [S U]].
    destruct (blind_unique G (e * v) t Ht) as [R' [S' U']].
    exists (modq G (z - e * r), modq G (t - e * v)). cbn [fst snd].
    split; [split; [exact R|split; [exact R'|]]|].
    + cbn [fst snd]. rewrite msum2, AA, S, S'. do 2 f_equal.
      generalize (t_g G pp) (t_h G pp). clear. intros g h. logs G. gring.
    + intros [a b] [Ha [Hb E]]. cbn [fst snd] in *. injection E as E1 E2 E3 E4.
      rewrite (U a Ha E3), (U' b Hb E4). reflexivity.
Qed.

(** ** C80 the challenge is computed from the whole statement and first message: two runs
    that hash the same string, started from prefixes of equal length, have the same
    prefix, statement and first message *)
Theorem C80_schnorr_challenge_binds : forall (A A' : pt G) m m',
  ToByteString G A ++ m = ToByteString G A' ++ m' -> A = A' /\ m = m'.
Proof. intros A A' m m' E. apply bytes_app_inj in E. exact E. Qed.

Theorem C80_dlk_challenge_binds : forall (H : list N -> Z) g h g' h' tr tr' p p',
  length tr = length tr' ->
  snd (DLK_Verify G H g h tr p) = snd (DLK_Verify G H g' h' tr' p') ->
  tr = tr' /\ g = g' /\ h = h' /\ dlkA G p = dlkA G p'.
Proof.
  intros H g h g' h' tr tr' p p' L E. unfold DLK_Verify in E. cbn [snd] in E.
  rewrite <- !app_assoc in E. apply app_inj_len in E; [|exact L]. destruct E as [-> E].
  apply bytes_app_inj in E. destruct E as [-> E]. apply bytes_app_inj in E. destruct E as [-> E].
  apply ToByteString_inj in E. auto.
Qed.

Theorem C80_dle_challenge_binds : forall (H : list N -> Z) g1 h1 g2 h2 g1' h1' g2' h2' tr tr' p p',
  length tr = length tr' ->
  snd (DLE_Verify G H g1 h1 g2 h2 tr p) = snd (DLE_Verify G H g1' h1' g2' h2' tr' p') ->
  tr = tr' /\ g1 = g1' /\ g2 = g2' /\ h1 = h1' /\ h2 = h2' /\ dleA1 G p = dleA1 G p' /\ dleA2 G p = dleA2 G p'.
Proof.
  intros H g1 h1 g2 h2 g1' h1' g2' h2' tr tr' p p' L E. unfold DLE_Verify, DLE_instance in E. cbn [snd] in E.
  rewrite <- !app_assoc in E. apply app_inj_len in E; [|exact L]. destruct E as [-> E].
  do 5 (apply bytes_app_inj in E; destruct E as [? E]; subst).
  apply ToByteString_inj in E. repeat split; auto.
Qed.

Theorem C80_pk_challenge_binds : forall (H : list N -> Z) g h pk ct g' h' pk' ct' tr tr' p p',
  length tr = length tr' ->
  snd (PK_Verify G H g h pk ct tr p) = snd (PK_Verify G H g' h' pk' ct' tr' p') ->
  tr = tr' /\ pk = pk' /\ ct = ct' /\ pkA G p = pkA G p' /\ pkB G p = pkB G p'.
Proof.
  intros H g h pk [X Y] g' h' pk' [X' Y'] tr tr' p p' L E. unfold PK_Verify in E. cbn [snd tX tY] in E.
  rewrite <- !app_assoc in E. apply app_inj_len in E; [|exact L]. destruct E as [-> E].
  do 4 (apply bytes_app_inj in E; destruct E as [? E]; subst).
  apply ToByteString_inj in E. repeat split; auto.
Qed.

Theorem C80_pte_challenge_binds : forall (H : list N -> Z) g h pks ct g' h' pks' ct' tr tr' p p' b b' out,
  length tr = length tr' -> length (tvX G ct) = length pks -> length (tvX G ct') = length pks' ->
  length (pteA G p) = length pks -> length (pteA G p') = length pks' ->
  PTE_Verify G H g h pks ct tr p = Some (b, out) -> PTE_Verify G H g' h' pks' ct' tr' p' = Some (b', out) ->
  tr = tr' /\ pks = pks' /\ ct = ct' /\ pteA G p = pteA G p' /\ pteB G p = pteB G p'.
Proof.
  intros H g h pks [X Y] g' h' pks' [X' Y'] tr tr' p p' b b' out L LX LX' LA LA' E E'.
  unfold PTE_Verify, PTE_instance in E, E'. cbn [tvX tmY] in *.
  rewrite LX, LA, Nat.leb_refl in E. rewrite LX', LA', Nat.leb_refl in E'. cbn [andb] in E, E'.
  rewrite !firstn_all2 in E by lia. rewrite !firstn_all2 in E' by lia.
  assert (Eo := f_equal (fun o => match o with Some (_, x) => x | None => [] end) E). cbv beta iota in Eo.
  assert (Eo' := f_equal (fun o => match o with Some (_, x) => x | None => [] end) E'). cbv beta iota in Eo'.
  rewrite <- Eo' in Eo. clear E E' Eo'. rewrite <- !app_assoc in Eo.
  apply app_inj_len in Eo; [|exact L]. destruct Eo as [-> E].
  assert (Lp : length pks = length pks').
  { apply (f_equal (@length N)) in E. rewrite !app_length, !cat_points_length, !ToByteString_length in E. lia. }
  apply app_inj_len in E; [|rewrite !cat_points_length; lia]. destruct E as [E1 E].
  apply app_inj_len in E; [|rewrite !cat_points_length; lia]. destruct E as [E2 E].
  apply bytes_app_inj in E. destruct E as [-> E].
  apply app_inj_len in E; [|rewrite !cat_points_length; lia]. destruct E as [E3 E].
  apply ToByteString_inj in E. apply cat_points_inj in E1; [|exact Lp].
  apply cat_points_inj in E2; [|lia]. apply cat_points_inj in E3; [|lia]. subst. auto.
Qed.

(** ** C81 encodings of whole proofs *)
Theorem C81_dlk_dle_encoding_injective : forall p p' s s',
  0 <= dlkz G p -> 0 <= dlkz G p' -> 0 <= dlez G s -> 0 <= dlez G s' ->
  (DLK_ProofToByteString G p = DLK_ProofToByteString G p' -> p = p') /\
  (DLE_ProofToByteString G s = DLE_ProofToByteString G s' -> s = s').
Proof.
  intros [A z] [A' z'] [B1 B2 y] [B1' B2' y'] P P' Q Q'. cbn [dlkz dlez] in *. split; intros E.
  - unfold DLK_ProofToByteString in E. cbn [dlkA dlkz] in E.
    apply bytes_app_inj in E. destruct E as [-> E]. apply bigint_bytes_inj in E; [subst; reflexivity|lia|lia].
  - unfold DLE_ProofToByteString in E. cbn [dleA1 dleA2 dlez] in E.
    apply bytes_app_inj in E. destruct E as [-> E]. apply bytes_app_inj in E. destruct E as [-> E].
    apply bigint_bytes_inj in E; [subst; reflexivity|lia|lia].
Qed.

(** The plaintext-knowledge encoding concatenates two numbers of variable length: every
    pair of first messages has two different proofs with the same encoding. *)
Theorem C81_pk_encoding_refuted : forall A B, exists p p' : PKProof G,
  pkA G p = A /\ pkA G p' = A /\ pkB G p = B /\ pkB G p' = B /\
  pkz1 G p <> pkz1 G p' /\ pkz2 G p <> pkz2 G p' /\
  PK_ProofToByteString G p = PK_ProofToByteString G p'.
Proof.
  intros A B. exists {| pkA := A; pkB := B; pkz1 := 1; pkz2 := 515 |}, {| pkA := A; pkB := B; pkz1 := 258; pkz2 := 3 |}.
  cbn [pkA pkB pkz1 pkz2]. repeat split; try discriminate.
Qed.
End Props.

(** ** concrete cases *)
Definition toyH (s : list N) : Z := fold_left (fun acc b => (acc * 31 + Z.of_N b) mod 97) s 7.

Example C29_example : exists A z z' (H H' : list N -> Z),
  let e := H (ToByteString G101 A ++ [1%N]) in let e' := H' (ToByteString G101 A ++ [2%N]) in
  Schnorr_Verify G101 H (pgen G101) (p101 17) [1%N] {| sigA := A; sigz := z |} = true /\
  Schnorr_Verify G101 H' (pgen G101) (p101 17) [2%N] {| sigA := A; sigz := z' |} = true /\
  distinct_challenges G101 e e' /\ modq G101 (extracted G101 z z' e e') = 17.
Proof.
  exists (p101 5), (sigz G101 (Schnorr_Sign G101 toyH (pgen G101) 17 [1%N] 5)),
    (sigz G101 (Schnorr_Sign G101 toyH (pgen G101) 17 [2%N] 5)), toyH, toyH. cbv zeta.
  split; [vm_compute; reflexivity|]. split; [vm_compute; reflexivity|]. split; [|vm_compute; reflexivity].
  intros C. apply (cong_mod 101) in C; [|lia]. vm_compute in C. discriminate C.
Qed.

Example C30_example : nontrivial_relation G101 [pgen G101; p101 3; p101 7] [- 3; 1; 0] /\
  Commit G101 (pgen G101) [p101 3; p101 7] [5; 2] 4 = Commit G101 (pgen G101) [p101 3; p101 7] [4; 2] 7.
Proof.
  split; [|vm_compute; reflexivity].
  assert (E : Commit G101 (pgen G101) [p101 3; p101 7] [5; 2] 4 = Some (p101 33)).
  { vm_compute. reflexivity. }
  assert (E' : Commit G101 (pgen G101) [p101 3; p101 7] [4; 2] 7 = Some (p101 33)).
  { vm_compute. reflexivity. }
  apply (C30_binding G101 _ _ _ _ _ _ _ E E').
  apply Exists_cons_hd. intros C. apply (cong_mod 101) in C; [|lia]. vm_compute in C. discriminate C.
Qed.

Example C32_example :
  DLE_Verify G101 toyH (p101 2) (p101 26) (p101 5) (p101 65) [1%N; 2%N]
    (fst (DLE_Prove G101 toyH (p101 2) (p101 26) (p101 5) (p101 65) 13 [1%N; 2%N] 44))
  = (true, snd (DLE_Prove G101 toyH (p101 2) (p101 26) (p101 5) (p101 65) 13 [1%N; 2%N] 44)).
Proof. vm_compute. reflexivity. Qed.

Definition tpp101 : TPP G101 := {| t_len := 32; t_size := 4294967296; t_trade := 7; t_g := pgen G101; t_h := p101 9 |}.
Example C34_example : exists p tr',
  PTE_Prove G101 toyH (pgen G101) (p101 9) [p101 4; p101 8; p101 50] (T_MREnc G101 tpp101 [p101 4; p101 8; p101 50] 20 30)
    20 30 [9%N] 11 12 = Some (p, tr') /\
  PTE_Verify G101 toyH (pgen G101) (p101 9) [p101 4; p101 8; p101 50] (T_MREnc G101 tpp101 [p101 4; p101 8; p101 50] 20 30)
    [9%N] p = Some (true, tr').
Proof. exact (C34_complete G101 toyH tpp101 [p101 4; p101 8; p101 50] 20 30 [9%N] 11 12). Qed.

Print Assumptions C29_signatures_verify.
Print Assumptions C29_answer_unique.
Print Assumptions C29_special_soundness.
Print Assumptions C30_homomorphic.
Print Assumptions C30_perfectly_hiding.
Print Assumptions C30_binding.
Print Assumptions C30_length_not_bound.
Print Assumptions C31_complete.
Print Assumptions C31_special_soundness.
Print Assumptions C32_complete.
Print Assumptions C32_special_soundness.
Print Assumptions C32_unequal_logs_one_challenge.
Print Assumptions C33_complete.
Print Assumptions C33_special_soundness.
Print Assumptions C34_complete.
Print Assumptions C34_special_soundness.
Print Assumptions C34_same_plaintext.
Print Assumptions C35_encoding_refuted.
Print Assumptions C35_encoding_binds_A_partial.
Print Assumptions C79_dlk_zero_knowledge.
Print Assumptions C79_dle_zero_knowledge.
Print Assumptions C79_pk_zero_knowledge.
Print Assumptions C79_pte_zero_knowledge.
Print Assumptions C80_schnorr_challenge_binds.
Print Assumptions C80_dlk_challenge_binds.
Print Assumptions C80_dle_challenge_binds.
Print Assumptions C80_pk_challenge_binds.
Print Assumptions C80_pte_challenge_binds.
Print Assumptions C81_dlk_dle_encoding_injective.
Print Assumptions C81_pk_encoding_refuted.

(** C62 end to end: Private-ID with the OPRF and the mqRPMT the headers select. *)
From Coq Require Import NArith ZArith List Bool Arith Lia Permutation.
From Coq Require Import ZifyBool ZifyNat ZifyN.
From Verif.Base Require Import Words ListX.
From Verif.Filter Require Import BloomModel BloomSpec BloomProps.
From Verif.Group Require Import ECModel ZqGroup.
From Verif.PKE Require Import ElGamalModel ElGamalProps.
From Verif.Net Require Import ChannelModel ChannelSpec PartyModel PartyProofs.
From Verif.Filter Require Import MurmurModel.
From Verif.OKVS Require Import GFModel SparseModel SparseSpec PaxosModel PaxosSpec BaxosModel BaxosSpec BaxosBins.
From Verif.VOLE Require Import BVProofs VOLEModel VOLESpec VOLEProps.
From Verif.OT Require Import OTModel OTSpec OTProofs OTProps.
From Verif.MPC Require Import CwModel CwSpec CwProps PSOModel PSOSpec PSOProofs PSOProps.
From Verif.MPC Require Import VOPRFModel VOPRFSpec VOPRFProofs VOPRFProps.
Import ListNotations.

Lemma picked_incl : forall (A : Type) bits (X : list A) z, In z (picked bits X) -> In z X.
Proof.
  intros A. induction bits as [|b bits IH]; intros [|x X] z H; cbn in H; try contradiction.
  destruct (b =? 1)%N; [destruct H as [H|H]; [left; exact H|right; apply (IH X z H)]|right; apply (IH X z H)].
Qed.
Lemma picked_nodup : forall (A : Type) bits (X : list A), NoDup X -> NoDup (picked bits X).
Proof.
  intros A. induction bits as [|b bits IH]; intros [|x X] H; try constructor. cbn. inversion H; subst.
  destruct (b =? 1)%N; [constructor; [intros I; apply picked_incl in I; contradiction|]|]; apply IH; assumption.
Qed.
Lemma picked_le : forall (A : Type) bits (X : list A), (length (picked bits X) <= length X)%nat.
Proof.
  intros A. induction bits as [|b bits IH]; intros [|x X]; cbn; try lia. specialize (IH X). destruct (b =? 1)%N; cbn [length]; lia.
Qed.

(** what a run of Private-ID gives from the indication bits, whatever these are *)
Section Run.
Variable G : ECGroup.
Variable hash : list N -> list N.
Hypothesis hash_ok : forall s, length (hash s) = 32%nat /\ bytes_ok (hash s).
Variable g : pt G.
Variable D : Draws.
Hypothesis DOK : draws_ok D.
Variable mqServer : list N -> party G (list N).
Variable mqClient : list N -> party G unit.
Variable Key : Type.
Variable oprf_Server1 oprf_Server2 : party G Key.
Variable oprf_Client1 oprf_Client2 : list N -> nat -> party G (list (list N)).
Variable oprf_Evaluate1 oprf_Evaluate2 : Key -> list N -> nat -> option (list (list N)).
Variable shuffle : list (list N) -> list (list N).
Hypothesis SH : forall l, Permutation (shuffle l) l.

Lemma id_run : forall (F1 F2 : N -> list N) k1 k2 X Y l bits,
  let id z := map2 N.lxor (F1 z) (F2 z) in
  ends oprf_Server1 (oprf_Client1 Y (length Y)) k1 (map F1 Y) -> oprf_Evaluate1 k1 X (length X) = Some (map F1 X) ->
  ends oprf_Server2 (oprf_Client2 X (length X)) k2 (map F2 X) -> oprf_Evaluate2 k2 Y (length Y) = Some (map F2 Y) ->
  (forall z, length (F1 z) = l /\ length (F2 z) = l) ->
  ends (mqServer (map (StringToBlock hash) (map id Y))) (mqClient (map (StringToBlock hash) (map id X))) bits tt ->
  length bits = length X -> (0 < length X)%nat -> (0 < length Y)%nat ->
  (N.of_nat (length X) < 2 ^ 62 /\ N.of_nat (length Y) < 2 ^ 62 /\ N.of_nat l * (N.of_nat (length X) + N.of_nat (length Y) + 127) < 2 ^ 64 /\ N.of_nat l < 2 ^ 64)%N ->
  let U := shuffle (map id Y ++ picked (flip_bits bits) (map id X)) in
  ends (ID_Send G hash g D mqClient Key oprf_Server1 oprf_Client2 oprf_Evaluate1 (length X) X l)
       (ID_Receive G hash g D mqServer Key oprf_Server2 oprf_Client1 oprf_Evaluate2 shuffle (length Y) Y l) (U, map id X) (U, map id Y).
Proof.
  intros F1 F2 k1 k2 X Y l bits id E1 V1 E2 V2 LF EM LB HP HY SZ U.
  assert (LID : forall z, length (id z) = l) by (intros z; unfold id; rewrite map2_length; destruct (LF z); lia).
  set (U0 := map id Y ++ picked (flip_bits bits) (map id X)) in U. unfold U.
  unfold ID_Send, ID_Receive. rewrite !Nat.eqb_refl. eapply ends_bind; [exact E1|]. cbv beta. rewrite V1. cbn [local].
  eapply ends_bind; [apply ends_sym; exact E2|]. cbv beta. rewrite V2. cbn [local].
  rewrite !(xor_ids_map G hash hash_ok mqServer mqClient Key oprf_Client1 oprf_Client2 oprf_Evaluate1 oprf_Evaluate2 F1 F2 l) by exact LF. cbn [local]. fold id.
  eapply ends_bind.
  - replace (length X) with (length (map id X)) by apply map_length. replace (length Y) with (length (map id Y)) by apply map_length.
    apply psu_bytes_run with (bits := bits); [exact hash_ok|exact DOK|exact EM|rewrite map_length; exact LB| | |].
    + apply Forall_map, Forall_forall. intros z _. apply LID.
    + rewrite map_length. exact HP.
    + rewrite map_length. nia.
  - cbv beta. fold U0. apply ends_sym. apply ab_bytesvec; [|apply ends_ret].
    assert (PU := SH U0).
    assert (LU : (length U0 <= length Y + length X)%nat).
    { unfold U0. rewrite app_length, map_length. pose proof (picked_le _ (flip_bits bits) (map id X)) as FL. rewrite map_length in FL. lia. }
    assert (NU : (0 < length U0)%nat) by (unfold U0; rewrite app_length, map_length; lia).
    cbn [fits]. split; [intros Q; apply Permutation_length in PU; rewrite Q in PU; cbn [length] in PU; lia|]. exists l. split.
    + apply (Permutation_Forall (Permutation_sym PU)). unfold U0. apply Forall_app. split; [apply Forall_map, Forall_forall; intros z _; apply LID|].
      apply Forall_forall. intros u I. apply picked_incl in I. apply in_map_iff in I. destruct I as [z [<- _]]. apply LID.
    + rewrite (Permutation_length PU). nia.
Qed.
End Run.

(** The two executions of the VOLE-OPRF and the mqRPMT of the default build, any sets the objects admit, all randomness,
    schedules and orders of the threads: both parties end, with their identifiers under one function and the same
    vector.  That vector has no other identifiers than those of the two parties, has all identifiers of the receiver, and
    lacks one of the sender only if the mqRPMT was mistaken about it (a collision of hashes or tags, or a false positive
    of the Bloom filter). *)
Theorem C62_end_to_end : forall G hash, (forall s, length (hash s) = 32%nat /\ bytes_ok (hash s)) ->
  forall g D, draws_ok D -> forall shuffle, (forall l : list (list N), Permutation (shuffle l) l) ->
  forall (C : X25519) FK big_salt raw_bits order_of contain, any_order order_of -> salts_total big_salt -> any_answer FK contain ->
  forall e1 e2 ssp,
  forall B, vole_okvs B ->
  forall r1 r2 eC1 eS1 eC2 eS2, random_ok r1 -> random_ok r2 -> vole_length r1 (out_size B) -> vole_length r2 (out_size B) ->
  (eC1 < 2 ^ 128)%N -> (eS1 < 2 ^ 128)%N -> (eC2 < 2 ^ 128)%N -> (eS2 < 2 ^ 128)%N ->
  let enc1 := okvs_enc (client_seed eC1) in let enc2 := okvs_enc (client_seed eC2) in
  forall X Y, encodable enc1 B Y -> countable enc1 B Y -> countable enc1 B X ->
              encodable enc2 B X -> countable enc2 B X -> countable enc2 B Y ->
  0 < length X -> 0 < length Y -> (N.of_nat (length X) < 2 ^ 40)%N -> (N.of_nat (length Y) < 2 ^ 40)%N ->
  (1 <= raw_bits (N.of_nat (length Y)) ssp <= 2 ^ 32 - 8)%N ->
  exists (id : N -> list N) U, (forall z, length (id z) = 16) /\
    ends (ID_Send G hash g D (fun X => X_Client G FK big_salt raw_bits order_of C e2 (length Y) (length X) ssp X)
            (list N * N) (Server G hash g B eS1 r1) (Client G hash g B eC2 r2) (Evaluate B) (length X) X 16)
         (ID_Receive G hash g D (fun Y => X_Server G big_salt contain C e1 (length Y) (length X) Y)
            (list N * N) (Server G hash g B eS2 r2) (Client G hash g B eC1 r1) (Evaluate B) shuffle (length Y) Y 16)
         (U, map id X) (U, map id Y) /\
    (forall u, In u U -> (exists x, In x X /\ u = id x) \/ (exists y, In y Y /\ u = id y)) /\
    (forall y, In y Y -> In (id y) U) /\
    (forall x, In x X -> In (id x) U \/
       (exists y, In y Y /\ id y <> id x /\ StringToBlock hash (id y) = StringToBlock hash (id x)) \/
       mistaken C FK big_salt raw_bits e1 e2 ssp (map (fun y => StringToBlock hash (id y)) Y) (StringToBlock hash (id x))) /\
    (NoDup (map id X) -> NoDup (map id Y) -> NoDup U).
Proof.
  intros G hash HH g D DOK shuffle SH C FK big_salt raw_bits order_of contain ORD SALT ANS e1 e2 ssp B OB r1 r2 eC1 eS1 eC2 eS2 R1 R2 V1 V2
    H1 H2 H3 H4 enc1 enc2 X Y EY CY CX EX CX2 CY2 HX HY LX LY RB.
  destruct (C58_vole_oprf_partial G hash HH g B OB r1 R1 V1 eC1 eS1 H1 H2 Y EY CY) as (F1 & k1 & E1 & L1 & W1).
  destruct (C58_vole_oprf_partial G hash HH g B OB r2 R2 V2 eC2 eS2 H3 H4 X EX CX2) as (F2 & k2 & E2 & L2 & W2).
  set (id := fun z => map2 N.lxor (F1 z) (F2 z)).
  set (hX := map (StringToBlock hash) (map id X)). set (hY := map (StringToBlock hash) (map id Y)).
  assert (LhX : length hX = length X) by (unfold hX; rewrite !map_length; reflexivity).
  assert (LhY : length hY = length Y) by (unfold hY; rewrite !map_length; reflexivity).
  destruct (mq_up_to G C FK big_salt raw_bits order_of contain ORD SALT ANS e1 e2 ssp hX hY) as [bits [EM UB]];
    [rewrite LhY; exact RB|rewrite LhY; lia|].
  assert (LB : length bits = length X) by (rewrite <- LhX; apply UB).
  exists id, (shuffle (map id Y ++ picked (flip_bits bits) (map id X))).
  assert (IN : forall u, In u (shuffle (map id Y ++ picked (flip_bits bits) (map id X))) <-> In u (map id Y) \/ In u (picked (flip_bits bits) (map id X))).
  { intros u. rewrite <- in_app_iff. split; apply Permutation_in; [apply SH|apply Permutation_sym, SH]. }
  assert (FU := flipped_up_to (list N) (StringToBlock hash) _ (map id X) (map id Y) bits UB).
  split; [|split; [|split; [|split; [|split]]]].
  - intros z. unfold id. rewrite map2_length, (proj1 (L1 z)), (proj1 (L2 z)). reflexivity.
  - rewrite LhX, LhY in EM.
    refine (id_run G hash HH g D DOK _ _ (list N * N) _ _ _ _ (Evaluate B) (Evaluate B) shuffle SH F1 F2 k1 k2 X Y 16 bits
      (ends_sym _ _ _ _ _ _ _ E1) (W1 X CX) (ends_sym _ _ _ _ _ _ _ E2) (W2 Y CY2) (fun z => conj (proj1 (L1 z)) (proj1 (L2 z))) _ LB HX HY _).
    + cbv beta. rewrite !map_length. fold id. fold hX hY. exact EM.
    + change (N.of_nat 16) with 16%N. lia.
  - intros u I. apply IN in I. destruct I as [I|I]; [right|left; apply picked_incl in I]; apply in_map_iff in I; destruct I as [z [E J]]; exists z; auto.
  - intros y I. apply IN. left. apply in_map. exact I.
  - intros x I. assert (EQ : map (fun y => StringToBlock hash (id y)) Y = hY) by (unfold hY; rewrite map_map; reflexivity). rewrite EQ.
    destruct (in_dec N.eq_dec (StringToBlock hash (id x)) hY) as [J|J].
    { rewrite <- EQ in J. apply in_map_iff in J. destruct J as [y [Ey Iy]]. destruct (list_eq_dec N.eq_dec (id y) (id x)) as [Q|Q].
      - left. rewrite <- Q. apply IN. left. apply in_map. exact Iy.
      - right. left. exists y. auto. }
    destruct (proj2 (FU (id x)) (in_map id X x I) J) as [K|K]; [left; apply IN; right; exact K|right; right; exact K].
  - intros NX NY. apply (Permutation_NoDup (Permutation_sym (SH _))). apply NoDup_app'; [exact NY|apply picked_nodup, NX|].
    intros u I J. apply (proj1 (FU u)) in J. apply (proj2 J), in_map, I.
Qed.

(** One case: the sender has 7 and 100, the receiver 3 and 7 *)
Lemma case_store : (if store (okvs_enc (client_seed 9)) 1 (binp ex_B) [3; 7]%N [0; 0]%N None then true else false) = true.
Proof. vm_compute. reflexivity. Qed.
Lemma case_encodable : encodable (okvs_enc (client_seed 9)) ex_B [3; 7]%N.
Proof.
  left. split; [reflexivity|]. split; [reflexivity|]. intros E. assert (W := case_store). change (repeat 0%N (length [3; 7]%N)) with [0; 0]%N in E.
  rewrite E in W. discriminate W.
Qed.
Example C62_case : exists (id : N -> list N) U,
  ends (ID_Send G101 toy_hash (p101 1) toy_draws (fun X => X_Client G101 LiteMurmurHash ex_salt (fun _ _ => 100%N) one_order toyX 2 2 (length X) 40 X)
          (list N * N) (Server G101 toy_hash (p101 1) ex_B 5 example_random) (Client G101 toy_hash (p101 1) ex_B 9 example_random) (Evaluate ex_B) 2 [7; 100]%N 16)
       (ID_Receive G101 toy_hash (p101 1) toy_draws (fun Y => X_Server G101 ex_salt (some_answer LiteMurmurHash) toyX 1 (length Y) 2 Y)
          (list N * N) (Server G101 toy_hash (p101 1) ex_B 5 example_random) (Client G101 toy_hash (p101 1) ex_B 9 example_random) (Evaluate ex_B) (fun l => l) 2 [3; 7]%N 16)
       (U, map id [7; 100]%N) (U, map id [3; 7]%N) /\ In (id 3%N) U /\ In (id 7%N) U.
Proof.
  destruct (C62_end_to_end G101 toy_hash toy_hash_ok (p101 1) toy_draws toy_draws_ok (fun l => l) (@Permutation_refl _) toyX LiteMurmurHash ex_salt (fun _ _ => 100%N) one_order
    (some_answer LiteMurmurHash) one_order_ok ex_salts_total (some_answer_ok LiteMurmurHash) 1 2 40 ex_B ex_B_ok example_random example_random 9 5 9 5
    (proj1 C76_hypotheses) (proj1 C76_hypotheses) ex_length ex_length eq_refl eq_refl eq_refl eq_refl [7; 100]%N [3; 7]%N case_encodable
    (ex_count _ [3; 7]%N ex_few) (ex_count _ [7; 100]%N ex_few) ex_encodable (ex_count _ [7; 100]%N ex_few) (ex_count _ [3; 7]%N ex_few)) as (id & U & L & E & _ & H & _).
  - cbn. lia.
  - cbn. lia.
  - reflexivity.
  - reflexivity.
  - split; discriminate.
  - exists id, U. split; [exact E|]. split; apply H; cbn; auto.
Qed.

Print Assumptions C62_end_to_end.

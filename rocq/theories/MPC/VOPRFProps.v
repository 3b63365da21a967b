(** C58, C86: the VOLE-based OPRF; C62 with it. *)
From Coq Require Import NArith ZArith List Bool Arith Lia Permutation.
From Coq Require Import ZifyBool ZifyNat ZifyN.
From Verif.Base Require Import Words ListX.
From Verif.Crypto Require Import BlockModel AESModel AESKeyProofs PRGModel.
From Verif.Utility Require Import SerialModel.
From Verif.Group Require Import ECModel ZqGroup.
From Verif.Net Require Import ChannelModel PartyModel PartyProofs.
From Verif.OT Require Import OTModel OTSpec OTProofs OTProps.
From Verif.OKVS Require Import GFModel GFProofs SparseModel SparseSpec PaxosModel PaxosSpec BaxosModel BaxosSpec PaxosZero.
From Verif.VOLE Require Import BVProofs VOLEModel VOLESpec VOLEProps.
From Verif.OKVS Require PaxosLists.
From Verif.MPC Require Import PSOModel PSOSpec PSOProofs PSOProps.
From Verif.MPC Require Import VOPRFModel VOPRFSpec VOPRFProofs.
Import ListNotations.

(** Lengths with which the VOLE works (C76) *)
Definition vole_length (r : vole_random) (n : nat) : Prop :=
  n < 256 \/ ((48 * N.of_nat n < 2 ^ 32)%N /\
              spare n 128 <= length (behind_m0 r) /\ spare n 128 <= length (behind_m1 r) /\ spare n 128 <= length (behind_bits r)).

Lemma seed_block eC : (eC < 2 ^ 128)%N -> (client_seed eC < 2 ^ 128)%N.
Proof.
  intros H. unfold client_seed. destruct (set_seed_ok eC None H ltac:(discriminate)) as [C1 K1].
  destruct (draw_spec _ 1 C1 K1) as (v & s & E & Bv & _). rewrite E. apply nth_blk, Bv.
Qed.
Lemma delta_block eS : (eS < 2 ^ 128)%N -> (server_delta eS < 2 ^ 128)%N.
Proof.
  intros H. unfold server_delta. destruct (set_seed_ok eS None H ltac:(discriminate)) as [C1 K1].
  destruct (draw_spec _ 2 C1 K1) as (v & s & E & Bv & _). rewrite E. apply nth_blk, Bv.
Qed.

Section Run.
Variable G : ECGroup.
Variable hash : list N -> list N.
Hypothesis HH : forall s, length (hash s) = 32%nat /\ bytes_ok (hash s).
Variable g : pt G.
Variable B : baxos.
Hypothesis OB : vole_okvs B.
Variable r : vole_random.
Hypothesis RO : random_ok r.
Hypothesis VL : vole_length r (out_size B).
Variables eC eS : N.
Hypothesis HC : (eC < 2 ^ 128)%N.
Hypothesis HS : (eS < 2 ^ 128)%N.

(** The key the server ends with is the vector the client has received in the VOLE. *)
Lemma run : forall X, let enc := okvs_enc (client_seed eC) in encodable enc B X -> countable enc B X ->
  exists C, blocks (out_size B) C /\
    ends (Client_state G hash g B eC r X (length X)) (Server G hash g B eS r)
      (map (le_bytes 16) (map (meaning enc B C) X), C, client_seed eC) (BlockToByte C, client_seed eC).
Proof.
  intros X enc EN CT. destruct (solve1_total enc B X OB EN) as (P & EP & LP).
  assert (ZP := solve1_zero _ _ _ _ _ _ EP).
  destruct (C76_vole_partial G hash HH g r (out_size B) 128 (server_delta eS) RO (delta_block eS HS)) as (A & C & K & EV & BA & BC & BK & CO).
  { destruct VL as [V|V]; [left; exact V|]. destruct (Nat.lt_ge_cases (out_size B) 256); [left; lia|right; intuition lia]. }
  exists C. split; [exact BC|]. unfold Client_state, Server. fold enc. unfold out_size at 1. rewrite EP. cbn [local].
  eapply ends_bind; [exact EV|]. cbv beta iota zeta.
  destruct BA as [LA FA]. destruct BC as [LC FC]. destruct BK as [LK FK]. unfold out_size in LP. fold (out_size B) in LP.
  assert (E1 : add_to (fun x => x) (out_size B) P A = Some A).
  { unfold add_to. replace (out_size B <=? length P) with true by lia. replace (out_size B <=? length A) with true by lia. cbn [andb].
    f_equal. rewrite map_id. rewrite !firstn_all2 by lia. rewrite skipn_all2 by lia. rewrite app_nil_r.
    rewrite (zeros_is P ZP). apply list_eq_nth with 0%N; [rewrite map2_length, repeat_length; lia|].
    intros i Hi. rewrite map2_length, repeat_length in Hi. rewrite (map2_nth _ _ _ i 0%N 0%N) by (rewrite ?repeat_length; lia).
    rewrite nth_repeat. apply N.lxor_0_l. }
  rewrite E1. cbn [local].
  apply ab_blocks; [reflexivity|constructor; [apply seed_block, HC|constructor]|]. cbv beta. cbn [nth].
  apply ab_blocks; [exact LA|exact FA|]. cbv beta.
  rewrite (decode1_ok enc B C X OB LC CT). cbn [local].
  assert (E2 : add_to (gf128_mul (server_delta eS)) (out_size B) K A = Some C).
  { unfold add_to. replace (out_size B <=? length K) with true by lia. replace (out_size B <=? length A) with true by lia. cbn [andb].
    f_equal. rewrite !firstn_all2 by lia. rewrite skipn_all2 by lia. rewrite app_nil_r.
    apply list_eq_nth with 0%N; [rewrite map2_length, map_length; lia|].
    intros i Hi. rewrite map2_length, map_length in Hi. rewrite (map2_nth _ _ _ i 0%N 0%N) by (rewrite ?map_length; lia).
    rewrite (nth_map' _ _ _ 0%N) by lia. rewrite CO by lia. rewrite (gf_comm' (server_delta eS)), N.lxor_assoc, N.lxor_nilpotent. apply N.lxor_0_r. }
  rewrite E2. cbn [local]. apply ends_ret.
Qed.

(** C58, for every group, hash, OKVS object of usable sizes, system randomness and
    set X that can be encoded: the client ends with F on its items, and the
    server with a key such that Evaluate gives the same F on every list Y, in
    one call or in many, as long as the index type can count the items in each
    bin. *)
Theorem C58_vole_oprf_partial : forall X, let enc := okvs_enc (client_seed eC) in encodable enc B X -> countable enc B X ->
  exists F key, ends (Client G hash g B eC r X (length X)) (Server G hash g B eS r) (map F X) key /\
    (forall z, length (F z) = 16 /\ bytes_ok (F z)) /\
    forall Y, countable enc B Y -> Evaluate B key Y (length Y) = Some (map F Y).
Proof.
  intros X enc EN CT. destruct (run X EN CT) as (C & BC & E).
  exists (fun z => le_bytes 16 (meaning enc B C z)), (BlockToByte C, client_seed eC). split; [|split].
  - unfold Client. rewrite <- (map_map (meaning enc B C) (le_bytes 16)). eapply ends_then_ret; [exact E|reflexivity].
  - intros z. split; [apply le_bytes_length|apply le_bytes_ok].
  - intros Y CY. unfold Evaluate. cbn [fst snd]. fold enc. rewrite byte_blocks by apply BC.
    rewrite (decode1_ok enc B C Y OB (proj1 BC) CY). cbn [option_map]. rewrite map_map. reflexivity.
Qed.
End Run.
Print Assumptions C58_vole_oprf_partial.

(** Refuted without the last condition: the number of items is converted to the
    index type. With one bin, Evaluate returns zero blocks on every list whose
    length is a multiple of 2^8 (16, 32), whatever the key and the items are. *)
Theorem C58_count_refuted : forall B key Y, nbins B = 1 -> bmsize B <> 0 ->
  (N.of_nat (length Y) mod 2 ^ bits (binp B) = 0)%N ->
  Evaluate B key Y (length Y) = Some (repeat (repeat 0%N 16) (length Y)).
Proof.
  intros B key Y N1 M0 HY. unfold Evaluate, decode1, bdecode. rewrite N1. cbn [Nat.eqb]. unfold decode_buf.
  replace (msize (binp B) =? 0) with false by (cbn [msize binp]; lia).
  assert (L : length (set_dense (okvs_enc (snd key)) Y) = length Y) by apply map_length. rewrite L.
  assert (E : N.to_nat (idx (bits (binp B)) (N.of_nat (length Y))) = 0) by (unfold idx; rewrite HY; reflexivity). rewrite E.
  cbn [firstn decode_loop length Nat.leb map all_some bind app skipn].
  rewrite repeat_length, Nat.ltb_irrefl. cbn [option_map]. f_equal. rewrite PaxosLists.map_repeat. reflexivity.
Qed.
Print Assumptions C58_count_refuted.

(** C86 refuted: for all inputs and randomness, the vector C that the client
    receives in the VOLE, with the r that it has drawn, is the server's key. A
    client that keeps them evaluates the function wherever it likes: on every Y
    it computes what the server computes. *)
Theorem C86_client_knows_key_refuted :
  forall G hash, (forall s, length (hash s) = 32%nat /\ bytes_ok (hash s)) ->
  forall g B r eC eS X, vole_okvs B -> random_ok r -> vole_length r (out_size B) -> (eC < 2 ^ 128)%N -> (eS < 2 ^ 128)%N ->
  encodable (okvs_enc (client_seed eC)) B X -> countable (okvs_enc (client_seed eC)) B X ->
  exists out C seed_r, ends (Client_state G hash g B eC r X (length X)) (Server G hash g B eS r) (out, C, seed_r) (BlockToByte C, seed_r).
Proof.
  intros G hash HH g B r eC eS X OB RO VL HC HS EN CT.
  destruct (run G hash HH g B OB r RO VL eC eS HC HS X EN CT) as (C & _ & E). eauto.
Qed.
Print Assumptions C86_client_knows_key_refuted.

(** C62 with this OPRF, as Private-ID is built. Run 1: the sender is the server
    (randomness r1, eC1, eS1); run 2: the receiver is the server. There is one function,
    id, such that each party ends with the identifiers of its own items and both with the
    identifiers of all items, if the indication bits are correct and the hash does
    not map two different identifiers to one block. *)
Theorem C62_vole_oprf : forall G hash, (forall s, length (hash s) = 32%nat /\ bytes_ok (hash s)) ->
  forall g D, draws_ok D -> forall mqServer mqClient shuffle, (forall l : list (list N), Permutation (shuffle l) l) ->
  forall B, vole_okvs B ->
  forall r1 r2 eC1 eS1 eC2 eS2, random_ok r1 -> random_ok r2 -> vole_length r1 (out_size B) -> vole_length r2 (out_size B) ->
  (eC1 < 2 ^ 128)%N -> (eS1 < 2 ^ 128)%N -> (eC2 < 2 ^ 128)%N -> (eS2 < 2 ^ 128)%N ->
  let enc1 := okvs_enc (client_seed eC1) in let enc2 := okvs_enc (client_seed eC2) in
  forall X Y, encodable enc1 B Y -> countable enc1 B Y -> countable enc1 B X ->
              encodable enc2 B X -> countable enc2 B X -> countable enc2 B Y ->
  0 < length X -> (N.of_nat (length X) < 2 ^ 40)%N -> (N.of_nat (length Y) < 2 ^ 40)%N ->
  exists id : N -> list N, (forall z, length (id z) = 16) /\
  forall bits,
  ends (mqServer (map (StringToBlock hash) (map id Y))) (mqClient (map (StringToBlock hash) (map id X))) bits tt ->
  correct_bits (map (StringToBlock hash) (map id X)) (map (StringToBlock hash) (map id Y)) bits ->
  (forall x y, In x (map id X) -> In y (map id Y) -> StringToBlock hash x = StringToBlock hash y -> x = y) ->
  exists U,
    ends (ID_Send G hash g D mqClient (list N * N) (Server G hash g B eS1 r1) (Client G hash g B eC2 r2) (Evaluate B) (length X) X 16)
         (ID_Receive G hash g D mqServer (list N * N) (Server G hash g B eS2 r2) (Client G hash g B eC1 r1) (Evaluate B) shuffle (length Y) Y 16)
         (U, map id X) (U, map id Y) /\
    (forall u, In u U <-> (exists x, In x X /\ u = id x) \/ (exists y, In y Y /\ u = id y)) /\
    (NoDup (map id X) -> NoDup (map id Y) -> NoDup U).
Proof.
  intros G hash HH g D DOK mqServer mqClient shuffle SH B OB r1 r2 eC1 eS1 eC2 eS2 R1 R2 V1 V2 H1 H2 H3 H4 enc1 enc2 X Y EY CY CX EX CX2 CY2 HX LX LY.
  destruct (C58_vole_oprf_partial G hash HH g B OB r1 R1 V1 eC1 eS1 H1 H2 Y EY CY) as (F1 & k1 & E1 & L1 & W1).
  destruct (C58_vole_oprf_partial G hash HH g B OB r2 R2 V2 eC2 eS2 H3 H4 X EX CX2) as (F2 & k2 & E2 & L2 & W2).
  exists (fun z => map2 N.lxor (F1 z) (F2 z)). split.
  { intros z. rewrite map2_length, (proj1 (L1 z)), (proj1 (L2 z)). reflexivity. }
  intros bits EM CB INJ.
  exact (C62_private_id G hash HH g D DOK mqServer mqClient (list N * N) _ _ _ _ (Evaluate B) (Evaluate B) shuffle SH F1 F2 k1 k2 X Y 16 bits
    (ends_sym _ _ _ _ _ _ _ E1) (W1 X CX) (ends_sym _ _ _ _ _ _ _ E2) (W2 Y CY2) (fun z => conj (proj1 (L1 z)) (proj1 (L2 z))) EM CB INJ HX
    ltac:(change (N.of_nat 16) with 16%N; lia)).
Qed.
Print Assumptions C62_vole_oprf.

(** One object, two items, for each of the two runs *)
Definition ex_B : baxos :=
  {| items := 2; nbins := 1; bin_cap := 0; per_thread := fun _ => 0; bwt := 3; bmsize := 8; bglimit := 2; bssp := 40; bkind := gf_128 |}.
Lemma ex_B_ok : vole_okvs ex_B.
Proof. split; [|repeat split; cbn; lia]. unfold usable, binp, ex_B. cbn -[N.pow]. change (width 8) with 8%N. repeat split; try lia. left; reflexivity. Qed.
Lemma ex_count enc X : length X < 256 -> countable enc ex_B X.
Proof.
  intros H b Hb. change (bits (binp ex_B)) with 8%N. change (nbins ex_B) with 1 in Hb. replace b with 0 by lia.
  rewrite load_one by reflexivity. change (2 ^ 8)%N with 256%N. lia.
Qed.
Lemma ex_store : (if store (okvs_enc (client_seed 9)) 1 (binp ex_B) [7; 100]%N [0; 0]%N None then true else false) = true.
Proof. vm_compute. reflexivity. Qed.
Lemma ex_encodable : encodable (okvs_enc (client_seed 9)) ex_B [7; 100]%N.
Proof.
  left. split; [reflexivity|]. split; [reflexivity|]. intros E. assert (W := ex_store). change (repeat 0%N (length [7; 100]%N)) with [0; 0]%N in E.
  rewrite E in W. discriminate W.
Qed.
Lemma ex_length : vole_length example_random (out_size ex_B).
Proof. left. vm_compute. lia. Qed.
Lemma ex_few : length [7; 100]%N < 256.
Proof. cbn. lia. Qed.
Example C58_run : exists F key,
  ends (Client G101 toy_hash (p101 1) ex_B 9 example_random [7; 100]%N 2) (Server G101 toy_hash (p101 1) ex_B 5 example_random) (map F [7; 100]%N) key /\
  (forall z, length (F z) = 16 /\ bytes_ok (F z)) /\
  Evaluate ex_B key [100; 3; 7]%N 3 = Some (map F [100; 3; 7]%N).
Proof.
  destruct (C58_vole_oprf_partial G101 toy_hash toy_hash_ok (p101 1) ex_B ex_B_ok example_random (proj1 C76_hypotheses) ex_length
              9 5 eq_refl eq_refl [7; 100]%N ex_encodable (ex_count _ [7; 100]%N ex_few)) as (F & key & E & L & W).
  exists F, key. split; [exact E|]. split; [exact L|]. apply (W [100; 3; 7]%N). apply ex_count. cbn. lia.
Qed.
Example C58_count_case : nbins ex_B = 1 /\ bmsize ex_B <> 0 /\ (N.of_nat (length (repeat 5%N 256)) mod 2 ^ bits (binp ex_B) = 0)%N.
Proof. rewrite repeat_length. repeat split. discriminate. Qed.

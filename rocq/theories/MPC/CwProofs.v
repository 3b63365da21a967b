(** The protocols run to the end; what the Bloom filter answers. *)
From Coq Require Import NArith ZArith List Bool Arith Lia Permutation.
From Coq Require Import ZifyBool ZifyNat ZifyN.
From Verif.Base Require Import Words ListX.
From Verif.Filter Require Import BloomModel BloomSpec BloomProofs BloomProps.
From Verif.Crypto Require Import BigIntModel PRGModel PRGProofs AESProps.
From Verif.Group Require Import ECModel ECProofs.
From Verif.PKE Require Import ElGamalModel.
From Verif.Net Require Import ChannelModel ChannelSpec PartyModel PartyProofs.
From Verif.OT Require Import OTModel OTSpec OTProofs OTRun.
From Verif.MPC Require Import CwModel CwSpec.
Import ListNotations.
Local Open Scope N_scope.

Section Bloom.
Variable FK : N -> list N -> N.
Variable big_salt : N -> N -> list N.
Variable order_of : list insert_step -> list insert_step.
Hypothesis ORD : any_order order_of.
Hypothesis SALT : salts_total big_salt.

(** building, sending and reading the filter *)
Lemma filter_run : forall num ssp raw xs, 1 <= raw <= 2 ^ 32 - 8 -> num < 2 ^ 64 ->
  let f0 := bloom_new big_salt num ssp raw in
  exists f, exec_insert_steps FK f0 (order_of (Insert_steps f0 xs)) = Some f /\
    bloom_ReadObject big_salt (bloom_WriteObject f) = Some f /\
    N.of_nat (length (bloom_WriteObject f)) = bloom_ObjectSize f /\ bloom_ObjectSize f < 256 ^ N.of_nat 8 /\
    (forall z, exists b, PlainContain FK f z b) /\
    (forall z b, PlainContain FK f z b -> (b = true <-> covered FK f0 xs z)).
Proof.
  intros num ssp raw xs R B f0.
  assert (I0 : binv FK f0 [] f0) by (apply bloom_new_inv; [exact SALT|apply round8_nonzero, R]).
  destruct (bop_progress FK f0 [] f0 xs _ I0 (ORD (Insert_steps f0 xs))) as [f E]. exists f.
  assert (BE : bop_exec FK f0 (OpInsert xs) f) by (eapply BE_insert; [apply ORD|exact E]).
  assert (BH : bhist_exec FK f0 [OpInsert xs] f) by (eapply BH_cons; [exact BE|constructor]).
  assert (I1 := bop_inv FK f0 [] f0 _ f I0 BE).
  destruct (C02_bloom_round_trip FK big_salt num ssp raw _ f [] SALT R B BH) as [RT LEN]. rewrite app_nil_r in RT.
  split; [exact E|]. split; [exact RT|]. split; [exact LEN|]. split; [|split].
  - unfold bloom_ObjectSize. destruct (bi_same _ _ _ _ I1) as [_ [_ [_ [ET _]]]]. rewrite <- ET.
    assert (X : bf_table_size f0 < 2 ^ 32) by (unfold f0; cbn [bloom_new bf_table_size]; unfold round8, shl32; apply wrap_lt).
    assert (Y : bf_table_size f0 / 8 <= bf_table_size f0) by (apply N.div_le_upper_bound; lia).
    change (256 ^ N.of_nat 8) with (2 ^ 64). lia.
  - intros z. destruct (C03_bloom_contain_deterministic FK big_salt num ssp raw _ f z SALT R BH) as [b [Hb _]]. exists b. exact Hb.
  - intros z b Hb. rewrite (C03_bloom_contain_exact FK big_salt num ssp raw _ f z b SALT R BH Hb).
    destruct (bi_same _ _ _ _ I1) as [_ [EH [ES [ET _]]]]. unfold covered, position. rewrite <- EH, <- ES, <- ET. reflexivity.
Qed.
End Bloom.

Lemma nth_map_in : forall A B (f : A -> B) l i d d', (i < length l)%nat -> nth i (map f l) d = f (nth i l d').
Proof. intros A B f l i d d' H. rewrite nth_map' with (d := d') by exact H. reflexivity. Qed.
Lemma map_nth_fun : forall A B (f : A -> B) (l : list A) d n, length l = n -> map (fun i => f (nth i l d)) (seq 0 n) = map f l.
Proof. intros A B f l d n <-. rewrite <- (map_map (fun i => nth i l d) f). f_equal. apply map_nth_seq. Qed.

Section Generic.
Variable G : ECGroup.
Variable T : Type.
Variable dT : T.
Variable h : N -> T.
Variable mul1 mul2 : T -> T.
Variable bytes : T -> list N.
Variable eqb : T -> T -> bool.
Variable send : list T -> msg G.
Variable recv : forall A, nat -> (list T -> party G A) -> party G A.
Variable okT : T -> Prop.
Hypothesis recv_ok : forall A B v n (p : party G A) (k : list T -> party G B) a b, length v = n -> Forall okT v ->
  ends p (k v) a b -> ends (Put (send v) p) (recv B n k) a b.
Hypothesis ok1 : forall P, okT (mul1 P).
Hypothesis ok2 : forall P, okT (mul2 P).

Lemma mq_set_run : forall shuffle Xs Ys m n, length Ys = m -> length Xs = n -> (forall l, Permutation (shuffle l) l) ->
  (forall a b, reflect (a = b) (eqb a b)) ->
  exists bits, ends (mq_Server_set G T dT h mul1 eqb send recv m n Ys) (mq_Client_set G T dT h mul2 send recv shuffle m n Xs) bits tt /\
  length bits = n /\ forall i, (i < n)%nat -> (nth i bits 2 = 1 \/ nth i bits 2 = 0) /\
    (nth i bits 2 = 1 <-> exists y, In y Ys /\ mul1 (mul2 (h (nth i Xs 0))) = mul2 (mul1 (h y))).
Proof.
  clear bytes. intros shuffle Xs Ys m n LY LX SH EQ. unfold mq_Server_set, mq_Client_set. rewrite LX, LY, !Nat.eqb_refl.
  eexists. split; [|split].
  - apply recv_ok; [rewrite map_length; exact LY|apply Forall_map, Forall_forall; intros; apply ok1|].
    flip. apply recv_ok; [rewrite map_length; exact LX|apply Forall_map, Forall_forall; intros; apply ok2|].
    apply recv_ok; [|apply (Permutation_Forall (Permutation_sym (SH _))); apply Forall_map, Forall_forall; intros; apply ok2|apply ends_ret].
    rewrite (Permutation_length (SH _)), map_length, seq_length. reflexivity.
  - rewrite map_length, seq_length. reflexivity.
  - intros i Hi. rewrite nth_map_seq by exact Hi.
    assert (EW : map (fun i0 => mul2 (nth i0 (map (fun y => mul1 (h y)) Ys) dT)) (seq 0 m) = map (fun y => mul2 (mul1 (h y))) Ys).
    { rewrite (map_nth_fun _ _ mul2) by (rewrite map_length; exact LY). apply map_map. }
    rewrite (nth_map_in _ _ _ Xs i dT 0) by lia. cbv beta.
    destruct (existsb (eqb (mul1 (mul2 (h (nth i Xs 0))))) (shuffle (map (fun i0 => mul2 (nth i0 (map (fun y => mul1 (h y)) Ys) dT)) (seq 0 m)))) eqn:E.
    + split; [left; reflexivity|]. split; [|reflexivity]. intros _. apply existsb_exists in E. destruct E as [w [Iw Ew]].
      apply (Permutation_in _ (SH _)) in Iw. rewrite EW in Iw. apply in_map_iff in Iw. destruct Iw as [y [<- Iy]].
      exists y. split; [exact Iy|]. destruct (EQ (mul1 (mul2 (h (nth i Xs 0)))) (mul2 (mul1 (h y)))); [assumption|discriminate].
    + split; [right; reflexivity|]. split; [discriminate|]. intros [y [Iy Ey]]. exfalso.
      assert (X : existsb (eqb (mul1 (mul2 (h (nth i Xs 0))))) (shuffle (map (fun i0 => mul2 (nth i0 (map (fun y => mul1 (h y)) Ys) dT)) (seq 0 m))) = true).
      { apply existsb_exists. exists (mul2 (mul1 (h y))). split.
        - apply (Permutation_in _ (Permutation_sym (SH _))). rewrite EW. apply in_map_iff. exists y. auto.
        - rewrite Ey. destruct (EQ (mul2 (mul1 (h y))) (mul2 (mul1 (h y)))); [reflexivity|contradiction]. }
      congruence.
Qed.

Variable FK : N -> list N -> N.
Variable big_salt : N -> N -> list N.
Variable raw_bits : N -> N -> N.
Variable order_of : list insert_step -> list insert_step.
Variable contain : BloomFilter -> nat -> list N -> bool.
Hypothesis ORD : any_order order_of.
Hypothesis SALT : salts_total big_salt.
Hypothesis ANS : any_answer FK contain.

Lemma mq_run : forall ssp Xs Ys m n, length Ys = m -> length Xs = n ->
  1 <= raw_bits (N.of_nat m) ssp <= 2 ^ 32 - 8 -> N.of_nat m < 2 ^ 64 ->
  exists bits, ends (mq_Server G T dT h mul1 bytes send recv big_salt contain m n Ys)
    (mq_Client G T dT h mul2 bytes send recv FK big_salt raw_bits order_of m n ssp Xs) bits tt /\
  length bits = n /\ forall i, (i < n)%nat -> (nth i bits 2 = 1 \/ nth i bits 2 = 0) /\
    (nth i bits 2 = 1 <-> covered FK (bloom_new big_salt (N.of_nat m) ssp (raw_bits (N.of_nat m) ssp))
        (map (fun y => bytes (mul2 (mul1 (h y)))) Ys) (bytes (mul1 (mul2 (h (nth i Xs 0)))))).
Proof.
  clear eqb. intros ssp Xs Ys m n LY LX R B. unfold mq_Server, mq_Client. rewrite LX, LY, !Nat.eqb_refl.
  assert (EW : map bytes (map (fun i0 => mul2 (nth i0 (map (fun y => mul1 (h y)) Ys) dT)) (seq 0 m)) = map (fun y => bytes (mul2 (mul1 (h y)))) Ys).
  { rewrite (map_nth_fun _ _ mul2) by (rewrite map_length; exact LY). rewrite !map_map. reflexivity. }
  assert (LW : length (map (fun i0 => mul2 (nth i0 (map (fun y => mul1 (h y)) Ys) dT)) (seq 0 m)) = m) by (rewrite map_length, seq_length; reflexivity).
  destruct (filter_run FK big_salt order_of ORD SALT (N.of_nat m) ssp (raw_bits (N.of_nat m) ssp) (map (fun y => bytes (mul2 (mul1 (h y)))) Ys) R B)
    as [f [E [RT [LEN [SZ [TOT EXACT]]]]]].
  eexists. split; [|split].
  - apply recv_ok; [rewrite map_length; exact LY|apply Forall_map, Forall_forall; intros; apply ok1|].
    flip. apply recv_ok; [rewrite map_length; exact LX|apply Forall_map, Forall_forall; intros; apply ok2|].
    cbv zeta. rewrite LW, EW. rewrite E. cbn [local]. apply ab_int; [exact SZ|]. apply ab_bytes; [lia|].
    rewrite RT. cbn [local]. apply ends_ret.
  - rewrite map_length, seq_length. reflexivity.
  - intros i Hi. rewrite nth_map_seq by exact Hi. rewrite (nth_map_in _ _ _ Xs i dT 0) by lia. cbv beta.
    assert (A := ANS f i (bytes (mul1 (mul2 (h (nth i Xs 0))))) (TOT _)). apply EXACT in A. rewrite <- A.
    destruct (contain f i (bytes (mul1 (mul2 (h (nth i Xs 0)))))); [split; [left; reflexivity|split; reflexivity]|].
    split; [right; reflexivity|split; discriminate].
Qed.
End Generic.
Lemma covered_in : forall FK f xs z, In z xs -> covered FK f xs z.
Proof. intros FK f xs z I i Hi. exists z, i. auto. Qed.

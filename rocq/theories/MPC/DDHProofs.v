(** Permuted assignment and the group equations of the DDH protocols. *)
From Coq Require Import NArith ZArith List Bool Arith Lia Permutation.
From Coq Require Import ZifyBool ZifyNat ZifyN.
From Verif.Base Require Import Words ListX.
From Verif.Crypto Require Import BigIntModel BigIntProofs.
From Verif.Group Require Import ECModel ECProofs.
From Verif.Net Require Import ChannelModel ChannelSpec PartyModel PartyProofs.
From Verif.OT Require Import OTModel OTSpec OTProofs OTRun.
From Verif.MPC Require Import HashModel DDHModel.
Import ListNotations.

(** ** assignment through an index map *)
Lemma fold_scatter : forall {A I} (d : A) (g : I -> nat) (f : I -> A) l out, NoDup (map g l) ->
  (forall i, In i l -> (g i < length out)%nat) ->
  let out' := fold_left (fun out i => upd out (g i) (f i)) l out in
  length out' = length out /\ (forall i, In i l -> nth (g i) out' d = f i) /\
  (forall p, ~ In p (map g l) -> nth p out' d = nth p out d).
Proof.
  intros A I d g f l. induction l as [|a l IH]; intros out N B; cbn [fold_left map] in *.
  - cbn. repeat split; auto. intros i [].
  - inversion N as [|? ? N1 N2]; subst.
    destruct (IH (upd out (g a) (f a)) N2) as [L [H1 H2]].
    { intros i Hi. rewrite upd_length. apply B. right. exact Hi. }
    split; [rewrite L; apply upd_length|]. split.
    + intros i [<-|Hi]; [|apply H1, Hi]. rewrite H2 by exact N1. apply nth_upd_same. apply B. left. reflexivity.
    + intros p Hp. rewrite H2 by (intros X; apply Hp; right; exact X). apply nth_upd_other.
      intros E. apply Hp. left. congruence.
Qed.
Lemma is_perm_facts : forall n m, Permutation m (seq 0 n) -> length m = n /\ NoDup m /\ forall p, In p m <-> (p < n)%nat.
Proof.
  intros n m P. split; [rewrite (Permutation_length P), seq_length; reflexivity|]. split.
  - apply (Permutation_NoDup (Permutation_sym P)), seq_NoDup.
  - intros p. split; intros X.
    + apply (Permutation_in _ P) in X. apply in_seq in X. lia.
    + apply (Permutation_in _ (Permutation_sym P)). apply in_seq. lia.
Qed.
Lemma perm_nth_lt : forall n m i, Permutation m (seq 0 n) -> (i < n)%nat -> (nth i m 0 < n)%nat.
Proof. intros n m i P Hi. destruct (is_perm_facts n m P) as [L [_ I]]. apply I, nth_In. lia. Qed.
Lemma perm_onto : forall n m p, Permutation m (seq 0 n) -> (p < n)%nat -> exists i, (i < n)%nat /\ nth i m 0%nat = p.
Proof.
  intros n m p P Hp. destruct (is_perm_facts n m P) as [L [_ I]]. apply I in Hp. destruct (In_nth _ _ 0%nat Hp) as [i [Hi E]]. exists i. split; [lia|exact E].
Qed.
Lemma scatter_spec : forall A (d : A) n m f, Permutation m (seq 0 n) -> exists v, scatter d n m f = Some v /\
  length v = n /\ forall i, (i < n)%nat -> nth (nth i m 0%nat) v d = f i.
Proof.
  intros A d n m f P. destruct (is_perm_facts n m P) as [L [N I]]. unfold scatter.
  assert (Em : map (fun i => nth i m 0%nat) (seq 0 n) = m) by (rewrite <- L; apply map_nth_seq).
  assert (B : has n m && forallb (fun p => p <? n)%nat (firstn n m) = true).
  { rewrite has_true by exact L. rewrite firstn_all2 by lia. cbn [andb]. apply forallb_forall. intros p Hp. apply Nat.ltb_lt, I, Hp. }
  rewrite B.
  destruct (fold_scatter d (fun i => nth i m 0%nat) f (seq 0 n) (repeat d n)) as [L' [H1 _]].
  - rewrite Em. exact N.
  - intros i Hi. apply in_seq in Hi. rewrite repeat_length. apply perm_nth_lt; [exact P|lia].
  - eexists. split; [reflexivity|]. split; [rewrite L'; apply repeat_length|]. intros i Hi. apply H1, in_seq. lia.
Qed.

(** ** the grid *)
Lemma fold_prod : forall A B C (h : C -> A -> B -> C) la lb c,
  fold_left (fun c a => fold_left (fun c b => h c a b) lb c) la c = fold_left (fun c p => h c (fst p) (snd p)) (list_prod la lb) c.
Proof.
  intros A B C h la lb. induction la as [|a la IH]; intros c; [reflexivity|]. cbn [fold_left list_prod].
  rewrite fold_left_app, <- IH. f_equal. clear. revert c. induction lb as [|b lb IH]; intros c; [reflexivity|]. cbn [map fold_left fst snd]. apply IH.
Qed.
Lemma prod_seq : forall C R a, map (fun p => fst p * C + snd p)%nat (list_prod (seq a R) (seq 0 C)) = seq (a * C) (R * C).
Proof.
  intros C R. induction R as [|R IH]; intros a; [reflexivity|]. cbn [seq list_prod]. rewrite map_app, IH, map_map. cbn [fst snd].
  assert (E : map (fun x => a * C + x)%nat (seq 0 C) = seq (a * C) C).
  { clear. assert (X : forall s n t, map (fun x => s + x)%nat (seq t n) = seq (s + t) n).
    { intros s n. induction n as [|n IH]; intros t; [reflexivity|]. cbn [seq map]. f_equal. rewrite IH. f_equal. lia. }
    rewrite X. f_equal. lia. }
  rewrite E. cbn [Nat.mul]. rewrite seq_app. f_equal. f_equal. lia.
Qed.
Lemma grid_map_spec : forall rm cm R C, Permutation rm (seq 0 R) -> Permutation cm (seq 0 C) ->
  exists m, grid_map rm cm (R * C) R C = Some m /\ Permutation m (seq 0 (R * C)) /\
  forall i j, (i < R)%nat -> (j < C)%nat -> nth (i * C + j) m 0%nat = (nth i rm 0 * C + nth j cm 0)%nat.
Proof.
  intros rm cm R C PR PC. unfold grid_map. rewrite Nat.leb_refl.
  set (h := fun p : nat * nat => (nth (fst p) rm 0 * C + nth (snd p) cm 0)%nat).
  rewrite (fold_prod _ _ _ (fun m i j => upd m (i * C + j) (nth i rm 0 * C + nth j cm 0)%nat)).
  destruct (fold_scatter 0%nat (fun p : nat * nat => fst p * C + snd p)%nat h (list_prod (seq 0 R) (seq 0 C)) (repeat 0%nat (R * C))) as [L [H1 _]].
  - rewrite prod_seq. apply seq_NoDup.
  - intros [i j] Hi. apply in_prod_iff in Hi. destruct Hi as [Hi Hj]. apply in_seq in Hi. apply in_seq in Hj. rewrite repeat_length. cbn [fst snd]. nia.
  - rewrite repeat_length in L. unfold h in *. clear h. cbv beta in *.
    set (m := fold_left _ _ _) in *.
    assert (V : forall i j, (i < R)%nat -> (j < C)%nat -> nth (i * C + j) m 0%nat = (nth i rm 0 * C + nth j cm 0)%nat).
    { intros i j Hi Hj. apply (H1 (i, j)). apply in_prod; apply in_seq; lia. }
    exists m. split; [reflexivity|]. split; [|exact V].
    assert (K : forall k, (k < R * C)%nat -> (k / C < R)%nat /\ (k mod C < C)%nat /\ nth k m 0%nat = (nth (k / C) rm 0 * C + nth (k mod C) cm 0)%nat).
    { intros k Hk. assert (C <> 0)%nat by (intros ->; lia). assert (A1 : (k / C < R)%nat) by (apply Nat.div_lt_upper_bound; lia).
      assert (A2 : (k mod C < C)%nat) by (apply Nat.mod_upper_bound; assumption). split; [exact A1|]. split; [exact A2|].
      rewrite <- (V _ _ A1 A2). f_equal. rewrite Nat.mul_comm. apply Nat.div_mod. assumption. }
    apply NoDup_Permutation_bis.
    + apply (NoDup_nth m 0%nat). intros k k' Hk Hk' E. rewrite L in Hk, Hk'.
      destruct (K k Hk) as [A1 [A2 A3]]. destruct (K k' Hk') as [B1 [B2 B3]]. rewrite A3, B3 in E.
      assert (X1 := perm_nth_lt _ _ _ PC A2). assert (X2 := perm_nth_lt _ _ _ PC B2).
      assert (C <> 0)%nat by lia.
      assert (E1 : nth (k / C) rm 0%nat = nth (k' / C) rm 0%nat).
      { apply (f_equal (fun z => z / C)%nat) in E. rewrite !Nat.div_add_l, (Nat.div_small _ _ X1), (Nat.div_small _ _ X2) in E by assumption. lia. }
      assert (E2 : nth (k mod C) cm 0%nat = nth (k' mod C) cm 0%nat) by (rewrite E1 in E; lia).
      destruct (is_perm_facts _ _ PR) as [LR [NR _]]. destruct (is_perm_facts _ _ PC) as [LC [NC _]].
      apply (proj1 (NoDup_nth rm 0%nat) NR) in E1; [|lia|lia]. apply (proj1 (NoDup_nth cm 0%nat) NC) in E2; [|lia|lia].
      rewrite (Nat.div_mod k C), (Nat.div_mod k' C) by assumption. rewrite E1, E2. reflexivity.
    + rewrite seq_length, L. reflexivity.
    + intros p Hp. destruct (In_nth _ _ 0%nat Hp) as [k [Hk E]]. rewrite L in Hk. destruct (K k Hk) as [A1 [A2 A3]].
      assert (X1 := perm_nth_lt _ _ _ PC A2). assert (X2 := perm_nth_lt _ _ _ PR A1). apply in_seq. rewrite <- E, A3. nia.
Qed.

(** ** the group *)
Section Eq.
Variable G : ECGroup.
Local Notation "P *p k" := (pmul G P k) (at level 40, left associativity).
Lemma unmask : forall P k r, (1 <= r < order G)%Z -> P *p r *p k *p ModInverse r (order G) = P *p k.
Proof.
  intros P k r Hr. rewrite !pmul_mul. apply pmul_cong.
  assert (I := inv_cong G r (range_not_0 G r Hr)).
  destruct I as [c E]. exists (k * c)%Z. replace (r * (k * ModInverse r (order G)))%Z with (k * (r * ModInverse r (order G)))%Z by ring.
  rewrite E. ring.
Qed.
Lemma mul_finite : forall P k, P <> inf G -> (1 <= k < order G)%Z -> P *p k <> inf G.
Proof.
  intros P k F Hk E. rewrite <- (pmul_0 G P) in E. apply (pmul_inj G P k 0 F) in E. exact (range_not_0 G k Hk E).
Qed.
Lemma mul_key_inj : forall P Q k, (1 <= k < order G)%Z -> P *p k = Q *p k -> P = Q.
Proof.
  intros P Q k Hk E. rewrite <- (pmul_1 G P), <- (pmul_1 G Q).
  assert (I := inv_cong G k (range_not_0 G k Hk)).
  rewrite <- (pmul_cong G P _ _ I), <- (pmul_cong G Q _ _ I), <- !pmul_mul, E. reflexivity.
Qed.
End Eq.

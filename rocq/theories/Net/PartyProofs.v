(** Determinacy of two-party executions, and composition. *)
From Coq Require Import NArith ZArith List Lia.
From Verif.Base Require Import Words.
From Verif.Group Require Import ECModel.
From Verif.Net Require Import ChannelModel ChannelSpec PartyModel.
Import ListNotations.

Section Proofs.
Variable G : ECGroup.

Lemma steps_app : forall A B n m (s t u : net G A B), steps n s t -> steps m t u -> steps (n + m) s u.
Proof. intros A B n m s t u H. induction H as [|n s t v H1 H2 IH]; intros K; [exact K|]. cbn [plus]. apply steps_S with t; [exact H1|]. apply IH, K. Qed.
Lemma steps_one : forall A B (s t : net G A B), step s t -> steps 1 s t.
Proof. intros A B s t H. apply steps_S with t; [exact H|constructor]. Qed.

(** two different moves commute *)
Lemma diamond : forall A B (s t u : net G A B), step s t -> step s u -> t = u \/ exists v, step t v /\ step u v.
Proof.
  intros A B s t u H1 H2.
  destruct H1; inversion H2; subst; try (left; reflexivity); right.
  all: try (rewrite <- app_comm_cons).
  - eexists. split; [apply b_puts|apply a_puts].
  - eexists. split; [apply b_gets; eassumption|]. apply a_puts.
  - eexists. split; [apply b_puts|]. apply a_gets; assumption.
  - eexists. split; [apply b_gets|apply a_gets]; assumption.
  - eexists. split; [apply a_puts|apply b_puts].
  - eexists. split; [apply a_gets|apply b_puts]; eassumption.
  - eexists. split; [apply a_puts|]. apply b_gets. assumption.
  - eexists. split; [apply a_gets|apply b_gets]; assumption.
Qed.

Lemma final_step : forall A B (a : A) (b : B) x y (t : net G A B), ~ step (mkNet (Ret a) (Ret b) x y) t.
Proof. intros A B a b x y t H. inversion H. Qed.

Lemma one_step_less : forall A B n (s f t : net G A B), steps n s f -> (forall x, ~ step f x) -> step s t ->
  exists m, n = S m /\ steps m t f.
Proof.
  intros A B n. induction n as [|n IH]; intros s f t H F S1; inversion H; subst.
  - exfalso. exact (F _ S1).
  - exists n. split; [reflexivity|]. destruct (diamond _ _ _ _ _ S1 H1) as [->|[v [V1 V2]]]; [exact H2|].
    destruct (IH _ _ v H2 F V2) as [m [-> M]]. apply steps_S with v; assumption.
Qed.
Lemma determinate : forall A B n (s f : net G A B), steps n s f -> (forall x, ~ step f x) ->
  forall k t, steps k s t -> k <= n /\ steps (n - k) t f.
Proof.
  intros A B n s f H F k t K. revert n H. induction K as [s|k s u t S1 K IH]; intros n H.
  - split; [lia|]. rewrite Nat.sub_0_r. exact H.
  - destruct (one_step_less _ _ _ _ _ _ H F S1) as [m [-> M]]. destruct (IH m M) as [L R]. split; [lia|exact R].
Qed.

Lemma ends_iff : forall A B (p : party G A) (q : party G B) a b,
  ends p q a b <-> exists n, steps n (mkNet p q [] []) (mkNet (Ret a) (Ret b) [] []).
Proof.
  intros A B p q a b. split.
  - intros [n H]. exists n. destruct (H 0 _ (steps_0 _ _)) as [_ X]. rewrite Nat.sub_0_r in X. exact X.
  - intros [n H]. exists n. intros k s K. apply (determinate _ _ n _ _ H); [apply final_step|exact K].
Qed.

(** ** composition *)
Definition lift {A B C D} (f : A -> party G C) (g : B -> party G D) (s : net G A B) : net G C D :=
  mkNet (pbind (pa s) f) (pbind (pb s) g) (ab s) (ba s).
Lemma lift_step : forall A B C D (f : A -> party G C) (g : B -> party G D) s t, step s t -> step (lift f g s) (lift f g t).
Proof.
  intros A B C D f g s t H. destruct H; cbn [lift pa pb ab ba pbind].
  - apply a_puts.
  - apply (a_gets G t (fun m => pbind (k m) f)). assumption.
  - apply b_puts.
  - apply (b_gets G t (fun m => pbind (k m) g)). assumption.
Qed.
Lemma lift_steps : forall A B C D (f : A -> party G C) (g : B -> party G D) n s t, steps n s t -> steps n (lift f g s) (lift f g t).
Proof. intros A B C D f g n s t H. induction H; [constructor|]. eapply steps_S; [apply lift_step; eassumption|assumption]. Qed.

Lemma ends_bind : forall A B C D (p : party G A) (q : party G B) a b (f : A -> party G C) (g : B -> party G D) c d,
  ends p q a b -> ends (f a) (g b) c d -> ends (pbind p f) (pbind q g) c d.
Proof.
  intros A B C D p q a b f g c d H K. apply ends_iff in H. apply ends_iff in K. apply ends_iff.
  destruct H as [n H]. destruct K as [m K]. exists (n + m). apply steps_app with (mkNet (f a) (g b) [] []); [|exact K].
  exact (lift_steps _ _ _ _ f g n _ _ H).
Qed.
(** equality of parties up to equality of their continuations is avoided: a party that is
    followed by nothing else ends as itself *)
Lemma ends_then_ret : forall A B C (p : party G A) (q : party G B) a b (f : A -> party G C) c,
  ends p q a b -> f a = Ret c -> ends (pbind p f) q c b.
Proof.
  intros A B C p q a b f c H E. apply ends_iff in H. apply ends_iff. destruct H as [n H]. exists n.
  assert (X : forall n (s t : net G A B), steps n s t -> steps n (mkNet (pbind (pa s) f) (pb s) (ab s) (ba s)) (mkNet (pbind (pa t) f) (pb t) (ab t) (ba t))).
  { clear. intros n s t H. induction H as [|n s t u S1 H IH]; [constructor|]. eapply steps_S; [|exact IH].
    destruct S1; cbn [pa pb ab ba pbind]; [apply a_puts|apply (a_gets G t (fun m => pbind (k m) f)); assumption|apply b_puts|apply b_gets; assumption]. }
  specialize (X _ _ _ H). cbn [pa pb ab ba pbind] in X. rewrite E in X. exact X.
Qed.
Lemma ends_ret : forall A B (a : A) (b : B), ends (G := G) (Ret a) (Ret b) a b.
Proof. intros A B a b. apply ends_iff. exists 0. constructor. Qed.
Lemma ends_ab : forall A B m t (p : party G A) (k : msg G -> party G B) a b, fits G m t ->
  ends p (k m) a b -> ends (Put m p) (Get t k) a b.
Proof.
  intros A B m t p k a b F H. apply ends_iff in H. apply ends_iff. destruct H as [n H]. exists (S (S n)).
  apply steps_S with (mkNet p (Get t k) [m] []); [exact (a_puts G m p (Get t k) [] [])|].
  apply steps_S with (mkNet p (k m) [] []); [apply b_gets; exact F|exact H].
Qed.
Lemma ends_ba : forall A B m t (q : party G B) (k : msg G -> party G A) a b, fits G m t ->
  ends (k m) q a b -> ends (Get t k) (Put m q) a b.
Proof.
  intros A B m t q k a b F H. apply ends_iff in H. apply ends_iff. destruct H as [n H]. exists (S (S n)).
  apply steps_S with (mkNet (Get t k) q [] [m]); [exact (b_puts G m (Get t k) q [] [])|].
  apply steps_S with (mkNet (k m) q [] []); [apply a_gets; exact F|exact H].
Qed.
(** swapping the roles *)
Lemma ends_sym : forall A B (p : party G A) (q : party G B) a b, ends p q a b -> ends q p b a.
Proof.
  intros A B p q a b H. apply ends_iff in H. apply ends_iff. destruct H as [n H]. exists n.
  assert (X : forall n (s t : net G A B), steps n s t -> steps n (mkNet (pb s) (pa s) (ba s) (ab s)) (mkNet (pb t) (pa t) (ba t) (ab t))).
  { clear. intros n s t H. induction H as [|n s t u S1 H IH]; [constructor|]. eapply steps_S; [|exact IH].
    destruct S1; cbn [pa pb ab ba]; [apply b_puts|apply b_gets; assumption|apply a_puts|apply a_gets; assumption]. }
  exact (X _ _ _ H).
Qed.
(** both send first *)
Lemma ends_exchange : forall A B m t m' t' (k' : msg G -> party G A) (k : msg G -> party G B) a b,
  fits G m t -> fits G m' t' -> ends (k' m') (k m) a b -> ends (Put m (Get t' k')) (Put m' (Get t k)) a b.
Proof.
  intros A B m t m' t' k' k a b F F' H. apply ends_iff in H. apply ends_iff. destruct H as [n H]. exists (S (S (S (S n)))).
  apply steps_S with (mkNet (Get t' k') (Put m' (Get t k)) [m] []); [exact (a_puts G m (Get t' k') (Put m' (Get t k)) [] [])|].
  apply steps_S with (mkNet (Get t' k') (Get t k) [m] [m']); [exact (b_puts G m' (Get t' k') (Get t k) [m] [])|].
  apply steps_S with (mkNet (k' m') (Get t k) [m] []); [apply a_gets; exact F'|].
  apply steps_S with (mkNet (k' m') (k m) [] []); [apply b_gets; exact F|exact H].
Qed.

(** the results are unique *)
Lemma ends_unique : forall A B (p : party G A) (q : party G B) a b a' b', ends p q a b -> ends p q a' b' -> a = a' /\ b = b'.
Proof.
  intros A B p q a b a' b' H K. apply ends_iff in H. destruct H as [n H]. destruct K as [m K].
  destruct (K _ _ H) as [_ X]. inversion X as [|? ? ? ? S1]; subst; [auto|]. exfalso. exact (final_step _ _ _ _ _ _ _ S1).
Qed.

(** ** the typed receives *)
Lemma ab_points : forall A B v n (p : party G A) (k : list (pt G) -> party G B) a b, length v = n ->
  ends p (k v) a b -> ends (Put (MPoints G v) p) (get_points n k) a b.
Proof.
  intros A B v n p k a b <- H. apply ends_ab; [|exact H]. cbn [fits]. clear.
  induction v as [|P v IH]; cbn [length repeat]; constructor; [reflexivity|exact IH].
Qed.
Lemma ab_blocks : forall A B v n (p : party G A) (k : list N -> party G B) a b, length v = n -> Forall (fun x => (x < 2 ^ 128)%N) v ->
  ends p (k v) a b -> ends (Put (MBlocks G v) p) (get_blocks n k) a b.
Proof. intros A B v n p k a b <- F H. apply ends_ab; [|exact H]. split; [reflexivity|exact F]. Qed.
Lemma ab_bytes : forall A B d n (p : party G A) (k : list N -> party G B) a b, length d = n ->
  ends p (k d) a b -> ends (Put (MBytes G d) p) (get_bytes n k) a b.
Proof. intros A B d n p k a b <- H. apply ends_ab; [|exact H]. reflexivity. Qed.
Lemma ab_int : forall A B w x (p : party G A) (k : N -> party G B) a b, (x < 256 ^ N.of_nat w)%N ->
  ends p (k x) a b -> ends (Put (MInt G w x) p) (get_int w k) a b.
Proof. intros A B w x p k a b F H. apply ends_ab; [|exact H]. split; [reflexivity|exact F]. Qed.
Lemma ab_points25519 : forall A B v n (p : party G A) (k : list (list N) -> party G B) a b, length v = n -> Forall (fun d => length d = 32) v ->
  ends p (k v) a b -> ends (Put (MPoints25519 G v) p) (get_points25519 n k) a b.
Proof. intros A B v n p k a b <- F H. apply ends_ab; [|exact H]. split; [reflexivity|exact F]. Qed.
Lemma ab_bigint : forall A B LEN x (p : party G A) (k : Z -> party G B) a b, (0 <= x < 256 ^ Z.of_nat LEN)%Z ->
  ends p (k x) a b -> ends (Put (MBigInt G LEN x) p) (get_bigint LEN k) a b.
Proof. intros A B LEN x p k a b F H. apply ends_ab; [|exact H]. split; [reflexivity|exact F]. Qed.
Lemma ab_bytesvec : forall A B v (p : party G A) (k : list (list N) -> party G B) a b, fits G (MBytesVec G v) (TBytesVec G) ->
  ends p (k v) a b -> ends (Put (MBytesVec G v) p) (get_bytesvec k) a b.
Proof. intros A B v p k a b F H. apply ends_ab; [exact F|exact H]. Qed.

(** ** errors *)
Lemma fail_stays : forall A B n (s t : net G A B), steps n s t -> (pa s = Fail -> pa t = Fail) /\ (pb s = Fail -> pb t = Fail).
Proof.
  intros A B n s t H. induction H as [|n s t u S1 H [IH1 IH2]]; [auto|]. split; intros E.
  - apply IH1. destruct S1; cbn [pa] in *; congruence.
  - apply IH2. destruct S1; cbn [pb] in *; congruence.
Qed.
(** an execution that can crash never ends properly *)
Lemma crashes_not_ends : forall A B (p : party G A) (q : party G B) a b, crashes p q -> ~ ends p q a b.
Proof.
  intros A B p q a b [k [s [H F]]] [n E]. destruct (E _ _ H) as [_ X]. destruct (fail_stays _ _ _ _ _ X) as [Y1 Y2]. cbn [pa pb] in *.
  destruct F as [F|F]; [specialize (Y1 F)|specialize (Y2 F)]; discriminate.
Qed.
Lemma crashes_bind : forall A B C D (p : party G A) (q : party G B) a b (f : A -> party G C) (g : B -> party G D),
  ends p q a b -> crashes (f a) (g b) -> crashes (pbind p f) (pbind q g).
Proof.
  intros A B C D p q a b f g H [m [s [K F]]]. apply ends_iff in H. destruct H as [n H]. exists (n + m), s. split; [|exact F].
  apply steps_app with (mkNet (f a) (g b) [] []); [|exact K]. exact (lift_steps _ _ _ _ f g n _ _ H).
Qed.
Lemma crashes_bind_l : forall A B C (p : party G A) (q : party G B) a b (f : A -> party G C),
  ends p q a b -> f a = Fail -> crashes (pbind p f) q.
Proof.
  intros A B C p q a b f H E. apply ends_iff in H. destruct H as [n H]. exists n, (mkNet Fail (Ret b) [] []). split; [|left; reflexivity].
  assert (X : forall n (s t : net G A B), steps n s t -> steps n (mkNet (pbind (pa s) f) (pb s) (ab s) (ba s)) (mkNet (pbind (pa t) f) (pb t) (ab t) (ba t))).
  { clear. intros n s t H. induction H as [|n s t u S1 H IH]; [constructor|]. eapply steps_S; [|exact IH].
    destruct S1; cbn [pa pb ab ba pbind]; [apply a_puts|apply (a_gets G t (fun m => pbind (k m) f)); assumption|apply b_puts|apply b_gets; assumption]. }
  specialize (X _ _ _ H). cbn [pa pb ab ba pbind] in X. rewrite E in X. exact X.
Qed.
Lemma crashes_sym : forall A B (p : party G A) (q : party G B), crashes p q -> crashes q p.
Proof.
  intros A B p q [n [s [H F]]]. exists n, (mkNet (pb s) (pa s) (ba s) (ab s)). split; [|cbn [pa pb]; tauto].
  assert (X : forall n (s t : net G A B), steps n s t -> steps n (mkNet (pb s) (pa s) (ba s) (ab s)) (mkNet (pb t) (pa t) (ba t) (ab t))).
  { clear. intros n s t H. induction H as [|n s t u S1 H IH]; [constructor|]. eapply steps_S; [|exact IH].
    destruct S1; cbn [pa pb ab ba]; [apply b_puts|apply b_gets; assumption|apply a_puts|apply a_gets; assumption]. }
  exact (X _ _ _ H).
Qed.
Lemma crashes_now : forall A B (q : party G B), crashes (Fail (A := A)) q.
Proof. intros A B q. exists 0, (mkNet Fail q [] []). split; [constructor|left; reflexivity]. Qed.
Lemma crashes_ab : forall A B m t (p : party G A) (k : msg G -> party G B), fits G m t ->
  crashes p (k m) -> crashes (Put m p) (Get t k).
Proof.
  intros A B m t p k F [n [s [H E]]]. exists (S (S n)), s. split; [|exact E].
  apply steps_S with (mkNet p (Get t k) [m] []); [exact (a_puts G m p (Get t k) [] [])|].
  apply steps_S with (mkNet p (k m) [] []); [apply b_gets; exact F|exact H].
Qed.
End Proofs.


(** the same in the other direction *)
Ltac flip := apply ends_sym.

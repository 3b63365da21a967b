(** Property C113: a peer that stops in the middle of a protocol. *)
From Coq Require Import NArith ZArith List Lia.
From Verif.Base Require Import Words ListX.
From Verif.Group Require Import ECModel ZqGroup.
From Verif.Net Require Import ChannelModel ChannelSpec PartyModel PartyProofs CrashModel.
Import ListNotations.

Section Props.
Variable G : ECGroup.
Context {A B : Type}.
Implicit Types s t u : net G A B.

Lemma alone_step : forall s t, alone s t -> step s t.
Proof. intros s t H. destruct H; [apply a_puts|apply a_gets; assumption]. Qed.
Lemma alones_steps : forall n s t, alones n s t -> steps n s t.
Proof. intros n s t H. induction H; [constructor|]. eapply steps_S; [apply alone_step; eassumption|assumption]. Qed.
(** more messages under way change nothing in what the party does *)
Lemma alones_more : forall n s t, alones n s t -> forall z,
  pb t = pb s /\ alones n (mkNet (pa s) (pb s) (ab s) (ba s ++ z)) (mkNet (pa t) (pb t) (ab t) (ba t ++ z)).
Proof.
  intros n s t H z. induction H as [s|n s t u S1 H [E IH]]; [split; [reflexivity|constructor]|].
  destruct S1 as [m p q x y|t0 k q x m y F]; cbn [pa pb ab ba] in *; (split; [exact E|]).
  - eapply alones_S; [|exact IH]. apply alone_puts.
  - eapply alones_S; [|exact IH]. cbn [app]. apply alone_gets. exact F.
Qed.
(** a party that has returned takes no message *)
Lemma returned_keeps : forall n s t a, steps n s t -> pa s = Ret a -> pa t = Ret a /\ exists z, ba t = ba s ++ z.
Proof.
  intros n s t a H. induction H as [s|n s t u S1 H IH]; intros E; [split; [exact E|exists []; rewrite app_nil_r; reflexivity]|].
  destruct S1 as [m p q x y|t0 k q x m y F|m p q x y|t0 k p m x y F]; cbn [pa] in E; try discriminate.
  - destruct (IH E) as [E2 [z Z]]. cbn [ba] in *. split; [exact E2|]. exists (m :: z). rewrite Z, <- app_assoc. reflexivity.
  - exact (IH E).
Qed.
Lemma failed_stays : forall n s t, steps n s t -> pa s = Fail -> pa t = Fail.
Proof.
  intros n s t H. induction H as [s|n s t u S1 H IH]; intros E; [exact E|]. apply IH. destruct S1; cbn [pa] in *; congruence.
Qed.
(** a message that does not fit is never taken *)
Lemma unfit_stays : forall n s t tg k m y, steps n s t -> pa s = Get tg k -> ba s = m :: y -> ~ fits G m tg -> pa t = Get tg k.
Proof.
  intros n s t tg k m y H. revert y. induction H as [s|n s t u S1 H IH]; intros y E Y N; [exact E|].
  destruct S1 as [m' p q x y'|t0 k0 q x m' y' F|m' p q x y'|t0 k0 p m' x y' F]; cbn [pa ba] in *; try discriminate.
  - exfalso. assert (m' = m) by congruence. assert (t0 = tg) by congruence. subst. contradiction.
  - rewrite Y in IH. apply (IH (y ++ [m']) E eq_refl N).
  - apply (IH y E Y N).
Qed.

Section Run.
Variables (p : party G A) (q : party G B) (a : A) (b : B).
Hypothesis COMPLETE : ends p q a b.

(** what follows from a state of a run of both, when the party goes on alone *)
Lemma goes_on : forall k s j n t, steps k (mkNet p q [] []) s -> alones n (stopped j s) t ->
  pb t = pb s /\ exists N m, k + n + m = N /\ (forall k' s', steps k' (mkNet p q [] []) s' -> k' <= N) /\
    steps (k + n) (mkNet p q [] []) (mkNet (pa t) (pb s) (ab t) (ba t ++ skipn j (ba s))) /\
    steps m (mkNet (pa t) (pb s) (ab t) (ba t ++ skipn j (ba s))) (mkNet (Ret a) (Ret b) [] []).
Proof.
  intros k s j n t K H. destruct (alones_more _ _ _ H (skipn j (ba s))) as [E X]. cbn [stopped pa pb ab ba] in E, X.
  rewrite firstn_skipn in X. split; [exact E|]. rewrite E in X. destruct COMPLETE as [N C]. exists N.
  assert (S1 : steps (k + n) (mkNet p q [] []) (mkNet (pa t) (pb s) (ab t) (ba t ++ skipn j (ba s)))).
  { eapply steps_app; [exact K|]. destruct s as [p0 q0 x0 y0]. cbn [pa pb ab ba] in *. apply alones_steps. exact X. }
  destruct (C _ _ S1) as [L R]. exists (N - (k + n)). split; [lia|]. split; [|split; assumption]. intros k' s' K'. apply (C k' s' K').
Qed.

(** C113, what holds.  Whenever the peer stops, and however many of its messages under way still arrive: the party never
    fails and never returns another result than that of the complete run, its number of steps is bounded, and when it can
    do no more it has returned that result or waits for a message that does not come. *)
Theorem C113_never_wrong : exists N, forall k s j n t, steps k (mkNet p q [] []) s -> alones n (stopped j s) t ->
  k + n <= N /\ pa t <> Fail /\ (forall a', pa t = Ret a' -> a' = a) /\
  ((forall u, ~ alone t u) -> pa t = Ret a \/ (ba t = [] /\ exists tg f, pa t = Get tg f)).
Proof.
  destruct COMPLETE as [N C] eqn:EC. exists N. intros k s j n t K H. destruct (goes_on k s j n t K H) as (E & N' & m & L & _ & S1 & S2).
  destruct (C _ _ S1) as [LN _]. split; [exact LN|]. split; [|split].
  - intros F. apply (failed_stays _ _ _ S2) in F. cbn [pa] in F. discriminate.
  - intros a' R. destruct (returned_keeps _ _ _ a' S2 R) as [R2 _]. cbn [pa] in R2. congruence.
  - intros ST. destruct (pa t) as [a'| |mm pp|tg f] eqn:PT.
    + left. destruct (returned_keeps _ _ _ a' S2 eq_refl) as [R2 _]. cbn [pa] in R2. congruence.
    + assert (F := failed_stays _ _ _ S2 eq_refl). cbn [pa] in F. discriminate.
    + exfalso. destruct t as [p1 q1 x1 y1]. cbn [pa] in PT. subst p1. apply (ST _ (alone_puts G mm pp q1 x1 y1)).
    + right. destruct t as [p1 q1 x1 y1]. cbn [pa ba ab] in *. subst p1. destruct y1 as [|m1 y1].
      * split; [reflexivity|]. exists tg, f. reflexivity.
      * exfalso. assert (NF : ~ fits G m1 tg) by (intros F; exact (ST _ (alone_gets G tg f q1 x1 m1 y1 F))).
        assert (Q := unfit_stays _ _ _ tg f m1 (y1 ++ skipn j (ba s)) S2 eq_refl eq_refl NF). cbn [pa] in Q. discriminate.
Qed.

(** A peer that stops after it has returned does no harm *)
Theorem C113_finished_peer : forall k s b' j, steps k (mkNet p q [] []) s -> pb s = Ret b' -> length (ba s) <= j ->
  exists n t, alones n (stopped j s) t /\ pa t = Ret a.
Proof.
  intros k s b' j K E J. unfold stopped. rewrite firstn_all2 by exact J. destruct COMPLETE as [N C]. destruct (C _ _ K) as [_ R].
  remember (mkNet (Ret a) (Ret b) [] []) as f eqn:EF. revert E. clear K. clear C. intros E.
  assert (X : forall n s t, steps n s t -> pb s = Ret b' -> alones n s t).
  { clear. intros n s t H. induction H as [|n s t u S1 H IH]; intros E; [constructor|].
    destruct S1 as [m p q x y|t0 k q x m y F|m p q x y|t0 k p m x y F]; cbn [pb] in E; try discriminate.
    - eapply alones_S; [apply alone_puts|apply IH; exact E].
    - eapply alones_S; [apply alone_gets; exact F|apply IH; exact E]. }
  exists (N - k), f. split; [|subst f; reflexivity]. destruct s as [p0 q0 x0 y0]. cbn [pa pb ab ba] in *. apply X; assumption.
Qed.

(** C113, what does not.  Whenever the peer stops before its last message, or that message does not arrive in full, the
    party does not return, however long it is run. *)
Theorem C113_hangs_refuted : forall k s j, steps k (mkNet p q [] []) s ->
  j < length (ba s) \/ (exists m q', pb s = Put m q') ->
  forall n t a', alones n (stopped j s) t -> pa t <> Ret a'.
Proof.
  intros k s j K W n t a' H R. destruct (goes_on k s j n t K H) as (E & N & m & L & _ & S1 & S2). rewrite R in S2.
  destruct W as [W|[m1 [q1 W]]].
  - destruct (returned_keeps _ _ _ a' S2 eq_refl) as [_ [z Z]]. cbn [ba] in Z.
    assert (LZ : length (@nil (msg G)) = length ((ba t ++ skipn j (ba s)) ++ z)) by (rewrite <- Z; reflexivity).
    rewrite !app_length, skipn_length in LZ. cbn [length] in LZ. lia.
  - rewrite W in S2. inversion S2 as [|n0 s0 t0 u0 X Y]; subst. inversion X; subst.
    destruct (returned_keeps _ _ _ a' Y eq_refl) as [_ [z Z]]. cbn [ba] in Z.
    assert (LZ : length (@nil (msg G)) = length (((ba t ++ skipn j (ba s)) ++ [m1]) ++ z)) by (rewrite <- Z; reflexivity).
    rewrite !app_length in LZ. cbn [length] in LZ. lia.
Qed.
End Run.
End Props.

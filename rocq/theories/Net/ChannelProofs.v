(** Proofs about the message channel. *)
From Coq Require Import NArith ZArith List Lia Arith Bool.
From Coq Require Import ZifyBool ZifyNat ZifyN.
From Verif.Base Require Import Words ListX.
From Verif.Utility Require Import SerialModel SerialProofs.
From Verif.Crypto Require Import BigIntModel BigIntProofs.
From Verif.Group Require Import ECModel ECProofs.
From Verif.Net Require Import ChannelModel ChannelSpec.
Import ListNotations.

(** ** the stream a receiving program sees *)
Fixpoint eat {A} (p : prog A) (s : list N) : option (A * list N) :=
  match p with
  | Done a => Some (a, s)
  | Recv n f => if (n <=? length s)%nat then eat (f (firstn n s)) (skipn n s) else None
  end.
(** the number of calls it makes *)
Fixpoint calls {A} (p : prog A) (s : list N) : nat :=
  match p with
  | Done _ => 0
  | Recv n f => if (n <=? length s)%nat then S (calls (f (firstn n s)) (skipn n s)) else 0
  end.

Lemma eat_bind : forall A B (p : prog A) (g : A -> prog B) s,
  eat (bind p g) s = match eat p s with Some (a, r) => eat (g a) r | None => None end.
Proof.
  intros A B. induction p as [a|n f IH]; intros g s; cbn [bind eat]; [reflexivity|].
  destruct (n <=? length s)%nat; [apply IH|reflexivity].
Qed.

Section Chan.
Variable A : Type.
Definition stream (c : chan A) : list N := have c ++ pipe c ++ concat (todo c).

Lemma skipn_concat : forall k (d : list N) t, firstn k d ++ concat (match skipn k d with [] => t | _ => skipn k d :: t end) = d ++ concat t.
Proof.
  intros k d t. destruct (skipn k d) as [|x r] eqn:E.
  - rewrite <- (firstn_skipn k d) at 2. rewrite E, app_nil_r. reflexivity.
  - rewrite <- E at 1. cbn [concat]. rewrite app_assoc, E. rewrite <- E, firstn_skipn. reflexivity.
Qed.

Lemma send_stream : forall k c, stream (send_turn k c) = stream c /\ rp (send_turn k c) = rp c /\ have (send_turn k c) = have c.
Proof.
  intros k c. unfold send_turn, stream. destruct (todo c) as [|d t] eqn:E; [rewrite E; auto|].
  cbn [todo pipe have rp]. split; [|auto]. f_equal. rewrite <- app_assoc. f_equal. cbn [concat]. rewrite <- (skipn_concat k d t).
  destruct (skipn k d); reflexivity.
Qed.

(** a receiving turn does not change what the whole stream means to the program *)
Definition inv (c : chan A) : Prop := match rp c with Recv n _ => n = 0 /\ have c = [] \/ length (have c) < n | Done _ => have c = [] end.

Lemma recv_eat : forall k c, inv c -> eat (rp (recv_turn k c)) (stream (recv_turn k c)) = eat (rp c) (stream c) /\ inv (recv_turn k c).
Proof.
  intros k c I. unfold recv_turn, inv, stream in *. destruct (rp c) as [a|n f] eqn:E; [rewrite E; auto|].
  set (m := Nat.min k (n - length (have c))).
  assert (SP : pipe c = firstn m (pipe c) ++ skipn m (pipe c)) by (symmetry; apply firstn_skipn).
  destruct (Nat.ltb_spec (length (have c ++ firstn m (pipe c))) n) as [L|L]; cbn [todo pipe have rp].
  - split; [|right; exact L]. cbn [eat].
    assert (EQ : (have c ++ firstn m (pipe c)) ++ skipn m (pipe c) ++ concat (todo c) = have c ++ pipe c ++ concat (todo c))
      by (rewrite <- app_assoc, (app_assoc (firstn m (pipe c))), firstn_skipn; reflexivity).
    rewrite EQ. reflexivity.
  - assert (LN : length (have c ++ firstn m (pipe c)) = n).
    { rewrite app_length, firstn_length in *. assert (m <= n - length (have c)) by apply Nat.le_min_r. destruct I as [[-> I]|I]; [rewrite I in *; cbn in *; lia|lia]. }
    split.
    + cbn [eat app].
      assert (EQ : have c ++ pipe c ++ concat (todo c) = (have c ++ firstn m (pipe c)) ++ skipn m (pipe c) ++ concat (todo c))
        by (rewrite <- app_assoc, (app_assoc (firstn m (pipe c))), firstn_skipn; reflexivity).
      rewrite EQ.
      rewrite app_length, LN. destruct (Nat.leb_spec n (n + length (skipn m (pipe c) ++ concat (todo c)))); [|lia].
      rewrite firstn_app_exact', skipn_app_exact' by (symmetry; exact LN). reflexivity.
    + cbn [rp have]. destruct (f (have c ++ firstn m (pipe c))) as [a|n' f']; [reflexivity|]. destruct n'; [left; auto|right; cbn; lia].
Qed.

Lemma turn_eat : forall c t, inv c -> eat (rp (take_turn c t)) (stream (take_turn c t)) = eat (rp c) (stream c) /\ inv (take_turn c t).
Proof.
  intros c [k|k] I; [|apply recv_eat; exact I]. cbn [take_turn]. destruct (send_stream k c) as [A1 [A2 A3]].
  unfold inv in *. rewrite A1, A2, A3. auto.
Qed.
Lemma run_eat : forall s c, inv c -> eat (rp (run_turns c s)) (stream (run_turns c s)) = eat (rp c) (stream c) /\ inv (run_turns c s).
Proof.
  induction s as [|t s IH]; intros c I; cbn [run_turns fold_left]; [auto|].
  destruct (turn_eat c t I) as [E I']. destruct (IH _ I') as [E2 I2]. unfold run_turns in *. split; [congruence|exact I2].
Qed.

(** ** progress *)
Definition mu (c : chan A) : nat := 2 * length (concat (todo c)) + length (todo c) + length (pipe c) + calls (rp c) (stream c).

Lemma send_dec : forall k c, send_turn k c = c \/ mu (send_turn k c) < mu c.
Proof.
  intros k c. destruct (send_stream k c) as [A1 [A2 A3]]. unfold mu. rewrite A1, A2. unfold send_turn.
  destruct (todo c) as [|d t] eqn:E; [left; reflexivity|]. cbn [todo pipe].
  destruct (Nat.eq_dec (length (firstn k d)) 0) as [Z|NZ].
  - destruct d as [|x d]; [right|left].
    + rewrite skipn_nil, firstn_nil, app_nil_r. cbn [concat length app]. lia.
    + rewrite firstn_length in Z. cbn [length] in Z. assert (k = 0) by lia. subst k. cbn [skipn firstn]. rewrite app_nil_r.
      destruct c as [td p h r]. cbn in *. subst td. reflexivity.
  - right. pose proof (f_equal (@length N) (skipn_concat k d t)) as L. rewrite !app_length in L.
    rewrite app_length. cbn [concat length]. rewrite app_length.
    destruct (skipn k d); cbn [length] in *; lia.
Qed.

Lemma recv_dec : forall k c, inv c -> recv_turn k c = c \/ mu (recv_turn k c) < mu c.
Proof.
  intros k c I. destruct (recv_eat k c I) as [_ _]. unfold mu, recv_turn, inv, stream in *.
  destruct (rp c) as [a|n f] eqn:E; [left; reflexivity|]. set (m := Nat.min k (n - length (have c))).
  destruct (Nat.ltb_spec (length (have c ++ firstn m (pipe c))) n) as [L|L]; cbn [todo pipe have rp].
  - assert (EQ : (have c ++ firstn m (pipe c)) ++ skipn m (pipe c) ++ concat (todo c) = have c ++ pipe c ++ concat (todo c))
      by (rewrite <- app_assoc, (app_assoc (firstn m (pipe c))), firstn_skipn; reflexivity).
    destruct (Nat.eq_dec (length (firstn m (pipe c))) 0) as [Z|NZ].
    + left. pose proof (firstn_skipn m (pipe c)) as FS. apply length_zero_iff_nil in Z. rewrite Z in FS |- *. cbn [app] in FS. rewrite FS, app_nil_r.
      destruct c as [td p h r]. cbn in *. subst r. reflexivity.
    + right. rewrite EQ. rewrite skipn_length. rewrite firstn_length in NZ. lia.
  - right. rewrite skipn_length. cbn [app calls].
    assert (LN : length (have c ++ firstn m (pipe c)) = n).
    { rewrite app_length, firstn_length in *. assert (m <= n - length (have c)) by apply Nat.le_min_r. destruct I as [[-> I]|I]; [rewrite I in *; cbn in *; lia|lia]. }
    assert (EQ : have c ++ pipe c ++ concat (todo c) = (have c ++ firstn m (pipe c)) ++ skipn m (pipe c) ++ concat (todo c))
        by (rewrite <- app_assoc, (app_assoc (firstn m (pipe c))), firstn_skipn; reflexivity).
    rewrite EQ, app_length, LN. destruct (Nat.leb_spec n (n + length (skipn m (pipe c) ++ concat (todo c)))); [|lia].
    rewrite firstn_app_exact', skipn_app_exact' by (symmetry; exact LN). lia.
Qed.

Lemma turn_dec : forall c t, inv c -> take_turn c t = c \/ mu (take_turn c t) < mu c.
Proof. intros c [k|k] I; [apply send_dec|apply recv_dec; exact I]. Qed.
Lemma run_le : forall s c, inv c -> mu (run_turns c s) <= mu c.
Proof.
  induction s as [|t s IH]; intros c I; cbn [run_turns fold_left]; [lia|].
  destruct (turn_eat c t I) as [_ I']. specialize (IH _ I'). unfold run_turns in IH. destruct (turn_dec c t I) as [E|E]; [rewrite E in *; exact IH|lia].
Qed.
Lemma run_dec : forall s c, inv c -> (forall t, In t s -> take_turn c t = c) \/ mu (run_turns c s) < mu c.
Proof.
  induction s as [|t s IH]; intros c I; [left; contradiction|]. cbn [run_turns fold_left].
  destruct (turn_dec c t I) as [E|E].
  - rewrite E. destruct (IH c I) as [H|H]; [left; intros t' [<-|J]; [exact E|exact (H t' J)]|right; exact H].
  - right. destruct (turn_eat c t I) as [_ I']. pose proof (run_le s _ I') as L. unfold run_turns in L. lia.
Qed.

Definition is_done (c : chan A) : Prop := exists a, rp c = Done a.

Lemma round_dec : forall s c, inv c -> eat (rp c) (stream c) <> None -> round s -> is_done c \/ mu (run_turns c s) < mu c.
Proof.
  intros s c I EN [[k1 R1] [k2 R2]]. destruct (run_dec s c I) as [ST|L]; [left|right; exact L].
  pose proof (ST _ R1) as S1. pose proof (ST _ R2) as S2. cbn [take_turn] in S1, S2.
  assert (T : todo c = []).
  { destruct (todo c) as [|d t] eqn:E; [reflexivity|exfalso]. unfold send_turn in S1. rewrite E in S1. destruct d as [|x d].
    - apply (f_equal todo) in S1. cbn [todo] in S1. rewrite skipn_nil, E in S1. apply (f_equal (@length _)) in S1. cbn in S1. lia.
    - apply (f_equal pipe) in S1. cbn [pipe firstn] in S1. apply (f_equal (@length _)) in S1. rewrite app_length in S1. cbn in S1. lia. }
  destruct (rp c) as [a|n f] eqn:E; [exists a; exact E|exfalso]. cbn [eat] in EN.
  destruct (Nat.leb_spec n (length (stream c))) as [L|L]; [|congruence].
  unfold stream in L. rewrite T in L. cbn [concat] in L. rewrite app_nil_r, app_length in L.
  unfold recv_turn in S2. unfold inv in I. rewrite E in S2, I. set (m := Nat.min (S k2) (n - length (have c))) in S2.
  destruct (Nat.ltb_spec (length (have c ++ firstn m (pipe c))) n) as [L2|L2].
  - apply (f_equal have) in S2. cbn [have] in S2. apply (f_equal (@length _)) in S2. rewrite app_length, firstn_length in S2, L2.
    unfold m in *. lia.
  - apply (f_equal mu) in S2. unfold mu in S2. cbn [todo pipe have rp] in S2.
    assert (D := recv_dec (S k2) c). unfold inv in D. rewrite E in D.
    assert (LN : length (have c ++ firstn m (pipe c)) = n).
    { rewrite app_length, firstn_length in *. assert (m <= n - length (have c)) by apply Nat.le_min_r. destruct I as [[-> I]|I]; [rewrite I in *; cbn in *; lia|lia]. }
    unfold stream in S2. cbn [todo pipe have app] in S2. rewrite skipn_length, E in S2. cbn [calls] in S2.
    assert (EQ : have c ++ pipe c ++ concat (todo c) = (have c ++ firstn m (pipe c)) ++ skipn m (pipe c) ++ concat (todo c))
        by (rewrite <- app_assoc, (app_assoc (firstn m (pipe c))), firstn_skipn; reflexivity).
    rewrite EQ, app_length, LN in S2. destruct (Nat.leb_spec n (n + length (skipn m (pipe c) ++ concat (todo c)))); [|lia].
    rewrite firstn_app_exact', skipn_app_exact' in S2 by (symmetry; exact LN). lia.
Qed.

Lemma done_stays : forall s c, is_done c -> is_done (run_turns c s).
Proof.
  induction s as [|t s IH]; intros c D; [exact D|]. cbn [run_turns fold_left]. apply IH. destruct D as [a D]. exists a.
  destruct t as [k|k]; cbn [take_turn]; [rewrite (proj1 (proj2 (send_stream k c))); exact D|].
  unfold recv_turn. rewrite D. exact D.
Qed.

Lemma rounds_done : forall rs c, inv c -> eat (rp c) (stream c) <> None -> Forall round rs -> mu c < length rs -> is_done (run_turns c (concat rs)).
Proof.
  induction rs as [|s rs IH]; intros c I EN F L; [cbn in L; lia|]. cbn [concat]. unfold run_turns. rewrite fold_left_app. fold (run_turns c s).
  destruct (round_dec s c I EN (Forall_inv F)) as [D|D]; [apply done_stays, done_stays; exact D|].
  destruct (run_eat s c I) as [E I']. apply IH; [exact I'|congruence|exact (Forall_inv_tail F)|cbn [length] in L; lia].
Qed.

Lemma start_inv : forall bufs (p : prog A), inv (start bufs p).
Proof. intros bufs p. unfold inv. cbn [start rp have]. destruct p as [|[|n] f]; [reflexivity|left; auto|right; cbn; lia]. Qed.
End Chan.

(** ** the messages *)
Section Msg.
Variable G : ECGroup.

Lemma write_point_length : forall gb P, length gb = 65%nat -> length (write_point G gb P) = 65%nat.
Proof. intros gb P L. unfold write_point. destruct (peqb G P (inf G)); [cbn [length]; rewrite skipn_length; lia|apply unc65_length]. Qed.
Lemma write_points_length : forall gb v, length gb = 65%nat -> length (write_points G gb v) = (length v * 65)%nat.
Proof. intros gb v L. induction v as [|P v IH]; [reflexivity|]. cbn [write_points length]. rewrite app_length, write_point_length, IH by exact L. lia. Qed.
Lemma points_back : forall gb v old, length gb = 65%nat -> Forall2 (fun P o => P = inf G -> o = inf G) v old ->
  points_of G old (write_points G gb v) = v.
Proof.
  intros gb v old L F. induction F as [|P o v old E F IH]; [reflexivity|]. cbn [write_points points_of].
  rewrite firstn_app_exact', skipn_app_exact' by (symmetry; apply write_point_length; exact L). rewrite IH. f_equal.
  unfold write_point. destruct (peqb_spec G P (inf G)) as [->|NI].
  - rewrite oct65_head0; [apply E; reflexivity| |reflexivity]. cbn [length]. rewrite skipn_length. lia.
  - rewrite oct65_unc65 by exact NI. reflexivity.
Qed.

Lemma pack_uniform : forall LEN v, Forall (fun d => length d = LEN) v -> pack LEN v = Some (concat v).
Proof.
  intros LEN v F. induction F as [|d v E F IH]; [reflexivity|]. cbn [pack concat]. destruct (Nat.ltb_spec (length d) LEN); [lia|].
  rewrite IH, <- E, firstn_all. reflexivity.
Qed.
Lemma unpack_uniform : forall LEN v, Forall (fun d => length d = LEN) v -> unpack LEN (length v) (concat v) = v.
Proof.
  intros LEN v F. induction F as [|d v E F IH]; [reflexivity|]. cbn [unpack concat length].
  rewrite firstn_app_exact', skipn_app_exact' by (symmetry; exact E). rewrite IH. reflexivity.
Qed.
Lemma concat_uniform_length : forall LEN (v : list (list N)), Forall (fun d => length d = LEN) v -> length (concat v) = (LEN * length v)%nat.
Proof. intros LEN v F. induction F as [|d v E F IH]; [cbn; lia|]. cbn [concat length]. rewrite app_length, IH, E. lia. Qed.

Lemma eat_exact : forall A (f : list N -> prog A) n b rest, n = length b -> eat (Recv n f) (b ++ rest) = eat (f b) rest.
Proof.
  intros A f n b rest ->. cbn [eat]. rewrite app_length. destruct (Nat.leb_spec (length b) (length b + length rest)); [|lia].
  rewrite firstn_app_exact', skipn_app_exact' by reflexivity. reflexivity.
Qed.

Lemma recv_send : forall gb m t bufs rest, length gb = 65%nat -> fits G m t -> send G gb m = Some bufs ->
  eat (recv G t) (concat bufs ++ rest) = Some (m, rest).
Proof.
  intros gb m t bufs rest LG F E. destruct m as [d|v|w x|v|v|LEN a|v|LEN v], t as [n|n|w'|old|n|LEN'| |LEN']; cbn [fits] in F; try contradiction;
    cbn [send] in E.
  - injection E as <-. cbn [concat recv]. rewrite app_nil_r, eat_exact by exact F. reflexivity.
  - injection E as <-. destruct F as [-> F]. cbn [concat recv]. rewrite app_nil_r, eat_exact by (rewrite vec_bytes_length; reflexivity).
    cbn [eat]. rewrite bytes_vec_bytes by exact F. reflexivity.
  - injection E as <-. destruct F as [-> F]. cbn [concat recv]. rewrite app_nil_r, eat_exact by (symmetry; apply le_bytes_length).
    cbn [eat]. rewrite le_val_bytes by exact F. reflexivity.
  - injection E as <-. cbn [concat recv]. rewrite app_nil_r, eat_exact.
    + cbn [eat]. rewrite points_back by assumption. reflexivity.
    + rewrite write_points_length by exact LG. f_equal. clear - F. induction F; cbn [length]; congruence.
  - destruct F as [-> F]. rewrite pack_uniform in E by exact F. injection E as <-. cbn [concat recv]. rewrite app_nil_r, eat_exact.
    + cbn [eat]. rewrite unpack_uniform by exact F. reflexivity.
    + rewrite (concat_uniform_length 32 v F). reflexivity.
  - injection E as <-. destruct F as [-> F]. cbn [concat recv]. rewrite app_nil_r. unfold bigint_buffer.
    rewrite binpad_some.
    2: { assert (X : Z.of_N (256 ^ N.of_nat LEN) = (256 ^ Z.of_nat LEN)%Z) by (rewrite N2Z.inj_pow; f_equal; lia). lia. }
    rewrite eat_exact by (symmetry; apply be_bytes_length). cbn [eat]. unfold BN_bin2bn. rewrite be_val_bytes.
    + do 2 f_equal. f_equal. lia.
    + assert (X : Z.of_N (256 ^ N.of_nat LEN) = (256 ^ Z.of_nat LEN)%Z) by (rewrite N2Z.inj_pow; f_equal; lia). lia.
  - destruct F as [NE [LEN [F [B1 [B2 B3]]]]]. destruct v as [|d v]; [congruence|]. pose proof (Forall_inv F) as LD.
    rewrite LD, pack_uniform in E by exact F. match type of E with Some ?x = _ => assert (EB : bufs = x) by congruence end. rewrite EB. clear E EB. cbn [recv]. set (V := d :: v) in *. cbn [concat]. rewrite app_nil_r, <- !app_assoc.
    rewrite eat_exact by (symmetry; apply le_bytes_length). cbv zeta. rewrite eat_exact by (symmetry; apply le_bytes_length).
    change (256 ^ N.of_nat 8)%N with (2 ^ 64)%N in *.
    rewrite !le_val_bytes by (change (256 ^ N.of_nat 8)%N with (2 ^ 64)%N; assumption).
    unfold wrap64. rewrite wrap_small by exact B3.
    rewrite eat_exact by (rewrite (concat_uniform_length LEN V F); lia). cbn [eat]. rewrite !Nat2N.id, unpack_uniform by exact F. reflexivity.
  - destruct F as [-> [F [B1 B3]]]. rewrite pack_uniform in E by exact F. match type of E with Some ?x = _ => assert (EB : bufs = x) by congruence end. rewrite EB. clear E EB. cbn [recv concat]. rewrite app_nil_r, <- !app_assoc.
    rewrite eat_exact by (symmetry; apply le_bytes_length). cbv zeta.
    rewrite !le_val_bytes by (change (256 ^ N.of_nat 8)%N with (2 ^ 64)%N; assumption).
    unfold wrap64. rewrite wrap_small by exact B3.
    rewrite eat_exact by (rewrite (concat_uniform_length LEN v F); lia). cbn [eat]. rewrite Nat2N.id, unpack_uniform by exact F. reflexivity.
Qed.

Lemma send_some : forall gb m t, fits G m t -> exists bufs, send G gb m = Some bufs.
Proof.
  intros gb m t F. destruct m as [d|v|w x|v|v|LEN a|v|LEN v], t as [n|n|w'|old|n|LEN'| |LEN']; cbn [fits] in F; try contradiction; cbn [send];
    try (eexists; reflexivity).
  - rewrite pack_uniform by apply F. eexists. reflexivity.
  - destruct F as [NE [LEN [F _]]]. destruct v as [|d v]; [congruence|]. rewrite pack_uniform by (rewrite (Forall_inv F); exact F). eexists. reflexivity.
  - rewrite pack_uniform by apply F. eexists. reflexivity.
Qed.

Lemma recvs_sends : forall gb ms ts rest, length gb = 65%nat -> Forall2 (fits G) ms ts ->
  exists bufs, sends G gb ms = Some bufs /\ eat (recvs G ts) (concat bufs ++ rest) = Some (ms, rest).
Proof.
  intros gb ms ts rest LG F. induction F as [|m t ms ts F1 F IH].
  - exists []. split; reflexivity.
  - destruct IH as [bufs [E X]]. destruct (send_some gb m t F1) as [b Eb]. exists (b ++ bufs). cbn [sends recvs]. rewrite Eb, E. split; [reflexivity|].
    rewrite concat_app, <- app_assoc, eat_bind, (recv_send gb m t b _ LG F1 Eb), eat_bind, X. reflexivity.
Qed.
End Msg.

(** [encode] from [set_keys] on. *)
From Coq Require Import NArith List Bool Lia Arith.
From Coq Require Import ZifyBool ZifyNat ZifyN.
From Verif Require Import Base.Words Base.ListX OKVS.SparseModel OKVS.SparseSpec OKVS.SparseProofs.
From Verif Require Import OKVS.PaxosModel OKVS.PaxosLists OKVS.PaxosSet OKVS.PaxosTri
  OKVS.PaxosSum OKVS.PaxosFC OKVS.PaxosBack OKVS.PaxosSolve.
Import ListNotations.

Definition later (t t' : nat -> N) : Prop := exists k, forall i, t' i = t (k + i).

Lemma later_refl t : later t t.
Proof. exists 0. reflexivity. Qed.

Lemma zero_walk_spec vl nodes : forall l c pv fuel remain blocks out t,
  dll nodes 0 pv (c :: l) -> Forall (fun x => x < length out) (c :: l) ->
  (remain = 0 \/ length blocks = 8 * vl /\ remain <= 8) ->
  2 * length (c :: l) <= fuel ->
  exists out' t', zero_walk vl fuel nodes c remain blocks out t = Some (out', t')
    /\ length out' = length out /\ later t t'
    /\ forall x, ~ In x (c :: l) -> nth x out' 0%N = nth x out 0%N.
Proof.
  assert (Step : forall l c pv fuel r blocks out t,
    (forall c pv fuel remain blocks out t,
       l <> [] -> hd 0 l = c ->
       dll nodes 0 pv l -> Forall (fun x => x < length out) l ->
       (remain = 0 \/ length blocks = 8 * vl /\ remain <= 8) ->
       2 * length l <= fuel ->
       exists out' t', zero_walk vl fuel nodes c remain blocks out t = Some (out', t')
         /\ length out' = length out /\ later t t'
         /\ forall x, ~ In x l -> nth x out' 0%N = nth x out 0%N) ->
    dll nodes 0 pv (c :: l) -> Forall (fun x => x < length out) (c :: l) ->
    length blocks = 8 * vl -> S r <= 8 -> 2 * length l < fuel ->
    exists out' t', zero_walk vl fuel nodes c (S r) blocks out t = Some (out', t')
      /\ length out' = length out /\ later t t'
      /\ forall x, ~ In x (c :: l) -> nth x out' 0%N = nth x out 0%N).
  { intros l c pv fuel r blocks out t IH DL F LB Hr Hf.
    destruct fuel as [|fuel]; [lia|]. cbn [zero_walk].
    cbn [dll] in DL. destruct DL as [Hn DL]. inversion_clear F as [|? ? F1 F2].
    unfold value_at at 1. destruct (Nat.leb_spec (r * vl + vl) (length blocks)) as [_|X].
    2:{ exfalso. rewrite LB in X. assert (S r * vl <= 8 * vl) by (apply Nat.mul_le_mono_r; lia). lia. }
    cbn [bind]. rewrite wr_ok by exact F1. cbn [bind].
    unfold rd. rewrite Hn. cbn [bind next]. destruct l as [|x l]; cbn [hd_error].
    - eexists _, t. split; [reflexivity|]. rewrite upd_length. split; [reflexivity|].
      split; [apply later_refl|]. intros y Hy. apply nth_upd_other. intros E. apply Hy. left. exact E.
    - destruct (IH x (Some c) fuel r blocks
          (upd out c (of_blocks (firstn vl (skipn (r * vl) blocks)))) t)
        as (out' & t' & E & L & La & H).
      + discriminate.
      + reflexivity.
      + exact DL.
      + rewrite upd_length. exact F2.
      + right. lia.
      + cbn [length] in *. lia.
      + exists out', t'. split; [exact E|]. rewrite upd_length in L. split; [exact L|].
        split; [exact La|]. intros y Hy. rewrite H by (intros I; apply Hy; right; exact I).
        apply nth_upd_other. intros ->. apply Hy. left. reflexivity. }
  induction l as [|x l IH]; intros c pv fuel remain blocks out t DL F HB Hf.
  - destruct remain as [|r].
    + destruct fuel as [|fuel]; [cbn in Hf; lia|]. cbn [zero_walk draw].
      destruct (Step [] c pv fuel 7 (map t (seq 0 (8 * vl))) out (fun i => t (8 * vl + i)))
        as (out' & t' & E & L & La & H).
      * intros ? ? ? ? ? ? ? X. contradiction.
      * exact DL.
      * exact F.
      * rewrite map_length, seq_length. reflexivity.
      * lia.
      * cbn in *. lia.
      * exists out', t'. split; [exact E|]. split; [exact L|]. split; [|exact H].
        destruct La as [k Hk]. exists (8 * vl + k). intros i. rewrite Hk. f_equal. lia.
    + destruct HB as [|[HB1 HB2]]; [lia|]. apply (Step [] c pv); auto.
      * intros ? ? ? ? ? ? ? X. contradiction.
      * cbn in *. lia.
  - assert (IH' : forall c pv fuel remain blocks out t,
       x :: l <> [] -> hd 0 (x :: l) = c ->
       dll nodes 0 pv (x :: l) -> Forall (fun x => x < length out) (x :: l) ->
       (remain = 0 \/ length blocks = 8 * vl /\ remain <= 8) ->
       2 * length (x :: l) <= fuel ->
       exists out' t', zero_walk vl fuel nodes c remain blocks out t = Some (out', t')
         /\ length out' = length out /\ later t t'
         /\ forall y, ~ In y (x :: l) -> nth y out' 0%N = nth y out 0%N).
    { intros c0 pv0 fuel0 remain0 blocks0 out0 t0 _ <-. cbn [hd]. apply IH. }
    destruct remain as [|r].
    + destruct fuel as [|fuel]; [cbn in Hf; lia|]. cbn [zero_walk draw].
      destruct (Step (x :: l) c pv fuel 7 (map t (seq 0 (8 * vl))) out (fun i => t (8 * vl + i)))
        as (out' & t' & E & L & La & H).
      * exact IH'.
      * exact DL.
      * exact F.
      * rewrite map_length, seq_length. reflexivity.
      * lia.
      * cbn [length] in *. lia.
      * exists out', t'. split; [exact E|]. split; [exact L|]. split; [|exact H].
        destruct La as [k Hk]. exists (8 * vl + k). intros i. rewrite Hk. f_equal. lia.
    + destruct HB as [|[HB1 HB2]]; [lia|]. apply (Step (x :: l) c pv); auto.
      cbn [length] in *. lia.
Qed.

Lemma zero_fill_spec vl p ds o out t : done p ds o -> length out = total p ->
  exists out' t', zero_fill vl o out t = Some (out', t') /\ length out' = total p /\ later t t'
    /\ forall x, In x (tri_cols o) \/ msize p <= x -> nth x out' 0%N = nth x out 0%N.
Proof.
  intros Dn L. unfold zero_fill.
  destruct (d_lists _ _ _ Dn) as (B & R & T & Ln & Hw & Hb).
  assert (HB : 0 < length B) by (destruct B; [destruct T; contradiction|cbn; lia]).
  rewrite (proj1 R), rd_nth with (d := None) by (rewrite map_length; exact HB). cbn [bind].
  rewrite nth_map' with (d := []) by exact HB.
  destruct (proj2 R 0) as [ND DL].
  destruct (nth 0 B []) as [|c l] eqn:E0; cbn [hd_error].
  - exists out, t. split; [reflexivity|]. split; [exact L|]. split; [apply later_refl|]. auto.
  - assert (Lt : forall x, In x (c :: l) -> x < msize p /\ ~ In x (tri_cols o)).
    { intros x Hx. rewrite <- E0 in Hx. apply Hb in Hx. tauto. }
    destruct (zero_walk_spec vl (fst (lsts o)) l c None (S (2 * length (fst (lsts o)))) 0 [] out t)
      as (out' & t' & E & L' & La & H).
    + exact DL.
    + apply Forall_forall. intros x Hx. apply Lt in Hx. unfold total in L. lia.
    + auto.
    + rewrite Ln. assert (X : length (c :: l) <= length (seq 0 (msize p))).
      { apply NoDup_incl_length; [exact ND|]. intros x Hx. apply Lt in Hx. apply in_seq. lia. }
      rewrite seq_length in X. lia.
    + exists out', t'. split; [exact E|]. split; [lia|]. split; [exact La|].
      intros x [Hx|Hx]; apply H; intros I; apply Lt in I; [tauto|lia].
Qed.

Lemma later_ok t t' : later t t' -> tape_ok (Some t) -> tape_ok (Some t').
Proof. intros [k Hk] H i. rewrite Hk. apply H. Qed.

(** What one call of [encode] leaves, once the rows are triangulated: [out] is
    correct up to the residuals of the gap rows. *)
Record encoded (vl : nat) (p : params) (ds : list N) (o : okvs) (values : list N)
  (random : bool) (out : list N) : Prop := {
  en_dense : dense_ok p;
  en_len : length out = total p;
  en_tri : forall r, In r (tri_rows o) ->
    decode_value vl p out (nth r ds 0%N) = nth r values 0%N;
  en_gap : forall i, i < length (gap_rows o) -> exists L, cancels o i L /\
    decode_value vl p out (nth (nth i (gap_rows o) 0) ds 0%N)
    = N.lxor (nth (nth i (gap_rows o) 0) values 0%N) (residual o out i L);
  en_free : random = false ->
    forall c, c < msize p -> ~ In c (tri_cols o) -> nth c out 0%N = 0%N }.

Definition is_some {A} (t : option A) : bool := match t with Some _ => true | None => false end.

Lemma encode_done vl p ds o values t o' out t' :
  good p -> sized p -> done p ds o -> length ds <= length values ->
  gap_cols o = [] -> fc o = [] -> emat o = [] ->
  (kind p = gf_128 -> length (gap_rows o) < 256 /\ tape_ok t
     /\ Forall (fun d => N.lt d (2 ^ 128)) ds
     /\ Forall (fun v => N.lt v (2 ^ (128 * N.of_nat vl))) values) ->
  (r <- match t with
       | None => Some (repeat 0%N (total p), None)
       | Some t => r <- zero_fill vl o (repeat 0%N (total p)) t ;; Some (fst r, Some (snd r))
       end ;;
   let '(out, t) := r in
   match kind p with
   | binary => backfill_binary vl p o values out t
   | gf_128 => backfill_gf128 vl p o values out t
   end) = Some (o', out, t') ->
  encoded vl p ds o values (is_some t) out.
Proof.
  intros G Sz Dn LV GC0 FC0 EM0 HK H.
  assert (Rep : forall c, nth c (repeat 0%N (total p)) 0%N = 0%N).
  { intros c. destruct (Nat.ltb_spec c (total p)).
    - apply nth_repeat.
    - apply nth_overflow. rewrite repeat_length. assumption. }
  assert (Z : exists outz tz, (match t with
       | None => Some (repeat 0%N (total p), None)
       | Some t => r <- zero_fill vl o (repeat 0%N (total p)) t ;; Some (fst r, Some (snd r))
       end) = Some (outz, tz) /\ length outz = total p
       /\ (tape_ok t -> tape_ok tz)
       /\ (forall x, In x (tri_cols o) \/ msize p <= x -> nth x outz 0%N = 0%N)
       /\ (t = None -> forall x, nth x outz 0%N = 0%N)).
  { destruct t as [t|].
    - destruct (zero_fill_spec vl p ds o (repeat 0%N (total p)) t Dn) as (oz & tz & E & L & La & HZ).
      + apply repeat_length.
      + rewrite E. exists oz, (Some tz). split; [reflexivity|]. split; [exact L|].
        split; [intros T; apply (later_ok _ _ La T)|]. split; [|discriminate].
        intros x Hx. rewrite HZ by exact Hx. apply Rep.
    - exists (repeat 0%N (total p)), None. split; [reflexivity|].
      split; [apply repeat_length|]. auto. }
  destruct Z as (outz & tz & EZ & Lz & TZ & HZ & HN).
  rewrite EZ in H. cbn [bind] in H. clear EZ.
  assert (X : dense_ok p /\ outcome vl p ds o values outz out).
  { destruct (kind p) eqn:K.
    - apply (backfill_binary_ok vl p ds o values G Sz Dn LV GC0 FC0) in H; auto.
    - destruct (HK eq_refl) as (H1 & H2 & H3 & H4).
      apply (backfill_gf_ok vl p ds o values G Sz Dn LV GC0 FC0 EM0 H3 H4) in H; auto. }
  destruct X as [DO OC]. constructor.
  - exact DO.
  - apply OC.
  - intros r Hr. apply In_nth with (d := 0) in Hr. destruct Hr as (i & Hi & <-).
    apply (oc_tri _ _ _ _ _ _ _ OC). exact Hi.
  - apply (oc_gap _ _ _ _ _ _ _ OC).
  - intros R c Hc N. rewrite (oc_free _ _ _ _ _ _ _ OC) by assumption.
    apply HN. destruct t; [discriminate|reflexivity].
Qed.

Lemma residual_zero p ds o out i L : good p -> done p ds o ->
  (forall c, c < msize p -> ~ In c (tri_cols o) -> nth c out 0%N = 0%N) ->
  residual o out i L = 0%N.
Proof.
  intros G Dn H.
  assert (Z : forall r, xs (off_tri o (fun c => nth c out 0%N)) (nth r (rows o) []) = 0%N).
  { intros r. apply xs_0. intros c Hc. unfold off_tri. destruct (mem c (tri_cols o)) eqn:E; [reflexivity|].
    apply mem_false in E. apply H; [|exact E].
    rewrite (d_rows _ _ _ Dn) in Hc.
    destruct (row_ok (msize p) (map (row_of p) ds) (rows_ok_map p ds G) r) as [_ F].
    rewrite Forall_forall in F. apply F. exact Hc. }
  unfold residual. rewrite Z, xs_0; [reflexivity|]. intros; apply Z.
Qed.

(** Everything decodes if nothing was randomised or there are no gap rows. *)
Lemma encoded_decodes vl p ds o values random out : good p -> done p ds o ->
  length values = length ds ->
  encoded vl p ds o values random out ->
  random = false \/ gap_rows o = [] ->
  map (decode_value vl p out) ds = values.
Proof.
  intros G Dn LV EN HR. apply list_eq_nth with 0%N; [rewrite map_length; auto|].
  rewrite map_length. intros r Hr. rewrite nth_map' with (d := 0%N) by exact Hr.
  assert (I : In r (tri_rows o ++ gap_rows o)) by (apply (d_all _ _ _ Dn); exact Hr).
  apply in_app_or in I. destruct I as [I|I].
  - apply (en_tri _ _ _ _ _ _ _ EN). exact I.
  - apply In_nth with (d := 0) in I. destruct I as (i & Hi & <-).
    destruct HR as [HR|HR]; [|rewrite HR in Hi; cbn in Hi; lia].
    destruct (en_gap _ _ _ _ _ _ _ EN i Hi) as (L & _ & ->).
    rewrite (residual_zero p ds o out i L G Dn (en_free _ _ _ _ _ _ _ EN HR)).
    apply N.lxor_0_r.
Qed.

(** ** Success when there are no gap rows *)
Lemma random_all_ok vl m : forall cols blocks out,
  Forall (fun i => (i + 1) * vl <= length blocks /\ m + i < length out) cols ->
  exists out', random_all vl m cols blocks out = Some out'.
Proof.
  induction cols as [|i cols IH]; intros blocks out F; [eexists; reflexivity|].
  inversion_clear F as [|? ? [F1 F2] F3]. cbn [random_all]. unfold value_at.
  destruct (Nat.leb_spec (i * vl + vl) (length blocks)); [|lia]. cbn [bind].
  rewrite wr_ok by exact F2. cbn [bind]. apply IH. rewrite upd_length. exact F3.
Qed.

Definition can_randomise (vl : nat) (p : params) (t : tape) : Prop :=
  match t with
  | None => True
  | Some _ => match kind p with binary => vl <= 1 | gf_128 => 1 <= dsize p end
  end.

Lemma encode_total vl p ds o values t :
  good p -> sized p -> done p ds o -> length ds <= length values ->
  gap_cols o = [] -> fc o = [] -> emat o = [] -> gap_rows o = [] ->
  dense_ok p -> can_randomise vl p t ->
  exists out t',
  (r <- match t with
       | None => Some (repeat 0%N (total p), None)
       | Some t => r <- zero_fill vl o (repeat 0%N (total p)) t ;; Some (fst r, Some (snd r))
       end ;;
   let '(out, t) := r in
   match kind p with
   | binary => backfill_binary vl p o values out t
   | gf_128 => backfill_gf128 vl p o values out t
   end) = Some (o, out, t').
Proof.
  intros G Sz Dn LV GC0 FC0 EM0 NG DO CR.
  assert (Rep : forall c, nth c (repeat 0%N (total p)) 0%N = 0%N).
  { intros c. destruct (Nat.ltb_spec c (total p)).
    - apply nth_repeat.
    - apply nth_overflow. rewrite repeat_length. assumption. }
  assert (GE : forall x, gap_equations vl p ds o values x).
  { intros x i Hi. rewrite NG in Hi. cbn in Hi. lia. }
  assert (GC : gap_count o = 0) by (unfold gap_count; rewrite NG; reflexivity).
  assert (RL : length (rows o) = length (tri_rows o)).
  { rewrite (rows_len p ds o Dn), (row_count p ds o Dn), NG. cbn. lia. }
  assert (FIN : forall part out out1, length out1 = total p ->
    (forall c, c < msize p -> nth c out1 0%N = nth c out 0%N) ->
    (forall c, In c (tri_cols o) -> nth c out 0%N = 0%N) ->
    (forall d out2 acc, length out2 = total p ->
     (forall c, msize p <= c -> nth c out2 0%N = nth c out1 0%N) ->
     part d out2 acc = Some (N.lxor acc (dense_sum vl p out1 d))) ->
    exists out', triangle o part values (length (tri_rows o)) out1 = Some out').
  { intros part out out1 L1 H1 H2 H3.
    destruct (finish vl p ds o values G Dn LV part out out1 L1 H1 H2 H3 (GE _)) as (out' & E & _).
    exists out'. exact E. }
  destruct t as [t|].
  - destruct (zero_fill_spec vl p ds o (repeat 0%N (total p)) t Dn) as (oz & tz & E & L & La & HZ).
    { apply repeat_length. }
    rewrite E. cbn [bind fst snd]. cbn [can_randomise] in CR.
    assert (Zt : forall c, In c (tri_cols o) -> nth c oz 0%N = 0%N).
    { intros c Hc. rewrite HZ by (left; exact Hc). apply Rep. }
    destruct (kind p) eqn:K.
    + unfold backfill_binary. unfold dense_ok in DO. rewrite K in DO.
      destruct (Nat.ltb_spec 128 (dsize p)); [lia|]. rewrite GC. cbn [Nat.eqb negb andb draw].
      destruct (random_all_ok vl (msize p) (seq 0 (dsize p)) (map tz (seq 0 (dsize p))) oz) as [o1 E1].
      { apply Forall_forall. intros i Hi. apply in_seq in Hi. rewrite map_length, seq_length, L.
        unfold total. split; [|lia].
        assert ((i + 1) * vl <= (i + 1) * 1) by (apply Nat.mul_le_mono_l; exact CR). lia. }
      rewrite E1. cbn [bind]. rewrite GC0, Nat.sub_0_r, RL. cbn [Nat.ltb Nat.leb].
      destruct (random_all_inv _ _ _ _ _ _ E1) as [L1 H1].
      destruct (FIN (dense_part_binary p [] (Some (fun i => tz (dsize p + i)))) oz o1)
        as [out' EO].
      * lia.
      * intros c Hc. apply H1. intros; lia.
      * exact Zt.
      * intros. apply binary_part with (g := 0); auto.
        -- repeat split; constructor.
        -- intros X. discriminate.
      * rewrite EO. cbn [bind]. eexists _, _. reflexivity.
    + unfold backfill_gf128. rewrite GC. cbn [Nat.eqb negb andb draw].
      destruct (random_all_ok vl (msize p) (seq 0 (dsize p)) (map tz (seq 0 (dsize p * vl))) oz) as [o1 E1].
      { apply Forall_forall. intros i Hi. apply in_seq in Hi. rewrite map_length, seq_length, L.
        unfold total. split; [|lia]. apply Nat.mul_le_mono_r. lia. }
      rewrite E1. cbn [bind].
      destruct (random_all_inv _ _ _ _ _ _ E1) as [L1 H1].
      destruct (FIN (dense_part_gf vl p 0 (Some (fun i => tz (dsize p * vl + i)))) oz o1)
        as [out' EO].
      * lia.
      * intros c Hc. apply H1. intros; lia.
      * exact Zt.
      * intros. apply gf_part; auto. intros _ X. discriminate.
      * rewrite EO. cbn [bind]. eexists _, _. reflexivity.
  - cbn [bind]. destruct (kind p) eqn:K.
    + unfold backfill_binary. unfold dense_ok in DO. rewrite K in DO.
      destruct (Nat.ltb_spec 128 (dsize p)); [lia|]. rewrite GC. cbn [Nat.eqb negb andb].
      cbn [bind]. rewrite GC0, Nat.sub_0_r, RL. cbn [Nat.ltb Nat.leb].
      destruct (FIN (dense_part_binary p [] None) (repeat 0%N (total p)) (repeat 0%N (total p)))
        as [out' EO].
      * apply repeat_length.
      * auto.
      * intros; apply Rep.
      * intros. apply binary_part with (g := 0); auto.
        -- repeat split; constructor.
        -- intros X k _ _. apply Rep.
      * rewrite EO. cbn [bind]. eexists _, _. reflexivity.
    + unfold backfill_gf128. rewrite GC. cbn [Nat.eqb negb andb bind].
      destruct (FIN (dense_part_gf vl p 0 None) (repeat 0%N (total p)) (repeat 0%N (total p)))
        as [out' EO].
      * apply repeat_length.
      * auto.
      * intros; apply Rep.
      * intros d out2 acc L2 A. unfold dense_part_gf. cbn [Nat.eqb andb].
        unfold dense_sum. rewrite K, xs_0; [rewrite N.lxor_0_r; reflexivity|].
        intros k _. rewrite Rep. apply vmul_0_l.
      * rewrite EO. cbn [bind]. eexists _, _. reflexivity.
Qed.

(** Without gap rows [encode] does not change the triangulated object. *)
Lemma encode_same vl p o values t o' out t' : gap_rows o = [] ->
  (r <- match t with
       | None => Some (repeat 0%N (total p), None)
       | Some t => r <- zero_fill vl o (repeat 0%N (total p)) t ;; Some (fst r, Some (snd r))
       end ;;
   let '(out, t) := r in
   match kind p with
   | binary => backfill_binary vl p o values out t
   | gf_128 => backfill_gf128 vl p o values out t
   end) = Some (o', out, t') -> o' = o.
Proof.
  intros NG H.
  match type of H with (r <- ?e ;; _) = _ => destruct e as [[oz tz]|] end; [|discriminate].
  cbn [bind] in H.
  assert (GC : gap_count o = 0) by (unfold gap_count; rewrite NG; reflexivity).
  destruct (kind p).
  - unfold backfill_binary in H. destruct (Nat.ltb 128 (dsize p)); [discriminate|].
    rewrite GC in H. cbn [Nat.eqb negb andb] in H. destruct tz as [tz|].
    + unfold draw in H. destruct (random_all _ _ _ _ _); [|discriminate]. cbn [bind] in H.
      destruct (Nat.ltb _ _); [discriminate|]. destruct (triangle _ _ _ _ _); [|discriminate].
      cbn [bind] in H. congruence.
    + cbn [bind] in H.
      destruct (Nat.ltb _ _); [discriminate|]. destruct (triangle _ _ _ _ _); [|discriminate].
      cbn [bind] in H. congruence.
  - unfold backfill_gf128 in H. rewrite GC in H. cbn [Nat.eqb negb andb] in H. destruct tz as [tz|].
    + unfold draw in H. destruct (random_all _ _ _ _ _); [|discriminate]. cbn [bind] in H.
      destruct (triangle _ _ _ _ _); [|discriminate]. cbn [bind] in H. congruence.
    + cbn [bind] in H. destruct (triangle _ _ _ _ _); [|discriminate]. cbn [bind] in H. congruence.
Qed.

(** The gap rows are those found by the triangulation. *)
Lemma encode_gaps vl p o values t o' out t' :
  (r <- match t with
       | None => Some (repeat 0%N (total p), None)
       | Some t => r <- zero_fill vl o (repeat 0%N (total p)) t ;; Some (fst r, Some (snd r))
       end ;;
   let '(out, t) := r in
   match kind p with
   | binary => backfill_binary vl p o values out t
   | gf_128 => backfill_gf128 vl p o values out t
   end) = Some (o', out, t') -> gap_rows o' = gap_rows o /\ tri_rows o' = tri_rows o.
Proof.
  intros H.
  match type of H with (r <- ?e ;; _) = _ => destruct e as [[oz tz]|] end; [|discriminate].
  cbn [bind] in H. destruct (kind p).
  - unfold backfill_binary in H. destruct (Nat.ltb 128 (dsize p)); [discriminate|].
    destruct (negb (Nat.eqb (gap_count o) 0) && is_nil (gap_cols o)).
    + destruct (solve_binary vl p o (gap_count o) values oz tz) as [[[[[gc fcl] E] o1] t1]|]; [|discriminate].
      cbn [bind] in H. destruct (Nat.ltb _ _); [discriminate|].
      destruct (triangle _ _ _ _ _); [|discriminate]. cbn [bind] in H.
      injection H as <- <- <-. split; reflexivity.
    + destruct tz as [tz|].
      * unfold draw in H. destruct (random_all _ _ _ _ _); [|discriminate]. cbn [bind] in H.
        destruct (Nat.ltb _ _); [discriminate|].
        destruct (triangle _ _ _ _ _); [|discriminate]. cbn [bind] in H.
        injection H as <- <- <-. split; reflexivity.
      * cbn [bind] in H. destruct (Nat.ltb _ _); [discriminate|].
        destruct (triangle _ _ _ _ _); [|discriminate]. cbn [bind] in H.
        injection H as <- <- <-. split; reflexivity.
  - unfold backfill_gf128 in H.
    destruct (negb (Nat.eqb (gap_count o) 0) && is_nil (gap_cols o)).
    + destruct (solve_gf vl p o (gap_count o) values oz tz) as [[[[fcl E] o1] t1]|]; [|discriminate].
      cbn [bind] in H.
      destruct (triangle _ _ _ _ _); [|discriminate]. cbn [bind] in H.
      injection H as <- <- <-. split; reflexivity.
    + destruct tz as [tz|].
      * unfold draw in H. destruct (random_all _ _ _ _ _); [|discriminate]. cbn [bind] in H.
        destruct (triangle _ _ _ _ _); [|discriminate]. cbn [bind] in H.
        injection H as <- <- <-. split; reflexivity.
      * cbn [bind] in H.
        destruct (triangle _ _ _ _ _); [|discriminate]. cbn [bind] in H.
        injection H as <- <- <-. split; reflexivity.
Qed.

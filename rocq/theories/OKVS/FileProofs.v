(** Reading an oblivious key-value store back. *)
From Coq Require Import NArith List Bool Lia Arith.
From Coq Require Import ZifyBool ZifyNat ZifyN.
From Verif Require Import Base.Words Base.ListX OKVS.SparseModel OKVS.SparseSpec OKVS.SparseProofs.
From Verif Require Import OKVS.PaxosModel OKVS.PaxosSpec OKVS.PaxosLists OKVS.PaxosSet OKVS.PaxosTri
  OKVS.PaxosSum OKVS.PaxosFC OKVS.PaxosBack OKVS.PaxosSolve OKVS.PaxosEncode OKVS.PaxosProps OKVS.FileModel.
Import ListNotations.

(** ** Fields *)
Lemma take_le : forall w x r, N.lt x (256 ^ N.of_nat w) -> take w (le_bytes w x ++ r) = Some (x, r).
Proof.
  intros w x r H. unfold take. rewrite app_length, le_bytes_length.
  destruct (Nat.leb_spec w (w + length r)); [|lia].
  rewrite firstn_app, skipn_app, le_bytes_length, Nat.sub_diag.
  rewrite firstn_all2, skipn_all2 by (rewrite le_bytes_length; lia).
  cbn [firstn skipn app]. rewrite app_nil_r, le_val_bytes by exact H. reflexivity.
Qed.
Lemma takes_le : forall w l r, Forall (fun x => N.lt x (256 ^ N.of_nat w)) l ->
  takes (length l) w (concat (map (le_bytes w) l) ++ r) = Some (l, r).
Proof.
  intros w. induction l as [|x l IH]; intros r F; [reflexivity|]. inversion_clear F.
  cbn [length takes map concat]. rewrite <- app_assoc, take_le by assumption. cbn [bind fst snd].
  rewrite IH by assumption. reflexivity.
Qed.
Lemma concat_idx : forall wi l, concat (map (idx wi) l) = concat (map (le_bytes wi) (map N.of_nat l)).
Proof. intros wi l. rewrite map_map. reflexivity. Qed.
Lemma takes_idx : forall wi n l r, n = length l -> Forall (fun c => N.lt (N.of_nat c) (256 ^ N.of_nat wi)) l ->
  index (takes n wi (concat (map (idx wi) l) ++ r)) = Some (l, r).
Proof.
  intros wi n l r -> F. rewrite concat_idx.
  replace (length l) with (length (map N.of_nat l)) by apply map_length.
  rewrite takes_le; [|apply Forall_map; exact F].
  cbn [index bind fst snd]. rewrite map_map. f_equal. f_equal.
  rewrite <- (map_id l) at 2. apply map_ext. intros. apply Nat2N.id.
Qed.
Lemma take_rows_ok : forall wi w l r, Forall (fun x => length x = w) l ->
  Forall (Forall (fun c => N.lt (N.of_nat c) (256 ^ N.of_nat wi))) l ->
  take_rows wi (length l) w (concat (map (idx wi) (concat l)) ++ r) = Some (l, r).
Proof.
  intros wi w. induction l as [|x l IH]; intros r W F; [reflexivity|].
  inversion_clear W as [|? ? W1 W2]. inversion_clear F as [|? ? F1 F2]. cbn [length take_rows concat].
  rewrite map_app, concat_app, <- app_assoc, takes_idx; [|auto|exact F1].
  cbn [bind fst snd]. rewrite IH by assumption. reflexivity.
Qed.
Lemma prefix_full : forall A (v : list A) n, n = length v -> N.lt (N.of_nat n) (2 ^ 31) -> prefix n v = Some v.
Proof.
  intros A v n -> H. unfold prefix, counts. apply N.ltb_lt in H. rewrite H.
  rewrite Nat.leb_refl, firstn_all. reflexivity.
Qed.
Lemma prefix_rows : forall w l, Forall (fun x : list nat => length x = w) l -> N.lt (N.of_nat w) (2 ^ 31) ->
  fold_right (fun r acc => r <- prefix w r ;; acc <- acc ;; Some (r :: acc)) (Some []) l = Some l.
Proof.
  intros w l F H. induction F as [|x l F1 F2 IH]; [reflexivity|]. cbn [fold_right].
  rewrite prefix_full by auto. cbn [bind]. rewrite IH. reflexivity.
Qed.

(** ** The columns of weight 0 *)
Lemma walk_dll : forall nodes w l pv fuel, dll nodes w pv l -> length l <= fuel ->
  walk fuel nodes (hd_error l) = Some l.
Proof.
  intros nodes w. induction l as [|c l IH]; intros pv fuel D F.
  - destruct fuel; reflexivity.
  - destruct fuel as [|fuel]; [cbn in F; lia|]. cbn [hd_error walk]. destruct D as [E D]. unfold rd. rewrite E.
    cbn [bind next]. rewrite (IH (Some c) fuel D) by (cbn in F; lia). reflexivity.
Qed.
Lemma zeros_ok p ds o : done p ds o -> exists h l, rd (snd (lsts o)) 0 = Some h /\
  walk (S (length (fst (lsts o)))) (fst (lsts o)) h = Some l /\ NoDup l /\
  forall c, In c l <-> c < msize p /\ ~ In c (tri_cols o).
Proof.
  intros Dn. destruct (d_lists _ _ _ Dn) as (B & R & T & Ln & Hw & Hb).
  assert (HB : 0 < length B) by (destruct B; [destruct T; contradiction|cbn; lia]).
  destruct (proj2 R 0) as [ND DL]. exists (hd_error (nth 0 B [])), (nth 0 B []).
  split.
  { rewrite (proj1 R), rd_nth with (d := None) by (rewrite map_length; exact HB).
    rewrite nth_map' with (d := []) by exact HB. reflexivity. }
  split.
  { apply (walk_dll _ 0 _ None); [exact DL|]. rewrite Ln.
    assert (X : length (nth 0 B []) <= length (seq 0 (msize p))).
    { apply NoDup_incl_length; [exact ND|]. intros x Hx. apply Hb in Hx. apply in_seq. lia. }
    rewrite seq_length in X. lia. }
  split; [exact ND|]. intros c. rewrite Hb. tauto.
Qed.
Lemma zero_list_ok vl : forall l i blocks out, Forall (fun c => c < length out) l ->
  (i + length l) * vl <= length blocks ->
  exists out', zero_list vl l i blocks out = Some out' /\ length out' = length out /\
    forall x, ~ In x l -> nth x out' 0%N = nth x out 0%N.
Proof.
  induction l as [|c l IH]; intros i blocks out F HB; [exists out; auto|].
  inversion_clear F as [|? ? F1 F2]. cbn [zero_list length] in *. unfold value_at.
  destruct (Nat.leb_spec (i * vl + vl) (length blocks)) as [_|X].
  2:{ exfalso. assert ((i + 1) * vl <= (i + S (length l)) * vl) by (apply Nat.mul_le_mono_r; lia). lia. }
  cbn [bind]. rewrite wr_ok by exact F1. cbn [bind].
  destruct (IH (S i) blocks (upd out c (of_blocks (firstn vl (skipn (i * vl) blocks))))) as (out' & E & L & H).
  - rewrite upd_length. exact F2.
  - replace (S i + length l) with (i + S (length l)) by lia. exact HB.
  - exists out'. split; [exact E|]. rewrite upd_length in L. split; [exact L|].
    intros x Hx. rewrite H by (intros I; apply Hx; right; exact I). apply nth_upd_other.
    intros ->. apply Hx. left. reflexivity.
Qed.

(** ** Back-filling without gap rows *)
(** the fields that [backfill] reads then *)
Definition alike (o r : okvs) : Prop :=
  rows r = rows o /\ dense r = dense o /\ tri_rows r = tri_rows o /\ tri_cols r = tri_cols o /\
  gap_rows r = gap_rows o /\ gap_cols r = gap_cols o.
Lemma triangle_alike o r part values : alike o r -> forall n out, triangle r part values n out = triangle o part values n out.
Proof.
  intros (A & B & C & D & _). induction n as [|n IH]; intros out; [reflexivity|]. cbn [triangle].
  rewrite A, B, C, D. destruct (rd (tri_rows o) n); [|reflexivity]. cbn [bind].
  destruct (rd (tri_cols o) n); [|reflexivity]. cbn [bind].
  destruct (rd values _); [|reflexivity]. cbn [bind].
  destruct (rd (rows o) _); [|reflexivity]. cbn [bind].
  destruct (add_cols _ _ _); [|reflexivity]. cbn [bind].
  destruct (rd (dense o) _); [|reflexivity]. cbn [bind].
  destruct (part _ _ _); [|reflexivity]. cbn [bind].
  destruct (wr _ _ _); [|reflexivity]. cbn [bind]. apply IH.
Qed.
Definition fill_in (vl : nat) (p : params) (o : okvs) (values out : list N) (t : tape) :=
  match kind p with
  | binary => backfill_binary vl p o values out t
  | gf_128 => backfill_gf128 vl p o values out t
  end.
Lemma fill_in_alike vl p o r values out t out' t' : alike o r -> gap_rows o = [] ->
  fill_in vl p o values out t = Some (o, out', t') -> fill_in vl p r values out t = Some (r, out', t').
Proof.
  intros A NG. unfold fill_in.
  assert (GC : gap_count o = 0) by (unfold gap_count; rewrite NG; reflexivity).
  assert (GR : gap_count r = 0).
  { unfold gap_count. destruct A as (_ & _ & _ & _ & -> & _). rewrite NG. reflexivity. }
  pose proof (fun part => triangle_alike o r part values A) as TR.
  destruct A as (A1 & A2 & A3 & A4 & A5 & A6).
  destruct (kind p).
  - unfold backfill_binary. destruct (Nat.ltb 128 (dsize p)); [discriminate|].
    rewrite GC, GR. cbn [Nat.eqb negb andb]. destruct t as [t|].
    + unfold draw. destruct (random_all _ _ _ _ _); [|discriminate]. cbn [bind]. rewrite TR, A1, A6.
      destruct (Nat.ltb _ _); [discriminate|]. destruct (triangle _ _ _ _ _); [|discriminate].
      cbn [bind]. congruence.
    + cbn [bind]. rewrite TR, A1, A6.
      destruct (Nat.ltb _ _); [discriminate|]. destruct (triangle _ _ _ _ _); [|discriminate].
      cbn [bind]. congruence.
  - unfold backfill_gf128. rewrite GC, GR. cbn [Nat.eqb negb andb]. destruct t as [t|].
    + unfold draw. destruct (random_all _ _ _ _ _); [|discriminate]. cbn [bind]. rewrite TR, A3.
      destruct (triangle _ _ _ _ _); [|discriminate]. cbn [bind]. congruence.
    + cbn [bind]. rewrite TR, A3.
      destruct (triangle _ _ _ _ _); [|discriminate]. cbn [bind]. congruence.
Qed.

(** Back-filling succeeds from every output that is 0 in the triangle's and the dense columns. *)
Lemma fill_in_total vl p ds o values oz tz :
  good p -> sized p -> done p ds o -> length ds <= length values ->
  gap_cols o = [] -> gap_rows o = [] -> dense_ok p -> can_randomise vl p tz ->
  length oz = total p -> (forall c, In c (tri_cols o) \/ msize p <= c -> nth c oz 0%N = 0%N) ->
  exists out t', fill_in vl p o values oz tz = Some (o, out, t').
Proof.
  intros G Sz Dn LV GC0 NG DO CR L HZ. unfold fill_in.
  assert (GE : forall x, gap_equations vl p ds o values x).
  { intros x i Hi. rewrite NG in Hi. cbn in Hi. lia. }
  assert (GC : gap_count o = 0) by (unfold gap_count; rewrite NG; reflexivity).
  assert (RL : length (rows o) = length (tri_rows o)).
  { rewrite (rows_len p ds o Dn), (row_count p ds o Dn), NG. cbn. lia. }
  assert (FIN : forall part out out1, length out1 = total p ->
    (forall c, c < msize p -> nth c out1 0%N = nth c out 0%N) ->
    (forall c, In c (tri_cols o) -> nth c out 0%N = 0%N) ->
    (forall d out2 acc, length out2 = total p ->
     (forall c, msize p <= c -> nth c out2 0%N = nth c out1 0%N) ->
     part d out2 acc = Some (N.lxor acc (dense_sum vl p out1 d))) ->
    exists out', triangle o part values (length (tri_rows o)) out1 = Some out').
  { intros part out out1 L1 H1 H2 H3.
    destruct (finish vl p ds o values G Dn LV part out out1 L1 H1 H2 H3 (GE _)) as (out' & E & _).
    exists out'. exact E. }
  assert (Zt : forall c, In c (tri_cols o) -> nth c oz 0%N = 0%N) by (intros; apply HZ; auto).
  destruct tz as [tz|].
  - cbn [can_randomise] in CR. destruct (kind p) eqn:K.
    + unfold backfill_binary. unfold dense_ok in DO. rewrite K in DO.
      destruct (Nat.ltb_spec 128 (dsize p)); [lia|]. rewrite GC. cbn [Nat.eqb negb andb draw].
      destruct (random_all_ok vl (msize p) (seq 0 (dsize p)) (map tz (seq 0 (dsize p))) oz) as [o1 E1].
      { apply Forall_forall. intros i Hi. apply in_seq in Hi. rewrite map_length, seq_length, L.
        unfold total. split; [|lia].
        assert ((i + 1) * vl <= (i + 1) * 1) by (apply Nat.mul_le_mono_l; exact CR). lia. }
      rewrite E1. cbn [bind]. rewrite GC0, Nat.sub_0_r, RL. cbn [Nat.ltb Nat.leb].
      destruct (random_all_inv _ _ _ _ _ _ E1) as [L1 H1].
      destruct (FIN (dense_part_binary p [] (Some (fun i => tz (dsize p + i)))) oz o1)
        as [out' EO].
      * lia.
      * intros c Hc. apply H1. intros; lia.
      * exact Zt.
      * intros. apply binary_part with (g := 0); auto.
        -- repeat split; constructor.
        -- intros X. discriminate.
      * rewrite EO. cbn [bind]. eexists _, _. reflexivity.
    + unfold backfill_gf128. rewrite GC. cbn [Nat.eqb negb andb draw].
      destruct (random_all_ok vl (msize p) (seq 0 (dsize p)) (map tz (seq 0 (dsize p * vl))) oz) as [o1 E1].
      { apply Forall_forall. intros i Hi. apply in_seq in Hi. rewrite map_length, seq_length, L.
        unfold total. split; [|lia]. apply Nat.mul_le_mono_r. lia. }
      rewrite E1. cbn [bind].
      destruct (random_all_inv _ _ _ _ _ _ E1) as [L1 H1].
      destruct (FIN (dense_part_gf vl p 0 (Some (fun i => tz (dsize p * vl + i)))) oz o1)
        as [out' EO].
      * lia.
      * intros c Hc. apply H1. intros; lia.
      * exact Zt.
      * intros. apply gf_part; auto. intros _ X. discriminate.
      * rewrite EO. cbn [bind]. eexists _, _. reflexivity.
  - destruct (kind p) eqn:K.
    + unfold backfill_binary. unfold dense_ok in DO. rewrite K in DO.
      destruct (Nat.ltb_spec 128 (dsize p)); [lia|]. rewrite GC. cbn [Nat.eqb negb andb].
      cbn [bind]. rewrite GC0, Nat.sub_0_r, RL. cbn [Nat.ltb Nat.leb].
      destruct (FIN (dense_part_binary p [] None) oz oz) as [out' EO].
      * exact L.
      * auto.
      * exact Zt.
      * intros. apply binary_part with (g := 0); auto.
        -- repeat split; constructor.
        -- intros X k _ _. apply HZ. right. lia.
      * rewrite EO. cbn [bind]. eexists _, _. reflexivity.
    + unfold backfill_gf128. rewrite GC. cbn [Nat.eqb negb andb bind].
      destruct (FIN (dense_part_gf vl p 0 None) oz oz) as [out' EO].
      * exact L.
      * auto.
      * exact Zt.
      * intros d out2 acc L2 A. unfold dense_part_gf. cbn [Nat.eqb andb].
        unfold dense_sum. rewrite K, xs_0; [rewrite N.lxor_0_r; reflexivity|].
        intros k _. rewrite HZ by (right; lia). apply vmul_0_l.
      * rewrite EO. cbn [bind]. eexists _, _. reflexivity.
Qed.

(** and its output decodes *)
Lemma fill_in_encoded vl p ds o values oz tz o' out t' b :
  good p -> sized p -> done p ds o -> length ds <= length values ->
  gap_cols o = [] -> fc o = [] -> emat o = [] -> gap_rows o = [] ->
  (kind p = gf_128 -> tape_ok tz /\ Forall (fun d => N.lt d (2 ^ 128)) ds
     /\ Forall (fun v => N.lt v (2 ^ (128 * N.of_nat vl))) values) ->
  length oz = total p -> (forall c, In c (tri_cols o) \/ msize p <= c -> nth c oz 0%N = 0%N) ->
  (b = false -> forall c, nth c oz 0%N = 0%N) ->
  fill_in vl p o values oz tz = Some (o', out, t') ->
  encoded vl p ds o values b out.
Proof.
  intros G Sz Dn LV GC0 FC0 EM0 NG HK L HZ HN H. unfold fill_in in H.
  assert (X : dense_ok p /\ outcome vl p ds o values oz out).
  { destruct (kind p) eqn:K.
    - apply (backfill_binary_ok vl p ds o values G Sz Dn LV GC0 FC0) in H; auto.
    - destruct (HK eq_refl) as (H2 & H3 & H4).
      apply (backfill_gf_ok vl p ds o values G Sz Dn LV GC0 FC0 EM0 H3 H4) in H; auto.
      rewrite NG. cbn. lia. }
  destruct X as [DO OC]. constructor.
  - exact DO.
  - apply OC.
  - intros r Hr. apply In_nth with (d := 0) in Hr. destruct Hr as (i & Hi & <-).
    apply (oc_tri _ _ _ _ _ _ _ OC). exact Hi.
  - apply (oc_gap _ _ _ _ _ _ _ OC).
  - intros R c Hc N. rewrite (oc_free _ _ _ _ _ _ _ OC) by assumption. apply HN. exact R.
Qed.

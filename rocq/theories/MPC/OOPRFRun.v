(** The OT-based OPRF: all parts together. *)
From Coq Require Import NArith ZArith List Bool Arith Lia.
From Coq Require Import ZifyBool ZifyNat ZifyN.
From Verif.Base Require Import Words ListX.
From Verif.Crypto Require Import BlockModel AESModel AESKeyProofs PRGModel PRGProofs.
From Verif.Group Require Import ECModel.
From Verif.PKE Require Import ElGamalModel.
From Verif.Net Require Import ChannelModel PartyModel PartyProofs.
From Verif.OKVS Require Import SparseModel MatModel PaxosModel.
From Verif.VOLE Require Import BVProofs.
From Verif.OT Require Import OTModel OTSpec OTProofs OTRun.
From Verif.MPC Require Import OOPRFModel OOPRFSpec OOPRFProofs.
Import ListNotations.

Lemma next_part c i s w b : b = Nat.min (c * s + s) w - c * s -> b <= i -> i < w - c * s -> c * s + i = S c * s + (i - b) /\ i - b < w - S c * s.
Proof. intros -> H1 H2. rewrite Nat.mul_succ_l. revert H1 H2. generalize (c * s). lia. Qed.
Lemma len_part c s w b : b = Nat.min (c * s + s) w - c * s -> c * s < w -> b + (w - S c * s) = w - c * s.
Proof. intros -> H. rewrite Nat.mul_succ_l. revert H. generalize (c * s). lia. Qed.
Lemma map2_maps {A B C D} (f : B -> C -> D) (a : A -> B) (b : A -> C) l : map2 f (map a l) (map b l) = map (fun x => f (a x) (b x)) l.
Proof. induction l as [|x l IH]; cbn [map map2]; [reflexivity|]. rewrite IH. reflexivity. Qed.

Section Parts.
Variable p : params.
Hypothesis OK : proper p.
Local Notation sp := (spn p).
Local Notation W := (WIDTH p).
Local Notation T := (parts p).

Lemma sp0 : 0 < sp. Proof. apply sp_pos, OK. Qed.
Lemma T_covers : W <= T * sp /\ forall c, c < T -> c * sp < W.
Proof.
  pose proof sp0 as S0. unfold parts. pose proof (Nat.div_mod (W + sp - 1) sp ltac:(lia)) as D. pose proof (Nat.mod_upper_bound (W + sp - 1) sp ltac:(lia)) as M.
  set (q := (W + sp - 1) / sp) in *. split; [nia|]. intros c H. nia.
Qed.
Lemma bucket_is c : bucket p sp (c * sp) = Nat.min (c * sp + sp) W - c * sp.
Proof. unfold bucket.  destruct (Nat.ltb_spec (c * sp + sp) W); lia. Qed.
Lemma part_key (salt : list N) c : length salt = W / sp + 2 -> c < T -> rd salt (c * sp / sp + 1) = Some (nth (S c) salt 0%N).
Proof.
  intros L H. pose proof sp0. rewrite Nat.div_mul by lia. replace (c + 1) with (S c) by lia. apply rd_nth. rewrite L.
  assert (c <= W / sp); [|lia]. apply Nat.div_le_lower_bound; [lia|]. destruct T_covers as [_ X]. specialize (X c H). lia.
Qed.

(** the block an item has become before the part c *)
Fixpoint chain (salt : list N) (c : nat) (x : N) : N :=
  match c with O => x | S c => Enc (GenEncKey (nth (S c) salt 0%N)) (chain salt c x) end.
(** the position of an item in the column i *)
Definition place (salt : list N) (i : nat) (x : N) : nat := loc p (i mod sp) (chain salt (S (i / sp)) x).
Lemma place_lt salt i x : place salt i x < HEIGHT p.
Proof. apply loc_lt. Qed.
Lemma place_at salt c i x : i < sp -> place salt (c * sp + i) x = loc p i (chain salt (S c) x).
Proof.
  intros H. pose proof sp0. unfold place. rewrite (Nat.add_comm (c * sp)), Nat.mod_add, Nat.div_add, Nat.mod_small, Nat.div_small by lia. reflexivity.
Qed.

Variable n : nat.
Hypothesis NB : n mod BATCH p = 0.
Hypothesis NH : n <= HEIGHT p.
Variable salt : list N.
Hypothesis LS : length salt = W / sp + 2.
Variable X0 : list N.
Hypothesis LX : length X0 = n.

Definition good_row (M : list N) (i : nat) (v : list N) : Prop :=
  length v = hb p /\ forall k, vb v k = ((k <? n) && vb M (place salt i (nth k X0 0%N)))%bool.

Lemma next_vec c : map (Enc (GenEncKey (nth (S c) salt 0%N))) (map (chain salt c) X0) = map (chain salt (S c)) X0.
Proof. rewrite map_map. apply map_ext. intros x. cbn [chain]. reflexivity. Qed.
Lemma part_rows c rows : c < T -> rows_ok p n rows -> exists rows',
  fill_rows p n (bucket p sp (c * sp)) (map (chain salt (S c)) X0) rows = Some rows' /\ rows_ok p n rows' /\
  forall i j, i < bucket p sp (c * sp) -> j < n -> location p (nth i rows' []) j = Some (place salt (c * sp + i) (nth j X0 0%N)).
Proof.
  intros H R. assert (HB : bucket p sp (c * sp) <= sp) by (rewrite bucket_is; lia).
  destruct (fill_rows_ok p OK n NB NH (bucket p sp (c * sp)) (map (chain salt (S c)) X0) rows) as (rows' & E & R' & L).
  - rewrite map_length. exact LX.
  - exact HB.
  - exact R.
  - exists rows'. split; [exact E|]. split; [exact R'|]. intros i j Hi Hj. rewrite L by assumption. f_equal.
    rewrite place_at by lia. f_equal. apply nth_map'. lia.
Qed.
Lemma part_values (M : nat -> list N) c rows : rows_ok p n rows ->
  (forall i j, i < bucket p sp (c * sp) -> j < n -> location p (nth i rows []) j = Some (place salt (c * sp + i) (nth j X0 0%N))) ->
  (forall i, i < bucket p sp (c * sp) -> hb p <= length (M (c * sp + i))) ->
  exists vs, all_some (fun i => row <- rd rows i ;; mapping p n (M (c * sp + i)) row) (seq 0 (bucket p sp (c * sp))) = Some vs /\
    length vs = bucket p sp (c * sp) /\ forall i, i < bucket p sp (c * sp) -> good_row (M (c * sp + i)) (c * sp + i) (nth i vs []).
Proof.
  intros [LR _] HL HM. assert (HB : bucket p sp (c * sp) <= sp) by (rewrite bucket_is; lia).
  destruct (all_some_ex nat (list N) (fun i => row <- rd rows i ;; mapping p n (M (c * sp + i)) row)
     (fun i v => good_row (M (c * sp + i)) (c * sp + i) v) (seq 0 (bucket p sp (c * sp)))) as (vs & E & F2).
  { intros i Hi. apply in_seq in Hi. rewrite (rd_nth rows i []) by lia. cbn [bind].
    destruct (mapping_ok p OK n NB NH (M (c * sp + i)) (nth i rows []) (fun j => place salt (c * sp + i) (nth j X0 0%N))) as (v & E & L & V).
    - apply HM. lia.
    - intros j Hj. split; [apply HL; lia|apply place_lt].
    - exists v. split; [exact E|]. split; assumption. }
  exists vs. split; [exact E|]. destruct (Forall2_seq_nth _ _ _ _ [] F2) as [L N]. split; assumption.
Qed.

Lemma eval_parts_ok C : length C = W -> (forall i, i < W -> hb p <= length (nth i C [])) -> forall k c rows, c + k = T -> rows_ok p n rows ->
  exists vs, eval_parts p sp n salt C (map (chain salt c) X0) rows (map (fun c => c * sp) (seq c k)) = Some vs /\
    length vs = W - c * sp /\ forall i, i < W - c * sp -> good_row (nth (c * sp + i) C []) (c * sp + i) (nth i vs []).
Proof.
  intros LC HC. induction k as [|k IH]; intros c rows Hc R; cbn [seq map eval_parts].
  - exists []. destruct T_covers as [X _]. replace c with T by lia. split; [reflexivity|]. split; [cbn [length]; lia|]. intros i Hi. lia.
  - destruct T_covers as [_ CW]. specialize (CW c ltac:(lia)).
    rewrite part_key by (assumption || lia). cbn [bind]. rewrite enc_batches_ok by (assumption || (rewrite map_length; exact LX)). cbn [bind].
    rewrite next_vec. destruct (part_rows c rows) as (rows' & E & R' & HL); [lia|exact R|]. rewrite E. cbn [bind].
    pose proof (bucket_is c) as BI.
    destruct (part_values (fun i => nth i C []) c rows' R' HL) as (vs & EV & LV & GV).
    { intros i Hi. apply HC. lia. }
    cbv beta in EV. replace (all_some _ _) with (Some vs).
    2:{ rewrite <- EV. assert (XX : forall l, (forall i, In i l -> i < bucket p sp (c * sp)) ->
          all_some (fun i => row <- rd rows' i ;; mapping p n (nth (c * sp + i) C []) row) l
          = all_some (fun i => row <- rd rows' i ;; M <- rd C (c * sp + i) ;; mapping p n M row) l).
        { induction l as [|i l IHl]; intros Hl; [reflexivity|]. cbn [all_some]. rewrite IHl by (intros; apply Hl; right; assumption).
          rewrite (rd_nth C _ []); [reflexivity|]. specialize (Hl i (or_introl eq_refl)). lia. }
        apply XX. intros i Hi. apply in_seq in Hi. lia. }
    cbn [bind]. destruct (IH (S c) rows' ltac:(lia) R') as (rest & ER & LR & GR). rewrite ER. cbn [bind].
    exists (vs ++ rest). split; [reflexivity|]. split; [rewrite app_length, LV, LR; apply len_part; assumption|]. intros i Hi.
    destruct (Nat.lt_ge_cases i (bucket p sp (c * sp))) as [H|H].
    + rewrite app_nth1 by lia. apply GV, H.
    + rewrite app_nth2 by lia. rewrite LV. destruct (next_part c i sp W _ BI H Hi) as [Q1 Q2]. rewrite Q1. apply GR, Q2.
Qed.
End Parts.

Lemma vb_xor a b k : k / 8 < length a -> k / 8 < length b -> vb (map2 N.lxor a b) k = xorb (vb a k) (vb b k).
Proof. intros A B. unfold vb. rewrite (map2_nth _ _ _ _ 0%N 0%N) by assumption. apply N.lxor_spec. Qed.
Lemma flat_slice {A} (f : nat -> list A) h k i : (forall j, j < k -> length (f j) = h) -> i < k ->
  firstn h (skipn (i * h) (flat_map f (seq 0 k))) = f i.
Proof.
  intros H Hi. replace k with (i + S (k - i - 1)) by lia. rewrite seq_app, flat_map_app.
  rewrite skipn_app_exact' by (symmetry; apply flat_length; intros; apply H; lia). cbn [seq flat_map Nat.add].
  apply firstn_app_exact'. symmetry. apply H. exact Hi.
Qed.
Lemma expand_length k m : length (expand k m) = m.
Proof. apply GenRandomBytes_length. reflexivity. Qed.

Section Protocol.
Variable G : ECGroup.
Variable p : params.
Hypothesis OK : proper p.
Local Notation sp := (spn p).
Local Notation W := (WIDTH p).
Local Notation T := (parts p).
Variable n : nat.
Hypothesis NB : n mod BATCH p = 0.
Hypothesis NH : n <= HEIGHT p.
Variable salt : list N.
Hypothesis LS : length salt = W / sp + 2.
Variable X0 : list N.
Hypothesis LX : length X0 = n.
Variables bits K0 K1 : list N.
Hypothesis LB : length bits = W.
Hypothesis L0 : length K0 = W.
Hypothesis L1 : length K1 = W.

Definition A_row (i : nat) : list N := expand (nth i K0 0%N) (hb p).
(** the key agrees with the client's matrix at the positions of its items *)
Definition key_row (i : nat) (r : list N) : Prop :=
  length r = hb p /\ (forall j, j < n -> vb r (place p salt i (nth j X0 0%N)) = vb (A_row i) (place p salt i (nth j X0 0%N))) /\
  (nth i bits 0%N = 0%N -> r = A_row i).

Lemma parts_end : forall k c rows, c + k = T -> rows_ok p n rows ->
  exists vs C, ends (client_parts G p sp n salt K0 K1 (map (chain salt c) X0) rows (map (fun c => c * sp) (seq c k)))
                    (server_parts G p sp (combine bits (chosen bits K0 K1)) (map (fun c => c * sp) (seq c k))) vs C /\
    length vs = W - c * sp /\ length C = W - c * sp /\
    forall i, i < W - c * sp -> good_row p n salt X0 (A_row (c * sp + i)) (c * sp + i) (nth i vs []) /\ key_row (c * sp + i) (nth i C []).
Proof.
  assert (LCH : length (chosen bits K0 K1) = W) by (apply chosen_length; assumption).
  induction k as [|k IH]; intros c rows Hc R; cbn [seq map client_parts server_parts].
  - exists [], []. destruct (T_covers p OK) as [X _].  replace c with T by lia. split; [apply ends_ret|].
    split; [cbn [length]; lia|]. split; [cbn [length]; lia|]. intros i Hi. lia.
  - destruct (T_covers p OK) as [_ CW]. specialize (CW c ltac:(lia)). 
    pose proof (bucket_is p c) as BI. 
    rewrite (part_key p OK salt c LS) by lia. cbn [bind].
    rewrite enc_batches_ok by (assumption || (rewrite map_length; exact LX)). cbn [local]. rewrite next_vec.
    destruct (part_rows p OK n NB NH salt LS X0 LX c rows) as (rows' & E & R' & HL); [lia|exact R|].  rewrite E. cbn [local].
    set (bk := bucket p sp (c * sp)) in *.
    destruct (all_some_ex nat (list N) (fun i => row <- rd rows' i ;; matrix_D p n row)
       (fun i D => length D = hb p /\ forall j, j < n -> vb D (place p salt (c * sp + i) (nth j X0 0%N)) = false) (seq 0 bk)) as (D & ED & FD).
    { intros i Hi. apply in_seq in Hi. destruct R' as [LR _]. rewrite (rd_nth rows' i []) by lia. cbn [bind].
      apply (matrix_D_ok p OK n NB NH). intros j Hj. split; [apply HL; lia|apply place_lt]. }
    rewrite ED. cbn [local]. destruct (Forall2_seq_nth _ _ _ _ [] FD) as [LD ND].
    set (crow := fun i => client_row p (nth (c * sp + i) K0 0%N) (nth (c * sp + i) K1 0%N) (nth i D [])).
    assert (LCR : forall i, i < bk -> length (crow i) = hb p).
    { intros i Hi. unfold crow, client_row. rewrite !map2_length, !expand_length, (proj1 (ND i Hi)). lia. }
    destruct (part_values p OK n NB NH salt LS X0 LX A_row c rows') as (vs & EV & LV & GV).
    + exact R'.
    + exact HL.
    + intros i Hi. unfold A_row. rewrite expand_length. lia.
    + fold bk in EV, LV, GV. unfold A_row in EV. rewrite EV. cbn [local].
      destruct (IH (S c) rows' ltac:(lia) R') as (rest & CR & ER & LR & LCr & GR).
      eexists (vs ++ rest), (_ ++ CR). split; [|split; [|split]].
      * apply ab_bytes; [apply flat_length; intros; apply LCR; lia|]. cbv beta zeta.
        eapply ends_bind; [exact ER|]. cbv beta. apply ends_ret.
      * rewrite app_length, LV, LR. apply len_part; assumption.
      * rewrite app_length, map_length, seq_length, LCr. apply len_part; assumption.
      * intros i Hi. destruct (Nat.lt_ge_cases i bk) as [H|H].
        -- rewrite !app_nth1 by (rewrite ?map_length, ?seq_length; lia). split; [apply GV, H|].
           rewrite (nth_map' _ _ _ 0) by (rewrite seq_length; lia). rewrite seq_nth by lia. cbn [Nat.add].
           unfold server_row. rewrite combine_nth by lia. cbn [fst snd]. rewrite chosen_nth by (rewrite ?LB; (assumption || lia)).
           fold crow. rewrite (flat_slice crow (hb p) bk i LCR H).
           destruct (ND i H) as [LDi VD]. destruct (N.eqb_spec (nth (c * sp + i) bits 0%N) 0) as [Z|Z].
           ++ split; [apply expand_length|]. split; reflexivity.
           ++ split; [rewrite map2_length, expand_length, LCR by lia; lia|]. split; [|intros Z'; destruct (Z Z')]. intros j Hj.
              assert (P8 : place p salt (c * sp + i) (nth j X0 0%N) / 8 < hb p) by (apply div8; [exact OK|apply place_lt]).
              unfold crow, client_row. rewrite !vb_xor by (rewrite ?map2_length, ?expand_length, ?LDi; lia).
              rewrite VD by exact Hj. unfold A_row. destruct (vb (expand (nth (c * sp + i) K1 0%N) (hb p)) _), (vb (expand (nth (c * sp + i) K0 0%N) (hb p)) _); reflexivity.
        -- rewrite (app_nth2 vs) by lia. rewrite (app_nth2 _ CR) by (rewrite map_length, seq_length; lia). rewrite map_length, seq_length, LV.
           destruct (next_part c i sp W bk BI H Hi) as [Q1 Q2]. rewrite Q1. apply GR, Q2.
Qed.
End Protocol.

(** ** Packing *)
Section Pack.
Variable hash : list N -> list N.
Variable p : params.
Hypothesis OK : proper p.

Definition packed (f : nat -> bool) : list N :=
  match fold_opt (fun row i => or_bit row i (f i)) (repeat 0%N ((WIDTH p + 7) / 8)) (seq 0 (WIDTH p)) with Some r => r | None => [] end.
Lemma packed_some f : fold_opt (fun row i => or_bit row i (f i)) (repeat 0%N ((WIDTH p + 7) / 8)) (seq 0 (WIDTH p)) = Some (packed f) /\
  length (packed f) = (WIDTH p + 7) / 8 /\ forall i, vb (packed f) i = ((i <? WIDTH p) && f i)%bool.
Proof.
  unfold packed. destruct (fold_seq (fun row i => or_bit row i (f i))
    (fun i row => length row = (WIDTH p + 7) / 8 /\ forall k, vb row k = ((k <? i) && f k)%bool) (WIDTH p) 0 (repeat 0%N ((WIDTH p + 7) / 8))) as (r & E & L & V).
  - intros i row Hi [L V]. destruct (or_bit_ok row i (f i)) as (r & E & L' & V').
    + rewrite L. apply Nat.div_lt_upper_bound; [lia|]. pose proof (Nat.div_mod (WIDTH p + 7) 8 ltac:(lia)). pose proof (Nat.mod_upper_bound (WIDTH p + 7) 8 ltac:(lia)). lia.
    + exists r. split; [exact E|]. split; [lia|]. intros k. rewrite V', V. destruct (Nat.eqb_spec i k) as [->|H1].
      * replace (k <? k) with false by lia. replace (k <? S k) with true by lia. reflexivity.
      * cbn [andb]. rewrite orb_false_r. f_equal. lia.
  - split; [apply repeat_length|]. intros k. rewrite vb_repeat0. reflexivity.
  - rewrite E. auto.
Qed.
Lemma fold_ext {A S} (f g : S -> A -> option S) l : (forall s a, In a l -> f s a = g s a) -> forall s, fold_opt f s l = fold_opt g s l.
Proof.
  induction l as [|a l IH]; intros H s; cbn [fold_opt]; [reflexivity|]. rewrite H by (left; reflexivity). destruct (g s a); [|reflexivity].
  cbn [bind]. apply IH. intros; apply H; right; assumption.
Qed.
Lemma packed_ext f f' : (forall i, i < WIDTH p -> f i = f' i) -> packed f = packed f'.
Proof.
  intros H. unfold packed. rewrite (fold_ext _ (fun row i => or_bit row i (f' i))); [reflexivity|]. intros s i Hi. apply in_seq in Hi. rewrite H by lia. reflexivity.
Qed.
(** the value whose bits are f *)
Definition digest (f : nat -> bool) : list N := firstn (RANGE p) (hash (packed f)).
Lemma digest_ext f f' : (forall i, i < WIDTH p -> f i = f' i) -> digest f = digest f'.
Proof. intros H. unfold digest. rewrite (packed_ext f f' H). reflexivity. Qed.
Lemma Packing_ok values : length values = WIDTH p -> (forall i, i < WIDTH p -> length (nth i values []) = hb p) ->
  Packing hash p values = Some (map (fun j => digest (fun i => vb (nth i values []) j)) (seq 0 (HEIGHT p))).
Proof.
  intros L H. destruct OK as (_ & _ & M & R). unfold Packing. rewrite M. replace (RANGE p <=? 32) with true by lia. cbn [Nat.eqb andb].
  apply all_some_nth. intros j Hj. apply in_seq in Hj. unfold pack_row.
  rewrite (fold_ext _ (fun row i => or_bit row i (vb (nth i values []) j))).
  - rewrite (proj1 (packed_some (fun i => vb (nth i values []) j))). reflexivity.
  - intros row i Hi. apply in_seq in Hi. rewrite (rd_nth values i []) by lia. cbn [bind]. rewrite get_bit_ok; [reflexivity|].
    rewrite H by lia. apply div8; [exact OK|lia].
Qed.

(** the value of an item under the matrix M *)
Definition encode1 (k0 x : N) : N :=
  N.lxor (Enc (GenEncKey k0) (le_val (firstn 16 (hash (le_bytes 16 x))))) (le_val (firstn 16 (skipn 16 (hash (le_bytes 16 x))))).
Lemma Encode_map X k0 : Encode hash X k0 = map (encode1 k0) X.
Proof. unfold Encode. rewrite FastECB_map, !map_map, map2_maps. apply map_ext. intros x. unfold encode1. cbv beta. reflexivity. Qed.
Definition value (salt : list N) (M : nat -> list N) (x : N) : list N :=
  digest (fun i => vb (M i) (place p salt i (encode1 (nth 0 salt 0%N) x))).
Lemma pack_values salt M X values : length X <= HEIGHT p -> length values = WIDTH p ->
  (forall i, i < WIDTH p -> good_row p (length X) salt (map (encode1 (nth 0 salt 0%N)) X) (M i) i (nth i values [])) ->
  Packing hash p values = Some (filled p (map (value salt M) X) (digest (fun _ => false))).
Proof.
  intros HX L H. rewrite Packing_ok; [|exact L|intros i Hi; apply H, Hi]. f_equal. unfold filled. rewrite map_length.
  replace (HEIGHT p) with (length X + (HEIGHT p - length X)) at 1 by lia. rewrite seq_app, map_app. f_equal.
  - apply list_eq_nth with []; [rewrite !map_length, seq_length; reflexivity|]. intros j Hj. rewrite map_length, seq_length in Hj.
    rewrite (nth_map' _ _ _ 0) by (rewrite seq_length; lia). rewrite seq_nth by lia. cbn [Nat.add].
    rewrite (nth_map' (value salt M) _ _ 0%N) by lia. apply digest_ext. intros i Hi. rewrite (proj2 (H i Hi)).
    replace (j <? length X) with true by lia. cbn [andb]. f_equal. f_equal. apply nth_map'. lia.
  - cbn [Nat.add]. assert (XX : forall k a, length X <= a -> map (fun j => digest (fun i => vb (nth i values []) j)) (seq a k) = repeat (digest (fun _ => false)) k).
    { induction k as [|k IH]; intros a Ha; [reflexivity|]. cbn [seq map repeat]. rewrite IH by lia. f_equal.
      apply digest_ext. intros i Hi. rewrite (proj2 (H i Hi)). replace (a <? length X) with false by lia. reflexivity. }
    apply XX. lia.
Qed.

(** ** The key *)
Definition widen (r : list N) : list N := r ++ repeat 0%N (HEIGHT p - length r).
Lemma key_rows_ok C : length C = WIDTH p -> Forall (fun r => length r = hb p) C -> key_rows p (flatten p C) = Some (map widen C).
Proof.
  intros L F. pose proof (height_hb p OK) as HH.
  assert (LW : forall r, length r = hb p -> length (widen r) = HEIGHT p) by (intros r H; unfold widen; rewrite app_length, repeat_length; lia).
  assert (E : flatten p C = flat_map (fun i => nth i (map widen C) []) (seq 0 (WIDTH p))).
  { unfold flatten. fold widen. clear -L. rewrite <- L. clear L. induction C as [|r C IH]; [reflexivity|].
    cbn [length seq flat_map map nth]. f_equal. rewrite IH, <- seq_shift, !flat_map_concat_map, map_map. reflexivity. }
  assert (LR : forall i, i < WIDTH p -> length (nth i (map widen C) []) = HEIGHT p).
  { intros i Hi. rewrite (nth_map' _ _ _ []) by lia. apply LW. rewrite Forall_forall in F. apply F, nth_In. lia. }
  unfold key_rows. rewrite (all_some_nth _ _ _ (fun i => nth i (map widen C) [])).
  - f_equal. apply list_eq_nth with []; [rewrite !map_length, seq_length; lia|]. intros i Hi. rewrite map_length, seq_length in Hi.
    rewrite (nth_map' _ _ _ 0) by (rewrite seq_length; lia). rewrite seq_nth by lia. reflexivity.
  - intros i Hi. apply in_seq in Hi. rewrite E.
    rewrite (flat_length _ (HEIGHT p)) by (intros; apply LR; lia). replace ((i + 1) * HEIGHT p <=? WIDTH p * HEIGHT p) with true by (symmetry; apply Nat.leb_le; nia).
    f_equal. apply (flat_slice (fun i => nth i (map widen C) []) (HEIGHT p) (WIDTH p) i); [|lia]. intros; apply LR; lia.
Qed.
Lemma vb_widen r k : k / 8 < length r -> vb (widen r) k = vb r k.
Proof. intros H. unfold vb, widen. rewrite app_nth1 by exact H. reflexivity. Qed.
End Pack.

(** ** One evaluation and one run *)
Section Whole.
Variable G : ECGroup.
Variable hash : list N -> list N.
Hypothesis HH : forall s, length (hash s) = 32%nat /\ bytes_ok (hash s).
Variable g : pt G.
Variable p : params.
Hypothesis OK : proper p.
Local Notation sp := (spn p).
Definition seed_ok (s : Seed) : Prop := (counter s < 2 ^ 64)%N.
Definition salt_of (s : Seed) : list N := fst (salts p sp s).
Definition next_seed (s : Seed) : Seed := snd (salts p sp s).
Definition nothing : list N := digest hash p (fun _ => false).

Lemma salt_length s : seed_ok s -> length (salt_of s) = WIDTH p / sp + 2.
Proof. intros H. unfold salt_of, salts. rewrite GenRandomBlocks_spec by exact H. apply stream_length. Qed.
Lemma next_ok s : seed_ok s -> seed_ok (next_seed s).
Proof. intros H. unfold next_seed, salts, seed_ok. rewrite GenRandomBlocks_spec by exact H. cbn [snd counter]. apply wrap_lt. Qed.

Lemma evaluate_ok s C X : seed_ok s -> inputs p X -> length C = WIDTH p -> Forall (fun r => length r = hb p) C ->
  Evaluate hash p s (flatten p C) X (length X) =
  Some (filled p (map (value hash p (salt_of s) (fun i => nth i C [])) X) nothing, next_seed s).
Proof.
  intros HS [XB XH] LC FC. unfold Evaluate. rewrite (key_rows_ok hash p OK C LC FC). cbn [bind]. destruct (split_ok p OK) as (ES & _). rewrite ES. cbn [bind]. 
  pose proof (salt_length s HS) as LS. revert LS. unfold salt_of, next_seed. destruct (salts p sp s) as [salt s'] eqn:E. cbn [fst snd]. intros LS.
  rewrite (rd_nth salt 0 0%N) by (rewrite LS; generalize (WIDTH p / sp); lia). cbn [bind]. rewrite Encode_map.
  destruct (eval_parts_ok p OK (length X) XB XH salt LS (map (encode1 hash (nth 0 salt 0%N)) X) (map_length _ _) (map (widen p) C)) with (k := parts p) (c := 0) (rows := no_rows p sp (length X)) as (vs & EV & LV & GV).
  - rewrite map_length. exact LC.
  - intros i Hi. rewrite (nth_map' _ _ _ []) by lia. unfold widen. rewrite app_length, repeat_length. pose proof (height_hb p OK).
    rewrite Forall_forall in FC. rewrite (FC (nth i C [])) by (apply nth_In; lia). lia.
  - reflexivity.
  - apply no_rows_ok.
  - cbn [chain] in EV. rewrite map_id in EV. unfold lefts. fold (parts p). rewrite EV. cbn [bind]. rewrite Nat.mul_0_l, Nat.sub_0_r in *. cbn [Nat.add] in GV.
    rewrite (pack_values hash p OK salt (fun i => nth i C []) X); [reflexivity|exact XH|exact LV|].
    intros i Hi. destruct (GV i Hi) as [L V]. split; [exact L|]. intros k. rewrite V. f_equal. rewrite (nth_map' _ _ _ []) by lia.
    apply vb_widen. rewrite Forall_forall in FC. rewrite (FC (nth i C [])) by (apply nth_In; lia). apply div8; [exact OK|apply place_lt].
Qed.

(** Both parties hold the same common seed. *)
Lemma oprf_run s Y : seed_ok s -> inputs p Y -> exists C, length C = WIDTH p /\ Forall (fun r => length r = hb p) C /\
  (forall d r sk, ends (Client G hash g p s d r Y (length Y)) (Server G hash g p sk)
    (filled p (map (value hash p (salt_of s) (A_row p (client_K0 p))) Y) nothing, next_seed s) (flatten p C)) /\
  (forall i, i < WIDTH p -> nth i (server_bits p) 0%N = 0%N -> nth i C [] = A_row p (client_K0 p) i) /\
  forall y, In y Y -> value hash p (salt_of s) (A_row p (client_K0 p)) y = value hash p (salt_of s) (fun i => nth i C []) y.
Proof.
  intros HS [YB YH].
  assert (B0 : blocks (WIDTH p) (client_K0 p) /\ blocks (WIDTH p) (client_K1 p)).
  { unfold client_K0, client_K1. destruct (set_seed_ok 0 (Some fixed_seed) ltac:(reflexivity)) as [C1 K1]; [intros x [= <-]; vm_compute; reflexivity|].
    destruct (draw_spec _ (WIDTH p) C1 K1) as (v & s1 & E & Bv & C2 & K2). rewrite E. cbn [fst snd].
    destruct (draw_spec _ (WIDTH p) C2 K2) as (v2 & s2 & E2 & Bv2 & _). rewrite E2. split; assumption. }
  destruct B0 as [B0 B1].
  assert (BB : bit_vector (WIDTH p) (server_bits p)) by (apply random_bits; reflexivity).
  pose proof (salt_length s HS) as LS.
  destruct (parts_end G p OK (length Y) YB YH (salt_of s) LS (map (encode1 hash (nth 0 (salt_of s) 0%N)) Y) (map_length _ _)
              (server_bits p) (client_K0 p) (client_K1 p) (proj1 BB) (proj1 B0) (proj1 B1) (parts p) 0 (no_rows p sp (length Y)) eq_refl (no_rows_ok p (length Y)))
    as (vs & C & E & LV & LC & GV).
  cbn [chain] in E. rewrite map_id in E. rewrite Nat.mul_0_l, Nat.sub_0_r in *. cbn [Nat.add] in GV.
  exists C. split; [exact LC|]. split.
  { apply Forall_forall. intros r0 Hr. destruct (In_nth _ _ [] Hr) as (i & Hi & <-). apply (GV i). lia. }
  split; [|split].
  - intros d r sk. unfold Client, Server. eapply ends_bind; [apply (np_correct G hash HH); [exact B0|exact B1|exact BB]|]. cbv beta.
    destruct (split_ok p OK) as (ES & _). rewrite ES. cbn [local]. 
    clear - OK LS E LV GV YH. revert LS E GV. unfold salt_of, next_seed. destruct (salts p sp s) as [salt s'] eqn:EQ. cbn [fst snd]. intros LS E GV.
    rewrite (rd_nth salt 0 0%N) by (rewrite LS; generalize (WIDTH p / sp); lia). cbn [local]. rewrite Encode_map.
    eapply ends_bind; [exact E|]. cbv beta.
    rewrite (pack_values hash p OK salt (A_row p (client_K0 p)) Y); [|exact YH|exact LV|].
    + cbn [local]. apply ends_ret.
    + intros i Hi. apply GV, Hi.
  - intros i Hi. apply (GV i Hi).
  - intros y Hy. destruct (In_nth _ _ 0%N Hy) as (j & Hj & <-). apply digest_ext. intros i Hi. destruct (GV i Hi) as [_ [_ [KV _]]].
    specialize (KV j Hj). rewrite (nth_map' _ _ _ 0%N) in KV by exact Hj. symmetry. exact KV.
Qed.
End Whole.

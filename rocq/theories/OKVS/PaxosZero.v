(** Encoding zero values without a generator gives the zero vector. *)
From Coq Require Import NArith List Bool Lia Arith.
From Coq Require Import ZifyBool ZifyNat ZifyN.
From Verif Require Import Base.Words Base.ListX OKVS.GFModel OKVS.GFProofs OKVS.DivModel OKVS.MatModel OKVS.SparseModel OKVS.PaxosModel
  OKVS.PaxosSpec OKVS.PaxosSet OKVS.BaxosModel OKVS.BaxosLists.
Import ListNotations.

Definition zeros (l : list N) : Prop := Forall (fun x => x = 0%N) l.

Lemma zeros_repeat n : zeros (repeat 0%N n).
Proof. unfold zeros. induction n; constructor; auto. Qed.
Lemma zeros_is l : zeros l -> l = repeat 0%N (length l).
Proof. induction 1 as [|x l H F IH]; [reflexivity|]. cbn [length repeat]. rewrite <- IH, H. reflexivity. Qed.
Lemma rd_zero l i v : zeros l -> rd l i = Some v -> v = 0%N.
Proof. intros Z H. apply nth_error_In in H. unfold zeros in Z. rewrite Forall_forall in Z. auto. Qed.
Lemma wr_zero l i l' : zeros l -> wr l i 0%N = Some l' -> zeros l'.
Proof.
  unfold wr. intros Z H. destruct (i <? length l); [|discriminate]. injection H as <-.
  apply Forall_upd; auto.
Qed.

Section Zero.
Variable vl : nat.
Lemma vmul_0 : forall k d, vmul k 0 d = 0%N.
Proof. induction k as [|k IH]; intros d; [reflexivity|]. cbn [vmul]. rewrite N.shiftr_0_l, IH, N.mod_0_l by discriminate. rewrite gf_0_l. reflexivity. Qed.
Lemma add_cols_0 out : zeros out -> forall cols v, add_cols out cols 0 = Some v -> v = 0%N.
Proof.
  intros Z. induction cols as [|c cols IH]; intros v H; cbn [add_cols] in H; [congruence|].
  destruct (rd out c) as [x|] eqn:E; [|discriminate]. cbn [bind] in H. rewrite (rd_zero _ _ _ Z E) in H. apply IH, H.
Qed.
Lemma add_bits_0 out : zeros out -> forall bit m cols v, add_bits bit m out cols 0 = Some v -> v = 0%N.
Proof.
  intros Z bit m. induction cols as [|c cols IH]; intros v H; cbn [add_bits] in H; [congruence|].
  destruct (rd out (m + c)) as [x|] eqn:E; [|discriminate]. cbn [bind] in H. rewrite (rd_zero _ _ _ Z E) in H.
  apply IH. destruct (bit c); exact H.
Qed.
Lemma add_powers_0 out : zeros out -> forall m ds j v, add_powers vl m out j ds 0 = Some v -> v = 0%N.
Proof.
  intros Z m. induction ds as [|d ds IH]; intros j v H; cbn [add_powers] in H; [congruence|].
  destruct (rd out (m + j)) as [x|] eqn:E; [|discriminate]. cbn [bind] in H. rewrite (rd_zero _ _ _ Z E), vmul_0 in H.
  apply (IH _ _ H).
Qed.
Lemma add_all_0 values : zeros values -> forall l v, add_all values l 0 = Some v -> v = 0%N.
Proof.
  intros Z. induction l as [|c l IH]; intros v H; cbn [add_all] in H; [congruence|].
  destruct (rd values c) as [x|] eqn:E; [|discriminate]. cbn [bind] in H. rewrite (rd_zero _ _ _ Z E) in H. apply IH, H.
Qed.
Lemma gap_value_0 o fc values i v : zeros values -> gap_value o fc values i = Some v -> v = 0%N.
Proof.
  intros Z H. unfold gap_value in H. destruct (rd (gap_rows o) i) as [r|]; [|discriminate]. cbn [bind] in H.
  destruct (rd values r) as [x|] eqn:E; [|discriminate]. cbn [bind] in H. rewrite (rd_zero _ _ _ Z E) in H.
  apply (add_all_0 _ Z _ _ H).
Qed.
Lemma all_some_0 (f : nat -> option N) : (forall i v, f i = Some v -> v = 0%N) -> forall l vs, all_some (map f l) = Some vs -> zeros vs.
Proof.
  intros Hf. induction l as [|i l IH]; intros vs H; cbn [map all_some] in H; [injection H as <-; constructor|].
  destruct (f i) as [v|] eqn:E; [|discriminate]. cbn [bind] in H. destruct (all_some (map f l)) as [r|]; [|discriminate].
  cbn [bind] in H. injection H as <-. constructor; [exact (Hf i v E)|apply IH; reflexivity].
Qed.
Lemma vsum_0 l : zeros l -> vsum l = 0%N.
Proof. induction 1 as [|x l H F IH]; [reflexivity|]. cbn [vsum fold_right]. fold (vsum l). rewrite IH, H. reflexivity. Qed.
Lemma map2_0 (f : N -> N -> N) : (forall e, f e 0%N = 0%N) -> forall r vs, zeros vs -> zeros (map2 f r vs).
Proof.
  intros H. induction r as [|e r IH]; intros [|v vs] Z; cbn [map2]; try constructor.
  - inversion Z as [|? ? A B]. subst. apply H.
  - apply IH. inversion Z. assumption.
Qed.
Lemma times_bits_0 E vs : zeros vs -> zeros (times_bits E vs).
Proof.
  intros Z. unfold times_bits. apply Forall_forall. intros x I. apply in_map_iff in I. destruct I as (r & <- & _).
  apply vsum_0, map2_0; [|exact Z]. intros e. destruct (e =? 0)%N; reflexivity.
Qed.
Lemma times_gf_0 E vs : zeros vs -> zeros (times_gf vl E vs).
Proof.
  intros Z. unfold times_gf. apply Forall_forall. intros x I. apply in_map_iff in I. destruct I as (r & <- & _).
  apply vsum_0, map2_0; [|exact Z]. intros e. apply vmul_0.
Qed.
Lemma add_outputs_0 m : forall cs vs out out', zeros vs -> zeros out -> add_outputs m cs vs out = Some out' -> zeros out'.
Proof.
  induction cs as [|c cs IH]; intros [|v vs] out out' ZV Z H; cbn [add_outputs] in H; try (injection H as <-; exact Z).
  destruct (rd out (m + c)) as [x|] eqn:E; [|discriminate]. cbn [bind] in H. rewrite (rd_zero _ _ _ Z E) in H.
  inversion ZV as [|? ? A B]. subst v. change (N.lxor 0 0) with 0%N in H.
  destruct (wr out (m + c) 0%N) as [o|] eqn:W; [|discriminate]. cbn [bind] in H.
  apply (IH vs o out' B (wr_zero _ _ _ Z W) H).
Qed.
Lemma triangle_0 o part values : zeros values -> (forall d out v, zeros out -> part d out 0%N = Some v -> v = 0%N) ->
  forall iter out out', zeros out -> triangle o part values iter out = Some out' -> zeros out'.
Proof.
  intros ZV HP. induction iter as [|iter IH]; intros out out' Z H; cbn [triangle] in H; [injection H as <-; exact Z|].
  destruct (rd (tri_rows o) iter) as [row|]; [|discriminate]. cbn [bind] in H.
  destruct (rd (tri_cols o) iter) as [col|]; [|discriminate]. cbn [bind] in H.
  destruct (rd values row) as [v|] eqn:EV; [|discriminate]. cbn [bind] in H. rewrite (rd_zero _ _ _ ZV EV) in H.
  destruct (rd (rows o) row) as [cols|]; [|discriminate]. cbn [bind] in H.
  destruct (add_cols out cols 0) as [w|] eqn:EC; [|discriminate]. cbn [bind] in H. rewrite (add_cols_0 _ Z _ _ EC) in H.
  destruct (rd (dense o) row) as [d|]; [|discriminate]. cbn [bind] in H.
  destruct (part d out 0%N) as [y|] eqn:EP; [|discriminate]. cbn [bind] in H. rewrite (HP _ _ _ Z EP) in H.
  destruct (wr out col 0%N) as [o1|] eqn:W; [|discriminate]. cbn [bind] in H.
  apply (IH o1 out' (wr_zero _ _ _ Z W) H).
Qed.

Lemma solve_binary_0 p o g values out gc fc E out' t' : zeros values -> zeros out ->
  solve_binary vl p o g values out None = Some (gc, fc, E, out', t') -> zeros out' /\ t' = None.
Proof.
  intros ZV Z H. unfold solve_binary in H. destruct (_ <? _); [discriminate|].
  destruct (get_FC_1 p o g) as [fc0|]; [|discriminate]. cbn [bind] in H.
  destruct (all_some _) as [erow|]; [|discriminate]. cbn [bind] in H.
  destruct (find_combination p erow) as [[gc0 E0]|]; [|discriminate]. cbn [bind] in H.
  destruct (all_some (map (gap_value o fc0 values) (seq 0 g))) as [vs|] eqn:EV; [|discriminate]. cbn [bind] in H.
  destruct (add_outputs _ _ _ out) as [o2|] eqn:EO; [|discriminate]. cbn [bind] in H.
  split; [|congruence]. apply add_outputs_0 in EO; [congruence| |exact Z].
  apply times_bits_0. apply (all_some_0 (gap_value o fc0 values)) in EV; [exact EV|]. intros i v. apply gap_value_0, ZV.
Qed.
Lemma solve_gf_0 p o g values out fc E out' t' : zeros values -> zeros out ->
  solve_gf vl p o g values out None = Some (fc, E, out', t') -> zeros out' /\ t' = None.
Proof.
  intros ZV Z H. unfold solve_gf in H. destruct (_ <? _); [discriminate|].
  destruct (get_FC_1 p o g) as [fc0|]; [|discriminate]. cbn [bind] in H. cbv zeta in H.
  destruct (_ <? _); [discriminate|].
  destruct (all_some _) as [top|]; [|discriminate]. cbn [bind] in H.
  destruct (check_invert_gf128 top) as [E0|]; [|discriminate]. cbn [bind] in H.
  destruct (all_some (map (gap_value o fc0 values) (seq 0 g))) as [vs|] eqn:EV; [|discriminate]. cbn [bind] in H.
  destruct (add_outputs _ _ _ out) as [o2|] eqn:EO; [|discriminate]. cbn [bind] in H.
  split; [|congruence]. apply add_outputs_0 in EO; [congruence| |exact Z].
  apply times_gf_0. rewrite app_nil_r. apply (all_some_0 (gap_value o fc0 values)) in EV; [exact EV|]. intros i v. apply gap_value_0, ZV.
Qed.

Lemma encode_into_0 p o values out o' out' t' : zeros values -> zeros out ->
  encode_into vl p o values out None = Some (o', out', t') -> zeros out'.
Proof.
  intros ZV Z H. unfold encode_into in H.
  destruct (if is_nil (tri_rows o) then triangulate p o else Some o) as [o1|]; [|discriminate]. cbn [bind] in H.
  destruct (kind p).
  - unfold backfill_binary in H. destruct (_ <? _); [discriminate|].
    destruct (_ && _).
    + destruct (solve_binary vl p o1 _ values out None) as [[[[[gc fc] E] o2] t2]|] eqn:ES; [|discriminate]. cbn [bind] in H.
      destruct (solve_binary_0 _ _ _ _ _ _ _ _ _ _ ZV Z ES) as [Z2 ->].
      destruct (_ <? _); [discriminate|]. destruct (triangle _ _ _ _ o2) as [o3|] eqn:ET; [|discriminate]. cbn [bind] in H.
      apply triangle_0 in ET; [congruence|exact ZV| |exact Z2]. intros d u v ZU. apply add_bits_0, ZU.
    + cbn [bind] in H. destruct (_ <? _); [discriminate|]. destruct (triangle _ _ _ _ out) as [o3|] eqn:ET; [|discriminate]. cbn [bind] in H.
      apply triangle_0 in ET; [congruence|exact ZV| |exact Z]. intros d u v ZU. apply add_bits_0, ZU.
  - assert (DP : forall g d u v, zeros u -> dense_part_gf vl p g None d u 0 = Some v -> v = 0%N).
    { intros g d u v ZU. unfold dense_part_gf. destruct (_ && _); [congruence|]. apply add_powers_0, ZU. }
    unfold backfill_gf128 in H. destruct (_ && _).
    + destruct (solve_gf vl p o1 _ values out None) as [[[[fc E] o2] t2]|] eqn:ES; [|discriminate]. cbn [bind] in H.
      destruct (solve_gf_0 _ _ _ _ _ _ _ _ _ ZV Z ES) as [Z2 ->].
      destruct (triangle _ _ _ _ o2) as [o3|] eqn:ET; [|discriminate]. cbn [bind] in H.
      apply triangle_0 in ET; [congruence|exact ZV| |exact Z2]. apply DP.
    + cbn [bind] in H. destruct (triangle _ _ _ _ out) as [o3|] eqn:ET; [|discriminate]. cbn [bind] in H.
      apply triangle_0 in ET; [congruence|exact ZV| |exact Z]. apply DP.
Qed.
End Zero.

(** ** Several bins: every cell of the table holds a zero value *)
Definition zero_cell (c : option (N * N)) : Prop := match c with None => True | Some (v, _) => v = 0%N end.
Definition zero_entry (e : entry) : Prop := e_val e = 0%N.

Lemma slice_zero l i n l' : zeros l -> slice l i n = Some l' -> zeros l'.
Proof. intros Z H. apply slice_inv in H. destruct H as (_ & -> & _). apply Forall_forall. intros x I. unfold zeros in Z. rewrite Forall_forall in Z.
  apply Z. rewrite <- (firstn_skipn i l). apply in_or_app. right. rewrite <- (firstn_skipn n (skipn i l)). apply in_or_app. left. exact I. Qed.

Section Bins.
Variable enc : N -> N.
Variable vl : nat.
Variable B : baxos.
Lemma main_loop_0 dv keys values begin len : zeros values -> forall fuel i es j,
  main_loop enc B fuel dv keys values begin len i = Some (es, j) -> Forall zero_entry es.
Proof.
  intros Z. induction fuel as [|fuel IH]; intros i es j H; cbn [main_loop] in H.
  - destruct (_ <=? _)%N; [discriminate|]. injection H as <- <-. constructor.
  - destruct (_ <=? _)%N; [|injection H as <- <-; constructor].
    apply bind_inv in H. destruct H as (ks & _ & H). cbv zeta in H.
    apply bind_inv in H. destruct H as (bs & _ & H). apply bind_inv in H. destruct H as (vs & EV & H).
    apply bind_inv in H. destruct H as ([es0 j0] & E0 & H). cbn [fst snd] in H. injection H as <- <-.
    apply Forall_app. split; [|apply (IH _ _ _ E0)]. apply (slice_zero _ _ _ _ Z) in EV. clear - EV.
    generalize (set_dense enc ks). revert bs. induction EV as [|v vs Hv F IH]; intros bs hs; [destruct bs; constructor|].
    destruct hs as [|h hs]; [destruct bs; constructor|]. destruct bs as [|b bs]; [constructor|].
    cbn [combine map2]. constructor; [exact Hv|apply IH].
Qed.
Lemma thread_entries_0 keys values T t es : zeros values -> thread_entries enc B keys values T t = Some es -> Forall zero_entry es.
Proof.
  intros Z H. unfold thread_entries in H. apply bind_inv in H. destruct H as (dv & _ & H). cbv zeta in H.
  apply bind_inv in H. destruct H as ([e0 j] & E0 & H). apply bind_inv in H. destruct H as (tl & ET & H). cbn [fst snd] in *. injection H as <-.
  apply Forall_app. split; [apply (main_loop_0 _ _ _ _ _ Z _ _ _ _ E0)|].
  revert tl ET. generalize (seq (t_begin (length keys) T t + j) (t_len (length keys) T t - j)). induction l as [|i l IH]; intros tl ET; cbn [map all_some] in ET.
  - injection ET as <-. constructor.
  - apply bind_inv in ET. destruct ET as (e & EE & ET). apply bind_inv in ET. destruct ET as (r & ER & ET). injection ET as <-.
    constructor; [|apply IH, ER]. unfold tail_entry in EE. apply bind_inv in EE. destruct EE as (k & _ & EE). cbv zeta in EE.
    apply bind_inv in EE. destruct EE as (v & EV & EE). injection EE as <-. unfold zero_entry. cbn [e_val]. apply (rd_zero _ _ _ Z EV).
Qed.
Lemma place_0 T t : forall es sizes ws sz, Forall zero_entry es -> place B T t es sizes = Some (ws, sz) -> Forall (fun w => zero_cell (snd w)) ws.
Proof.
  induction es as [|e es IH]; intros sizes ws sz Z H; cbn [place] in H; [injection H as <- <-; constructor|].
  inversion Z as [|? ? A F]. subst. apply bind_inv in H. destruct H as (k & _ & H). apply bind_inv in H. destruct H as (s1 & _ & H).
  destruct (_ && _); [discriminate|]. apply bind_inv in H. destruct H as ([w0 s0] & E0 & H). cbn [fst snd] in H. injection H as <- <-.
  constructor; [exact A|apply (IH _ _ _ F E0)].
Qed.
Lemma interleave_all {A} (P : A -> Prop) : forall sched ws r, Forall (Forall P) ws -> interleave sched ws = Some r -> Forall P r.
Proof.
  induction sched as [|t sched IH]; intros ws r F H; cbn [interleave] in H.
  - destruct (forallb _ ws); [injection H as <-; constructor|discriminate].
  - destruct (nth t ws []) as [|w rest] eqn:E; [discriminate|]. apply bind_inv in H. destruct H as (r0 & E0 & H). injection H as <-.
    assert (FW : Forall P (w :: rest)).
    { rewrite <- E. destruct (Nat.lt_ge_cases t (length ws)) as [L|L]; [rewrite Forall_forall in F; apply F, nth_In, L|].
      rewrite nth_overflow by exact L. constructor. }
    inversion FW as [|? ? A1 A2]. subst. constructor; [exact A1|]. apply (IH _ _ (Forall_upd _ _ _ _ F A2) E0).
Qed.
Lemma apply_writes_all {A} (P : A -> Prop) : forall ws mem m', Forall (fun w => P (snd w)) ws -> Forall P mem ->
  apply_writes ws mem = Some m' -> Forall P m'.
Proof.
  induction ws as [|[a v] ws IH]; intros mem m' FW FM H; cbn [apply_writes] in H; [injection H as <-; exact FM|].
  apply bind_inv in H. destruct H as (m1 & E & H). apply wr_inv in E. destruct E as [_ ->].
  inversion FW as [|? ? A1 A2]. subst. apply (IH (upd mem a v) m' A2); [apply Forall_upd; assumption|exact H].
Qed.
Lemma move_cells_0 : forall n src dst pos tab pos' tab', Forall zero_cell tab -> move_cells B n src dst pos tab = Some (pos', tab') -> Forall zero_cell tab'.
Proof.
  induction n as [|n IH]; intros src dst pos tab pos' tab' F H; cbn [move_cells] in H; [injection H as <- <-; exact F|].
  apply bind_inv in H. destruct H as (c & EC & H). apply bind_inv in H. destruct H as (t1 & E & H). apply wr_inv in E. destruct E as [_ ->].
  apply nth_error_In in EC. rewrite Forall_forall in F. assert (ZC := F c EC). rewrite <- Forall_forall in F.
  apply (IH _ _ _ _ _ _ (Forall_upd _ _ _ _ F ZC) H).
Qed.
Lemma gather_0 sizes T b : forall ts pos tab tab', Forall zero_cell tab -> gather B ts sizes T b pos tab = Some tab' -> Forall zero_cell tab'.
Proof.
  induction ts as [|t ts IH]; intros pos tab tab' F H; cbn [gather] in H; [injection H as <-; exact F|].
  apply bind_inv in H. destruct H as (n & _ & H). apply bind_inv in H. destruct H as ([p1 t1] & E & H). cbn [fst snd] in H.
  apply (IH _ _ _ (move_cells_0 _ _ _ _ _ _ _ F E) H).
Qed.
Lemma splice_zero l i v l' : zeros l -> zeros v -> splice l i v = Some l' -> zeros l'.
Proof.
  unfold splice. intros Z ZV H. destruct (_ <=? _); [|discriminate]. injection H as <-.
  apply Forall_app. split; [|apply Forall_app; split; [exact ZV|]].
  - rewrite <- (firstn_skipn i l) in Z. apply Forall_app in Z. apply Z.
  - rewrite <- (firstn_skipn (i + length v) l) in Z. apply Forall_app in Z. apply Z.
Qed.
Lemma bin_step_0 sizes T b tab out tab' out' : Forall zero_cell tab -> zeros out ->
  bin_step vl B sizes T b None (tab, out) = Some (tab', out') -> Forall zero_cell tab' /\ zeros out'.
Proof.
  intros F Z H. unfold bin_step in H. apply bind_inv in H. destruct H as (ns & _ & H). cbv zeta in H.
  destruct (_ <? _); [discriminate|]. apply bind_inv in H. destruct H as (n0 & _ & H).
  apply bind_inv in H. destruct H as (t1 & EG & H). apply gather_0 in EG; [|exact F].
  apply bind_inv in H. destruct H as (cells & EC & H). apply bind_inv in H. destruct H as (vh & EV & H).
  apply bind_inv in H. destruct H as (o & _ & H). apply bind_inv in H. destruct H as (mine & EM & H).
  apply bind_inv in H. destruct H as ([[o' v'] t'] & EE & H). cbn [fst snd] in H.
  apply bind_inv in H. destruct H as (o2 & ES & H). injection H as <- <-. split; [exact EG|].
  assert (ZV : zeros (map fst vh)).
  { apply slice_inv in EC. destruct EC as (_ & -> & _). apply BaxosLists.all_some_inv in EV.
    assert (FC : Forall zero_cell (map Some vh)).
    { rewrite <- EV. match goal with |- Forall _ (firstn ?n (skipn ?i ?l)) => rewrite <- (firstn_skipn i l), <- (firstn_skipn n (skipn i l)) in EG end.
      apply Forall_app in EG. destruct EG as [_ EG]. apply Forall_app in EG. apply EG. }
    clear - FC. induction vh as [|[v h] vh IH]; cbn [map] in *; [constructor|]. inversion FC as [|? ? A1 A2]. subst. constructor; [exact A1|apply IH, A2]. }
  apply (splice_zero _ _ _ _ Z) in ES; [exact ES|].
  apply (encode_into_0 vl _ _ _ _ _ _ _ ZV (slice_zero _ _ _ _ Z EM) EE).
Qed.
Lemma bin_steps_0 sizes T : forall bs tab out tab' out', Forall zero_cell tab -> zeros out ->
  bin_steps vl B sizes T (fun _ => None) bs (tab, out) = Some (tab', out') -> zeros out'.
Proof.
  induction bs as [|b bs IH]; intros tab out tab' out' F Z H; cbn [bin_steps] in H; [injection H as <- <-; exact Z|].
  apply bind_inv in H. destruct H as ([t1 o1] & E & H). destruct (bin_step_0 _ _ _ _ _ _ _ F Z E) as [F1 Z1].
  apply (IH _ _ _ _ F1 Z1 H).
Qed.

(** For all keys, numbers of threads and schedules: the encoding of zero values is zero. *)
Lemma solve_0 T sched1 sched2 keys values out out' : zeros values -> zeros out ->
  solve enc vl B T sched1 sched2 (fun _ => None) keys values out = Some out' -> zeros out'.
Proof.
  intros ZV Z H. unfold solve in H. destruct (nbins B =? 1).
  - apply bind_inv in H. destruct H as (ks & _ & H). apply bind_inv in H. destruct H as (o & _ & H).
    apply bind_inv in H. destruct H as ([[o' v'] t'] & E & H). cbn [fst snd] in H. injection H as <-.
    apply (encode_into_0 vl _ _ _ _ _ _ _ ZV (zeros_repeat _) E).
  - destruct (T =? 0); [discriminate|]. apply bind_inv in H. destruct H as (rs & ER & H).
    apply bind_inv in H. destruct H as (ws & EW & H). apply bind_inv in H. destruct H as (tab & ET & H).
    apply bind_inv in H. destruct H as (bs & _ & H). apply bind_inv in H. destruct H as (order & _ & H).
    apply bind_inv in H. destruct H as ([t1 o1] & E & H). cbn [fst snd] in H. injection H as <-.
    apply (bin_steps_0 _ _ _ _ _ _ _) with (3 := E); [|exact Z].
    apply (apply_writes_all zero_cell) with (3 := ET).
    + apply (interleave_all (fun w => zero_cell (snd w))) with (2 := EW).
      apply BaxosLists.all_some_inv in ER. revert ER. generalize (seq 0 T). clear - ZV.
      induction rs as [|[w s] rs IH]; intros l ER; [constructor|]. destruct l as [|t l]; [discriminate|]. cbn [map] in ER.
      injection ER as E0 ER. cbn [map fst]. constructor; [|apply (IH l), ER].
      unfold thread_writes in E0. apply bind_inv in E0. destruct E0 as (es & EE & E0).
      apply (place_0 _ _ _ _ _ _ (thread_entries_0 _ _ _ _ _ ZV EE) E0).
    + clear. apply Forall_forall. intros x J. apply repeat_spec in J. subst x. exact Logic.I.
Qed.
End Bins.

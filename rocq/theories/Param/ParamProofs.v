(** Reading back what was written, field by field. *)
From Coq Require Import NArith ZArith List Bool Arith Lia.
From Coq Require Import ZifyBool ZifyNat ZifyN.
From Verif.Base Require Import Words ListX.
From Verif.Crypto Require Import BlockModel AESModel PRGModel.
From Verif.Group Require Import ECModel.
From Verif.Param Require Import ParamModel.
Import ListNotations.
Local Open Scope N_scope.

Definition digits (l : list N) : Prop := Forall (fun c => is_digit c = true) l.
Lemma digits_val_app : forall a l m, digits_val a (l ++ m) = digits_val (digits_val a l) m.
Proof. intros. apply fold_left_app. Qed.
Lemma digits_val_ge : forall l a, a <= digits_val a l.
Proof.
  induction l as [|d l IH]; intros a; [cbn; lia|]. change (a <= digits_val (10 * a + (d - 48)) l).
  specialize (IH (10 * a + (d - 48))). lia.
Qed.
Lemma digits_val_10 : forall l a, l <> [] -> 10 * a <= digits_val a l.
Proof.
  intros [|d l] a H; [congruence|]. change (10 * a <= digits_val (10 * a + (d - 48)) l).
  pose proof (digits_val_ge l (10 * a + (d - 48))). lia.
Qed.
Lemma dec_aux_spec : forall f x acc, x < 10 ^ N.of_nat f -> f <> 0%nat ->
  exists ds, dec_aux f x acc = ds ++ acc /\ digits ds /\ ds <> [] /\ digits_val 0 ds = x.
Proof.
  induction f as [|f IH]; intros x acc Hx Hf; [congruence|]. cbn [dec_aux].
  pose proof (N.div_mod x 10 ltac:(lia)) as DM. pose proof (N.mod_lt x 10 ltac:(lia)) as ML.
  assert (DG : is_digit (48 + x mod 10) = true) by (unfold is_digit; generalize dependent (x mod 10); intros; lia).
  destruct (x / 10 =? 0) eqn:E.
  - exists [48 + x mod 10]. split; [reflexivity|]. split; [constructor; [exact DG|constructor]|]. split; [discriminate|].
    cbn [digits_val fold_left]. apply N.eqb_eq in E. rewrite E in DM. generalize dependent (x mod 10); intros; lia.
  - apply N.eqb_neq in E. assert (Hf' : f <> 0%nat).
    { intros ->. cbn in Hx. apply E. apply N.div_small. lia. }
    assert (Hx' : x / 10 < 10 ^ N.of_nat f).
    { apply N.div_lt_upper_bound; [lia|]. rewrite <- N.pow_succ_r'. rewrite <- Nat2N.inj_succ. exact Hx. }
    destruct (IH (x / 10) ((48 + x mod 10) :: acc) Hx' Hf') as [ds [A [B [C D]]]].
    exists (ds ++ [48 + x mod 10]). split; [rewrite A, <- app_assoc; reflexivity|]. split; [apply Forall_app; split; [exact B|constructor; [exact DG|constructor]]|].
    split; [intros K; apply app_eq_nil in K; destruct K; discriminate|].
    rewrite digits_val_app, D. cbn [digits_val fold_left]. generalize dependent (x mod 10). generalize (x / 10). intros. lia.
Qed.
Definition u64 (x : N) : Prop := x < 2 ^ 64.
Lemma dec_spec : forall x, u64 x -> digits (dec x) /\ dec x <> [] /\ digits_val 0 (dec x) = x.
Proof.
  intros x H. destruct (dec_aux_spec 20 x [] ltac:(eapply N.lt_trans; [exact H|reflexivity]) ltac:(discriminate)) as [ds [A R]].
  unfold dec. rewrite A, app_nil_r. exact R.
Qed.
Lemma span_all : forall p l r, Forall (fun c => p c = true) l -> span p (l ++ r) = (l ++ fst (span p r), snd (span p r)).
Proof.
  intros p. induction l as [|c l IH]; intros r H; [cbn [app]; apply surjective_pairing|]. inversion H; subst. cbn [app span]. rewrite H2, IH by assumption. reflexivity.
Qed.
Lemma span_stop : forall p c r, p c = false -> span p (c :: r) = ([], c :: r).
Proof. intros. cbn [span]. rewrite H. reflexivity. Qed.
Lemma digit_plain : forall c, is_digit c = true -> is_space c = false /\ (c =? 45) = false /\ (c =? 43) = false.
Proof. intros c H. unfold is_digit, is_space in *. repeat split; lia. Qed.
(** a digit first: nothing is skipped and there is no sign *)
Lemma read_dec_digits : forall old d l, is_digit d = true ->
  read_dec old (mkIfs (d :: l) true) =
  let '(ds, r) := span is_digit (d :: l) in
  if digits_val 0 ds <? 2 ^ 64 then (digits_val 0 ds, mkIfs r (nonempty r)) else (2 ^ 64 - 1, mkIfs r false).
Proof.
  intros old d l H. destruct (digit_plain d H) as [A [B C]]. unfold read_dec. cbn [good left_]. rewrite (span_stop is_space d l A). cbn [snd nonempty sign].
  rewrite B, C. cbn [span]. rewrite H. destruct (span is_digit l) as [a b]. reflexivity.
Qed.
Definition no_digit (r : list N) : Prop := match r with [] => True | c :: _ => is_digit c = false end.
Lemma span_no_digit : forall r, no_digit r -> span is_digit r = ([], r).
Proof. intros [|c r] H; [reflexivity|]. apply span_stop. exact H. Qed.
(** decimal text comes back when no digit follows *)
Lemma read_dec_write : forall old x r, u64 x -> no_digit r -> read_dec old (mkIfs (dec x ++ r) true) = (x, mkIfs r (nonempty r)).
Proof.
  intros old x r Hx Hr. destruct (dec_spec x Hx) as [A [B C]]. destruct (dec x) as [|d l] eqn:E; [congruence|]. cbn [app].
  rewrite read_dec_digits by (inversion A; assumption). change (d :: l ++ r) with ((d :: l) ++ r). rewrite span_all by exact A.
  rewrite (span_no_digit r Hr). cbn [fst snd]. rewrite app_nil_r, C. replace (x <? 2 ^ 64) with true; [reflexivity|]. symmetry. apply N.ltb_lt. exact Hx.
Qed.
(** and is at least ten times as large, or the largest number, when one follows *)
Lemma read_dec_digit : forall old x c r, u64 x -> is_digit c = true ->
  let v := fst (read_dec old (mkIfs (dec x ++ c :: r) true)) in 10 * x <= v \/ v = 2 ^ 64 - 1.
Proof.
  intros old x c r Hx Hc. destruct (dec_spec x Hx) as [A [B C]]. destruct (dec x) as [|d l] eqn:E; [congruence|]. cbn [app].
  rewrite read_dec_digits by (inversion A; assumption). change (d :: l ++ c :: r) with ((d :: l) ++ c :: r). rewrite span_all by exact A.
  cbn [span]. rewrite Hc. destruct (span is_digit r) as [ds rr]. cbn [fst snd]. rewrite digits_val_app, C.
  pose proof (digits_val_10 (c :: ds) x ltac:(discriminate)) as K. destruct (digits_val x (c :: ds) <? 2 ^ 64); cbn [fst]; [left; exact K|right; reflexivity].
Qed.

Lemma fill_write : forall b old r, length b = length old -> fill (length old) old (mkIfs (b ++ r) true) = (b, mkIfs r true).
Proof.
  intros b old r H. unfold fill. cbn [good left_]. rewrite app_length. replace (Nat.min (length old) (length b + length r)) with (length b) by lia.
  rewrite firstn_app, firstn_all, Nat.sub_diag, skipn_app, skipn_all, Nat.sub_diag. cbn [firstn skipn app]. rewrite app_nil_r.
  rewrite (skipn_all2 old) by lia. rewrite app_nil_r. f_equal. f_equal. apply Nat.leb_le. lia.
Qed.
Lemma read_raw_write : forall w old x r, x < 256 ^ N.of_nat w -> read_raw w old (mkIfs (le_bytes w x ++ r) true) = (x, mkIfs r true).
Proof.
  intros w old x r H. unfold read_raw. replace (fill w (le_bytes w old)) with (fill (length (le_bytes w old)) (le_bytes w old)) by (rewrite le_bytes_length; reflexivity).
  rewrite fill_write by (rewrite !le_bytes_length; reflexivity). rewrite le_val_bytes by exact H. reflexivity.
Qed.
Lemma read8_write : forall old x r, u64 x -> read_raw 8 old (mkIfs (le_bytes 8 x ++ r) true) = (x, mkIfs r true).
Proof. intros. apply read_raw_write. exact H. Qed.
Lemma read8_end : forall old x, u64 x -> read_raw 8 old (mkIfs (le_bytes 8 x) true) = (x, mkIfs [] true).
Proof. intros. rewrite <- (app_nil_r (le_bytes 8 x)). apply read8_write. exact H. Qed.

Lemma read_raw_short : forall w old st, good (snd (read_raw w old st)) = true ->
  good st = true /\ length (left_ st) = (w + length (left_ (snd (read_raw w old st))))%nat.
Proof.
  intros w old st H. unfold read_raw, fill in *. destruct (good st) eqn:E; [|cbn [snd] in H; congruence]. cbn [snd good left_] in *. split; [reflexivity|].
  apply Nat.leb_le in H. rewrite skipn_length. lia.
Qed.
Lemma blocks_read_short : forall old st, good (snd (blocks_read old st)) = true ->
  good st = true /\ length (left_ st) = (length old * 16 + length (left_ (snd (blocks_read old st))))%nat.
Proof.
  induction old as [|o old IH]; intros st H; [split; [exact H|reflexivity]|]. cbn [blocks_read] in *. pose proof (read_raw_short 16 o st) as R.
  destruct (read_raw 16 o st) as [b st1]. specialize (IH st1). destruct (blocks_read old st1) as [l st2]. cbn [snd] in *.
  destruct (IH H) as [G1 E1]. destruct (R G1) as [G2 E2]. split; [exact G2|]. cbn [length]. lia.
Qed.
Lemma blocks_write_length : forall v, length (blocks_write v) = (length v * 16)%nat.
Proof. induction v as [|b v IH]; [reflexivity|]. cbn [blocks_write length]. rewrite app_length, le_bytes_length, IH. lia. Qed.
Lemma span_length : forall p s, (length (snd (span p s)) <= length s)%nat.
Proof.
  intros p. induction s as [|c s IH]; [apply le_n|]. cbn [span]. destruct (p c); [|apply le_n]. destruct (span p s). cbn [snd length] in *. lia.
Qed.

Section P.
Variable G : ECGroup.
Variable garbage : list N.
Hypothesis Hgb : length garbage = 65%nat.
Lemma get_point_write : forall old P r, P <> inf G -> get_point G garbage old (mkIfs (write_point G garbage P ++ r) true) = (P, mkIfs r true).
Proof.
  intros old P r H. unfold get_point, write_point. destruct (peqb_spec G P (inf G)); [contradiction|].
  rewrite <- Hgb at 1. rewrite fill_write by (rewrite (unc65_length G), Hgb; reflexivity). rewrite oct65_unc65 by exact H. reflexivity.
Qed.
End P.
Lemma blocks_write_read : forall v old r, length old = length v -> Forall (fun b => b < 2 ^ 128) v ->
  blocks_read old (mkIfs (blocks_write v ++ r) true) = (v, mkIfs r true).
Proof.
  induction v as [|b v IH]; intros [|o old] r L F; try discriminate; [reflexivity|]. inversion F; subst. cbn [blocks_read blocks_write].
  rewrite <- app_assoc, read_raw_write by assumption. rewrite IH; [reflexivity|cbn [length] in L; lia|assumption].
Qed.
Lemma sizes_write_read : forall v old r, length old = length v -> Forall u64 v ->
  sizes_read old (mkIfs (sizes_write v ++ r) true) = (v, mkIfs r true).
Proof.
  induction v as [|b v IH]; intros [|o old] r L F; try discriminate; [reflexivity|]. inversion F; subst. cbn [sizes_read sizes_write].
  rewrite <- app_assoc, read8_write by assumption. rewrite IH; [reflexivity|cbn [length] in L; lia|assumption].
Qed.

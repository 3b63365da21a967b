(** What a list of file operations leaves when it is cut short. *)
From Coq Require Import NArith ZArith List Lia Bool Arith.
From Coq Require Import ZifyBool ZifyNat ZifyN.
From Verif.Base Require Import Words ListX.
From Verif.ADCP Require Import DiskModel.
Import ListNotations.

Lemma put_same : forall d f c, put d f c f = Some c.
Proof. intros d f c. unfold put. destruct (list_eq_dec N.eq_dec f f); [reflexivity|congruence]. Qed.
Lemma put_other : forall d f c g, g <> f -> put d f c g = d g.
Proof. intros d f c g N. unfold put. destruct (list_eq_dec N.eq_dec g f); [contradiction|reflexivity]. Qed.
Lemma run_app : forall d a b, run d (a ++ b) = run (run d a) b.
Proof. intros. apply fold_left_app. Qed.
Lemma run_appends : forall l d f c, d f = Some c ->
  run d (map (Append f) l) f = Some (c ++ l) /\ forall g, g <> f -> run d (map (Append f) l) g = d g.
Proof.
  induction l as [|b l IH]; intros d f c E; [cbn [map]; rewrite app_nil_r; split; [exact E|reflexivity]|].
  cbn [map]. change (run d (Append f b :: map (Append f) l)) with (run (exec d (Append f b)) (map (Append f) l)).
  cbn [exec]. rewrite E. destruct (IH (put d f (c ++ [b])) f (c ++ [b]) (put_same _ _ _)) as [A B]. split.
  - rewrite A, <- app_assoc. reflexivity.
  - intros g N. rewrite B by exact N. apply put_other. exact N.
Qed.
(** a file that is being saved: untouched, or a prefix *)
Lemma crash_save : forall d f b k,
  crash d (save_ops f b) k f = match k with O => d f | S k => Some (firstn k b) end /\
  forall g, g <> f -> crash d (save_ops f b) k g = d g.
Proof.
  intros d f b [|k]; [split; reflexivity|]. unfold crash, save_ops. cbn [firstn].
  change (run d (Create f :: ?l)) with (run (put d f []) l).
  assert (E : firstn k (map (Append f) b) = map (Append f) (firstn k b)) by (apply firstn_map). rewrite E.
  destruct (run_appends (firstn k b) (put d f []) f [] (put_same _ _ _)) as [A B]. split.
  - change (run d (Create f :: map (Append f) (firstn k b))) with (run (put d f []) (map (Append f) (firstn k b))). rewrite A. reflexivity.
  - intros g N. change (run d (Create f :: map (Append f) (firstn k b))) with (run (put d f []) (map (Append f) (firstn k b))).
    rewrite B by exact N. apply put_other. exact N.
Qed.
Lemma save_ops_length : forall f b, length (save_ops f b) = S (length b).
Proof. intros. unfold save_ops. cbn [length]. rewrite map_length. reflexivity. Qed.
Lemma run_save : forall d f b, run d (save_ops f b) f = Some b /\ forall g, g <> f -> run d (save_ops f b) g = d g.
Proof.
  intros d f b. destruct (crash_save d f b (length (save_ops f b))) as [A B]. unfold crash in A, B. rewrite firstn_all in A, B.
  rewrite save_ops_length, firstn_all in A. split; [exact A|exact B].
Qed.
Lemma crash_app : forall d a b k, crash d (a ++ b) k = if k <=? length a then crash d a k else crash (run d a) b (k - length a).
Proof.
  intros d a b k. unfold crash. rewrite firstn_app. destruct (Nat.leb_spec k (length a)).
  - replace (k - length a) with 0 by lia. rewrite app_nil_r. reflexivity.
  - rewrite firstn_all2 by lia. apply run_app.
Qed.

(** two saves, one after the other, of different files *)
Definition saved_or_cut (old new : option (list N)) (bytes : list N) : Prop := new = old \/ exists n, new = Some (firstn n bytes).
Lemma crash_cut : forall d f b k, saved_or_cut (d f) (crash d (save_ops f b) k f) b.
Proof. intros d f b k. destruct (crash_save d f b k) as [A _]. destruct k; [left; exact A|right; exists k; exact A]. Qed.

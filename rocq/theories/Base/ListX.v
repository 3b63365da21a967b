(** Array-style operations on lists: in-place element update with bounds. *)
From Coq Require Import List Arith Lia Bool Permutation.
Import ListNotations.

Section Upd.
Context {A : Type}.

(** [a[i] = v]; no effect when [i] is out of bounds (models always test the
    bound separately and make an out-of-bounds access a distinct outcome). *)
Fixpoint upd (l : list A) (i : nat) (v : A) : list A :=
  match l, i with
  | [], _ => []
  | _ :: r, O => v :: r
  | a :: r, S j => a :: upd r j v
  end.

Lemma upd_length : forall l i v, length (upd l i v) = length l.
Proof. induction l; destruct i; simpl; auto. Qed.

Lemma nth_upd_same : forall l i v d, i < length l -> nth i (upd l i v) d = v.
Proof. induction l; destruct i; simpl; intros; try lia; auto. apply IHl. lia. Qed.

Lemma nth_upd_other : forall l i j v d, i <> j -> nth j (upd l i v) d = nth j l d.
Proof.
  induction l; destruct i; destruct j; simpl; intros; try congruence; auto.
Qed.

Lemma nth_error_upd_same : forall l i v, i < length l -> nth_error (upd l i v) i = Some v.
Proof. induction l; destruct i; simpl; intros; try lia; auto. apply IHl. lia. Qed.

Lemma nth_error_upd_other : forall l i j v, i <> j -> nth_error (upd l i v) j = nth_error l j.
Proof. induction l; destruct i; destruct j; simpl; intros; try congruence; auto. Qed.

Lemma upd_comm : forall l i j v w, i <> j -> upd (upd l i v) j w = upd (upd l j w) i v.
Proof.
  induction l; destruct i; destruct j; simpl; intros; try congruence; auto.
  f_equal. apply IHl. congruence.
Qed.

Lemma upd_upd : forall l i v w, upd (upd l i v) i w = upd l i w.
Proof. induction l; destruct i; simpl; intros; auto. f_equal; auto. Qed.

Lemma upd_nth_same : forall l i d, i < length l -> upd l i (nth i l d) = l.
Proof. induction l; destruct i; simpl; intros; try lia; auto. f_equal. apply IHl. lia. Qed.

Lemma upd_oob : forall l i v, length l <= i -> upd l i v = l.
Proof. induction l; destruct i; simpl; intros; try lia; auto. f_equal. apply IHl. lia. Qed.

Lemma upd_app_l : forall l1 l2 i v, i < length l1 -> upd (l1 ++ l2) i v = upd l1 i v ++ l2.
Proof. induction l1; destruct i; simpl; intros; try lia; auto. f_equal. apply IHl1. lia. Qed.

Lemma upd_app_r : forall l1 l2 i v, length l1 <= i ->
  upd (l1 ++ l2) i v = l1 ++ upd l2 (i - length l1) v.
Proof.
  induction l1; simpl; intros.
  - rewrite Nat.sub_0_r. reflexivity.
  - destruct i; [lia|]. simpl. f_equal. apply IHl1. lia.
Qed.

Lemma Forall_upd : forall (P : A -> Prop) l i v, Forall P l -> P v -> Forall P (upd l i v).
Proof.
  induction l; destruct i; simpl; intros; auto; inversion H; subst; constructor; auto.
Qed.

Lemma upd_split : forall l i v d, i < length l ->
  upd l i v = firstn i l ++ v :: skipn (S i) l /\ l = firstn i l ++ nth i l d :: skipn (S i) l.
Proof.
  induction l; destruct i; simpl; intros; try lia.
  - auto.
  - destruct (IHl i v d ltac:(lia)) as [E1 E2]. simpl in *. rewrite E1. split; auto.
    f_equal. exact E2.
Qed.

Lemma list_eq_nth : forall (l1 l2 : list A) d, length l1 = length l2 ->
  (forall i, i < length l1 -> nth i l1 d = nth i l2 d) -> l1 = l2.
Proof.
  induction l1; destruct l2; simpl; intros d HL H; try discriminate; auto.
  f_equal.
  - apply (H 0). lia.
  - apply IHl1 with d; [lia|]. intros i Hi. apply (H (S i)). lia.
Qed.

Lemma nth_firstn_lt : forall (l : list A) n i d, i < n -> nth i (firstn n l) d = nth i l d.
Proof.
  induction l; intros n i d H; destruct n; try lia; destruct i; simpl; auto.
  apply IHl. lia.
Qed.

Lemma nth_skipn : forall (l : list A) n i d, nth i (skipn n l) d = nth (n + i) l d.
Proof.
  induction l; intros n i d; destruct n; simpl; auto; destruct i; auto.
Qed.

End Upd.

Lemma nth_map' : forall {A B} (f : A -> B) l i d d', i < length l ->
  nth i (map f l) d' = f (nth i l d).
Proof.
  induction l; simpl; intros; [lia|]. destruct i; auto. apply IHl. lia.
Qed.

Lemma nth_seq' : forall n i s d, i < n -> nth i (seq s n) d = s + i.
Proof. intros. apply seq_nth. auto. Qed.

Lemma map_nth_seq : forall {A} (l : list A) d, map (fun i => nth i l d) (seq 0 (length l)) = l.
Proof.
  intros A l d. apply list_eq_nth with d.
  - rewrite map_length, seq_length. auto.
  - rewrite map_length, seq_length. intros i Hi.
    rewrite nth_map' with (d := 0) by (rewrite seq_length; auto).
    rewrite seq_nth by auto. auto.
Qed.

Lemma combine_nth' : forall {A B} (l : list A) (m : list B) i a b,
  i < length l -> i < length m -> nth i (combine l m) (a, b) = (nth i l a, nth i m b).
Proof.
  induction l; destruct m; simpl; intros; try lia. destruct i; auto. apply IHl; lia.
Qed.

Fixpoint map2 {A B C} (f : A -> B -> C) (l : list A) (m : list B) : list C :=
  match l, m with
  | a :: l', b :: m' => f a b :: map2 f l' m'
  | _, _ => []
  end.

Lemma map2_length : forall {A B C} (f : A -> B -> C) l m,
  length (map2 f l m) = Nat.min (length l) (length m).
Proof. induction l; destruct m; simpl; auto. Qed.

Lemma map2_nth : forall {A B C} (f : A -> B -> C) l m i a b c,
  i < length l -> i < length m -> nth i (map2 f l m) c = f (nth i l a) (nth i m b).
Proof. induction l; destruct m; simpl; intros; try lia. destruct i; auto. apply IHl; lia. Qed.

Lemma map2_app : forall {A B C} (f : A -> B -> C) l1 l2 m1 m2,
  length l1 = length m1 -> map2 f (l1 ++ l2) (m1 ++ m2) = map2 f l1 m1 ++ map2 f l2 m2.
Proof. induction l1; destruct m1; simpl; intros; try discriminate; auto. f_equal. apply IHl1; lia. Qed.

Lemma skipn_skipn' : forall {A} (l : list A) a b, skipn a (skipn b l) = skipn (b + a) l.
Proof.
  induction l; intros a' b; destruct b; simpl; auto. destruct a'; auto.
Qed.

Lemma firstn_app_exact : forall {A} (l1 l2 : list A), firstn (length l1) (l1 ++ l2) = l1.
Proof. intros. rewrite firstn_app, Nat.sub_diag, firstn_all. simpl. apply app_nil_r. Qed.

Lemma skipn_app_exact : forall {A} (l1 l2 : list A), skipn (length l1) (l1 ++ l2) = l2.
Proof. intros. rewrite skipn_app, Nat.sub_diag, skipn_all. auto. Qed.

Lemma firstn_app_exact' : forall {A} (l1 l2 : list A) n, n = length l1 -> firstn n (l1 ++ l2) = l1.
Proof. intros. subst. apply firstn_app_exact. Qed.

Lemma skipn_app_exact' : forall {A} (l1 l2 : list A) n, n = length l1 -> skipn n (l1 ++ l2) = l2.
Proof. intros. subst. apply skipn_app_exact. Qed.

From Coq Require Import NArith ZArith List Lia Arith.
From Coq Require Import ZifyBool ZifyNat ZifyN.
From Verif.Base Require Import Words ListX.
From Verif.Utility Require Import SerialModel SerialSpec.
Import ListNotations.
Local Open Scope N_scope.

Lemma fin_read_app : forall a b n, n = length a -> fin_read n (a ++ b) = Some (a, b).
Proof.
  intros a b n ->. unfold fin_read.
  rewrite app_length. destruct (Nat.leb_spec (length a) (length a + length b)); [|lia].
  rewrite firstn_app_exact', skipn_app_exact'; auto.
Qed.

Lemma vec_bytes_length : forall w v, length (vec_bytes w v) = (length v * w)%nat.
Proof.
  induction v as [|x v IH]; cbn [vec_bytes length]; [reflexivity|].
  rewrite app_length, le_bytes_length, IH. lia.
Qed.

Lemma bytes_vec_bytes : forall w v, Forall (fun x => x < 256 ^ N.of_nat w) v ->
  bytes_vec w (length v) (vec_bytes w v) = v.
Proof.
  induction v as [|x v IH]; intros F; cbn [vec_bytes length bytes_vec]; [reflexivity|].
  inversion F; subst.
  rewrite firstn_app_exact', skipn_app_exact' by (symmetry; apply le_bytes_length).
  rewrite le_val_bytes, IH by auto. reflexivity.
Qed.

Lemma read_write_obj : forall o t rest, representable o -> matching o t ->
  read_obj t (write_obj o ++ rest) = Some (o, rest).
Proof.
  intros o t rest R M. destruct o as [x|w x|w v|s|b|v], t as [|w'|w' old| | |old]; cbn [matching] in M;
    try contradiction; cbn [read_obj write_obj representable] in *.
  - unfold read_size, write_size.
    rewrite fin_read_app by (symmetry; apply le_bytes_length).
    rewrite le_val_bytes by exact R. reflexivity.
  - subst w'. unfold read_pod, write_pod.
    rewrite fin_read_app by (symmetry; apply le_bytes_length).
    rewrite le_val_bytes by exact R. reflexivity.
  - destruct M as [-> L]. unfold read_vec, write_vec.
    rewrite fin_read_app by (rewrite vec_bytes_length; lia).
    rewrite L, bytes_vec_bytes by exact R. reflexivity.
  - unfold read_string, write_string, read_size, write_size. rewrite <- app_assoc.
    rewrite fin_read_app by (symmetry; apply le_bytes_length).
    rewrite le_val_bytes by apply R. rewrite app_length.
    destruct (N.leb_spec (N.of_nat (length s)) (N.of_nat (length s + length rest))); [|lia].
    rewrite fin_read_app by lia. reflexivity.
  - unfold read_blk, write_blk.
    rewrite fin_read_app by (symmetry; apply le_bytes_length).
    rewrite le_val_bytes by exact R. reflexivity.
  - unfold read_blks, write_blks.
    rewrite fin_read_app by (rewrite vec_bytes_length; lia).
    rewrite M, bytes_vec_bytes by exact R. reflexivity.
Qed.

Lemma read_write_objs : forall os ts rest, Forall representable os -> Forall2 matching os ts ->
  read_objs ts (write_objs os ++ rest) = Some (os, rest).
Proof.
  induction os as [|o os IH]; intros ts rest R M; inversion M; subst; cbn [write_objs read_objs].
  - reflexivity.
  - inversion R; subst. rewrite <- app_assoc, read_write_obj by auto. rewrite IH by auto. reflexivity.
Qed.

(** vectors carry no length: a stream does not determine how it was cut *)
Lemma vec_split_ambiguous : forall w a b, write_vec w (a ++ b) = write_vec w a ++ write_vec w b.
Proof.
  unfold write_vec. induction a as [|x a IH]; intros b; cbn [vec_bytes app]; [reflexivity|].
  rewrite IH, app_assoc. reflexivity.
Qed.

Lemma fin_read_inv : forall n s b r, fin_read n s = Some (b, r) -> s = b ++ r /\ length b = n.
Proof.
  intros n s b r E. unfold fin_read in E. destruct (Nat.leb_spec n (length s)); [|discriminate].
  inversion E; subst. rewrite firstn_skipn, firstn_length. split; [auto|lia].
Qed.

Lemma fin_read_short : forall n s, (length s < n)%nat -> fin_read n s = None.
Proof. intros n s H. unfold fin_read. destruct (Nat.leb_spec n (length s)); [lia|reflexivity]. Qed.

Lemma firstn_app_le : forall (A : Type) n (a b : list A), (length a <= n)%nat ->
  firstn n (a ++ b) = a ++ firstn (n - length a) b.
Proof. intros A n a b H. rewrite firstn_app. rewrite firstn_all2 by lia. reflexivity. Qed.

Lemma read_obj_short : forall o t n, representable o -> matching o t ->
  (n < length (write_obj o))%nat -> read_obj t (firstn n (write_obj o)) = None.
Proof.
  intros o t n R M L. assert (LL : length (firstn n (write_obj o)) = n) by (rewrite firstn_length; lia).
  destruct o as [x|w x|w v|s|b|v], t as [|w'|w' old| | |old]; cbn [matching] in M;
    try contradiction; cbn [read_obj write_obj representable] in *.
  - unfold read_size, write_size in *. rewrite le_bytes_length in L. rewrite fin_read_short by lia. reflexivity.
  - subst w'. unfold read_pod, write_pod in *. rewrite le_bytes_length in L.
    rewrite fin_read_short by lia. reflexivity.
  - destruct M as [-> L']. unfold read_vec, write_vec in *. rewrite vec_bytes_length in L.
    rewrite fin_read_short by lia. reflexivity.
  - unfold read_string, write_string, read_size, write_size in *.
    rewrite app_length, le_bytes_length in L.
    destruct (Nat.le_gt_cases 8 n) as [G|G].
    + rewrite firstn_app_le by (rewrite le_bytes_length; lia).
      rewrite fin_read_app by (symmetry; apply le_bytes_length).
      rewrite le_val_bytes by apply R. rewrite le_bytes_length.
      rewrite firstn_length.
      destruct (N.leb_spec (N.of_nat (length s)) (N.of_nat (Nat.min (n - 8) (length s)))); [lia|reflexivity].
    + rewrite fin_read_short by lia. reflexivity.
  - unfold read_blk, write_blk in *. rewrite le_bytes_length in L. rewrite fin_read_short by lia. reflexivity.
  - unfold read_blks, write_blks in *. rewrite vec_bytes_length in L. rewrite fin_read_short by lia. reflexivity.
Qed.

Lemma read_objs_truncated : forall os ts n, Forall representable os -> Forall2 matching os ts ->
  (n < length (write_objs os))%nat -> read_objs ts (firstn n (write_objs os)) = None.
Proof.
  induction os as [|o os IH]; intros ts n R M L; inversion M; subst; cbn [write_objs read_objs length] in *.
  - lia.
  - inversion R; subst. rewrite app_length in L.
    destruct (Nat.le_gt_cases (length (write_obj o)) n) as [G|G].
    + rewrite firstn_app_le by lia. rewrite read_write_obj by auto. rewrite IH; auto. lia.
    + rewrite firstn_app. replace (n - length (write_obj o))%nat with 0%nat by lia.
      rewrite firstn_O, app_nil_r, read_obj_short by auto. reflexivity.
Qed.

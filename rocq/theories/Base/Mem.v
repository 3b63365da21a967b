(** Byte memory: a buffer is a list of bytes, an access outside it is undefined
    behaviour and modelled as None. *)
From Coq Require Import NArith List Lia.
From Coq Require Import ZifyBool ZifyNat ZifyN.
From Verif.Base Require Import Words ListX.
Import ListNotations.
Local Open Scope N_scope.

(** memcpy out of a buffer: [len] bytes at offset [off] *)
Definition read_bytes (m : list N) (off len : N) : option (list N) :=
  if off + len <=? N.of_nat (length m)
  then Some (firstn (N.to_nat len) (skipn (N.to_nat off) m)) else None.

(** memcpy into a buffer *)
Definition write_bytes (m : list N) (off : N) (bs : list N) : option (list N) :=
  if off + N.of_nat (length bs) <=? N.of_nat (length m)
  then Some (firstn (N.to_nat off) m ++ bs ++ skipn (N.to_nat off + length bs) m) else None.

Lemma read_bytes_some : forall m off len, off + len <= N.of_nat (length m) ->
  read_bytes m off len = Some (firstn (N.to_nat len) (skipn (N.to_nat off) m)).
Proof. intros. unfold read_bytes. destruct (N.leb_spec (off + len) (N.of_nat (length m))); auto. lia. Qed.

Lemma write_bytes_some : forall m off bs, off + N.of_nat (length bs) <= N.of_nat (length m) ->
  write_bytes m off bs = Some (firstn (N.to_nat off) m ++ bs ++ skipn (N.to_nat off + length bs) m).
Proof.
  intros. unfold write_bytes.
  destruct (N.leb_spec (off + N.of_nat (length bs)) (N.of_nat (length m))); auto. lia.
Qed.

Lemma write_bytes_length : forall m off bs m', write_bytes m off bs = Some m' -> length m' = length m.
Proof.
  intros m off bs m' E. unfold write_bytes in E.
  destruct (N.leb_spec (off + N.of_nat (length bs)) (N.of_nat (length m))) as [L|]; inversion E; subst.
  rewrite !app_length, firstn_length, skipn_length. lia.
Qed.

Lemma write_bytes_ok : forall m off bs m', bytes_ok m -> bytes_ok bs ->
  write_bytes m off bs = Some m' -> bytes_ok m'.
Proof.
  intros m off bs m' Om Ob E. unfold write_bytes in E.
  destruct (off + N.of_nat (length bs) <=? N.of_nat (length m)); inversion E; subst.
  assert (P : forall l (a : nat), bytes_ok l -> bytes_ok (firstn a l) /\ bytes_ok (skipn a l)).
  { intros l a Hl. unfold bytes_ok. apply Forall_app. rewrite firstn_skipn. exact Hl. }
  repeat apply bytes_ok_app; try apply P; auto.
Qed.

(** a read covering exactly the written bytes returns them *)
Lemma read_write_same : forall m off bs m', write_bytes m off bs = Some m' ->
  read_bytes m' off (N.of_nat (length bs)) = Some bs.
Proof.
  intros m off bs m' E. pose proof (write_bytes_length _ _ _ _ E) as L.
  unfold write_bytes in E.
  destruct (N.leb_spec (off + N.of_nat (length bs)) (N.of_nat (length m))) as [B|]; inversion E; subst.
  rewrite read_bytes_some by lia. f_equal.
  rewrite skipn_app_exact' by (rewrite firstn_length; lia).
  rewrite firstn_app_exact' by lia. reflexivity.
Qed.

(** a read that does not overlap the written bytes is unaffected *)
Lemma read_write_other : forall m off bs m' off' len, write_bytes m off bs = Some m' ->
  off' + len <= off \/ off + N.of_nat (length bs) <= off' ->
  read_bytes m' off' len = read_bytes m off' len.
Proof.
  intros m off bs m' off' len E D. pose proof (write_bytes_length _ _ _ _ E) as L.
  unfold write_bytes in E. unfold read_bytes. rewrite L.
  destruct (N.leb_spec (off + N.of_nat (length bs)) (N.of_nat (length m))) as [B|]; inversion E; subst.
  destruct (N.leb_spec (off' + len) (N.of_nat (length m))) as [B'|]; auto. f_equal.
  apply list_eq_nth with (d := 0).
  - rewrite !firstn_length, !skipn_length. lia.
  - intros i Hi. rewrite firstn_length, skipn_length in Hi.
    rewrite !nth_firstn_lt, !nth_skipn by lia.
    destruct D.
    + rewrite app_nth1 by (rewrite firstn_length; lia). rewrite nth_firstn_lt by lia. auto.
    + rewrite app_nth2 by (rewrite firstn_length; lia). rewrite firstn_length.
      rewrite app_nth2 by lia. rewrite nth_skipn. f_equal. lia.
Qed.

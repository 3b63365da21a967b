(** Machine words and byte strings.

    An unsigned machine integer of [w] bits is an [N]; every operation that can
    overflow in C++ is wrapped explicitly with [wrap].  A byte string is a
    [list N]; [bytes_ok] says that every element is a byte. *)
From Coq Require Import NArith ZArith List Lia Bool.
Import ListNotations.
Local Open Scope N_scope.

(** Conversion of an unsigned result to a [w]-bit unsigned type (modulo 2^w). *)
Definition wrap (w x : N) : N := x mod 2 ^ w.
Definition wrap32 (x : N) : N := wrap 32 x.
Definition wrap64 (x : N) : N := wrap 64 x.

Definition add32 (a b : N) : N := wrap32 (a + b).
Definition mul32 (a b : N) : N := wrap32 (a * b).
Definition shl32 (a n : N) : N := wrap32 (N.shiftl a n).
Definition shr32 (a n : N) : N := N.shiftr a n.
(** bitwise complement of a 32-bit word *)
Definition not32 (a : N) : N := N.lxor a (2 ^ 32 - 1).
(** two's-complement subtraction of unsigned 32/64-bit words *)
Definition sub32 (a b : N) : N := wrap32 (a + (2 ^ 32 - wrap32 b)).
Definition sub64 (a b : N) : N := wrap64 (a + (2 ^ 64 - wrap64 b)).
Definition not64 (a : N) : N := N.lxor a (2 ^ 64 - 1).

Definition is_byte (b : N) : Prop := b < 256.
Definition bytes_ok (l : list N) : Prop := Forall is_byte l.

(** Little-endian object representation of an unsigned integer in [n] bytes. *)
Fixpoint le_bytes (n : nat) (x : N) : list N :=
  match n with
  | O => []
  | S n' => (x mod 256) :: le_bytes n' (x / 256)
  end.

(** Value of a little-endian byte string. *)
Fixpoint le_val (l : list N) : N :=
  match l with
  | [] => 0
  | b :: r => b + 256 * le_val r
  end.

(** Big-endian, used for BIGNUM serialisation. *)
Definition be_bytes (n : nat) (x : N) : list N := rev (le_bytes n x).
Definition be_val (l : list N) : N := le_val (rev l).

Lemma wrap_lt : forall w x, wrap w x < 2 ^ w.
Proof. intros. unfold wrap. apply N.mod_lt. apply N.pow_nonzero. discriminate. Qed.

Lemma wrap_small : forall w x, x < 2 ^ w -> wrap w x = x.
Proof. intros. unfold wrap. apply N.mod_small. assumption. Qed.

Lemma wrap_idem : forall w x, wrap w (wrap w x) = wrap w x.
Proof. intros. apply wrap_small, wrap_lt. Qed.

Lemma le_bytes_length : forall n x, length (le_bytes n x) = n.
Proof. induction n; simpl; intros; auto. Qed.

Lemma le_bytes_ok : forall n x, bytes_ok (le_bytes n x).
Proof.
  induction n; simpl; intros; constructor.
  - unfold is_byte. apply N.mod_lt. discriminate.
  - apply IHn.
Qed.

Lemma le_val_bytes : forall n x, x < 256 ^ N.of_nat n -> le_val (le_bytes n x) = x.
Proof.
  induction n; intros x Hx.
  - simpl in *. lia.
  - cbn [le_bytes le_val]. rewrite IHn.
    + pose proof (N.div_mod' x 256). lia.
    + rewrite Nat2N.inj_succ, N.pow_succ_r' in Hx.
      apply N.div_lt_upper_bound; lia.
Qed.

Lemma le_bytes_val : forall l, bytes_ok l -> le_bytes (length l) (le_val l) = l.
Proof.
  induction l; intros H; cbn [le_val length le_bytes]; auto.
  inversion H; subst. unfold is_byte in *.
  rewrite (N.mul_comm 256). f_equal.
  - rewrite N.mod_add by discriminate. apply N.mod_small; auto.
  - rewrite N.div_add by discriminate. rewrite N.div_small by auto. rewrite N.add_0_l.
    auto.
Qed.

Lemma le_val_lt : forall l, bytes_ok l -> le_val l < 256 ^ N.of_nat (length l).
Proof.
  induction l; intros H; cbn [le_val length].
  - simpl. lia.
  - inversion H; subst. unfold is_byte in *. rewrite Nat2N.inj_succ, N.pow_succ_r'.
    specialize (IHl H3). nia.
Qed.

Lemma le_bytes_inj : forall n x y,
  x < 256 ^ N.of_nat n -> y < 256 ^ N.of_nat n -> le_bytes n x = le_bytes n y -> x = y.
Proof.
  intros n x y Hx Hy H. rewrite <- (le_val_bytes n x), <- (le_val_bytes n y); congruence.
Qed.

Lemma be_val_bytes : forall n x, x < 256 ^ N.of_nat n -> be_val (be_bytes n x) = x.
Proof.
  intros. unfold be_val, be_bytes. rewrite rev_involutive. apply le_val_bytes; auto.
Qed.

Lemma be_bytes_length : forall n x, length (be_bytes n x) = n.
Proof. intros. unfold be_bytes. rewrite rev_length. apply le_bytes_length. Qed.

Lemma bytes_ok_app : forall a b, bytes_ok a -> bytes_ok b -> bytes_ok (a ++ b).
Proof. intros. apply Forall_app; auto. Qed.

(** bit-level facts *)
Lemma testbit_wrap : forall w x i,
  N.testbit (wrap w x) i = if i <? w then N.testbit x i else false.
Proof.
  intros. unfold wrap. destruct (N.ltb_spec i w).
  - apply N.mod_pow2_bits_low; auto.
  - apply N.mod_pow2_bits_high; auto.
Qed.

Lemma wrap_land : forall w x, wrap w x = N.land x (N.ones w).
Proof. intros. unfold wrap. symmetry. apply N.land_ones. Qed.

Lemma testbit_bounded : forall w x i, x < 2 ^ w -> w <= i -> N.testbit x i = false.
Proof.
  intros. rewrite <- (wrap_small w x) by auto. rewrite testbit_wrap.
  destruct (N.ltb_spec i w); auto; lia.
Qed.

Lemma bounded_by_bits : forall w x, (forall i, w <= i -> N.testbit x i = false) -> x < 2 ^ w.
Proof.
  intros w x H.
  assert (x = wrap w x) as ->.
  { apply N.bits_inj. intros i. rewrite testbit_wrap.
    destruct (N.ltb_spec i w); auto. }
  apply wrap_lt.
Qed.

Lemma land_lt : forall w a b, a < 2 ^ w -> N.land a b < 2 ^ w.
Proof.
  intros. apply bounded_by_bits. intros. rewrite N.land_spec, (testbit_bounded w a); auto.
Qed.
Lemma lor_lt : forall w a b, a < 2 ^ w -> b < 2 ^ w -> N.lor a b < 2 ^ w.
Proof.
  intros. apply bounded_by_bits. intros.
  rewrite N.lor_spec, (testbit_bounded w a), (testbit_bounded w b); auto.
Qed.
Lemma lxor_lt : forall w a b, a < 2 ^ w -> b < 2 ^ w -> N.lxor a b < 2 ^ w.
Proof.
  intros. apply bounded_by_bits. intros.
  rewrite N.lxor_spec, (testbit_bounded w a), (testbit_bounded w b); auto.
Qed.
Lemma shiftr_lt : forall w a n, a < 2 ^ w -> N.shiftr a n < 2 ^ w.
Proof.
  intros. apply bounded_by_bits. intros.
  rewrite N.shiftr_spec', (testbit_bounded w a); auto. lia.
Qed.

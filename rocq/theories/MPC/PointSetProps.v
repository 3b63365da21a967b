(** Property C120: sets and orders of points. *)
From Coq Require Import NArith ZArith List Lia Bool Arith.
From Coq Require Import ZifyBool ZifyNat ZifyN.
From Verif.Base Require Import Words ListX.
From Verif.Group Require Import ECModel ECProofs ZqGroup.
From Verif.MPC Require Import CwModel PointSetModel.
Import ListNotations.

Section Set_.
Context {A : Type} (eqb : A -> A -> bool) (h : A -> N).
Hypothesis EQ : forall x y, eqb x y = true <-> x = y.
Local Notation bucket := (bucket h).
Local Notation find := (find_item eqb h).
Local Notation put := (put_item h).
Lemma bucket_lt : forall n x, bucket (S n) x < S n.
Proof. intros n x. unfold PointSetModel.bucket. pose proof (N.mod_lt (h x) (N.of_nat (S n)) ltac:(lia)) as B. clear - B. lia. Qed.
Lemma put_length : forall tb x, length (put tb x) = length tb.
Proof. intros. apply upd_length. Qed.
(** every item is in the bucket of its hash *)
Definition placed (tb : list (list A)) : Prop := tb <> [] /\ forall i x, In x (nth i tb []) -> i = bucket (length tb) x.
Definition holds (tb : list (list A)) (x : A) : Prop := exists i, In x (nth i tb []).
Lemma nonempty : forall tb : list (list A), tb <> [] -> exists n, length tb = S n.
Proof. intros [|a tb] N; [congruence|]. exists (length tb). reflexivity. Qed.
Lemma find_holds : forall tb x, placed tb -> find tb x = true <-> holds tb x.
Proof.
  intros tb x [NE P]. unfold find_item. rewrite existsb_exists. split.
  - intros [y [I E]]. apply EQ in E. subst y. eexists. exact I.
  - intros [i I]. rewrite <- (P i x I). exists x. split; [exact I|apply EQ; reflexivity].
Qed.
Lemma put_in : forall tb x y i, tb <> [] -> In y (nth i (put tb x) []) <-> In y (nth i tb []) \/ (y = x /\ i = bucket (length tb) x).
Proof.
  intros tb x y i NE. destruct (nonempty tb NE) as [n E]. pose proof (bucket_lt n x) as B. rewrite <- E in B. unfold put_item.
  destruct (Nat.eq_dec i (bucket (length tb) x)) as [->|D].
  - rewrite nth_upd_same by exact B. cbn [In]. intuition.
  - rewrite nth_upd_other by congruence. intuition.
Qed.
Lemma put_placed : forall tb x, placed tb -> placed (put tb x).
Proof.
  intros tb x [NE P]. split.
  - intros E. apply NE. apply length_zero_iff_nil. rewrite <- (put_length tb x), E. reflexivity.
  - intros i y I. rewrite put_length. apply put_in in I; [|exact NE]. destruct I as [I|[-> ->]]; [apply P; exact I|reflexivity].
Qed.
Lemma put_holds : forall tb x y, tb <> [] -> holds (put tb x) y <-> holds tb y \/ y = x.
Proof.
  intros tb x y NE. unfold holds. split.
  - intros [i I]. apply put_in in I; [|exact NE]. destruct I as [I|[E _]]; [left; exists i; exact I|right; exact E].
  - intros [[i I]| ->]; [exists i|exists (bucket (length tb) x)]; apply put_in; intuition.
Qed.
Lemma puts : forall l tb, placed tb -> placed (fold_left put l tb) /\ forall y, holds (fold_left put l tb) y <-> holds tb y \/ In y l.
Proof.
  induction l as [|x l IH]; intros tb P; cbn [fold_left In]; [split; [exact P|intuition]|].
  destruct (IH (put tb x) (put_placed tb x P)) as [A1 A2]. split; [exact A1|]. intros y. rewrite A2, put_holds by apply P. intuition.
Qed.
Lemma empty_placed : forall n, placed (repeat [] (S n)) /\ forall y : A, ~ holds (repeat [] (S n)) y.
Proof.
  intros n. assert (E : forall i (y : A), ~ In y (nth i (repeat [] (S n)) [])).
  { intros i y I. destruct (Nat.lt_ge_cases i (S n)) as [L|L]; [rewrite nth_repeat in I; exact I|].
    rewrite nth_overflow in I by (rewrite repeat_length; exact L). exact I. }
  split; [split; [discriminate|]|]; [intros i y I; exfalso; exact (E i y I)|]. intros y [i I]. exact (E i y I).
Qed.
Lemma in_concat_nth : forall (tb : list (list A)) y, In y (concat tb) <-> holds tb y.
Proof.
  intros tb y. rewrite in_concat. split.
  - intros [b [I J]]. apply (In_nth _ _ []) in I. destruct I as [i [_ E]]. exists i. rewrite E. exact J.
  - intros [i I]. exists (nth i tb []). split; [|exact I]. apply nth_In. destruct (Nat.lt_ge_cases i (length tb)) as [L|L]; [exact L|].
    rewrite nth_overflow in I by exact L. destruct I.
Qed.
Lemma rehash_ok : forall tb n, placed (rehash h tb (S n)) /\ forall y, holds (rehash h tb (S n)) y <-> holds tb y.
Proof.
  intros tb n. unfold rehash. destruct (empty_placed n) as [P E]. destruct (puts (concat tb) _ P) as [A1 A2]. split; [exact A1|].
  intros y. rewrite A2, in_concat_nth. specialize (E y). tauto.
Qed.
Lemma insert_ok : forall tb x, placed tb -> placed (insert_item eqb h tb x) /\ forall y, holds (insert_item eqb h tb x) y <-> holds tb y \/ y = x.
Proof.
  intros tb x P. unfold insert_item. destruct (find tb x) eqn:F.
  - apply find_holds in F; [|exact P]. split; [exact P|]. intros y. split; [tauto|]. intros [I| ->]; [exact I|exact F].
  - split; [apply put_placed; exact P|]. intros y. apply put_holds. apply P.
Qed.
Lemma build_ok : forall grow l k tb, placed tb -> placed (build eqb h grow k tb l) /\ forall y, holds (build eqb h grow k tb l) y <-> holds tb y \/ In y l.
Proof.
  intros grow. induction l as [|x l IH]; intros k tb P; cbn [build In]; [split; [exact P|intuition]|].
  destruct (insert_ok tb x P) as [P1 H1]. set (tb1 := insert_item eqb h tb x) in *.
  assert (X : placed (match grow k with Some n => rehash h tb1 (S n) | None => tb1 end) /\ forall y, holds (match grow k with Some n => rehash h tb1 (S n) | None => tb1 end) y <-> holds tb1 y).
  { destruct (grow k) as [n|]; [apply rehash_ok|split; [exact P1|intuition]]. }
  destruct X as [P2 H2]. destruct (IH (S k) _ P2) as [P3 H3]. split; [exact P3|]. intros y. rewrite H3, H2, H1. intuition.
Qed.
(** ** whatever the hash, the number of buckets and the rehashing: found if and only if inserted *)
Theorem found_inserted : forall grow n l x, find (set_from eqb h grow n l) x = true <-> In x l.
Proof.
  intros grow n l x. unfold set_from. destruct (empty_placed n) as [P E]. destruct (build_ok grow l 0 _ P) as [P1 H1].
  rewrite find_holds by exact P1. rewrite H1. specialize (E x). tauto.
Qed.
End Set_.

(** ** the two sets of cwPRF mqRPMT *)
Theorem C120_point_set : forall G stdhash grow n (l : list (pt G)) P,
  find_item (peqb G) (ECPointHash G stdhash) (set_from (peqb G) (ECPointHash G stdhash) grow n l) P = true <-> In P l.
Proof. intros G stdhash grow n l P. apply found_inserted. intros x y. apply peqb_true. Qed.

(** the bits of the server are those of a search through the whole list ([existsb] in CwModel.v), for points and for strings *)
Theorem C120_bits : forall G stdhash grow n (FY FX : list (pt G)) i P, nth_error FX i = Some P ->
  nth_error (indication_bits (peqb G) (ECPointHash G stdhash) grow n FY FX) i = Some (if existsb (peqb G P) FY then 1%N else 0%N) /\
  (existsb (peqb G P) FY = true <-> In P FY).
Proof.
  intros G stdhash grow n FY FX i P E. unfold indication_bits. cbn zeta.
  assert (X : existsb (peqb G P) FY = true <-> In P FY).
  { rewrite existsb_exists. split; [intros [Q [I J]]; apply peqb_true in J; rewrite J; exact I|intros I; exists P; split; [exact I|apply peqb_true; reflexivity]]. }
  split; [|exact X]. rewrite nth_error_map, E. cbn [option_map]. f_equal.
  pose proof (C120_point_set G stdhash grow n FY P) as Y. rewrite <- X in Y.
  destruct (find_item _ _ _ P), (existsb _ FY); try reflexivity; [destruct Y as [Y _]|destruct Y as [_ Y]]; discriminate (Y eq_refl).
Qed.
(** the set of strings of the cwPRF PSI *)
Theorem C120_string_set : forall stdhash grow n (l : list (list N)) s,
  find_item bytes_eqb stdhash (set_from bytes_eqb stdhash grow n l) s = true <-> In s l.
Proof.
  intros stdhash grow n l s. apply found_inserted. intros x y. unfold bytes_eqb. destruct (list_eq_dec N.eq_dec x y); [tauto|]. split; [discriminate|contradiction].
Qed.

(** points on curve 25519 are compared by their 32 bytes *)
Lemma compare25519 : forall A B, ok25519 A -> ok25519 B -> CompareTo25519 A B = true <-> A = B.
Proof.
  intros A B [LA _] [LB _]. unfold CompareTo25519. rewrite !firstn_all2 by lia. destruct (list_eq_dec N.eq_dec A B); [tauto|]. split; [discriminate|contradiction].
Qed.
(** an equal point has the same hash even if the bytes are not those of one encoding only *)
Theorem C120_hash_equal : (forall G stdhash P Q, peqb G P Q = true -> ECPointHash G stdhash P = ECPointHash G stdhash Q) /\
  (forall stdhash A B, CompareTo25519 A B = true -> EC25519PointHash stdhash A = EC25519PointHash stdhash B).
Proof.
  split.
  - intros G stdhash P Q E. apply peqb_true in E. rewrite E. reflexivity.
  - intros stdhash A B E. unfold CompareTo25519 in E. unfold EC25519PointHash, ToByteString25519.
    destruct (list_eq_dec N.eq_dec (firstn 32 A) (firstn 32 B)) as [X|]; [rewrite X; reflexivity|discriminate].
Qed.
(** the set of arrays of 32 bytes; the type of arrays makes every item [ok25519] *)
Definition array25519 := { A : list N | (length A =? 32)%nat && forallb (fun b => (b <? 256)%N) A = true }.
Lemma array_eq : forall A B : array25519, CompareTo25519 (proj1_sig A) (proj1_sig B) = true <-> A = B.
Proof.
  intros [A PA] [B PB]. cbn [proj1_sig].
  assert (OK : forall A, (length A =? 32)%nat && forallb (fun b => (b <? 256)%N) A = true -> ok25519 A).
  { intros X PX. apply andb_prop in PX. destruct PX as [L F]. split; [lia|]. apply Forall_forall. intros b I. rewrite forallb_forall in F. specialize (F b I). unfold is_byte. lia. }
  rewrite compare25519 by (apply OK; assumption). split.
  - intros E. subst B. f_equal. apply Eqdep_dec.UIP_dec. apply Bool.bool_dec.
  - intros E. exact (f_equal (@proj1_sig _ _) E).
Qed.
Theorem C120_25519_set : forall stdhash grow n (l : list array25519) A,
  let eqb := fun x y : array25519 => CompareTo25519 (proj1_sig x) (proj1_sig y) in
  let h := fun x : array25519 => EC25519PointHash stdhash (proj1_sig x) in
  find_item eqb h (set_from eqb h grow n l) A = true <-> In A l.
Proof. intros stdhash grow n l A eqb h. apply found_inserted. exact array_eq. Qed.

(** ** the comparisons are strict total orders, as std::sort and std::set need *)
Lemma string_irrefl : forall a, string_lt a a = false.
Proof. induction a as [|x a IH]; [reflexivity|]. cbn [string_lt]. rewrite N.ltb_irrefl. exact IH. Qed.
Lemma string_trans : forall a b c, string_lt a b = true -> string_lt b c = true -> string_lt a c = true.
Proof.
  induction a as [|x a IH]; intros [|y b] [|z c] E F; try discriminate; try reflexivity. cbn [string_lt] in *.
  destruct (N.ltb_spec x y), (N.ltb_spec y z), (N.ltb_spec y x), (N.ltb_spec z y), (N.ltb_spec x z), (N.ltb_spec z x); try discriminate; try reflexivity; try lia.
  exact (IH b c E F).
Qed.
Lemma string_total : forall a b, a = b \/ string_lt a b = true \/ string_lt b a = true.
Proof.
  induction a as [|x a IH]; intros [|y b]; [left; reflexivity|right; left; reflexivity|right; right; reflexivity|]. cbn [string_lt].
  destruct (N.ltb_spec x y), (N.ltb_spec y x); try tauto. assert (x = y) by lia. subst y. destruct (IH b) as [-> |O]; [left; reflexivity|right; exact O].
Qed.
Theorem C120_point_order : forall G,
  (forall P, ECPoint_Lexical_Compare G P P = false) /\
  (forall P Q R, ECPoint_Lexical_Compare G P Q = true -> ECPoint_Lexical_Compare G Q R = true -> ECPoint_Lexical_Compare G P R = true) /\
  (forall P Q, P = Q \/ ECPoint_Lexical_Compare G P Q = true \/ ECPoint_Lexical_Compare G Q P = true).
Proof.
  intros G. unfold ECPoint_Lexical_Compare. split; [intros P; apply string_irrefl|]. split; [intros P Q R; apply string_trans|].
  intros P Q. destruct (string_total (ToByteString G P) (ToByteString G Q)) as [E|O]; [left; exact (ToByteString_inj G P Q E)|right; exact O].
Qed.
Theorem C120_25519_order :
  (forall A, EC25519Point_Lexical_Compare A A = false) /\
  (forall A B C, EC25519Point_Lexical_Compare A B = true -> EC25519Point_Lexical_Compare B C = true -> EC25519Point_Lexical_Compare A C = true) /\
  (forall A B, ok25519 A -> ok25519 B -> A = B \/ EC25519Point_Lexical_Compare A B = true \/ EC25519Point_Lexical_Compare B A = true).
Proof.
  unfold EC25519Point_Lexical_Compare, ToByteString25519. split; [intros A; apply string_irrefl|]. split; [intros A B C; apply string_trans|].
  intros A B [LA _] [LB _]. rewrite !firstn_all2 by lia. apply string_total.
Qed.

(** ** points on curve 25519 come back from a file; from a file that ends early the bytes missing are those the object held *)
Theorem C120_25519_file : forall A old rest, ok25519 A -> ok25519 old -> read25519 old (write25519 A ++ rest) = (A, rest).
Proof.
  intros A old rest [L _] [LO _]. unfold read25519, write25519. rewrite (firstn_all2 A) by lia.
  assert (F : firstn 32 (A ++ rest) = A).
  { rewrite firstn_app, L. replace (32 - 32) with 0 by lia. rewrite firstn_O, app_nil_r. apply firstn_all2. lia. }
  assert (K : skipn 32 (A ++ rest) = rest).
  { rewrite skipn_app, L. replace (32 - 32) with 0 by lia. rewrite (skipn_all2 A) by lia. reflexivity. }
  rewrite F, K, L, (skipn_all2 old) by lia. rewrite app_nil_r. reflexivity.
Qed.
Theorem C120_25519_short_file : forall old s, ok25519 old -> (length s < 32)%nat ->
  read25519 old s = (s ++ skipn (length s) old, []) /\ length (fst (read25519 old s)) = 32%nat.
Proof.
  intros old s [LO _] L. unfold read25519. rewrite (firstn_all2 s), (skipn_all2 s) by lia. split; [reflexivity|].
  cbn [fst]. rewrite app_length, skipn_length. lia.
Qed.

(** ** instances: three points in two buckets, one inserted twice, with a rehash to four buckets after the second *)
Definition len_hash (s : list N) : N := fold_right N.add 0%N s.
Definition grow2 (k : nat) : option nat := if (k =? 1)%nat then Some 3%nat else None.
Definition pts (l : list Z) : list (pt G11) := map (pmul G11 (pgen G11)) l.
Example C120_run : indication_bits (peqb G11) (ECPointHash G11 len_hash) grow2 1 (pts [3; 5; 3; 7]%Z) (pts [5; 4; 7; 3; 0]%Z) = [1; 0; 1; 1; 0]%N /\
  map (@length _) (set_from (peqb G11) (ECPointHash G11 len_hash) grow2 1 (pts [3; 5; 3; 7]%Z)) = [0; 2; 0; 1].
Proof. vm_compute. split; reflexivity. Qed.
Example C120_order_run : ECPoint_Lexical_Compare G11 (pmul G11 (pgen G11) 3) (pmul G11 (pgen G11) 5) = true /\
  string_lt [7]%N [7; 0]%N = true /\ string_lt [200]%N [127]%N = false.
Proof. vm_compute. repeat split. Qed.
Example C120_file_run : ok25519 (repeat 7%N 32) /\ read25519 (repeat 48%N 32) (write25519 (repeat 7%N 32) ++ [1; 2]%N) = (repeat 7%N 32, [1; 2]%N) /\
  fst (read25519 (repeat 48%N 32) [1; 2]%N) = [1; 2]%N ++ repeat 48%N 30.
Proof. split; [split; [reflexivity|repeat constructor]|]. vm_compute. split; reflexivity. Qed.

Print Assumptions C120_point_set.
Print Assumptions C120_bits.
Print Assumptions C120_string_set.
Print Assumptions C120_hash_equal.
Print Assumptions C120_25519_set.
Print Assumptions C120_point_order.
Print Assumptions C120_25519_order.
Print Assumptions C120_25519_file.
Print Assumptions C120_25519_short_file.

(** Lemmas about the names of the files of the discrete-log table. *)
From Coq Require Import NArith ZArith List Lia Bool Arith String Ascii DecimalString DecimalNat Permutation.
From Coq Require Import ZifyBool ZifyNat ZifyN.
From Verif.Base Require Import Words.
From Verif.Group Require Import ECModel ECProofs.
From Verif.PKE Require Import DlogModel DlogSpec DlogProofs ElGamalProofs TableNameModel.
Import ListNotations.
Local Open Scope string_scope.

(** ** strings *)
Lemma app_assoc_s : forall a b c : string, (a ++ b) ++ c = a ++ (b ++ c).
Proof. induction a; intros b c; cbn; [reflexivity|]. f_equal. apply IHa. Qed.
Lemma app_length_s : forall a b : string, String.length (a ++ b) = String.length a + String.length b.
Proof. induction a; intros b; cbn; [reflexivity|]. f_equal. apply IHa. Qed.
Lemma app_inj_s : forall a a' b b' : string, String.length a = String.length a' ->
  a ++ b = a' ++ b' -> a = a' /\ b = b'.
Proof.
  induction a; intros [|c a'] b b' L E; cbn in *; try discriminate L; [split; [reflexivity|exact E]|].
  injection L as L. injection E as -> E. destruct (IHa _ _ _ L E) as [-> ->]. split; reflexivity.
Qed.
Lemma substring_0 : forall b, substring 0 0 b = "".
Proof. destruct b; reflexivity. Qed.
Lemma substring_app : forall a b n, substring 0 (String.length a + n) (a ++ b) = a ++ substring 0 n b.
Proof. induction a; intros b n; cbn [String.length append Nat.add]; [reflexivity|]. cbn [substring]. f_equal. apply IHa. Qed.
Lemma substring_exact : forall a b, substring 0 (String.length a) (a ++ b) = a.
Proof.
  intros a b. rewrite <- (Nat.add_0_r (String.length a)), substring_app, substring_0.
  induction a; cbn; [reflexivity|]. f_equal. exact IHa.
Qed.
Lemma substring_length : forall s n, n <= String.length s -> String.length (substring 0 n s) = n.
Proof.
  induction s; intros [|n] L; cbn in *; try reflexivity; try lia. f_equal. apply IHs. lia.
Qed.

(** ** hexadecimal digits *)
Definition all_bytes : list N := map N.of_nat (seq 0 256).
Lemma in_all_bytes : forall c, (c < 256)%N -> In c all_bytes.
Proof. intros c L. apply in_map_iff. exists (N.to_nat c). split; [lia|]. apply in_seq. lia. Qed.
Lemma char_cases : forall c, (c < 256)%N -> let l := String.length (print_hex (int_of_char c)) in
  1 <= l /\ ((16 <= c < 128)%N -> l = 2) /\ ((128 <= c)%N -> l = 8).
Proof.
  assert (F : forallb (fun c => let l := String.length (print_hex (int_of_char c)) in
     (1 <=? l) && (negb ((16 <=? c) && (c <? 128))%N || (l =? 2)) && (negb (128 <=? c)%N || (l =? 8)))%nat all_bytes = true)
    by (vm_compute; reflexivity).
  intros c L. rewrite forallb_forall in F. specialize (F c (in_all_bytes c L)). cbv zeta in F |- *.
  set (l := String.length _) in *. lia.
Qed.
(** reading two digits back *)
Definition digit_val (c : ascii) : N := let n := N_of_ascii c in if (n <? 58)%N then (n - 48)%N else (n - 55)%N.
Definition decode (s : string) : N :=
  match s with String a (String b _) => (16 * digit_val a + digit_val b)%N | _ => 0%N end.
Lemma char_inj : forall c c', (16 <= c < 128)%N -> (16 <= c' < 128)%N ->
  print_hex (int_of_char c) = print_hex (int_of_char c') -> c = c'.
Proof.
  assert (F : forallb (fun c => (negb ((16 <=? c) && (c <? 128)) || (decode (print_hex (int_of_char c)) =? c))%N) all_bytes = true)
    by (vm_compute; reflexivity).
  intros c c' L L' E. rewrite forallb_forall in F.
  pose proof (F c (in_all_bytes c ltac:(lia))) as F1. pose proof (F c' (in_all_bytes c' ltac:(lia))) as F2.
  rewrite E in F1. lia.
Qed.
Lemma ToHex_app : forall a b, ToHexString (a ++ b)%list = ToHexString a ++ ToHexString b.
Proof.
  induction a; intros b; [reflexivity|]. cbn [List.app ToHexString fold_right].
  change (fold_right _ "" (a0 ++ b)%list) with (ToHexString (a0 ++ b)%list).
  change (fold_right _ "" a0) with (ToHexString a0). rewrite IHa, app_assoc_s. reflexivity.
Qed.
Lemma ToHex_length : forall bs, bytes_ok bs -> List.length bs <= String.length (ToHexString bs).
Proof.
  induction bs; intros B; [apply Nat.le_0_l|]. inversion B; subst.
  cbn [List.length ToHexString fold_right]. change (fold_right _ "" bs) with (ToHexString bs).
  rewrite app_length_s. destruct (char_cases a ltac:(assumption)) as [L _]. specialize (IHbs ltac:(assumption)). lia.
Qed.
Definition two_digits (c : N) : Prop := (16 <= c < 128)%N.
Lemma ToHex_two : forall bs, Forall two_digits bs -> String.length (ToHexString bs) = 2 * List.length bs.
Proof.
  induction bs; intros B; [reflexivity|]. inversion B as [|? ? T B']; subst.
  cbn [List.length ToHexString fold_right]. change (fold_right _ "" bs) with (ToHexString bs).
  unfold two_digits in T. rewrite app_length_s, IHbs by assumption.
  destruct (char_cases a ltac:(lia)) as [_ [L _]]. specialize (L T). lia.
Qed.
Lemma ToHex_two_inj : forall bs bs', Forall two_digits bs -> Forall two_digits bs' -> List.length bs = List.length bs' ->
  ToHexString bs = ToHexString bs' -> bs = bs'.
Proof.
  induction bs; intros [|c bs'] B B' L E; try discriminate L; [reflexivity|].
  inversion B as [|? ? T1 B1]; subst. inversion B' as [|? ? T2 B2]; subst. unfold two_digits in T1, T2.
  destruct (char_cases a ltac:(lia)) as [_ [L1 _]]. destruct (char_cases c ltac:(lia)) as [_ [L2 _]].
  cbn [ToHexString fold_right] in E. change (fold_right _ "" bs) with (ToHexString bs) in E.
  change (fold_right _ "" bs') with (ToHexString bs') in E.
  apply app_inj_s in E; [|rewrite (L1 T1), (L2 T2); reflexivity]. destruct E as [E1 E2].
  f_equal; [apply char_inj; [lia|lia|exact E1]|apply IHbs; auto].
Qed.

(** ** decimal numbers *)
Lemma uint_sep : forall d d' s s', NilEmpty.string_of_uint d ++ String "," s = NilEmpty.string_of_uint d' ++ String "," s' ->
  d = d' /\ s = s'.
Proof.
  induction d; destruct d'; intros s s' E; cbn in E; try discriminate E; injection E as E;
    try (split; [reflexivity|exact E]); destruct (IHd _ _ _ E) as [-> ->]; split; reflexivity.
Qed.
Lemma to_string_sep : forall n n' s s', to_string n ++ String "," s = to_string n' ++ String "," s' -> n = n' /\ s = s'.
Proof.
  intros n n' s s' E. apply uint_sep in E. destruct E as [E ->]. split; [|reflexivity].
  apply Unsigned.to_uint_inj. exact E.
Qed.

(** ** names *)
Definition digest_ok (d : list N) : Prop := List.length d = 32 /\ bytes_ok d.
Lemma suffix_length : forall d, digest_ok d -> String.length (substring 0 16 (ToHexString d)) = 16.
Proof. intros d [L B]. apply substring_length. pose proof (ToHex_length d B). lia. Qed.
Lemma name_inj : forall d R T d' R' T', digest_ok d -> digest_ok d' ->
  GetTableFileName d R T = GetTableFileName d' R' T' ->
  substring 0 16 (ToHexString d) = substring 0 16 (ToHexString d') /\ R = R' /\ T = T'.
Proof.
  intros d R T d' R' T' O O' E. unfold GetTableFileName in E.
  apply app_inj_s in E; [|rewrite !suffix_length by assumption; reflexivity]. destruct E as [E1 E].
  split; [exact E1|]. cbn [append] in E. injection E as E.
  apply to_string_sep in E. destruct E as [-> E]. injection E as E.
  apply to_string_sep in E. destruct E as [E2 _]. split; [reflexivity|lia].
Qed.

(** ** the directory *)
Section Disk.
Variable G : ECGroup.
Variable key : pt G -> N.
Variable digest : pt G -> list N.
Hypothesis key64 : forall P, (key P < 2 ^ 64)%N.

(** every file was written by a run for some base and parameters *)
Definition file_of (base : pt G) (R T : nat) (c : list N) : Prop :=
  exists garbage bs, List.length garbage = 65 /\ build_schedule bs /\ c = table_file G key garbage base R T bs.

Lemma write_same : forall d n c, write_file d n c n = Some c.
Proof. intros d n c. unfold write_file. rewrite String.eqb_refl. reflexivity. Qed.

(** a run in a new process, by cases on the directory *)
Lemma Init_cases : forall gb bs d base R T d' st',
  InitializeOnDisk G key digest gb bs d (dstate0 G) base R T = Some (d', st') ->
  CheckDlogParameters R T = true /\
  ((exists c, d (GetTableFileName (digest base) R T) = Some c /\ d' = d /\ LoadTable G (dstate0 G) c R T = Some st') \/
   (d (GetTableFileName (digest base) R T) = None /\
    d' = write_file d (GetTableFileName (digest base) R T) (table_file G key gb base R T bs) /\
    (let '(st1, content) := BuildSaveTable G key gb (dstate0 G) base R T bs in LoadTable G st1 content R T) = Some st')).
Proof.
  intros gb bs d base R T d' st' E. unfold InitializeOnDisk in E.
  destruct (CheckDlogParameters R T) eqn:C; [|discriminate]. split; [reflexivity|].
  destruct (d (GetTableFileName (digest base) R T)) as [c|] eqn:D.
  - rewrite D in E. left. exists c. destruct (LoadTable G (dstate0 G) c R T) eqn:L; [|discriminate].
    split; [reflexivity|]. split; congruence.
  - right. split; [reflexivity|]. unfold BuildSaveTable in *. rewrite write_same in E.
    destruct (LoadTable G _ _ R T) eqn:L; [|discriminate]. split; congruence.
Qed.
End Disk.

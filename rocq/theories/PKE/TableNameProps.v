(** Property C109: a process reads the table of its own base. *)
From Coq Require Import NArith ZArith List Lia Bool Arith String Ascii Permutation.
From Coq Require Import ZifyBool ZifyNat ZifyN.
From Verif.Base Require Import Words ListX.
From Verif.Crypto Require Import BigIntModel BigIntSpec BigIntProofs.
From Verif.Group Require Import ECModel ECProofs ZqGroup.
From Verif.PKE Require Import DlogModel DlogSpec DlogProofs DlogProps ElGamalProofs TableNameModel TableNameProofs.
Import ListNotations.
Local Open Scope string_scope.

(** ** Names *)
(** Different parameters never share a name, whatever the bases. *)
Theorem C109_parameters : forall d R T d' R' T', digest_ok d -> digest_ok d' ->
  GetTableFileName d R T = GetTableFileName d' R' T' -> R = R' /\ T = T'.
Proof. intros d R T d' R' T' O O' E. apply (name_inj d R T d' R' T' O O') in E. apply E. Qed.
Print Assumptions C109_parameters.

(** Bases whose digests start with eight bytes of two digits each share a name only if these bytes
    are the same. *)
Theorem C109_two_digits_partial : forall d d' R T R' T', digest_ok d -> digest_ok d' ->
  (forall i, i < 8 -> (16 <= nth i d 0 < 128)%N) -> (forall i, i < 8 -> (16 <= nth i d' 0 < 128)%N) ->
  GetTableFileName d R T = GetTableFileName d' R' T' <-> firstn 8 d = firstn 8 d' /\ R = R' /\ T = T'.
Proof.
  intros d d' R T R' T' O O' H H'.
  assert (P : forall d, digest_ok d -> (forall i, i < 8 -> (16 <= nth i d 0 < 128)%N) ->
            Forall two_digits (firstn 8 d) /\ List.length (firstn 8 d) = 8 /\
            substring 0 16 (ToHexString d) = ToHexString (firstn 8 d)).
  { clear. intros d [L B] H.
    assert (F : Forall two_digits (firstn 8 d)).
    { apply Forall_forall. intros c I. apply (In_nth _ _ 0%N) in I. destruct I as (i & Li & <-).
      rewrite firstn_length in Li. unfold two_digits.
      rewrite nth_firstn_lt by lia. apply H. lia. }
    assert (L8 : List.length (firstn 8 d) = 8) by (rewrite firstn_length; lia).
    split; [exact F|]. split; [exact L8|].
    pose proof (ToHex_two _ F) as X. rewrite L8 in X. change (2 * 8) with 16 in X.
    rewrite <- (firstn_skipn 8 d) at 1. rewrite ToHex_app. rewrite <- X. apply substring_exact. }
  destruct (P d O H) as (F & L & S). destruct (P d' O' H') as (F' & L' & S').
  split.
  - intros E. apply (name_inj d R T d' R' T' O O') in E. destruct E as (E & -> & ->).
    rewrite S, S' in E. split; [|split; reflexivity].
    apply ToHex_two_inj; try assumption. congruence.
  - intros (E & -> & ->). unfold GetTableFileName. rewrite S, S', E. reflexivity.
Qed.
Print Assumptions C109_two_digits_partial.

(** Where the first two bytes are at least 128 the name says nothing of the other thirty. *)
Theorem C109_high_bytes_refuted : forall a b rest rest' R T,
  (128 <= a < 256)%N -> (128 <= b < 256)%N ->
  GetTableFileName (a :: b :: rest) R T = GetTableFileName (a :: b :: rest') R T.
Proof.
  intros a b rest rest' R T Ha Hb. unfold GetTableFileName. f_equal.
  destruct (char_cases a ltac:(lia)) as (_ & _ & La). destruct (char_cases b ltac:(lia)) as (_ & _ & Lb).
  assert (X : forall r, substring 0 16 (ToHexString (a :: b :: r)) = print_hex (int_of_char a) ++ print_hex (int_of_char b)).
  { intros r. change (ToHexString (a :: b :: r)) with (print_hex (int_of_char a) ++ (print_hex (int_of_char b) ++ ToHexString r)).
    rewrite <- app_assoc_s.
    replace 16 with (String.length (print_hex (int_of_char a) ++ print_hex (int_of_char b)))
      by (rewrite app_length_s, La, Lb by lia; reflexivity).
    apply substring_exact. }
  rewrite !X. reflexivity.
Qed.
Print Assumptions C109_high_bytes_refuted.

(** Bytes below 16 are printed with one digit, so that digits move between bytes. *)
Theorem C109_low_bytes_refuted : forall a b c rest R T, (1 <= a < 8)%N -> (1 <= b < 8)%N -> (c < 16)%N ->
  GetTableFileName (a :: (16 * b + c) :: rest)%N R T = GetTableFileName ((16 * a + b) :: c :: rest)%N R T.
Proof.
  intros a b c rest R T Ha Hb Hc.
  assert (F : forallb (fun a => forallb (fun b => forallb (fun c =>
     ((a =? 0) || (8 <=? a) || (b =? 0) || (8 <=? b))%N ||
     String.eqb (print_hex (int_of_char a) ++ print_hex (int_of_char (16 * b + c)))
                (print_hex (int_of_char (16 * a + b)) ++ print_hex (int_of_char c)))%bool
     (map N.of_nat (seq 0 16))) (map N.of_nat (seq 0 16))) (map N.of_nat (seq 0 16)) = true)
    by (vm_compute; reflexivity).
  assert (I : forall x, (x < 16)%N -> In x (map N.of_nat (seq 0 16))).
  { intros x L. apply in_map_iff. exists (N.to_nat x). split; [lia|]. apply in_seq. lia. }
  rewrite forallb_forall in F. specialize (F a (I a ltac:(lia))).
  rewrite forallb_forall in F. specialize (F b (I b ltac:(lia))).
  rewrite forallb_forall in F. specialize (F c (I c ltac:(lia))).
  apply orb_true_iff in F. destruct F as [F|F]; [lia|]. apply String.eqb_eq in F.
  unfold GetTableFileName. f_equal. f_equal.
  change (print_hex (int_of_char a) ++ (print_hex (int_of_char (16 * b + c)) ++ ToHexString rest) =
          print_hex (int_of_char (16 * a + b)) ++ (print_hex (int_of_char c) ++ ToHexString rest)).
  rewrite <- !app_assoc_s, F. reflexivity.
Qed.
Print Assumptions C109_low_bytes_refuted.

(** ** Processes *)
Section Disk.
Variable G : ECGroup.
Variable key : pt G -> N.
Variable digest : pt G -> list N.

(** The directory after a history of processes, each of which starts with no table in memory and
    initialises one of the schemes for a base and parameters; the directory is empty at first. *)
Inductive history : list (pt G * nat * nat) -> disk -> Prop :=
| h_start : history [] (fun _ => None)
| h_run : forall l d garbage bs base R T d' st',
    history l d -> List.length garbage = 65 -> build_schedule bs ->
    InitializeOnDisk G key digest garbage bs d (dstate0 G) base R T = Some (d', st') ->
    history ((base, R, T) :: l) d'.

(** every file of the directory is the table of one of the processes with that name *)
Lemma history_files : forall l d, history l d -> forall name c, d name = Some c ->
  exists base R T, In (base, R, T) l /\ name = GetTableFileName (digest base) R T /\ file_of G key base R T c.
Proof.
  intros l d H. induction H as [|l d gb bs base R T d' st' H IH Lg P E]; intros name c D; [discriminate|].
  apply Init_cases in E. destruct E as [_ [(c0 & _ & -> & _)|(_ & -> & _)]].
  - destruct (IH _ _ D) as (b & R0 & T0 & I & N & F). exists b, R0, T0. split; [right; exact I|]. split; assumption.
  - unfold write_file in D. destruct (String.eqb_spec name (GetTableFileName (digest base) R T)) as [->|].
    + exists base, R, T. split; [left; reflexivity|]. split; [reflexivity|].
      exists gb, bs. split; [exact Lg|]. split; [exact P|]. congruence.
    + destruct (IH _ _ D) as (b & R0 & T0 & I & N & F). exists b, R0, T0. split; [right; exact I|]. split; assumption.
Qed.

Hypothesis key64 : forall P, (key P < 2 ^ 64)%N.
Hypothesis digest_32 : forall P, digest_ok (digest P).

(** After every history, a process whose base has the digest prefix of no other base searches its
    own base: what is reported is right and what is not reported does not exist. *)
Theorem C109_history_partial : forall l d garbage bs g R T d' st h x0 sched,
  history l d -> List.length garbage = 65 -> build_schedule bs -> good_params G g R T ->
  (forall g' R' T', In (g', R', T') l ->
     GetTableFileName (digest g') R' T' = GetTableFileName (digest g) R T -> g' = g) ->
  InitializeOnDisk G key digest garbage bs d (dstate0 G) g R T = Some (d', st) ->
  keys_separate G key g h R T ->
  finished G (run G key st h R T x0 sched) = true ->
  exists found x, ShanksDLOG G key st h R T x0 sched = Some (found, x) /\
    (found = true -> is_dlog G g h x /\ (0 <= x < covered R T)%Z) /\
    (found = false -> x = x0 /\ forall y, (0 <= y < covered R T)%Z -> ~ is_dlog G g h y).
Proof.
  intros l d gb bs g R T d' st h x0 sched H Lg P (C & F & Cov) U E SEP Fin.
  assert (LD : loaded G key g R T st).
  { apply Init_cases in E. destruct E as [_ [(c & D & _ & E)|(_ & _ & E)]].
    - destruct (history_files _ _ H _ _ D) as (g' & R' & T' & I & N & FO).
      assert (g' = g) by (apply (U g' R' T' I); congruence). subst g'.
      destruct (name_inj _ _ _ _ _ _ (digest_32 g) (digest_32 g) N) as (_ & <- & <-).
      destruct FO as (gb' & bs' & Lg' & P' & ->).
      apply (Init_loaded G key gb bs g R T (Some (table_file G key gb' g R T bs')) st C P Lg key64 F Cov); [|exact E].
      right. exists gb', bs'. split; [exact Lg'|]. split; [exact P'|reflexivity].
    - apply (Init_loaded G key gb bs g R T None st C P Lg key64 F Cov); [left; reflexivity|exact E]. }
  apply (search_correct G key st g h R T x0 (ld_giant _ _ _ _ _ _ LD) (ld_anchors _ _ _ _ _ _ LD)); assumption.
Qed.

(** Two bases of one name: the second process reads the table of the first, and every logarithm it
    reports, except for the identity, is wrong.  It reports one for every power of the first base
    in the range. *)
Theorem C109_other_base_refuted : forall garbage bs garbage' bs' g1 g2 R T d1 st1 d2 st2 h x0 sched,
  good_params G g1 R T -> good_params G g2 R T -> g1 <> g2 ->
  GetTableFileName (digest g1) R T = GetTableFileName (digest g2) R T ->
  List.length garbage = 65 -> build_schedule bs ->
  InitializeOnDisk G key digest garbage bs (fun _ => None) (dstate0 G) g1 R T = Some (d1, st1) ->
  InitializeOnDisk G key digest garbage' bs' d1 (dstate0 G) g2 R T = Some (d2, st2) ->
  keys_separate G key g1 h R T -> h <> inf G ->
  finished G (run G key st2 h R T x0 sched) = true ->
  (forall x, ShanksDLOG G key st2 h R T x0 sched = Some (true, x) -> ~ is_dlog G g2 h x) /\
  (forall y, (0 <= y < covered R T)%Z -> is_dlog G g1 h y ->
     exists x, ShanksDLOG G key st2 h R T x0 sched = Some (true, x)).
Proof.
  intros gb bs gb' bs' g1 g2 R T d1 st1 d2 st2 h x0 sched (C & F & Cov) _ NE N Lg P E1 E2 SEP NI Fin.
  apply Init_cases in E1. destruct E1 as [_ [(c & D & _)|(_ & -> & _)]]; [discriminate D|].
  apply Init_cases in E2. rewrite <- N in E2. destruct E2 as [_ [(c & D & _ & E)|(D & _)]].
  2:{ rewrite write_same in D. discriminate D. }
  rewrite write_same in D.
  assert (LD : loaded G key g1 R T st2).
  { apply (Init_loaded G key gb bs g1 R T (Some c) st2 C P Lg key64 F Cov); [|exact E].
    right. exists gb, bs. split; [exact Lg|]. split; [exact P|]. congruence. }
  destruct (search_correct G key st2 g1 h R T x0 (ld_giant _ _ _ _ _ _ LD) (ld_anchors _ _ _ _ _ _ LD) C LD SEP sched Fin)
    as (found & x & S & S1 & S2).
  split.
  - intros x' E'. rewrite S in E'. assert (found = true) by congruence. assert (x = x') by congruence. subst.
    destruct (S1 eq_refl) as [D1 _]. intros D2. unfold is_dlog in *. apply NE.
    assert (NZ : ~ cong (order G) x' 0).
    { intros Z0. apply NI. rewrite <- D1, (pmul_cong G g1 x' 0 Z0). apply pmul_0. }
    assert (I : forall P, pmul G (pmul G P x') (ModInverse x' (order G)) = P).
    { intros P0. rewrite pmul_mul, (pmul_cong G P0 _ 1 (inv_cong G x' NZ)). apply pmul_1. }
    rewrite <- (I g1), <- (I g2), D1, D2. reflexivity.
  - intros y B D1. exists x. rewrite S. destruct found; [reflexivity|]. destruct (S2 eq_refl) as [_ X].
    destruct (X y B D1).
Qed.
End Disk.
Print Assumptions C109_history_partial.
Print Assumptions C109_other_base_refuted.

(** The hypotheses are met: in a group of 4099 elements with a digest that is different for all
    points and starts with the bytes 200 and 201, the first process has base 1 and the second
    base 2; the second reports a logarithm of 6, which is not the right one. *)
Definition digest4099 (P : pt G4099) : list N := 200%N :: 201%N :: le_bytes 30 (key4099 P).
Definition two4099 : pt G4099 := pmul G4099 (pgen G4099) 2.
Definition point6 : pt G4099 := pmul G4099 (pgen G4099) 6.
Lemma digest4099_ok : forall P, digest_ok (digest4099 P).
Proof.
  intros P. split; [unfold digest4099; cbn [List.length]; rewrite le_bytes_length; reflexivity|].
  constructor; [reflexivity|]. constructor; [reflexivity|]. apply le_bytes_ok.
Qed.
Lemma digest4099_inj : forall P Q, digest4099 P = digest4099 Q -> P = Q.
Proof.
  intros P Q E. apply key4099_inj. unfold digest4099 in E.
  assert (X : le_bytes 30 (key4099 P) = le_bytes 30 (key4099 Q)) by congruence.
  apply (f_equal le_val) in X.
  assert (M : (2 ^ 64 <= 2 ^ (8 * N.of_nat 30))%N) by (vm_compute; discriminate).
  rewrite !le_val_bytes in X; [exact X| |]; (eapply N.lt_le_trans; [apply key4099_64|exact M]).
Qed.
Example C109_hypotheses : exists d1 st1 d2 st2 x,
  (forall P Q, digest4099 P = digest4099 Q -> P = Q) /\
  history G4099 key4099 digest4099 [(two4099, 12, 0); (pgen G4099, 12, 0)] d2 /\
  InitializeOnDisk G4099 key4099 digest4099 (repeat 7%N 65) (seq 0 BUILD_TASK_NUM) (fun _ => None) (dstate0 G4099) (pgen G4099) 12 0
    = Some (d1, st1) /\
  InitializeOnDisk G4099 key4099 digest4099 (repeat 7%N 65) (seq 0 BUILD_TASK_NUM) d1 (dstate0 G4099) two4099 12 0
    = Some (d2, st2) /\
  is_dlog G4099 two4099 point6 3 /\
  ShanksDLOG G4099 key4099 st2 point6 12 0 0%Z round_robin = Some (true, x) /\ ~ is_dlog G4099 two4099 point6 x.
Proof.
  pose proof (params_4099 (pgen G4099) (pgen_finite G4099)) as GP.
  assert (F2 : two4099 <> inf G4099).
  { intros E. apply (f_equal (@proj1_sig _ _)) in E. vm_compute in E. discriminate E. }
  pose proof (params_4099 two4099 F2) as GP2.
  assert (BS : build_schedule (seq 0 BUILD_TASK_NUM)) by apply Permutation_refl.
  set (gb := repeat 7%N 65). assert (Lg : List.length gb = 65) by reflexivity.
  set (sch := seq 0 BUILD_TASK_NUM) in *.
  set (name := GetTableFileName (digest4099 (pgen G4099)) 12 0).
  assert (N2 : GetTableFileName (digest4099 two4099) 12 0 = name).
  { unfold name, digest4099. apply C109_high_bytes_refuted; lia. }
  set (file := table_file G4099 key4099 gb (pgen G4099) 12 0 sch).
  set (d1 := write_file (fun _ => None) name file).
  destruct (C27_load_succeeds G4099 key4099 key4099_64 (pgen G4099) 12 0 gb sch GP Lg BS) as [st2 E2].
  assert (L1 : exists st1, LoadTable G4099 (fst (BuildSaveTable G4099 key4099 gb (dstate0 G4099) (pgen G4099) 12 0 sch)) file 12 0 = Some st1).
  { destruct GP as (C & F & Cov). eexists. apply LoadTable_build; auto; [apply key4099_64|]. unfold anchor0_ok, BuildSaveTable. cbn [anchors fst]. unfold anchors_of, SEARCH_TASK_NUM, LOG_TASK_NUM.
    cbn [Nat.pow Nat.mul Nat.add seq map]. apply pmul_0. }
  destruct L1 as [st1 E1].
  assert (I1 : InitializeOnDisk G4099 key4099 digest4099 gb sch (fun _ => None) (dstate0 G4099) (pgen G4099) 12 0 = Some (d1, st1)).
  { unfold InitializeOnDisk. change (CheckDlogParameters 12 0) with true. cbv iota zeta.
    fold name. unfold BuildSaveTable. fold file. fold d1. unfold d1 at 1. rewrite write_same.
    unfold BuildSaveTable in E1. cbn [fst] in E1. rewrite E1. reflexivity. }
  assert (I2 : InitializeOnDisk G4099 key4099 digest4099 gb sch d1 (dstate0 G4099) two4099 12 0 = Some (d1, st2)).
  { unfold InitializeOnDisk. change (CheckDlogParameters 12 0) with true. cbv iota zeta. rewrite N2.
    assert (D : d1 name = Some file) by apply write_same. rewrite D, D. fold file in E2. rewrite E2. reflexivity. }
  assert (FIN : finished G4099 (run G4099 key4099 st2 point6 12 0 0%Z round_robin) = true)
    by (apply C27_search_terminates; apply round_robin_long).
  destruct (C109_other_base_refuted G4099 key4099 digest4099 key4099_64 gb sch gb sch (pgen G4099) two4099 12 0 d1 st1 d1 st2
              point6 0%Z round_robin GP GP2) as (W & R); auto.
  - intros E. apply (f_equal (@proj1_sig _ _)) in E. vm_compute in E. discriminate E.
  - apply sep_4099.
  - intros E. apply (f_equal (@proj1_sig _ _)) in E. vm_compute in E. discriminate E.
  - destruct (R 6%Z) as [x Sx]; [change (covered 12 0) with 4096%Z; lia|reflexivity|].
    exists d1, st1, d1, st2, x. split; [exact digest4099_inj|]. split.
    + eapply h_run; [|exact Lg|exact BS|exact I2]. eapply h_run; [|exact Lg|exact BS|exact I1]. apply h_start.
    + split; [exact I1|]. split; [exact I2|]. split; [apply Zq_ext; vm_compute; reflexivity|].
      split; [exact Sx|]. apply W. exact Sx.
Qed.

(** Every step of MurmurHash64A is a bijection of the 64-bit words. *)
From Coq Require Import NArith ZArith List Bool Lia Arith.
From Coq Require Import ZifyBool ZifyNat ZifyN.
From Verif.Base Require Import Words.
From Verif.Utility Require Import Murmur2Model.
Import ListNotations.
Local Open Scope N_scope.

Definition w64 (x : N) : Prop := x < 2 ^ 64.
(** [f] is a bijection of the 64-bit words with inverse [g]. *)
Definition inverse (f g : N -> N) : Prop :=
  forall x, w64 x -> w64 (f x) /\ w64 (g x) /\ g (f x) = x /\ f (g x) = x.

Lemma inverse_comp f g f' g' : inverse f g -> inverse f' g' -> inverse (fun x => f' (f x)) (fun x => g (g' x)).
Proof.
  intros A B x H. destruct (A x H) as (A1 & A2 & A3 & A4). destruct (B x H) as (B1 & B2 & B3 & B4).
  destruct (B (f x) A1) as (C1 & C2 & C3 & C4). destruct (A (g' x) B2) as (D1 & D2 & D3 & D4).
  split; [exact C1|]. split; [exact D2|]. split; [rewrite C3; exact A3|rewrite D4; exact B4].
Qed.
Lemma inverse_id : inverse (fun x => x) (fun x => x).
Proof. intros x H. repeat split; exact H. Qed.
Lemma inverse_ext f g f' : (forall x, f x = f' x) -> inverse f g -> inverse f' g.
Proof. intros E A x H. destruct (A x H) as (A1 & A2 & A3 & A4). rewrite <- !E. auto. Qed.

(** The inverse of the multiplier *)
Definition mm_inv : N := 0x5f7a0ea7e59b19bd.
Lemma mm_inverse : mul64 mm mm_inv = 1. Proof. vm_compute. reflexivity. Qed.
Lemma mul64_lt a b : w64 (mul64 a b). Proof. apply wrap_lt. Qed.
Lemma mul64_assoc a b c : mul64 (mul64 a b) c = mul64 a (mul64 b c).
Proof.
  unfold mul64, wrap64, wrap. rewrite N.mul_mod_idemp_l, N.mul_mod_idemp_r by discriminate.
  rewrite N.mul_assoc. reflexivity.
Qed.
Lemma mul64_1 a : w64 a -> mul64 a 1 = a.
Proof. intros H. unfold mul64. rewrite N.mul_1_r. apply wrap_small. exact H. Qed.
Lemma mul_inverse : inverse (fun x => mul64 x mm) (fun x => mul64 x mm_inv).
Proof.
  intros x H. split; [apply mul64_lt|]. split; [apply mul64_lt|].
  assert (E : mul64 mm_inv mm = 1) by (vm_compute; reflexivity).
  rewrite !mul64_assoc, mm_inverse, E. split; apply mul64_1; exact H.
Qed.
Lemma xor_inverse c : w64 c -> inverse (fun x => N.lxor x c) (fun x => N.lxor x c).
Proof.
  intros C x H. assert (w64 (N.lxor x c)) by (apply lxor_lt; assumption).
  split; [assumption|]. split; [assumption|]. rewrite N.lxor_assoc, N.lxor_nilpotent, N.lxor_0_r. auto.
Qed.
Lemma shift_inverse : inverse (fun x => N.lxor x (N.shiftr x rr)) (fun x => N.lxor x (N.shiftr x rr)).
Proof.
  intros x H.
  assert (S : forall y, w64 y -> w64 (N.shiftr y rr)).
  { intros y Hy. unfold w64 in *. rewrite N.shiftr_div_pow2. eapply N.le_lt_trans; [|exact Hy].
    apply N.div_le_upper_bound; [discriminate|]. change (2 ^ rr) with 0x800000000000. lia. }
  assert (L : w64 (N.lxor x (N.shiftr x rr))) by (apply lxor_lt; [exact H|apply S; exact H]).
  assert (E : N.lxor (N.lxor x (N.shiftr x rr)) (N.shiftr (N.lxor x (N.shiftr x rr)) rr) = x).
  { rewrite N.shiftr_lxor, N.shiftr_shiftr.
    assert (Z : N.shiftr x (rr + rr) = 0).
    { rewrite N.shiftr_div_pow2. apply N.div_small. eapply N.lt_le_trans; [exact H|]. unfold rr. apply N.pow_le_mono_r; [discriminate|lia]. }
    rewrite Z, N.lxor_0_r, N.lxor_assoc, N.lxor_nilpotent. apply N.lxor_0_r. }
  split; [exact L|]. split; [exact L|]. split; exact E.
Qed.

Lemma mix_inverse : exists g, inverse mix g.
Proof.
  eexists. unfold mix.
  exact (inverse_comp _ _ _ _ (inverse_comp _ _ _ _ mul_inverse shift_inverse) mul_inverse).
Qed.
Lemma mix_lt k : w64 (mix k). Proof. apply mul64_lt. Qed.

Lemma skip_twice : forall (A : Type) a b (l : list A), skipn a (skipn b l) = skipn (a + b) l.
Proof.
  intros A a. induction b as [|b IH]; intros l; [rewrite Nat.add_0_r; reflexivity|].
  rewrite Nat.add_succ_r. destruct l; [rewrite !skipn_nil; reflexivity|]. cbn [skipn]. apply IH.
Qed.
Lemma words_data : forall n d h, snd (words n d h) = skipn (8 * n) d.
Proof.
  induction n as [|n IH]; intros d h; [reflexivity|]. cbn [words]. rewrite IH.
  replace (8 * S n)%nat with (8 * n + 8)%nat by lia.
  apply skip_twice.
Qed.
Lemma words_inverse : forall n d, exists g, inverse (fun h => fst (words n d h)) g.
Proof.
  induction n as [|n IH]; intros d.
  - exists (fun x => x). apply inverse_id.
  - destruct (IH (skipn 8 d)) as [g Hg]. eexists. cbn [words].
    exact (inverse_comp _ _ _ _ (inverse_comp _ _ _ _ (xor_inverse _ (mix_lt (le_val (firstn 8 d)))) mul_inverse) Hg).
Qed.
Lemma tail_inverse : forall i d, exists g, inverse (tail i d) g.
Proof.
  intros i d.
  assert (B : forall i, exists g, inverse (tail_bytes i d) g).
  { clear i. induction i as [|i [g Hg]].
    - exists (fun x => x). apply inverse_id.
    - eexists. cbn [tail_bytes].
      exact (inverse_comp _ _ _ _ (xor_inverse _ (wrap_lt 64 (N.shiftl (nth i d 0) (8 * N.of_nat i)))) Hg). }
  destruct i as [|i]; [exists (fun x => x); apply inverse_id|].
  destruct (B (S i)) as [g Hg]. eexists. unfold tail. exact (inverse_comp _ _ _ _ Hg mul_inverse).
Qed.
Lemma finish_inverse : exists g, inverse finish g.
Proof.
  eexists. unfold finish.
  exact (inverse_comp _ _ _ _ (inverse_comp _ _ _ _ shift_inverse mul_inverse) shift_inverse).
Qed.

Lemma words_app : forall n k d h, words (n + k) d h = words k (snd (words n d h)) (fst (words n d h)).
Proof. induction n as [|n IH]; intros k d h; [reflexivity|]. cbn [Nat.add words]. apply IH. Qed.
Lemma words_prefix : forall n d e h, (8 * n <= length d)%nat -> fst (words n (d ++ e) h) = fst (words n d h).
Proof.
  induction n as [|n IH]; intros d e h H; [reflexivity|]. cbn [words].
  rewrite firstn_app, skipn_app. replace (8 - length d)%nat with 0%nat by lia. rewrite firstn_O, app_nil_r. change (skipn 0 e) with e.
  apply IH. rewrite skipn_length. lia.
Qed.
Lemma words_lt : forall n d h, w64 h -> w64 (fst (words n d h)).
Proof. intros n d h H. destruct (words_inverse n d) as [g Hg]. apply (Hg h H). Qed.

(** The hash as a function of one of its words *)
Lemma hash_of_word seed pre post : w64 seed -> Nat.modulo (length pre) 8 = 0%nat ->
  exists f g, inverse f g /\ forall w, length w = 8%nat ->
    MurmurHash64A (pre ++ w ++ post) (length (pre ++ w ++ post)) seed = Some (f (le_val w)).
Proof.
  intros Hs Hp. set (len := (length pre + (8 + length post))%nat).
  set (n := (length pre / 8)%nat).
  assert (Ep : length pre = (8 * n)%nat) by (apply Nat.div_exact; [discriminate|exact Hp]).
  set (h0 := N.lxor seed (mul64 (N.of_nat len) mm)).
  assert (H0 : w64 h0) by (apply lxor_lt; [exact Hs|apply mul64_lt]).
  set (h1 := fst (words n pre h0)). assert (H1 : w64 h1) by (apply words_lt; exact H0).
  set (k := (length post / 8)%nat).
  destruct mix_inverse as [gm Hm]. destruct (words_inverse k post) as [gw Hw].
  destruct (tail_inverse (len mod 8) (skipn (8 * k) post)) as [gt Ht]. destruct finish_inverse as [gf Hf].
  eexists _, _. split.
  - exact (inverse_comp _ _ _ _ (inverse_comp _ _ _ _ (inverse_comp _ _ _ _ (inverse_comp _ _ _ _ (inverse_comp _ _ _ _ Hm
      (xor_inverse h1 H1)) mul_inverse) Hw) Ht) Hf).
  - intros w Lw. unfold MurmurHash64A. rewrite !app_length, Lw. fold len. rewrite Nat.ltb_irrefl. fold h0.
    assert (En : (len / 8)%nat = (n + (1 + k))%nat).
    { unfold len, k. rewrite Ep. replace (8 * n + (8 + length post))%nat with (length post + (n + 1) * 8)%nat by lia.
      rewrite Nat.div_add by discriminate. lia. }
    rewrite En, words_app, words_prefix by lia. fold h1.
    rewrite words_data. rewrite skipn_app, Ep, Nat.sub_diag, skipn_all2 by lia. cbn [app skipn].
    cbn [Nat.add words]. rewrite firstn_app, skipn_app, Lw, Nat.sub_diag. rewrite firstn_all2, skipn_all2 by lia.
    rewrite firstn_O, app_nil_r. cbn [app skipn].
    rewrite (surjective_pairing (words k post _)), words_data. rewrite (N.lxor_comm h1). reflexivity.
Qed.
